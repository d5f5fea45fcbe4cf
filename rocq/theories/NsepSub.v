(** * fnft_nsep, SUBSAMPLE_AND_REFINE and NEWTON end to end (C96): the refinement *)
From Coq Require Import Reals Lra Lia List ZArith QArith Qreals.
From Coquelicot Require Import Coquelicot.
From Verif Require Import Base Loop Mem Fields ErrModel CExp CField CConj CDeriv DiscTables DiscModel DiscProps DiscPreProps DiscPreNse PolySpec MatSpec FscatterSpec FscatterModel FscatterProof FscatterProps
  ScatterSpec ScatterModel MatExp ScatterProof ScatterLoop ScatterRun ScatterProps ScatterMatProps ScatterNse NsevSpec NsevModel NsevProps NsevSafe NsevSafe2 NsevSafe3 NftSpec NsevFast NsevLib NsevCs NsevCsTop NsepModel NsepSpec NsepNewton NsepSafe NsepSafe2 NsepSafe3 NsepTop.
From Verif Require Import NsepFloq NsepGrid NsepGridTop NsevNc.
Import ListNotations.
Local Close Scope Q_scope.
Local Open Scope C_scope.

(** ** Inversion of a successful refinement: only the values at the points that are evaluated matter *)
Section Inv.
Variables (f f' : C -> C) (F : C -> out (Z + C * C)) (tol : xreal) (bb : xbox).
Hypothesis HF : forall x a b, F x = Ret (inr (a, b)) -> a = f x /\ b = f' x.
Hypothesis HE : forall x c, F x = Ret (inl c) -> c <> SUCCESS.

Lemma try_steps_inv z m nf nfp n : try_steps F 2 1 z (f z / f' z) tol None 1 (f z) (f' z) = Ret (inr (m, nf, nfp, n)) ->
  best_order f f' tol z m /\ nf = f (trial f f' z m) /\ nfp = f' (trial f f' z m) /\ n = evals f f' tol z.
Proof.
  cbn [try_steps]. fold (trial f f' z 1) (trial f f' z 2). unfold evals, best_order. intros H. inv_bind H. destruct x as [c|[a b]]; [discriminate H|].
  apply HF in Hx. destruct Hx as [-> ->].
  destruct (xlt (Fin (Cmod (f (trial f f' z 1)))) tol) eqn:E1.
  - injection H as <- <- <- <-. split; [left; auto|auto].
  - inv_bind H. inv_bind Hx. destruct x0 as [c|[a b]]; [injection Hx as <-; discriminate H|]. apply HF in Hx0. destruct Hx0 as [-> ->].
    destruct (Rlt_dec (Cmod (f (trial f f' z 2))) (Cmod (f (trial f f' z 1)))) as [Hl|Hl].
    + destruct (xlt (Fin (Cmod (f (trial f f' z 2)))) tol); [injection Hx as <-; injection H as <- <- <- <-|cbn [bind] in Hx; injection Hx as <-; injection H as <- <- <- <-];
        (split; [right; auto|auto]).
    + cbn [bind] in Hx. injection Hx as <-. injection H as <- <- <- <-. split; [left; split; [reflexivity|right; lra]|auto].
Qed.
Lemma try_steps_err z c n : try_steps F 2 1 z (f z / f' z) tol None 1 (f z) (f' z) = Ret (inl (c, n)) -> c <> SUCCESS.
Proof.
  cbn [try_steps]. intros H. inv_bind H. destruct x as [c1|[a b]]; [injection H as <- _; eapply HE; exact Hx|].
  destruct (xlt (Fin (Cmod a)) tol); [discriminate H|]. inv_bind H. inv_bind Hx0. destruct x0 as [c1|[a1 b1]].
  - injection Hx0 as <-. injection H as <- _. eapply HE; exact Hx1.
  - destruct (if Rlt_dec (Cmod a1) (Cmod a) then true else false); [destruct (xlt (Fin (Cmod a1)) tol)|]; cbn [bind] in Hx0; injection Hx0 as <-; discriminate H.
Qed.

Lemma main_loop_inv : forall fuel nevals max_evals z y n, (1 <= nevals)%nat ->
  main_loop F fuel nevals max_evals tol bb z (f z) (f' z) = Ret (SUCCESS, y, n) -> refines f f' tol bb (max_evals + 1 - nevals) SUCCESS z y n.
Proof.
  induction fuel as [|fuel IH]; intros nevals max_evals z y n Hn H; cbn [main_loop] in H.
  - destruct (Nat.leb_spec nevals max_evals); cbn [negb] in H; [discriminate H|]. replace (max_evals + 1 - nevals)%nat with O by lia. injection H as <- <-. constructor.
  - destruct (Nat.leb_spec nevals max_evals) as [Hle|Hgt]; cbn [negb] in H.
    2:{ replace (max_evals + 1 - nevals)%nat with O by lia. injection H as <- <-. constructor. }
    replace (max_evals + 1 - nevals)%nat with (S (max_evals - nevals)) by lia.
    destruct (ceq (f' z) 0) eqn:E0; [discriminate H|]. apply ceq_false in E0. inv_bind H. destruct x as [[c k]|[[[m nf] nfp] k]].
    { injection H as -> _ _. now apply try_steps_err in Hx. }
    apply try_steps_inv in Hx. destruct Hx as (Hm & -> & -> & ->).
    change (z - RtoC (INR m) * (f z / f' z)) with (trial f f' z m) in H.
    destruct (xsmall _ tol || xsmall _ tol) eqn:Ec.
    + assert (Hc : converged f f' tol z m) by (apply orb_true_iff in Ec; exact Ec).
      destruct (ceq (f' (trial f f' z m)) 0) eqn:E1; [discriminate H|]. apply ceq_false in E1. injection H as <- <-. rewrite <- trial_one. now apply rf_converged.
    + assert (Hc : ~ converged f f' tol z m).
      { apply orb_false_iff in Ec. unfold xsmall in Ec. intros [X|X]; rewrite X in Ec; destruct Ec; discriminate. }
      destruct (in_boxb bb (trial f f' z m)) eqn:Eb; cbn [negb] in H.
      * apply in_boxb_spec in Eb. pose proof (evals_bound f f' tol z). inv_bind H. destruct x as [[c y'] k]. injection H as -> -> <-.
        apply IH in Hx; [|lia]. apply rf_step with (m := m); auto.
        replace (S (max_evals - nevals) - evals f f' tol z)%nat with (max_evals + 1 - (nevals + evals f f' tol z))%nat by lia. exact Hx.
      * assert (Hb : ~ within bb (trial f f' z m)) by (intros X; apply in_boxb_spec in X; congruence).
        injection H as <- <-. now apply rf_outside.
Qed.
Lemma refine_main_point_inv max_evals z y n : refine_main_point F max_evals tol bb z = Ret (SUCCESS, y, n) -> refines f f' tol bb max_evals SUCCESS z y (n - 1).
Proof.
  unfold refine_main_point. intros H. inv_bind H. destruct x as [c|[a b]]. { injection H as -> _ _. now apply HE in Hx. }
  apply HF in Hx. destruct Hx as [-> ->]. inv_bind H. destruct x as [[c y'] k]. injection H as -> -> <-. apply main_loop_inv in Hx; [|lia].
  cbn [Nat.sub]. rewrite Nat.sub_0_r. now replace (max_evals + 1 - 1)%nat with max_evals in Hx by lia.
Qed.
Lemma refine_aux_point_inv : forall max_evals z y k, refine_aux_point F max_evals tol bb z = Ret (SUCCESS, y, k) ->
  exists n, y = newton_iterate f f' n z /\ (n <= max_evals)%nat /\ aux_ends f f' tol bb max_evals z n SUCCESS.
Proof.
  induction max_evals as [|m IH]; intros z y k H; cbn [refine_aux_point] in H.
  - injection H as <- _. exists O. split; [reflexivity|]. split; [lia|]. now apply ae_all.
  - inv_bind H. destruct x as [c|[a b]]. { injection H as -> _ _. now apply HE in Hx. }
    apply HF in Hx. destruct Hx as [-> ->]. destruct (ceq (f' z) 0); [discriminate H|].
    destruct (xsmall _ tol || xsmall _ tol) eqn:Ec.
    { injection H as <- _. exists 1%nat. split; [reflexivity|]. split; [lia|]. apply orb_true_iff in Ec. apply (ae_small _ _ _ _ _ _ _ O); auto. }
    destruct (in_boxb bb (z - f z / f' z)) eqn:Eb; cbn [negb] in H.
    + inv_bind H. destruct x as [[c y'] j]. injection H as -> -> _. destruct (IH _ _ _ Hx) as (n & -> & Hn & He). exists (S n). rewrite newton_iterate_S. split; [reflexivity|]. split; [lia|].
      inversion He as [X|X X2 XC|j0 X X2|j0 X X2]; try discriminate XC.
      * apply ae_all. lia.
      * apply (ae_small _ _ _ _ _ _ _ (S j0)); [lia|]. now rewrite newton_iterate_S.
      * apply (ae_outside _ _ _ _ _ _ _ (S j0)); [lia|]. now rewrite newton_iterate_S.
    + injection H as <- _. exists 1%nat. split; [reflexivity|]. split; [lia|]. apply (ae_outside _ _ _ _ _ _ _ O); [reflexivity|].
      intros Hw. apply in_boxb_spec in Hw. cbn [newton_iterate] in Hw. congruence.
Qed.
End Inv.

(** ** The array of points *)
Lemma refine_points_inv (one : C -> out (Z * C * nat)) (Q : C -> C -> Prop) : (forall z y n, one z = Ret (SUCCESS, y, n) -> Q z y) ->
  forall cnt i arr arr' ns, (i + cnt <= length arr)%nat -> refine_points one cnt i arr = Ret (SUCCESS, arr', ns) ->
  seg i cnt arr arr' /\ forall j, (i <= j < i + cnt)%nat -> Q (nth j arr 0) (nth j arr' 0).
Proof.
  intros HQ. induction cnt as [|k IH]; intros i arr arr' ns L H; cbn [refine_points] in H.
  - injection H as <- _. split; [apply seg_refl|intros; lia].
  - rewrite (aget_nth arr (RtoC 0)) in H by lia. cbn [bind] in H. inv_bind H. destruct x as [[c y] n]. rewrite aset_upd in H by lia. cbn [bind] in H.
    destruct (Z.eqb_spec c SUCCESS) as [->|N]; cbn [negb] in H; [|injection H as -> _ _; contradiction].
    inv_bind H. destruct x as [[c a'] ns']. injection H as -> -> _. apply IH in Hx0; [|rewrite upd_length; lia]. destruct Hx0 as [[S1 S2] HV]. rewrite upd_length in S1.
    assert (Ei : nth i arr' 0 = y).
    { specialize (S2 i ltac:(lia)). apply nth_error_nth with (d := RtoC 0). rewrite S2. rewrite (nth_error_nth' _ (RtoC 0)) by (rewrite upd_length; lia). rewrite nth_upd by lia. now rewrite Nat.eqb_refl. }
    split.
    + split; [exact S1|]. intros j Hj. rewrite S2 by lia. destruct (Nat.lt_ge_cases j (length arr)) as [Hl|Hl].
      * rewrite !(nth_error_nth' _ (RtoC 0)) by (rewrite ?upd_length; lia). rewrite nth_upd by lia. destruct (Nat.eqb_spec j i); [lia|reflexivity].
      * transitivity (@None C); [|symmetry]; apply nth_error_None; rewrite ?upd_length; lia.
    + intros j Hj. destruct (Nat.eq_dec j i) as [->|Nj]. { rewrite Ei. eapply HQ. exact Hx. }
      specialize (HV j ltac:(lia)). rewrite nth_upd in HV by lia. destruct (Nat.eqb_spec j i); [lia|exact HV].
Qed.

(** ** The values that the code uses are those of the monodromy matrix of the slow method d: M(lam) = product of the step matrices *)
Definition regular_at (d : akns_disc) (h : R) (q r : nat -> C) (n : nat) (lam : C) : Prop :=
  forall j, (j < slow_steps d n)%nat -> step_exact d (weights d) (RtoC h) q r j lam /\ core_ok d (weights d) (RtoC h) q r j lam.
Definition dregular_at (d : akns_disc) (h : R) (q r : nat -> C) (n : nat) (lam : C) : Prop :=
  forall j, (j < slow_steps d n)%nat -> dsinc_exact (step_core d (weights d) (RtoC h) q r j lam).
(** F, F' are the function g and its derivative at the regular points, up to a positive scale factor if [scaled] *)
Definition newton_data (scaled : bool) (d : akns_disc) (h : R) (q r : nat -> C) (n : nat) (g F F' : C -> C) : Prop :=
  forall lam, regular_at d h q r n lam -> exists s : R, (0 < s)%R /\ (scaled = false -> s = 1%R) /\
    RtoC s * F lam = g lam /\ (dregular_at d h q r n lam -> Cderive g lam (RtoC s * F' lam)).

Definition first_of (x : out (Z + C * C)) : C := match x with Ret (inr (a, _)) => a | _ => RtoC 0 end.
Definition second_of (x : out (Z + C * C)) : C := match x with Ret (inr (_, b)) => b | _ => RtoC 0 end.
Lemma of_inv (F : C -> out (Z + C * C)) x a b : F x = Ret (inr (a, b)) -> a = first_of (F x) /\ b = second_of (F x).
Proof. now intros ->. Qed.

Section Lib.
Variable L : lib.
Hypothesis HL : lib_ok L.
Variable G : nat -> nat -> list C -> nat -> xreal * xreal -> list C -> out (Z * nat * list C).
Let E := plib_env L G.

Lemma main_f_err s D q r h kappa nd norm rhs x c : main_f E s D q r h kappa nd norm rhs x = Ret (inl c) -> c <> SUCCESS.
Proof.
  unfold main_f. intros H. inv_bind H. destruct x0 as [[code M] W]. destruct (Z.eqb_spec code SUCCESS) as [->|N]; cbn [negb] in H.
  - repeat (inv_bind H). discriminate H.
  - inv_bind H. injection H as <-. unfold E_SUBROUTINE in Hx0. destruct (Z.eqb_spec code INT_MIN); [discriminate Hx0|]. injection Hx0 as <-. unfold SUCCESS in *. lia.
Qed.
Lemma aux_f_err s D q r h kappa nd norm x c : aux_f E s D q r h kappa nd norm x = Ret (inl c) -> c <> SUCCESS.
Proof.
  unfold aux_f. intros H. inv_bind H. destruct x0 as [[code M] W]. destruct (Z.eqb_spec code SUCCESS) as [->|N]; cbn [negb] in H.
  - repeat (inv_bind H). discriminate H.
  - inv_bind H. injection H as <-. unfold E_SUBROUTINE in Hx0. destruct (Z.eqb_spec code INT_MIN); [discriminate Hx0|]. injection Hx0 as <-. unfold SUCCESS in *. lia.
Qed.

(** one evaluation of the monodromy matrix *)
Lemma mono_value s n q r h kappa lam norm nd d : nse_to_akns nd = Some d -> is_slow d -> (1 <= n)%nat -> (n <= length q)%nat -> (n <= length r)%nat -> (0 < h)%R ->
  (kappa = 1 \/ kappa = -1)%Z -> match d with A_ES4 | A_TES4 => (n mod 3 = 0)%nat | _ => True end ->
  regular_at d h (nthC q) (nthC r) n lam ->
  let M lam := scattering d (weights d) h (nthC q) (nthC r) n lam in
  exists res W M', pe_mono E s n q r h kappa lam norm nd = Ret (SUCCESS, res, W) /\ length res = 8%nat /\
    (forall x y, (x < 2)%nat -> (y < 2)%nat -> RtoC (if norm then powerRZ 2 W else 1) * nth (2 * x + y) res 0 = entry (M lam) x y
       /\ RtoC (if norm then powerRZ 2 W else 1) * nth (4 + 2 * x + y) res 0 = entry M' x y) /\
    (dregular_at d h (nthC q) (nthC r) n lam -> Mderive M lam M').
Proof.
  intros Hd Hs Hn Lq Lr Hh Hk H3 Hreg M. cbn [E plib_env pe_mono].
  set (W0 := if norm then Some (l_junkZ L 1) else None).
  assert (HV : valid n q r h 1 [lam] (l_junk L 2 8) W0 d PDE_NSE true).
  { constructor; try assumption; try (cbn; lia).
    - rewrite (lk_junk L HL). lia.
    - unfold W0. destruct norm; [rewrite (lk_junkZ L HL); lia|exact I].
    - now left.
    - intros _ i j Hi Hj. replace i with 0%nat by lia. cbn [nth]. now apply Hreg. }
  destruct (akns_scatter_matrix_product _ _ _ _ _ _ _ _ _ _ false _ HV) as (res' & W' & E1 & Lres & HW & X3 & X4 & HB).
destruct (HB 0%nat ltac:(lia)) as (V & V' & HVs & Hb). cbn [nth] in HVs, Hb.
  assert (EV : forall j, (j < slow_steps d n)%nat -> V j = slow_step d (weights d) (RtoC h) (nthC q) (nthC r) j lam).
  { intros j Hj. apply step_value; [apply HVs; exact Hj|]. now apply Hreg. }
  assert (ED : descending (slow_steps d n) V = M lam).
  { unfold M, scattering. assert (N0 : akns_degree d = O) by (destruct Hs as [->|[->|[->|[->|[->|[->| ->]]]]]]; reflexivity). rewrite N0. apply descending_ext. exact EV. }
  rewrite based_nse, ED in Hb.
  assert (EB : dbased PDE_NSE false lam (M lam) (propagated (slow_steps d n) V V') = propagated (slow_steps d n) V V').
  { generalize (M lam) as X, (propagated (slow_steps d n) V V') as Y. intros X Y.
    assert (E0 : minv mone = mone) by (unfold minv, mdet, mone, mscal; cbn; apply mat2_eq; cbn; field; exact C1_nz).
    unfold dbased, dminvP. cbn [basisP dbasisP]. rewrite E0. unfold mopp. mring. }
  rewrite EB in Hb.
  rewrite (nse_scatter_matrix_is_akns _ _ _ _ kappa _ _ _ _ nd d 1%nat SUCCESS _ _ Hn Hh Hk (le_n 1) Hd E1) by discriminate.
  cbn [bind or_nil]. change (outcome_code SUCCESS) with SUCCESS.
  exists res', (nth 0 (or_nil W') 0%Z), (propagated (slow_steps d n) V V'). split; [reflexivity|]. split; [rewrite Lres; apply (lk_junk L HL)|]. split.
  - intros x y Hx Hy. specialize (Hb x y Hx Hy). cbn [Nat.mul Nat.add] in Hb. destruct Hb as [B1 B2]. specialize (B2 eq_refl).
    assert (EW : (if norm then powerRZ 2 (nth 0 (or_nil W') 0%Z) else 1%R) = powerRZ 2 (WI W' 0)).
    { unfold W0 in HW. destruct norm, W' as [w|]; try discriminate HW; reflexivity. }
    rewrite EW. split; [exact B1|exact B2].
  - intros Hdr. unfold M, scattering. assert (N0 : akns_degree d = O) by (destruct Hs as [->|[->|[->|[->|[->|[->| ->]]]]]]; reflexivity). rewrite N0.
    eapply Mderive_eq.
    + apply (descending_derive _ _ V'). intros j Hj. apply (step_dvalue _ _ _ _ _ _ _ (V j)); [apply HVs; auto|now apply Hreg|now apply Hdr].
    + apply propagated_ext. intros j Hj. split; [symmetry; now apply EV|reflexivity].
Qed.

(** the functions that Newton's method uses *)
Lemma trace_data s n q r h kappa norm nd d rhs : nse_to_akns nd = Some d -> is_slow d -> (1 <= n)%nat -> (n <= length q)%nat -> (n <= length r)%nat -> (0 < h)%R ->
  (kappa = 1 \/ kappa = -1)%Z -> match d with A_ES4 | A_TES4 => (n mod 3 = 0)%nat | _ => True end ->
  let M lam := scattering d (weights d) h (nthC q) (nthC r) n lam in
  let f x := main_f E s n q r h kappa nd norm (- rhs) x in
  newton_data false d h (nthC q) (nthC r) n (fun lam => a11 (M lam) + a22 (M lam) - RtoC rhs) (fun x => first_of (f x)) (fun x => second_of (f x)).
Proof.
  intros Hd Hs Hn Lq Lr Hh Hk H3 M f lam Hreg.
  destruct (mono_value s n q r h kappa lam norm nd d Hd Hs Hn Lq Lr Hh Hk H3 Hreg) as (res & W & M' & Em & Lres & HE & HD). fold M in HE, HD.
  unfold f, main_f. rewrite Em. cbn [bind]. change (negb (SUCCESS =? SUCCESS)%Z) with false. cbv iota.
  rewrite !(aget_nth res (RtoC 0)) by lia. cbn [bind first_of second_of].
  destruct (HE 0%nat 0%nat ltac:(lia) ltac:(lia)) as [A1 A2]. destruct (HE 1%nat 1%nat ltac:(lia) ltac:(lia)) as [B1 B2]. cbn [Nat.mul Nat.add entry] in A1, A2, B1, B2.
  exists 1%R. rewrite !Cmult_1_l. split; [lra|]. split; [reflexivity|]. split.
  - unfold M. rewrite <- A1, <- B1. rewrite RtoC_opp. ring.
  - intros Hdr. destruct (HD Hdr) as (D1 & _ & _ & D4).
    replace (RtoC (if norm then powerRZ 2 W else 1) * (nth 4 res 0 + nth 7 res 0)) with (a11 M' + a22 M' - 0) by (rewrite <- A2, <- B2; ring).
    apply Cderive_minus; [apply Cderive_plus; assumption|apply Cderive_const].
Qed.
Lemma entry_data s n q r h kappa norm nd d : nse_to_akns nd = Some d -> is_slow d -> (1 <= n)%nat -> (n <= length q)%nat -> (n <= length r)%nat -> (0 < h)%R ->
  (kappa = 1 \/ kappa = -1)%Z -> match d with A_ES4 | A_TES4 => (n mod 3 = 0)%nat | _ => True end ->
  let M lam := scattering d (weights d) h (nthC q) (nthC r) n lam in
  let f x := aux_f E s n q r h kappa nd norm x in
  newton_data norm d h (nthC q) (nthC r) n (fun lam => a12 (M lam)) (fun x => first_of (f x)) (fun x => second_of (f x)).
Proof.
  intros Hd Hs Hn Lq Lr Hh Hk H3 M f lam Hreg.
  destruct (mono_value s n q r h kappa lam norm nd d Hd Hs Hn Lq Lr Hh Hk H3 Hreg) as (res & W & M' & Em & Lres & HE & HD). fold M in HE, HD.
  unfold f, aux_f. rewrite Em. cbn [bind]. change (negb (SUCCESS =? SUCCESS)%Z) with false. cbv iota.
  rewrite !(aget_nth res (RtoC 0)) by lia. cbn [bind first_of second_of].
  destruct (HE 0%nat 1%nat ltac:(lia) ltac:(lia)) as [A1 A2]. cbn [Nat.mul Nat.add entry] in A1, A2.
  exists (if norm then powerRZ 2 W else 1%R). split; [destruct norm; [apply powerRZ_lt; lra|lra]|]. split; [now intros ->|]. split; [exact A1|]. intros Hdr. destruct (HD Hdr) as (_ & D2 & _). rewrite A2. exact D2.
Qed.
End Lib.
