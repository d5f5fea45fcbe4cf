(** * The continuous spectrum that fnft_nsev returns is the one of the discretised signal (C86) *)
From Coq Require Import Reals Lra.
From Coquelicot Require Import Coquelicot.
From Verif Require Import Loop CExp CField MiscProof DiscSpec DiscTables DiscModel DiscProps DiscPreProps DiscPreNse FscatterSpec FscatterModel FscatterProof FscatterProps
  ScatterSpec ScatterModel ScatterRun ScatterLoop ScatterMatProps PolySpec KissProof PolyFmultProof NsevSpec NsevProps NsevSafe ManvSafe NftSpec NsevFast NsevCs NsevLib.
Local Open Scope C_scope.

(** ** The layout of the array contspec, include/fnft_nsev.h:131-155: M values of rho = b/a; or M values of a, M values of b;
   or M values of rho, M values of a, M values of b *)
Definition spectrum_is (t : cstype) (M : nat) (a b : nat -> C) (l : list C) : Prop :=
  match t with
  | CS_REFLECTION_COEFFICIENT => forall i, (i < M)%nat -> a i <> 0 /\ nth i l 0 = b i / a i
  | CS_AB => forall i, (i < M)%nat -> nth i l 0 = a i /\ nth (M + i) l 0 = b i
  | CS_BOTH => forall i, (i < M)%nat -> a i <> 0 /\ nth i l 0 = b i / a i /\ nth (M + i) l 0 = a i /\ nth (2 * M + i) l 0 = b i
  | CS_bad => False
  end.

Section Top.
Variable L : lib.
Hypothesis HL : lib_ok L.

Lemma spacing_pos I n : (fst I < snd I)%R -> (2 <= n)%nat -> (0 < spacing I n)%R.
Proof. intros H Hn. unfold spacing. apply Rdiv_lt_0_compat; [lra|]. apply lt_0_INR. lia. Qed.
Lemma step_spacing I n : (2 <= n)%nat -> step (snd I - fst I) n = Ret (spacing I n).
Proof. intros H. unfold step, spacing. destruct (Nat.leb_spec n 1); [lia|reflexivity]. Qed.

(** the transfer matrix that fnft_nsev_base holds when it calls nsev_compute_contspec *)
Definition transfer_ok (d : akns_disc) (eps : R) (q r : list C) (N deg : nat) (W : Z) (tm : option (list C)) : Prop :=
  is_slow d /\ akns_degree d = O /\ tm = None /\ deg = O /\ W = 0%Z \/
  is_fast d /\ akns_degree d <> O /\ exists p, tm = Some p /\ (4 * (deg + 1) <= length p)%nat /\ forall lam, let S := scattering d (weights d) eps (nthC q) (nthC r) N lam in
       RtoC (powerRZ 2 W) * peval (K := CF) (firstn (deg + 1) p) (zmap d eps lam) = Cexp (Ci * lam * RtoC (INR N * step_size d eps)) * a11 S
       /\ RtoC (powerRZ 2 W) * peval (K := CF) (firstn (deg + 1) (skipn (2 * (deg + 1)) p)) (zmap d eps lam)
          = Cexp (Ci * lam * RtoC (INR N * step_size d eps)) * (shift21 d (step_size d eps) lam * a21 S).

Section Call.
Variables (D M : nat) (T XI : R * R) (kappa : Z) (o : opts) (d : akns_disc) (q r : list C).
Let nd := discretization o.
Let ups := akns_upsampling_factor d.
Let N := (D * ups)%nat.
Let eps := spacing T D.
Let xi i := RtoC (grid_point XI M i).
Let S lam := scattering d (weights d) eps (nthC q) (nthC r) N lam.
Let a i := nft_a_of (S (xi i)) T eps (xi i).
Let b i := nft_b_of (S (xi i)) T eps (xi i).
Hypothesis Hd : nse_to_akns nd = Some d.
Hypothesis Hk : (kappa = 1 \/ kappa = -1)%Z.
Hypothesis HD : (2 <= D)%nat.
Hypothesis HM : (2 <= M)%nat.
Hypothesis HT : (fst T < snd T)%R.
Hypothesis Lq : length q = N.
Hypothesis Lr : length r = N.
Hypothesis Hx : forall i, (i < M)%nat -> scattering_exact d (weights d) eps (nthC q) (nthC r) N (xi i).

Lemma nd_known : nd <> N_other.
Proof. intros E. rewrite E in Hd. discriminate. Qed.
Lemma d_impl : akns_implemented d.
Proof. destruct nd; try discriminate Hd; injection Hd as <-; repeat split; discriminate. Qed.
Lemma ups_ok : ups <> O.
Proof. apply ups_pos, d_impl. Qed.
Lemma N_ge : (2 <= N)%nat.
Proof. pose proof ups_ok. unfold N. nia. Qed.
Lemma N_div : (N / ups = D)%nat.
Proof. unfold N. apply Nat.div_mul, ups_ok. Qed.
Lemma N_mult3 : match d with A_ES4 | A_TES4 => (N mod 3 = 0)%nat | _ => True end.
Proof. unfold N, ups. destruct d; try exact I; cbn [akns_upsampling_factor]; apply Nat.mod_mul; lia. Qed.

Lemma compute_contspec_lib s deg W tm result : transfer_ok d eps q r N deg W tm -> (cs_values (contspec_type o) * M <= length result)%nat ->
  contspec_type o <> CS_bad ->
  exists c res, nsev_compute_contspec (lib_env L) s deg W tm q r T N (Some XI) M result kappa o = Ret (c, res)
    /\ ok_code c
    /\ (c = SUCCESS -> spectrum_is (contspec_type o) M a b res /\ kept (cs_values (contspec_type o) * M) result res)
    /\ ((contspec_type o = CS_AB \/ forall i, (i < M)%nat -> a i <> 0) -> c = SUCCESS).
Proof.
  intros Htm Lres Hc. unfold nsev_compute_contspec.
  assert (Eu : nse_upsampling_factor (discretization o) = ups) by (unfold nse_upsampling_factor, via; fold nd; now rewrite Hd).
  rewrite Eu. destruct (Nat.eqb_spec ups 0) as [E0|_]; [now destruct (ups_ok E0)|]. rewrite N_div.
  rewrite (step_spacing T D HD). cbn [bind deref]. rewrite (step_spacing XI M HM). cbn [bind lib_env e_alloc negb]. fold eps.
  set (xl := map (fun i => RtoC (fst XI + spacing XI M * INR i)) (seq 0 M)).
  assert (Lx : length xl = M) by (unfold xl; rewrite map_length; apply seq_length).
  assert (Nx : forall i, (i < M)%nat -> nth i xl (RtoC 0) = xi i).
  { intros i Hi. unfold xl. rewrite nth_indep with (d' := (fun i => RtoC (fst XI + spacing XI M * INR i)) 0%nat) by (rewrite map_length, seq_length; exact Hi).
    rewrite (map_nth (fun i => RtoC (fst XI + spacing XI M * INR i))). now rewrite seq_nth by exact Hi. }
  destruct (contspec_values_lib L HL s deg W tm q r eps (spacing XI M) N M (fst XI) xl kappa o d Hd d_impl Hk N_ge Lq Lr (spacing_pos T D HT HD) HM eq_refl N_mult3 Hx Htm)
    as (H11 & H21 & -> & L1 & L2 & Hv).
  cbn [bind]. change (negb (SUCCESS =? SUCCESS)%Z) with false. cbv iota.
  destruct (phases nd d eps T D nd_known Hd) as (pa & pb & Pa & Pb & Pr & Hph). fold nd. rewrite Pa, Pb, Pr. cbn [phase bind fst snd]. unfold check. change (SUCCESS =? SUCCESS)%Z with true. cbv iota.
  set (w := RtoC (powerRZ 2 W)). assert (Nw : w <> 0) by (unfold w; intros E; apply RtoC_inj in E; revert E; apply powerRZ_NOR; lra).
  assert (Va : forall i, (i < M)%nat -> nth i H11 0 * w * Cexp (Ci * nth i xl 0 * RtoC pa) = a i).
  { intros i Hi. rewrite Nx by exact Hi. destruct (Hv i Hi) as [Q1 _]. cbv zeta in Q1. fold (grid_point XI M i) in Q1. fold (xi i) in Q1. fold w in Q1. rewrite Q1.
    destruct (Hph (xi i) (S (xi i))) as [R1 _]. exact R1. }
  assert (Vb : forall i, (i < M)%nat -> nth i H21 0 * w * Cexp (Ci * nth i xl 0 * RtoC pb) = b i).
  { intros i Hi. rewrite Nx by exact Hi. destruct (Hv i Hi) as [_ Q1]. cbv zeta in Q1. fold (grid_point XI M i) in Q1. fold (xi i) in Q1. fold w in Q1. rewrite Q1.
    destruct (Hph (xi i) (S (xi i))) as [_ R1]. exact R1. }
  assert (Z1 : forall i, (i < M)%nat -> (nth i H11 0 = 0 <-> a i = 0)).
  { intros i Hi. rewrite <- (Va i Hi). split; [intros ->; ring|]. intros E.
    destruct (Ceq_dec (nth i H11 0) 0) as [|Nh]; [assumption|]. exfalso. revert E. apply Cmult_neq_0; [now apply Cmult_neq_0|apply Cexp_neq0]. }
  assert (Vr : forall i, (i < M)%nat -> nth i H11 0 <> 0 -> nth i H21 0 * Cexp (Ci * nth i xl 0 * RtoC (pb - pa)) / nth i H11 0 = b i / a i).
  { intros i Hi Nh. rewrite <- (Va i Hi), <- (Vb i Hi). set (x := Ci * nth i xl 0).
    assert (E : Cexp (x * RtoC pb) = Cexp (x * RtoC (pb - pa)) * Cexp (x * RtoC pa)).
    { rewrite <- Cexp_plus. f_equal. rewrite RtoC_minus. ring. }
    rewrite E. field. repeat split; try apply Cexp_neq0; assumption. }
  assert (Hall : forall l, (M <= length l)%nat -> (forall i, (i < M)%nat -> nth i H11 0 <> 0) ->
    exists res, rho_loop M 0 H11 H21 xl (pb - pa) l = Ret (SUCCESS, res) /\ kept M l res /\ forall i, (i < M)%nat -> a i <> 0 /\ nth i res 0 = b i / a i).
  { intros l Hl Hnz. destruct (rho_loop_value H11 H21 xl (pb - pa) M L1 L2 Lx Hnz M 0%nat l eq_refl Hl) as (res & E & K & _ & V).
    exists res. split; [exact E|]. split; [exact K|]. intros i Hi. split; [intros E0; apply (Hnz i Hi), (Z1 i Hi), E0|]. rewrite (V i ltac:(lia)). now apply Vr; [|apply Hnz]. }
  assert (Hdec : (forall i, (i < M)%nat -> nth i H11 0 <> 0) \/ exists i, (0 <= i < M)%nat /\ nth i H11 0 = 0).
  { clear. assert (H : forall m, (forall i, (i < m)%nat -> nth i H11 0 <> 0) \/ exists i, (0 <= i < m)%nat /\ nth i H11 0 = 0).
    { induction m as [|m [IH|(i & Hi & E)]]; [left; lia| |right; exists i; split; [lia|exact E]].
      destruct (Ceq_dec (nth m H11 0) 0) as [E|Nz]; [right; exists m; split; [lia|exact E]|left].
      intros i Hi. destruct (Nat.eq_dec i m) as [->|]; [exact Nz|apply IH; lia]. }
    apply H. }
  assert (Hab : forall off l, (off + 2 * M <= length l)%nat -> exists res, ab_loop M off H11 H21 xl (powerRZ 2 W) pa pb l = Ret res /\ kept (off + 2 * M) l res
     /\ (forall j, (j < off)%nat -> nth j res 0 = nth j l 0) /\ forall i, (i < M)%nat -> nth (off + i) res 0 = a i /\ nth (off + M + i) res 0 = b i).
  { intros off l Hl. destruct (ab_loop_value H11 H21 xl (powerRZ 2 W) pa pb M off l L1 L2 Lx Hl) as (res & E & K & O & V).
    exists res. split; [exact E|]. split; [exact K|]. split; [exact O|]. intros i Hi. destruct (V i Hi) as [-> ->]. split; [exact (Va i Hi)|exact (Vb i Hi)]. }
  assert (Hz : (forall i, (i < M)%nat -> a i <> 0) -> (forall i, (i < M)%nat -> nth i H11 0 <> 0)) by (intros H i Hi E; apply (H i Hi), (Z1 i Hi), E).
  destruct (contspec_type o); cbn [cs_values] in Lres |- *; try congruence.
  - destruct Hdec as [Hnz|Hez].
    + destruct (Hall result ltac:(lia) Hnz) as (res & -> & K & V). exists SUCCESS, res. split; [reflexivity|]. split; [codes|]. split; [|reflexivity].
      intros _. split; [exact V|]. rewrite Nat.mul_1_l. exact K.
    + destruct (rho_loop_zero H11 H21 xl (pb - pa) M L1 L2 Lx M 0%nat result eq_refl ltac:(lia) Hez) as (res & ->).
      eexists _, _. split; [reflexivity|]. split; [codes|]. split; [discriminate|]. intros [E|Hnz]; [discriminate|]. destruct Hez as (i & Hi & E). now destruct (Hz Hnz i ltac:(lia)).
  - destruct (Hab 0%nat result ltac:(lia)) as (res & -> & K & _ & V). cbn [bind]. exists SUCCESS, res. split; [reflexivity|]. split; [codes|]. split; [|reflexivity].
    intros _. split; [exact V|exact K].
  - destruct Hdec as [Hnz|Hez].
    + destruct (Hall result ltac:(lia) Hnz) as (res & -> & K & V). cbn [bind]. change (negb (SUCCESS =? SUCCESS)%Z) with false. cbv iota.
      destruct (Hab M res ltac:(rewrite (kept_length _ _ _ K); lia)) as (res2 & -> & K2 & O2 & V2). cbn [bind].
      exists SUCCESS, res2. split; [reflexivity|]. split; [codes|]. split; [|reflexivity]. intros _. split.
      * intros i Hi. destruct (V i Hi) as [Na Vi]. destruct (V2 i Hi) as [A1 B1]. rewrite (O2 i Hi). replace (2 * M + i)%nat with (M + M + i)%nat by lia. auto.
      * split; [rewrite (kept_length _ _ _ K2); apply K|]. intros i Hi. destruct K as [_ K], K2 as [_ K2]. rewrite K2 by lia. apply K. lia.
    + destruct (rho_loop_zero H11 H21 xl (pb - pa) M L1 L2 Lx M 0%nat result eq_refl ltac:(lia) Hez) as (res & ->). cbn [bind].
      change (negb (EC_DIV_BY_ZERO =? SUCCESS)%Z) with true. cbv iota.
      eexists _, _. split; [reflexivity|]. split; [codes|]. split; [discriminate|]. intros [E|Hnz]; [discriminate|]. destruct Hez as (i & Hi & E). now destruct (Hz Hnz i ltac:(lia)).
Qed.

(** fnft_nsev_base up to the call of nsev_compute_contspec *)
Hypothesis HN31 : is_fast d -> (Z.of_nat N <= 2147483647)%Z.
Lemma base_transfer s : exists i, nse_fscatter_numel N nd = Ret i /\ exists deg tm W,
  (if negb (Nat.eqb i 0)
        then x <- e_fscatter (lib_env L) s N q r eps (e_junk (lib_env L) 8 i) (normalization_flag o) (discretization o) ;;
             let '(code, deg, tm, W) := x in
             Ret (code, deg, Some tm, if normalization_flag o then W else 0%Z)
        else Ret (SUCCESS, O, None, 0%Z)) = Ret (SUCCESS, deg, tm, W) /\ transfer_ok d eps q r N deg W tm.
Proof.
  destruct (known_fast_slow nd nd_known) as (d' & Hd' & _ & Hcase). assert (d' = d) as -> by congruence.
  unfold nse_fscatter_numel, nse_degree, via. fold nd. rewrite Hd. destruct Hcase as [[Hf Hdeg]|[Hs Hdeg]].
  - destruct (Nat.eqb_spec (akns_degree d) 0) as [|_]; [contradiction|].
    destruct (poly_fmult_numel_value 4 (akns_degree d) N ltac:(pose proof N_ge; lia) ltac:(lia)) as (k & Ek & Hk2 & _).
    set (numel := (4 * (akns_degree d + 1) * 2 ^ k)%nat) in *. exists numel. split; [exact Ek|].
    destruct (Nat.eqb_spec numel 0) as [E0|_]; [pose proof (Nat.pow_nonzero 2 k); unfold numel in E0; nia|]. cbn [negb lib_env e_fscatter e_junk].
    destruct (fscatter_entries (l_expo L) (l_0 L) (l_1 L) (l_2 L) (l_p L) (lk_0 L HL) (lk_1 L HL) (lk_2 L HL) (lk_p L HL) (normalization_flag o) N q r (l_junk L 8 numel) eps nd d numel Hd Hf N_ge (HN31 Hf) (spacing_pos T D HT HD))
      as (tm & W & E & Lt & L4 & HW & Hent); try lia.
    { unfold akns_fscatter_numel. destruct (Nat.eqb_spec (akns_degree d) 0); [contradiction|exact Ek]. }
    { rewrite (lk_junk L HL). lia. }
    { specialize (Hx 0%nat ltac:(lia)). unfold scattering_exact in Hx. destruct (akns_degree d); [contradiction|exact Hx]. }
    fold nd. rewrite E. cbn [bind or_nil]. eexists _, _, _. split; [reflexivity|]. right. split; [exact Hf|]. split; [exact Hdeg|]. exists tm. split; [reflexivity|]. split; [exact L4|].
    destruct (normalization_flag o); [exact Hent|]. rewrite (HW eq_refl) in Hent. exact Hent.
  - rewrite Hdeg. cbn [Nat.eqb]. exists O. split; [reflexivity|]. cbn [Nat.eqb negb]. eexists _, _, _. split; [reflexivity|]. left. auto.
Qed.

(** If the base routine succeeds then the continuous spectrum is the one of the samples; without bound states it succeeds if
   no division by zero occurs *)
Lemma base_contspec s u cs : u_cs u = Some cs -> (fst XI < snd XI)%R ->
  (cs_values (contspec_type o) * M <= length cs)%nat -> contspec_type o <> CS_bad ->
  (forall c u', fnft_nsev_base (lib_env L) s N q r T M (Some XI) kappa o u = Ret (c, u') -> c = SUCCESS ->
     exists cs', u_cs u' = Some cs' /\ spectrum_is (contspec_type o) M a b cs' /\ kept (cs_values (contspec_type o) * M) cs cs') /\
  ((u_bs u <> None -> u_K u <> None) -> (u_bs u = None \/ kappa = (-1)%Z) -> (contspec_type o = CS_AB \/ forall i, (i < M)%nat -> a i <> 0) ->
     exists u', fnft_nsev_base (lib_env L) s N q r T M (Some XI) kappa o u = Ret (SUCCESS, u')).
Proof.
  intros Ecs HXI Lcs Hc.
  assert (Eu : nse_upsampling_factor (discretization o) = ups) by (unfold nse_upsampling_factor, via; fold nd; now rewrite Hd).
  destruct (base_transfer s) as (i & Ei & deg & tm & W & Et & Htm).
  destruct (compute_contspec_lib s deg W tm cs Htm Lcs Hc) as (c & res & Er & Hok & Hs1 & Hs2).
  unfold fnft_nsev_base. rewrite Eu.
  destruct (args_bad N (Some q) (Some T) (Some XI) kappa u) eqn:Ea.
  { split; [intros c' u' H Hs; injection H as <- _; discriminate|]. intros HuK. exfalso.
    enough (args_bad N (Some q) (Some T) (Some XI) kappa u = false) by congruence.
    apply (args_bad_spec N (Some q) (Some T) (Some XI) kappa o u). split; [exact N_ge|]. split; [discriminate|]. split; [exists (fst T), (snd T); destruct T; auto|].
    split; [intros _; exists (fst XI), (snd XI); destruct XI; auto|]. split; [exact Hk|]. split; [exact HuK|reflexivity]. }
  destruct (Nat.eqb_spec ups 0) as [E0|_]; [now destruct (ups_ok E0)|]. rewrite N_div, (step_spacing T D HD). cbn [bind]. fold eps nd.
  rewrite Ei. cbn [bind]. change (e_alloc (lib_env L) s 8) with true. cbn [negb]. rewrite Bool.andb_false_r. fold nd in Et. rewrite Et. cbn [bind]. unfold check at 1. change (SUCCESS =? SUCCESS)%Z with true. cbv iota.
  rewrite Ecs. destruct (Nat.ltb_spec 0 M) as [_|]; [|lia]. rewrite Er. cbn [bind fst snd].
  split.
  - intros c' u' H Hsucc. subst c'. apply check_Ret in H. destruct H as [(-> & H)|(Hne & _ & _ & Hcode)].
    2: { exfalso. cbn [fst] in Hcode. symmetry in Hcode. now apply abs_nonzero in Hcode. }
    destruct (Hs1 eq_refl) as (Hsp & Hkp).
    assert (Eres : u_cs u' = Some res).
    { cbn [set_cs u_bs u_K u_nc] in H. destruct (u_bs u) as [bs|].
      - destruct (kappa =? 1)%Z.
        + inv_bind H. inv_bind H. destruct x0 as [c1 [K1 bs1]]. apply check_Ret in H. destruct H as [(_ & H)|(_ & H & _)].
          * cbn in H. destruct (u_nc u) as [nc|].
            -- destruct (negb (K1 =? 0)%nat).
               ++ inv_bind H. apply check_Ret in H. destruct H as [(_ & H)|(_ & H & _)].
                  ** injection H as <-. reflexivity.
                  ** cbn in H. subst u'. reflexivity.
               ++ injection H as <-. reflexivity.
            -- injection H as <-. reflexivity.
          * cbn in H. subst u'. reflexivity.
        + injection H as <-. destruct (u_K u); reflexivity.
      - injection H as <-. destruct (u_K u); reflexivity. }
    exists res. auto.
  - intros _ Hnb Hz. rewrite (Hs2 Hz). unfold check. change (SUCCESS =? SUCCESS)%Z with true. cbv iota. cbn [set_cs u_bs].
    destruct Hnb as [->| ->]; [eexists; reflexivity|]. change (-1 =? 1)%Z with false. destruct (u_bs u); eexists; reflexivity.
Qed.
End Call.

Lemma pre_code_nonzero D q (eps : R) kappa Dsub nd c : nse_preprocess (l_junk L) (l_junkR L) D q eps kappa Dsub nd = Ret (inl c) -> c <> SUCCESS.
Proof.
  unfold nse_preprocess. destruct (nse_to_akns nd) as [d|]; [|intros H; injection H as <-; discriminate].
  intros H. inv_bind H. destruct x as [c0|]; [|discriminate]. injection H as <-. apply abs_nonzero. revert Hx. unfold akns_preprocess.
  destruct (D <? 2)%nat; [intros H; injection H as <-; discriminate|]. destruct q as [q|]; [|intros H; injection H as <-; discriminate].
  destruct (Rle_dec eps 0); [intros H; injection H as <-; discriminate|]. intros H. inv_bind H. destruct x as [nskip Ds].
  cbv zeta in H. destruct (Nat.eqb (akns_upsampling_factor d) 0); [injection H as <-; discriminate|]. inv_bind H.
  destruct (Z.eqb_spec (fst x) 0); [discriminate|]. injection H as <-. exact n0.
Qed.
(** the samples that the driver scatters: nse_discretization_preprocess_signal with Dsub = D (C31) *)
Lemma pre_exists D q (eps : R) kappa nd d : nse_to_akns nd = Some d -> length q = D -> (0 < eps)%R -> (2 <= D)%nat ->
  ((3 <= D)%nat \/ akns_upsampling_factor d = 1%nat) ->
  exists p, nse_preprocess (l_junk L) (l_junkR L) D (Some q) eps kappa D nd = Ret (inr p)
    /\ po_Dsub p = D /\ length (po_q p) = (D * akns_upsampling_factor d)%nat /\ length (po_r p) = (D * akns_upsampling_factor d)%nat
    /\ (akns_upsampling_factor d = 1%nat -> po_q p = q /\ po_r p = map (nse_r_from_q kappa) q).
Proof.
  intros Hd Lq He HD H3. unfold nse_preprocess. rewrite Hd. set (rf := fun _ : nat => nse_r_from_q kappa).
  assert (Ia : akns_implemented d) by (destruct nd; try discriminate Hd; injection Hd as <-; repeat split; discriminate).
  assert (Cases : akns_upsampling_factor d = 1%nat \/ (d = A_ES4 \/ d = A_TES4) \/ (exists w sw, akns_method_weights d = inr (w, sw)) /\ (2 <= akns_upsampling_factor d)%nat).
  { destruct nd; try discriminate Hd; injection Hd as <-; try (left; reflexivity); try (right; left; auto; fail); right; right; (split; [eexists _, _; reflexivity|cbn; lia]). }
  destruct Cases as [U|[ES|((w & sw & W) & U)]].
  - destruct (akns_preprocess_plain (l_junk L) (l_junkR L) (lk_junk L HL) (lk_junkR L HL) D D q rf eps Lq He d HD U) as (s & o & E & G & L1 & L2 & Hv).
    rewrite E. destruct G as (_ & _ & _ & _ & _ & G). destruct (G eq_refl) as [-> GD]. cbn [bind]. exists o. split; [reflexivity|]. rewrite U, Nat.mul_1_r. split; [exact GD|]. split; [congruence|]. split; [congruence|].
    intros _. split; apply (nth_ext _ _ (RtoC 0) (RtoC 0)); rewrite ?map_length; try congruence; intros k Hk; destruct (Hv k ltac:(congruence)) as [H1 H2]; rewrite Nat.mul_1_r in H1, H2.
    + exact H1.
    + rewrite H2. symmetry. rewrite nth_indep with (d' := nse_r_from_q kappa 0) by (rewrite map_length; congruence). apply map_nth.
  - destruct (akns_preprocess_derivatives (l_junk L) (l_junkR L) (lk_junk L HL) (lk_junkR L HL) D D q rf eps Lq He d HD ES) as (s & o & E & G & L1 & L2 & _).
    rewrite E. destruct G as (_ & _ & _ & _ & _ & G). destruct (G eq_refl) as [_ GD]. cbn [bind]. exists o. split; [reflexivity|]. rewrite GD in L1, L2.
    assert (U : akns_upsampling_factor d = 3%nat) by (destruct ES; subst; reflexivity). rewrite U. split; [exact GD|]. split; [lia|]. split; [lia|discriminate].
  - destruct (akns_preprocess_commutator_free (l_junk L) (l_junkR L) (lk_junk L HL) (lk_junkR L HL) D D q rf eps Lq He d w sw ltac:(lia) W U) as (nc & s & o & cols & E & _ & _ & G & L1 & L2 & _).
    rewrite E. destruct G as (_ & _ & _ & _ & _ & G). destruct (G eq_refl) as [_ GD]. cbn [bind]. exists o. split; [reflexivity|]. rewrite GD in L1, L2.
    split; [exact GD|]. split; [lia|]. split; [lia|]. intros U1. lia.
Qed.

(** C86.  The continuous spectrum of fnft_nsev.  For samples q(t_0), ..., q(t_(D-1)) on T, with qs, rs the samples of the
   discretisation (nse_discretization_preprocess_signal, C31; q itself and -kappa conj(q) for the methods without
   resampling), and with S(lam) the product of the steps of the chosen method over these samples:
   - whenever the call returns SUCCESS, whatever it was asked to do about bound states, contspec holds a, b and/or b/a
     of S at the M grid points of XI in the documented layout, and the rest of the array is untouched;
   - if no bound states are asked for and no a is zero where a division is needed, the call does return SUCCESS *)
Theorem nsev_contspec_is_discrete_nft D q T M XI kappa user dflt u cs d :
  let o := match user with Some o => o | None => dflt end in
  nsev_valid D (Some q) (Some T) (Some XI) kappa o u -> length q = D -> (2 <= M)%nat ->
  u_cs u = Some cs -> (cs_values (contspec_type o) * M <= length cs)%nat -> contspec_type o <> CS_bad ->
  richardson_extrapolation_flag o <> 1%nat ->
  nse_to_akns (discretization o) = Some d -> ((3 <= D)%nat \/ akns_upsampling_factor d = 1%nat) ->
  (Z.of_nat (D * akns_upsampling_factor d) <= 2147483647)%Z ->
  let eps := spacing T D in
  let xi i := RtoC (grid_point XI M i) in
  exists p, nse_preprocess (l_junk L) (l_junkR L) D (Some q) eps kappa D (discretization o) = Ret (inr p) /\
  (akns_upsampling_factor d = 1%nat -> po_q p = q /\ po_r p = map (nse_r_from_q kappa) q) /\
  let n := (D * akns_upsampling_factor d)%nat in
  let S lam := scattering d (weights d) eps (nthC (po_q p)) (nthC (po_r p)) n lam in
  let a i := nft_a_of (S (xi i)) T eps (xi i) in let b i := nft_b_of (S (xi i)) T eps (xi i) in
  (forall i, (i < M)%nat -> scattering_exact d (weights d) eps (nthC (po_q p)) (nthC (po_r p)) n (xi i)) ->
  (forall u' user' dflt', fnft_nsev (lib_env L) D (Some q) (Some T) M (Some XI) kappa user dflt u = Ret (SUCCESS, u', user', dflt') ->
     exists cs', u_cs u' = Some cs' /\ spectrum_is (contspec_type o) M a b cs' /\ kept (cs_values (contspec_type o) * M) cs cs') /\
  ((u_bs u = None \/ kappa = (-1)%Z) -> (contspec_type o = CS_AB \/ forall i, (i < M)%nat -> a i <> 0) ->
     exists u' user' dflt', fnft_nsev (lib_env L) D (Some q) (Some T) M (Some XI) kappa user dflt u = Ret (SUCCESS, u', user', dflt')).
Proof.
  intros o V Lq HM Ecs Lcs Hct Hr Hd H3 H31 eps xi.
  destruct V as [VD Vq VT VX Vk VK Vd Vl]. destruct VT as (t0 & t1 & ET & HT). injection ET as ->.
  destruct (VX ltac:(congruence)) as (x0 & x1 & EX & HX). injection EX as ->.
  assert (He : (0 < eps)%R) by (apply spacing_pos; [exact HT|exact VD]).
  destruct (pre_exists D q eps kappa _ d Hd Lq He VD H3) as (p & Ep & _ & L1 & L2 & Hpl).
  exists p. split; [exact Ep|]. split; [exact Hpl|]. intros n S a b Hx.
  assert (Hargs : args_bad D (Some q) (Some (t0, t1)) (Some (x0, x1)) kappa u = false).
  { apply (args_bad_spec D _ _ _ kappa o u). split; [exact VD|]. split; [discriminate|]. split; [exists t0, t1; auto|]. split; [intros _; exists x0, x1; auto|]. auto. }
  assert (Hcl : exists f, disc_class (discretization o) = Some f /\ (negb f && negb (is_newton (bound_state_localization o)) && (kappa =? 1)%Z && negb (no_ptr (u_bs u)))%bool = false).
  { pose proof (disc_class_spec (discretization o)) as Hc. destruct (disc_class (discretization o)) as [f|]; [|now destruct (Hc Vd)]. exists f. split; [reflexivity|].
    destruct f; [reflexivity|]. destruct Hc as (_ & Hc & _). destruct (Z.eqb_spec kappa 1) as [Ek|]; [|now rewrite Bool.andb_false_r].
    destruct (u_bs u) eqn:Eb; [|now rewrite Bool.andb_false_r]. rewrite (Vl Hc Ek ltac:(congruence)). reflexivity. }
  destruct Hcl as (f & Ef & Eg).
  assert (Eu : nse_upsampling_factor (discretization o) = akns_upsampling_factor d) by (unfold nse_upsampling_factor, via; now rewrite Hd).
  assert (Nu : akns_upsampling_factor d <> O) by (apply ups_pos; destruct (discretization o); try discriminate Hd; injection Hd as <-; repeat split; discriminate).
  assert (Base : forall o' s u1, discretization o' = discretization o -> contspec_type o' = contspec_type o -> normalization_flag o' = normalization_flag o -> u_cs u1 = Some cs ->
    (forall c u', fnft_nsev_base (lib_env L) s n (po_q p) (po_r p) (t0, t1) M (Some (x0, x1)) kappa o' u1 = Ret (c, u') -> c = SUCCESS ->
       exists cs', u_cs u' = Some cs' /\ spectrum_is (contspec_type o) M a b cs' /\ kept (cs_values (contspec_type o) * M) cs cs') /\
    ((u_bs u1 <> None -> u_K u1 <> None) -> (u_bs u1 = None \/ kappa = (-1)%Z) -> (contspec_type o = CS_AB \/ forall i, (i < M)%nat -> a i <> 0) ->
       exists u', fnft_nsev_base (lib_env L) s n (po_q p) (po_r p) (t0, t1) M (Some (x0, x1)) kappa o' u1 = Ret (SUCCESS, u'))).
  { intros o' s u1 E1 E2 E3 E4. rewrite <- E2. apply (base_contspec D M (t0, t1) (x0, x1) kappa o' d (po_q p) (po_r p)); try assumption; try rewrite E1; try rewrite E2; try assumption. intros _. exact H31. }
  assert (Run : forall R, nsev_run (lib_env L) D (Some q) (Some (t0, t1)) M (Some (x0, x1)) kappa o u = R -> R =
    if (kappa =? 1)%Z && negb (no_ptr (u_bs u)) && match bound_state_localization o with BL_SUBSAMPLE_AND_REFINE => true | _ => false end
    then nsev_run (lib_env L) D (Some q) (Some (t0, t1)) M (Some (x0, x1)) kappa o u else
      x <- fnft_nsev_base (lib_env L) 1 n (po_q p) (po_r p) (t0, t1) M (Some (x0, x1)) kappa o u ;; let '(code, u) := x in check code (o, u) (Ret (SUCCESS, (o, u)))).
  { intros R <-. destruct ((kappa =? 1)%Z && negb (no_ptr (u_bs u)) && match bound_state_localization o with BL_SUBSAMPLE_AND_REFINE => true | _ => false end)%bool eqn:Ec; [reflexivity|].
    unfold nsev_run. rewrite Hargs, Ef, Eg, Eu. destruct (Nat.eqb_spec (akns_upsampling_factor d) 0); [contradiction|]. cbn [deref bind fst snd]. rewrite (step_spacing (t0, t1) D VD : step (t1 - t0) D = _).
    cbn [bind]. fold eps. destruct (Nat.eqb_spec (richardson_extrapolation_flag o) 1) as [|_]; [contradiction|]. cbn [andb bind]. cbn [lib_env e_pre]. rewrite Ep. cbn [bind]. rewrite Ec. reflexivity. }
  split.
  - intros u' user' dflt' H. unfold fnft_nsev in H. fold o in H. inv_bind H. destruct x as [code [o1 u1]]. injection H as -> -> _ _.
    match goal with HH : nsev_run _ _ _ _ _ _ _ _ _ = _ |- _ => rename HH into HR end.
    destruct ((kappa =? 1)%Z && negb (no_ptr (u_bs u)) && match bound_state_localization o with BL_SUBSAMPLE_AND_REFINE => true | _ => false end)%bool eqn:Ec.
    + clear Run. unfold nsev_run in HR. rewrite Hargs, Ef, Eg, Eu in HR. destruct (Nat.eqb_spec (akns_upsampling_factor d) 0); [contradiction|]. cbn [deref bind fst snd] in HR. rewrite (step_spacing (t0, t1) D VD : step (t1 - t0) D = _) in HR.
      cbn [bind] in HR. fold eps in HR. destruct (Nat.eqb_spec (richardson_extrapolation_flag o) 1) as [|_]; [contradiction|]. cbn [andb bind] in HR. cbn [lib_env e_pre] in HR. rewrite Ep in HR. cbn [bind] in HR. rewrite Ec in HR.
      inv_bind HR. rename x into Dsub. inv_bind HR. destruct x as [c|ps].
      { inv_bind HR. injection HR as -> _ _. match goal with HH : E_SUBROUTINE _ = Ret SUCCESS |- _ => exfalso; eapply (E_SUB_nonzero c); [|exact HH|reflexivity] end. eapply pre_code_nonzero; eassumption. }
      inv_bind HR. destruct x as [c v]. apply check_Ret in HR. destruct HR as [(_ & HR)|(Hne & _ & _ & Hcode)].
      2: { exfalso. cbn [fst] in Hcode. symmetry in Hcode. now apply abs_nonzero in Hcode. }
      inv_bind HR. destruct x as [c2 v2]. apply check_Ret in HR. destruct HR as [(-> & HR)|(Hne & _ & _ & Hcode)].
      2: { exfalso. cbn [fst] in Hcode. symmetry in Hcode. now apply abs_nonzero in Hcode. }
      cbv iota in HR. injection HR as <- <-.
      match goal with HH : fnft_nsev_base _ 1 _ _ _ _ _ _ _ ?o2 ?uu = Ret (SUCCESS, v2) |- _ => exact (proj1 (Base o2 1%nat uu eq_refl eq_refl eq_refl Ecs) SUCCESS v2 HH eq_refl) end.
    + apply Run in HR. symmetry in HR. inv_bind HR. destruct x as [c v]. apply check_Ret in HR. destruct HR as [(-> & HR)|(Hne & _ & _ & Hcode)].
      2: { exfalso. cbn [fst] in Hcode. symmetry in Hcode. now apply abs_nonzero in Hcode. }
      injection HR as <- <-. eapply (proj1 (Base o 1%nat u eq_refl eq_refl eq_refl Ecs)); [eassumption|reflexivity].
  - intros Hnb Hz. destruct (proj2 (Base o 1%nat u eq_refl eq_refl eq_refl Ecs) VK Hnb Hz) as (u' & Eb).
    assert (Ec : ((kappa =? 1)%Z && negb (no_ptr (u_bs u)) && match bound_state_localization o with BL_SUBSAMPLE_AND_REFINE => true | _ => false end)%bool = false).
    { destruct Hnb as [->| ->]; [now rewrite Bool.andb_false_r|reflexivity]. }
    specialize (Run _ eq_refl). rewrite Ec, Eb in Run. cbn [bind] in Run. unfold check in Run. change (SUCCESS =? SUCCESS)%Z with true in Run. cbv iota in Run.
    unfold fnft_nsev. fold o. rewrite Run. cbn [bind]. eexists _, _, _. reflexivity.
Qed.
End Top.
Print Assumptions nsev_contspec_is_discrete_nft.
