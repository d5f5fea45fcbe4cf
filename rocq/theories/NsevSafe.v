(** * fnft_nsev stays inside the arrays of the caller (C45): proofs, part 1 *)
From Coq Require Import Reals Lra.
From Coquelicot Require Import Coquelicot.
From Verif Require Import Loop MiscSpec MiscProof MiscProps MiscMetricProps PolyFmultProof DiscProps NsevSpec NsevProps.
Local Open Scope C_scope.

(** ** Arrays *)
Section Kept.
Context {A : Type}.
Implicit Types l : list A.
Lemma kept_refl n l : kept n l l.
Proof. split; auto. Qed.
Lemma kept_trans n l l' l'' : kept n l l' -> kept n l' l'' -> kept n l l''.
Proof. intros [L1 H1] [L2 H2]. split; [congruence|]. intros i Hi. rewrite H2, H1 by exact Hi. reflexivity. Qed.
Lemma kept_mono n m l l' : (n <= m)%nat -> kept n l l' -> kept m l l'.
Proof. intros Hn [L H]. split; [exact L|]. intros i Hi. apply H. lia. Qed.
Lemma nth_error_upd_other l i j x : i <> j -> nth_error (upd l i x) j = nth_error l j.
Proof. revert i j. induction l as [|a l IH]; intros [|i] [|j] H; cbn; try congruence. apply IH. congruence. Qed.
Lemma aset_kept l i x n : (i < n)%nat -> (i < length l)%nat -> exists l', aset l i x = Ret l' /\ kept n l l'.
Proof.
  intros H1 H2. exists (upd l i x). split; [now apply aset_upd|]. split; [apply upd_length|].
  intros j Hj. apply nth_error_upd_other. lia.
Qed.
Lemma aget_ex l i : (i < length l)%nat -> exists x, aget l i = Ret x.
Proof. revert i. induction l as [|a l IH]; intros [|i] H; cbn in *; try lia; [now exists a|]. apply IH. lia. Qed.
Lemma kept_length n l l' : kept n l l' -> length l' = length l.
Proof. intros [L _]. exact L. Qed.
End Kept.

Ltac ag := match goal with |- context [@aget ?A ?l ?i] =>
  let x := fresh "x" in let Ex := fresh "Ex" in
  destruct (@aget_ex A l i) as (x & Ex); [|rewrite Ex; cbn [bind]] end.

Lemma copy_kept n off (src dst : list C) m : (n <= length src)%nat -> (off + n <= m)%nat -> (off + n <= length dst)%nat ->
  exists l, copy n off src dst = Ret l /\ kept m dst l.
Proof.
  intros H1 H2 H3. unfold copy.
  destruct (for_inv (fun i l => kept m dst l) (fun i dst => x <- aget src i ;; aset dst (off + i) x) n 0 dst (kept_refl _ _)) as (l & El & Hl).
  { intros i l Hi Hl. ag; [lia|]. destruct (aset_kept l (off + i) x m) as (l' & El' & Hl'); [lia|rewrite (kept_length _ _ _ Hl); lia|].
    exists l'. split; [exact El'|]. eapply kept_trans; eassumption. }
  exists l. auto.
Qed.

(** ** Codes *)
Lemma ok_SUCCESS : ok_code SUCCESS. Proof. unfold ok_code, SUCCESS, INT_MIN. lia. Qed.
Lemma ok_neg c : ok_code c -> ok_code (- Z.abs c).
Proof. unfold ok_code, INT_MIN. lia. Qed.
Lemma E_SUB_ok c : ok_code c -> E_SUBROUTINE c = Ret (- Z.abs c)%Z.
Proof. unfold E_SUBROUTINE, ok_code. intros H. destruct (Z.eqb_spec c INT_MIN); [lia|reflexivity]. Qed.
Lemma ok_small c : (-10 <= c <= 10)%Z -> ok_code c.
Proof. unfold ok_code, INT_MIN. lia. Qed.

Lemma check_safe {S} (P : S -> Prop) code (st : S) k : ok_code code -> P st ->
  (code = SUCCESS -> exists c s, k = Ret (c, s) /\ ok_code c /\ P s) ->
  exists c s, check code st k = Ret (c, s) /\ ok_code c /\ P s.
Proof.
  intros Hc Hst Hk. unfold check. destruct (Z.eqb_spec code SUCCESS) as [Ec|N]; [auto|].
  rewrite E_SUB_ok by exact Hc. cbn [bind]. eexists _, _. split; [reflexivity|]. split; [now apply ok_neg|exact Hst].
Qed.

(** ** Transforms and phase factors *)
Lemma akns_l2z_safe n eps_t vals a : (n <= length vals)%nat ->
  exists c v, akns_lambda_to_z n eps_t vals a = Ret (c, v) /\ ok_code c /\ kept n vals v.
Proof.
  intros H. unfold akns_lambda_to_z. cbv zeta.
  destruct (Nat.eqb _ 0). { eexists _, _. split; [reflexivity|]. split; [apply ok_small; lia|apply kept_refl]. }
  destruct (Nat.eqb _ 0). { eexists _, _. split; [reflexivity|]. split; [apply ok_small; lia|apply kept_refl]. }
  match goal with |- context [fill n 0 ?f vals] => destruct (fill_ok (fun i => match f i with Ret x => x | UB => RtoC 0 end) (RtoC 0) n 0 f vals) as (v & Ev & Lv & Nv) end.
  { lia. }
  { intros i Hi. ag; [lia|]. reflexivity. }
  rewrite Ev. cbn [bind]. eexists _, _. split; [reflexivity|]. split; [apply ok_small; lia|]. split; [exact Lv|].
  intros i Hi. destruct (Nat.lt_ge_cases i (length vals)) as [Hl|Hl].
  - rewrite !(nth_error_nth' _ (RtoC 0)) by lia. f_equal. rewrite Nv. cbn [Nat.leb Nat.add andb].
    destruct (Nat.ltb_spec i n); [lia|reflexivity].
  - assert (H1 : nth_error v i = None) by (apply nth_error_None; lia).
    assert (H2 : nth_error vals i = None) by (apply nth_error_None; lia). congruence.
Qed.
Lemma akns_z2l_safe n eps_t vals a : (n <= length vals)%nat ->
  exists c v, akns_z_to_lambda n eps_t vals a = Ret (c, v) /\ ok_code c /\ kept n vals v.
Proof.
  intros H. unfold akns_z_to_lambda. cbv zeta.
  destruct (Nat.eqb _ 0). { eexists _, _. split; [reflexivity|]. split; [apply ok_small; lia|apply kept_refl]. }
  destruct (Nat.eqb _ 0). { eexists _, _. split; [reflexivity|]. split; [apply ok_small; lia|apply kept_refl]. }
  match goal with |- context [fill n 0 ?f vals] => destruct (fill_ok (fun i => match f i with Ret x => x | UB => RtoC 0 end) (RtoC 0) n 0 f vals) as (v & Ev & Lv & Nv) end.
  { lia. }
  { intros i Hi. ag; [lia|]. reflexivity. }
  rewrite Ev. cbn [bind]. eexists _, _. split; [reflexivity|]. split; [apply ok_small; lia|]. split; [exact Lv|].
  intros i Hi. destruct (Nat.lt_ge_cases i (length vals)) as [Hl|Hl].
  - rewrite !(nth_error_nth' _ (RtoC 0)) by lia. f_equal. rewrite Nv. cbn [Nat.leb Nat.add andb].
    destruct (Nat.ltb_spec i n); [lia|reflexivity].
  - assert (H1 : nth_error v i = None) by (apply nth_error_None; lia).
    assert (H2 : nth_error vals i = None) by (apply nth_error_None; lia). congruence.
Qed.
Lemma l2z_safe n eps_t vals d : (n <= length vals)%nat ->
  exists c v, nse_lambda_to_z n eps_t vals d = Ret (c, v) /\ ok_code c /\ kept n vals v.
Proof.
  intros H. unfold nse_lambda_to_z, via_akns. destruct (nse_to_akns d) as [a|]; [now apply akns_l2z_safe|].
  eexists _, _. split; [reflexivity|]. split; [apply ok_small; lia|apply kept_refl].
Qed.
Lemma z2l_safe n eps_t vals d : (n <= length vals)%nat ->
  exists c v, nse_z_to_lambda n eps_t vals d = Ret (c, v) /\ ok_code c /\ kept n vals v.
Proof.
  intros H. unfold nse_z_to_lambda, via_akns. destruct (nse_to_akns d) as [a|]; [now apply akns_z2l_safe|].
  eexists _, _. split; [reflexivity|]. split; [apply ok_small; lia|apply kept_refl].
Qed.

Lemma phase_bc d f : known_disc d -> exists c v, phase (with_bc (nse_boundary_coeff d) f) = Ret (c, v) /\ ok_code c.
Proof.
  intros H. assert (Hb : nse_boundary_coeff d = Some (1 / 2)%R) by (apply nse_tables_match_names; exact H).
  rewrite Hb. unfold with_bc, eq_NAN, phase. destruct (f (1 / 2)%R) as [v|]; eexists _, _; (split; [reflexivity|apply ok_small; unfold SUCCESS; lia]).
Qed.

Ltac ase n := match goal with |- context [@aset ?A ?l ?i ?v] =>
  let l' := fresh "l" in let El := fresh "El" in let Hl := fresh "Hkept" in
  destruct (@aset_kept A l i v n) as (l' & El & Hl); [| |rewrite El; cbn [bind]; pose proof (kept_length _ _ _ Hl)] end.
Ltac codes := unfold ok_code, INT_MIN, SUCCESS, EC_NOMEM, EC_INVALID_ARGUMENT, EC_DIV_BY_ZERO, EC_OTHER; lia.
Ltac done_ok := eexists _, _; split; [reflexivity|]; split; [codes|try apply kept_refl].

(** ** The continuous spectrum *)
Lemma rho_loop_safe n H11 H21 xi ph M : length H11 = M -> length H21 = M -> length xi = M ->
  forall cnt i result, (i + cnt <= M)%nat -> (M <= n)%nat -> (M <= length result)%nat ->
  exists c res, rho_loop cnt i H11 H21 xi ph result = Ret (c, res) /\ ok_code c /\ kept n result res.
Proof.
  intros L1 L2 L3. induction cnt as [|k IH]; intros i result Hi Hn Hr; cbn [rho_loop].
  - done_ok.
  - ag; [lia|]. destruct (ceq x 0); [done_ok|].
    ag; [lia|]. ag; [lia|]. ase n; [lia|lia|].
    destruct (IH (S i) l) as (c & res & E & Hc & Hk2); [lia|lia|lia|].
    exists c, res. split; [exact E|]. split; [exact Hc|]. eapply kept_trans; eassumption.
Qed.

Lemma ab_loop_safe n H11 H21 xi sc pa pb M off result : length H11 = M -> length H21 = M -> length xi = M ->
  (off + 2 * M <= n)%nat -> (off + 2 * M <= length result)%nat ->
  exists res, ab_loop M off H11 H21 xi sc pa pb result = Ret res /\ kept n result res.
Proof.
  intros L1 L2 L3 Hn Hr. unfold ab_loop.
  match goal with |- context [for_ M 0 ?f result] => destruct (for_inv (fun i l => kept n result l) f M 0 result (kept_refl _ _)) as (l & El & Hl) end.
  { intros i l Hi Hl. pose proof (kept_length _ _ _ Hl). do 3 (ag; [lia|]). ase n; [lia|lia|].
    ase n; [lia|lia|]. eexists. split; [reflexivity|]. repeat (eapply kept_trans; [eassumption|]). apply kept_refl. }
  exists l. auto.
Qed.

Lemma contspec_values_safe E s deg W tm q r eps_t eps_xi D M XI0 xi kappa o : env_ok E ->
  (2 <= D)%nat -> length q = D -> length r = D -> (0 < eps_t)%R -> (1 <= M)%nat -> length xi = M ->
  (tm = None -> deg = O /\ W = 0%Z) -> (forall t, tm = Some t -> (4 * (deg + 1) <= length t)%nat) ->
  exists c H11 H21, contspec_values E s deg W tm q r eps_t eps_xi D M XI0 xi kappa o = Ret (c, (H11, H21))
    /\ ok_code c /\ (c = SUCCESS -> length H11 = M /\ length H21 = M).
Proof.
  intros HE HD Lq Lr He HM Lx Htm Htm2. unfold contspec_values.
  destruct (Nat.eqb deg 0 && _ && Z.eqb W 0) eqn:Eb.
  - destruct (e_alloc E s 2); cbn [negb]. 2:{ eexists _, _, _. split; [reflexivity|]. split; [codes|discriminate]. }
    destruct (normalization_flag o && negb (e_alloc E s 3)). { eexists _, _, _. split; [reflexivity|]. split; [codes|discriminate]. }
    destruct (k_smat E HE s D q r eps_t kappa M xi (normalization_flag o) (discretization o) HD Lq Lr He HM Lx) as (c & sc & Ws & -> & Hc & Lsc & LWs).
    cbn [bind]. unfold check. destruct (Z.eqb_spec c SUCCESS) as [->|N].
    + match goal with |- context [for_ M 0 ?f ([], [])] => destruct (for_inv (fun i (H : list C * list C) => length (fst H) = i /\ length (snd H) = i) f M 0 ([], [])) as ((H11 & H21) & El & Hl) end.
      { split; reflexivity. }
      { intros i [h g] Hi [Hh Hg]. cbn [fst snd] in *. ag; [lia|]. ag; [lia|].
        destruct (normalization_flag o); [ag; [specialize (LWs eq_refl); lia|]|];
        (eexists; split; [reflexivity|]; cbn [fst snd]; rewrite !app_length; cbn [length]; lia). }
      rewrite El. cbn [bind]. exists SUCCESS, H11, H21. split; [reflexivity|]. split; [codes|]. intros _. exact Hl.
    + rewrite E_SUB_ok by exact Hc. cbn [bind]. eexists _, _, _. split; [reflexivity|]. split; [now apply ok_neg|].
      intros Hz. now apply abs_nonzero in Hz.
  - assert (Ht : exists t, tm = Some t).
    { destruct tm as [t|]; [now exists t|]. destruct (Htm eq_refl) as [-> ->]. discriminate. }
    destruct Ht as (t & ->). specialize (Htm2 t eq_refl).
    assert (Hfail : forall c, ok_code c -> c <> SUCCESS -> exists c0 H11 H21, (c <- E_SUBROUTINE c ;; Ret (c, ([], []) : list C * list C)) = Ret (c0, (H11, H21))
       /\ ok_code c0 /\ (c0 = SUCCESS -> length H11 = M /\ length H21 = M)).
    { intros c Hc N. rewrite E_SUB_ok by exact Hc. cbn [bind]. eexists _, _, _. split; [reflexivity|]. split; [now apply ok_neg|].
      intros Hz. now apply abs_nonzero in Hz. }
    destruct (l2z_safe 1 eps_t [RtoC eps_xi] (discretization o)) as (c1 & v1 & -> & Hc1 & K1); [cbn; lia|]. cbn [bind].
    unfold check. destruct (Z.eqb_spec c1 SUCCESS) as [_|N]; [|now apply Hfail].
    destruct (l2z_safe 1 eps_t [RtoC (- XI0)] (discretization o)) as (c2 & v2 & -> & Hc2 & K2); [cbn; lia|]. cbn [bind].
    destruct (Z.eqb_spec c2 SUCCESS) as [_|N]; [|now apply Hfail].
    pose proof (kept_length _ _ _ K1). pose proof (kept_length _ _ _ K2). cbn [length] in *.
    ag; [lia|]. ag; [lia|]. cbn [deref bind].
    match goal with |- context [e_chirpz E s deg ?p ?A ?V M] => destruct (k_chirpz E HE s deg p A V M) as (c3 & H11 & E3 & Hc3 & L3); [rewrite firstn_length; lia|exact HM|] end.
    rewrite E3. cbn [bind]. destruct (Z.eqb_spec c3 SUCCESS) as [S3|N]; [|now apply Hfail].
    match goal with |- context [e_chirpz E s deg ?p ?A ?V M] => destruct (k_chirpz E HE s deg p A V M) as (c4 & H21 & E4 & Hc4 & L4); [rewrite firstn_length, skipn_length; lia|exact HM|] end.
    rewrite E4. cbn [bind]. destruct (Z.eqb_spec c4 SUCCESS) as [S4|N]; [|now apply Hfail].
    exists SUCCESS, H11, H21. split; [reflexivity|]. split; [codes|auto].
Qed.

Lemma step_ok x n : (2 <= n)%nat -> step x n = Ret (x / INR (n - 1))%R.
Proof. intros H. unfold step. destruct (Nat.leb_spec n 1); [lia|reflexivity]. Qed.
Lemma step_pos x n : (0 < x)%R -> (2 <= n)%nat -> (0 < x / INR (n - 1))%R.
Proof. intros H Hn. apply Rdiv_lt_0_compat; [exact H|]. apply lt_0_INR. lia. Qed.

Lemma contspec_safe E s deg W tm q r T D Dg XI M result kappa o : env_ok E -> known_disc (discretization o) ->
  D = (Dg * nse_upsampling_factor (discretization o))%nat -> (2 <= Dg)%nat -> length q = D -> length r = D -> (fst T < snd T)%R ->
  (2 <= M)%nat -> XI <> None ->
  (tm = None -> deg = O /\ W = 0%Z) -> (forall t, tm = Some t -> (4 * (deg + 1) <= length t)%nat) ->
  (cs_values (contspec_type o) * M <= length result)%nat ->
  exists c res, nsev_compute_contspec E s deg W tm q r T D XI M result kappa o = Ret (c, res) /\ ok_code c
    /\ kept (cs_values (contspec_type o) * M) result res.
Proof.
  intros HE Hd HDg Hg Lq Lr HT HM HXI Htm Htm2 Hr. unfold nsev_compute_contspec. cbv zeta.
  pose proof (known_ups _ Hd) as Hu. destruct (Nat.eqb_spec (nse_upsampling_factor (discretization o)) 0); [lia|].
  assert (ED : (D / nse_upsampling_factor (discretization o) = Dg)%nat) by (rewrite HDg; apply Nat.div_mul; lia).
  rewrite ED, step_ok by exact Hg. cbn [bind]. destruct XI as [[xa xb]|]; [|congruence]. cbn [deref bind fst snd].
  rewrite step_ok by exact HM. cbn [bind]. destruct (e_alloc E s 0); cbn [negb]; [|done_ok]. destruct (e_alloc E s 1); cbn [negb]; [|done_ok].
  match goal with |- context [contspec_values E s deg W tm q r ?a ?b D M ?x ?xi kappa o] =>
    destruct (contspec_values_safe E s deg W tm q r a b D M x xi kappa o HE) as (c & H11 & H21 & -> & Hc & L) end; auto.
  { nia. } { apply step_pos; lra || exact Hg. } { lia. } { now rewrite map_length, seq_length. }
  cbn [bind]. destruct (Z.eqb_spec c SUCCESS) as [Sc|N]; cbn [negb]. 2:{ eexists _, _. split; [reflexivity|]. split; [exact Hc|apply kept_refl]. }
  destruct (L Sc) as [L1 L2].
  set (xi := map _ (seq 0 M)) in *. assert (Lx : length xi = M) by (unfold xi; now rewrite map_length, seq_length).
  assert (Hrho : forall n res, (M <= n)%nat -> (M <= length res)%nat -> exists c res', (p <- phase (nse_phase_factor_rho ((snd T - fst T) / INR (Dg - 1)) (snd T) (discretization o)) ;;
      check (fst p) res (rho_loop M 0 H11 H21 xi (snd p) res)) = Ret (c, res') /\ ok_code c /\ kept n res res').
  { intros n0 res Hn Hres. destruct (phase_bc (discretization o)) with (f := fun bc : R => match discretization o with
     | N_2SPLIT2A | N_2SPLIT2_MODAL => if Nat.eqb (nse_degree (discretization o)) 0 then None else Some (- 2 * (snd T + ((snd T - fst T) / INR (Dg - 1)) * bc) + ((snd T - fst T) / INR (Dg - 1)) / INR (nse_degree (discretization o)))%R
     | _ => Some (- 2 * (snd T + ((snd T - fst T) / INR (Dg - 1)) * bc))%R end) as (c1 & v1 & E1 & Hc1); [exact Hd|].
    change (phase (nse_phase_factor_rho ((snd T - fst T) / INR (Dg - 1)) (snd T) (discretization o)) = Ret (c1, v1)) in E1.
    rewrite E1. cbn [bind fst snd]. apply (check_safe (kept n0 res)); [exact Hc1|apply kept_refl|]. intros _.
    apply rho_loop_safe with (M := M); auto; lia. }
  assert (Hab : forall n off res, (off + 2 * M <= n)%nat -> (off + 2 * M <= length res)%nat -> exists c res', (pa <- phase (nse_phase_factor_a ((snd T - fst T) / INR (Dg - 1)) Dg (fst T) (snd T) (discretization o)) ;;
    check (fst pa) res (
    pb <- phase (nse_phase_factor_b ((snd T - fst T) / INR (Dg - 1)) Dg (fst T) (snd T) (discretization o)) ;;
    check (fst pb) res (
    result <- ab_loop M off H11 H21 xi (powerRZ 2 W) (snd pa) (snd pb) res ;;
    Ret (SUCCESS, result)))) = Ret (c, res') /\ ok_code c /\ kept n res res').
  { intros n0 off res Hn Hres. unfold nse_phase_factor_a, nse_phase_factor_b.
    match goal with |- context [with_bc _ ?f] => destruct (phase_bc (discretization o) f Hd) as (c1 & v1 & -> & Hc1) end.
    cbn [bind fst snd]. apply (check_safe (kept n0 res)); [exact Hc1|apply kept_refl|]. intros _.
    match goal with |- context [with_bc _ ?f] => destruct (phase_bc (discretization o) f Hd) as (c2 & v2 & -> & Hc2) end.
    cbn [bind fst snd]. apply (check_safe (kept n0 res)); [exact Hc2|apply kept_refl|]. intros _.
    match goal with |- context [ab_loop M off H11 H21 xi ?a ?b ?c res] => destruct (ab_loop_safe n0 H11 H21 xi a b c M off res) as (res' & -> & Hk) end; auto.
    cbn [bind]. eexists _, _. split; [reflexivity|]. split; [codes|exact Hk]. }
  destruct (contspec_type o); cbn [cs_values] in *.
  - apply Hrho; lia.
  - apply Hab; lia.
  - destruct (Hrho (3 * M)%nat result) as (c1 & r1 & -> & Hc1 & K1); [lia|lia|]. cbn [bind].
    destruct (Z.eqb c1 SUCCESS); cbn [negb]. 2:{ eexists _, _. split; [reflexivity|]. split; [exact Hc1|exact K1]. }
    pose proof (kept_length _ _ _ K1). destruct (Hab (3 * M)%nat M r1) as (c2 & r2 & -> & Hc2 & K2); [lia|lia|].
    exists c2, r2. split; [reflexivity|]. split; [exact Hc2|]. eapply kept_trans; eassumption.
  - done_ok.
Qed.
