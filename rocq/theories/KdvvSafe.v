(** * fnft_kdvv stays inside the arrays of the caller (C63), and its bound states on the imaginary axis (C64): proofs, part 1 *)
From Coq Require Import Reals Lra.
From Coquelicot Require Import Coquelicot.
From Verif Require Import Loop MiscSpec MiscProof MiscProps MiscMetricProps MiscNumProps PolyFmultProof DiscProps NsevSpec NsevProps
  NsevSafe NsevSafe2 NsevSafe3 NsevSafe4 KdvvSpec KdvvProps.
Local Open Scope C_scope.

(** ** The change of basis *)
Lemma kbasis_safe f T x eps_t d : (f = akns_to_S \/ f = akns_from_S) -> length T = 4%nat ->
  exists c v, kdv_basis f T x false eps_t d = Ret (c, v) /\ ok_code c /\ length v = 4%nat.
Proof.
  intros Hf L. unfold kdv_basis.
  assert (H0 : exists c v, Ret ((-2)%Z, T) = Ret (c, v) /\ ok_code c /\ length v = 4%nat) by (eexists _, _; split; [reflexivity|]; split; [codes|exact L]).
  destruct (kdv_vanilla_flag d) as [v|]; [|exact H0]. destruct (kdv_to_akns d) as [a|]; [|exact H0].
  destruct T as [|t0 [|t1 [|t2 [|t3 [|]]]]]; try discriminate.
  destruct Hf as [->| ->]; unfold akns_to_S, akns_from_S, basis_matrix.
  - destruct (Ceq_dec x 0). { eexists _, _; split; [reflexivity|]; split; [codes|exact L]. }
    destruct (akns_to_S_kdv_class a) as [m|]; [|exact H0]. destruct v, m; (eexists _, _; split; [reflexivity|]; split; [codes|reflexivity]).
  - destruct (Ceq_dec x 0). { eexists _, _; split; [reflexivity|]; split; [codes|exact L]. }
    destruct (akns_from_S_kdv_class a) as [m|]; [|exact H0]. destruct v, m; (eexists _, _; split; [reflexivity|]; split; [codes|reflexivity]).
Qed.
Lemma mult2_safe (A B X : list C) : length A = 4%nat -> length B = 4%nat -> length X = 4%nat ->
  exists Y : list C, misc_matrix_mult (K:=CF) 2 2 2 A B X = Ret Y /\ length Y = 4%nat.
Proof.
  intros LA LB LX. destruct (misc_matrix_mult_row_by_column (K:=CF) 2 2 2 A B X) as (Y & E & L & _); [exact LA|exact LB|cbn; rewrite LX; auto|].
  exists Y. split; [exact E|]. transitivity (length X); [exact L|exact LX].
Qed.
Lemma basis_loop_safe E eps_t d M xi : kenv_ok E -> length xi = M -> forall cnt i H, (i + cnt <= M)%nat -> length H = (4 * M)%nat ->
  exists c v, basis_loop E cnt i M xi eps_t d H = Ret (c, v) /\ ok_code c /\ length v = (4 * M)%nat.
Proof.
  intros HE Lx. induction cnt as [|k IH]; intros i H Hi LH; cbn [basis_loop].
  { eexists _, _. split; [reflexivity|]. split; [codes|exact LH]. }
  do 5 (ag; [lia|]).
  destruct (kbasis_safe akns_from_S (ke_junk E 10 4) x3 eps_t d) as (c1 & T1 & E1 & Hc1 & L1); [auto|apply (kk_junk E HE)|]. unfold kdv_from_S. rewrite E1. cbn [bind].
  apply (check_safe (fun v => length v = (4 * M)%nat)); [exact Hc1|exact LH|]. intros _.
  destruct (mult2_safe [x; x0; x1; x2] T1 (ke_junk E 11 4)) as (Y & -> & LY); [reflexivity|exact L1|apply (kk_junk E HE)|]. cbn [bind].
  destruct (kbasis_safe akns_to_S T1 x3 eps_t d) as (c2 & T2 & E2 & Hc2 & L2); [auto|exact L1|]. unfold kdv_to_S. rewrite E2. cbn [bind].
  apply (check_safe (fun v => length v = (4 * M)%nat)); [exact Hc2|exact LH|]. intros _.
  destruct (mult2_safe T2 Y [x; x0; x1; x2]) as (Z & -> & LZ); [exact L2|exact LY|reflexivity|]. cbn [bind].
  destruct Z as [|z0 [|z1 [|z2 [|z3 [|]]]]]; try discriminate. cbn [aget bind].
  rewrite !aset_upd by (rewrite ?upd_length; lia). cbn [bind]. rewrite aset_upd by (rewrite ?upd_length; lia). cbn [bind]. 
  rewrite aset_upd by (rewrite ?upd_length; lia). cbn [bind]. rewrite aset_upd by (rewrite ?upd_length; lia). cbn [bind].
  apply IH; [lia|]. now rewrite !upd_length.
Qed.

(** ** Continuous spectrum *)
Lemma kl2z_safe n eps_t vals d : (n <= length vals)%nat ->
  exists c v, kdv_lambda_to_z n eps_t vals d = Ret (c, v) /\ ok_code c /\ kept n vals v.
Proof.
  intros H. unfold kdv_lambda_to_z, via_akns. destruct (kdv_to_akns d) as [a|]; [now apply akns_l2z_safe|].
  eexists _, _. split; [reflexivity|]. split; [apply ok_small; lia|apply kept_refl].
Qed.
Lemma kphase_bc d f : kdv_known d -> exists c v, phase (with_bc (kdv_boundary_coeff d) f) = Ret (c, v) /\ ok_code c.
Proof.
  intros H. assert (Hb : kdv_boundary_coeff d = Some (1 / 2)%R) by (apply kdv_tables_match_names; exact H).
  rewrite Hb. unfold with_bc, eq_NAN, phase. destruct (f (1 / 2)%R) as [v|]; eexists _, _; (split; [reflexivity|apply ok_small; unfold SUCCESS; lia]).
Qed.

Lemma kcontspec_values_safe E s deg W tm q r eps_t eps_xi D M XI0 xi o : kenv_ok E ->
  (2 <= D)%nat -> length q = D -> length r = D -> (0 < eps_t)%R -> (1 <= M)%nat -> length xi = M ->
  (tm = None -> deg = O /\ W = 0%Z) -> (forall t, tm = Some t -> (4 * (deg + 1) <= length t)%nat) ->
  exists c H11 H21, kcontspec_values E s deg W tm q r eps_t eps_xi D M XI0 xi o = Ret (c, (H11, H21))
    /\ ok_code c /\ (c = SUCCESS -> length H11 = M /\ length H21 = M).
Proof.
  intros HE HD Lq Lr He HM Lx Htm Htm2. unfold kcontspec_values.
  destruct (Nat.eqb deg 0 && _ && Z.eqb W 0) eqn:Eb.
  - destruct (ke_alloc E s 2); cbn [negb]. 2:{ eexists _, _, _. split; [reflexivity|]. split; [codes|discriminate]. }
    destruct (k_norm o && negb (ke_alloc E s 3)). { eexists _, _, _. split; [reflexivity|]. split; [codes|discriminate]. }
    destruct (kk_smat E HE s D q r eps_t M xi (k_norm o) (k_disc o) HD Lq Lr He HM Lx) as (c & sc & Ws & -> & Hc & Lsc & LWs).
    cbn [bind]. unfold check. destruct (Z.eqb_spec c SUCCESS) as [->|N].
    + match goal with |- context [for_ M 0 ?f ([], [])] => destruct (for_inv (fun i (H : list C * list C) => length (fst H) = i /\ length (snd H) = i) f M 0 ([], [])) as ((H11 & H21) & El & Hl) end.
      { split; reflexivity. }
      { intros i [h g] Hi [Hh Hg]. cbn [fst snd] in *. ag; [lia|]. ag; [lia|].
        destruct (k_norm o); [ag; [specialize (LWs eq_refl); lia|]|];
        (eexists; split; [reflexivity|]; cbn [fst snd]; rewrite !app_length; cbn [length]; lia). }
      rewrite El. cbn [bind]. exists SUCCESS, H11, H21. split; [reflexivity|]. split; [codes|]. intros _. exact Hl.
    + rewrite E_SUB_ok by exact Hc. cbn [bind]. eexists _, _, _. split; [reflexivity|]. split; [now apply ok_neg|].
      intros Hz. now apply abs_nonzero in Hz.
  - assert (Ht : exists t, tm = Some t).
    { destruct tm as [t|]; [now exists t|]. destruct (Htm eq_refl) as [-> ->]. discriminate. }
    destruct Ht as (t & ->). specialize (Htm2 t eq_refl).
    assert (Hfail : forall c, ok_code c -> c <> SUCCESS -> exists c0 H11 H21, (c <- E_SUBROUTINE c ;; Ret (c, ([], []) : list C * list C)) = Ret (c0, (H11, H21))
       /\ ok_code c0 /\ (c0 = SUCCESS -> length H11 = M /\ length H21 = M)).
    { intros c Hc N. rewrite E_SUB_ok by exact Hc. cbn [bind]. eexists _, _, _. split; [reflexivity|]. split; [now apply ok_neg|].
      intros Hz. now apply abs_nonzero in Hz. }
    destruct (kl2z_safe 1 eps_t [RtoC eps_xi] (k_disc o)) as (c1 & v1 & -> & Hc1 & K1); [cbn; lia|]. cbn [bind].
    unfold check. destruct (Z.eqb_spec c1 SUCCESS) as [_|N]; [|now apply Hfail].
    destruct (kl2z_safe 1 eps_t [RtoC (- XI0)] (k_disc o)) as (c2 & v2 & -> & Hc2 & K2); [cbn; lia|]. cbn [bind].
    destruct (Z.eqb_spec c2 SUCCESS) as [_|N]; [|now apply Hfail].
    pose proof (kept_length _ _ _ K1). pose proof (kept_length _ _ _ K2). cbn [length] in *.
    ag; [lia|]. ag; [lia|]. cbn [deref bind].
    match goal with |- context [ke_chirpz E s deg ?p ?A ?V M] => destruct (kk_chirpz E HE s deg p A V M) as (c3 & H11 & E3 & Hc3 & L3); [rewrite firstn_length; lia|exact HM|] end.
    rewrite E3. cbn [bind]. destruct (Z.eqb_spec c3 SUCCESS) as [S3|N]; [|now apply Hfail].
    match goal with |- context [ke_chirpz E s deg ?p ?A ?V M] => destruct (kk_chirpz E HE s deg p A V M) as (c4 & H12 & E4 & Hc4 & L4); [rewrite firstn_length, skipn_length; lia|exact HM|] end.
    rewrite E4. cbn [bind]. destruct (Z.eqb_spec c4 SUCCESS) as [S4|N]; [|now apply Hfail].
    match goal with |- context [ke_chirpz E s deg ?p ?A ?V M] => destruct (kk_chirpz E HE s deg p A V M) as (c5 & H21 & E5 & Hc5 & L5); [rewrite firstn_length, skipn_length; lia|exact HM|] end.
    rewrite E5. cbn [bind]. destruct (Z.eqb_spec c5 SUCCESS) as [S5|N]; [|now apply Hfail].
    match goal with |- context [ke_chirpz E s deg ?p ?A ?V M] => destruct (kk_chirpz E HE s deg p A V M) as (c6 & H22 & E6 & Hc6 & L6); [rewrite firstn_length, skipn_length; lia|exact HM|] end.
    rewrite E6. cbn [bind]. destruct (Z.eqb_spec c6 SUCCESS) as [S6|N]; [|now apply Hfail].
    destruct (basis_loop_safe E eps_t (k_disc o) M xi HE Lx M 0 (H11 ++ H12 ++ H21 ++ H22)) as (c7 & Hv & -> & Hc7 & LH); [lia| |].
    { rewrite !app_length, L3, L4, L5, L6 by assumption. lia. }
    cbn [bind]. destruct (Z.eqb_spec c7 SUCCESS) as [S7|N]; cbn [negb].
    + eexists _, _, _. split; [reflexivity|]. split; [codes|]. intros _. rewrite !firstn_length, skipn_length. lia.
    + eexists _, _, _. split; [reflexivity|]. split; [exact Hc7|congruence].
Qed.

Lemma kcontspec_safe E s deg W tm q r T D Dg XI M result o : kenv_ok E -> kdv_known (k_disc o) ->
  D = (Dg * kdv_upsampling_factor (k_disc o))%nat -> (2 <= Dg)%nat -> length q = D -> length r = D -> (fst T < snd T)%R ->
  (2 <= M)%nat -> XI <> None ->
  (tm = None -> deg = O /\ W = 0%Z) -> (forall t, tm = Some t -> (4 * (deg + 1) <= length t)%nat) ->
  (cs_values (k_cs o) * M <= length result)%nat ->
  exists c res, kdvv_compute_contspec E s deg W tm q r T D XI M result o = Ret (c, res) /\ ok_code c
    /\ kept (cs_values (k_cs o) * M) result res.
Proof.
  intros HE Hd HDg Hg Lq Lr HT HM HXI Htm Htm2 Hr. unfold kdvv_compute_contspec. cbv zeta.
  pose proof (proj1 (kups _) Hd) as Hu. destruct (Nat.eqb_spec (kdv_upsampling_factor (k_disc o)) 0); [lia|].
  assert (ED : (D / kdv_upsampling_factor (k_disc o) = Dg)%nat) by (rewrite HDg; apply Nat.div_mul; lia).
  rewrite ED, step_ok by exact Hg. cbn [bind]. destruct XI as [[xa xb]|]; [|congruence]. cbn [deref bind fst snd].
  rewrite step_ok by exact HM. cbn [bind]. destruct (ke_alloc E s 0); cbn [negb]; [|done_ok]. destruct (ke_alloc E s 1); cbn [negb]; [|done_ok].
  match goal with |- context [kcontspec_values E s deg W tm q r ?a ?b D M ?x ?xi o] =>
    destruct (kcontspec_values_safe E s deg W tm q r a b D M x xi o HE) as (c & H11 & H21 & -> & Hc & L) end; auto.
  { nia. } { apply step_pos; lra || exact Hg. } { lia. } { now rewrite map_length, seq_length. }
  cbn [bind]. destruct (Z.eqb_spec c SUCCESS) as [Sc|N]; cbn [negb]. 2:{ eexists _, _. split; [reflexivity|]. split; [exact Hc|apply kept_refl]. }
  destruct (L Sc) as [L1 L2].
  set (xi := map _ (seq 0 M)) in *. assert (Lx : length xi = M) by (unfold xi; now rewrite map_length, seq_length).
  assert (Hrho : forall n res, (M <= n)%nat -> (M <= length res)%nat -> exists c res', (p <- phase (kdv_phase_factor_rho ((snd T - fst T) / INR (Dg - 1)) (snd T) (k_disc o)) ;;
      check (fst p) res (rho_loop M 0 H11 H21 xi (snd p) res)) = Ret (c, res') /\ ok_code c /\ kept n res res').
  { intros n0 res Hn Hres. unfold kdv_phase_factor_rho.
    match goal with |- context [with_bc _ ?f] => destruct (kphase_bc (k_disc o) f Hd) as (c1 & v1 & -> & Hc1) end.
    cbn [bind fst snd]. apply (check_safe (kept n0 res)); [exact Hc1|apply kept_refl|]. intros _.
    apply rho_loop_safe with (M := M); auto; lia. }
  assert (Hab : forall n off res, (off + 2 * M <= n)%nat -> (off + 2 * M <= length res)%nat -> exists c res', (pa <- phase (kdv_phase_factor_a ((snd T - fst T) / INR (Dg - 1)) Dg (fst T) (snd T) (k_disc o)) ;;
    check (fst pa) res (
    pb <- phase (kdv_phase_factor_b ((snd T - fst T) / INR (Dg - 1)) Dg (fst T) (snd T) (k_disc o)) ;;
    check (fst pb) res (
    result <- ab_loop M off H11 H21 xi (powerRZ 2 W) (snd pa) (snd pb) res ;;
    Ret (SUCCESS, result)))) = Ret (c, res') /\ ok_code c /\ kept n res res').
  { intros n0 off res Hn Hres. unfold kdv_phase_factor_a, kdv_phase_factor_b.
    match goal with |- context [with_bc _ ?f] => destruct (kphase_bc (k_disc o) f Hd) as (c1 & v1 & -> & Hc1) end.
    cbn [bind fst snd]. apply (check_safe (kept n0 res)); [exact Hc1|apply kept_refl|]. intros _.
    match goal with |- context [with_bc _ ?f] => destruct (kphase_bc (k_disc o) f Hd) as (c2 & v2 & -> & Hc2) end.
    cbn [bind fst snd]. apply (check_safe (kept n0 res)); [exact Hc2|apply kept_refl|]. intros _.
    match goal with |- context [ab_loop M off H11 H21 xi ?a ?b ?c res] => destruct (ab_loop_safe n0 H11 H21 xi a b c M off res) as (res' & -> & Hk) end; auto.
    cbn [bind]. eexists _, _. split; [reflexivity|]. split; [codes|exact Hk]. }
  destruct (k_cs o); cbn [cs_values] in *.
  - apply Hrho; lia.
  - apply Hab; lia.
  - destruct (Hrho (3 * M)%nat result) as (c1 & r1 & -> & Hc1 & K1); [lia|lia|]. cbn [bind].
    destruct (Z.eqb c1 SUCCESS); cbn [negb]. 2:{ eexists _, _. split; [reflexivity|]. split; [exact Hc1|exact K1]. }
    pose proof (kept_length _ _ _ K1). destruct (Hab (3 * M)%nat M r1) as (c2 & r2 & -> & Hc2 & K2); [lia|lia|].
    exists c2, r2. split; [reflexivity|]. split; [exact Hc2|]. eapply kept_trans; eassumption.
  - done_ok.
Qed.

(** ** Norming constants *)
Lemma kslow_some d : kdv_known d -> exists s, kdv_slow_discretization d = Some s.
Proof. unfold kdv_known. destruct d; cbn; try congruence; intros _; eexists; reflexivity. Qed.

Lemma knormconsts_safe E s D q r T K bs nc o : kenv_ok E -> kdv_known (k_disc o) -> (2 <= D)%nat -> length q = D -> length r = D -> (fst T < snd T)%R ->
  (1 <= K <= length bs)%nat -> (ds_values (k_ds o) * K <= length nc)%nat ->
  exists c nc', kdvv_compute_normconsts E s D q r T K bs nc o = Ret (c, nc') /\ ok_code c /\ kept (ds_values (k_ds o) * K) nc nc'.
Proof.
  intros HE Hd HD Lq Lr HT HK Hnc. unfold kdvv_compute_normconsts.
  set (n := (ds_values (k_ds o) * K)%nat) in *.
  assert (HKn : (K <= n)%nat) by (unfold n; destruct (k_ds o); cbn; lia).
  destruct (ke_alloc E s 5); cbn [negb]; [|done_ok].
  destruct (k_norm o && negb (ke_alloc E s 6)); [done_ok|].
  destruct (Nat.eqb _ 0); [done_ok|]. destruct (kslow_some _ Hd) as (slow & ->).
  destruct (kk_sbs E HE s D q r T K (firstn K bs) (k_norm o) slow false HD Lq Lr HT) as
    (c & a & ap & b & Ws & -> & Hc & La & Lap & Lb & LW & _); [lia|rewrite firstn_length; lia|].
  specialize (Lb eq_refl). cbn [bind].
  destruct (copy_kept K 0 b nc n) as (nc1 & -> & K1); [lia|lia|lia|]. cbn [bind]. pose proof (kept_length _ _ _ K1).
  apply (check_safe (kept n nc)); [exact Hc|exact K1|]. intros _.
  assert (Hw : forall w, (if k_norm o then Some Ws else None) = Some w -> length w = K).
  { intros w Ew. destruct (k_norm o); [|discriminate]. injection Ew as <-. auto. }
  destruct (k_ds o) eqn:Eds; cbn [ds_values] in *.
  - eexists _, _. split; [reflexivity|]. split; [codes|exact K1].
  - destruct (residue_loop_safe n K 0 ap (if k_norm o then Some Ws else None) Lap Hw ltac:(lia) K 0 nc1) as (c2 & nc2 & -> & Hc2 & K2); [lia|lia|].
    eexists _, _. split; [reflexivity|]. split; [exact Hc2|]. eapply kept_trans; eassumption.
  - destruct (copy_kept K K nc1 nc1 n) as (nc3 & -> & K3); [lia|lia|lia|]. cbn [bind]. pose proof (kept_length _ _ _ K3).
    destruct (residue_loop_safe n K K ap (if k_norm o then Some Ws else None) Lap Hw ltac:(lia) K 0 nc3) as (c2 & nc2 & -> & Hc2 & K2); [lia|lia|].
    eexists _, _. split; [reflexivity|]. split; [exact Hc2|]. repeat (eapply kept_trans; [eassumption|]). apply kept_refl.
  - eexists _, _. split; [reflexivity|]. split; [codes|exact K1].
Qed.

(** ** Newton: at most max(1, niter - iter) evaluations; the iterates stay on the imaginary axis *)
Lemma newton_step_axis a b e : newton_step a b = Ret e -> fst e = 0%R.
Proof.
  unfold newton_step. destruct (Req_EM_T (snd b) 0) as [|N]; [discriminate|]. intros H. injection H as <-.
  unfold Cdiv, Cmult, Cinv, RtoC, Ci. cbn [fst snd]. field. nra.
Qed.
Lemma newton_step_ok a b : snd b <> 0%R -> exists e, newton_step a b = Ret e.
Proof. unfold newton_step. destruct (Req_EM_T (snd b) 0); [contradiction|]. eexists. reflexivity. Qed.

Lemma knewton_loop_safe E s D q r T d nit bb norm : kenv_ok E -> (2 <= D)%nat -> length q = D -> length r = D -> (fst T < snd T)%R ->
  forall fuel iter lam, (nit - iter <= fuel)%nat -> (1 <= fuel)%nat -> on_imaginary_axis lam ->
  exists c lam' calls, knewton_loop E fuel iter s D q r T d nit bb norm lam = Ret (c, lam', calls) /\ ok_code c
    /\ on_imaginary_axis lam' /\ (1 <= calls <= Nat.max 1 (nit - iter))%nat.
Proof.
  intros HE HD Lq Lr HT. induction fuel as [|fuel IH]; intros iter lam Hf Hf1 Hl; [lia|]; cbn [knewton_loop].
  destruct (kk_sbs E HE s D q r T 1 [lam] norm d true HD Lq Lr HT) as (c & a & ap & b & Ws & -> & Hc & La & Lap & _ & _ & Hax); [lia|reflexivity|].
  cbn [bind]. destruct (Z.eqb_spec c SUCCESS) as [_|N]; cbn [negb].
  2:{ rewrite E_SUB_ok by exact Hc. cbn [bind]. rewrite E_SUB_ok by now apply ok_neg. cbn [bind].
      eexists _, _, _. split; [reflexivity|]. split; [now apply ok_neg, ok_neg|]. split; [exact Hl|lia]. }
  destruct a as [|a0 []]; try discriminate. destruct ap as [|ap0 []]; try discriminate. cbn [aget bind].
  assert (H1 : forall (c0 : Z) (l : C), ok_code c0 -> on_imaginary_axis l -> exists (c : Z) (lam' : C) (calls : nat), Ret (c0, l, 1%nat) = Ret (c, lam', calls) /\ ok_code c /\ on_imaginary_axis lam' /\ (1 <= calls <= Nat.max 1 (nit - iter))%nat).
  { intros c0 l H0 Hl0. exists c0, l, 1%nat. split; [reflexivity|]. split; [exact H0|]. split; [exact Hl0|lia]. }
  destruct (ceq a0 0); [apply H1; [codes|exact Hl]|].
  assert (Hap : ap0 = RtoC 0 \/ snd ap0 <> 0%R).
  { assert (F : Forall on_imaginary_axis [lam]) by (constructor; [exact Hl|constructor]). apply Hax in F. now inversion F. }
  unfold ceq at 1. destruct (Ceq_dec ap0 0) as [|Nz]; [apply H1; [codes|exact Hl]|].
  destruct Hap as [|Hap]; [congruence|]. destruct (newton_step_ok a0 ap0 Hap) as (e & Ee). rewrite Ee. cbn [bind].
  assert (Hl' : on_imaginary_axis (lam - e)).
  { unfold on_imaginary_axis in *. apply newton_step_axis in Ee. destruct lam, e. cbn in *. subst. ring. }
  destruct (left_box bb (lam - e)); [apply H1; [codes|exact Hl']|].
  destruct (negb _ && (S iter <? nit)%nat) eqn:Eg; [|apply H1; [codes|exact Hl']].
  apply andb_true_iff in Eg. destruct Eg as [_ Eg]. apply Nat.ltb_lt in Eg.
  destruct (IH (S iter) (lam - e)) as (c1 & l1 & n1 & -> & Hc1 & Hl1 & Hn1); [lia|lia|exact Hl'|].
  cbn [bind]. eexists _, _, _. split; [reflexivity|]. split; [exact Hc1|]. split; [exact Hl1|lia].
Qed.

(** the first n entries are on the imaginary axis *)
Definition axis (n : nat) (l : list C) : Prop := forall i x, (i < n)%nat -> nth_error l i = Some x -> on_imaginary_axis x.
Lemma axis_mono n m l : (m <= n)%nat -> axis n l -> axis m l.
Proof. intros H A i x Hi. apply A. lia. Qed.
Lemma nth_error_upd_same {A} (l : list A) i x y : nth_error (upd l i x) i = Some y -> y = x.
Proof. revert i. induction l as [|a l IH]; intros [|i]; cbn; try discriminate; [congruence|apply IH]. Qed.
Lemma axis_upd n l i x : axis n l -> on_imaginary_axis x -> axis n (upd l i x).
Proof.
  intros A Hx j y Hj Hy. destruct (Nat.eq_dec i j) as [->|N].
  - apply nth_error_upd_same in Hy. now subst.
  - rewrite nth_error_upd_other in Hy by exact N. eapply A; eassumption.
Qed.
Lemma axis_grow n l x : axis n l -> on_imaginary_axis x -> axis (S n) (upd l n x).
Proof.
  intros A Hx j y Hj Hy. destruct (Nat.eq_dec n j) as [->|N].
  - apply nth_error_upd_same in Hy. now subst.
  - rewrite nth_error_upd_other in Hy by exact N. eapply A; [|exact Hy]. lia.
Qed.
Lemma kept_upd {A} n (l : list A) i x : (i < n)%nat -> kept n l (upd l i x).
Proof. intros H. split; [apply upd_length|]. intros j Hj. apply nth_error_upd_other. lia. Qed.

Lemma knewton_all_safe E s D q r T d nit bb norm n : kenv_ok E -> (2 <= D)%nat -> length q = D -> length r = D -> (fst T < snd T)%R -> (1 <= nit)%nat ->
  forall cnt i bs, (i + cnt <= n)%nat -> (n <= length bs)%nat -> axis n bs ->
  exists c bs', knewton_all E cnt i s D q r T d nit bb norm bs = Ret (c, bs') /\ ok_code c /\ kept n bs bs' /\ axis n bs'.
Proof.
  intros HE HD Lq Lr HT Hn1. induction cnt as [|k IH]; intros i bs Hi Hn Ha; cbn [knewton_all].
  { eexists _, _. split; [reflexivity|]. split; [codes|]. split; [apply kept_refl|exact Ha]. }
  ag; [lia|]. assert (Hx : on_imaginary_axis x) by (eapply Ha; [|apply aget_Some; exact Ex]; lia).
  destruct (knewton_loop_safe E s D q r T d nit bb norm HE HD Lq Lr HT nit 0 x) as (c & l & calls & -> & Hc & Hl & _); [lia|lia|exact Hx|].
  cbn [bind]. rewrite aset_upd by lia. cbn [bind]. destruct (Z.eqb c SUCCESS); cbn [negb].
  - destruct (IH (S i) (upd bs i l)) as (c1 & b1 & -> & Hc1 & K1 & A1); [lia|rewrite upd_length; lia|now apply axis_upd|]. exists c1, b1. split; [reflexivity|]. split; [exact Hc1|].
    split; [|exact A1]. eapply kept_trans; [|exact K1]. apply kept_upd. lia.
  - eexists _, _. split; [reflexivity|]. split; [exact Hc|]. split; [apply kept_upd; lia|now apply axis_upd].
Qed.

Lemma knewton_safe E s D q r T K bs d nit bb norm : kenv_ok E -> (2 <= D)%nat -> length q = D -> length r = D -> (fst T < snd T)%R ->
  (K <= length bs)%nat -> axis K bs ->
  exists c bs', kdvv_refine_newton E s D q r T K bs d nit bb norm = Ret (c, bs') /\ ok_code c /\ kept K bs bs' /\ axis K bs'.
Proof.
  intros HE HD Lq Lr HT HK Ha. unfold kdvv_refine_newton.
  assert (H0 : forall c, ok_code c -> exists c' bs', Ret (c, bs) = Ret (c', bs') /\ ok_code c' /\ kept K bs bs' /\ axis K bs').
  { intros c Hc. exists c, bs. split; [reflexivity|]. split; [exact Hc|]. split; [apply kept_refl|exact Ha]. }
  destruct (Nat.eqb K 0); [apply H0; codes|]. destruct (Nat.eqb_spec nit 0); [apply H0; codes|].
  destruct (_ || _); [apply H0; codes|]. apply knewton_all_safe; auto. lia.
Qed.
