(** * The grid searches: invalid arguments, exact grid roots, double reports *)
From Coq Require Import Reals Lra.
From Coquelicot Require Import Coquelicot.
From Verif Require Export GridGen.
Local Open Scope C_scope.

Definition phi_invalid (PHI : option (xreal * xreal)) : Prop :=
  match PHI with
  | None => True
  | Some (Fin a, Fin b) => (b <= a)%R
  | Some _ => True              (* an infinite or NaN bound *)
  end.
Lemma phi_bad_inv a b : phi_invalid (Some (a, b)) -> phi_bad (a, b) = true.
Proof.
  unfold phi_bad. destruct a as [x|[]|], b as [y|[]|]; cbn; try reflexivity. intros H. destruct (Rlt_dec x y); [lra|reflexivity].
Qed.
(** each invalid argument gives error 2; count and array stay as they were *)
Theorem gridsearch_invalid junk junkv deg p M_ptr PHI roots :
  (deg < 2)%nat \/ p = None \/ (forall M, M_ptr = Some M -> (M < 2)%nat) \/ phi_invalid PHI \/ roots = None ->
  poly_roots_fftgridsearch junk junkv deg p M_ptr PHI roots = Ret (2%Z, M_ptr, roots).
Proof.
  intros H. unfold poly_roots_fftgridsearch. destruct (Nat.ltb_spec deg 2); [reflexivity|]. destruct p as [p|]; [|reflexivity].
  destruct M_ptr as [M|]; [|reflexivity]. destruct (Nat.ltb_spec M 2); [reflexivity|]. destruct PHI as [[a b]|]; [|reflexivity].
  destruct H as [H|[H|[H|[H|H]]]]; try lia; try discriminate.
  - specialize (H M eq_refl). lia.
  - now rewrite (phi_bad_inv a b H).
  - subst roots. now destruct (phi_bad (a, b)).
Qed.
Theorem gridsearch_paraherm_invalid junk deg p M_ptr PHI roots :
  Nat.odd deg = true \/ (deg < 2)%nat \/ p = None \/ (forall M, M_ptr = Some M -> (M < 2)%nat) \/ phi_invalid PHI \/ roots = None ->
  poly_roots_fftgridsearch_paraherm junk deg p M_ptr PHI roots = Ret (2%Z, M_ptr, roots).
Proof.
  intros H. unfold poly_roots_fftgridsearch_paraherm. destruct (Nat.eqb_spec (deg mod 2) 1) as [|No]; [reflexivity|].
  destruct (Nat.ltb_spec deg 2); [reflexivity|]. cbn [orb]. destruct p as [p|]; [|reflexivity].
  destruct M_ptr as [M|]; [|reflexivity]. destruct (Nat.ltb_spec M 2); [reflexivity|]. destruct PHI as [[a b]|]; [|reflexivity].
  destruct H as [H|[H|[H|[H|[H|H]]]]]; try lia; try discriminate.
  - exfalso. apply No. apply Nat.odd_spec in H as (x & ->). rewrite Nat.add_comm, Nat.mul_comm, Nat.mod_add; lia.
  - specialize (H M eq_refl). lia.
  - now rewrite (phi_bad_inv a b H).
  - subst roots. now destruct (phi_bad (a, b)).
Qed.

(** a root that is an interior grid point is always reported, exactly *)
Theorem gridsearch_exact_root junk junkv (deg : nat) (p : list C) (M : nat) (phi0 phi1 : R) (roots : list C) (i : nat) :
  (forall k a n, length (junk k a n) = n) -> (forall n, length (junkv n) = n) -> (2 <= deg)%nat -> length p = (deg + 1)%nat ->
  (2 <= M)%nat -> (phi0 < phi1)%R -> ((phi1 - phi0) / INR (M - 1) <> 1)%R -> (M - 2 <= length roots)%nat ->
  (1 <= i <= M - 2)%nat -> peval (K := CF) p (eitheta (angle phi0 phi1 M i)) = RtoC 0 ->
  exists n roots' k,
    poly_roots_fftgridsearch junk junkv deg (Some p) (Some M) (Some (Fin phi0, Fin phi1)) (Some roots)
      = Ret (0%Z, Some n, Some roots') /\ (k < n)%nat /\ nth k roots' 0 = eitheta (angle phi0 phi1 M i).
Proof.
  intros Hj Hjv Hd Hp HM Hphi Heps HL Hi Hz.
  destruct (gridsearch_result junk junkv deg p M phi0 phi1 roots Hj Hjv Hd Hp HM Hphi Heps HL) as (r' & acc & E & _ & _ & R1 & _ & _ & I2).
  assert (A : In (i, eitheta (angle phi0 phi1 M i)) acc).
  { apply I2. split; [exact Hi|]. split; [|split].
    - intros k j _ _. rewrite Hz, Cmod_0. apply Cmod_ge_0.
    - unfold estimate. cbv zeta. rewrite Hz. destruct (Ceq_dec (ls_slope p phi0 phi1 M i) 0) as [Z|NZ]; [right; auto|left].
      split; [exact NZ|]. unfold Cdiv. ring.
    - replace (eitheta (angle phi0 phi1 M i) - eitheta (angle phi0 phi1 M i)) with (RtoC 0) by ring. rewrite Cmod_0.
      apply Rlt_le. apply (grid_eps_pos phi0 phi1 M Hphi HM). }
  apply (In_nth _ _ (0%nat, RtoC 0)) in A as (k & Hk & Ek).
  exists (length acc), r', k. split; [exact E|]. split; [exact Hk|]. rewrite R1 by exact Hk. now rewrite Ek.
Qed.
(** the least squares fit places the values of the outer rings at points that differ from the
   points of evaluation by eps^2/(1 +- eps): a discrepancy of second order in the grid size *)
Theorem fit_point_mismatch (phi0 phi1 : R) (M j : nat) : let eps := ((phi1 - phi0) / INR (M - 1))%R in (0 < eps < 1)%R ->
  Cmod (fit_point phi0 phi1 M 0 j - ring_point phi0 phi1 M 0 j) = (eps ^ 2 / (1 - eps))%R
  /\ fit_point phi0 phi1 M 1 j = ring_point phi0 phi1 M 1 j
  /\ Cmod (fit_point phi0 phi1 M 2 j - ring_point phi0 phi1 M 2 j) = (eps ^ 2 / (1 + eps))%R.
Proof.
  intros eps He. unfold fit_point, ring_point. fold eps. split; [|split].
  - simpl INR. replace (RtoC (1 - (0 - 1) * eps) * eitheta (angle phi0 phi1 M j) - RtoC (/ (1 + (0 - 1) * eps)) * eitheta (angle phi0 phi1 M j))
      with (RtoC ((1 - (0 - 1) * eps) - / (1 + (0 - 1) * eps)) * eitheta (angle phi0 phi1 M j)) by (rewrite RtoC_minus; ring).
    rewrite Cmod_mult, e_mod, Rmult_1_r, Cmod_R.
    replace (1 - (0 - 1) * eps - / (1 + (0 - 1) * eps))%R with (- (eps ^ 2 / (1 - eps)))%R by (field; lra).
    rewrite Rabs_Ropp. apply Rabs_pos_eq. apply Rdiv_le_0_compat; [nra|lra].
  - simpl INR. replace (1 - (1 - 1) * eps)%R with 1%R by ring. replace (/ (1 + (1 - 1) * eps))%R with 1%R by field. reflexivity.
  - simpl INR. replace (RtoC (1 - (1 + 1 - 1) * eps) * eitheta (angle phi0 phi1 M j) - RtoC (/ (1 + (1 + 1 - 1) * eps)) * eitheta (angle phi0 phi1 M j))
      with (RtoC ((1 - (1 + 1 - 1) * eps) - / (1 + (1 + 1 - 1) * eps)) * eitheta (angle phi0 phi1 M j)) by (rewrite RtoC_minus; ring).
    rewrite Cmod_mult, e_mod, Rmult_1_r, Cmod_R.
    replace (1 - (1 + 1 - 1) * eps - / (1 + (1 + 1 - 1) * eps))%R with (- (eps ^ 2 / (1 + eps)))%R by (field; lra).
    rewrite Rabs_Ropp. apply Rabs_pos_eq. apply Rdiv_le_0_compat; [nra|lra].
Qed.

(** "every root is reported once" is false for the para-hermitian search: a simple root at an
   interior grid point is reported by both neighbouring cells *)
Theorem gridsearch_paraherm_once_refuted junk (deg m : nat) (p : list C) (M : nat) (phi0 phi1 : R) (roots : list C) (i : nat) :
  (forall k n, length (junk k n) = n) -> deg = (2 * m)%nat -> (1 <= m)%nat -> length p = (deg + 1)%nat -> paraherm p ->
  (2 <= M)%nat -> (phi0 < phi1)%R -> (M <= length roots)%nat ->
  let f := fun i => fst (phase_free p (angle phi0 phi1 M i)) in
  (1 <= i <= M - 2)%nat -> f (i - 1)%nat <> 0%R -> f i = 0%R -> f (i + 1)%nat <> 0%R ->
  exists n roots' k k',
    poly_roots_fftgridsearch_paraherm junk deg (Some p) (Some M) (Some (Fin phi0, Fin phi1)) (Some roots)
      = Ret (0%Z, Some n, Some roots')
    /\ k <> k' /\ (k < n)%nat /\ (k' < n)%nat
    /\ nth k roots' 0 = eitheta (angle phi0 phi1 M i) /\ nth k' roots' 0 = eitheta (angle phi0 phi1 M i).
Proof.
  intros Hj Hd Hm Hp Hh HM Hphi HL f Hi Fa Fi Fb.
  destruct (gridsearch_paraherm_result junk deg m p M phi0 phi1 roots Hj Hd Hm Hp Hh HM Hphi HL)
    as (n & r' & idx & E & _ & _ & En & _ & _ & Hin & Hr).
  change (forall i, In i idx <-> (1 <= i <= M - 1)%nat /\ (f (i - 1)%nat * f i <= 0)%R) in Hin.
  assert (A1 : In i idx) by (apply Hin; split; [lia|]; rewrite Fi; lra).
  assert (A2 : In (i + 1)%nat idx) by (apply Hin; split; [lia|]; replace (i + 1 - 1)%nat with i by lia; rewrite Fi; lra).
  apply (In_nth _ _ 0%nat) in A1 as (k & Hk & Ek). apply (In_nth _ _ 0%nat) in A2 as (k' & Hk' & Ek').
  exists n, r', k, k'. split; [exact E|]. split; [intros ->; lia|]. rewrite En. split; [exact Hk|]. split; [exact Hk'|].
  rewrite <- En in Hk, Hk'. split.
  - destruct (Hr k Hk) as (t & Et & _ & Ei & _). cbv zeta in Ei. rewrite Ek in Ei. change (fst (phase_free p (angle phi0 phi1 M (i - 1)))) with (f (i - 1)%nat) in Ei. change (fst (phase_free p (angle phi0 phi1 M i))) with (f i) in Ei. rewrite Fi in Ei. rewrite Et. f_equal.
    assert (f (i - 1)%nat * (angle phi0 phi1 M i - t) = 0)%R by lra. apply Rmult_integral in H as [H|H]; [contradiction|lra].
  - destruct (Hr k' Hk') as (t & Et & _ & Ei & _). cbv zeta in Ei. rewrite Ek' in Ei. replace (i + 1 - 1)%nat with i in Ei by lia.
    change (fst (phase_free p (angle phi0 phi1 M (i + 1)))) with (f (i + 1)%nat) in Ei. change (fst (phase_free p (angle phi0 phi1 M i))) with (f i) in Ei. rewrite Fi in Ei. rewrite Et. f_equal.
    assert (f (i + 1)%nat * (t - angle phi0 phi1 M i) = 0)%R by lra. apply Rmult_integral in H as [H|H]; [contradiction|lra].
Qed.
Print Assumptions gridsearch_result.
Print Assumptions gridsearch_paraherm_result.
Print Assumptions gridsearch_invalid.
Print Assumptions gridsearch_paraherm_invalid.
Print Assumptions gridsearch_exact_root.
Print Assumptions fit_point_mismatch.
Print Assumptions gridsearch_paraherm_once_refuted.

(** ** Concrete instances: p(z) = z^2 + 1 with roots at +-i *)
Definition junk0' (_ n : nat) : list C := repeat (RtoC 0) n.
Example ex_poly : list C := [RtoC 1; RtoC 0; RtoC 1].
Example ex_paraherm : paraherm ex_poly.
Proof. intros k Hk. cbn in Hk. destruct k as [|[|[|]]]; cbn [ex_poly nth length Nat.sub]; try lia; symmetry; apply Cconj_R. Qed.
Lemma ex_f phi : fst (phase_free ex_poly phi) = (2 * cos phi)%R.
Proof.
  rewrite (phase_free_sum ex_poly phi 1 eq_refl). cbn [Nat.mul Nat.add fsum ex_poly nth]. change (@fadd CF) with Cplus. change (@f0 CF) with (RtoC 0).
  unfold eitheta. simpl INR. replace ((1 - 0) * phi)%R with phi by ring. replace ((1 - (1 + 1)) * phi)%R with (- phi)%R by ring.
  cbn. rewrite cos_neg. ring.
Qed.
(** the simple root i of z^2+1 is reported twice on a 3-point grid over [0, PI] *)
Example ex_twice : exists n roots' k k',
  poly_roots_fftgridsearch_paraherm junk0' 2 (Some ex_poly) (Some 3%nat) (Some (Fin 0, Fin PI)) (Some (repeat (RtoC 0) 3))
    = Ret (0%Z, Some n, Some roots') /\ k <> k' /\ (k < n)%nat /\ (k' < n)%nat /\ nth k roots' 0 = Ci /\ nth k' roots' 0 = Ci.
Proof.
  pose proof PI_RGT_0 as HP.
  assert (A0 : angle 0 PI 3 0 = 0%R) by (unfold angle; simpl; field). assert (A1 : angle 0 PI 3 1 = (PI / 2)%R) by (unfold angle; simpl; field).
  assert (A2 : angle 0 PI 3 2 = PI) by (unfold angle; simpl; field).
  destruct (gridsearch_paraherm_once_refuted junk0' 2 1 ex_poly 3 0 PI (repeat (RtoC 0) 3) 1) as (n & r' & k & k' & E & H1 & H2 & H3 & H4 & H5).
  - intros a b. apply repeat_length. - reflexivity. - lia. - reflexivity. - exact ex_paraherm. - lia. - lra. - cbn. lia. - lia.
  - cbn [Nat.sub]. rewrite A0, ex_f, cos_0. lra.
  - rewrite A1, ex_f, cos_PI2. ring.
  - cbn [Nat.add]. rewrite A2, ex_f, cos_PI. lra.
  - assert (EI : eitheta (PI / 2) = Ci) by (unfold eitheta; rewrite cos_PI2, sin_PI2; reflexivity).
    rewrite A1, EI in H4, H5. exists n, r', k, k'. exact (conj E (conj H1 (conj H2 (conj H3 (conj H4 H5))))).
Qed.
(** the general search on the same polynomial reports the grid point i *)
Example ex_general : exists n roots' k,
  poly_roots_fftgridsearch (fun _ => junk0') (fun n => repeat (RtoC 0) n) 2 (Some ex_poly) (Some 3%nat) (Some (Fin 0, Fin PI)) (Some (repeat (RtoC 0) 1))
    = Ret (0%Z, Some n, Some roots') /\ (k < n)%nat /\ nth k roots' 0 = Ci.
Proof.
  pose proof PI_RGT_0 as HP. pose proof PI2_3_2 as HP2. unfold PI2 in HP2.
  assert (A1 : angle 0 PI 3 1 = (PI / 2)%R) by (unfold angle; simpl; field).
  assert (EI : eitheta (PI / 2) = Ci) by (unfold eitheta; rewrite cos_PI2, sin_PI2; reflexivity).
  destruct (gridsearch_exact_root (fun _ => junk0') (fun n => repeat (RtoC 0) n) 2 ex_poly 3 0 PI (repeat (RtoC 0) 1) 1) as (n & r' & k & E & H1 & H2).
  - intros a b c. apply repeat_length. - intros b. apply repeat_length. - lia. - reflexivity. - lia. - lra.
  - simpl. lra. - cbn. lia. - lia.
  - rewrite A1. apply (phase_free_zero ex_poly _ 1 eq_refl ex_paraherm). rewrite ex_f, cos_PI2. ring.
  - rewrite A1, EI in H2. exists n, r', k. auto.
Qed.
