(** * C105: rotations of the polarisation, and the reduction to the scalar equation: matrices *)
From Coq Require Import Reals Lra List Lia ZArith QArith.
From Coquelicot Require Import Coquelicot.
From Verif Require Import Base CExp CConj CDeriv CMean DiscTables FscatterSpec FscatterProof ScatterSpec MatExp ScatterMatProps NftSpec KdvEnergy
  ManFscSpec ManFscModel ManFscProof ManFscAlg ManFscSample ManScatSpec ManScatTop ManNft.
Import ListNotations.
Local Open Scope C_scope.

(** ** Unitary 2x2 matrices *)
Definition dagger (U : mat2) : mat2 := M2 (Cconj (a11 U)) (Cconj (a21 U)) (Cconj (a12 U)) (Cconj (a22 U)).
Definition unitary (U : mat2) : Prop := mmul U (dagger U) = mone.
Lemma unitary_left U : unitary U -> mmul (dagger U) U = mone.
Proof.
  intros H. assert (N : mdet U <> 0). { intros E. apply (f_equal mdet) in H. rewrite mdet_mul, E, Cmult_0_l in H. unfold mdet in H. cbn [a11 a12 a21 a22 mone] in H. apply (f_equal fst) in H. cbn in H. lra. }
  destruct (mmul_minv U N) as [I1 I2]. assert (E : dagger U = minv U) by (rewrite <- (mmul_one_l (dagger U)), <- I2, <- mmul_assoc, H; apply mmul_one_r). now rewrite E.
Qed.
(** conjugation by diag(1, conj U) *)
Definition rot_l (U : mat2) : mat3 := M3 1 0 0 0 (Cconj (a11 U)) (Cconj (a12 U)) 0 (Cconj (a21 U)) (Cconj (a22 U)).
Definition rot_r (U : mat2) : mat3 := M3 1 0 0 0 (a11 U) (a21 U) 0 (a12 U) (a22 U).
Definition rot3 (U : mat2) (X : mat3) : mat3 := m3mul (rot_l U) (m3mul X (rot_r U)).
Section Rot.
Variable U : mat2.
Hypothesis HU : unitary U.
Lemma uni_rows : a11 U * Cconj (a11 U) + a12 U * Cconj (a12 U) = 1 /\ a11 U * Cconj (a21 U) + a12 U * Cconj (a22 U) = 0 /\
  a21 U * Cconj (a11 U) + a22 U * Cconj (a12 U) = 0 /\ a21 U * Cconj (a21 U) + a22 U * Cconj (a22 U) = 1.
Proof. pose proof HU as H. unfold unitary in H. repeat split; [apply (f_equal a11) in H|apply (f_equal a12) in H|apply (f_equal a21) in H|apply (f_equal a22) in H]; exact H. Qed.
Lemma uni_cols : Cconj (a11 U) * a11 U + Cconj (a21 U) * a21 U = 1 /\ Cconj (a11 U) * a12 U + Cconj (a21 U) * a22 U = 0 /\
  Cconj (a12 U) * a11 U + Cconj (a22 U) * a21 U = 0 /\ Cconj (a12 U) * a12 U + Cconj (a22 U) * a22 U = 1.
Proof. pose proof (unitary_left U HU) as H. repeat split; [apply (f_equal a11) in H|apply (f_equal a12) in H|apply (f_equal a21) in H|apply (f_equal a22) in H]; exact H. Qed.
Lemma rot_lr : m3mul (rot_l U) (rot_r U) = m3one.
Proof.
  destruct uni_rows as (R1 & R2 & R3 & R4). unfold rot_l, rot_r, m3one. apply mat3_eq; cbn [m3mul c11 c12 c13 c21 c22 c23 c31 c32 c33]; try ring.
  - transitivity (a11 U * Cconj (a11 U) + a12 U * Cconj (a12 U)); [ring|exact R1].
  - transitivity (a21 U * Cconj (a11 U) + a22 U * Cconj (a12 U)); [ring|exact R3].
  - transitivity (a11 U * Cconj (a21 U) + a12 U * Cconj (a22 U)); [ring|exact R2].
  - transitivity (a21 U * Cconj (a21 U) + a22 U * Cconj (a22 U)); [ring|exact R4].
Qed.
Lemma rot_rl : m3mul (rot_r U) (rot_l U) = m3one.
Proof.
  destruct uni_cols as (R1 & R2 & R3 & R4). unfold rot_l, rot_r, m3one. apply mat3_eq; cbn [m3mul c11 c12 c13 c21 c22 c23 c31 c32 c33]; try ring.
  - transitivity (Cconj (a11 U) * a11 U + Cconj (a21 U) * a21 U); [ring|exact R1].
  - transitivity (Cconj (a12 U) * a11 U + Cconj (a22 U) * a21 U); [ring|exact R3].
  - transitivity (Cconj (a11 U) * a12 U + Cconj (a21 U) * a22 U); [ring|exact R2].
  - transitivity (Cconj (a12 U) * a12 U + Cconj (a22 U) * a22 U); [ring|exact R4].
Qed.
Lemma rot_mul X Y : rot3 U (m3mul X Y) = m3mul (rot3 U X) (rot3 U Y).
Proof. unfold rot3. rewrite !m3mul_assoc, <- (m3mul_assoc _ (rot_r U) (rot_l U)), rot_rl, m3mul_one_r. reflexivity. Qed.
Lemma rot_one : rot3 U m3one = m3one.
Proof. unfold rot3. rewrite m3mul_one_l. apply rot_lr. Qed.
Lemma rot_zero : rot3 U m3zero = m3zero.
Proof. unfold rot3, rot_l, rot_r, m3zero. apply mat3_eq; cbn [m3mul c11 c12 c13 c21 c22 c23 c31 c32 c33]; ring. Qed.
Lemma rot_add X Y : rot3 U (m3add X Y) = m3add (rot3 U X) (rot3 U Y).
Proof. unfold rot3. apply mat3_eq; cbn [m3mul m3add c11 c12 c13 c21 c22 c23 c31 c32 c33 rot_l rot_r]; ring. Qed.
Lemma rot_scal k X : rot3 U (m3scal k X) = m3scal k (rot3 U X).
Proof. unfold rot3. apply mat3_eq; cbn [m3mul m3scal c11 c12 c13 c21 c22 c23 c31 c32 c33 rot_l rot_r]; ring. Qed.
Lemma rot_diag x y : rot3 U (M3 x 0 0 0 y 0 0 0 y) = M3 x 0 0 0 y 0 0 0 y.
Proof.
  assert (E : M3 x 0 0 0 y 0 0 0 y = m3add (m3scal y m3one) (M3 (x - y) 0 0 0 0 0 0 0 0)) by (unfold m3one; apply mat3_eq; cbn [m3add m3scal c11 c12 c13 c21 c22 c23 c31 c32 c33]; ring).
  rewrite E, rot_add, rot_scal, rot_one. f_equal. unfold rot3. apply mat3_eq; cbn [m3mul c11 c12 c13 c21 c22 c23 c31 c32 c33 rot_l rot_r]; ring.
Qed.
(** the rotated samples *)
Definition rotated1 (x y : C) : C := a11 U * x + a12 U * y.
Definition rotated2 (x y : C) : C := a21 U * x + a22 U * y.
Lemma rot_B q1 q2 r1 r2 : rot3 U (Bmat3 q1 q2 r1 r2) = Bmat3 (rotated1 q1 q2) (rotated2 q1 q2) (Cconj (a11 U) * r1 + Cconj (a12 U) * r2) (Cconj (a21 U) * r1 + Cconj (a22 U) * r2).
Proof. unfold rot3, Bmat3, rotated1, rotated2. apply mat3_eq; cbn [m3mul c11 c12 c13 c21 c22 c23 c31 c32 c33 rot_l rot_r]; ring. Qed.
Lemma rot_NLS kappa q1 q2 t : rot3 U (expNLS3 kappa q1 q2 t) = expNLS3 kappa (rotated1 q1 q2) (rotated2 q1 q2) t.
Proof.
  unfold expNLS3, expB3. destruct uni_cols as (R1 & R2 & R3 & R4).
  assert (E : rotated1 q1 q2 * (- RtoC (IZR kappa) * Cconj (rotated1 q1 q2)) + rotated2 q1 q2 * (- RtoC (IZR kappa) * Cconj (rotated2 q1 q2))
    = q1 * (- RtoC (IZR kappa) * Cconj q1) + q2 * (- RtoC (IZR kappa) * Cconj q2)).
  { unfold rotated1, rotated2. rewrite !Cplus_conj, !Cmult_conj. set (k := - RtoC (IZR kappa)).
    transitivity (k * (q1 * Cconj q1 * (Cconj (a11 U) * a11 U + Cconj (a21 U) * a21 U) + q2 * Cconj q1 * (Cconj (a11 U) * a12 U + Cconj (a21 U) * a22 U)
      + q1 * Cconj q2 * (Cconj (a12 U) * a11 U + Cconj (a22 U) * a21 U) + q2 * Cconj q2 * (Cconj (a12 U) * a12 U + Cconj (a22 U) * a22 U))); [ring|].
    rewrite R1, R2, R3, R4. ring. }
  rewrite E. unfold expB3_at. set (s := if Ceq_dec _ _ then t else _). set (k := if Ceq_dec _ _ then _ else _).
  rewrite !rot_add, rot_one, !rot_scal, rot_mul, rot_B.
  replace (Cconj (a11 U) * (- RtoC (IZR kappa) * Cconj q1) + Cconj (a12 U) * (- RtoC (IZR kappa) * Cconj q2)) with (- RtoC (IZR kappa) * Cconj (rotated1 q1 q2)) by (unfold rotated1; rewrite Cplus_conj, !Cmult_conj; ring).
  replace (Cconj (a21 U) * (- RtoC (IZR kappa) * Cconj q1) + Cconj (a22 U) * (- RtoC (IZR kappa) * Cconj q2)) with (- RtoC (IZR kappa) * Cconj (rotated2 q1 q2)) by (unfold rotated2; rewrite Cplus_conj, !Cmult_conj; ring).
  reflexivity.
Qed.
Lemma rot_word EA EB EB' : (forall a, rot3 U (EA a) = EA a) -> (forall a, rot3 U (EB a) = EB' a) -> forall w, rot3 U (word_val3 EA EB w) = word_val3 EA EB' w.
Proof. intros HA HB w. induction w as [|[[|] a] w IH]; cbn [word_val3 fold_right fst snd]; [apply rot_one| |]; rewrite rot_mul, ?HA, ?HB; f_equal; exact IH. Qed.
Lemma rot_scheme EA EB EB' : (forall a, rot3 U (EA a) = EA a) -> (forall a, rot3 U (EB a) = EB' a) -> forall s, rot3 U (scheme_val3 EA EB s) = scheme_val3 EA EB' s.
Proof.
  intros HA HB s. induction s as [|[c w] s IH]; cbn [scheme_val3 fold_right fst snd]; [apply rot_zero|]. rewrite rot_add, rot_scal, (rot_word EA EB EB' HA HB). f_equal. exact IH.
Qed.
Definition rot1n (x y : C * C * C) : C * C * C := let '(a1, b1, e1) := x in let '(a2, b2, e2) := y in (rotated1 a1 a2, rotated1 b1 b2, rotated1 e1 e2).
Definition rot2n (x y : C * C * C) : C * C * C := let '(a1, b1, e1) := x in let '(a2, b2, e2) := y in (rotated2 a1 a2, rotated2 b1 b2, rotated2 e1 e2).
Lemma rot_step d kappa eps x y us lam : rot3 U (man_step d kappa eps x y us lam) = man_step d kappa eps (rot1n x y) (rot2n x y) us lam.
Proof.
  destruct x as [[a1 b1] e1], y as [[a2 b2] e2]. unfold man_step. cbn [rot1n rot2n].
  assert (ES : rot3 U (splitting3 lam kappa b1 b2 (eps / INR (man_upsampling_factor d)) eps us) = splitting3 lam kappa (rotated1 b1 b2) (rotated2 b1 b2) (eps / INR (man_upsampling_factor d)) eps us).
  { unfold splitting3. apply rot_scheme; intros a; [unfold expA3; apply rot_diag|apply rot_NLS]. }
  destruct (is_ftes d); [|exact ES]. rewrite !rot_mul, ES. unfold ftes_left, ftes_right. rewrite !rot_NLS.
  f_equal; [|f_equal]; unfold rotated1, rotated2, d1, d2; f_equal; field; repeat split; intros E; apply (f_equal fst) in E; cbn in E; lra.
Qed.
Lemma rot_descending n M M' : (forall j, (j < n)%nat -> rot3 U (M j) = M' j) -> rot3 U (descending3 n M) = descending3 n M'.
Proof. induction n as [|n IH]; intros E; cbn [descending3]; [apply rot_one|]. rewrite rot_mul, E, IH; auto. Qed.
Lemma rot_fundamental lam kappa q1 q2 V : fundamental3 (manakov_P lam kappa q1 q2) V -> fundamental3 (manakov_P lam kappa (rotated1 q1 q2) (rotated2 q1 q2)) (fun t => rot3 U (V t)).
Proof.
  intros [H0 HV]. split; [rewrite H0; apply rot_one|]. intros t.
  assert (EP : manakov_P lam kappa (rotated1 q1 q2) (rotated2 q1 q2) = rot3 U (manakov_P lam kappa q1 q2)).
  { assert (E : forall x y, manakov_P lam kappa x y = m3add (M3 (- Ci * lam) 0 0 0 (Ci * lam) 0 0 0 (Ci * lam)) (Bmat3 x y (- RtoC (IZR kappa) * Cconj x) (- RtoC (IZR kappa) * Cconj y)))
      by (intros; unfold manakov_P, Bmat3; apply mat3_eq; cbn [m3add c11 c12 c13 c21 c22 c23 c31 c32 c33]; ring).
    rewrite !E, rot_add, rot_diag, rot_B. f_equal. unfold Bmat3, rotated1, rotated2. rewrite !Cplus_conj, !Cmult_conj. f_equal; ring. }
  rewrite EP, <- rot_mul. specialize (HV t). set (Y := m3mul (manakov_P lam kappa q1 q2) (V t)) in *.
  assert (G : forall A B : mat3, forall i j, (i < 3)%nat -> (j < 3)%nat -> Cderive (fun z => entry3 (m3mul A (m3mul (V z) B)) i j) t (entry3 (m3mul A (m3mul Y B)) i j)); [|intros i j Hi Hj; exact (G (rot_l U) (rot_r U) i j Hi Hj)].
  assert (D : forall i j, (i < 3)%nat -> (j < 3)%nat -> Cderive (fun z => entry3 (V z) i j) t (entry3 Y i j)) by exact HV.
  assert (R : forall (B : mat3) i j, (i < 3)%nat -> (j < 3)%nat -> Cderive (fun z => entry3 (m3mul (V z) B) i j) t (entry3 (m3mul Y B) i j)).
  { intros B i j Hi Hj. pose proof (D i 0%nat Hi ltac:(lia)) as D0. pose proof (D i 1%nat Hi ltac:(lia)) as D1. pose proof (D i 2%nat Hi ltac:(lia)) as D2.
    pose proof (Cderive_plus _ _ _ _ _ (Cderive_plus _ _ _ _ _ (Cderive_scal (entry3 B 0 j) _ _ _ D0) (Cderive_scal (entry3 B 1 j) _ _ _ D1)) (Cderive_scal (entry3 B 2 j) _ _ _ D2)) as K.
    eapply Cderive_eq; [eapply Cderive_ext; [|exact K]|]; [intros z|]; cbv beta;
      destruct i as [|[|[|i]]]; try lia; destruct j as [|[|[|j]]]; try lia; cbn [entry3 m3mul c11 c12 c13 c21 c22 c23 c31 c32 c33]; ring. }
  intros A B i j Hi Hj. pose proof (R B 0%nat j ltac:(lia) Hj) as D0. pose proof (R B 1%nat j ltac:(lia) Hj) as D1. pose proof (R B 2%nat j ltac:(lia) Hj) as D2.
  pose proof (Cderive_plus _ _ _ _ _ (Cderive_plus _ _ _ _ _ (Cderive_scal (entry3 A i 0) _ _ _ D0) (Cderive_scal (entry3 A i 1) _ _ _ D1)) (Cderive_scal (entry3 A i 2) _ _ _ D2)) as K.
  eapply Cderive_eq; [eapply Cderive_ext; [|exact K]|]; [intros z|]; cbv beta;
    destruct i as [|[|[|i]]]; try lia; destruct j as [|[|[|j]]]; try lia; cbn [entry3 m3mul c11 c12 c13 c21 c22 c23 c31 c32 c33]; ring.
Qed.
(** the scattering matrix of the rotated samples *)
Lemma rot_neighbours d n (q1 q2 q1' q2' : nat -> C) j : (j < n)%nat -> (forall k, (k < n)%nat -> q1' k = rotated1 (q1 k) (q2 k) /\ q2' k = rotated2 (q1 k) (q2 k)) ->
  with_neighbours d n q1' j = rot1n (with_neighbours d n q1 j) (with_neighbours d n q2 j) /\ with_neighbours d n q2' j = rot2n (with_neighbours d n q1 j) (with_neighbours d n q2 j).
Proof.
  intros Hj E. unfold with_neighbours. destruct (is_ftes d); cbn [rot1n rot2n]; [|destruct (E j Hj) as [-> ->]; now split].
  assert (H1 : (j - 1 < n)%nat) by lia. assert (H2 : Nat.eqb j (n - 1) = false -> (j + 1 < n)%nat) by (intros A; apply Nat.eqb_neq in A; lia).
  destruct (E j Hj) as [-> ->]. destruct (E (j - 1)%nat H1) as [-> ->]. destruct (Nat.eqb j (n - 1)) eqn:A; [|destruct (E (j + 1)%nat (H2 eq_refl)) as [-> ->]]; destruct (Nat.eqb j 0); now split.
Qed.
Lemma rot_scattering d kappa eps q1 q2 q1' q2' n lam S : (forall k, (k < n)%nat -> q1' k = rotated1 (q1 k) (q2 k) /\ q2' k = rotated2 (q1 k) (q2 k)) ->
  man_scattering d kappa eps q1 q2 n lam S -> man_scattering d kappa eps q1' q2' n lam (rot3 U S).
Proof.
  intros E. unfold man_scattering. destruct (man_scheme_of d) as [us|].
  - intros ->. apply rot_descending. intros j Hj. destruct (rot_neighbours d n q1 q2 q1' q2' j Hj E) as [-> ->]. apply rot_step.
  - intros (V & HV & ->). exists (fun j t => rot3 U (V j t)). split.
    + intros j Hj. destruct (E j Hj) as [-> ->]. apply rot_fundamental, HV, Hj.
    + now apply rot_descending.
Qed.
End Rot.
