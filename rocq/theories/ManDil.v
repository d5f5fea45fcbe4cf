(** * C106: dilation and zero padding for fnft_manakovv *)
From Coq Require Import Reals Lra List Lia ZArith QArith.
From Coquelicot Require Import Coquelicot.
From Verif Require Import Base Loop CExp CConj CDeriv CMean DiscTables DiscModel FscatterSpec FscatterProof ScatterSpec ScatterRun MatExp NftSpec
  ManFscSpec ManFscModel ManFscProof ManFscAlg ManFscSample ManScatSpec ManScatTop ManNft NsevModel NsevSpec ManvSpec ManvModel NsevLib NsevCsTop ManCs ManCsTop SymmTop ManSymm ManSymmTop.
Import ListNotations.
Local Close Scope Q_scope.
Local Open Scope C_scope.

Lemma Czero_product (a b : C) : a * b = 0 -> a = 0 \/ b = 0.
Proof. intros E. destruct (Ceq_dec a 0) as [H|H]; [now left|]. destruct (Ceq_dec b 0) as [G|G]; [now right|]. exfalso. exact (Cmult_neq_0 a b H G E). Qed.

Section Dil.
Variable s : R.
Hypothesis Hs : (0 < s)%R.
Let sc : C := RtoC s.
Lemma sc_nz : sc <> 0.
Proof. intros E. apply (f_equal fst) in E. cbn in E. lra. Qed.
Lemma Bmat_scale x y r1 r2 : Bmat3 (sc * x) (sc * y) (sc * r1) (sc * r2) = m3scal sc (Bmat3 x y r1 r2).
Proof. unfold Bmat3. apply mat3_eq; cbn [m3scal c11 c12 c13 c21 c22 c23 c31 c32 c33]; ring. Qed.
Lemma expB3_at_opp mu x y r1 r2 t : expB3_at (- mu) x y r1 r2 t = expB3_at mu x y r1 r2 t.
Proof.
  unfold expB3_at. assert (E : forall z : C, - - z = z) by (intros; ring).
  destruct (Ceq_dec mu 0) as [Z|N], (Ceq_dec (- mu) 0) as [Z'|N']; try reflexivity.
  - contradiction N'. rewrite Z. ring.
  - contradiction N. rewrite <- (E mu), Z'. ring.
  - assert (E1 : - mu * t = - (mu * t)) by ring. assert (E2 : Csinh (- (mu * t)) = - Csinh (mu * t)) by apply Csinh_opp.
    assert (E3 : Ccosh (- (mu * t)) = Ccosh (mu * t)) by apply Ccosh_opp.
    rewrite E1, E2, E3. f_equal. f_equal; f_equal; field; tauto.
Qed.
Lemma expB3_at_scale mu x y r1 r2 t t' : sc * t' = t -> expB3_at (sc * mu) (sc * x) (sc * y) (sc * r1) (sc * r2) t' = expB3_at mu x y r1 r2 t.
Proof.
  intros <-. pose proof sc_nz as N0. unfold expB3_at. rewrite Bmat_scale. set (B := Bmat3 x y r1 r2).
  assert (EB : m3mul (m3scal sc B) (m3scal sc B) = m3scal (sc * sc) (m3mul B B)) by (apply mat3_eq; cbn [m3mul m3scal c11 c12 c13 c21 c22 c23 c31 c32 c33]; ring).
  assert (ES : forall a b M, m3scal a (m3scal b M) = m3scal (a * b) M) by (intros; apply mat3_eq; cbn [m3scal c11 c12 c13 c21 c22 c23 c31 c32 c33]; ring).
  rewrite EB, !ES. assert (Em : sc * mu * t' = mu * (sc * t')) by ring. rewrite Em.
  destruct (Ceq_dec mu 0) as [Z|N], (Ceq_dec (sc * mu) 0) as [Z'|N'].
  - f_equal. f_equal; f_equal; field; apply RtoC_neq0'; lra.
  - contradiction N'. rewrite Z. ring.
  - exfalso. destruct (Czero_product _ _ Z'); contradiction.
  - f_equal. f_equal; f_equal; field; tauto.
Qed.
Lemma expB3_scale x y r1 r2 t t' : sc * t' = t -> expB3 (sc * x) (sc * y) (sc * r1) (sc * r2) t' = expB3 x y r1 r2 t.
Proof.
  intros Et. unfold expB3. set (m := Csqrt (x * r1 + y * r2)). set (w := Csqrt (sc * x * (sc * r1) + sc * y * (sc * r2))).
  assert (Ew : w = sc * m \/ w = - (sc * m)).
  { assert (E : (w - sc * m) * (w + sc * m) = 0).
    { transitivity (w * w - sc * sc * (m * m)); [ring|]. unfold w, m. rewrite !Csqrt_sq. ring. }
    destruct (Czero_product _ _ E) as [H|H]; [left|right]; [transitivity (w - sc * m + sc * m)|transitivity (w + sc * m - sc * m)]; try ring; rewrite H; ring. }
  destruct Ew as [-> | ->]; [|rewrite expB3_at_opp]; now apply expB3_at_scale.
Qed.
Lemma expNLS3_scale kappa x y t t' : sc * t' = t -> expNLS3 kappa (sc * x) (sc * y) t' = expNLS3 kappa x y t.
Proof.
  intros Et. unfold expNLS3. assert (Ec : forall z, - RtoC (IZR kappa) * Cconj (sc * z) = sc * (- RtoC (IZR kappa) * Cconj z)) by (intros; unfold sc; rewrite Cmult_conj, Cconj_R; ring).
  rewrite !Ec. now apply expB3_scale.
Qed.
Lemma expA3_scale lam (t : R) : expA3 (sc * lam) (t / s) = expA3 lam t.
Proof.
  assert (E : forall z : C, z * (sc * lam) * RtoC (t / s) = z * lam * RtoC t).
  { intros. unfold Rdiv. rewrite RtoC_mult, RtoC_inv by lra. fold sc. field. exact sc_nz. }
  unfold expA3. rewrite !E. reflexivity.
Qed.
Definition sc3 (x : C * C * C) : C * C * C := let '(a, b, e) := x in (sc * a, sc * b, sc * e).
Lemma word3_ext EA EB EA' EB' w : (forall a, EA a = EA' a) -> (forall a, EB a = EB' a) -> word_val3 EA EB w = word_val3 EA' EB' w.
Proof. intros HA HB. induction w as [|[[|] a] w IH]; cbn [word_val3 fold_right fst snd]; [reflexivity| |]; rewrite ?HA, ?HB; f_equal; exact IH. Qed.
Lemma scheme3_ext EA EB EA' EB' z : (forall a, EA a = EA' a) -> (forall a, EB a = EB' a) -> scheme_val3 EA EB z = scheme_val3 EA' EB' z.
Proof. intros HA HB. induction z as [|[c w] z IH]; cbn [scheme_val3 fold_right fst snd]; [reflexivity|]. rewrite (word3_ext _ _ _ _ w HA HB). f_equal. exact IH. Qed.
Lemma sc_div (t : R) : sc * RtoC (t / s) = RtoC t.
Proof. unfold Rdiv. rewrite RtoC_mult, RtoC_inv by lra. fold sc. field. exact sc_nz. Qed.
Lemma scale_step d kappa (eps : R) x y us lam : man_step d kappa (eps / s) (sc3 x) (sc3 y) us (sc * lam) = man_step d kappa eps x y us lam.
Proof.
  destruct x as [[a1 b1] e1], y as [[a2 b2] e2]. unfold man_step. cbn [sc3].
  assert (Ed : forall a b : R, (a * (b / s) = a * b / s)%R) by (intros; unfold Rdiv; ring).
  assert (Ed2 : forall a b : R, (a / s / b = a / b / s)%R) by (intros; unfold Rdiv; ring).
  assert (ES : splitting3 (sc * lam) kappa (sc * b1) (sc * b2) (eps / s / INR (man_upsampling_factor d)) (eps / s) us = splitting3 lam kappa b1 b2 (eps / INR (man_upsampling_factor d)) eps us).
  { unfold splitting3. apply scheme3_ext; intros a; rewrite !Ed2, Ed; [apply expA3_scale|apply expNLS3_scale, sc_div]. }
  rewrite ES. destruct (is_ftes d); [|reflexivity]. unfold ftes_left, ftes_right.
  assert (E12 : forall a b e, d1 (sc * a) (sc * e) / 12 + d2 (sc * a) (sc * b) (sc * e) / 48 = sc * (d1 a e / 12 + d2 a b e / 48)).
  { intros. unfold d1, d2. field. repeat split; apply RtoC_neq0'; lra. }
  assert (E13 : forall a b e, - d1 (sc * a) (sc * e) / 12 + d2 (sc * a) (sc * b) (sc * e) / 48 = sc * (- d1 a e / 12 + d2 a b e / 48)).
  { intros. unfold d1, d2. field. repeat split; apply RtoC_neq0'; lra. }
  rewrite !E12, !E13, !(expNLS3_scale _ _ _ (RtoC eps) (RtoC (eps / s))) by apply sc_div. reflexivity.
Qed.
Lemma scale_fundamental lam kappa x y V : fundamental3 (manakov_P lam kappa x y) V -> fundamental3 (manakov_P (sc * lam) kappa (sc * x) (sc * y)) (fun t => V (sc * t)).
Proof.
  intros [H0 HV]. split; [rewrite Cmult_0_r; exact H0|]. intros t i j Hi Hj.
  assert (EP : manakov_P (sc * lam) kappa (sc * x) (sc * y) = m3scal sc (manakov_P lam kappa x y)).
  { unfold manakov_P. apply mat3_eq; cbn [m3scal c11 c12 c13 c21 c22 c23 c31 c32 c33]; try ring; unfold sc; rewrite Cmult_conj, Cconj_R; ring. }
  rewrite EP. assert (Dl : Cderive (fun t : C => sc * t) t sc) by (eapply Cderive_eq; [apply Cderive_scal, Cderive_id|]; ring).
  pose proof (Cderive_comp (fun z => entry3 (V z) i j) _ t _ _ (HV (sc * t) i j Hi Hj) Dl) as K. cbv beta in K.
  eapply Cderive_eq; [exact K|]. destruct i as [|[|[|i]]]; try lia; destruct j as [|[|[|j]]]; try lia; cbn [entry3 m3mul m3scal c11 c12 c13 c21 c22 c23 c31 c32 c33]; ring.
Qed.
Lemma scale_scattering d kappa (eps : R) (q1 q2 q1' q2' : nat -> C) n lam S : (forall k, (k < n)%nat -> q1' k = sc * q1 k /\ q2' k = sc * q2 k) ->
  man_scattering d kappa eps q1 q2 n lam S -> man_scattering d kappa (eps / s) q1' q2' n (sc * lam) S.
Proof.
  intros E. assert (D3 : forall M M' : nat -> mat3, (forall j, (j < n)%nat -> M j = M' j) -> descending3 n M = descending3 n M').
  { intros M M' H. clear -H. induction n as [|n IH]; cbn [descending3]; [reflexivity|]. rewrite H, IH by auto; reflexivity. }
  assert (NB : forall j, (j < n)%nat -> with_neighbours d n q1' j = sc3 (with_neighbours d n q1 j) /\ with_neighbours d n q2' j = sc3 (with_neighbours d n q2 j)).
  { intros j Hj. unfold with_neighbours. destruct (is_ftes d); cbn [sc3]; [|destruct (E j Hj) as [-> ->]; now split].
    assert (H1 : (j - 1 < n)%nat) by lia. assert (H2 : Nat.eqb j (n - 1) = false -> (j + 1 < n)%nat) by (intros A; apply Nat.eqb_neq in A; lia).
    destruct (E j Hj) as [-> ->]. destruct (E (j - 1)%nat H1) as [-> ->]. destruct (Nat.eqb j (n - 1)) eqn:A; [|destruct (E (j + 1)%nat (H2 eq_refl)) as [-> ->]]; destruct (Nat.eqb j 0); now split. }
  unfold man_scattering. destruct (man_scheme_of d) as [us|].
  - intros ->. apply D3. intros j Hj. destruct (NB j Hj) as [-> ->]. symmetry. apply scale_step.
  - intros (V & HV & ->). exists (fun j t => V j (sc * t)). split.
    + intros j Hj. destruct (E j Hj) as [-> ->].
      assert (El : step_lam d (sc * lam) = sc * step_lam d lam) by (destruct d; cbn [step_lam]; try reflexivity; field; apply RtoC_neq0'; lra).
      rewrite El. apply scale_fundamental, HV, Hj.
    + apply D3. intros j Hj. now rewrite sc_div.
Qed.
End Dil.

Section Top.
Variable L : lib.
Hypothesis HL : lib_ok L.
(** the samples (s q1, s q2) on the time window divided by s have at the frequencies multiplied by s the same a, b1 and b2 *)
Theorem manakovv_dilation D q1 q2 T M XI kappa user dflt u cs (s : R) :
  let o := match user with Some o => o | None => dflt end in
  let T' := (fst T / s, snd T / s)%R in let XI' := (s * fst XI, s * snd XI)%R in
  mcs_call D q1 q2 T M XI kappa o u cs -> (0 < s)%R ->
  (forall i, (i < M)%nat -> man_scat_exact (m_disc o) kappa (spacing T' D) (nthC (map (Cmult (RtoC s)) q1)) (nthC (map (Cmult (RtoC s)) q2)) D (RtoC (grid_point XI' M i))) ->
  mrelated o M kappa u (msucceeds L D q1 q2 T M XI kappa user dflt u)
    (msucceeds L D (map (Cmult (RtoC s)) q1) (map (Cmult (RtoC s)) q2) T' M XI' kappa user dflt u)
    (fun a b1 b2 a' b1' b2' => forall i, (i < M)%nat -> a' i = a i /\ b1' i = b1 i /\ b2' i = b2 i).
Proof.
  intros o T' XI' Hc Hs Hx'. destruct (proj1 (mcall_spectrum L HL D q1 q2 T M XI kappa user dflt u cs Hc)) as (S & HS). fold o in HS.
  pose proof (mc_len1 _ _ _ _ _ _ _ _ _ _ Hc) as L1. pose proof (mc_len2 _ _ _ _ _ _ _ _ _ _ Hc) as L2.
  assert (Ns : RtoC s <> 0) by (intros E; apply RtoC_inj in E; lra).
  assert (Esp : spacing T' D = (spacing T D / s)%R) by (unfold spacing, T'; cbn [fst snd]; unfold Rdiv; ring).
  assert (Egr : forall i, grid_point XI' M i = (s * grid_point XI M i)%R) by (intros; unfold grid_point, spacing, XI'; cbn [fst snd]; unfold Rdiv; ring).
  assert (HS' : mscat_at D (map (Cmult (RtoC s)) q1) (map (Cmult (RtoC s)) q2) T' M XI' kappa o S).
  { intros i Hi. rewrite Egr, RtoC_mult, Esp. apply (scale_scattering s Hs _ _ _ (nthC q1) (nthC q2)); [|apply HS, Hi]. intros k Hk. rewrite !nth_map by lia. now split. }
  assert (Ee : man_edges (m_disc o) T' (spacing T' D) = (fst (man_edges (m_disc o) T (spacing T D)) / s, snd (man_edges (m_disc o) T (spacing T D)) / s)%R).
  { rewrite Esp. unfold man_edges, T'. destruct (man_upsampling_factor (m_disc o)) as [|[|[|?]]]; cbn [fst snd]; f_equal; unfold Rdiv; ring. }
  assert (Ex : forall (z lam : C) (t : R), z * (RtoC s * lam) * RtoC (t / s) = z * lam * RtoC t).
  { intros. unfold Rdiv. rewrite RtoC_mult, RtoC_inv by lra. field. exact Ns. }
  eapply (mcall_pair L HL); [exact Hc| |exact HS|exact HS'| |].
  - destruct (mc_order _ _ _ _ _ _ _ _ _ _ Hc) as [O1 O2]. destruct Hc as [V _ _ HM Ecs Lcs Hct Hr HB Hu Hint Hx]. constructor; try assumption.
    + refine (mvalid_change _ _ _ _ _ _ _ _ _ _ _ _ V _ _); cbn [T' XI' fst snd]; [apply Rmult_lt_compat_r; [now apply Rinv_0_lt_compat|exact O1]|now apply Rmult_lt_compat_l].
    + now rewrite map_length.
    + now rewrite map_length.
  - cbv beta. intros i Hi. fold o. rewrite Ee, Egr, RtoC_mult. unfold mnft_a, mnft_b1, mnft_b2. cbn [fst snd]. rewrite !Ex. repeat split.
  - intros i Hi. exists i. split; [exact Hi|]. cbv beta. fold o. rewrite Ee, Egr, RtoC_mult. unfold mnft_a. cbn [fst snd]. rewrite !Ex. auto.
Qed.
End Top.
