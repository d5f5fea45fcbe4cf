(** * C106, continued: conjugation *)
From Coq Require Import Reals Lra List Lia ZArith QArith Qreals.
From Coquelicot Require Import Coquelicot.
From Verif Require Import Base Loop CExp CConj CDeriv CMean DiscTables DiscModel FscatterSpec FscatterProof ScatterSpec ScatterRun MatExp NftSpec
  ManFscSpec ManFscModel ManFscProof ManFscAlg ManFscSample ManScatSpec ManScatProof ManScatTop ManNft NsevModel NsevSpec ManvSpec ManvModel NsevLib NsevCsTop ManCs ManCsTop SymmTop ZeroPad KdvSymm ManSymm ManSymmTop ManDil ManPad.
Import ListNotations.
Local Close Scope Q_scope.
Local Open Scope C_scope.
Ltac m3s := cbn [m3mul m3add m3scal m3one m3zero c11 c12 c13 c21 c22 c23 c31 c32 c33].

Lemma Cderive_conj f x l : Cderive f (Cconj x) l -> Cderive (fun z => Cconj (f (Cconj z))) x (Cconj l).
Proof.
  intros [_ H2]. split; [apply is_linear_scal_l|]. intros z Hz e.
  assert (Ez : x = z) by (apply (is_filter_lim_locally_unique (K := C_AbsRing) (V := AbsRing_NormedModule C_AbsRing) x z); exact Hz). subst z.
  destruct (H2 (Cconj x) (fun P HP => HP) e) as [d Hd]. exists d. intros y Hy.
  assert (By : (Cmod (y - x)%C < d)%R) by exact Hy.
  assert (By' : (Cmod (Cconj y - Cconj x)%C < d)%R) by (rewrite <- Cconj_minus, Cmod_conj; exact By).
  pose proof (Hd (Cconj y) By') as K.
  change ((Cmod (f (Cconj y) - f (Cconj x) - (Cconj y - Cconj x) * l)%C <= e * Cmod (Cconj y - Cconj x)%C)%R) in K.
  change ((Cmod (Cconj (f (Cconj y)) - Cconj (f (Cconj x)) - (y - x) * Cconj l)%C <= e * Cmod (y - x)%C)%R).
  rewrite <- (Cmod_conj (y - x)), Cconj_minus. eapply Rle_trans; [|exact K]. right. rewrite <- Cmod_conj. f_equal.
  rewrite !Cconj_minus, Cmult_conj, Cconj_minus, !Cconj_conj. reflexivity.
Qed.
Definition m3conj (X : mat3) : mat3 := M3 (Cconj (c11 X)) (Cconj (c12 X)) (Cconj (c13 X)) (Cconj (c21 X)) (Cconj (c22 X)) (Cconj (c23 X)) (Cconj (c31 X)) (Cconj (c32 X)) (Cconj (c33 X)).
Lemma conj_mul X Y : m3conj (m3mul X Y) = m3mul (m3conj X) (m3conj Y).
Proof. unfold m3conj. apply mat3_eq; m3s; rewrite !Cplus_conj, !Cmult_conj; reflexivity. Qed.
Lemma conj_add X Y : m3conj (m3add X Y) = m3add (m3conj X) (m3conj Y).
Proof. unfold m3conj. apply mat3_eq; m3s; apply Cplus_conj. Qed.
Lemma conj_scal a X : m3conj (m3scal a X) = m3scal (Cconj a) (m3conj X).
Proof. unfold m3conj. apply mat3_eq; m3s; apply Cmult_conj. Qed.
Lemma C0c : Cconj 0 = 0. Proof. apply Ceq; cbn; ring. Qed.
Lemma conj_one : m3conj m3one = m3one.
Proof. unfold m3conj, m3one. apply mat3_eq; m3s; first [apply C0c|apply Ceq; cbn; ring]. Qed.
Lemma conj_zero : m3conj m3zero = m3zero.
Proof. unfold m3conj, m3zero. apply mat3_eq; m3s; apply C0c. Qed.
Lemma conj_B3 mu x y r1 r2 t : m3conj (expB3_at mu x y r1 r2 t) = expB3_at (Cconj mu) (Cconj x) (Cconj y) (Cconj r1) (Cconj r2) (Cconj t).
Proof.
  unfold expB3_at. assert (EB : m3conj (Bmat3 x y r1 r2) = Bmat3 (Cconj x) (Cconj y) (Cconj r1) (Cconj r2)) by (unfold m3conj, Bmat3; apply mat3_eq; m3s; try reflexivity; apply C0c).
  assert (N2 : RtoC 2 <> 0) by (apply RtoC_neq0'; lra). assert (E1 : Cconj 1 = 1) by (apply Ceq; cbn; ring). assert (E2 : Cconj 2 = 2) by apply Cconj_R.
  rewrite !conj_add, conj_one, !conj_scal, conj_mul, EB.
  destruct (Ceq_dec mu 0) as [Z|N], (Ceq_dec (Cconj mu) 0) as [Z'|N'].
  - f_equal. f_equal. f_equal. rewrite Cconj_div, Cmult_conj, E2 by exact N2. reflexivity.
  - contradiction N'. rewrite Z. apply C0c.
  - contradiction N. now apply Cconj_0.
  - assert (N3 : mu * mu <> 0) by now apply Cmult_neq_0.
    rewrite !Cconj_div, Cconj_minus, Cconj_sinh, Cconj_cosh, !Cmult_conj, E1 by assumption. reflexivity.
Qed.
Lemma conj_NLS kappa x y t : m3conj (expNLS3 kappa x y t) = expNLS3 kappa (Cconj x) (Cconj y) (Cconj t).
Proof.
  unfold expNLS3, expB3. rewrite conj_B3.
  assert (Er : forall z, Cconj (- RtoC (IZR kappa) * Cconj z) = - RtoC (IZR kappa) * Cconj (Cconj z)) by (intros; rewrite Cmult_conj, Cconj_opp, Cconj_R; reflexivity).
  rewrite !Er. set (z := x * (- RtoC (IZR kappa) * Cconj x) + y * (- RtoC (IZR kappa) * Cconj y)).
  set (z' := Cconj x * (- RtoC (IZR kappa) * Cconj (Cconj x)) + Cconj y * (- RtoC (IZR kappa) * Cconj (Cconj y))).
  assert (Ez : z' = Cconj z) by (unfold z, z'; rewrite Cplus_conj, !(Cmult_conj _ (- RtoC (IZR kappa) * Cconj _)), !Er; reflexivity).
  set (m := Cconj (Csqrt z)). set (w := Csqrt z').
  assert (Ew : w = m \/ w = - m).
  { assert (E : (w - m) * (w + m) = 0).
    { transitivity (w * w - m * m); [ring|]. unfold w, m. rewrite <- Cmult_conj, !Csqrt_sq, Ez. ring. }
    destruct (Czero_product _ _ E) as [H|H]; [left|right]; [transitivity (w - m + m)|transitivity (w + m - m)]; try ring; rewrite H; ring. }
  destruct Ew as [-> | ->]; [reflexivity|]. now rewrite expB3_at_opp.
Qed.
Lemma conj_A (l t : R) : m3conj (expA3 (RtoC l) t) = expA3 (RtoC (- l)) t.
Proof.
  assert (E1 : Cconj (Cexp (- Ci * RtoC l * RtoC t)) = Cexp (- Ci * RtoC (- l) * RtoC t)) by (rewrite <- Cexp_conj; f_equal; apply Ceq; cbn; ring).
  assert (E2 : Cconj (Cexp (Ci * RtoC l * RtoC t)) = Cexp (Ci * RtoC (- l) * RtoC t)) by (rewrite <- Cexp_conj; f_equal; apply Ceq; cbn; ring).
  unfold m3conj, expA3. apply mat3_eq; m3s; first [exact E1|exact E2|apply C0c].
Qed.
Lemma conj_word EA EB EA' EB' w : (forall a, m3conj (EA a) = EA' a) -> (forall a, m3conj (EB a) = EB' a) -> m3conj (word_val3 EA EB w) = word_val3 EA' EB' w.
Proof. intros HA HB. induction w as [|[[|] a] w IH]; cbn [word_val3 fold_right fst snd]; [apply conj_one| |]; rewrite conj_mul, ?HA, ?HB; f_equal; exact IH. Qed.
Lemma conj_scheme EA EB EA' EB' z : (forall a, m3conj (EA a) = EA' a) -> (forall a, m3conj (EB a) = EB' a) -> m3conj (scheme_val3 EA EB z) = scheme_val3 EA' EB' z.
Proof. intros HA HB. induction z as [|[c w] z IH]; cbn [scheme_val3 fold_right fst snd]; [apply conj_zero|]. rewrite conj_add, conj_scal, Cconj_R, (conj_word _ _ _ _ w HA HB). f_equal. exact IH. Qed.
Definition cj3 (x : C * C * C) : C * C * C := let '(a, b, e) := x in (Cconj a, Cconj b, Cconj e).
Lemma conj_step d kappa (eps : R) x y us (l : R) : m3conj (man_step d kappa eps x y us (RtoC l)) = man_step d kappa eps (cj3 x) (cj3 y) us (RtoC (- l)).
Proof.
  destruct x as [[a1 b1] e1], y as [[a2 b2] e2]. unfold man_step. cbn [cj3].
  assert (ES : m3conj (splitting3 (RtoC l) kappa b1 b2 (eps / INR (man_upsampling_factor d)) eps us) = splitting3 (RtoC (- l)) kappa (Cconj b1) (Cconj b2) (eps / INR (man_upsampling_factor d)) eps us).
  { unfold splitting3. apply conj_scheme; intros a; [apply conj_A|]. rewrite conj_NLS, Cconj_R. reflexivity. }
  destruct (is_ftes d); [|exact ES]. rewrite !conj_mul, ES. unfold ftes_left, ftes_right. rewrite !conj_NLS, Cconj_R.
  assert (N12 : RtoC 12 <> 0) by (apply RtoC_neq0'; lra). assert (N48 : RtoC 48 <> 0) by (apply RtoC_neq0'; lra). assert (N2 : RtoC 2 <> 0) by (apply RtoC_neq0'; lra).
  assert (G1 : forall a e, Cconj (d1 a e) = d1 (Cconj a) (Cconj e)) by (intros; unfold d1; rewrite Cconj_div, Cconj_minus, Cconj_R by exact N2; reflexivity).
  assert (G2 : forall a b e, Cconj (d2 a b e) = d2 (Cconj a) (Cconj b) (Cconj e)) by (intros; unfold d2; rewrite Cplus_conj, Cconj_minus, Cmult_conj, Cconj_R; reflexivity).
  assert (G3 : forall u v, Cconj (u / 12 + v / 48) = Cconj u / 12 + Cconj v / 48) by (intros; rewrite Cplus_conj, !Cconj_div, !Cconj_R by assumption; reflexivity).
  rewrite !G3, !Cconj_opp, !G1, !G2. reflexivity.
Qed.
Lemma conj_fundamental (l : R) kappa x y V : fundamental3 (manakov_P (RtoC l) kappa x y) V -> fundamental3 (manakov_P (RtoC (- l)) kappa (Cconj x) (Cconj y)) (fun t => m3conj (V (Cconj t))).
Proof.
  intros [H0 HV]. split; [rewrite C0c, H0; apply conj_one|]. intros t i j Hi Hj.
  assert (EP : manakov_P (RtoC (- l)) kappa (Cconj x) (Cconj y) = m3conj (manakov_P (RtoC l) kappa x y)).
  { unfold manakov_P, m3conj. apply mat3_eq; m3s; first [reflexivity|symmetry; apply C0c|apply Ceq; cbn; ring]. }
  rewrite EP, <- conj_mul. pose proof (Cderive_conj _ t _ (HV (Cconj t) i j Hi Hj)) as K.
  destruct i as [|[|[|i]]]; try lia; destruct j as [|[|[|j]]]; try lia; exact K.
Qed.
Lemma conj_scattering d kappa (eps : R) (q1 q2 q1' q2' : nat -> C) n (l : R) S : (forall k, (k < n)%nat -> q1' k = Cconj (q1 k) /\ q2' k = Cconj (q2 k)) ->
  man_scattering d kappa eps q1 q2 n (RtoC l) S -> man_scattering d kappa eps q1' q2' n (RtoC (- l)) (m3conj S).
Proof.
  intros E. assert (D3 : forall M M' : nat -> mat3, (forall j, (j < n)%nat -> m3conj (M j) = M' j) -> m3conj (descending3 n M) = descending3 n M').
  { intros M M' H. clear -H. induction n as [|n IH]; cbn [descending3]; [apply conj_one|]. rewrite conj_mul, H, IH by auto; reflexivity. }
  assert (NB : forall j, (j < n)%nat -> with_neighbours d n q1' j = cj3 (with_neighbours d n q1 j) /\ with_neighbours d n q2' j = cj3 (with_neighbours d n q2 j)).
  { intros j Hj. unfold with_neighbours. destruct (is_ftes d); cbn [cj3]; [|destruct (E j Hj) as [-> ->]; now split].
    assert (H1 : (j - 1 < n)%nat) by lia. assert (H2 : Nat.eqb j (n - 1) = false -> (j + 1 < n)%nat) by (intros A; apply Nat.eqb_neq in A; lia).
    destruct (E j Hj) as [-> ->]. destruct (E (j - 1)%nat H1) as [-> ->]. destruct (Nat.eqb j (n - 1)) eqn:A; [|destruct (E (j + 1)%nat (H2 eq_refl)) as [-> ->]]; destruct (Nat.eqb j 0); now split. }
  unfold man_scattering. destruct (man_scheme_of d) as [us|].
  - intros ->. apply D3. intros j Hj. destruct (NB j Hj) as [-> ->]. apply conj_step.
  - intros (V & HV & ->). exists (fun j t => m3conj (V j (Cconj t))). split.
    + intros j Hj. destruct (E j Hj) as [-> ->]. specialize (HV j Hj).
      assert (G : forall x : R, exists y : R, step_lam d (RtoC x) = RtoC y /\ step_lam d (RtoC (- x)) = RtoC (- y)).
      { intros x. assert (G2 : step_lam d = (fun x => x) \/ step_lam d = (fun x => x / 2)) by (destruct d; (left; reflexivity) || (right; reflexivity)).
        destruct G2 as [-> | ->]; [exists x; now split|]. exists (x / 2)%R. split; [rewrite RtoC_div by lra; reflexivity|].
        replace (- (x / 2))%R with (- x / 2)%R by field. rewrite RtoC_div by lra. reflexivity. }
      destruct (G l) as (y & E1 & E2). rewrite E1 in HV. rewrite E2. now apply conj_fundamental.
    + apply D3. intros j Hj. now rewrite Cconj_R.
Qed.

Lemma exact_at_conj kappa x y t : exact_at kappa x y t -> exact_at kappa (Cconj x) (Cconj y) t.
Proof. unfold exact_at. rewrite !Cmod_conj. intros [[-> ->]|H]; [left; split; apply C0c|right; exact H]. Qed.
Lemma man_exact_conj d kappa eps x y : man_exact d kappa eps x y -> man_exact d kappa eps (cj3 x) (cj3 y).
Proof.
  destruct x as [[a1 b1] e1], y as [[a2 b2] e2]. unfold man_exact, cj3. intros [H1 H2]. split; [intros u s a Eu Ha; eapply exact_at_conj, H1; eassumption|]. intros Hf.
  assert (N12 : RtoC 12 <> 0) by (apply RtoC_neq0'; lra). assert (N48 : RtoC 48 <> 0) by (apply RtoC_neq0'; lra). assert (N2 : RtoC 2 <> 0) by (apply RtoC_neq0'; lra).
  assert (G1 : forall a e, Cconj (d1 a e) = d1 (Cconj a) (Cconj e)) by (intros; unfold d1; rewrite Cconj_div, Cconj_minus, Cconj_R by exact N2; reflexivity).
  assert (G2 : forall a b e, Cconj (d2 a b e) = d2 (Cconj a) (Cconj b) (Cconj e)) by (intros; unfold d2; rewrite Cplus_conj, Cconj_minus, Cmult_conj, Cconj_R; reflexivity).
  assert (G3 : forall u v, Cconj (u / 12 + v / 48) = Cconj u / 12 + Cconj v / 48) by (intros; rewrite Cplus_conj, !Cconj_div, !Cconj_R by assumption; reflexivity).
  destruct (H2 Hf) as [K1 K2]. split; [apply exact_at_conj in K1; rewrite !Cmult_conj, !G3, !G1, !G2, Cconj_R in K1; exact K1|].
  apply exact_at_conj in K2. rewrite !Cmult_conj, !G3, !Cconj_opp, !G1, !G2, Cconj_R in K2. exact K2.
Qed.
Lemma with_conj d n (q q' : nat -> C) j : (j < n)%nat -> (forall k, (k < n)%nat -> q' k = Cconj (q k)) -> with_neighbours d n q' j = cj3 (with_neighbours d n q j).
Proof.
  intros Hj E. unfold with_neighbours. destruct (is_ftes d); cbn [cj3]; [|now rewrite E].
  assert (H1 : (j - 1 < n)%nat) by lia. assert (H2 : Nat.eqb j (n - 1) = false -> (j + 1 < n)%nat) by (intros A; apply Nat.eqb_neq in A; lia).
  rewrite (E j Hj), (E (j - 1)%nat H1). destruct (Nat.eqb j (n - 1)) eqn:A; [|rewrite (E (j + 1)%nat (H2 eq_refl))]; destruct (Nat.eqb j 0); reflexivity.
Qed.
Lemma conj_exact d kappa eps (q1 q2 q1' q2' : nat -> C) n (l : R) : (forall k, (k < n)%nat -> q1' k = Cconj (q1 k)) -> (forall k, (k < n)%nat -> q2' k = Cconj (q2 k)) ->
  man_scat_exact d kappa eps q1 q2 n (RtoC l) -> man_scat_exact d kappa eps q1' q2' n (RtoC (- l)).
Proof.
  intros E1 E2. unfold man_scat_exact. destruct (man_scheme_of d).
  - intros H j Hj. rewrite (with_conj d n q1 q1' j Hj E1), (with_conj d n q2 q2' j Hj E2). apply man_exact_conj, H, Hj.
  - intros H j Hj. rewrite (E1 j Hj), (E2 j Hj). destruct (H j Hj) as [[-> ->]|[N K]]; [left; split; apply C0c|right]. split.
    + intros [T1 T2]. rewrite Cmod_conj in T1, T2. apply N. now split.
    + rewrite !Cconj_conj. assert (Es : step_lam d (RtoC (- l)) * step_lam d (RtoC (- l)) = step_lam d (RtoC l) * step_lam d (RtoC l)).
      { destruct d; cbn [step_lam]; rewrite RtoC_opp; unfold Cdiv; ring. }
      rewrite Es. intros Z. apply K. rewrite <- Z. ring.
Qed.
Section Top.
Variable L : lib.
Hypothesis HL : lib_ok L.
(** (conj q1, conj q2) has the conjugate spectrum at the negative frequencies *)
Theorem manakovv_conjugation D q1 q2 T M XI kappa user dflt u cs :
  let o := match user with Some o => o | None => dflt end in
  mcs_call D q1 q2 T M XI kappa o u cs ->
  mrelated o M kappa u (msucceeds L D q1 q2 T M XI kappa user dflt u)
    (msucceeds L D (map Cconj q1) (map Cconj q2) T M (- snd XI, - fst XI)%R kappa user dflt u)
    (fun a b1 b2 a' b1' b2' => forall i, (i < M)%nat -> a' i = Cconj (a (M - 1 - i)%nat) /\ b1' i = Cconj (b1 (M - 1 - i)%nat) /\ b2' i = Cconj (b2 (M - 1 - i)%nat)).
Proof.
  intros o Hc. set (XI' := (- snd XI, - fst XI)%R). destruct (proj1 (mcall_spectrum L HL D q1 q2 T M XI kappa user dflt u cs Hc)) as (S & HS). fold o in HS.
  pose proof (mc_len1 _ _ _ _ _ _ _ _ _ _ Hc) as L1. pose proof (mc_len2 _ _ _ _ _ _ _ _ _ _ Hc) as L2. pose proof (mc_M _ _ _ _ _ _ _ _ _ _ Hc) as HM.
  assert (Egr : forall i, (i < M)%nat -> grid_point XI' M i = (- grid_point XI M (M - 1 - i))%R) by (clear - HM; intros i Hi; unfold XI', grid_point, spacing; cbn [fst snd]; rewrite (minus_INR (M - 1) i) by lia; assert (INR (M - 1) <> 0)%R by (apply not_0_INR; lia); field; assumption).
  assert (Nq : forall q k, length q = D -> (k < D)%nat -> nthC (map Cconj q) k = Cconj (nthC q k)) by (intros; apply nth_map; lia).
  set (S' := fun i => m3conj (S (M - 1 - i)%nat)).
  assert (HS' : mscat_at D (map Cconj q1) (map Cconj q2) T M XI' kappa o S').
  { intros i Hi. rewrite Egr by exact Hi. apply (conj_scattering _ _ _ (nthC q1) (nthC q2)); [intros k Hk; now rewrite !Nq|]. apply HS. lia. }
  assert (Ec : forall (l t : R), Cexp (- Ci * RtoC (- l) * RtoC t) = Cconj (Cexp (- Ci * RtoC l * RtoC t)) /\ Cexp (Ci * RtoC (- l) * RtoC t) = Cconj (Cexp (Ci * RtoC l * RtoC t))).
  { intros. rewrite <- !Cexp_conj. split; f_equal; apply Ceq; cbn; ring. }
  assert (Hab : forall i e, (i < M)%nat -> mnft_a (S' i) e (RtoC (grid_point XI' M i)) = Cconj (mnft_a (S (M - 1 - i)%nat) e (RtoC (grid_point XI M (M - 1 - i)))) /\
    mnft_b1 (S' i) e (RtoC (grid_point XI' M i)) = Cconj (mnft_b1 (S (M - 1 - i)%nat) e (RtoC (grid_point XI M (M - 1 - i)))) /\
    mnft_b2 (S' i) e (RtoC (grid_point XI' M i)) = Cconj (mnft_b2 (S (M - 1 - i)%nat) e (RtoC (grid_point XI M (M - 1 - i))))).
  { intros i e Hi. rewrite Egr by exact Hi. unfold mnft_a, mnft_b1, mnft_b2, S', m3conj. m3s. rewrite !Cmult_conj, !(proj1 (Ec _ _)), !(proj2 (Ec _ _)). repeat split. }
  eapply (mcall_pair L HL); [exact Hc| |exact HS|exact HS'| |].
  - destruct (mc_order _ _ _ _ _ _ _ _ _ _ Hc) as [O1 O2]. destruct Hc as [V _ _ _ Ecs Lcs Hct Hr HB Hu Hint Hx]. constructor; try assumption.
    + refine (mvalid_change _ _ _ _ _ _ _ _ _ _ _ _ V O1 _). cbn [XI' fst snd]. clear - O2. lra.
    + now rewrite map_length.
    + now rewrite map_length.
    + intros i Hi. rewrite Egr by exact Hi. apply (conj_exact _ _ _ (nthC q1) (nthC q2)); [intros k Hk; now apply Nq|intros k Hk; now apply Nq|]. apply (Hx (M - 1 - i)%nat). clear - Hi. lia.
  - cbv beta. intros i Hi. fold o. apply Hab, Hi.
  - intros i Hi. exists (M - 1 - i)%nat. split; [clear - Hi; lia|]. cbv beta. fold o. rewrite (proj1 (Hab i _ Hi)). intros N E. apply N. now apply Cconj_0.
Qed.
End Top.
