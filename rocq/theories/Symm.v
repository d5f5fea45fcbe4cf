(** * Transformations of the signal under which the steps of the methods are covariant *)
From Coq Require Import Reals List Lra Lia QArith Qreals.
From Coquelicot Require Import Coquelicot.
From Verif Require Import CExp CConj CField DiscTables FscatterSpec FscatterProof ScatterSpec MatExp ScatterMatProps NftSpec NsevEnergy StepNft KdvEnergy.
Import ListNotations.
Local Open Scope C_scope.

(** a map of matrices that respects sums, products and real multiples *)
Record morph (f : mat2 -> mat2) : Prop := {
  mo_mul : forall X Y, f (mmul X Y) = mmul (f X) (f Y);
  mo_add : forall X Y, f (madd X Y) = madd (f X) (f Y);
  mo_scal : forall (c : R) X, f (mscal (RtoC c) X) = mscal (RtoC c) (f X);
  mo_one : f mone = mone;
  mo_zero : f mzero = mzero;
  mo_exp : forall X, f (mexp X) = mexp (f X) }.

Lemma mo_descending f : morph f -> forall n M M', (forall j, (j < n)%nat -> f (M j) = M' j) -> f (descending n M) = descending n M'.
Proof.
  intros H n M M'. induction n as [|n IH]; intros E; cbn [descending]; [apply (mo_one f H)|].
  rewrite (mo_mul f H), E, IH; [reflexivity| |]; auto.
Qed.
Lemma mo_word f EA EB EA' EB' : morph f -> (forall a, f (EA a) = EA' a) -> (forall a, f (EB a) = EB' a) ->
  forall w, f (word_val EA EB w) = word_val EA' EB' w.
Proof.
  intros H HA HB w. induction w as [|[[|] a] w IH]; cbn [word_val fold_right fst snd]; [apply (mo_one f H)| |];
    rewrite (mo_mul f H); fold (word_val EA EB w); fold (word_val EA' EB' w); now rewrite IH, ?HA, ?HB.
Qed.
Lemma mo_scheme f EA EB EA' EB' : morph f -> (forall a, f (EA a) = EA' a) -> (forall a, f (EB a) = EB' a) ->
  forall s, f (scheme_val EA EB s) = scheme_val EA' EB' s.
Proof.
  intros H HA HB s. induction s as [|[c w] s IH]; cbn [scheme_val fold_right fst snd]; [apply (mo_zero f H)|].
  fold (scheme_val EA EB s). fold (scheme_val EA' EB' s). now rewrite (mo_add f H), (mo_scal f H), IH, (mo_word f _ _ _ _ H HA HB).
Qed.

(** the transformation of the step size, the sample and the frequency that belongs to f *)
Record covariant (f : mat2 -> mat2) (h lam q r h' lam' q' r' : C) : Prop := {
  co_A : f (mscal h (akns_A lam 0 0)) = mscal h' (akns_A lam' 0 0);
  co_B : f (mscal h (offd q r)) = mscal h' (offd q' r') }.
Lemma mscal_mscal a b X : mscal a (mscal b X) = mscal (a * b) X.
Proof. apply mat2_eq; cbn [a11 a12 a21 a22 mscal]; ring. Qed.
Lemma expA_mexp lam (t : R) : expA lam t = mexp (mscal (RtoC t) (akns_A lam 0 0)).
Proof. symmetry. apply mexp_free. Qed.

Lemma co_expA f (h h' : R) lam q r lam' q' r' (c : R) : morph f -> covariant f (RtoC h) lam q r (RtoC h') lam' q' r' ->
  f (expA lam (c * h)) = expA lam' (c * h').
Proof.
  intros H [HA _]. rewrite !expA_mexp, (mo_exp f H), !RtoC_mult, <- !mscal_mscal, (mo_scal f H), HA. reflexivity.
Qed.
Lemma co_expB f (h h' : R) lam q r lam' q' r' (c : R) : morph f -> covariant f (RtoC h) lam q r (RtoC h') lam' q' r' ->
  f (expB q r (RtoC (c * h))) = expB q' r' (RtoC (c * h')).
Proof.
  intros H [_ HB]. rewrite !expB_mexp, (mo_exp f H), !RtoC_mult, <- !mscal_mscal, (mo_scal f H), HB. reflexivity.
Qed.
Lemma co_bo f (h h' : R) lam q r lam' q' r' : morph f -> covariant f (RtoC h) lam q r (RtoC h') lam' q' r' ->
  f (X_BO (RtoC h) lam q r) = X_BO (RtoC h') lam' q' r'.
Proof.
  intros H [HA HB].
  assert (E : forall h lam q r : C, X_BO h lam q r = madd (mscal h (akns_A lam 0 0)) (mscal h (offd q r))).
  { intros. unfold X_BO. apply mat2_eq; cbn [a11 a12 a21 a22 mscal madd akns_A offd]; ring. }
  now rewrite !E, (mo_add f H), HA, HB.
Qed.
(** all methods without resampling; the modal rotation separately *)
Lemma co_step d f (h h' : R) lam q r lam' q' r' : morph f -> covariant f (RtoC h) lam q r (RtoC h') lam' q' r' -> is_fast d ->
  (d = A_2SPLIT2_MODAL -> f (modal h q r) = modal h' q' r') -> f (fast_step d h q r lam) = fast_step d h' q' r' lam'.
Proof.
  intros H Co Hf Hm.
  assert (EH : forall x : R, (x / 2 = / 2 * x)%R) by (intros; field).
  assert (HG : forall s deg, f (splitting lam q r h deg s) = splitting lam' q' r' h' deg s).
  { intros s deg. unfold splitting. apply (mo_scheme f _ _ _ _ H); intros a.
    - replace (Q2R a * (h / INR deg))%R with (Q2R a * / INR deg * h)%R by (unfold Rdiv; ring).
      replace (Q2R a * (h' / INR deg))%R with (Q2R a * / INR deg * h')%R by (unfold Rdiv; ring). eapply co_expA; eassumption.
    - replace (Q2R a * (h / INR deg))%R with (Q2R a * / INR deg * h)%R by (unfold Rdiv; ring).
      replace (Q2R a * (h' / INR deg))%R with (Q2R a * / INR deg * h')%R by (unfold Rdiv; ring). eapply co_expB; eassumption. }
  assert (HA : f (expA lam (h / 2)) = expA lam' (h' / 2)) by (rewrite !EH; eapply co_expA; eassumption).
  assert (HB : f (expB q r (RtoC h)) = expB q' r' (RtoC h')).
  { rewrite <- (Rmult_1_l h), <- (Rmult_1_l h'). eapply co_expB; eassumption. }
  destruct d; try (destruct Hf as [Hf|Hf]; [discriminate Hf|now contradiction Hf]); cbn [fast_step scheme_of]; try apply HG.
  all: rewrite !(mo_mul f H), HA; first [now rewrite HB|now rewrite Hm].
Qed.

(** ** The three maps *)
(** rotation of the signal by c *)
Definition twist (c : C) (X : mat2) : mat2 := M2 (a11 X) (c * a12 X) (/ c * a21 X) (a22 X).
Lemma twist_morph (c : C) : c <> 0 -> morph (twist c).
Proof.
  intros Hc. constructor; intros; try (apply mat2_eq; cbn [a11 a12 a21 a22 mscal madd mmul twist mone mzero]; field; exact Hc).
  unfold mexp. assert (E : mdet (twist c X) = mdet X) by (unfold mdet, twist; cbn [a11 a12 a21 a22]; field; exact Hc).
  rewrite E. unfold mexp_at. apply mat2_eq; cbn [a11 a12 a21 a22 mscal madd mmul twist mone mzero]; ring.
Qed.
Lemma id_morph : morph (fun X => X).
Proof. now constructor. Qed.
Lemma conj_morph : morph mconj.
Proof.
  constructor; intros; [apply mconj_mul|apply mconj_add| |apply mconj_one| |].
  - apply mconj_scal. apply Cconj_R.
  - apply mat2_eq; cbn; apply Cconj_R.
  - set (k := Csqrt (- mdet X)). assert (Hk : k * k = - mdet X) by apply Csqrt_sq.
    rewrite (mexp_root (Cconj k) (mconj X)) by (now rewrite <- Cmult_conj, Hk, mdet_conj, Cconj_opp).
    rewrite (mexp_root k X Hk). unfold mexp_at. rewrite <- Cconj_cosh, <- Cconj_sinh.
    assert (E : (if Ceq_dec (Cconj k) 0 then RtoC 1 else Cconj (Csinh k) / Cconj k) = Cconj (if Ceq_dec k 0 then RtoC 1 else Csinh k / k)).
    { destruct (Ceq_dec k 0) as [E|N]; destruct (Ceq_dec (Cconj k) 0) as [E'|N'].
      - now rewrite Cconj_R.
      - contradict N'. rewrite E. apply Cconj_R.
      - contradict N. rewrite <- (Cconj_conj k), E'. apply Cconj_R.
      - unfold Cdiv. now rewrite Cmult_conj, Cconj_inv by exact N. }
    rewrite E. apply mat2_eq; cbn [a11 a12 a21 a22 mscal madd mconj mone]; now rewrite Cplus_conj, !Cmult_conj, !Cconj_R.
Qed.

Lemma twist_cov (c h lam q r : C) : c <> 0 -> covariant (twist c) h lam q r h lam (c * q) (/ c * r).
Proof. intros Hc. constructor; apply mat2_eq; cbn [a11 a12 a21 a22 mscal twist akns_A offd]; ring. Qed.
Lemma scale_cov (s h lam q r : C) : s <> 0 -> covariant (fun X => X) h lam q r (h / s) (s * lam) (s * q) (s * r).
Proof. intros Hs. constructor; apply mat2_eq; cbn [a11 a12 a21 a22 mscal akns_A offd]; field; exact Hs. Qed.
Lemma conj_cov (h : R) lam q r : covariant mconj (RtoC h) lam q r (RtoC h) (- Cconj lam) (Cconj q) (Cconj r).
Proof.
  assert (Ei : Cconj Ci = - Ci) by (apply Ceq; cbn; ring).
  constructor; apply mat2_eq; cbn [a11 a12 a21 a22 mscal mconj akns_A offd]; rewrite ?Cmult_conj, ?Cconj_opp, ?Ei, ?Cconj_R; ring.
Qed.
