(** * Covariance of the discrete scattering matrix *)
From Coq Require Import Reals List Lra Lia QArith Qreals.
From Coquelicot Require Import Coquelicot.
From Verif Require Import CExp CConj CMean CField DiscTables DiscModel FscatterSpec FscatterProof ScatterSpec MatExp ScatterMatProps ScatterRun NftSpec NsevEnergy StepNft KdvEnergy.
From Verif Require Import Symm.
Import ListNotations.
Local Open Scope C_scope.

Definition dets (f : mat2 -> mat2) : Prop := forall X, Cmod (mdet (f X)) = Cmod (mdet X) /\ (mdet (f X) = - (1) -> mdet X = - (1)).
Lemma twist_dets (c : C) : c <> 0 -> dets (twist c).
Proof. intros Hc X. assert (E : mdet (twist c X) = mdet X) by (unfold mdet, twist; cbn [a11 a12 a21 a22]; field; exact Hc). now rewrite E. Qed.
Lemma id_dets : dets (fun X => X). Proof. now intros X. Qed.
Lemma conj_dets : dets mconj.
Proof.
  intros X. rewrite mdet_conj, Cmod_conj. split; [reflexivity|]. intros E. rewrite <- (Cconj_conj (mdet X)), E, Cconj_opp. now rewrite (Cconj_R 1).
Qed.
Lemma Cmod_sqrt (z : C) : Cmod (Csqrt z) = sqrt (Cmod z).
Proof. rewrite <- (Csqrt_sq z) at 2. rewrite Cmod_mult, sqrt_square; [reflexivity|apply Cmod_ge_0]. Qed.
Lemma Cmod_0_iff (x y : C) : Cmod x = Cmod y -> x = 0 -> y = 0.
Proof. intros E ->. apply Cmod_eq_0. now rewrite <- E, Cmod_0. Qed.

Lemma co_exact d f (h h' : R) lam q r lam' q' r' : morph f -> dets f -> covariant f (RtoC h) lam q r (RtoC h') lam' q' r' ->
  fast_exact d h q r -> fast_exact d h' q' r'.
Proof.
  intros H Hd Co.
  assert (Em : forall h q r : C, mdet (mscal h (offd q r)) = - (h * q * (h * r))) by (intros; unfold mdet, mscal, offd; cbn [a11 a12 a21 a22]; ring).
  assert (G : (d = A_2SPLIT2_MODAL -> RtoC h * q * (RtoC h * r) <> 1 -> RtoC h' * q' * (RtoC h' * r') <> 1) /\
    forall a : R, Cmod (RtoC (a * h') * Csqrt (- q' * r')) = Cmod (RtoC (a * h) * Csqrt (- q * r))).
  { destruct (Hd (mscal (RtoC h) (offd q r))) as [E1 E2]. rewrite (co_B _ _ _ _ _ _ _ _ _ Co) in E1, E2. rewrite !Em in E1, E2. split.
    - intros _ N E. apply N. rewrite E in E2. specialize (E2 eq_refl). transitivity (- - (RtoC h * q * (RtoC h * r))); [ring|]. rewrite E2. ring.
    - intros a. rewrite !Cmod_mult, !Cmod_sqrt, !Cmod_mult, !Cmod_opp, !Cmod_R, !Rabs_mult.
      rewrite !Cmod_opp, !Cmod_mult, !Cmod_R in E1.
      assert (Q : forall x y z : R, (0 <= x -> 0 <= y -> 0 <= z -> Rabs x * sqrt (y * z) = sqrt (x * y * (x * z)))%R).
      { intros x y z Hx Hy Hz. replace (x * y * (x * z))%R with (x * x * (y * z))%R by ring. rewrite (sqrt_mult (x * x) (y * z)) by nra. rewrite sqrt_square by exact Hx. now rewrite Rabs_pos_eq. }
      rewrite !Rmult_assoc. f_equal. rewrite <- (Rabs_Rabsolu h), <- (Rabs_Rabsolu h'). rewrite !Q by (apply Rabs_pos || apply Cmod_ge_0). now rewrite E1. }
  destruct G as [G1 G2]. unfold fast_exact.
  destruct d; try exact (G1 eq_refl);
    intros E s t f0 Es It If0 EL; specialize (E s t f0 Es It If0 EL);
    match type of E with context [INR ?m] => specialize (G2 (Q2R (snd f0) * / INR m)%R);
      replace (Q2R (snd f0) * (h' / INR m))%R with (Q2R (snd f0) * / INR m * h')%R by (unfold Rdiv; ring);
      replace (Q2R (snd f0) * (h / INR m))%R with (Q2R (snd f0) * / INR m * h)%R in E by (unfold Rdiv; ring) end;
    (destruct E as [E|E]; [left; exact (Cmod_0_iff _ _ (eq_sym G2) E)|right; rewrite G2; exact E]).
Qed.

(** the methods without resampling *)
Lemma up1 d : akns_upsampling_factor d = 1%nat -> akns_degree d <> 0%nat /\ is_fast d \/ d = A_BO.
Proof.
  intros U. unfold is_fast. destruct d; try discriminate U; try (right; reflexivity); left; (split; [discriminate|]);
    try (left; reflexivity); right; discriminate.
Qed.
Definition modal_ok (d : akns_disc) f (h h' : R) (q r q' r' : nat -> C) n := d = A_2SPLIT2_MODAL -> forall j, (j < n)%nat -> f (modal h (q j) (r j)) = modal h' (q' j) (r' j).
Lemma co_scattering d f (h h' : R) lam lam' q r q' r' n : akns_upsampling_factor d = 1%nat -> morph f -> dets f ->
  (forall j, (j < n)%nat -> covariant f (RtoC h) lam (q j) (r j) (RtoC h') lam' (q' j) (r' j)) -> modal_ok d f h h' q r q' r' n ->
  f (scattering d (weights d) h q r n lam) = scattering d (weights d) h' q' r' n lam' /\
  (scattering_exact d (weights d) h q r n lam -> scattering_exact d (weights d) h' q' r' n lam').
Proof.
  intros U H Hd Co Hm. unfold scattering, scattering_exact. rewrite U. change (INR 1) with 1%R.
  assert (E1 : forall x : R, (x / 1 = x)%R) by (intros; field). rewrite !E1.
  destruct (up1 d U) as [[N Hf]|EB].
  - destruct (akns_degree d) as [|m]; [contradiction|]. split.
    + apply (mo_descending f H). intros j Hj. apply co_step; [exact H|exact (Co j Hj)|exact Hf|intros Em; exact (Hm Em j Hj)].
    + intros X j Hj. eapply co_exact; [exact H|exact Hd|apply Co; exact Hj|apply X; exact Hj].
  - subst d. cbn [akns_degree slow_steps]. assert (EX : forall h q r j lam, step_core A_BO (weights A_BO) (RtoC h) q r j lam = X_BO (RtoC h) lam (q j) (r j)).
    { intros. unfold step_core. assert (EW : weights A_BO = [RtoC 1]) by reflexivity. rewrite EW. change (length [RtoC 1]) with 1%nat. rewrite Nat.mod_1_r. cbn [nth]. f_equal. ring. }
    split.
    + apply (mo_descending f H). intros j Hj. unfold slow_step, sandwich. cbn [step_outer]. rewrite !EX, (mo_exp f H), (co_bo _ _ _ _ _ _ _ _ _ H (Co j Hj)). reflexivity.
    + intros X j Hj. destruct (X j Hj) as [X1 _]. split; [|exact I]. rewrite EX in X1. rewrite EX, <- (co_bo _ _ _ _ _ _ _ _ _ H (Co j Hj)).
      unfold sinc_exact in *. destruct (Hd (X_BO (RtoC h) lam (q j) (r j))) as [E _]. rewrite E. destruct X1 as [X1|X1]; [left|right; exact X1].
      exact (Cmod_0_iff _ _ (eq_sym E) X1).
Qed.
