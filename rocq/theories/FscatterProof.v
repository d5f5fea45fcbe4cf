(** * Exponentials and splittings: proofs for FscatterProps *)
From Coq Require Import Reals List QArith Qreals ZArith Lia Lra.
From Coquelicot Require Import Coquelicot.
From Verif Require Import Base Fields PolySpec CField CExp CDeriv MiscNumModel MiscMetricProps DiscTables FftAppProps FscatterTab FscatterSpec FscatterAlg FscatterModel.
Import ListNotations.
Local Open Scope C_scope.

Lemma mat2_eq X Y : a11 X = a11 Y -> a12 X = a12 Y -> a21 X = a21 Y -> a22 X = a22 Y -> X = Y.
Proof. destruct X, Y; cbn; intros; subst; reflexivity. Qed.
Ltac mring := apply mat2_eq; cbn [a11 a12 a21 a22 mmul madd mscal mone mzero]; ring.
Lemma mmul_assoc X Y Z : mmul X (mmul Y Z) = mmul (mmul X Y) Z. Proof. mring. Qed.
Lemma mmul_one_l X : mmul mone X = X. Proof. mring. Qed.
Lemma mmul_one_r X : mmul X mone = X. Proof. mring. Qed.
Lemma mscal_mul_l c X Y : mmul (mscal c X) Y = mscal c (mmul X Y). Proof. mring. Qed.
Lemma mscal_mul_r c X Y : mmul X (mscal c Y) = mscal c (mmul X Y). Proof. mring. Qed.
Lemma mscal_mscal c d X : mscal c (mscal d X) = mscal (c * d) X. Proof. mring. Qed.
Lemma mscal_add c X Y : mscal c (madd X Y) = madd (mscal c X) (mscal c Y). Proof. mring. Qed.
Lemma mscal_one X : mscal 1 X = X. Proof. mring. Qed.
Lemma mdet_mul X Y : mdet (mmul X Y) = mdet X * mdet Y. Proof. unfold mdet, mmul. cbn [a11 a12 a21 a22]. ring. Qed.

Lemma Cmult_eq_reg_l (a x y : C) : a * x = a * y -> a <> 0 -> x = y.
Proof. intros H N. replace x with (/ a * (a * x)) by (field; exact N). rewrite H. field. exact N. Qed.

(** ** Horner *)
Lemma hor_peval z l : hor z l = peval (K := CF) l z.
Proof.
  assert (G : forall l (acc : C), fold_left (fun a c => a * z + c) l acc = polyval l z acc).
  { induction l0 as [|c l0 IH]; intros acc; [reflexivity|]. cbn [fold_left polyval]. apply IH. }
  unfold hor. rewrite G, polyval_peval. ring.
Qed.

(** ** exp(tB) *)
Lemma expB_at_opp mu q r t : expB_at (- mu) q r t = expB_at mu q r t.
Proof.
  unfold expB_at. replace (- mu * t) with (- (mu * t)) by ring. rewrite Ccosh_opp, Csinh_opp.
  destruct (Ceq_dec mu 0) as [->|N]; destruct (Ceq_dec (- _) 0) as [E|N'].
  - reflexivity.
  - exfalso. apply N'. ring.
  - exfalso. apply N. replace mu with (- - mu) by ring. rewrite E. ring.
  - apply mat2_eq; cbn [a11 a12 a21 a22]; try ring; field; assumption.
Qed.
Lemma sqr_eq (x y : C) : x * x = y * y -> x = y \/ x = - y.
Proof.
  intros H. assert (E : (x - y) * (x + y) = 0) by (replace ((x - y) * (x + y)) with (x * x - y * y) by ring; rewrite H; ring).
  destruct (Ceq_dec (x - y) 0) as [Z|N]; [left|right].
  - rewrite <- (Cplus_0_r y), <- Z. ring.
  - assert (x + y = 0). { apply (Cmult_eq_reg_l (x - y)); [rewrite E; ring|exact N]. } rewrite <- (Cplus_0_l (- y)), <- H0. ring.
Qed.
(** expB does not depend on the chosen root *)
Lemma expB_root mu q r t : mu * mu = q * r -> expB q r t = expB_at mu q r t.
Proof.
  intros H. unfold expB. destruct (sqr_eq (Csqrt (q * r)) mu) as [-> | ->].
  - now rewrite Csqrt_sqr.
  - reflexivity.
  - apply expB_at_opp.
Qed.
Lemma expB_0 q r : expB q r 0 = mone.
Proof.
  unfold expB, expB_at. set (mu := Csqrt (q * r)). rewrite Cmult_0_r, Ccosh_0, Csinh_0.
  destruct (Ceq_dec mu 0); apply mat2_eq; cbn [a11 a12 a21 a22 mone]; try ring; field; assumption.
Qed.
(** U' = B U, entry by entry *)
Lemma expB_derive q r t :
  let U := expB q r t in let B := M2 0 q r 0 in
  Cderive (fun t => a11 (expB q r t)) t (a11 (mmul B U)) /\ Cderive (fun t => a12 (expB q r t)) t (a12 (mmul B U)) /\
  Cderive (fun t => a21 (expB q r t)) t (a21 (mmul B U)) /\ Cderive (fun t => a22 (expB q r t)) t (a22 (mmul B U)).
Proof.
  cbv zeta. unfold expB. pose proof (Csqrt_sqr (q * r)) as Hs. set (mu := Csqrt (q * r)) in *.
  unfold expB_at. cbn [a11 a12 a21 a22 mmul].
  assert (Dl : Cderive (fun t : C => mu * t) t mu).
  { eapply Cderive_eq; [apply Cderive_scal, Cderive_id|]. ring. }
  assert (Dc : Cderive (fun t : C => Ccosh (mu * t)) t (mu * Csinh (mu * t))) by exact (Cderive_comp Ccosh (fun t => mu * t) t _ _ (Cderive_cosh _) Dl).
  assert (Ds : Cderive (fun t : C => Csinh (mu * t)) t (mu * Ccosh (mu * t))) by exact (Cderive_comp Csinh (fun t => mu * t) t _ _ (Cderive_sinh _) Dl).
  destruct (Ceq_dec mu 0) as [Z|N].
  - rewrite Z in *. assert (Hqr : q * r = 0) by (rewrite <- Hs; ring).
    assert (E0 : Csinh (0 * t) = 0) by (rewrite Cmult_0_l; apply Csinh_0).
    assert (E1 : Ccosh (0 * t) = 1) by (rewrite Cmult_0_l; apply Ccosh_0).
    rewrite E0 in Dc. rewrite E1.
    refine (conj _ (conj _ (conj _ _))).
    + eapply Cderive_eq; [exact Dc|]. replace (0 * 1 + q * (r * t)) with (q * r * t) by ring. rewrite Hqr. ring.
    + eapply Cderive_eq; [apply Cderive_scal, Cderive_id|]. ring.
    + eapply Cderive_eq; [apply Cderive_scal, Cderive_id|]. ring.
    + eapply Cderive_eq; [exact Dc|]. replace (r * (q * t) + 0 * 1) with (q * r * t) by ring. rewrite Hqr. ring.
  - assert (Dd : Cderive (fun t : C => Csinh (mu * t) / mu) t (Ccosh (mu * t))).
    { eapply Cderive_ext; [|eapply Cderive_eq; [apply (Cderive_scal (/ mu)); exact Ds|]].
      - intros y. cbv beta. unfold Cdiv. ring.
      - field. exact N. }
    refine (conj _ (conj _ (conj _ _))).
    + eapply Cderive_eq; [exact Dc|]. replace (mu * Csinh (mu * t)) with (mu * mu * Csinh (mu * t) / mu) by (field; exact N). rewrite Hs. field. exact N.
    + eapply Cderive_eq; [apply (Cderive_scal q); exact Dd|]. ring.
    + eapply Cderive_eq; [apply (Cderive_scal r); exact Dd|]. ring.
    + eapply Cderive_eq; [exact Dc|]. replace (mu * Csinh (mu * t)) with (mu * mu * Csinh (mu * t) / mu) by (field; exact N). rewrite Hs. field. exact N.
Qed.
Lemma expB_det q r t : mdet (expB q r t) = 1.
Proof.
  unfold expB. pose proof (Csqrt_sqr (q * r)) as Hs. set (mu := Csqrt (q * r)) in *. unfold expB_at, mdet. cbn [a11 a12 a21 a22].
  destruct (Ceq_dec mu 0) as [Z|N].
  - rewrite Z in *. rewrite Cmult_0_l, Ccosh_0. replace (1 * 1 - q * t * (r * t)) with (1 - q * r * t * t) by ring. rewrite <- Hs. ring.
  - rewrite <- (Ccosh_sinh (mu * t)).
    replace (q * (Csinh (mu * t) / mu) * (r * (Csinh (mu * t) / mu))) with (q * r * (Csinh (mu * t) / mu) * (Csinh (mu * t) / mu)) by ring.
    rewrite <- Hs. field. exact N.
Qed.
Lemma expB_plus q r s t : expB q r (s + t) = mmul (expB q r s) (expB q r t).
Proof.
  unfold expB. pose proof (Csqrt_sqr (q * r)) as Hs. set (mu := Csqrt (q * r)) in *. unfold expB_at.
  rewrite Cmult_plus_distr_l, Ccosh_plus, Csinh_plus.
  destruct (Ceq_dec mu 0) as [Z|N]; apply mat2_eq; cbn [a11 a12 a21 a22 mmul].
  1-4: rewrite Z in *; rewrite ?Cmult_0_l, ?Ccosh_0, ?Csinh_0.
  1,4: replace (q * s * (r * t)) with (q * r * s * t) by ring; replace (r * s * (q * t)) with (q * r * s * t) by ring; rewrite <- Hs; ring.
  1,2: ring.
  1: replace (q * (Csinh (mu * s) / mu) * (r * (Csinh (mu * t) / mu))) with (q * r * (Csinh (mu * s) / mu) * (Csinh (mu * t) / mu)) by ring; rewrite <- Hs; field; exact N.
  1: field; exact N. 1: field; exact N.
  replace (r * (Csinh (mu * s) / mu) * (q * (Csinh (mu * t) / mu))) with (q * r * (Csinh (mu * s) / mu) * (Csinh (mu * t) / mu)) by ring; rewrite <- Hs; field; exact N.
Qed.

(** ** exp(tA) *)
Lemma expA_0 lam : expA lam 0 = mone.
Proof. unfold expA. rewrite !Cmult_0_r, Cexp_0. reflexivity. Qed.
Lemma expA_plus lam s t : expA lam (s + t) = mmul (expA lam s) (expA lam t).
Proof.
  unfold expA. rewrite RtoC_plus, !Cmult_plus_distr_l, !Cexp_plus. mring.
Qed.

(** ** The matrix of the code *)
(** misc_CSINC is exact: x = 0 or |x| >= 1e-8 *)
Definition sinc_ok (x : C) : Prop := x = 0 \/ (1 / 100000000 <= Cmod x)%R.
Definition m3mat (m : m3) : mat2 := M2 (m0 m) (m1 m) (m2 m) (m0 m).
Lemma zfsm_exp eps q r : sinc_ok (RtoC eps * Csqrt (- q * r)) -> m3mat (zfsm eps q r) = expB q r (RtoC eps).
Proof.
  intros H. pose proof (Csqrt_sqr (- q * r)) as Hs. unfold zfsm. set (w := Csqrt (- q * r)) in *.
  rewrite (expB_root (Ci * w)).
  2: { replace (Ci * w * (Ci * w)) with (Ci * Ci * (w * w)) by ring. rewrite Hs, Ci_sqr. ring. }
  unfold expB_at, m3mat. cbn [m0 m1 m2].
  rewrite Ccos_cosh. replace (Ci * (RtoC eps * w)) with (Ci * w * RtoC eps) by ring.
  destruct (Ceq_dec (Ci * w) 0) as [Z|N].
  - assert (Zw : w = 0). { apply (Cmult_eq_reg_l Ci); [rewrite Z; ring|apply Ci_neq0]. }
    rewrite Zw, !Cmult_0_r, misc_CSINC_at_zero. apply mat2_eq; cbn [a11 a12 a21 a22]; ring.
  - assert (Nw : w <> 0) by (intros ->; apply N; ring).
    assert (E : RtoC eps * misc_CSINC (RtoC eps * w) = Csinh (Ci * w * RtoC eps) / (Ci * w)).
    { apply (Cmult_eq_reg_l (Ci * w)); [|exact N]. transitivity (Csinh (Ci * w * RtoC eps)); [|field; split; [exact Nw|apply Ci_neq0]].
      transitivity (Ci * (misc_CSINC (RtoC eps * w) * (RtoC eps * w))); [ring|].
      destruct H as [H|H].
      - replace (Ci * w * RtoC eps) with (Ci * (RtoC eps * w)) by ring. rewrite H, !Cmult_0_r, Csinh_0. reflexivity.
      - rewrite misc_CSINC_exact by exact H. rewrite Csin_sinh. replace (Ci * w * RtoC eps) with (Ci * (RtoC eps * w)) by ring. field. apply Ci_neq0. }
    rewrite E. reflexivity.
Qed.

(** ** Splitting with z = exp(2 i lambda h/deg) *)
Lemma zp_exp (lam : C) (t : R) n : zp (Cexp (2 * Ci * lam * RtoC t)) n = Cexp (2 * Ci * lam * RtoC (INR n * t)).
Proof.
  induction n as [|n IH]; [cbn [zp INR]; rewrite Rmult_0_l, !Cmult_0_r, Cexp_0; reflexivity|].
  cbn [zp]. rewrite IH, S_INR, <- Cexp_plus. f_equal. rewrite !RtoC_mult, RtoC_plus. ring.
Qed.
Definition isint (a : Q) : bool := andb (Pos.eqb (Qden a) 1) (Z.leb 0 (Qnum a)).
Lemma expA_diag lam (t : R) a : isint a = true ->
  expA lam (Q2R a * t) = mscal (Cexp (- Ci * lam * RtoC (Q2R a * t))) (diagz (Cexp (2 * Ci * lam * RtoC t)) a).
Proof.
  intros H. apply andb_prop in H as (H1 & H2). apply Pos.eqb_eq in H1. apply Z.leb_le in H2.
  destruct a as [n d]. cbn [Qnum Qden] in *. subst d. unfold diagz. cbn [Qnum]. rewrite zp_exp, INR_IZR_INZ, Z2Nat.id by lia.
  rewrite Q2R_int. unfold expA. apply mat2_eq; cbn [a11 a12 a21 a22 mscal]; try ring.
  rewrite <- Cexp_plus. f_equal. ring.
Qed.
Definition wtA (w : word) : Q := fold_right (fun f s => match fst f with LA => Qplus (snd f) s | LB => s end) 0%Q w.
Definition okA (w : word) : bool := forallb (fun f => match fst f with LA => isint (snd f) | LB => true end) w.
Lemma word_val_diag lam (t : R) EB w : okA w = true ->
  word_val (fun a => expA lam (Q2R a * t)) EB w
  = mscal (Cexp (- Ci * lam * RtoC (Q2R (wtA w) * t))) (word_val (diagz (Cexp (2 * Ci * lam * RtoC t))) EB w).
Proof.
  induction w as [|[l a] w IH]; intros H.
  - cbn [word_val fold_right wtA]. replace (Q2R 0) with 0%R by (unfold Q2R; cbn; ring). rewrite Rmult_0_l, Cmult_0_r, Cexp_0. mring.
  - cbn [okA forallb fst snd] in H. apply andb_prop in H as (H1 & H2). cbn [word_val wtA fold_right fst snd].
    change (fold_right _ mone w) with (word_val (fun a => expA lam (Q2R a * t)) EB w) at 1.
    change (fold_right _ mone w) with (word_val (diagz (Cexp (2 * Ci * lam * RtoC t))) EB w).
    change (fold_right _ 0%Q w) with (wtA w).
    rewrite (IH H2). destruct l.
    + rewrite (expA_diag lam t a H1), mscal_mul_l, !mscal_mul_r, mscal_mscal, <- Cexp_plus. f_equal. f_equal.
      rewrite Q2R_plus, Rmult_plus_distr_r, RtoC_plus. ring.
    + now rewrite mscal_mul_r.
Qed.
Definition ok_scheme (deg : nat) (s : scheme) : bool :=
  forallb (fun t => andb (okA (snd t)) (Qeq_bool (wtA (snd t)) (inject_Z (Z.of_nat deg)))) s.
Lemma scheme_val_diag deg lam (t : R) EB s : ok_scheme deg s = true ->
  scheme_val (fun a => expA lam (Q2R a * t)) EB s
  = mscal (Cexp (- Ci * lam * RtoC (INR deg * t))) (scheme_val (diagz (Cexp (2 * Ci * lam * RtoC t))) EB s).
Proof.
  induction s as [|[c w] s IH]; intros H.
  - cbn. mring.
  - cbn [ok_scheme forallb fst snd] in H. apply andb_prop in H as (H1 & H2). apply andb_prop in H1 as (H0 & H1).
    apply Qeq_bool_eq in H1. apply Qeq_eqR in H1. cbn [scheme_val fold_right fst snd].
    change (fold_right _ mzero s) with (scheme_val (fun a => expA lam (Q2R a * t)) EB s) at 1.
    change (fold_right _ mzero s) with (scheme_val (diagz (Cexp (2 * Ci * lam * RtoC t))) EB s).
    rewrite (IH H2), (word_val_diag lam t EB w H0), H1.
    assert (E : Q2R (inject_Z (Z.of_nat deg)) = INR deg) by (unfold inject_Z; rewrite Q2R_int; now rewrite INR_IZR_INZ).
    rewrite E. mring.
Qed.
Lemma schemes_ok d s : scheme_of d = Some s -> ok_scheme (akns_degree d) s = true.
Proof. intros H. destruct d; try discriminate H; injection H as <-; vm_compute; reflexivity. Qed.
Lemma scheme_val_ext EA EB EB' s : (forall t f, In t s -> In f (snd t) -> fst f = LB -> EB (snd f) = EB' (snd f)) ->
  scheme_val EA EB s = scheme_val EA EB' s.
Proof.
  induction s as [|[c w] s IH]; intros H; [reflexivity|]. cbn [scheme_val fold_right fst snd]. f_equal.
  - f_equal. assert (Hw : forall f, In f w -> fst f = LB -> EB (snd f) = EB' (snd f)) by (intros f; apply (H (c, w)); now left).
    clear - Hw. induction w as [|[l a] w IHw]; [reflexivity|]. cbn [word_val fold_right fst snd]. f_equal.
    + destruct l; [reflexivity|]. apply (Hw (LB, a)); [now left|reflexivity].
    + apply IHw. intros f Hf. apply Hw. now right.
  - apply IH. intros u f Hu. apply H. now right.
Qed.
