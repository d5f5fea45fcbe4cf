(** * 3x3 exponentials and splittings: proofs for ManFscProps *)
From Coq Require Import Reals List QArith Qreals ZArith Lia Lra.
From Coquelicot Require Import Coquelicot.
From Verif Require Import Base Loop Fields PolySpec CField CExp CDeriv MiscNumModel MiscMetricProps ErrModel DiscTables FftAppProps FscatterTab FscatterSpec FscatterAlg
  FscatterModel FscatterProof FscatterProps ManFscSpec ManFscTab ManFscAlg ManFscModel.
From Verif Require Export CConj.
Import ListNotations.
Local Open Scope C_scope.

Lemma mat3_eq X Y : c11 X = c11 Y -> c12 X = c12 Y -> c13 X = c13 Y -> c21 X = c21 Y -> c22 X = c22 Y -> c23 X = c23 Y ->
  c31 X = c31 Y -> c32 X = c32 Y -> c33 X = c33 Y -> X = Y.
Proof. destruct X, Y; cbn; intros; subst; reflexivity. Qed.
Ltac m3cbn := cbn [c11 c12 c13 c21 c22 c23 c31 c32 c33 m3mul m3add m3scal m3one m3zero Bmat3].
Ltac m3ring := apply mat3_eq; m3cbn; ring.
Lemma m3mul_assoc X Y Z : m3mul X (m3mul Y Z) = m3mul (m3mul X Y) Z. Proof. m3ring. Qed.
Lemma m3mul_one_l X : m3mul m3one X = X. Proof. m3ring. Qed.
Lemma m3scal_mul_l c X Y : m3mul (m3scal c X) Y = m3scal c (m3mul X Y). Proof. m3ring. Qed.
Lemma m3scal_mul_r c X Y : m3mul X (m3scal c Y) = m3scal c (m3mul X Y). Proof. m3ring. Qed.
Lemma m3scal_m3scal c d X : m3scal c (m3scal d X) = m3scal (c * d) X. Proof. m3ring. Qed.

(** ** exp(tB) = I + s B + k B^2 *)
Definition lin3 (q1 q2 r1 r2 s k : C) : mat3 :=
  let B := Bmat3 q1 q2 r1 r2 in m3add m3one (m3add (m3scal s B) (m3scal k (m3mul B B))).
Lemma lin3_mul q1 q2 r1 r2 s k s' k' : let m := q1 * r1 + q2 * r2 in
  m3mul (lin3 q1 q2 r1 r2 s k) (lin3 q1 q2 r1 r2 s' k') = lin3 q1 q2 r1 r2 (s + s' + m * (s * k' + k * s')) (k + k' + s * s' + m * (k * k')).
Proof. cbv zeta. unfold lin3. m3ring. Qed.
Definition sfun (mu t : C) : C := if Ceq_dec mu 0 then t else Csinh (mu * t) / mu.
Definition kfun (mu t : C) : C := if Ceq_dec mu 0 then t * t / 2 else (Ccosh (mu * t) - 1) / (mu * mu).
Lemma expB3_at_lin mu q1 q2 r1 r2 t : expB3_at mu q1 q2 r1 r2 t = lin3 q1 q2 r1 r2 (sfun mu t) (kfun mu t).
Proof. reflexivity. Qed.
Lemma sk_opp mu t : sfun (- mu) t = sfun mu t /\ kfun (- mu) t = kfun mu t.
Proof.
  unfold sfun, kfun. replace (- mu * t) with (- (mu * t)) by ring. rewrite Ccosh_opp, Csinh_opp.
  destruct (Ceq_dec mu 0) as [->|N]; destruct (Ceq_dec (- _) 0) as [E|N'].
  - split; reflexivity.
  - exfalso. apply N'. ring.
  - exfalso. apply N. replace mu with (- - mu) by ring. rewrite E. ring.
  - split; field; assumption.
Qed.
Lemma expB3_root mu q1 q2 r1 r2 t : mu * mu = q1 * r1 + q2 * r2 -> expB3 q1 q2 r1 r2 t = expB3_at mu q1 q2 r1 r2 t.
Proof.
  intros H. unfold expB3. rewrite !expB3_at_lin. destruct (sqr_eq (Csqrt (q1 * r1 + q2 * r2)) mu) as [E|E].
  - now rewrite Csqrt_sqr.
  - now rewrite E.
  - rewrite E. destruct (sk_opp mu t) as (-> & ->). reflexivity.
Qed.
Lemma C2inv : / 2 + / 2 = 1. Proof. field. Qed.
Lemma sk_plus mu s t : let m := mu * mu in
  sfun mu (s + t) = sfun mu s + sfun mu t + m * (sfun mu s * kfun mu t + kfun mu s * sfun mu t) /\
  kfun mu (s + t) = kfun mu s + kfun mu t + sfun mu s * sfun mu t + m * (kfun mu s * kfun mu t).
Proof.
  cbv zeta. unfold sfun, kfun. destruct (Ceq_dec mu 0) as [->|N].
  - split; field.
  - rewrite Cmult_plus_distr_l, Ccosh_plus, Csinh_plus. split; field; exact N.
Qed.
Lemma expB3_plus q1 q2 r1 r2 s t : expB3 q1 q2 r1 r2 (s + t) = m3mul (expB3 q1 q2 r1 r2 s) (expB3 q1 q2 r1 r2 t).
Proof.
  unfold expB3. rewrite !expB3_at_lin, lin3_mul. cbv zeta. set (mu := Csqrt _). pose proof (Csqrt_sqr (q1 * r1 + q2 * r2)) as Hs. fold mu in Hs.
  rewrite <- Hs. destruct (sk_plus mu s t) as (<- & <-). reflexivity.
Qed.
Lemma expB3_0 q1 q2 r1 r2 : expB3 q1 q2 r1 r2 0 = m3one.
Proof.
  unfold expB3. rewrite expB3_at_lin. assert (E : sfun (Csqrt (q1 * r1 + q2 * r2)) 0 = 0 /\ kfun (Csqrt (q1 * r1 + q2 * r2)) 0 = 0).
  { unfold sfun, kfun. rewrite Cmult_0_r, Ccosh_0, Csinh_0. destruct (Ceq_dec _ 0); split; try field; try assumption. }
  destruct E as (-> & ->). unfold lin3. m3ring.
Qed.
Lemma s_derive mu t : Cderive (sfun mu) t (1 + mu * mu * kfun mu t) /\ Cderive (kfun mu) t (sfun mu t).
Proof.
  assert (Dl : Cderive (fun t : C => mu * t) t mu) by (eapply Cderive_eq; [apply Cderive_scal, Cderive_id|]; ring).
  assert (Dc : Cderive (fun t : C => Ccosh (mu * t)) t (mu * Csinh (mu * t))) by exact (Cderive_comp Ccosh (fun t => mu * t) t _ _ (Cderive_cosh _) Dl).
  assert (Ds : Cderive (fun t : C => Csinh (mu * t)) t (mu * Ccosh (mu * t))) by exact (Cderive_comp Csinh (fun t => mu * t) t _ _ (Cderive_sinh _) Dl).
  unfold sfun, kfun. destruct (Ceq_dec mu 0) as [->|N].
  - split.
    + eapply Cderive_eq; [apply Cderive_id|]. ring.
    + eapply Cderive_ext; [|eapply Cderive_eq; [apply (Cderive_scal (/ 2)); apply Cderive_mult; apply Cderive_id|]].
      * intros y. cbv beta. field.
      * rewrite Cmult_1_l, Cmult_1_r. field.
  - split.
    + eapply Cderive_ext; [|eapply Cderive_eq; [apply (Cderive_scal (/ mu)); exact Ds|]].
      * intros y. cbv beta. unfold Cdiv. ring.
      * field. exact N.
    + eapply Cderive_ext; [|eapply Cderive_eq; [apply (Cderive_scal (/ (mu * mu))); apply Cderive_minus; [exact Dc|apply (Cderive_const 1)]|]].
      * intros y. cbv beta. unfold Cdiv. ring.
      * field. exact N.
Qed.
(** U' = B U, entry by entry *)
Lemma expB3_derive q1 q2 r1 r2 t i j : (i < 3)%nat -> (j < 3)%nat ->
  Cderive (fun t => entry3 (expB3 q1 q2 r1 r2 t) i j) t (entry3 (m3mul (Bmat3 q1 q2 r1 r2) (expB3 q1 q2 r1 r2 t)) i j).
Proof.
  intros Hi Hj. unfold expB3. set (mu := Csqrt _). pose proof (Csqrt_sqr (q1 * r1 + q2 * r2)) as Hs. fold mu in Hs.
  destruct (s_derive mu t) as (Ds & Dk).
  assert (G : forall a b c, Cderive (fun t => a + (b * sfun mu t + c * kfun mu t)) t (b * (1 + mu * mu * kfun mu t) + c * sfun mu t)).
  { intros. eapply Cderive_eq; [apply Cderive_plus; [apply Cderive_const|]; apply Cderive_plus; apply Cderive_scal; eassumption|]. ring. }
  rewrite expB3_at_lin. unfold lin3.
  assert (K : forall a b c (f : C -> C) l, (forall y, f y = a + (b * sfun mu y + c * kfun mu y)) -> l = b * (1 + mu * mu * kfun mu t) + c * sfun mu t -> Cderive f t l).
  { intros a b c f l Hf ->. eapply Cderive_ext; [|apply (G a b c)]. intros y. symmetry. apply Hf. }
  rewrite Hs in K.
  destruct i as [|[|[|i]]]; try lia; destruct j as [|[|[|j]]]; try lia; cbn [entry3]; m3cbn.
  all: eapply K; [intros y; rewrite expB3_at_lin; unfold lin3; cbn [entry3]; m3cbn|].
  1: instantiate (1 := q1 * r1 + q2 * r2); instantiate (1 := 0); instantiate (1 := 1); ring.
  1: ring.
  1: instantiate (1 := 0); instantiate (1 := q1); instantiate (1 := 0); ring.
  1: ring.
  1: instantiate (1 := 0); instantiate (1 := q2); instantiate (1 := 0); ring.
  1: ring.
  1: instantiate (1 := 0); instantiate (1 := r1); instantiate (1 := 0); ring.
  1: ring.
  1: instantiate (1 := r1 * q1); instantiate (1 := 0); instantiate (1 := 1); ring.
  1: ring.
  1: instantiate (1 := r1 * q2); instantiate (1 := 0); instantiate (1 := 0); ring.
  1: ring.
  1: instantiate (1 := 0); instantiate (1 := r2); instantiate (1 := 0); ring.
  1: ring.
  1: instantiate (1 := r2 * q1); instantiate (1 := 0); instantiate (1 := 0); ring.
  1: ring.
  1: instantiate (1 := r2 * q2); instantiate (1 := 0); instantiate (1 := 1); ring.
  1: ring.
Qed.

(** ** The matrices of the code *)
(** for mu^2 real, sinh(mu t)/mu and (cosh(mu t)-1)/mu^2 are real *)
Lemma sk_real mu (m t : R) : mu * mu = RtoC m -> mu <> 0 ->
  Cconj (sfun mu (RtoC t)) = sfun mu (RtoC t) /\ Cconj (kfun mu (RtoC t)) = kfun mu (RtoC t).
Proof.
  intros Hm N. assert (N' : Cconj mu <> 0) by (intros E; apply N; now apply Cconj_0).
  assert (HC : Cconj mu = mu \/ Cconj mu = - mu).
  { apply sqr_eq. rewrite <- Cmult_conj, Hm. apply Cconj_R. }
  assert (E : Cconj (sfun mu (RtoC t)) = sfun (Cconj mu) (RtoC t) /\ Cconj (kfun mu (RtoC t)) = kfun (Cconj mu) (RtoC t)).
  { unfold sfun, kfun. destruct (Ceq_dec mu 0) as [Z|_]; [contradiction|]. destruct (Ceq_dec (Cconj mu) 0) as [Z|_]; [contradiction|].
    assert (N2 : mu * mu <> 0) by (intros Z; apply N; apply (Cmult_eq_reg_l mu); [rewrite Z; ring|exact N]).
    rewrite !Cconj_div by assumption.
    rewrite Cconj_minus, Cconj_sinh, Cconj_cosh, !Cmult_conj, !Cconj_R. split; reflexivity. }
  destruct E as (-> & ->). destruct HC as [-> | ->]; [split; reflexivity|apply sk_opp].
Qed.
Lemma norm_sq (x : C) : Cconj x * x = RtoC (Cmod x * Cmod x).
Proof. rewrite Cmod_sq. apply Ceq; cbn; ring. Qed.
(** q1 r1 + q2 r2 for r = -kappa conj q *)
Definition mu2 (kappa : Z) (q1 q2 : C) : R := (- IZR kappa * (Cmod q1 * Cmod q1 + Cmod q2 * Cmod q2))%R.
Lemma mu2_eq kappa (q1 q2 : C) :
  q1 * (- RtoC (IZR kappa) * Cconj q1) + q2 * (- RtoC (IZR kappa) * Cconj q2) = RtoC (mu2 kappa q1 q2).
Proof.
  unfold mu2. rewrite RtoC_mult, RtoC_opp, RtoC_plus, <- !norm_sq. ring.
Qed.
Lemma mu2_neq0 kappa (q1 q2 : C) : (Z.abs kappa = 1)%Z -> ~ (q1 = 0 /\ q2 = 0) -> RtoC (mu2 kappa q1 q2) <> 0.
Proof.
  intros Hk N E. apply RtoC_inj in E. apply N. unfold mu2 in E.
  assert (Hk' : IZR kappa = 1%R \/ IZR kappa = (-1)%R) by (destruct (Z.abs_eq_or_opp kappa) as [H|H]; rewrite H in Hk; [left|right]; [|replace kappa with (-1)%Z by lia]; [subst|]; reflexivity).
  pose proof (Cmod_ge_0 q1). pose proof (Cmod_ge_0 q2).
  assert (Cmod q1 = 0%R /\ Cmod q2 = 0%R) as (Z1 & Z2) by (destruct Hk' as [H'|H']; rewrite H' in E; split; nra).
  split; now apply Cmod_eq_0.
Qed.
(** the matrices are exact: q1 = q2 = 0, or the branch "everything below EPSILON" is not taken and misc_CSINC is exact *)
Definition exact_at (kappa : Z) (q1 q2 : C) (t : R) : Prop :=
  (q1 = 0 /\ q2 = 0) \/
  ((EPSILON <= Cmod q1 \/ EPSILON <= Cmod q2) /\ 1 / 100000000 <= Rabs t * sqrt (Cmod q1 * Cmod q1 + Cmod q2 * Cmod q2))%R.
Lemma EPSILON_pos : (0 < EPSILON)%R. Proof. unfold EPSILON. apply Rinv_0_lt_compat. lra. Qed.
Lemma small_0 : small (RtoC 0) = true.
Proof. unfold small. rewrite Cmod_0. destruct (Rlt_dec 0 EPSILON) as [_|N]; [reflexivity|]. destruct N. exact EPSILON_pos. Qed.
Lemma not_small (q1 q2 : C) : (EPSILON <= Cmod q1 \/ EPSILON <= Cmod q2)%R -> andb (small q1) (small q2) = false.
Proof.
  intros H. unfold small. destruct (Rlt_dec (Cmod q1) EPSILON), (Rlt_dec (Cmod q2) EPSILON); try reflexivity. lra.
Qed.
Lemma not_small_neq0 (q1 q2 : C) : (EPSILON <= Cmod q1 \/ EPSILON <= Cmod q2)%R -> ~ (q1 = 0 /\ q2 = 0).
Proof. intros H (-> & ->). rewrite Cmod_0 in H. pose proof EPSILON_pos. lra. Qed.
Lemma Cmod_root (w : C) (m : R) : w * w = RtoC m -> Cmod w = sqrt (Rabs m).
Proof.
  intros H. apply (f_equal Cmod) in H. rewrite Cmod_mult, Cmod_R in H. rewrite <- H. symmetry. apply sqrt_square. apply Cmod_ge_0.
Qed.
Lemma Rabs_mu2 kappa (q1 q2 : C) : (Z.abs kappa = 1)%Z -> Rabs (mu2 kappa q1 q2) = (Cmod q1 * Cmod q1 + Cmod q2 * Cmod q2)%R.
Proof.
  intros Hk. unfold mu2. rewrite Rabs_mult, Rabs_Ropp, <- abs_IZR, Hk, Rmult_1_l. apply Rabs_pos_eq.
  pose proof (Cmod_ge_0 q1). pose proof (Cmod_ge_0 q2). nra.
Qed.
Lemma Cmod_Ci : Cmod Ci = 1%R.
Proof. unfold Cmod. cbn. replace (0 * (0 * 1) + 1 * (1 * 1))%R with 1%R by ring. apply sqrt_1. Qed.
Lemma sinc_i (x : C) : x <> 0 -> (1 / 100000000 <= Cmod x)%R -> misc_CSINC (Ci * x) = Csinh x / x.
Proof.
  intros N H. assert (E : misc_CSINC (Ci * x) * (Ci * x) = Csin (Ci * x)).
  { apply misc_CSINC_exact. rewrite Cmod_mult, Cmod_Ci, Rmult_1_l. exact H. }
  apply (Cmult_eq_reg_l (Ci * x)).
  - rewrite Cmult_comm, E, Csin_sinh'. replace (Ci * (Ci * x)) with (Ci * Ci * x) by ring. rewrite Ci_sqr.
    replace (- (1) * x) with (- x) by ring. rewrite Csinh_opp. field. exact N.
  - intros Z. apply N. apply (Cmult_eq_reg_l Ci); [rewrite Z; ring|apply Ci_neq0].
Qed.
Lemma cos_i (x : C) : Ccos (Ci * x) = Ccosh x.
Proof. rewrite Ccos_cosh. replace (Ci * (Ci * x)) with (- x) by (replace (Ci * (Ci * x)) with (Ci * Ci * x) by ring; rewrite Ci_sqr; ring). apply Ccosh_opp. Qed.

(** the common computation: the entries written with sinh(x)/x, x = w t *)
Lemma exact_entries (q1 q2 r1 r2 w t : C) : w * w = q1 * r1 + q2 * r2 -> w <> 0 -> t <> 0 ->
  let x := w * t in let s := Csinh x / x in let c := Ccosh x in
  expB3 q1 q2 r1 r2 t = M3 c (q1 * s * t) (q2 * s * t)
     (r1 * s * t) (t * t * (r2 * q2 + r1 * q1 * c) / (x * x)) (q2 * r1 * (c - 1) * t * t / (x * x))
     (r2 * s * t) (q1 * r2 * (c - 1) * t * t / (x * x)) (t * t * (r1 * q1 + r2 * q2 * c) / (x * x))
  /\ s * t = sfun w t /\ (c - 1) * t * t / (x * x) = kfun w t.
Proof.
  cbv zeta. intros Hw N Nt.
  assert (Es : Csinh (w * t) / (w * t) * t = sfun w t) by (unfold sfun; destruct (Ceq_dec w 0); [contradiction|]; field; split; assumption).
  assert (Ek : (Ccosh (w * t) - 1) * t * t / (w * t * (w * t)) = kfun w t) by (unfold kfun; destruct (Ceq_dec w 0); [contradiction|]; field; split; assumption).
  split; [|split; assumption].
  rewrite (expB3_root w) by exact Hw. rewrite expB3_at_lin.
  assert (Ec : Ccosh (w * t) = 1 + w * w * kfun w t) by (unfold kfun; destruct (Ceq_dec w 0); [contradiction|]; field; assumption).
  unfold lin3. apply mat3_eq; m3cbn.
  - rewrite Ec, Hw. ring.
  - rewrite <- Es. ring.
  - rewrite <- Es. ring.
  - rewrite <- Es. ring.
  - transitivity (1 + r1 * q1 * kfun w t); [ring|]. unfold kfun; destruct (Ceq_dec w 0); [contradiction|].
    transitivity ((w * w - r1 * q1 + r1 * q1 * Ccosh (w * t)) / (w * w)); [field; assumption|].
    replace (w * w - r1 * q1) with (r2 * q2) by (rewrite Hw; ring). field. split; assumption.
  - rewrite <- Ek. field. split; assumption.
  - rewrite <- Es. ring.
  - rewrite <- Ek. field. split; assumption.
  - transitivity (1 + r2 * q2 * kfun w t); [ring|]. unfold kfun; destruct (Ceq_dec w 0); [contradiction|].
    transitivity ((w * w - r2 * q2 + r2 * q2 * Ccosh (w * t)) / (w * w)); [field; assumption|].
    replace (w * w - r2 * q2) with (r1 * q1) by (rewrite Hw; ring). field. split; assumption.
Qed.
Lemma RtoC_neq0' (t : R) : t <> 0%R -> RtoC t <> 0. Proof. intros N E. apply N. now apply RtoC_inj. Qed.
Lemma expNLS3_zero kappa t : expNLS3 kappa 0 0 t = m3one.
Proof.
  unfold expNLS3. rewrite (expB3_root 0) by (rewrite mu2_eq; unfold mu2; rewrite Cmod_0; apply Ceq; cbn; ring). rewrite expB3_at_lin. unfold lin3.
  assert (Z : Cconj 0 = 0) by apply Cconj_R. rewrite Z. m3ring.
Qed.
Theorem mzfsm_exp kappa (q1 q2 : C) (t : R) : (Z.abs kappa = 1)%Z -> t <> 0%R -> exact_at kappa q1 q2 t ->
  mzfsm t q1 q2 kappa = expNLS3 kappa q1 q2 (RtoC t).
Proof.
  intros Hk Nt [(-> & ->)|(Hs & Hx)].
  - unfold mzfsm. rewrite small_0. cbn [andb]. now rewrite expNLS3_zero.
  - pose proof (not_small_neq0 _ _ Hs) as Nq. unfold mzfsm. rewrite (not_small _ _ Hs). cbv zeta.
    set (k := RtoC (IZR kappa)). set (r1 := Cconj q1 * - (1) * k). set (r2 := Cconj q2 * - (1) * k).
    assert (E0 : r1 * q1 + r2 * q2 = RtoC (mu2 kappa q1 q2)) by (rewrite <- mu2_eq; unfold r1, r2, k; ring).
    set (w := Csqrt (r1 * q1 + r2 * q2)). assert (Hw : w * w = RtoC (mu2 kappa q1 q2)) by (unfold w; rewrite Csqrt_sqr; exact E0).
    assert (Nw : w <> 0). { intros E. apply (mu2_neq0 kappa q1 q2 Hk Nq). rewrite <- Hw, E. ring. }
    pose proof (RtoC_neq0' t Nt) as NtC.
    assert (Nx : w * RtoC t <> 0). { intros E. apply NtC. apply (Cmult_eq_reg_l w); [rewrite E; ring|exact Nw]. }
    assert (Mx : (1 / 100000000 <= Cmod (w * RtoC t)%C)%R).
    { rewrite Cmod_mult, Cmod_R, (Cmod_root w _ Hw), Rabs_mu2 by exact Hk. rewrite Rmult_comm. exact Hx. }
    rewrite (sinc_i _ Nx Mx), (cos_i (w * RtoC t)).
    assert (Er1 : - k * Cconj q1 = r1) by (unfold r1; ring). assert (Er2 : - k * Cconj q2 = r2) by (unfold r2; ring).
    unfold expNLS3. fold k. rewrite Er1, Er2.
    destruct (exact_entries q1 q2 r1 r2 w (RtoC t)) as (-> & Es & Ek); try assumption. { rewrite Hw, <- E0. ring. }
    destruct (sk_real w (mu2 kappa q1 q2) t Hw Nw) as (Rs & Rk). rewrite <- Es in Rs. rewrite <- Ek in Rk.
    set (s := Csinh (w * RtoC t) / (w * RtoC t)) in *. set (c := Ccosh (w * RtoC t)) in *.
    assert (Ck : Cconj k = k) by apply Cconj_R.
    apply M3_eq; try reflexivity.
    + replace (q1 * s * RtoC t) with (q1 * (s * RtoC t)) by ring. rewrite Cmult_conj, Rs. unfold r1. ring.
    + replace (q2 * s * RtoC t) with (q2 * (s * RtoC t)) by ring. rewrite Cmult_conj, Rs. unfold r2. ring.
    + replace (q2 * r1 * (c - 1) * RtoC t * RtoC t / (w * RtoC t * (w * RtoC t))) with (q2 * r1 * ((c - 1) * RtoC t * RtoC t / (w * RtoC t * (w * RtoC t)))) by (field; split; assumption).
      rewrite Cmult_conj, Rk. replace (Cconj (q2 * r1)) with (q1 * r2); [field; split; assumption|].
      unfold r1, r2. rewrite !Cmult_conj, Cconj_conj, Ck, Cconj_opp, Cconj_R. ring.
Qed.
(** get_E with t = -kappa conj(s), which is how it is called *)
Lemma get_E_exp kappa (s1 s2 t1 t2 : C) : (Z.abs kappa = 1)%Z -> t1 = - RtoC (IZR kappa) * Cconj s1 -> t2 = - RtoC (IZR kappa) * Cconj s2 ->
  exact_at kappa s1 s2 1 -> get_E s1 s2 t1 t2 = expNLS3 kappa s1 s2 1.
Proof.
  intros Hk -> -> [(-> & ->)|(Hs & Hx)].
  - unfold get_E. assert (Z : - RtoC (IZR kappa) * Cconj 0 = 0) by (rewrite Cconj_R; ring). rewrite Z, small_0. cbn [andb]. now rewrite expNLS3_zero.
  - pose proof (not_small_neq0 _ _ Hs) as Nq. unfold get_E. rewrite (not_small _ _ Hs). cbn [andb]. cbv zeta.
    set (k := RtoC (IZR kappa)). set (t1 := - k * Cconj s1). set (t2 := - k * Cconj s2).
    assert (E0 : t1 * s1 + t2 * s2 = RtoC (mu2 kappa s1 s2)) by (rewrite <- mu2_eq; unfold t1, t2, k; ring).
    set (w := Csqrt (t1 * s1 + t2 * s2)). assert (Hw : w * w = RtoC (mu2 kappa s1 s2)) by (unfold w; rewrite Csqrt_sqr; exact E0).
    assert (Nw : w <> 0). { intros E. apply (mu2_neq0 kappa s1 s2 Hk Nq). rewrite <- Hw, E. ring. }
    assert (Mx : (1 / 100000000 <= Cmod w)%R). { rewrite (Cmod_root w _ Hw), Rabs_mu2 by exact Hk. rewrite Rabs_R1, Rmult_1_l in Hx. exact Hx. }
    rewrite (sinc_i _ Nw Mx), (cos_i w). unfold expNLS3. fold k t1 t2.
    assert (N1 : RtoC 1 <> 0) by (apply RtoC_neq0'; lra).
    destruct (exact_entries s1 s2 t1 t2 w 1) as (-> & _ & _); try assumption. { rewrite Hw, <- E0. ring. }
    rewrite !(Cmult_1_r w). apply M3_eq; try ring; field; exact Nw.
Qed.
Lemma exact_at_scale kappa (s1 s2 : C) (h : R) : (0 < h)%R ->
  (EPSILON <= h * Cmod s1 \/ EPSILON <= h * Cmod s2)%R -> (1 / 100000000 <= h * sqrt (Cmod s1 * Cmod s1 + Cmod s2 * Cmod s2))%R ->
  exact_at kappa (s1 * RtoC h) (s2 * RtoC h) 1.
Proof.
  intros Hh H1 H2. right. rewrite !Cmod_mult, Cmod_R, (Rabs_pos_eq h), Rabs_R1, Rmult_1_l by lra. split; [rewrite !(Rmult_comm _ h); exact H1|].
  replace (Cmod s1 * h * (Cmod s1 * h) + Cmod s2 * h * (Cmod s2 * h))%R with (h * h * (Cmod s1 * Cmod s1 + Cmod s2 * Cmod s2))%R by ring.
  rewrite sqrt_mult_alt by nra. rewrite sqrt_square by lra. exact H2.
Qed.
Lemma expB3_scale (q1 q2 r1 r2 a t : C) : a <> 0 -> expB3 (q1 * a) (q2 * a) (r1 * a) (r2 * a) t = expB3 q1 q2 r1 r2 (a * t).
Proof.
  intros Na. set (w := Csqrt (q1 * r1 + q2 * r2)). assert (Hw : w * w = q1 * r1 + q2 * r2) by apply Csqrt_sqr.
  rewrite (expB3_root (w * a)) by (replace (w * a * (w * a)) with (w * w * (a * a)) by ring; rewrite Hw; ring). rewrite (expB3_root w _ _ _ _ (a * t)) by exact Hw.
  rewrite !expB3_at_lin.
  assert (Es : a * sfun (w * a) t = sfun w (a * t) /\ a * a * kfun (w * a) t = kfun w (a * t)).
  { unfold sfun, kfun. replace (w * a * t) with (w * (a * t)) by ring. destruct (Ceq_dec w 0) as [Z|N]; destruct (Ceq_dec (w * a) 0) as [Z'|N'].
    - split; [ring|field].
    - exfalso. apply N'. rewrite Z. ring.
    - exfalso. apply N. apply (Cmult_eq_reg_l a); [rewrite Cmult_comm, Z'; ring|exact Na].
    - split; field; split; assumption. }
  destruct Es as (<- & <-). unfold lin3. m3ring.
Qed.
Lemma expNLS3_scale kappa (s1 s2 : C) (h : R) : h <> 0%R -> expNLS3 kappa (s1 * RtoC h) (s2 * RtoC h) 1 = expNLS3 kappa s1 s2 (RtoC h).
Proof.
  intros N. unfold expNLS3. rewrite !Cmult_conj, !Cconj_R, !Cmult_assoc, expB3_scale by now apply RtoC_neq0'. f_equal. ring.
Qed.
