(** * Slow scattering for the Manakov equation: the step matrix *)
From Coq Require Import Reals Lra Lia List ZArith.
From Coquelicot Require Import Coquelicot.
From Verif Require Import Base Loop Mem Fields ErrModel CExp CField CConj CDeriv CMean MiscNumModel MiscNumProps MiscMetricProps
  DiscTables DiscModel DiscProps FscatterSpec FscatterProof FscatterModel ScatterModel ScatterStep ManFscSpec ManFscProof NsevModel ManScatSpec ManScatModel.
Import ListNotations.
Local Open Scope C_scope.

(** ** Derivatives of 3x3 matrices, uniqueness of the fundamental solution *)
Lemma M3derive_eq F x L L' : M3derive F x L -> L = L' -> M3derive F x L'. Proof. now intros H <-. Qed.
Lemma M3derive_mul F G x A B : M3derive F x A -> M3derive G x B -> M3derive (fun z => m3mul (F z) (G z)) x (m3add (m3mul A (G x)) (m3mul (F x) B)).
Proof.
  intros HF HG i j Hi Hj.
  assert (E : forall X Y, entry3 (m3mul X Y) i j = entry3 X i 0 * entry3 Y 0 j + entry3 X i 1 * entry3 Y 1 j + entry3 X i 2 * entry3 Y 2 j).
  { intros X Y. destruct i as [|[|[|i]]], j as [|[|[|j]]]; try lia; reflexivity. }
  apply (Cderive_ext (fun z => entry3 (F z) i 0 * entry3 (G z) 0 j + entry3 (F z) i 1 * entry3 (G z) 1 j + entry3 (F z) i 2 * entry3 (G z) 2 j)).
  { intros t. now rewrite E. }
  eapply Cderive_eq.
  - apply Cderive_plus; [apply Cderive_plus|]; apply Cderive_mult; (apply HF || apply HG); lia.
  - replace (entry3 (m3add (m3mul A (G x)) (m3mul (F x) B)) i j) with (entry3 (m3mul A (G x)) i j + entry3 (m3mul (F x) B) i j)
      by (destruct i as [|[|[|i]]], j as [|[|[|j]]]; try lia; reflexivity).
    rewrite !E. cbv beta. ring.
Qed.
Lemma entry3_eq X Y : (forall i j, (i < 3)%nat -> (j < 3)%nat -> entry3 X i j = entry3 Y i j) -> X = Y.
Proof.
  intros H. pose proof (fun i j => H i j) as K. apply mat3_eq;
  [apply (K 0 0)%nat|apply (K 0 1)%nat|apply (K 0 2)%nat|apply (K 1 0)%nat|apply (K 1 1)%nat|apply (K 1 2)%nat|apply (K 2 0)%nat|apply (K 2 1)%nat|apply (K 2 2)%nat]; lia.
Qed.
Lemma M3derive_zero_const F : (forall z, M3derive F z m3zero) -> forall z, F z = F 0.
Proof.
  intros H z. apply entry3_eq. intros i j Hi Hj. apply (Cderive_zero_const (fun z => entry3 (F z) i j)). intros y.
  eapply Cderive_eq; [apply (H y i j Hi Hj)|]. destruct i as [|[|[|i]]], j as [|[|[|j]]]; try lia; reflexivity.
Qed.
Lemma M3derive_comp_opp F x L : M3derive F (- x) L -> M3derive (fun z => F (- z)) x (m3scal (- (1)) L).
Proof.
  intros H i j Hi Hj. assert (Ho : Cderive (fun z => - z) x (- (1))) by (apply Cderive_opp, Cderive_id).
  eapply Cderive_eq; [exact (Cderive_comp (fun z => entry3 (F z) i j) _ _ _ _ (H i j Hi Hj) Ho)|].
  destruct i as [|[|[|i]]], j as [|[|[|j]]]; try lia; cbn [entry3 m3scal c11 c12 c13 c21 c22 c23 c31 c32 c33]; ring.
Qed.
(** a fundamental solution that commutes with P is the only one *)
Lemma fundamental3_unique P E U : fundamental3 P E -> (forall t, m3mul P (E t) = m3mul (E t) P) -> fundamental3 P U -> forall t, U t = E t.
Proof.
  intros [E0 HE] Cm.
  assert (K : forall V, fundamental3 P V -> forall t, m3mul (E (- t)) (V t) = m3one).
  { intros V [V0 HV] t.
    assert (Z : forall z, M3derive (fun z => m3mul (E (- z)) (V z)) z m3zero).
    { intros z. eapply M3derive_eq.
      - apply M3derive_mul; [apply M3derive_comp_opp, HE|apply HV].
      - cbv beta. rewrite Cm. m3ring. }
    rewrite (M3derive_zero_const _ Z t). cbv beta. replace (- (0)) with (RtoC 0) by ring. rewrite E0, V0. m3ring. }
  intros HU t. pose proof (K U HU t) as K1. pose proof (K E (conj E0 HE) (- t)) as K2. replace (- - t) with t in K2 by ring.
  transitivity (m3mul (m3mul (E t) (E (- t))) (U t)); [rewrite K2; m3ring|]. rewrite <- m3mul_assoc, K1. m3ring.
Qed.

(** ** The matrix of the code in terms of c = cos(t x1), s = sin(t x1)/x1, e = exp(i lambda t); p_j = conj q_j *)
Section Step.
Variables (lam k q1 q2 p1 p2 : C).
Definition E3 (c s e : C) : mat3 :=
  let x3 := q1 * p1 + q2 * p2 in
  M3 (c - Ci * lam * s) (q1 * s) (q2 * s)
     (- k * p1 * s) ((q1 * p1 * (c + Ci * lam * s) + q2 * p2 * e) / x3) (q2 * p1 * (c - e + Ci * lam * s) / x3)
     (- k * p2 * s) (q1 * p2 * (c - e + Ci * lam * s) / x3) ((q2 * p2 * (c + Ci * lam * s) + q1 * p1 * e) / x3).
Definition P3 : mat3 := M3 (- Ci * lam) q1 q2 (- k * p1) (Ci * lam) 0 (- k * p2) 0 (Ci * lam).
(** derivatives: c' = - x1^2 s, s' = c, e' = i lambda e *)
Definition dE3 (c s e : C) : mat3 :=
  let x3 := q1 * p1 + q2 * p2 in let m := lam * lam + k * x3 in
  M3 (- m * s - Ci * lam * c) (q1 * c) (q2 * c)
     (- k * p1 * c) ((q1 * p1 * (- m * s + Ci * lam * c) + q2 * p2 * (Ci * lam * e)) / x3) (q2 * p1 * (- m * s - Ci * lam * e + Ci * lam * c) / x3)
     (- k * p2 * c) (q1 * p2 * (- m * s - Ci * lam * e + Ci * lam * c) / x3) ((q2 * p2 * (- m * s + Ci * lam * c) + q1 * p1 * (Ci * lam * e)) / x3).
Hypothesis N3 : q1 * p1 + q2 * p2 <> 0.
Ltac e3 := apply mat3_eq; cbv zeta; m3cbn; field [Ci_sqr]; exact N3.
Lemma P3_E3 c s e : m3mul P3 (E3 c s e) = dE3 c s e.
Proof. unfold P3, E3, dE3. e3. Qed.
Lemma E3_P3 c s e : m3mul (E3 c s e) P3 = dE3 c s e.
Proof. unfold P3, E3, dE3. e3. Qed.
Lemma E3_derive (c s e : C -> C) t : Cderive c t (- (lam * lam + k * (q1 * p1 + q2 * p2)) * s t) -> Cderive s t (c t) -> Cderive e t (Ci * lam * e t) ->
  M3derive (fun t => E3 (c t) (s t) (e t)) t (dE3 (c t) (s t) (e t)).
Proof.
  intros Dc Ds De.
  assert (K : forall a b g (f : C -> C) l, (forall y, f y = a * c y + (b * s y + g * e y)) ->
    l = a * (- (lam * lam + k * (q1 * p1 + q2 * p2)) * s t) + (b * c t + g * (Ci * lam * e t)) -> Cderive f t l).
  { intros a b g f l Hf ->. eapply Cderive_ext; [intros y; symmetry; apply Hf|].
    apply Cderive_plus; [|apply Cderive_plus]; apply Cderive_scal; assumption. }
  intros i j Hi Hj. unfold E3, dE3. cbv zeta.
  destruct i as [|[|[|i]]]; try lia; destruct j as [|[|[|j]]]; try lia; cbn [entry3]; m3cbn.
  - apply (K 1 (- Ci * lam) 0); [intros|]; ring.
  - apply (K 0 q1 0); [intros|]; ring.
  - apply (K 0 q2 0); [intros|]; ring.
  - apply (K 0 (- k * p1) 0); [intros|]; ring.
  - apply (K (q1 * p1 / (q1 * p1 + q2 * p2)) (q1 * p1 * Ci * lam / (q1 * p1 + q2 * p2)) (q2 * p2 / (q1 * p1 + q2 * p2))); [intros|]; field; exact N3.
  - apply (K (q2 * p1 / (q1 * p1 + q2 * p2)) (q2 * p1 * Ci * lam / (q1 * p1 + q2 * p2)) (- q2 * p1 / (q1 * p1 + q2 * p2))); [intros|]; field; exact N3.
  - apply (K 0 (- k * p2) 0); [intros|]; ring.
  - apply (K (q1 * p2 / (q1 * p1 + q2 * p2)) (q1 * p2 * Ci * lam / (q1 * p1 + q2 * p2)) (- q1 * p2 / (q1 * p1 + q2 * p2))); [intros|]; field; exact N3.
  - apply (K (q2 * p2 / (q1 * p1 + q2 * p2)) (q2 * p2 * Ci * lam / (q1 * p1 + q2 * p2)) (q1 * p1 / (q1 * p1 + q2 * p2))); [intros|]; field; exact N3.
Qed.
Lemma E3_0 : E3 1 0 1 = m3one.
Proof. unfold E3. e3. Qed.
(** det = (c^2 + x1^2 s^2) e *)
Lemma E3_det c s e : m3det (E3 c s e) = (c * c + (lam * lam + k * (q1 * p1 + q2 * p2)) * (s * s)) * e.
Proof. unfold m3det, E3. cbv zeta. m3cbn. field [Ci_sqr]. exact N3. Qed.
End Step.

(** ** c, s, e as functions of t *)
Definition cf (x1 t : C) : C := Ccosh (t * x1 * Ci).
Definition sf (x1 t : C) : C := Csinh (t * x1 * Ci) / (x1 * Ci).
Definition ef (lam t : C) : C := Cexp (t * lam * Ci).
Lemma cf_derive (x1 t : C) : x1 <> 0 -> Cderive (cf x1) t (- (x1 * x1) * sf x1 t).
Proof.
  intros N. assert (Dl : Cderive (fun t : C => t * x1 * Ci) t (x1 * Ci)).
  { apply (Cderive_ext (fun t => (x1 * Ci) * t)); [intros; ring|]. eapply Cderive_eq; [apply Cderive_scal, Cderive_id|]. ring. }
  eapply Cderive_eq; [exact (Cderive_comp Ccosh _ t _ _ (Cderive_cosh _) Dl)|]. cbv beta. unfold sf. field [Ci_sqr]. split; [exact Ci_neq0|exact N].
Qed.
Lemma sf_derive (x1 t : C) : x1 <> 0 -> Cderive (sf x1) t (cf x1 t).
Proof.
  intros N. assert (Dl : Cderive (fun t : C => t * x1 * Ci) t (x1 * Ci)).
  { apply (Cderive_ext (fun t => (x1 * Ci) * t)); [intros; ring|]. eapply Cderive_eq; [apply Cderive_scal, Cderive_id|]. ring. }
  apply (Cderive_ext (fun t => / (x1 * Ci) * Csinh (t * x1 * Ci))); [intros; unfold sf, Cdiv; ring|].
  eapply Cderive_eq; [apply Cderive_scal; exact (Cderive_comp Csinh _ t _ _ (Cderive_sinh _) Dl)|]. cbv beta. unfold cf. field. split; [exact Ci_neq0|exact N].
Qed.
Lemma ef_derive (lam t : C) : Cderive (ef lam) t (Ci * lam * ef lam t).
Proof.
  assert (Dl : Cderive (fun t : C => t * lam * Ci) t (lam * Ci)).
  { apply (Cderive_ext (fun t => (lam * Ci) * t)); [intros; ring|]. eapply Cderive_eq; [apply Cderive_scal, Cderive_id|]. ring. }
  eapply Cderive_eq; [exact (Cderive_comp Cexp _ t _ _ (Cderive_exp _) Dl)|]. cbv beta. unfold ef. ring.
Qed.
Lemma cs_one (x1 t : C) : x1 <> 0 -> cf x1 t * cf x1 t + x1 * x1 * (sf x1 t * sf x1 t) = 1.
Proof.
  intros N. unfold cf, sf. rewrite <- (Ccosh_sinh (t * x1 * Ci)). field [Ci_sqr]. split; [exact Ci_neq0|exact N].
Qed.

Definition kap (kappa : Z) : C := RtoC (IZR kappa).
(** lambda^2 + kappa (|q1|^2 + |q2|^2) *)
Definition xs (lam : C) (kappa : Z) (q1 q2 : C) : C := lam * lam + kap kappa * (q1 * Cconj q1 + q2 * Cconj q2).
Definition Ecode (lam : C) (kappa : Z) (q1 q2 x1 t : C) : mat3 := E3 lam (kap kappa) q1 q2 (Cconj q1) (Cconj q2) (cf x1 t) (sf x1 t) (ef lam t).
Lemma qq_neq0 (q1 q2 : C) : q1 <> 0 \/ q2 <> 0 -> q1 * Cconj q1 + q2 * Cconj q2 <> 0.
Proof.
  intros H E. assert (R : (Cmod q1 * Cmod q1 + Cmod q2 * Cmod q2 = 0)%R).
  { apply (f_equal fst) in E. rewrite !Cmod_sq. cbn in E. lra. }
  pose proof (Rle_0_sqr (Cmod q1)) as A. pose proof (Rle_0_sqr (Cmod q2)) as B. unfold Rsqr in *.
  assert (A0 : (Cmod q1 = 0)%R) by (apply Rsqr_0_uniq; unfold Rsqr; lra). assert (B0 : (Cmod q2 = 0)%R) by (apply Rsqr_0_uniq; unfold Rsqr; lra).
  apply Cmod_eq_0 in A0, B0. tauto.
Qed.
Lemma Ecode_fundamental (lam : C) kappa (q1 q2 x1 : C) : q1 <> 0 \/ q2 <> 0 -> x1 * x1 = xs lam kappa q1 q2 -> x1 <> 0 ->
  fundamental3 (manakov_P lam kappa q1 q2) (Ecode lam kappa q1 q2 x1) /\
  forall t, m3mul (manakov_P lam kappa q1 q2) (Ecode lam kappa q1 q2 x1 t) = m3mul (Ecode lam kappa q1 q2 x1 t) (manakov_P lam kappa q1 q2).
Proof.
  intros Nq Hx N. pose proof (qq_neq0 _ _ Nq) as N3. change (manakov_P lam kappa q1 q2) with (P3 lam (kap kappa) q1 q2 (Cconj q1) (Cconj q2)).
  split.
  - split.
    + unfold Ecode. replace (cf x1 0) with (RtoC 1) by (unfold cf; rewrite !Cmult_0_l, Ccosh_0; reflexivity).
      replace (sf x1 0) with (RtoC 0) by (unfold sf; rewrite !Cmult_0_l, Csinh_0; unfold Cdiv; now rewrite Cmult_0_l).
      replace (ef lam 0) with (RtoC 1) by (unfold ef; rewrite !Cmult_0_l, Cexp_0; reflexivity). now apply E3_0.
    + intros t. unfold Ecode. rewrite P3_E3 by exact N3. apply E3_derive; [exact N3| | |].
      * fold (xs lam kappa q1 q2). rewrite <- Hx. now apply cf_derive.
      * now apply sf_derive.
      * apply ef_derive.
  - intros t. unfold Ecode. now rewrite P3_E3, E3_P3.
Qed.
(** no potential *)
Definition Ediag (lam t : C) : mat3 := M3 (Cexp (- Ci * lam * t)) 0 0 0 (Cexp (Ci * lam * t)) 0 0 0 (Cexp (Ci * lam * t)).
Lemma Ediag_fundamental lam kappa : fundamental3 (manakov_P lam kappa 0 0) (Ediag lam) /\
  forall t, m3mul (manakov_P lam kappa 0 0) (Ediag lam t) = m3mul (Ediag lam t) (manakov_P lam kappa 0 0).
Proof.
  assert (C0 : Cconj 0 = 0) by (apply Ceq; cbn; ring).
  split; [split|].
  - unfold Ediag. rewrite !Cmult_0_r, Cexp_0. reflexivity.
  - intros t i j Hi Hj.
    assert (G : forall a : C, Cderive (fun t => Cexp (a * t)) t (a * Cexp (a * t))).
    { intros a. assert (Dl : Cderive (fun t : C => a * t) t a) by (eapply Cderive_eq; [apply Cderive_scal, Cderive_id|]; ring).
      eapply Cderive_eq; [exact (Cderive_comp Cexp _ t _ _ (Cderive_exp _) Dl)|]. cbv beta. ring. }
    unfold Ediag, manakov_P. rewrite C0.
    destruct i as [|[|[|i]]]; try lia; destruct j as [|[|[|j]]]; try lia; cbn [entry3]; m3cbn;
      (eapply Cderive_eq; [first [apply (Cderive_const 0) | apply (G (- Ci * lam)) | apply (G (Ci * lam))]|ring]).
  - intros t. unfold Ediag, manakov_P. rewrite C0. m3ring.
Qed.

(** ** What the code computes *)
Lemma EPS_val : EPS = (1 / 4503599627370496)%R.
Proof. unfold EPS. replace (2 ^ 52)%R with 4503599627370496%R by (simpl; lra). lra. Qed.
Lemma tiny_dec q1 q2 : {tiny q1 q2} + {~ tiny q1 q2}.
Proof. unfold tiny. destruct (Rlt_dec (Cmod q1) (1 / 4503599627370496)), (Rlt_dec (Cmod q2) (1 / 4503599627370496)); tauto. Qed.
Lemma step_tiny (q1 q2 lam h : C) kappa : tiny q1 q2 -> man_U_BO q1 q2 lam h kappa = l9 (Ediag lam h).
Proof.
  unfold tiny. rewrite <- EPS_val. intros [A B]. unfold man_U_BO. destruct (Rlt_dec (Cmod q1) EPS); [|contradiction]. destruct (Rlt_dec (Cmod q2) EPS); [|contradiction]. reflexivity.
Qed.
Lemma step_big_at (q1 q2 lam h : C) kappa : let x1 := Csqrt (lam * lam + kap kappa * q1 * Cconj q1 + kap kappa * q2 * Cconj q2) in
  ~ tiny q1 q2 -> x1 <> 0 -> q1 <> 0 \/ q2 <> 0 -> man_U_BO q1 q2 lam h kappa = l9 (Ecode lam kappa q1 q2 x1 h).
Proof.
  intros x1 T N1 Nq. pose proof (qq_neq0 _ _ Nq) as N3.
  assert (Eb : (if Rlt_dec (Cmod q1) EPS then if Rlt_dec (Cmod q2) EPS then true else false else false) = false).
  { unfold tiny in T. rewrite <- EPS_val in T. destruct (Rlt_dec (Cmod q1) EPS), (Rlt_dec (Cmod q2) EPS); tauto. }
  unfold man_U_BO. rewrite Eb. fold (kap kappa). fold x1.
  unfold l9, Ecode, E3. cbv zeta. m3cbn. unfold cf, sf, ef. clearbody x1.
  set (S := Csinh (h * x1 * Ci)). set (Q := Ccosh (h * x1 * Ci)). set (X := Cexp (h * lam * Ci)).
  leq; field [Ci_sqr]; repeat split; first [exact Ci_neq0 | exact N1 | exact N3].
Qed.
