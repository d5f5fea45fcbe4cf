(** * Slow scattering for the Manakov equation: C84, C85 *)
From Coq Require Import Reals Lra Lia List ZArith.
From Coquelicot Require Import Coquelicot.
From Verif Require Import Base Loop Mem Fields ErrModel CExp CField CConj CDeriv CMean MiscNumModel MiscNumProps MiscMetricProps
  DiscTables DiscModel DiscProps FscatterSpec FscatterProof FscatterModel ScatterModel ScatterStep ScatterRun ScatterLoop ManFscSpec ManFscProof NsevModel
  ManScatSpec ManScatModel ManScatProof.
Import ListNotations.
Local Open Scope C_scope.

(** ** The step *)
(** the sample that the code uses: zero if it is tiny *)
Definition cut (q1 q2 : C) : C * C := if tiny_dec q1 q2 then (RtoC 0, RtoC 0) else (q1, q2).
Definition Pcut (lam : C) (kappa : Z) (q1 q2 : C) : mat3 := manakov_P lam kappa (fst (cut q1 q2)) (snd (cut q1 q2)).
(** the code does not divide by zero *)
Definition regular (lam : C) (kappa : Z) (q1 q2 : C) : Prop :=
  tiny q1 q2 \/ lam * lam + RtoC (IZR kappa) * (q1 * Cconj q1 + q2 * Cconj q2) <> 0.
Lemma not_tiny_neq0 (q1 q2 : C) : ~ tiny q1 q2 -> q1 <> 0 \/ q2 <> 0.
Proof.
  intros T. destruct (Ceq_dec q1 0) as [->|N]; [|now left]. destruct (Ceq_dec q2 0) as [->|N]; [|now right].
  exfalso. apply T. unfold tiny. rewrite Cmod_0. lra.
Qed.
(** the matrix of the code: a commuting fundamental solution of the (cut) system *)
Lemma step_solution (q1 q2 lam : C) kappa : regular lam kappa q1 q2 -> exists E : C -> mat3,
  (forall h, man_U_BO q1 q2 lam h kappa = l9 (E h)) /\ fundamental3 (Pcut lam kappa q1 q2) E /\
  (forall t, m3mul (Pcut lam kappa q1 q2) (E t) = m3mul (E t) (Pcut lam kappa q1 q2)) /\
  ((exists x1, ~ tiny q1 q2 /\ x1 * x1 = xs lam kappa q1 q2 /\ x1 <> 0 /\ E = Ecode lam kappa q1 q2 x1) \/ (tiny q1 q2 /\ E = Ediag lam)).
Proof.
  intros H. unfold Pcut, cut. destruct (tiny_dec q1 q2) as [T|T].
  - exists (Ediag lam). split; [intros h; now apply step_tiny|]. destruct (Ediag_fundamental lam kappa) as [A B]. split; [exact A|]. split; [exact B|]. right. now split.
  - destruct H as [H|H]; [contradiction|]. pose proof (not_tiny_neq0 _ _ T) as Nq.
    exists (Ecode lam kappa q1 q2 (Csqrt (lam * lam + kap kappa * q1 * Cconj q1 + kap kappa * q2 * Cconj q2))).
    assert (Hx' : Csqrt (lam * lam + kap kappa * q1 * Cconj q1 + kap kappa * q2 * Cconj q2) * Csqrt (lam * lam + kap kappa * q1 * Cconj q1 + kap kappa * q2 * Cconj q2) = xs lam kappa q1 q2)
      by (rewrite Csqrt_sqr; unfold xs; ring).
    assert (N1' : Csqrt (lam * lam + kap kappa * q1 * Cconj q1 + kap kappa * q2 * Cconj q2) <> 0) by (intros Z; apply H; fold (kap kappa); fold (xs lam kappa q1 q2); rewrite <- Hx', Z; ring).
    split; [intros h; now apply step_big_at|]. destruct (Ecode_fundamental lam kappa q1 q2 _ Nq Hx' N1') as [A B]. split; [exact A|]. split; [exact B|].
    left. eexists. split; [exact T|]. split; [exact Hx'|]. split; [exact N1'|reflexivity].
Qed.

(** C84, step: for every regular sample the matrix is exp(h P), the value at h of the only fundamental solution *)
Theorem manakov_step_is_solution (q1 q2 lam h : C) kappa : regular lam kappa q1 q2 ->
  exists V, man_U_BO q1 q2 lam h kappa = l9 V /\ (exists U, fundamental3 (Pcut lam kappa q1 q2) U) /\
    (forall U, fundamental3 (Pcut lam kappa q1 q2) U -> V = U h) /\ m3det V = Cexp (Ci * lam * h).
Proof.
  intros H. destruct (step_solution q1 q2 lam kappa H) as (E & A & B & Cm & F). exists (E h). split; [apply A|]. split; [now exists E|]. split.
  - intros U HU. symmetry. now apply (fundamental3_unique _ E U B Cm).
  - destruct F as [(x1 & T & Hx & N1 & ->)|[T ->]].
    + unfold Ecode. rewrite E3_det by (now apply qq_neq0, not_tiny_neq0). fold (xs lam kappa q1 q2). rewrite <- Hx, cs_one by exact N1.
      unfold ef. rewrite Cmult_1_l. f_equal. ring.
    + unfold Ediag, m3det. m3cbn. replace (Cexp (- Ci * lam * h)) with (/ Cexp (Ci * lam * h)).
      * field. apply Cexp_neq0.
      * rewrite <- Cexp_opp. f_equal. ring.
Qed.

(** ** Unitarity *)
Lemma conj_sign (x : C) (r : R) : x * x = RtoC r -> Cconj x = x \/ Cconj x = - x.
Proof. intros H. apply sqr_eq. now rewrite <- Cmult_conj, H, Cconj_R. Qed.
Lemma cs_real (x : C) (r h : R) : x <> 0 -> x * x = RtoC r -> Cconj (cf x (RtoC h)) = cf x (RtoC h) /\ Cconj (sf x (RtoC h)) = sf x (RtoC h).
Proof.
  intros N H. assert (CI : Cconj Ci = - Ci) by (apply Ceq; cbn; ring).
  assert (N2 : x * Ci <> 0) by (intros Z; apply N; replace x with (- (x * Ci * Ci)) by (rewrite <- Cmult_assoc, Ci_sqr; ring); rewrite Z; ring).
  unfold cf, sf. rewrite Cconj_div by exact N2. rewrite Cconj_cosh, Cconj_sinh, !Cmult_conj, Cconj_R, CI.
  destruct (conj_sign x r H) as [-> | ->].
  - replace (RtoC h * x * - Ci) with (- (RtoC h * x * Ci)) by ring. rewrite Ccosh_opp, Csinh_opp. split; [reflexivity|]. field. split; [exact Ci_neq0|exact N].
  - replace (RtoC h * - x * - Ci) with (RtoC h * x * Ci) by ring. split; [reflexivity|]. field. split; [exact Ci_neq0|exact N].
Qed.
Lemma unit_exp (l h : R) : Cconj (Cexp (RtoC h * RtoC l * Ci)) * Cexp (RtoC h * RtoC l * Ci) = 1.
Proof.
  rewrite <- Cexp_conj, <- Cexp_plus. replace (Cconj (RtoC h * RtoC l * Ci) + RtoC h * RtoC l * Ci) with (RtoC 0); [apply Cexp_0|].
  apply Ceq; cbn; ring.
Qed.
Definition isometric (kappa : Z) (M : mat3) : Prop := m3mul (m3adj M) (m3mul (J3 kappa) M) = J3 kappa.
Lemma isometric_one kappa : isometric kappa m3one.
Proof. unfold isometric, m3adj, J3. m3cbn. rewrite !Cconj_R. apply mat3_eq; m3cbn; ring. Qed.
Lemma m3adj_mul X Y : m3adj (m3mul X Y) = m3mul (m3adj Y) (m3adj X).
Proof. unfold m3adj. m3cbn. rewrite !Cplus_conj, !Cmult_conj. apply mat3_eq; m3cbn; ring. Qed.
Lemma isometric_mul kappa X Y : isometric kappa X -> isometric kappa Y -> isometric kappa (m3mul X Y).
Proof.
  unfold isometric. intros HX HY. rewrite m3adj_mul.
  transitivity (m3mul (m3adj Y) (m3mul (m3mul (m3adj X) (m3mul (J3 kappa) X)) Y)); [rewrite <- !m3mul_assoc; reflexivity|].
  now rewrite HX.
Qed.
Lemma E3_isometric (l : C) (k q1 q2 p1 p2 c s e d : C) : q1 * p1 + q2 * p2 <> 0 -> k * k = 1 -> d * e = 1 ->
  c * c = 1 - (l * l + k * (q1 * p1 + q2 * p2)) * (s * s) ->
  let x3 := q1 * p1 + q2 * p2 in
  m3mul (M3 (c + Ci * l * s) (- k * q1 * s) (- k * q2 * s)
            (p1 * s) ((q1 * p1 * (c - Ci * l * s) + q2 * p2 * d) / x3) (p1 * q2 * (c - d - Ci * l * s) / x3)
            (p2 * s) (p2 * q1 * (c - d - Ci * l * s) / x3) ((q2 * p2 * (c - Ci * l * s) + q1 * p1 * d) / x3))
    (m3mul (M3 1 0 0 0 k 0 0 0 k) (E3 l k q1 q2 p1 p2 c s e)) = M3 1 0 0 0 k 0 0 0 k.
Proof.
  intros N Hk He Hc. unfold E3. cbv zeta. apply mat3_eq; m3cbn; field [Ci_sqr Hk He Hc]; exact N.
Qed.
Lemma step_isometric (q1 q2 : C) (l h : R) kappa V : (kappa = 1 \/ kappa = -1)%Z -> regular (RtoC l) kappa q1 q2 ->
  man_U_BO q1 q2 (RtoC l) (RtoC h) kappa = l9 V -> isometric kappa V.
Proof.
  intros Hk H EV. destruct (step_solution q1 q2 (RtoC l) kappa H) as (E & A & B & Cm & F). rewrite A in EV.
  assert (E0 : E (RtoC h) = V) by (unfold l9 in EV; injection EV; intros; now apply mat3_eq). rewrite <- E0. clear E0 EV V.
  assert (Hkk : kap kappa * kap kappa = 1) by (unfold kap; destruct Hk as [-> | ->]; rewrite <- RtoC_mult; f_equal; lra).
  destruct F as [(x1 & T & Hx & N1 & ->)|[T ->]].
  - pose proof (qq_neq0 _ _ (not_tiny_neq0 _ _ T)) as N3.
    assert (Hx' : exists r : R, x1 * x1 = RtoC r).
    { exists (l * l + IZR kappa * (Cmod q1 * Cmod q1 + Cmod q2 * Cmod q2))%R. rewrite Hx. unfold xs, kap. rewrite !Cmod_sq. apply Ceq; cbn; ring. }
    destruct Hx' as (r & Hr). destruct (cs_real x1 r h N1 Hr) as [Rc Rs].
    unfold isometric. unfold Ecode. change (J3 kappa) with (M3 1 0 0 0 (kap kappa) 0 0 0 (kap kappa)).
    pose proof (cs_one x1 (RtoC h) N1) as Hc1. rewrite Hx in Hc1. unfold xs in Hc1.
    pose proof (unit_exp l h) as He. fold (ef (RtoC l) (RtoC h)) in He.
    set (c := cf x1 (RtoC h)) in *. set (s := sf x1 (RtoC h)) in *. set (e := ef (RtoC l) (RtoC h)) in *. clearbody c s e.
    rewrite <- (E3_isometric (RtoC l) (kap kappa) q1 q2 (Cconj q1) (Cconj q2) c s e (Cconj e) N3 Hkk He) at 2.
    + cbv zeta. f_equal. unfold m3adj, E3. cbv zeta. m3cbn.
      assert (CI : Cconj Ci = - Ci) by (apply Ceq; cbn; ring).
      assert (CX : Cconj (q1 * Cconj q1 + q2 * Cconj q2) = q1 * Cconj q1 + q2 * Cconj q2) by (rewrite Cplus_conj, !Cmult_conj, !Cconj_conj; ring).
      unfold kap. rewrite !Cconj_div by exact N3. rewrite CX.
      rewrite ?Cconj_minus, ?Cplus_conj, ?Cconj_minus, ?Cmult_conj, ?Cconj_opp, ?Cplus_conj, ?Cconj_minus, ?Cmult_conj, ?Cconj_conj, ?Cconj_R, ?Rc, ?Rs, ?CI.
      apply mat3_eq; m3cbn; field; exact N3.
    + rewrite <- Hc1. ring.
  - unfold isometric, Ediag, m3adj, J3. m3cbn. rewrite !Cconj_R. fold (kap kappa).
    pose proof (unit_exp l h) as He. replace (RtoC h * RtoC l * Ci) with (Ci * RtoC l * RtoC h) in He by ring.
    assert (He' : Cconj (Cexp (- Ci * RtoC l * RtoC h)) * Cexp (- Ci * RtoC l * RtoC h) = 1).
    { pose proof (unit_exp (- l) h) as H2. replace (RtoC h * RtoC (- l) * Ci) with (- Ci * RtoC l * RtoC h) in H2 by (rewrite RtoC_opp; ring). exact H2. }
    apply mat3_eq; m3cbn; ring [He He'].
Qed.
