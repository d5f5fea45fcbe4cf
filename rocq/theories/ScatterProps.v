(** * Slow scattering: C36, C37, C38, C39 *)
From Coq Require Import Reals Lra Lia List ZArith.
From Coquelicot Require Import Coquelicot.
From Verif Require Import Base Loop Mem Fields ErrModel CExp CField CConj CDeriv CMean MiscNumModel MiscNumProps MiscMetricProps MiscSincBound
  DiscTables DiscModel DiscProps FscatterSpec FscatterProof FscatterModel FscatterProps ScatterSpec MatExp ScatterStep ScatterModel ScatterProof ScatterRun ScatterLoop.
Import ListNotations.
Local Open Scope C_scope.

(** ** C36 *)
Lemma akns_A_traceless l q r : traceless (akns_A l q r).
Proof. unfold traceless, akns_A. cbn [a11 a22]. ring. Qed.
Lemma X_BO_traceless h l q r : traceless (X_BO h l q r).
Proof. apply traceless_mscal, akns_A_traceless. Qed.
Lemma pauli_traceless a1 a2 a3 : traceless (pauli a1 a2 a3).
Proof. reflexivity. Qed.

(** the system has exactly one fundamental solution *)
Theorem akns_fundamental_solution l q r : fundamental (akns_A l q r) (fun t => mexp (mscal t (akns_A l q r))) /\
  forall U, fundamental (akns_A l q r) U -> forall t, U t = mexp (mscal t (akns_A l q r)) /\ mdet (U t) = 1.
Proof.
  split; [apply mexp_fundamental, akns_A_traceless|]. intros U HU t. pose proof (fundamental_unique _ U (akns_A_traceless l q r) HU t) as ->.
  split; [reflexivity|]. apply mexp_det, traceless_mscal, akns_A_traceless.
Qed.

Theorem bo_step_is_solution q r l h : exists V, U_BO q r l h false = Ret (l4 V) /\
  (forall U, fundamental (akns_A l q r) U ->
    (sinc_exact (X_BO h l q r) -> V = U h /\ mdet V = 1) /\
    within (4 / 10000000000000000000000000000000000) (mscal h (akns_A l q r)) V (U h)).
Proof.
  exists (cexp_at (kBO q r l h) (X_BO h l q r)). split; [apply U_BO_value|]. intros U HU.
  destruct (approx_cexp _ _ (kBO_sq q r l h)) as (E & B & _). destruct (akns_fundamental_solution l q r) as [_ F].
  destruct (F U HU h) as [F1 F2]. fold (X_BO h l q r) in F1. rewrite F1. split.
  - intros S. split; [exact (E S)|]. rewrite (E S), <- F1. exact F2.
  - exact B.
Qed.
(** the ES4/TES4 step matrix is the exponential of [[a3, a1 - i a2], [a1 + i a2, -a3]] *)
Theorem es4_step_is_exponential a1 a2 a3 x y z : exists V, U_ES4 a1 a2 a3 false x y z = Ret (l4 V) /\
  approx_exp (M2 a3 (a1 - Ci * a2) (a1 + Ci * a2) (- a3)) V /\
  (sinc_exact (M2 a3 (a1 - Ci * a2) (a1 + Ci * a2) (- a3)) -> mdet V = 1).
Proof.
  exists (cexp_at (kES a1 a2 a3) (pauli a1 a2 a3)). split; [apply U_ES4_value|]. fold (pauli a1 a2 a3).
  pose proof (approx_cexp _ _ (kES_sq a1 a2 a3)) as A. split; [exact A|]. intros S. destruct A as [E _]. rewrite (E S). apply mexp_det, pauli_traceless.
Qed.
Theorem matrix_exponential_characterised A : traceless A ->
  fundamental A (fun t => mexp (mscal t A)) /\ (forall U, fundamental A U -> forall t, U t = mexp (mscal t A)) /\ mdet (mexp A) = 1.
Proof. intros T. split; [now apply mexp_fundamental|]. split; [intros U HU; now apply fundamental_unique|now apply mexp_det]. Qed.

(** ** C37 *)
Theorem bo_step_derivative q r l h : (1 / 10000000000000000 <= Cmod (mdet (X_BO h l q r)))%R ->
  exists V V', U_BO q r l h false = Ret (l4 V) /\ U_BO q r l h true = Ret (d16 V V') /\
    exists E, Mderive (fun z => mexp (mscal h (akns_A z q r))) l E /\ (dsinc_exact (X_BO h l q r) -> V' = E) /\
      within (2 / 1000000000000000000 * Cmod (l * h * h)%C) (X_BO h l q r) V' E.
Proof.
  intros H. pose proof (det_root_bound _ _ (kBO_sq q r l h) H) as K.
  exists (cexp_at (kBO q r l h) (X_BO h l q r)), (dBO q r l h). split; [apply U_BO_value|]. split; [apply U_BO_deriv; now apply neq0_of_le|].
  destruct (dBO_approx q r l h K) as (E & HE & H1 & H2). exists E. split; [exact HE|]. split; [exact H1|].
  assert (D2 : Cderive (fun z => mdet (X_BO h z q r)) l (2 * (l * h * h))).
  { unfold X_BO, akns_A, mdet. cbn [a11 a12 a21 a22 mscal].
    apply (Cderive_ext (fun z => h * h * (z * z) - h * q * (h * r))).
    - intros z. replace (h * (- Ci * z) * (h * (Ci * z))) with (- (Ci * Ci) * (h * h * (z * z))) by ring. rewrite Ci_sqr. ring.
    - eapply Cderive_eq; [apply Cderive_minus; [apply Cderive_scal; apply Cderive_mult; apply Cderive_id|apply Cderive_const]|]. cbv beta. ring. }
  pose proof (H2 _ D2) as W. rewrite Cmod_mult, Cmod_R, Rabs_pos_eq in W by lra.
  replace (2 / 1000000000000000000 * Cmod (l * h * h)%C)%R with (1 / 1000000000000000000 * (2 * Cmod (l * h * h)%C))%R by field. exact W.
Qed.
(** a1(lambda), a2(lambda), a3(lambda) with derivatives t0, t1, t2 *)
Theorem es4_step_derivative (f1 f2 f3 : C -> C) l t0 t1 t2 :
  let X z := M2 (f3 z) (f1 z - Ci * f2 z) (f1 z + Ci * f2 z) (- f3 z) in
  Cderive f1 l t0 -> Cderive f2 l t1 -> Cderive f3 l t2 -> (1 / 10000000000000000 <= Cmod (mdet (X l)))%R ->
  exists V V', U_ES4 (f1 l) (f2 l) (f3 l) false t0 t1 t2 = Ret (l4 V) /\ U_ES4 (f1 l) (f2 l) (f3 l) true t0 t1 t2 = Ret (d16 V V') /\
    approx_exp (X l) V /\ approx_dexp X l V'.
Proof.
  intros X D1 D2 D3 H. pose proof (det_root_bound _ _ (kES_sq (f1 l) (f2 l) (f3 l)) H) as K.
  exists (cexp_at (kES (f1 l) (f2 l) (f3 l)) (pauli (f1 l) (f2 l) (f3 l))), (dES (f1 l) (f2 l) (f3 l) t0 t1 t2).
  split; [apply U_ES4_value|]. split; [apply U_ES4_deriv; now apply neq0_of_le|].
  split; [apply approx_cexp, kES_sq|]. apply dES_approx; [reflexivity| |exact K].
  unfold X, pauli. refine (conj _ (conj _ (conj _ _))); cbn [a11 a12 a21 a22].
  - exact D3.
  - apply Cderive_minus; [exact D1|apply Cderive_scal; exact D2].
  - apply Cderive_plus; [exact D1|apply Cderive_scal; exact D2].
  - apply Cderive_opp. exact D3.
Qed.

(** ** C38 *)
Theorem bo_negative_step_is_inverse q r l h : sinc_exact (X_BO h l q r) ->
  exists V Vb, U_BO q r l h false = Ret (l4 V) /\ U_BO q r l (- h) false = Ret (l4 Vb) /\ mmul Vb V = mone /\ mmul V Vb = mone.
Proof.
  intros S. exists (cexp_at (kBO q r l h) (X_BO h l q r)), (cexp_at (kBO q r l (- h)) (X_BO (- h) l q r)).
  split; [apply U_BO_value|]. split; [apply U_BO_value|].
  destruct (approx_cexp _ _ (kBO_sq q r l h)) as (E & _). destruct (approx_cexp _ _ (kBO_sq q r l (- h))) as (E' & _).
  assert (EX : X_BO (- h) l q r = mscal (- (1)) (X_BO h l q r)) by (unfold X_BO; mring).
  assert (S' : sinc_exact (X_BO (- h) l q r)).
  { unfold sinc_exact in *. rewrite EX, mdet_mscal. replace (- (1) * - (1) * mdet (X_BO h l q r)) with (mdet (X_BO h l q r)) by ring. exact S. }
  rewrite (E S), (E' S'), EX. split; [apply mexp_opp, X_BO_traceless|].
  replace (mexp (X_BO h l q r)) with (mexp (mscal (- (1)) (mscal (- (1)) (X_BO h l q r)))) by (f_equal; mring).
  apply mexp_opp, traceless_mscal, X_BO_traceless.
Qed.
Theorem es4_negative_step_is_inverse a1 a2 a3 x y z : sinc_exact (M2 a3 (a1 - Ci * a2) (a1 + Ci * a2) (- a3)) ->
  exists V Vb, U_ES4 a1 a2 a3 false x y z = Ret (l4 V) /\ U_ES4 (- a1) (- a2) (- a3) false x y z = Ret (l4 Vb) /\ mmul Vb V = mone /\ mmul V Vb = mone.
Proof.
  intros S. exists (cexp_at (kES a1 a2 a3) (pauli a1 a2 a3)), (cexp_at (kES (- a1) (- a2) (- a3)) (pauli (- a1) (- a2) (- a3))).
  split; [apply U_ES4_value|]. split; [apply U_ES4_value|].
  destruct (approx_cexp _ _ (kES_sq a1 a2 a3)) as (E & _). destruct (approx_cexp _ _ (kES_sq (- a1) (- a2) (- a3))) as (E' & _).
  assert (EX : pauli (- a1) (- a2) (- a3) = mscal (- (1)) (pauli a1 a2 a3)) by (unfold pauli; mring). fold (pauli a1 a2 a3) in S.
  assert (S' : sinc_exact (pauli (- a1) (- a2) (- a3))).
  { unfold sinc_exact in *. rewrite EX, mdet_mscal. replace (- (1) * - (1) * mdet (pauli a1 a2 a3)) with (mdet (pauli a1 a2 a3)) by ring. exact S. }
  rewrite (E S), (E' S'), EX. split; [apply mexp_opp, pauli_traceless|].
  replace (mexp (pauli a1 a2 a3)) with (mexp (mscal (- (1)) (mscal (- (1)) (pauli a1 a2 a3)))) by (f_equal; mring).
  apply mexp_opp, traceless_mscal, pauli_traceless.
Qed.
(** the arguments that the backward recursion uses are minus those of the forward recursion, in reverse order for TES4 *)
Theorem es4_backward_arguments q r (eps_t : R) t l n a1 a2 a3 : es4_args q r eps_t t l n = Ret (a1, a2, a3) ->
  es4_args_back q r eps_t t l n = Ret (- a1, - a2, - a3).
Proof.
  unfold es4_args, es4_args_back. destruct (aget q (n + 1)) as [q1|]; [|discriminate]. cbn [bind]. destruct (aget r (n + 1)) as [r1|]; [|discriminate]. cbn [bind].
  destruct (aget t n) as [x|]; [|discriminate]. cbn [bind]. destruct (aget t (n + 1)) as [y|]; [|discriminate]. cbn [bind].
  destruct (aget t (n + 2)) as [z|]; [|discriminate]. cbn [bind]. intros H. injection H as <- <- <-. f_equal. f_equal; [f_equal|]; field.
Qed.
Theorem tes4_backward_arguments (e : R) q0 q1 q2 r0 r1 r2 :
  tes4_tmp3 e q0 q1 q2 r0 r1 r2 = map Copp (tes4_tmp2 e q0 q1 q2 r0 r1 r2) /\ tes4_tmp4 e q0 q1 q2 r0 r1 r2 = map Copp (tes4_tmp1 e q0 q1 q2 r0 r1 r2).
Proof. unfold tes4_tmp1, tes4_tmp2, tes4_tmp3, tes4_tmp4. cbn [map]. split; leq; field. Qed.

(** hypotheses met: q = 3, r = -3, lambda = 4, h = 1: det = 25; exponent a1 = 0, a2 = 3i... of determinant -(a1^2+a2^2+a3^2) *)
Lemma bo_exact_det : mdet (X_BO 1 4 3 (- (3))) = RtoC 25.
Proof. unfold mdet, X_BO, akns_A; cbn [a11 a12 a21 a22 mscal]; ring [Ci_sqr]. Qed.
Example bo_exact : let X := X_BO 1 4 3 (- (3)) in sinc_exact X /\ dsinc_exact X /\ (1 / 10000000000000000 <= Cmod (mdet X))%R.
Proof.
  intros X. pose proof bo_exact_det as E. fold X in E.
  unfold sinc_exact, dsinc_exact. rewrite E, Cmod_R, Rabs_pos_eq by lra. split; [right; lra|]. split; lra.
Qed.
Example es4_exact : let X := M2 (RtoC 2) (RtoC 1 - Ci * 2) (RtoC 1 + Ci * 2) (- RtoC 2) in
  sinc_exact X /\ (1 / 10000000000000000 <= Cmod (mdet X))%R.
Proof.
  intros X. assert (E : mdet X = RtoC (-9)) by (unfold X, mdet; cbn [a11 a12 a21 a22]; ring [Ci_sqr]).
  unfold sinc_exact. rewrite E, Cmod_R, Rabs_left by lra. split; [right; lra|lra].
Qed.
Example es4_args_defined : exists a1 a2 a3, es4_args [RtoC 1; RtoC 2; RtoC 3] [RtoC (-1); RtoC (-2); RtoC (-3)] 1 [RtoC 1; RtoC 1; RtoC 1] 1 0 = Ret (a1, a2, a3).
Proof. do 3 eexists. reflexivity. Qed.

Print Assumptions akns_fundamental_solution.
Print Assumptions bo_step_is_solution.
Print Assumptions es4_step_is_exponential.
Print Assumptions matrix_exponential_characterised.
Print Assumptions bo_step_derivative.
Print Assumptions es4_step_derivative.
Print Assumptions bo_negative_step_is_inverse.
Print Assumptions es4_negative_step_is_inverse.
Print Assumptions es4_backward_arguments.
Print Assumptions tes4_backward_arguments.
