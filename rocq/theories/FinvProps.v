(** * C42: fast inverse scattering *)
From Coq Require Import Reals ZArith List Lia Lra.
From Coquelicot Require Import Coquelicot.
From Verif Require Import Base Mem Loop Series Fields CField CConj CMean Dft FftUse MatSpec PolySpec ErrModel CExp KissModel KissProof PolyFmultModel PolyFmultTree PolyFmultTwo PolyFmultProof DiscTables DiscModel FscatterModel FscatterSpec FscatterProof FscatterProps PolyFmultProps FinvModel FinvAlg FinvMult FinvRun FinvTop FinvProof.
Import ListNotations.
Local Open Scope C_scope.

(** ** The statement: [tm] holds (up to the common factor w) the ordered product S_(D-1)(z) ... S_0(z),
   as four polynomials of degree D in the order 11, 12, 21, 22, highest coefficient first *)
Definition holds_product (tm : list C) (D : nat) (w : C) (S : C -> nat -> mat2) : Prop :=
  (4 * (D + 1) <= length tm)%nat /\
  forall z i j, (i < 2)%nat -> (j < 2)%nat ->
    w * peval (K := CF) (coeffs (K := CF) tm ((i * 2 + j) * (D + 1)) (D + 1)) z = entry (descending D (S z)) i j.
(** the first D entries of the array q' are the samples, the others those of q *)
Definition holds_samples (D : nat) (x : nat -> C) (q q' : list C) : Prop :=
  length q' = length q /\ forall n, nth n q' (RtoC 0) = if (n <? D)%nat then x n else nth n q (RtoC 0).

(** one sample of 2SPLIT2_MODAL with potential functions q and r, step h *)
Definition modal_sample (h : R) (q r : nat -> C) (z : C) (n : nat) : mat2 :=
  let Q := RtoC h * q n in let R := RtoC h * r n in
  mscal (1 / Csqrt (1 - Q * R)) (mmul (M2 1 Q R 1) (M2 1 0 0 z)).
(** one sample of 2SPLIT2A (exp of the potential part, then the free part) *)
Definition split2A_sample (h : R) (q r : nat -> C) (z : C) (n : nat) : mat2 :=
  mmul (expB (q n) (r n) (RtoC h)) (M2 1 0 0 z).

Lemma mul_conj (z : C) : z * Cconj z = RtoC (Cmod z * Cmod z).
Proof. rewrite Cmod_sq. apply Ceq; cbn; ring. Qed.

Lemma Cexp_arg (z : C) : z <> 0 -> Cexp (Ci * RtoC (Carg z)) = z / RtoC (Cmod z).
Proof.
  intros N. destruct (cos_sin_arg z N) as [E1 E2]. assert (Hm : (Cmod z <> 0)%R) by (apply Rgt_not_eq, Cmod_gt_0; exact N).
  unfold Cexp. replace (fst (Ci * RtoC (Carg z))) with 0%R by (cbn; ring). replace (snd (Ci * RtoC (Carg z))) with (Carg z) by (cbn; ring).
  rewrite exp_0, E1, E2. apply Ceq; cbn; field; exact Hm.
Qed.

(** the potential part for the focusing and the defocusing case *)
Lemma cosh_Ci (x : R) : Ccosh (Ci * RtoC x) = RtoC (cos x).
Proof. unfold Ccosh, Cexp. apply Ceq; cbn; rewrite ?Rmult_0_l, ?Rmult_1_l, ?Rmult_0_r, ?Rminus_0_r, ?Rplus_0_l, ?Ropp_0, ?exp_0, ?cos_neg, ?sin_neg; field. Qed.
Lemma sinh_Ci (x : R) : Csinh (Ci * RtoC x) = Ci * RtoC (sin x).
Proof. unfold Csinh, Cexp. apply Ceq; cbn; rewrite ?Rmult_0_l, ?Rmult_1_l, ?Rmult_0_r, ?Rminus_0_r, ?Rplus_0_l, ?Ropp_0, ?exp_0, ?cos_neg, ?sin_neg; field. Qed.
Lemma cosh_R (x : R) : Ccosh (RtoC x) = RtoC (cosh x).
Proof. unfold Ccosh, Cexp, cosh. apply Ceq; cbn; rewrite ?Ropp_0, ?cos_0, ?sin_0; field. Qed.
Lemma sinh_R (x : R) : Csinh (RtoC x) = RtoC (sinh x).
Proof. unfold Csinh, Cexp, sinh. apply Ceq; cbn; rewrite ?Ropp_0, ?cos_0, ?sin_0; field. Qed.

Lemma expB_foc (q : C) (h : R) : q <> 0 -> 
  expB q (- Cconj q) (RtoC h) = M2 (RtoC (cos (h * Cmod q))) (q / RtoC (Cmod q) * RtoC (sin (h * Cmod q)))
    (- (Cconj q / RtoC (Cmod q)) * RtoC (sin (h * Cmod q))) (RtoC (cos (h * Cmod q))).
Proof.
  intros N. assert (Hm : RtoC (Cmod q) <> 0) by (intros E; injection E as E; revert E; apply Rgt_not_eq, Cmod_gt_0; exact N).
  rewrite (expB_root (Ci * RtoC (Cmod q))).
  2: { transitivity (Ci * Ci * RtoC (Cmod q * Cmod q)); [rewrite RtoC_mult; ring|]. rewrite <- mul_conj, Ci_sqr. ring. }
  unfold expB_at. replace (Ci * RtoC (Cmod q) * RtoC h) with (Ci * RtoC (h * Cmod q)) by (rewrite RtoC_mult; ring).
  rewrite cosh_Ci, sinh_Ci. destruct (Ceq_dec (Ci * RtoC (Cmod q)) 0) as [E|_].
  { exfalso. apply Hm. apply (Cmult_eq_reg_l Ci); [rewrite E; ring|apply Ci_neq0]. }
  apply mat2_eq; cbn [a11 a12 a21 a22]; try reflexivity; field; split; (exact Hm || apply Ci_neq0).
Qed.
Lemma expB_def (q : C) (h : R) : q <> 0 -> 
  expB q (Cconj q) (RtoC h) = M2 (RtoC (cosh (h * Cmod q))) (q / RtoC (Cmod q) * RtoC (sinh (h * Cmod q)))
    (Cconj q / RtoC (Cmod q) * RtoC (sinh (h * Cmod q))) (RtoC (cosh (h * Cmod q))).
Proof.
  intros N. assert (Hm : RtoC (Cmod q) <> 0) by (intros E; injection E as E; revert E; apply Rgt_not_eq, Cmod_gt_0; exact N).
  rewrite (expB_root (RtoC (Cmod q))).
  2: { rewrite <- RtoC_mult, <- mul_conj. reflexivity. }
  unfold expB_at. replace (RtoC (Cmod q) * RtoC h) with (RtoC (h * Cmod q)) by (rewrite RtoC_mult; ring).
  rewrite cosh_R, sinh_R. destruct (Ceq_dec (RtoC (Cmod q)) 0) as [E|_]; [contradiction|].
  apply mat2_eq; cbn [a11 a12 a21 a22]; try reflexivity; field; exact Hm.
Qed.
Lemma expB_00 (h : R) : expB 0 0 (RtoC h) = mone.
Proof.
  rewrite (expB_root 0) by ring. unfold expB_at. rewrite Cmult_0_l, Ccosh_0.
  destruct (Ceq_dec 0 0) as [_|N]; [|congruence]. apply mat2_eq; cbn [a11 a12 a21 a22 mone]; ring.
Qed.

(** atan(tanh x) < x *)
Lemma tan_tanh x : (0 < x < PI)%R -> (cos x * sinh x < sin x * cosh x)%R.
Proof.
  intros Hx. set (f := fun t => (sin t * ((exp t + exp (- t)) / 2) - cos t * ((exp t - exp (- t)) / 2))%R).
  destruct (MVT_cor2 f (fun t => sin t * (exp t - exp (- t)))%R 0 x) as (c & E & Hc); [lra| |].
  - intros t _. apply is_derive_Reals. unfold f. auto_derive; [auto|]. field.
  - unfold f in E at 2. rewrite sin_0, cos_0, Ropp_0, exp_0 in E. unfold f in E. unfold sinh, cosh.
    assert (0 < sin c)%R by (apply sin_gt_0; lra). assert (exp (- c) < exp c)%R by (apply exp_increasing; lra).
    assert (0 < sin c * (exp c - exp (- c)) * (x - 0))%R by (apply Rmult_lt_0_compat; [apply Rmult_lt_0_compat|]; lra). lra.
Qed.
Lemma cosh_pos x : (0 < cosh x)%R.
Proof. unfold cosh. pose proof (exp_pos x). pose proof (exp_pos (- x)). lra. Qed.
Lemma atan_tanh x : (0 < x)%R -> (atan (sinh x / cosh x) < x)%R.
Proof.
  intros Hx. pose proof (cosh_pos x) as Hc. destruct (Rlt_le_dec x (PI / 2)) as [H|H].
  - rewrite <- (atan_tan x) at 3 by lra. apply atan_increasing. assert (0 < cos x)%R by (apply cos_gt_0; lra).
    pose proof (tan_tanh x ltac:(lra)). unfold tan. apply (Rmult_lt_reg_r (cosh x * cos x)); [apply Rmult_lt_0_compat; lra|].
    replace (sinh x / cosh x * (cosh x * cos x))%R with (cos x * sinh x)%R by (field; lra).
    replace (sin x / cos x * (cosh x * cos x))%R with (sin x * cosh x)%R by (field; lra). assumption.
  - pose proof (atan_bound (sinh x / cosh x)). lra.
Qed.

Section Thms.
Variables (junkm : arr -> nat -> list C) (junk0 junk1 junk2 : nat -> list C).
Hypothesis Hjm : forall a n, length (junkm a n) = n.
Hypothesis Hj0 : forall n, length (junk0 n) = n.
Hypothesis Hj1 : forall n, length (junk1 n) = n.
Hypothesis Hj2 : forall n, length (junk2 n) = n.
Local Notation nseinv := (nse_finvscatter junkm junk0 junk1 junk2).
Local Notation kdvinv := (kdv_finvscatter junkm junk0 junk1 junk2).

Lemma cols_ok (tm : list C) K (c Q R : nat -> C) (w : C) : w <> 0 -> holds_product tm (2 ^ K) w (sample_mat c Q R) ->
  forall a l, (a < 2)%nat -> (l < 2 ^ K)%nat ->
    low tm 0 (2 ^ K + 1) (2 ^ K) a 0 l = smmul (K := CF) 2 (Mdesc (K := CF) (M c Q R) 0 (2 ^ K)) (zI (K := CF) (/ w) 0) a 0%nat l.
Proof.
  intros Hw [L H] a l Ha Hl. rewrite (zI_r (K := CF)) by lia. destruct (Nat.ltb_spec l 0); [lia|]. rewrite Nat.sub_0_r.
  apply (low_from_eval tm (2 ^ K) c Q R w a 0 Ha ltac:(lia) Hw L); [|lia]. intros z. apply H; lia.
Qed.
Lemma Cinv_n0 (w : C) : w <> 0 -> / w <> 0.
Proof. intros H E. assert (E1 : w * / w = 0) by (rewrite E; ring). rewrite Cinv_r in E1 by exact H. injection E1 as E1. lra. Qed.

Lemma holds_ext tm D w S S' : (forall z n, (n < D)%nat -> S z n = S' z n) -> holds_product tm D w S -> holds_product tm D w S'.
Proof. intros E [L H]. split; [exact L|]. intros z i j Hi Hj. rewrite H by assumption. f_equal. apply desc_ext. intros k Hk. now apply E. Qed.

(** a routine without transposition *)
Lemma finv_direct qfr (ret_r : bool) eps_t kd K (c Q R x : nat -> C) (tm q : list C) (w : C) : (1 <= K)%nat -> w <> 0 ->
  (forall k, (k < 2 ^ K)%nat -> c k <> 0) -> (forall k, (k < 2 ^ K)%nat -> qfr (R k) = Q k) -> (forall k, (k < 2 ^ K)%nat -> 1 - Q k * R k <> 0) ->
  (forall k, (k < 2 ^ K)%nat -> recover eps_t kd (if ret_r then R k else Q k) = Some (x k)) ->
  holds_product tm (2 ^ K) w (sample_mat c Q R) -> (2 ^ K <= length q)%nat ->
  exists q', finvscatter junkm junk0 junk1 junk2 qfr ret_r false kd 1 (2 ^ K) tm q eps_t = Ret (SUCCESS, q', tm) /\ holds_samples (2 ^ K) x q q'.
Proof.
  intros HK Hw Hc HQ HQR Hx Htm Lq. pose proof (proj1 Htm) as L.
  set (c' := fun k => if (k <? 2 ^ K)%nat then c k else RtoC 1).
  assert (Hc' : forall k, c' k <> 0). { intros k. unfold c'. destruct (Nat.ltb_spec k (2 ^ K)); [now apply Hc|]. intros E. injection E as E. lra. }
  apply (holds_ext tm (2 ^ K) w _ (sample_mat c' Q R)) in Htm.
  2: { intros z n Hn. unfold sample_mat, c'. destruct (Nat.ltb_spec n (2 ^ K)); [reflexivity|lia]. }
  destruct (finvscatter_core junkm junk0 junk1 junk2 Hjm Hj0 Hj1 Hj2 qfr ret_r eps_t kd K HK c' Q R x Hc' HQ HQR Hx false tm tm q (zI (K := CF) (/ w) 0) eq_refl L Lq)
    as (q' & Lq' & Nq' & E).
  { exact (Cinv_n0 w Hw). }
  { now apply cols_ok. }
  exists q'. rewrite E. cbn [bind]. split; [reflexivity|]. now split.
Qed.
(** with transposition *)
Lemma finv_transposed qfr (ret_r : bool) eps_t kd K (c Q R x : nat -> C) (tm q : list C) (w : C) : (1 <= K)%nat -> w <> 0 ->
  (forall k, (k < 2 ^ K)%nat -> c k <> 0) -> (forall k, (k < 2 ^ K)%nat -> qfr (Q k) = R k) -> (forall k, (k < 2 ^ K)%nat -> 1 - Q k * R k <> 0) ->
  (forall k, (k < 2 ^ K)%nat -> recover eps_t kd (if ret_r then Q k else R k) = Some (x k)) ->
  holds_product tm (2 ^ K) w (sample_mat c Q R) -> (2 ^ K <= length q)%nat ->
  exists q' tm', finvscatter junkm junk0 junk1 junk2 qfr ret_r true kd 1 (2 ^ K) tm q eps_t = Ret (SUCCESS, q', tm') /\ holds_samples (2 ^ K) x q q'.
Proof.
  intros HK Hw Hc HQ HQR Hx Htm Lq. pose proof (proj1 Htm) as L. set (D := (2 ^ K)%nat) in *.
  destruct (transpose_ok D tm L) as (tm1 & Et & Lt & _).
  set (c' := fun k => if (k <? D)%nat then c k else RtoC 1).
  assert (Hc' : forall k, c' k <> 0). { intros k. unfold c'. destruct (Nat.ltb_spec k D); [now apply Hc|]. intros E. injection E as E. lra. }
  apply (holds_ext tm D w _ (sample_mat c' Q R)) in Htm.
  2: { intros z n Hn. unfold sample_mat, c'. destruct (Nat.ltb_spec n D); [reflexivity|lia]. }
  destruct (finvscatter_core junkm junk0 junk1 junk2 Hjm Hj0 Hj1 Hj2 qfr ret_r eps_t kd K HK (rv D c') (rv D R) (rv D Q) (rv D x)) with
     (transpose := true) (tm := tm) (tm1 := tm1) (q := q) (Y := zI (K := CF) (/ w) 0) as (q1 & Lq1 & Nq1 & E).
  - intros k. apply Hc'.
  - intros k Hk. change (k < D)%nat in Hk. apply HQ. change (k < D)%nat in Hk. lia.
  - intros k Hk. change (k < D)%nat in Hk. replace (rv D R k * rv D Q k) with (rv D Q k * rv D R k) by ring. apply HQR. lia.
  - intros k Hk. change (k < D)%nat in Hk. replace (if ret_r then rv D Q k else rv D R k) with (if ret_r then Q (D - 1 - k)%nat else R (D - 1 - k)%nat) by (destruct ret_r; reflexivity). apply Hx. lia.
  - exact Et.
  - change (4 * (D + 1) <= length tm1)%nat. lia.
  - exact Lq.
  - exact (Cinv_n0 w Hw).
  - intros a l Ha Hl. change (l < D)%nat in Hl. rewrite (zI_r (K := CF)) by lia. destruct (Nat.ltb_spec l 0); [lia|]. rewrite Nat.sub_0_r.
    apply (low_transposed tm tm1 D c' Q R w Hw L Et); [|exact Ha|exact Hl]. intros z j Hj. exact (proj2 Htm z 0%nat j ltac:(lia) Hj).
  - change (2 ^ K)%nat with D in E, Nq1. destruct (reverse_ok D q1 ltac:(lia)) as (q2 & Er & Lq2 & Nq2). rewrite E, Er. cbn [bind].
    exists q2, tm1. split; [reflexivity|]. split; [congruence|]. intros n. rewrite Nq2. destruct (Nat.ltb_spec n D).
    + rewrite Nq1. destruct (Nat.ltb_spec (D - 1 - n) D); [|lia]. unfold rv. f_equal. lia.
    + rewrite Nq1. destruct (Nat.ltb_spec n D); [lia|reflexivity].
Qed.

Lemma pow2_0 K : (2 ^ K =? 0)%nat = false.
Proof. apply Nat.eqb_neq, Nat.pow_nonzero. lia. Qed.

(** *** Focusing and defocusing NSE, 2SPLIT2_MODAL *)
Theorem nse_finvscatter_modal K (eps_t : R) (kappa : Z) (qv : nat -> C) (tm q : list C) (w : C) :
  (1 <= K)%nat -> (0 < eps_t)%R -> (kappa = 1 \/ kappa = -1)%Z -> w <> 0 -> (2 ^ K <= length q)%nat ->
  (forall n, (n < 2 ^ K)%nat -> (1 + IZR kappa * (eps_t * Cmod (qv n)) ^ 2 <> 0)%R) ->
  holds_product tm (2 ^ K) w (modal_sample eps_t qv (fun n => - RtoC (IZR kappa) * Cconj (qv n))) ->
  exists q', nseinv (2 ^ K) (Some tm) (Some q) eps_t kappa N_2SPLIT2_MODAL = Ret (SUCCESS, Some q', Some tm) /\ holds_samples (2 ^ K) qv q q'.
Proof.
  intros HK He Hk Hw Lq Hden Htm.
  assert (Hkk : RtoC (IZR kappa) * RtoC (IZR kappa) = 1) by (rewrite <- RtoC_mult; f_equal; destruct Hk as [->| ->]; cbn; ring).
  assert (He0 : RtoC eps_t <> 0) by (intros E; injection E as E; lra).
  set (Q := fun n => RtoC eps_t * qv n). set (R := fun n => RtoC eps_t * (- RtoC (IZR kappa) * Cconj (qv n))).
  assert (EQR : forall n, 1 - Q n * R n = RtoC (1 + IZR kappa * (eps_t * Cmod (qv n)) ^ 2)).
  { intros n. unfold Q, R. transitivity (1 + RtoC (IZR kappa) * (RtoC eps_t * RtoC eps_t) * (qv n * Cconj (qv n))); [ring|].
    rewrite mul_conj. rewrite <- !RtoC_mult, <- RtoC_plus. f_equal. ring. }
  assert (HQR : forall n, (n < 2 ^ K)%nat -> 1 - Q n * R n <> 0) by (intros n Hn E; rewrite EQR in E; injection E as E; exact (Hden n Hn E)).
  destruct (finv_direct (fun R => - RtoC (IZR kappa) * Cconj R) false eps_t KModal K (fun n => 1 / Csqrt (1 - Q n * R n)) Q R qv tm q w) as (q' & E & S); auto.
  - intros k Hk'. assert (Nq : Csqrt (1 - Q k * R k) <> 0).
    { intros Z. apply (HQR k Hk'). rewrite <- (Csqrt_sqr (1 - Q k * R k)), Z. ring. }
    replace (1 / Csqrt (1 - Q k * R k)) with (/ Csqrt (1 - Q k * R k)) by (field; exact Nq). now apply Cinv_n0.
  - intros k _. unfold R, Q. rewrite !Cmult_conj, Cconj_opp, !Cconj_R, Cconj_conj.
    transitivity (RtoC (IZR kappa) * RtoC (IZR kappa) * (RtoC eps_t * qv k)); [ring|]. rewrite Hkk. ring.
  - intros k _. cbn [recover]. unfold Q. f_equal. field. exact He0.
  - exists q'. split; [|exact S]. unfold nse_finvscatter, finv_args. rewrite pow2_0. destruct (Rle_dec eps_t 0); [lra|].
    replace (orb (Z.eqb kappa 1) (Z.eqb kappa (-1))) with true by (destruct Hk as [->| ->]; reflexivity). cbn [negb].
    change (nse_degree N_2SPLIT2_MODAL) with 1%nat. change (nse_kind N_2SPLIT2_MODAL) with KModal. rewrite E. reflexivity.
Qed.

(** *** NSE, 2SPLIT2A *)
(** the value that the routine returns if the sample has the ratio t (a real number) times the phase of q *)
Lemma recover_2A (h t : R) (q : C) : q <> 0 -> (0 < t)%R ->
  recover h K2A (q / RtoC (Cmod q) * RtoC t) = Some (RtoC (atan t) * (q / RtoC (Cmod q)) / RtoC h).
Proof.
  intros N Ht. assert (Hm' : (Cmod q <> 0)%R) by (apply Rgt_not_eq, Cmod_gt_0; exact N).
  assert (Hm : RtoC (Cmod q) <> 0) by (intros E; injection E as E; contradiction).
  assert (Ht0 : RtoC t <> 0) by (intros E; injection E as E; lra).
  set (X := q / RtoC (Cmod q) * RtoC t).
  assert (EX : Cmod X = t).
  { unfold X, Cdiv. rewrite !Cmod_mult, Cmod_inv by exact Hm. rewrite !Cmod_R, (Rabs_pos_eq t) by lra. rewrite (Rabs_pos_eq (Cmod q)) by apply Cmod_ge_0. field. exact Hm'. }
  assert (NX : X <> 0) by (intros E; rewrite E, Cmod_0 in EX; lra).
  cbn [recover]. rewrite Cexp_arg by exact NX. rewrite EX. f_equal. unfold X. f_equal. f_equal. field. now split.
Qed.
Lemma recover_2A_0 (h : R) : (0 < h)%R -> recover h K2A 0 = Some (RtoC 0).
Proof.
  intros Hh. cbn [recover]. rewrite Cmod_0, atan_0. f_equal. unfold Cdiv. rewrite !Cmult_0_l. reflexivity.
Qed.
Lemma nse_args K (eps_t : R) (kappa : Z) (tm q : list C) f : (0 < eps_t)%R -> (kappa = 1 \/ kappa = -1)%Z ->
  finv_args (2 ^ K) (Some tm) (Some q) eps_t (orb (Z.eqb kappa 1) (Z.eqb kappa (-1))) f
  = (y <- f tm q ;; let '(c, q', tm') := y in Ret (c, Some q', Some tm')).
Proof.
  intros He Hk. unfold finv_args. rewrite pow2_0. destruct (Rle_dec eps_t 0); [lra|].
  replace (orb (Z.eqb kappa 1) (Z.eqb kappa (-1))) with true by (destruct Hk as [->| ->]; reflexivity). reflexivity.
Qed.

Theorem nse_finvscatter_2A_focusing K (eps_t : R) (qv : nat -> C) (tm q : list C) (w : C) :
  (1 <= K)%nat -> (0 < eps_t)%R -> w <> 0 -> (2 ^ K <= length q)%nat ->
  (forall n, (n < 2 ^ K)%nat -> (eps_t * Cmod (qv n) < PI / 2)%R) ->
  holds_product tm (2 ^ K) w (split2A_sample eps_t qv (fun n => - Cconj (qv n))) ->
  exists q', nseinv (2 ^ K) (Some tm) (Some q) eps_t 1 N_2SPLIT2A = Ret (SUCCESS, Some q', Some tm) /\ holds_samples (2 ^ K) qv q q'.
Proof.
  intros HK He Hw Lq Hsmall Htm.
  assert (He0 : RtoC eps_t <> 0) by (intros E; injection E as E; lra).
  set (x := fun n => (eps_t * Cmod (qv n))%R).
  assert (Hx0 : forall n, (0 <= x n)%R) by (intros n; unfold x; apply Rmult_le_pos; [lra|apply Cmod_ge_0]).
  set (Q := fun n => if Ceq_dec (qv n) 0 then RtoC 0 else qv n / RtoC (Cmod (qv n)) * RtoC (tan (x n))).
  assert (Hcos : forall n, (n < 2 ^ K)%nat -> (0 < cos (x n))%R).
  { intros n Hn. specialize (Hsmall n Hn). specialize (Hx0 n). apply cos_gt_0; unfold x in *; lra. }
  assert (EQ : forall n, Q n * Cconj (Q n) = RtoC ((if Ceq_dec (qv n) 0 then 0 else tan (x n)) ^ 2)).
  { intros n. unfold Q. destruct (Ceq_dec (qv n) 0) as [E|N]; [apply Ceq; cbn; ring|].
    assert (Hm : RtoC (Cmod (qv n)) <> 0) by (intros E; injection E as E; revert E; apply Rgt_not_eq, Cmod_gt_0; exact N).
    rewrite Cmult_conj, Cconj_div, !Cconj_R by exact Hm.
    transitivity (qv n * Cconj (qv n) * (RtoC (tan (x n)) * RtoC (tan (x n))) / (RtoC (Cmod (qv n)) * RtoC (Cmod (qv n)))); [field; exact Hm|].
    rewrite mul_conj, RtoC_mult. replace ((tan (x n)) ^ 2)%R with (tan (x n) * tan (x n))%R by ring. rewrite RtoC_mult. field. exact Hm. }
  destruct (finv_direct (fun R => - RtoC (IZR 1) * Cconj R) false eps_t K2A K (fun n => RtoC (cos (x n))) Q (fun n => - Cconj (Q n)) qv tm q w) as (q' & E & S); auto.
  - intros k Hk E. injection E as E. specialize (Hcos k Hk). lra.
  - intros k _. rewrite Cconj_opp, Cconj_conj. ring.
  - intros k Hk E. apply (f_equal fst) in E. replace (1 - Q k * - Cconj (Q k)) with (1 + Q k * Cconj (Q k)) in E by ring.
    rewrite EQ in E. cbn in E. match type of E with (1 + ?a * (?a * 1) = 0)%R => pose proof (Rle_0_sqr a) as Hs; unfold Rsqr in Hs end. lra.
  - intros k Hk. unfold Q. destruct (Ceq_dec (qv k) 0) as [Z|N]; [rewrite Z; now apply recover_2A_0|].
    assert (Hp : (0 < x k)%R) by (unfold x; apply Rmult_lt_0_compat; [lra|apply Cmod_gt_0; exact N]).
    assert (Hm : RtoC (Cmod (qv k)) <> 0) by (intros E; injection E as E; revert E; apply Rgt_not_eq, Cmod_gt_0; exact N).
    specialize (Hsmall k Hk). rewrite recover_2A; [|exact N|apply tan_gt_0; unfold x in *; lra].
    rewrite atan_tan by (unfold x in *; lra). f_equal. unfold x. rewrite RtoC_mult. field. now split.
  - revert Htm. apply holds_ext. intros z n Hn. unfold split2A_sample, sample_mat, Q.
    destruct (Ceq_dec (qv n) 0) as [Z|N].
    + rewrite Z. replace (- Cconj 0) with (RtoC 0) by (apply Ceq; cbn; ring). rewrite expB_00. unfold x. rewrite Z, Cmod_0, Rmult_0_r, cos_0.
      apply mat2_eq; cbn [mmul mscal mone a11 a12 a21 a22]; ring.
    + assert (Hm : RtoC (Cmod (qv n)) <> 0) by (intros E; injection E as E; revert E; apply Rgt_not_eq, Cmod_gt_0; exact N).
      specialize (Hcos n Hn). assert (Hc : RtoC (cos (x n)) <> 0) by (intros E; injection E as E; lra).
      rewrite expB_foc by exact N. fold (x n). rewrite Cmult_conj, Cconj_div, !Cconj_R by exact Hm.
      unfold tan. rewrite RtoC_div by lra.
      apply mat2_eq; cbn [mmul mscal mone a11 a12 a21 a22]; field; auto.
  - exists q'. split; [|exact S]. unfold nse_finvscatter. rewrite (nse_args K eps_t 1 tm q _ He (or_introl eq_refl)).
    change (nse_degree N_2SPLIT2A) with 1%nat. change (nse_kind N_2SPLIT2A) with K2A. rewrite E. reflexivity.
Qed.

(** in the defocusing case the routine inverts with atan where atanh is needed: every non-zero sample comes back too small *)
Theorem nse_finvscatter_2A_defocusing_refuted K (eps_t : R) (qv : nat -> C) (tm q : list C) (w : C) :
  (1 <= K)%nat -> (0 < eps_t)%R -> w <> 0 -> (2 ^ K <= length q)%nat ->
  holds_product tm (2 ^ K) w (split2A_sample eps_t qv (fun n => Cconj (qv n))) ->
  exists q', nseinv (2 ^ K) (Some tm) (Some q) eps_t (-1) N_2SPLIT2A = Ret (SUCCESS, Some q', Some tm) /\
    forall n, (n < 2 ^ K)%nat -> qv n <> 0 ->
      nth n q' (RtoC 0) = RtoC (atan (tanh (eps_t * Cmod (qv n))) / (eps_t * Cmod (qv n))) * qv n /\
      (Cmod (nth n q' (RtoC 0)) < Cmod (qv n))%R.
Proof.
  intros HK He Hw Lq Htm.
  assert (He0 : RtoC eps_t <> 0) by (intros E; injection E as E; lra).
  set (x := fun n => (eps_t * Cmod (qv n))%R).
  assert (Hx0 : forall n, (0 <= x n)%R) by (intros n; unfold x; apply Rmult_le_pos; [lra|apply Cmod_ge_0]).
  set (Q := fun n => if Ceq_dec (qv n) 0 then RtoC 0 else qv n / RtoC (Cmod (qv n)) * RtoC (tanh (x n))).
  assert (EQ : forall n, Q n * Cconj (Q n) = RtoC ((if Ceq_dec (qv n) 0 then 0 else tanh (x n)) ^ 2)).
  { intros n. unfold Q. destruct (Ceq_dec (qv n) 0) as [E|N]; [apply Ceq; cbn; ring|].
    assert (Hm : RtoC (Cmod (qv n)) <> 0) by (intros E; injection E as E; revert E; apply Rgt_not_eq, Cmod_gt_0; exact N).
    rewrite Cmult_conj, Cconj_div, !Cconj_R by exact Hm.
    transitivity (qv n * Cconj (qv n) * (RtoC (tanh (x n)) * RtoC (tanh (x n))) / (RtoC (Cmod (qv n)) * RtoC (Cmod (qv n)))); [field; exact Hm|].
    rewrite mul_conj, RtoC_mult. replace ((tanh (x n)) ^ 2)%R with (tanh (x n) * tanh (x n))%R by ring. rewrite RtoC_mult. field. exact Hm. }
  assert (Hsh : forall t, (0 < t)%R -> (0 < sinh t < cosh t)%R).
  { intros t Ht. unfold sinh, cosh. pose proof (exp_increasing (- t) t ltac:(lra)). pose proof (exp_pos (- t)). lra. }
  assert (Hth : forall t, (0 < t)%R -> (0 < tanh t < 1)%R).
  { intros t Ht. pose proof (Hsh t Ht) as Hs. unfold tanh. split; [apply Rdiv_lt_0_compat; lra|]. apply (Rmult_lt_reg_r (cosh t)); [lra|].
    unfold Rdiv. rewrite Rmult_assoc, Rinv_l by lra. lra. }
  set (xs := fun n => if Ceq_dec (qv n) 0 then RtoC 0 else RtoC (atan (tanh (x n)) / x n) * qv n).
  destruct (finv_direct (fun R => - RtoC (IZR (-1)) * Cconj R) false eps_t K2A K (fun n => RtoC (cosh (x n))) Q (fun n => Cconj (Q n)) xs tm q w) as (q' & E & S); auto.
  - intros k Hk E. injection E as E. pose proof (cosh_pos (x k)). lra.
  - intros k _. rewrite Cconj_conj. apply Ceq; cbn; ring.
  - intros k Hk E. apply (f_equal fst) in E. rewrite EQ in E. cbn in E. destruct (Ceq_dec (qv k) 0) as [Z|N]; [lra|].
    assert (Hp : (0 < x k)%R) by (unfold x; apply Rmult_lt_0_compat; [lra|apply Cmod_gt_0; exact N]).
    pose proof (Hth _ Hp). nra.
  - intros k Hk. unfold Q, xs. destruct (Ceq_dec (qv k) 0) as [Z|N]; [now apply recover_2A_0|].
    assert (Hp : (0 < x k)%R) by (unfold x; apply Rmult_lt_0_compat; [lra|apply Cmod_gt_0; exact N]).
    assert (Hm : RtoC (Cmod (qv k)) <> 0) by (intros E; injection E as E; revert E; apply Rgt_not_eq, Cmod_gt_0; exact N).
    rewrite recover_2A; [|exact N|apply Hth; exact Hp]. f_equal. rewrite RtoC_div by lra.
    replace (RtoC (x k)) with (RtoC eps_t * RtoC (Cmod (qv k))) by (unfold x; now rewrite RtoC_mult). field. now split.
  - revert Htm. apply holds_ext. intros z n Hn. unfold split2A_sample, sample_mat, Q.
    destruct (Ceq_dec (qv n) 0) as [Z|N].
    + rewrite Z. replace (Cconj 0) with (RtoC 0) by (apply Ceq; cbn; ring). rewrite expB_00. unfold x. rewrite Z, Cmod_0, Rmult_0_r, cosh_0.
      apply mat2_eq; cbn [mmul mscal mone a11 a12 a21 a22]; ring.
    + assert (Hm : RtoC (Cmod (qv n)) <> 0) by (intros E; injection E as E; revert E; apply Rgt_not_eq, Cmod_gt_0; exact N).
      pose proof (cosh_pos (x n)). assert (Hc : RtoC (cosh (x n)) <> 0) by (intros E; injection E as E; lra).
      rewrite expB_def by exact N. fold (x n). rewrite Cmult_conj, Cconj_div, !Cconj_R by exact Hm.
      unfold tanh. rewrite RtoC_div by lra.
      apply mat2_eq; cbn [mmul mscal mone a11 a12 a21 a22]; field; auto.
  - exists q'. split.
    + unfold nse_finvscatter. rewrite (nse_args K eps_t (-1) tm q _ He (or_intror eq_refl)).
      change (nse_degree N_2SPLIT2A) with 1%nat. change (nse_kind N_2SPLIT2A) with K2A. rewrite E. reflexivity.
    + intros n Hn N. destruct S as [_ S]. specialize (S n). destruct (Nat.ltb_spec n (2 ^ K)); [|lia]. rewrite S. unfold xs.
      destruct (Ceq_dec (qv n) 0); [contradiction|]. split; [reflexivity|].
      assert (Hq : (0 < Cmod (qv n))%R) by (apply Cmod_gt_0; exact N).
      assert (Hp : (0 < x n)%R) by (unfold x; apply Rmult_lt_0_compat; lra).
      pose proof (atan_tanh _ Hp) as Ha. fold (tanh (x n)) in Ha.
      assert (0 < atan (tanh (x n)))%R by (rewrite <- atan_0; apply atan_increasing; apply Hth; exact Hp).
      rewrite Cmod_mult, Cmod_R, Rabs_pos_eq by (apply Rlt_le, Rdiv_lt_0_compat; lra).
      assert (atan (tanh (x n)) / x n < 1)%R; [|nra]. apply (Rmult_lt_reg_r (x n)); [lra|]. unfold Rdiv. rewrite Rmult_assoc, Rinv_l by lra. lra.
Qed.

(** *** KdV, 2SPLIT2_MODAL: the potential is in the upper right corner, the lower left one is -1 *)
Theorem kdv_finvscatter_modal K (eps_t : R) (qv : nat -> C) (tm q : list C) (w : C) :
  (1 <= K)%nat -> (0 < eps_t)%R -> w <> 0 -> (2 ^ K <= length q)%nat ->
  (forall n, (n < 2 ^ K)%nat -> 1 + RtoC (eps_t ^ 2) * qv n <> 0) ->
  holds_product tm (2 ^ K) w (modal_sample eps_t qv (fun n => - (1))) ->
  exists q' tm', kdvinv (2 ^ K) (Some tm) (Some q) eps_t K_2SPLIT2_MODAL = Ret (SUCCESS, Some q', Some tm') /\ holds_samples (2 ^ K) qv q q'.
Proof.
  intros HK He Hw Lq Hden Htm.
  assert (He0 : RtoC eps_t <> 0) by (intros E; injection E as E; lra).
  set (Q := fun n => RtoC eps_t * qv n). set (R := fun n : nat => RtoC eps_t * (- (1))).
  assert (HQR : forall n, (n < 2 ^ K)%nat -> 1 - Q n * R n <> 0).
  { intros n Hn. unfold Q, R. replace (1 - RtoC eps_t * qv n * (RtoC eps_t * - (1))) with (1 + RtoC (eps_t ^ 2) * qv n); [now apply Hden|].
    replace (eps_t ^ 2)%R with (eps_t * eps_t)%R by ring. rewrite RtoC_mult. ring. }
  destruct (finv_transposed (fun R => - RtoC eps_t) true eps_t KModal K (fun n => 1 / Csqrt (1 - Q n * R n)) Q R qv tm q w) as (q' & tm' & E & S); auto.
  - intros k Hk'. assert (Nq : Csqrt (1 - Q k * R k) <> 0).
    { intros Z. apply (HQR k Hk'). rewrite <- (Csqrt_sqr (1 - Q k * R k)), Z. ring. }
    replace (1 / Csqrt (1 - Q k * R k)) with (/ Csqrt (1 - Q k * R k)) by (field; exact Nq). now apply Cinv_n0.
  - intros k _. unfold R. ring.
  - intros k _. cbn [recover]. unfold Q. f_equal. field. exact He0.
  - exists q', tm'. split; [|exact S]. unfold kdv_finvscatter, finv_args. rewrite pow2_0. destruct (Rle_dec eps_t 0); [lra|]. cbn [negb].
    change (kdv_degree K_2SPLIT2_MODAL) with 1%nat. change (kdv_kind K_2SPLIT2_MODAL) with KModal. rewrite E. reflexivity.
Qed.
End Thms.
