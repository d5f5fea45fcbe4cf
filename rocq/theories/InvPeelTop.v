(** * nse_finvscatter for any first column of the transfer matrix *)
From Coq Require Import Reals ZArith List Lia Lra.
From Coquelicot Require Import Coquelicot.
From Verif Require Import Base Mem Loop Series Fields CField CConj CMean Dft FftUse MatSpec PolySpec ErrModel CExp KissModel KissProof PolyFmultModel PolyFmultTree DiscTables FscatterModel FscatterSpec FscatterProof FscatterProps PolyFmultProps FinvModel FinvAlg FinvMult FinvRun FinvTop FinvProof FinvProps InvCsSpec InvPeel.
Import ListNotations.
Local Open Scope C_scope.
Local Notation smulC := (smul (K := CF)).
Local Notation levalC := (leval (K := CF)).

(** the polynomials 11 and 21 stored in tm, degree D *)
Definition tm11 (tm : list C) (D : nat) (z : C) : C := peval (K := CF) (coeffs (K := CF) tm 0 (D + 1)) z.
Definition tm21 (tm : list C) (D : nat) (z : C) : C := peval (K := CF) (coeffs (K := CF) tm (2 * (D + 1)) (D + 1)) z.
Lemma tm_low tm D z : (4 * (D + 1) <= length tm)%nat -> tm11 tm D z = levalC D (low tm 0 (D + 1) D 0 0) z /\ tm21 tm D z = levalC D (low tm 0 (D + 1) D 1 0) z.
Proof. intros L. unfold tm11, tm21. rewrite !leval_low by lia. split; f_equal; f_equal; lia. Qed.
Lemma low_supp tm D i l : (D < l)%nat -> low tm 0 (D + 1) D i 0 l = 0.
Proof. intros H. unfold low. destruct (Nat.leb_spec l D); [lia|reflexivity]. Qed.
(** the coefficients of two products agree *)
Lemma agree_coeffs D (p q s t : nat -> C) : (forall l, (D < l)%nat -> p l = 0) -> (forall l, (D < l)%nat -> q l = 0) -> (forall l, (D < l)%nat -> s l = 0) -> (forall l, (D < l)%nat -> t l = 0) ->
  agree D (fun z => levalC D p z * levalC D q z) (fun z => levalC D s z * levalC D t z) -> forall l, (l < D)%nat -> smulC p q l = smulC s t l.
Proof.
  intros Hp Hq Hs Ht (ys & E) l Hl. set (cs := repeat (RtoC 0) D ++ ys) in E. set (N := (D + D + length cs)%nat).
  assert (S1 : forall l, (D + D < l)%nat -> smulC p q l = RtoC 0) by (apply (smul_support (K := CF)); assumption).
  assert (S2 : forall l, (D + D < l)%nat -> smulC s t l = RtoC 0) by (apply (smul_support (K := CF)); assumption).
  assert (Z : forall l, (l <= N)%nat -> smulC p q l = smulC s t l + nth l cs (RtoC 0)).
  { apply (leval_idC N). intros z. rewrite (leval_plus (K := CF)). rewrite <- leval_polyval by (unfold N; lia). rewrite <- E. unfold N. rewrite (Nat.add_comm (D + D)).
    rewrite (leval_more _ (D + D) (smulC p q) z S1), (leval_more _ (D + D) (smulC s t) z S2), !(leval_smul (K := CF)) by assumption. cbn [CF car fadd fmul]. match goal with |- @eq _ ?a ?b => change (@eq C a b) end. ring. }
  rewrite Z by (unfold N; lia). unfold cs. rewrite app_nth1 by (rewrite repeat_length; exact Hl). rewrite nth_repeat0. match goal with |- @eq _ ?a ?b => change (@eq C a b) end. ring.
Qed.

Section Thms.
Variables (junkm : arr -> nat -> list C) (junk0 junk1 junk2 : nat -> list C).
Hypothesis Hjm : forall a n, length (junkm a n) = n.
Hypothesis Hj0 : forall n, length (junk0 n) = n.
Hypothesis Hj1 : forall n, length (junk1 n) = n.
Hypothesis Hj2 : forall n, length (junk2 n) = n.
Local Notation nseinv := (nse_finvscatter junkm junk0 junk1 junk2).

Lemma finv_agree qfr (ret_r : bool) eps_t kd K (c Q R x : nat -> C) (tm q : list C) : (1 <= K)%nat ->
  (forall k, (k < 2 ^ K)%nat -> c k <> 0) -> (forall k, (k < 2 ^ K)%nat -> qfr (R k) = Q k) -> (forall k, (k < 2 ^ K)%nat -> 1 - Q k * R k <> 0) ->
  (forall k, (k < 2 ^ K)%nat -> recover eps_t kd (if ret_r then R k else Q k) = Some (x k)) ->
  (4 * (2 ^ K + 1) <= length tm)%nat -> (2 ^ K <= length q)%nat -> nth (2 ^ K) tm (RtoC 0) <> 0 ->
  agree (2 ^ K) (fun z => a11 (descending (2 ^ K) (sample_mat c Q R z)) * tm21 tm (2 ^ K) z) (fun z => a21 (descending (2 ^ K) (sample_mat c Q R z)) * tm11 tm (2 ^ K) z) ->
  exists q', finvscatter junkm junk0 junk1 junk2 qfr ret_r false kd 1 (2 ^ K) tm q eps_t = Ret (SUCCESS, q', tm) /\ holds_samples (2 ^ K) x q q'.
Proof.
  intros HK Hc HQ HQR Hx L Lq H0 Ag. set (D := (2 ^ K)%nat) in *.
  set (c' := fun k => if (k <? D)%nat then c k else RtoC 1).
  assert (Hc' : forall k, c' k <> 0). { intros k. unfold c'. destruct (Nat.ltb_spec k D); [now apply Hc|]. apply C1n0. }
  assert (Dx : forall z, descending D (sample_mat c Q R z) = descending D (sample_mat c' Q R z)).
  { intros z. apply desc_ext. intros k Hk. unfold sample_mat, c'. destruct (Nat.ltb_spec k D); [reflexivity|lia]. }
  set (Pm := Mdesc (K := CF) (M c' Q R) 0 D). set (t1 := low tm 0 (D + 1) D 0 0). set (t2 := low tm 0 (D + 1) D 1 0).
  assert (Sp : ssupp (K := CF) 2 D Pm) by (apply Mdesc_supp; intros; apply Msamp_supp).
  assert (P0 : (Pm 0%nat 0%nat 0%nat : C) <> 0).
  { assert (G := Mdesc_col0 (K := CF) c' Q R Hc' 0 D (smone (K := CF)) (fun E => C1n0 E)). intros E. apply G.
    change (0 + smulC (Pm 0%nat 0%nat) (sone (K := CF)) 0%nat + smulC (Pm 0%nat 1%nat) (fun _ => RtoC 0) 0%nat = RtoC 0).
    rewrite (smul_one_r (K := CF)), E. rewrite (smul_zero_r (K := CF)). cbn [CF car f0]. ring. }
  assert (T0 : t1 0%nat <> 0). { unfold t1, low. destruct (Nat.leb_spec 0 D); [|lia]. replace (0 + (0 * 2 + 0) * (D + 1) + (D - 0))%nat with D by lia. exact H0. }
  assert (Cf : forall l, (l < D)%nat -> smulC (Pm 0%nat 0%nat) t2 l = smulC (Pm 1%nat 0%nat) t1 l).
  { apply agree_coeffs; try (intros l Hl; apply Sp; lia); try (intros l Hl; apply low_supp; exact Hl).
    destruct Ag as (ys & Ag). exists ys. intros z. rewrite <- Ag, Dx. destruct (tm_low tm D z L) as [-> ->]. unfold Pm. rewrite !Mdesc_entry by lia. reflexivity. }
  destruct (sdiv_ex (Pm 0%nat 0%nat) t1 D P0) as (y & Hy).
  assert (Dp : (0 < D)%nat) by (unfold D; pose proof (Nat.pow_nonzero 2 K); lia).
  assert (Hy2 : forall l, (l < D)%nat -> smulC (Pm 1%nat 0%nat) y l = t2 l).
  { apply (smul_cancel (Pm 0%nat 0%nat) _ _ D P0). intros l Hl. rewrite Cf by exact Hl. rewrite <- (smul_assoc (K := CF)).
    rewrite (smul_ext (K := CF) _ (smulC (Pm 1%nat 0%nat) (Pm 0%nat 0%nat)) y y l) by (intros; try reflexivity; apply smul_comm).
    rewrite (smul_assoc (K := CF)). apply (smul_ext (K := CF)); [reflexivity|]. intros i Hi. apply Hy. lia. }
  destruct (finvscatter_core junkm junk0 junk1 junk2 Hjm Hj0 Hj1 Hj2 qfr ret_r eps_t kd K HK c' Q R x Hc' HQ HQR Hx false tm tm q
    (fun i _ => match i with O => y | _ => fun _ => RtoC 0 end) eq_refl L Lq) as (q' & Lq' & Nq' & E).
  - intros E. apply T0. rewrite <- (Hy 0%nat Dp). unfold smul. cbn [fsum Nat.sub CF car fadd fmul f0]. cbn in E. rewrite E. ring.
  - intros a l Ha Hl. change (l < D)%nat in Hl. fold Pm. unfold smmul. cbn [fsum]. rewrite (smul_zero_r (K := CF)).
    destruct a as [|[|a]]; [| |lia].
    + change (t1 l = 0 + smulC (Pm 0%nat 0%nat) y l + 0). rewrite Hy by exact Hl. ring.
    + change (t2 l = 0 + smulC (Pm 1%nat 0%nat) y l + 0). rewrite Hy2 by exact Hl. ring.
  - exists q'. fold D in E. rewrite E. cbn [bind]. split; [reflexivity|]. now split.
Qed.

(** ** The two schemes *)
Definition disc_of (s : scheme) : nse_disc := match s with Split2A => N_2SPLIT2A | Modal => N_2SPLIT2_MODAL end.
Definition tans (h : R) (q : C) : C := if Ceq_dec q 0 then RtoC 0 else q / RtoC (Cmod q) * RtoC (tan (h * Cmod q)).
Definition s_Q (s : scheme) (h : R) (q : C) : C := match s with Split2A => tans h q | Modal => RtoC h * q end.
Definition s_R (s : scheme) (kappa h : R) (q : C) : C := match s with Split2A => - Cconj (tans h q) | Modal => RtoC h * (- RtoC kappa * Cconj q) end.
Definition s_c (s : scheme) (kappa h : R) (q : C) : C := match s with Split2A => RtoC (cos (h * Cmod q)) | Modal => 1 / Csqrt (1 - RtoC h * q * (RtoC h * (- RtoC kappa * Cconj q))) end.
(** the pairs (scheme, kappa) that are inverted exactly *)
Definition exact_scheme (s : scheme) (kappa : Z) : Prop := match s with Split2A => kappa = 1%Z | Modal => kappa = 1%Z \/ kappa = (-1)%Z end.

Lemma tans_conj (h : R) (q : C) : tans h q * Cconj (tans h q) = RtoC ((if Ceq_dec q 0 then 0 else tan (h * Cmod q)) ^ 2).
Proof.
  unfold tans. destruct (Ceq_dec q 0) as [E|N]; [apply Ceq; cbn; ring|].
  assert (Hm : RtoC (Cmod q) <> 0) by (intros E; injection E as E; revert E; apply Rgt_not_eq, Cmod_gt_0; exact N).
  rewrite Cmult_conj, Cconj_div, !Cconj_R by exact Hm. set (t := tan (h * Cmod q)).
  transitivity (q * Cconj q * (RtoC t * RtoC t) / (RtoC (Cmod q) * RtoC (Cmod q))); [field; exact Hm|].
  rewrite mul_conj, RtoC_mult. replace (t ^ 2)%R with (t * t)%R by ring. rewrite RtoC_mult. field. exact Hm.
Qed.
Lemma sample_eq s (kappa : Z) h q z n : exact_scheme s kappa -> (0 < h)%R -> in_range s (IZR kappa) h (q n) ->
  sample s (IZR kappa) h (q n) z = sample_mat (fun n => s_c s (IZR kappa) h (q n)) (fun n => s_Q s h (q n)) (fun n => s_R s (IZR kappa) h (q n)) z n.
Proof.
  intros Hs Hh Hr. destruct s; cbn [exact_scheme in_range s_c s_Q s_R sample] in *; [|reflexivity]. subst kappa.
  unfold sample_mat, tans. replace (- RtoC 1 * Cconj (q n)) with (- Cconj (q n)) by ring.
  destruct (Ceq_dec (q n) 0) as [Z|N].
  - rewrite Z. replace (- Cconj 0) with (RtoC 0) by (apply Ceq; cbn; ring). rewrite expB_00. rewrite Cmod_0, Rmult_0_r, cos_0.
    apply mat2_eq; cbn [mmul mscal mone a11 a12 a21 a22]; ring.
  - assert (Hm : RtoC (Cmod (q n)) <> 0) by (intros E; injection E as E; revert E; apply Rgt_not_eq, Cmod_gt_0; exact N).
    assert (Hp : (0 <= h * Cmod (q n))%R) by (apply Rmult_le_pos; [lra|apply Cmod_ge_0]).
    assert (Hcos : (0 < cos (h * Cmod (q n)))%R) by (apply cos_gt_0; lra).
    assert (Hc : RtoC (cos (h * Cmod (q n))) <> 0) by (intros E; injection E as E; lra).
    rewrite expB_foc by exact N. rewrite Cmult_conj, Cconj_div, !Cconj_R by exact Hm. unfold tan. rewrite RtoC_div by lra.
    apply mat2_eq; cbn [mmul mscal mone a11 a12 a21 a22]; field; auto.
Qed.
Lemma transfer_desc s (kappa : Z) h q D z : exact_scheme s kappa -> (0 < h)%R -> (forall n, (n < D)%nat -> in_range s (IZR kappa) h (q n)) ->
  transfer s (IZR kappa) h q D z = descending D (sample_mat (fun n => s_c s (IZR kappa) h (q n)) (fun n => s_Q s h (q n)) (fun n => s_R s (IZR kappa) h (q n)) z).
Proof.
  intros Hs Hh Hr. induction D as [|n IH]; [reflexivity|]. cbn [transfer descending]. rewrite IH by (intros; apply Hr; lia). f_equal. apply sample_eq; auto.
Qed.
Lemma s_QR s (kappa : Z) h q : exact_scheme s kappa -> in_range s (IZR kappa) h q -> 1 - s_Q s h q * s_R s (IZR kappa) h q <> 0.
Proof.
  intros Hs Hr. destruct s; cbn [s_Q s_R in_range exact_scheme] in *.
  - intros E. apply (f_equal fst) in E. replace (1 - tans h q * - Cconj (tans h q)) with (1 + tans h q * Cconj (tans h q)) in E by ring.
    rewrite tans_conj in E. cbn in E. match type of E with (1 + ?a * (?a * 1) = 0)%R => pose proof (Rle_0_sqr a) as Hq; unfold Rsqr in Hq end. lra.
  - intros E. apply Hr. assert (E2 : 1 - RtoC h * q * (RtoC h * (- RtoC (IZR kappa) * Cconj q)) = RtoC (1 + IZR kappa * (h * Cmod q) ^ 2)).
    { transitivity (1 + RtoC (IZR kappa) * (RtoC h * RtoC h) * (q * Cconj q)); [ring|].
      rewrite mul_conj. rewrite <- !RtoC_mult, <- RtoC_plus. f_equal. ring. }
    rewrite E2 in E. now injection E.
Qed.
Lemma s_c_n0 s (kappa : Z) h q : exact_scheme s kappa -> (0 < h)%R -> in_range s (IZR kappa) h q -> s_c s (IZR kappa) h q <> 0.
Proof.
  intros Hs Hh Hr. assert (HQR := s_QR s kappa h q Hs Hr). destruct s; cbn [s_c s_Q s_R in_range] in *.
  - assert (Hp : (0 <= h * Cmod q)%R) by (apply Rmult_le_pos; [lra|apply Cmod_ge_0]). assert (Hcos : (0 < cos (h * Cmod q))%R) by (apply cos_gt_0; lra).
    intros E. injection E as E. lra.
  - assert (Nq : Csqrt (1 - RtoC h * q * (RtoC h * (- RtoC (IZR kappa) * Cconj q))) <> 0).
    { intros Z. apply HQR. rewrite <- (Csqrt_sqr (1 - _)), Z. ring. }
    unfold Cdiv. rewrite Cmult_1_l. now apply Cinv_n0.
Qed.
Lemma s_qfr s (kappa : Z) h q : exact_scheme s kappa -> - RtoC (IZR kappa) * Cconj (s_R s (IZR kappa) h q) = s_Q s h q.
Proof.
  intros Hs. destruct s; cbn [s_Q s_R exact_scheme] in *.
  - subst kappa. rewrite Cconj_opp, Cconj_conj. ring.
  - assert (Hkk : RtoC (IZR kappa) * RtoC (IZR kappa) = 1) by (rewrite <- RtoC_mult; f_equal; destruct Hs as [->| ->]; cbn; ring).
    rewrite !Cmult_conj, Cconj_opp, !Cconj_R, Cconj_conj. transitivity (RtoC (IZR kappa) * RtoC (IZR kappa) * (RtoC h * q)); [ring|]. rewrite Hkk. ring.
Qed.
Lemma s_recover s (kappa : Z) h q : exact_scheme s kappa -> (0 < h)%R -> in_range s (IZR kappa) h q -> recover h (nse_kind (disc_of s)) (s_Q s h q) = Some q.
Proof.
  intros Hs Hh Hr. assert (He0 : RtoC h <> 0) by (intros E; injection E as E; lra). destruct s; cbn [s_Q disc_of nse_kind in_range] in *.
  - unfold tans. destruct (Ceq_dec q 0) as [Z|N]; [rewrite Z; now apply recover_2A_0|].
    assert (Hp : (0 < h * Cmod q)%R) by (apply Rmult_lt_0_compat; [lra|apply Cmod_gt_0; exact N]).
    assert (Hm : RtoC (Cmod q) <> 0) by (intros E; injection E as E; revert E; apply Rgt_not_eq, Cmod_gt_0; exact N).
    rewrite recover_2A; [|exact N|apply tan_gt_0; lra]. rewrite atan_tan by lra. f_equal. rewrite RtoC_mult. field. now split.
  - cbn [recover]. f_equal. field. exact He0.
Qed.

Theorem nse_finvscatter_recovers s (kappa : Z) K (eps_t : R) (qv : nat -> C) (tm q : list C) :
  exact_scheme s kappa -> (1 <= K)%nat -> (0 < eps_t)%R -> (2 ^ K <= length q)%nat -> (4 * (2 ^ K + 1) <= length tm)%nat -> nth (2 ^ K) tm (RtoC 0) <> 0 ->
  (forall n, (n < 2 ^ K)%nat -> in_range s (IZR kappa) eps_t (qv n)) ->
  same_reflection s (IZR kappa) eps_t qv (2 ^ K) (tm11 tm (2 ^ K)) (tm21 tm (2 ^ K)) ->
  exists q', nseinv (2 ^ K) (Some tm) (Some q) eps_t kappa (disc_of s) = Ret (SUCCESS, Some q', Some tm) /\ holds_samples (2 ^ K) qv q q'.
Proof.
  intros Hs HK He Lq Lt H0 Hr Ag.
  destruct (finv_agree (fun R => - RtoC (IZR kappa) * Cconj R) false eps_t (nse_kind (disc_of s)) K (fun n => s_c s (IZR kappa) eps_t (qv n)) (fun n => s_Q s eps_t (qv n))
    (fun n => s_R s (IZR kappa) eps_t (qv n)) qv tm q HK) as (q' & E & S); auto.
  - intros k Hk. apply s_c_n0; auto.
  - intros k Hk. now apply s_qfr.
  - intros k Hk. apply s_QR; auto.
  - intros k Hk. apply (s_recover s kappa); auto.
  - destruct Ag as (ys & Ag). exists ys. intros z. rewrite <- Ag, !transfer_desc by auto. reflexivity.
  - exists q'. split; [|exact S]. unfold nse_finvscatter. rewrite (nse_args junkm junk0 junk1 junk2 Hjm Hj0 Hj1 Hj2); [|exact He|destruct s; cbn in Hs; auto].
    replace (nse_degree (disc_of s)) with 1%nat by (destruct s; reflexivity). rewrite E. reflexivity.
Qed.

(** ** Focusing case: there is always such a potential *)
Definition unrecover (s : scheme) (h : R) (Q : C) : C := match recover h (nse_kind (disc_of s)) Q with Some x => x | None => 0 end.
Lemma unrecover_ok s h Q : (0 < h)%R -> in_range s 1 h (unrecover s h Q) /\ s_Q s h (unrecover s h Q) = Q.
Proof.
  intros Hh. assert (He0 : RtoC h <> 0) by (intros E; injection E as E; lra). destruct s; unfold unrecover; cbn [disc_of nse_kind recover s_Q in_range].
  - destruct (Ceq_dec Q 0) as [->|N].
    + rewrite Cmod_0, atan_0. replace (RtoC 0 * Cexp (Ci * RtoC (Carg 0)) / RtoC h) with (RtoC 0) by (field; exact He0). rewrite Cmod_0. split; [assert (G := PI_RGT_0); lra|].
      unfold tans. destruct (Ceq_dec 0 0); [reflexivity|congruence].
    + assert (Hm' : (0 < Cmod Q)%R) by (apply Cmod_gt_0; exact N). assert (Hm : RtoC (Cmod Q) <> 0) by (intros E; injection E as E; lra).
      assert (A0 : (0 < atan (Cmod Q))%R) by (rewrite <- atan_0; now apply atan_increasing). assert (B := atan_bound (Cmod Q)).
      rewrite Cexp_arg by exact N. set (x := RtoC (atan (Cmod Q)) * (Q / RtoC (Cmod Q)) / RtoC h).
      assert (Ex : Cmod x = (atan (Cmod Q) / h)%R).
      { unfold x, Cdiv. rewrite !Cmod_mult, !Cmod_inv by assumption. rewrite !Cmod_R. rewrite (Rabs_pos_eq (atan _)), (Rabs_pos_eq (Cmod Q)), (Rabs_pos_eq h) by lra. field. lra. }
      assert (Eh : (h * Cmod x = atan (Cmod Q))%R) by (rewrite Ex; field; lra). rewrite Eh. split; [lra|].
      assert (Nx : x <> 0) by (intros E; rewrite E, Cmod_0, Rmult_0_r in Eh; lra).
      assert (Na : RtoC (atan (Cmod Q)) <> 0) by (intros E; injection E as E; lra).
      unfold tans. destruct (Ceq_dec x 0); [contradiction|]. rewrite Eh, tan_atan, Ex. rewrite RtoC_div by lra. unfold x. field. auto.
  - split; [|field; exact He0]. assert (G := Rle_0_sqr (h * Cmod (Q / RtoC h))). unfold Rsqr in G. lra.
Qed.
Lemma s_R1 s h x : s_R s 1 h x = - Cconj (s_Q s h x).
Proof. destruct s; cbn [s_R s_Q]; [reflexivity|]. rewrite Cmult_conj, Cconj_R. ring. Qed.
Theorem nse_finvscatter_focusing s K (eps_t : R) (tm q : list C) :
  (1 <= K)%nat -> (0 < eps_t)%R -> (2 ^ K <= length q)%nat -> (4 * (2 ^ K + 1) <= length tm)%nat -> nth (2 ^ K) tm (RtoC 0) <> 0 ->
  exists qv q', (forall n, (n < 2 ^ K)%nat -> in_range s 1 eps_t (qv n)) /\
    same_reflection s 1 eps_t qv (2 ^ K) (tm11 tm (2 ^ K)) (tm21 tm (2 ^ K)) /\
    nseinv (2 ^ K) (Some tm) (Some q) eps_t 1 (disc_of s) = Ret (SUCCESS, Some q', Some tm) /\ holds_samples (2 ^ K) qv q q'.
Proof.
  intros HK He Lq Lt H0. set (D := (2 ^ K)%nat) in *.
  assert (Hs : exact_scheme s 1) by (destruct s; cbn; auto).
  set (qfr := fun R : C => - Cconj R). set (xof := fun R => unrecover s eps_t (qfr R)). set (cf := fun R => s_c s 1 eps_t (xof R)).
  assert (Hd : forall R, 1 - qfr R * R <> 0).
  { intros R E. unfold qfr in E. replace (1 - - Cconj R * R) with (1 + R * Cconj R) in E by ring. rewrite mul_conj, <- RtoC_plus in E. injection E as E. assert (G := Rle_0_sqr (Cmod R)). unfold Rsqr in G. lra. }
  assert (Hx : forall R, in_range s 1 eps_t (xof R)) by (intros R; apply unrecover_ok; exact He).
  assert (Hcf : forall R, cf R <> 0) by (intros R; apply (s_c_n0 s 1); auto).
  set (u := fun i => low tm 0 (D + 1) D i 0).
  assert (U0 : u 0%nat 0%nat <> 0). { unfold u, low. destruct (Nat.leb_spec 0 D); [|lia]. replace (0 + (0 * 2 + 0) * (D + 1) + (D - 0))%nat with D by lia. exact H0. }
  assert (Us : forall a l, (D < l)%nat -> u a l = 0) by (intros a l Hl; now apply low_supp).
  set (qv := fun n => xof (refl qfr cf D u n)). assert (Ag := peel_agree qfr cf D D u Hd Hcf U0 Us). cbv zeta in Ag.
  assert (Rf : same_reflection s 1 eps_t qv D (tm11 tm D) (tm21 tm D)).
  { destruct Ag as (ys & Ag). exists ys. intros z. rewrite <- Ag. rewrite !(transfer_desc s 1 eps_t qv D z) by (auto; intros; apply Hx).
    destruct (tm_low tm D z Lt) as [-> ->]. unfold u.
    assert (E : descending D (sample_mat (fun n => s_c s 1 eps_t (qv n)) (fun n => s_Q s eps_t (qv n)) (fun n => s_R s 1 eps_t (qv n)) z) =
      descending D (sample_mat (fun k => cf (refl qfr cf D u k)) (fun k => qfr (refl qfr cf D u k)) (refl qfr cf D u) z)).
    { apply desc_ext. intros k _.
      assert (A1 : s_Q s eps_t (qv k) = qfr (refl qfr cf D u k)) by (unfold qv, xof; exact (proj2 (unrecover_ok s eps_t _ He))).
      assert (A2 : s_R s 1 eps_t (qv k) = refl qfr cf D u k) by (rewrite s_R1, A1; unfold qfr at 1; rewrite Cconj_opp, Cconj_conj; ring).
      unfold sample_mat. rewrite A1, A2. reflexivity. }
    rewrite E. reflexivity. }
  destruct (nse_finvscatter_recovers s 1 K eps_t qv tm q Hs HK He Lq Lt H0 (fun n _ => Hx _) Rf) as (q' & E & S).
  exists qv, q'. split; [intros; apply Hx|]. split; [exact Rf|]. split; assumption.
Qed.
End Thms.
