(** * C42: errors of the fast inverse scattering, and the discretizations that are not supported *)
From Coq Require Import Reals ZArith List Lia Lra.
From Coquelicot Require Import Coquelicot.
From Verif Require Import Base Mem Loop Series Fields CField MatSpec PolySpec ErrModel CExp KissModel PolyFmultModel PolyFmultTree DiscTables FscatterModel FscatterSpec FscatterProof FscatterProps FinvModel FinvRun FinvTop FinvProof FinvProps FinvRound.
Import ListNotations.
Local Open Scope C_scope.

Section Err.
Variables (junkm : arr -> nat -> list C) (junk0 junk1 junk2 : nat -> list C).
Hypothesis Hjm : forall a n, length (junkm a n) = n.
Hypothesis Hj0 : forall n, length (junk0 n) = n.
Hypothesis Hj1 : forall n, length (junk1 n) = n.
Hypothesis Hj2 : forall n, length (junk2 n) = n.
Local Notation nseinv := (nse_finvscatter junkm junk0 junk1 junk2).
Local Notation kdvinv := (kdv_finvscatter junkm junk0 junk1 junk2).

(** invalid arguments: error E_INVALID_ARGUMENT, the arrays are not written *)
Theorem nse_finvscatter_invalid deg tm q (eps_t : R) kappa d :
  deg = 0%nat \/ tm = None \/ q = None \/ (eps_t <= 0)%R \/ (kappa <> 1 /\ kappa <> -1)%Z \/ nse_degree d = 0%nat ->
  nseinv deg tm q eps_t kappa d = Ret (EC_INVALID_ARGUMENT, q, tm).
Proof.
  intros H. unfold nse_finvscatter, finv_args. destruct (Nat.eqb_spec deg 0); [reflexivity|].
  destruct tm as [tm|]; [|reflexivity]. destruct q as [q|]; [|reflexivity]. destruct (Rle_dec eps_t 0); [reflexivity|].
  destruct (Z.eqb_spec kappa 1), (Z.eqb_spec kappa (-1)); cbn [orb negb]; try reflexivity;
  (destruct H as [H|[H|[H|[H|[H|H]]]]]; [lia|discriminate|discriminate|lra|lia|]; unfold finvscatter; rewrite H; reflexivity).
Qed.
Theorem kdv_finvscatter_invalid deg tm q (eps_t : R) d :
  deg = 0%nat \/ tm = None \/ q = None \/ (eps_t <= 0)%R \/ kdv_degree d = 0%nat ->
  kdvinv deg tm q eps_t d = Ret (EC_INVALID_ARGUMENT, q, tm).
Proof.
  intros H. unfold kdv_finvscatter, finv_args. destruct (Nat.eqb_spec deg 0); [reflexivity|].
  destruct tm as [tm|]; [|reflexivity]. destruct q as [q|]; [|reflexivity]. destruct (Rle_dec eps_t 0); [reflexivity|]. cbn [negb].
  destruct H as [H|[H|[H|[H|H]]]]; [lia|discriminate|discriminate|lra|]. unfold finvscatter; rewrite H; reflexivity.
Qed.

Lemma not_pow2_spec D : (1 <= D)%nat -> not_pow2 D = false -> exists k, D = (2 ^ k)%nat.
Proof.
  intros HD H. unfold not_pow2 in H. apply Bool.negb_false_iff, Z.eqb_eq in H.
  exists (Nat.log2 D). pose proof (Nat.log2_spec D ltac:(lia)) as [L1 L2]. set (k := Nat.log2 D) in *.
  destruct (Nat.eq_dec D (2 ^ k)) as [E|N]; [exact E|exfalso].
  assert (T : Z.testbit (Z.land (Z.of_nat D) (Z.of_nat D - 1)) (Z.of_nat k) = true).
  { assert (P2 : (2 ^ Z.of_nat k)%Z = Z.of_nat (2 ^ k)) by (rewrite Nat2Z.inj_pow; reflexivity).
    assert (PS : (2 ^ Z.succ (Z.of_nat k))%Z = Z.of_nat (2 ^ S k)) by (rewrite Nat2Z.inj_pow; f_equal; lia).
    assert (HT : forall x, (2 ^ Z.of_nat k <= x < 2 ^ Z.succ (Z.of_nat k))%Z -> Z.testbit x (Z.of_nat k) = true).
    { intros x Hx. assert (Hl : Z.log2 x = Z.of_nat k) by (apply Z.log2_unique; lia). rewrite <- Hl. apply Z.bit_log2. pose proof (Z.pow_pos_nonneg 2 (Z.of_nat k)). lia. }
    rewrite Z.land_spec, !HT; [reflexivity|lia|lia]. }
  rewrite H, Z.bits_0 in T. discriminate T.
Qed.

(** the number of samples D = deg / degree must be a power of two, at least 2 *)
Theorem nse_finvscatter_size deg tm q (eps_t : R) kappa d :
  deg <> 0%nat -> (0 < eps_t)%R -> (kappa = 1 \/ kappa = -1)%Z -> nse_degree d <> 0%nat ->
  (forall k, (1 <= k)%nat -> (deg / nse_degree d <> 2 ^ k)%nat) ->
  nseinv deg (Some tm) (Some q) eps_t kappa d = Ret (EC_OTHER, Some q, Some tm).
Proof.
  intros Hdeg He Hk Hd H. unfold nse_finvscatter, finv_args. destruct (Nat.eqb_spec deg 0); [contradiction|]. destruct (Rle_dec eps_t 0); [lra|].
  replace (orb (Z.eqb kappa 1) (Z.eqb kappa (-1))) with true by (destruct Hk as [->| ->]; reflexivity). cbn [negb].
  unfold finvscatter. destruct (Nat.eqb_spec (nse_degree d) 0); [contradiction|].
  replace (orb _ _) with true; [reflexivity|]. symmetry. apply Bool.orb_true_iff.
  destruct (Nat.ltb_spec (deg / nse_degree d) 2) as [|H2]; [now left|]. right.
  destruct (not_pow2 (deg / nse_degree d)) eqn:E; [reflexivity|exfalso].
  destruct (not_pow2_spec (deg / nse_degree d) ltac:(lia) E) as (k & Ek). destruct k; [cbn in Ek; lia|]. exact (H (S k) ltac:(lia) Ek).
Qed.
End Err.

(** ** The descent to the first base case *)
Lemma descent qfr ret_r eps_t kd S j : forall i s f fuel, length (frames s) = S -> (i + j < S)%nat -> nth i (frames s) None = Some f -> f_pos f = 0%nat ->
  (j = 0 \/ 2 <= f_deg f / 2 ^ (j - 1))%nat ->
  exists s' f', run qfr ret_r eps_t kd (j + fuel) s (At i) = run qfr ret_r eps_t kd fuel s' (At (i + j)) /\
    length (frames s') = S /\ nth (i + j) (frames s') None = Some f' /\ f_pos f' = 0%nat /\ f_deg f' = (f_deg f / 2 ^ j)%nat /\
    fst (f_T f') = fst (f_T f) /\ f_Ts f' = f_Ts f /\ (snd (f_T f') + f_deg f' <= snd (f_T f) + f_deg f)%nat /\
    mm s' = mm s /\ qs s' = qs s /\
    f_Ti f' = (if (j =? 0)%nat then f_Ti f else Some (AT2i (i + j - 1), (f_deg f / 2 ^ (j - 1) / 2)%nat)) /\
    f_Tis f' = (if (j =? 0)%nat then f_Tis f else f_deg f / 2 ^ (j - 1) + 1)%nat.
Proof.
  induction j as [|j IH]; intros i s f fuel L Hi E P Hd.
  - exists s, f. rewrite Nat.add_0_r. cbn [Nat.pow Nat.add]. rewrite Nat.div_1_r. repeat (split; [solve [auto | lia | reflexivity]|]). reflexivity.
  - destruct Hd as [Hd|Hd]; [lia|]. replace (Datatypes.S j - 1)%nat with j in Hd by lia.
    assert (Hp : (1 <= 2 ^ j)%nat) by (pose proof (Nat.pow_nonzero 2 j); lia).
    assert (Hf2 : (2 <= f_deg f)%nat) by (apply Nat.le_trans with (f_deg f / 2 ^ j)%nat; [exact Hd|]; apply Nat.div_le_upper_bound; nia).
    cbn [Nat.add run]. unfold pass. rewrite (aget_nth (frames s) None) by lia. cbn [bind]. rewrite E, P. cbn [Nat.eqb].
    destruct (Nat.ltb_spec 1 (f_deg f)); [|lia]. unfold step1, push. rewrite aset_upd by lia. cbn [bind]. rewrite aset_upd by (rewrite upd_length; lia). cbn [bind fst snd].
    set (s1 := mkmach _ _ _ _ _ _ _ _).
    set (f1 := mkframe (f_deg f / 2) _ _ _ _ _ _) in *.
    destruct (IH (i + 1)%nat s1 f1 fuel) as (s' & f' & Er & L' & E' & P' & D' & T' & Ts' & Tb' & M' & Q' & I' & J').
    + unfold s1. cbn [frames]. rewrite !upd_length. exact L.
    + lia.
    + unfold s1. cbn [frames]. rewrite !nth_upd by (rewrite ?upd_length; lia). rewrite Nat.eqb_refl. destruct (Nat.eqb_spec (i + 1) i); [lia|reflexivity].
    + reflexivity.
    + destruct j; [now left|right]. unfold f1. cbn [f_deg]. rewrite Nat.div_div by (try lia; apply Nat.pow_nonzero; lia).
      replace (Datatypes.S j - 1)%nat with j by lia. rewrite <- Nat.pow_succ_r'. exact Hd.
    + exists s', f'. rewrite Er. replace (i + 1 + j)%nat with (i + Datatypes.S j)%nat in * by lia.
      assert (D2 : (f_deg f' = f_deg f / 2 ^ Datatypes.S j)%nat).
      { rewrite D'. unfold f1. cbn [f_deg]. rewrite Nat.div_div by (try lia; apply Nat.pow_nonzero; lia). now rewrite <- Nat.pow_succ_r'. }
      refine (conj eq_refl (conj L' (conj E' (conj P' (conj D2 (conj T' (conj Ts' (conj _ (conj M' (conj Q' (conj _ _))))))))))).
      * unfold f1 in Tb'. cbn [f_T f_deg snd] in Tb'. pose proof (Nat.div_mod (f_deg f) 2 ltac:(lia)). lia.
      * rewrite I'. cbn [Nat.eqb]. replace (Datatypes.S j - 1)%nat with j by lia. unfold f1. cbn [f_Ti f_deg]. destruct j as [|j]; cbn [Nat.eqb].
        -- cbn [Nat.pow]. rewrite Nat.div_1_r. apply f_equal, (f_equal2 pair); [apply f_equal; lia|reflexivity].
        -- replace (Datatypes.S j - 1)%nat with j by lia. rewrite (Nat.div_div (f_deg f) 2) by (try lia; apply Nat.pow_nonzero; lia). rewrite <- Nat.pow_succ_r'. apply f_equal, (f_equal2 pair); [apply f_equal; lia|reflexivity].
      * rewrite J'. cbn [Nat.eqb]. replace (Datatypes.S j - 1)%nat with j by lia. unfold f1. cbn [f_Tis f_deg]. destruct j as [|j]; cbn [Nat.eqb].
        -- cbn [Nat.pow]. now rewrite Nat.div_1_r.
        -- replace (Datatypes.S j - 1)%nat with j by lia. rewrite (Nat.div_div (f_deg f) 2) by (try lia; apply Nat.pow_nonzero; lia). now rewrite <- Nat.pow_succ_r'.
Qed.

Lemma plans_any cnt : forall l deg, exists pl, plans cnt l deg = Ret pl.
Proof.
  induction cnt as [|cnt IH]; intros l deg; cbn [plans]; [now exists []|].
  destruct (two_polys_len_spec (level_deg deg l)) as (n & E & _). rewrite E. cbn [bind].
  destruct (IH (S l) deg) as (pl & Ep). rewrite Ep. cbn [bind]. eexists. reflexivity.
Qed.

Section Unsupported.
Variables (junkm : arr -> nat -> list C) (junk0 junk1 junk2 : nat -> list C).
Local Notation nseinv := (nse_finvscatter junkm junk0 junk1 junk2).
Local Notation kdvinv := (kdv_finvscatter junkm junk0 junk1 junk2).

(** the routine up to the start of the loop *)
Lemma start qfr ret_r transpose kd degree K (tm q : list C) eps_t : (1 <= K)%nat -> degree <> 0%nat -> (4 * (degree * 2 ^ K + 1) <= length tm)%nat ->
  exists tm1 pl b0 b1 b2, length tm1 = length tm /\
   finvscatter junkm junk0 junk1 junk2 qfr ret_r transpose kd degree (degree * 2 ^ K) tm q eps_t =
   (x <- run qfr ret_r eps_t kd (4 * (degree * 2 ^ K)) (mkmach (Some (mkframe (degree * 2 ^ K) (TM, 0%nat) (degree * 2 ^ K + 1) None 0 0 0) :: repeat None K) pl
        (init_mem junkm (degree * 2 ^ K) tm1) q b0 b1 b2 None) (At 0) ;;
    let '(s, code) := x in
    if negb (Z.eqb code SUCCESS) then c <- E_SUBROUTINE code ;; Ret (c, qs s, mm s TM) else
    q <- (if transpose then reverse_q (2 ^ K) (qs s) else Ret (qs s)) ;; Ret (SUCCESS, q, mm s TM)).
Proof.
  intros HK Hd L. unfold finvscatter. destruct (Nat.eqb_spec degree 0); [contradiction|].
  replace (degree * 2 ^ K / degree)%nat with (2 ^ K)%nat by (rewrite Nat.mul_comm, Nat.div_mul by exact Hd; reflexivity).
  assert (H2 : (2 <= 2 ^ K)%nat) by (replace 2%nat with (2 ^ 1)%nat at 1 by reflexivity; apply Nat.pow_le_mono_r; lia).
  replace (orb (2 ^ K <? 2)%nat (not_pow2 (2 ^ K))) with false.
  2: { symmetry. rewrite not_pow2_pow. destruct (Nat.ltb_spec (2 ^ K) 2); [lia|reflexivity]. }
  assert (HT : exists tm1, (if transpose then transpose_tm (degree * 2 ^ K) tm else Ret tm) = Ret tm1 /\ length tm1 = length tm).
  { destruct transpose; [|now exists tm]. destruct (transpose_ok (degree * 2 ^ K) tm L) as (tm1 & E & L1 & _). now exists tm1. }
  destruct HT as (tm1 & E1 & L1). 
  destruct (two_polys_len_spec (degree * 2 ^ K)) as (n1 & En & _).
  destruct (plans_any (Nat.log2 (2 ^ K) + 1) 0 (degree * 2 ^ K)) as (pl & Ep).
  exists tm1, pl, (junk0 n1), (junk1 n1), (junk2 n1). split; [exact L1|].
  rewrite E1. cbn [bind]. rewrite En. cbn [bind]. rewrite Ep. cbn [bind]. rewrite Nat.log2_pow2 by lia. replace (K + 1 - 1)%nat with K by lia. reflexivity.
Qed.

(** every discretization of degree 2 or more: the stack is too small by at least one element and the routine
   writes behind it, for every number of samples *)
Lemma higher_degree qfr ret_r transpose kd degree K (tm q : list C) eps_t : (1 <= K)%nat -> (2 <= degree)%nat -> (4 * (degree * 2 ^ K + 1) <= length tm)%nat ->
  finvscatter junkm junk0 junk1 junk2 qfr ret_r transpose kd degree (degree * 2 ^ K) tm q eps_t = UB.
Proof.
  intros HK Hd L. destruct (start qfr ret_r transpose kd degree K tm q eps_t HK ltac:(lia) L) as (tm1 & pl & b0 & b1 & b2 & L1 & E).
  rewrite E. set (f0 := mkframe (degree * 2 ^ K) _ _ _ _ _ _). set (s0 := mkmach _ _ _ _ _ _ _ _).
  assert (HP : (1 <= 2 ^ K)%nat) by (pose proof (Nat.pow_nonzero 2 K); lia).
  assert (HKle : (K < 2 ^ K)%nat) by (apply Nat.pow_gt_lin_r; lia).
  replace (4 * (degree * 2 ^ K))%nat with (K + S (4 * (degree * 2 ^ K) - K - 1))%nat by nia.
  destruct (descent qfr ret_r eps_t kd (S K) K 0 s0 f0 (S (4 * (degree * 2 ^ K) - K - 1))) as (s' & f' & Er & L' & E' & P' & D' & _).
  - unfold s0. cbn [frames length]. now rewrite repeat_length.
  - lia.
  - reflexivity.
  - reflexivity.
  - right. unfold f0. cbn [f_deg]. replace K with (K - 1 + 1)%nat at 1 by lia. rewrite Nat.pow_add_r, Nat.mul_assoc.
    replace (degree * 2 ^ (K - 1) * 2 ^ 1)%nat with (degree * 2 * 2 ^ (K - 1))%nat by (cbn; lia). rewrite Nat.div_mul by (apply Nat.pow_nonzero; lia). lia.
  - rewrite Er. cbn [run]. unfold pass. rewrite (aget_nth (frames s') None) by lia. cbn [bind]. rewrite E', P'. cbn [Nat.eqb].
    unfold f0 in D'. cbn [f_deg] in D'. rewrite Nat.div_mul in D' by lia. rewrite D'. destruct (Nat.ltb_spec 1 degree); [|lia].
    unfold step1, push. rewrite aset_UB by lia. reflexivity.
Qed.
Theorem nse_finvscatter_higher_degree_refuted K (tm q : list C) (eps_t : R) kappa d : (1 <= K)%nat -> (2 <= nse_degree d)%nat ->
  (0 < eps_t)%R -> (kappa = 1 \/ kappa = -1)%Z -> (4 * (nse_degree d * 2 ^ K + 1) <= length tm)%nat ->
  nseinv (nse_degree d * 2 ^ K) (Some tm) (Some q) eps_t kappa d = UB.
Proof.
  intros HK Hd He Hk L. unfold nse_finvscatter, finv_args. destruct (Nat.eqb_spec (nse_degree d * 2 ^ K) 0) as [Z|_]; [pose proof (Nat.pow_nonzero 2 K); nia|].
  destruct (Rle_dec eps_t 0); [lra|]. replace (orb (Z.eqb kappa 1) (Z.eqb kappa (-1))) with true by (destruct Hk as [->| ->]; reflexivity). cbn [negb].
  now rewrite higher_degree.
Qed.
Theorem kdv_finvscatter_higher_degree_refuted K (tm q : list C) (eps_t : R) d : (1 <= K)%nat -> (2 <= kdv_degree d)%nat ->
  (0 < eps_t)%R -> (4 * (kdv_degree d * 2 ^ K + 1) <= length tm)%nat ->
  kdvinv (kdv_degree d * 2 ^ K) (Some tm) (Some q) eps_t d = UB.
Proof.
  intros HK Hd He L. unfold kdv_finvscatter, finv_args. destruct (Nat.eqb_spec (kdv_degree d * 2 ^ K) 0) as [Z|_]; [pose proof (Nat.pow_nonzero 2 K); nia|].
  destruct (Rle_dec eps_t 0); [lra|]. cbn [negb]. now rewrite higher_degree.
Qed.

(** the other discretizations of degree 1 are rejected (code -2), or a division by zero is reported (-3); no sample is written *)
Lemma degree_one_unsupported qfr ret_r transpose K (tm q : list C) eps_t : (1 <= K)%nat -> (4 * (2 ^ K + 1) <= length tm)%nat ->
  exists code tm', finvscatter junkm junk0 junk1 junk2 qfr ret_r transpose KOther 1 (2 ^ K) tm q eps_t = Ret (code, q, tm') /\ (code = -2 \/ code = -3)%Z.
Proof.
  intros HK L. destruct (start qfr ret_r transpose KOther 1 K tm q eps_t HK ltac:(lia) ltac:(lia)) as (tm1 & pl & b0 & b1 & b2 & L1 & E).
  rewrite Nat.mul_1_l in E. rewrite E. set (f0 := mkframe (2 ^ K) _ _ _ _ _ _). set (s0 := mkmach _ _ _ _ _ _ _ _).
  assert (HP : (1 <= 2 ^ K)%nat) by (pose proof (Nat.pow_nonzero 2 K); lia).
  assert (HKle : (K < 2 ^ K)%nat) by (apply Nat.pow_gt_lin_r; lia).
  replace (4 * 2 ^ K)%nat with (K + S (4 * 2 ^ K - K - 1))%nat by lia.
  assert (E2 : (2 ^ K / 2 ^ (K - 1) = 2)%nat).
  { replace K with (1 + (K - 1))%nat at 1 by lia. rewrite Nat.pow_add_r. apply Nat.div_mul. apply Nat.pow_nonzero. lia. }
  destruct (descent qfr ret_r eps_t KOther (S K) K 0 s0 f0 (S (4 * 2 ^ K - K - 1))) as (s' & f' & Er & L' & E' & P' & D' & T' & Ts' & Tb' & M' & Q' & I' & J').
  - unfold s0. cbn [frames length]. now rewrite repeat_length.
  - lia.
  - reflexivity.
  - reflexivity.
  - right. unfold f0. cbn [f_deg]. rewrite E2. lia.
  - rewrite Er. cbn [run]. unfold pass. rewrite (aget_nth (frames s') None) by lia. cbn [bind]. rewrite E', P'. cbn [Nat.eqb].
    unfold f0 in D', T', Ts', Tb', I', J'. cbn [f_deg f_T f_Ts f_Ti f_Tis fst snd] in D', T', Ts', Tb', I', J'. rewrite Nat.div_same in D' by lia.
    destruct (Nat.eqb_spec K 0); [lia|]. rewrite E2 in I', J'. change (2 / 2)%nat with 1%nat in I'.
    rewrite D'. cbn [Nat.ltb Nat.leb Nat.eqb]. unfold base_case. destruct (f_T f') as [ta to] eqn:ET. cbn [fst snd] in T', Tb'. subst ta. rewrite M'.
    change (mm s0 TM) with tm1. rewrite Ts', I', J'.
    rewrite (aget_nth tm1 (RtoC 0)) by lia. cbn [bind]. rewrite (aget_nth tm1 (RtoC 0)) by lia. cbn [bind].
    destruct (Ceq_dec _ 0).
    + cbn [bind fst snd run]. exists (-3)%Z, tm1. split; [|now right]. destruct (4 * 2 ^ K - K - 1)%nat; cbn [run bind]; rewrite Q', M'; reflexivity.
    + set (t := mm s0 (AT2i (0 + K - 1))). assert (Lt : length t = 12%nat).
      { unfold t, s0. cbn [mm]. unfold init_mem. rewrite repeat_length. rewrite level_pow by lia. replace (K - (0 + K - 1))%nat with 1%nat by lia. reflexivity. }
      match goal with |- context [wr t 1 [?a; ?b]] => destruct (wr_ok t 1 [a; b] (RtoC 0)) as (t1 & Et1 & Lt1 & _); [cbn [length]; lia|]; rewrite Et1; cbn [bind] end.
      match goal with |- context [wr t1 ?o [?a; ?b]] => destruct (wr_ok t1 o [a; b] (RtoC 0)) as (t2 & Et2 & Lt2 & _); [cbn [length]; lia|]; rewrite Et2; cbn [bind] end.
      match goal with |- context [wr t2 ?o [?a; ?b]] => destruct (wr_ok t2 o [a; b] (RtoC 0)) as (t3 & Et3 & Lt3 & _); [cbn [length]; lia|]; rewrite Et3; cbn [bind] end.
      match goal with |- context [wr t3 ?o [?a; ?b]] => destruct (wr_ok t3 o [a; b] (RtoC 0)) as (t4 & Et4 & Lt4 & _); [cbn [length]; lia|]; rewrite Et4; cbn [bind] end.
      cbn [recover fst snd]. exists (-2)%Z, tm1. split; [|now left]. destruct (4 * 2 ^ K - K - 1)%nat; cbn [run bind qs mm]; rewrite Q'; reflexivity.
Qed.
Theorem nse_finvscatter_unsupported K (tm q : list C) (eps_t : R) kappa d : (1 <= K)%nat -> nse_degree d = 1%nat -> d <> N_2SPLIT2_MODAL -> d <> N_2SPLIT2A ->
  (0 < eps_t)%R -> (kappa = 1 \/ kappa = -1)%Z -> (4 * (2 ^ K + 1) <= length tm)%nat ->
  exists code tm', nseinv (2 ^ K) (Some tm) (Some q) eps_t kappa d = Ret (code, Some q, Some tm') /\ (code = -2 \/ code = -3)%Z.
Proof.
  intros HK Hd N1 N2 He Hk L. unfold nse_finvscatter, finv_args. destruct (Nat.eqb_spec (2 ^ K) 0) as [Z|_]; [pose proof (Nat.pow_nonzero 2 K); lia|].
  destruct (Rle_dec eps_t 0); [lra|]. replace (orb (Z.eqb kappa 1) (Z.eqb kappa (-1))) with true by (destruct Hk as [->| ->]; reflexivity). cbn [negb]. rewrite Hd.
  replace (nse_kind d) with KOther by (destruct d; (reflexivity || contradiction)).
  destruct (degree_one_unsupported (fun R => - RtoC (IZR kappa) * Cconj R) false false K tm q eps_t HK L) as (code & tm' & E & H). rewrite E.
  exists code, tm'. now split.
Qed.
End Unsupported.

(** ** Concrete cases *)
(** which discretizations the last theorems are about *)
Example ex_degrees : nse_degree N_2SPLIT1A = 1%nat /\ nse_degree N_2SPLIT4B = 2%nat /\ nse_degree N_2SPLIT3A = 3%nat /\ kdv_degree K_2SPLIT4B = 2%nat.
Proof. repeat split; reflexivity. Qed.
(** four samples, focusing and defocusing; the numel of the forward routine is 32 *)
Definition ex_j : arr -> nat -> list C := fun _ n => repeat Ci n.
Example ex_roundtrip_modal (kappa : Z) : (kappa = 1 \/ kappa = -1)%Z -> exists tm W,
  nse_fscatter (fun _ => 3%Z) (repeat (RtoC 0)) (repeat (RtoC 0)) (repeat (RtoC 0)) (repeat Ci) true 4 (Some [RtoC 1; Ci; RtoC 0; - (2)])
     (Some (map (fun x => - RtoC (IZR kappa) * Cconj x) [RtoC 1; Ci; RtoC 0; - (2)])) (1/4) (Some (repeat (RtoC 7) 32)) true N_2SPLIT2_MODAL
    = Ret (SUCCESS, Some 4%nat, Some tm, W) /\
  nse_finvscatter ex_j (repeat (RtoC 0)) (repeat (RtoC 0)) (repeat (RtoC 0)) 4 (Some tm) (Some (repeat (RtoC 0) 4)) (1/4) kappa N_2SPLIT2_MODAL
    = Ret (SUCCESS, Some [RtoC 1; Ci; RtoC 0; - (2)], Some tm).
Proof.
  intros Hk. assert (L : forall x n, length (repeat (x : C) n) = n) by (intros; apply repeat_length).
  refine (nse_roundtrip_modal ex_j _ _ _ (fun _ n => L Ci n) (L (RtoC 0)) (L (RtoC 0)) (L (RtoC 0)) (fun _ => 3%Z) _ _ _ _
    (L (RtoC 0)) (L (RtoC 0)) (L (RtoC 0)) (L Ci) 2 true (1/4) kappa [RtoC 1; Ci; RtoC 0; - (2)] (repeat (RtoC 7) 32) (repeat (RtoC 0) 4) 32 _ _ _ Hk _ _ _ _ _);
    try lra; try (rewrite ?repeat_length; cbn [length Nat.pow Nat.mul Nat.add]; lia); try (cbn; lia); try reflexivity.
  assert (HC : forall x : C, (Cmod x * Cmod x < 16)%R -> (1 + IZR kappa * (1 / 4 * Cmod x) ^ 2 <> 0)%R).
  { intros x Hx E. pose proof (Cmod_ge_0 x). destruct Hk as [->| ->]; nra. }
  intros [|[|[|[|n]]]] Hn; try (cbn in Hn; lia); cbn [nth]; apply HC; rewrite Cmod_sq; cbn; lra.
Qed.
Example ex_roundtrip_2A : exists tm W,
  nse_fscatter (fun _ => 3%Z) (repeat (RtoC 0)) (repeat (RtoC 0)) (repeat (RtoC 0)) (repeat Ci) false 4 (Some [RtoC 1; Ci; RtoC 0; - (2)])
     (Some (map (fun x => - Cconj x) [RtoC 1; Ci; RtoC 0; - (2)])) (1/4) (Some (repeat (RtoC 7) 32)) true N_2SPLIT2A
    = Ret (SUCCESS, Some 4%nat, Some tm, W) /\
  nse_finvscatter ex_j (repeat (RtoC 0)) (repeat (RtoC 0)) (repeat (RtoC 0)) 4 (Some tm) (Some (repeat (RtoC 0) 4)) (1/4) 1 N_2SPLIT2A
    = Ret (SUCCESS, Some [RtoC 1; Ci; RtoC 0; - (2)], Some tm).
Proof.
  assert (L : forall x n, length (repeat (x : C) n) = n) by (intros; apply repeat_length).
  refine (nse_roundtrip_2A ex_j _ _ _ (fun _ n => L Ci n) (L (RtoC 0)) (L (RtoC 0)) (L (RtoC 0)) (fun _ => 3%Z) _ _ _ _
    (L (RtoC 0)) (L (RtoC 0)) (L (RtoC 0)) (L Ci) 2 false (1/4) [RtoC 1; Ci; RtoC 0; - (2)] (repeat (RtoC 7) 32) (repeat (RtoC 0) 4) 32 _ _ _ _ _ _ _ _);
    try lra; try (rewrite ?repeat_length; cbn [length Nat.pow Nat.mul Nat.add]; lia); try (cbn; lia); try reflexivity.
  assert (HC : forall x : C, (1 <= Cmod x * Cmod x <= 4)%R -> (1 / 100000000 <= 1 / 4 * Cmod x < PI / 2)%R).
  { intros x Hx. pose proof (Cmod_ge_0 x). pose proof PI2_1. assert (1 <= Cmod x <= 2)%R by nra. lra. }
  intros [|[|[|[|n]]]] Hn; try (cbn in Hn; lia); cbn [nth]; [right|right|left; reflexivity|right]; apply HC; rewrite Cmod_sq; cbn; lra.
Qed.
Example ex_roundtrip_kdv : exists tm tm' W,
  kdv_fscatter (fun _ => 3%Z) (repeat (RtoC 0)) (repeat (RtoC 0)) (repeat (RtoC 0)) (repeat Ci) false 4 (Some (repeat (- (1)) 4)) (Some [RtoC 1; Ci; RtoC 0; - (2)])
     (1/4) (Some (repeat (RtoC 7) 32)) true K_2SPLIT2_MODAL = Ret (SUCCESS, Some 4%nat, Some tm, W) /\
  kdv_finvscatter ex_j (repeat (RtoC 0)) (repeat (RtoC 0)) (repeat (RtoC 0)) 4 (Some tm) (Some (repeat (RtoC 0) 4)) (1/4) K_2SPLIT2_MODAL
    = Ret (SUCCESS, Some [RtoC 1; Ci; RtoC 0; - (2)], Some tm').
Proof.
  assert (L : forall x n, length (repeat (x : C) n) = n) by (intros; apply repeat_length).
  refine (kdv_roundtrip_modal ex_j _ _ _ (fun _ n => L Ci n) (L (RtoC 0)) (L (RtoC 0)) (L (RtoC 0)) (fun _ => 3%Z) _ _ _ _
    (L (RtoC 0)) (L (RtoC 0)) (L (RtoC 0)) (L Ci) 2 false (1/4) [RtoC 1; Ci; RtoC 0; - (2)] (repeat (RtoC 7) 32) (repeat (RtoC 0) 4) 32 _ _ _ _ _ _ _ _);
    try lra; try (rewrite ?repeat_length; cbn [length Nat.pow Nat.mul Nat.add]; lia); try (cbn; lia); try reflexivity.
  intros [|[|[|[|n]]]] Hn; try (cbn in Hn; lia); cbn [nth]; intros E; apply (f_equal fst) in E; cbn in E; lra.
Qed.
(** a product of defocusing 2SPLIT2A samples that meets the hypotheses of the refutation: the stored polynomials of the forward routine *)
Example ex_defocusing : exists tm W q', 
  nse_fscatter (fun _ => 3%Z) (repeat (RtoC 0)) (repeat (RtoC 0)) (repeat (RtoC 0)) (repeat Ci) false 2 (Some [RtoC 1; RtoC 0]) (Some [RtoC 1; RtoC 0])
     (1/4) (Some (repeat (RtoC 7) 16)) true N_2SPLIT2A = Ret (SUCCESS, Some 2%nat, Some tm, W) /\
  nse_finvscatter ex_j (repeat (RtoC 0)) (repeat (RtoC 0)) (repeat (RtoC 0)) 2 (Some tm) (Some (repeat (RtoC 0) 2)) (1/4) (-1) N_2SPLIT2A
    = Ret (SUCCESS, Some q', Some tm) /\ (Cmod (nth 0 q' (RtoC 0)) < 1)%R.
Proof.
  assert (L : forall x n, length (repeat (x : C) n) = n) by (intros; apply repeat_length).
  assert (HS : forall n, (n < 2)%nat -> sinc_ok (RtoC (1/4) * Csqrt (- nth n [RtoC 1; RtoC 0] (RtoC 0) * nth n [RtoC 1; RtoC 0] (RtoC 0)))).
  { intros [|[|n]] Hn; [| |lia]; cbn [nth].
    - right. rewrite Cmod_mult, Cmod_R, Rabs_pos_eq by lra.
      set (y := Csqrt (- (1) * 1)). assert (E : (Cmod y * Cmod y = 1)%R).
      { unfold y. rewrite <- Cmod_mult, Csqrt_sqr. replace (- (1) * 1) with (RtoC (-1)) by (apply Ceq; cbn; ring). rewrite Cmod_R, Rabs_left; lra. }
      pose proof (Cmod_ge_0 y). set (x := Cmod y) in *. clearbody x. destruct (Rle_lt_dec (1/2) x); [lra|nra].
    - left. replace (- 0 * 0) with (RtoC 0) by ring. unfold Csqrt. destruct (Ceq_dec 0 0); [ring|congruence]. }
  destruct (forward ex_j _ _ _ (fun _ n => L Ci n) (L (RtoC 0)) (L (RtoC 0)) (L (RtoC 0)) (fun _ => 3%Z) _ _ _ _ (L (RtoC 0)) (L (RtoC 0)) (L (RtoC 0)) (L Ci) A_2SPLIT2A 2 false [RtoC 1; RtoC 0] [RtoC 1; RtoC 0] (repeat (RtoC 7) 16) (1/4) 16
     (fun i => split2A_lists (1/4) (nth i [RtoC 1; RtoC 0] (RtoC 0)) (nth i [RtoC 1; RtoC 0] (RtoC 0)))
     (split2A_sample (1/4) (fun n => nth n [RtoC 1; RtoC 0] (RtoC 0)) (fun n => nth n [RtoC 1; RtoC 0] (RtoC 0)))) as (tm & W & E & HP);
   try reflexivity; try lra; try (cbn [length]; lia).
  { intros i z Hi. apply (split2A_value _ _ _ z (HS i Hi)). }
  exists tm, W.
  assert (HP' : holds_product tm (2 ^ 1) (zpow (K := CF) (RtoC 2) W) (split2A_sample (1/4) (fun n => nth n [RtoC 1; RtoC 0] (RtoC 0)) (fun n => Cconj (nth n [RtoC 1; RtoC 0] (RtoC 0))))).
  { revert HP. apply holds_ext. intros z [|[|n]] Hn; [| |lia]; unfold split2A_sample; cbn [nth]; f_equal; f_equal; apply Ceq; cbn; ring. }
  destruct (nse_finvscatter_2A_defocusing_refuted ex_j _ _ _ (fun _ n => L Ci n) (L (RtoC 0)) (L (RtoC 0)) (L (RtoC 0)) 1 (1/4) (fun n => nth n [RtoC 1; RtoC 0] (RtoC 0)) tm (repeat (RtoC 0) 2)
    (zpow (K := CF) (RtoC 2) W) ltac:(lia) ltac:(lra) (zpow2_neq0 W) ltac:(rewrite repeat_length; cbn; lia) HP') as (q' & E' & H').
  exists q'. split; [|split; [exact E'|]].
  - refine (nse_fscatter_is_akns (fun _ => 3%Z) _ _ _ _ (L (RtoC 0)) (L (RtoC 0)) (L (RtoC 0)) (L Ci) false 2 _ _ _ (1/4) N_2SPLIT2A A_2SPLIT2A _ _ _ _ _ eq_refl E); [lia|lra].
  - destruct (H' 0%nat ltac:(cbn; lia)) as [_ Hlt]. { cbn [nth]. intros Z. injection Z as Z. lra. } cbn [nth] in Hlt. rewrite Cmod_1 in Hlt. exact Hlt.
Qed.
Print Assumptions nse_finvscatter_modal.
Print Assumptions nse_finvscatter_2A_focusing.
Print Assumptions nse_finvscatter_2A_defocusing_refuted.
Print Assumptions kdv_finvscatter_modal.
Print Assumptions nse_roundtrip_modal.
Print Assumptions nse_roundtrip_2A.
Print Assumptions kdv_roundtrip_modal.
Print Assumptions nse_finvscatter_invalid.
Print Assumptions kdv_finvscatter_invalid.
Print Assumptions nse_finvscatter_size.
Print Assumptions nse_finvscatter_unsupported.
Print Assumptions nse_finvscatter_higher_degree_refuted.
Print Assumptions kdv_finvscatter_higher_degree_refuted.
