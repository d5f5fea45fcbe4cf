(** * C42: forward and inverse fast scattering are inverse to each other; errors; what is not supported *)
From Coq Require Import Reals ZArith List Lia Lra.
From Coquelicot Require Import Coquelicot.
From Verif Require Import Base Mem Loop Series Fields CField CConj MatSpec PolySpec ErrModel CExp KissModel PolyFmultModel PolyFmultTree PolyFmultProof DiscTables FscatterTab FscatterAlg FscatterModel FscatterSpec FscatterProof FscatterProps PolyFmultProps MiscNumModel FinvModel FinvRun FinvTop FinvProof FinvProps.
Import ListNotations.
Local Open Scope C_scope.

Lemma zpow2_neq0 W : zpow (K := CF) (RtoC 2) W <> RtoC 0.
Proof.
  assert (H2 : RtoC 2 <> RtoC 0) by (intros E; injection E as E; lra).
  intros E. pose proof (zpow_add (K := CF) (RtoC 2) W (- W) H2) as HA. rewrite Z.add_opp_diag_r in HA. cbn [zpow] in HA.
  change (f1 (c := CF)) with (RtoC 1) in HA. change (fmul (c := CF)) with Cmult in HA. rewrite E, Cmult_0_l in HA. injection HA as HA. lra.
Qed.
Lemma modal_value (h : R) (q r : C) z : 1 - RtoC h * q * (RtoC h * r) <> 0 ->
  exists ls, akns_sample A_2SPLIT2_MODAL h q r = Some (Some ls) /\ 
    poly_mat ls z = modal_sample h (fun _ => q) (fun _ => r) z 0.
Proof.
  intros N. unfold akns_sample, step_MODAL. destruct (Ceq_dec (Csqrt (1 - RtoC h * q * (RtoC h * r))) 0) as [Z|_].
  { exfalso. apply N. rewrite <- (Csqrt_sqr (1 - _)), Z. ring. }
  eexists. split; [reflexivity|]. rewrite poly_mat_hmat. cbn [hmat]. unfold hor. cbn [fold_left].
  unfold modal_sample. apply mat2_eq; cbn [mmul mscal a11 a12 a21 a22]; ring.
Qed.
Definition modal_lists (h : R) (q r : C) : list C * list C * list C * list C :=
  match akns_sample A_2SPLIT2_MODAL h q r with Some (Some ls) => ls | _ => ([], [], [], []) end.
Definition split2A_lists (h : R) (q r : C) : list C * list C * list C * list C :=
  match akns_sample A_2SPLIT2A h q r with Some (Some ls) => ls | _ => ([], [], [], []) end.
Lemma split2A_value (h : R) (q r : C) z : sinc_ok (RtoC h * Csqrt (- q * r)) ->
  akns_sample A_2SPLIT2A h q r = Some (Some (split2A_lists h q r)) /\
    poly_mat (split2A_lists h q r) z = split2A_sample h (fun _ => q) (fun _ => r) z 0.
Proof.
  intros Hs. unfold split2A_lists. cbn [akns_sample akns_step]. split; [reflexivity|].
  rewrite poly_mat_hmat. unfold step_2SPLIT1B. cbn [hmat]. unfold hor. cbn [fold_left].
  change (INR (akns_degree A_2SPLIT2A)) with 1%R. replace (1 * h / 1)%R with h by field.
  unfold split2A_sample. rewrite <- zfsm_exp by exact Hs. unfold m3mat.
  apply mat2_eq; cbn [mmul a11 a12 a21 a22]; ring.
Qed.

Section Round.
Variables (junkm : arr -> nat -> list C) (junk0 junk1 junk2 : nat -> list C).
Hypothesis Hjm : forall a n, length (junkm a n) = n.
Hypothesis Hj0 : forall n, length (junk0 n) = n.
Hypothesis Hj1 : forall n, length (junk1 n) = n.
Hypothesis Hj2 : forall n, length (junk2 n) = n.
Local Notation nseinv := (nse_finvscatter junkm junk0 junk1 junk2).
Local Notation kdvinv := (kdv_finvscatter junkm junk0 junk1 junk2).
Variable expo : list C -> Z.
Variables jf0 jf1 jf2 jfp : nat -> list C.
Hypothesis Hf0 : forall l, length (jf0 l) = l.
Hypothesis Hf1 : forall l, length (jf1 l) = l.
Hypothesis Hf2 : forall l, length (jf2 l) = l.
Hypothesis Hfp : forall l, length (jfp l) = l.

Lemma forward d (D : nat) normalize (q r res : list C) (eps_t : R) numel (M : nat -> list C * list C * list C * list C) S :
  akns_degree d = 1%nat ->
  (2 <= D)%nat -> (Z.of_nat D <= 2147483647)%Z -> (0 < eps_t)%R ->
  (D <= length q)%nat -> (D <= length r)%nat -> akns_fscatter_numel D d = Ret numel -> (numel <= length res)%nat ->
  (forall i, (i < D)%nat -> akns_sample d eps_t (nth i q (RtoC 0)) (nth i r (RtoC 0)) = Some (Some (M i))) ->
  (forall i z, (i < D)%nat -> poly_mat (M i) z = S z i) ->
  exists tm W, akns_fscatter expo jf0 jf1 jf2 jfp normalize D (Some q) (Some r) eps_t (Some res) true d = Ret (SUCCESS, Some D, Some tm, W) /\
    holds_product tm D (zpow (K := CF) (RtoC 2) W) S.
Proof.
  intros Hd HD HD2 He Lq Lr Hn Lres HM HS.
  destruct (akns_fscatter_product expo jf0 jf1 jf2 jfp Hf0 Hf1 Hf2 Hfp normalize D q r res eps_t d numel M HD HD2 He ltac:(lia) Lq Lr Hn Lres HM)
    as (tm & W & E & Lt & _ & HP).
  rewrite Hd, Nat.mul_1_r in *. exists tm, W. split; [exact E|]. split.
  - unfold akns_fscatter_numel in Hn. rewrite Hd in Hn. cbn [Nat.eqb] in Hn.
    destruct (poly_fmult_numel_value 4 1 D ltac:(lia) ltac:(lia)) as (k & Ek & Hk & _).
    assert (numel = (4 * (1 + 1) * 2 ^ k)%nat) by congruence. rewrite Lt. nia.
  - intros z i j Hi Hj. rewrite HP by assumption. f_equal. apply desc_ext. intros k Hk. now apply HS.
Qed.

(** NSE, 2SPLIT2_MODAL: nse_fscatter followed by nse_finvscatter *)
Theorem nse_roundtrip_modal K normalize (eps_t : R) (kappa : Z) (q res q0 : list C) numel :
  (1 <= K)%nat -> (Z.of_nat (2 ^ K) <= 2147483647)%Z -> (0 < eps_t)%R -> (kappa = 1 \/ kappa = -1)%Z ->
  length q = (2 ^ K)%nat -> length q0 = (2 ^ K)%nat -> akns_fscatter_numel (2 ^ K) A_2SPLIT2_MODAL = Ret numel -> (numel <= length res)%nat ->
  (forall n, (n < 2 ^ K)%nat -> (1 + IZR kappa * (eps_t * Cmod (nth n q (RtoC 0))) ^ 2 <> 0)%R) ->
  exists tm W, 
    nse_fscatter expo jf0 jf1 jf2 jfp normalize (2 ^ K) (Some q) (Some (map (fun x => - RtoC (IZR kappa) * Cconj x) q)) eps_t (Some res) true N_2SPLIT2_MODAL
      = Ret (SUCCESS, Some (2 ^ K)%nat, Some tm, W) /\
    nseinv (2 ^ K) (Some tm) (Some q0) eps_t kappa N_2SPLIT2_MODAL = Ret (SUCCESS, Some q, Some tm).
Proof.
  intros HK HD2 He Hk Lq Lq0 Hn Lres Hden.
  assert (H2 : (2 <= 2 ^ K)%nat) by (replace 2%nat with (2 ^ 1)%nat at 1 by reflexivity; apply Nat.pow_le_mono_r; lia).
  set (r := map _ q). assert (Lr : length r = (2 ^ K)%nat) by (unfold r; now rewrite map_length).
  assert (Nr : forall n, (n < 2 ^ K)%nat -> nth n r (RtoC 0) = - RtoC (IZR kappa) * Cconj (nth n q (RtoC 0))).
  { intros n Hn'. unfold r. rewrite (nth_indep _ (RtoC 0) ((fun x => - RtoC (IZR kappa) * Cconj x) (RtoC 0))) by (rewrite map_length; lia).
    apply (map_nth (fun x => - RtoC (IZR kappa) * Cconj x)). }
  assert (HQR : forall n, (n < 2 ^ K)%nat -> 1 - RtoC eps_t * nth n q (RtoC 0) * (RtoC eps_t * nth n r (RtoC 0)) <> 0).
  { intros n Hn' E. apply (Hden n Hn'). rewrite Nr in E by exact Hn'. apply (f_equal fst) in E. 
    replace (1 - RtoC eps_t * nth n q (RtoC 0) * (RtoC eps_t * (- RtoC (IZR kappa) * Cconj (nth n q (RtoC 0)))))
      with (1 + RtoC (IZR kappa) * (RtoC eps_t * RtoC eps_t) * (nth n q (RtoC 0) * Cconj (nth n q (RtoC 0)))) in E by ring.
    rewrite mul_conj, <- !RtoC_mult, <- RtoC_plus in E. cbn [fst RtoC] in E. refine (eq_trans _ E). ring. }
  destruct (forward A_2SPLIT2_MODAL (2 ^ K) normalize q r res eps_t numel (fun i => modal_lists eps_t (nth i q (RtoC 0)) (nth i r (RtoC 0)))
     (modal_sample eps_t (fun n => nth n q (RtoC 0)) (fun n => nth n r (RtoC 0))) eq_refl H2 HD2 He ltac:(lia) ltac:(lia) Hn Lres) as (tm & W & E & HP).
  { intros i Hi. destruct (modal_value eps_t _ _ 0 (HQR i Hi)) as (ls & El & _). unfold modal_lists. now rewrite El. }
  { intros i z Hi. destruct (modal_value eps_t _ _ z (HQR i Hi)) as (ls & El & Ep). unfold modal_lists. rewrite El. exact Ep. }
  exists tm, W. split.
  - refine (nse_fscatter_is_akns expo jf0 jf1 jf2 jfp Hf0 Hf1 Hf2 Hfp normalize (2 ^ K) q res _ eps_t N_2SPLIT2_MODAL A_2SPLIT2_MODAL _ _ _ _ He eq_refl E). lia.
  - apply (holds_ext tm (2 ^ K) _ _ (modal_sample eps_t (fun n => nth n q (RtoC 0)) (fun n => - RtoC (IZR kappa) * Cconj (nth n q (RtoC 0))))) in HP.
    2: { intros z n Hn'. unfold modal_sample. now rewrite Nr. }
    destruct (nse_finvscatter_modal junkm junk0 junk1 junk2 Hjm Hj0 Hj1 Hj2 K eps_t kappa (fun n => nth n q (RtoC 0)) tm q0 (zpow (K := CF) (RtoC 2) W)
      HK He Hk (zpow2_neq0 W) ltac:(lia) Hden HP) as (q' & E' & Lq' & Nq'). rewrite E'. do 3 f_equal. f_equal.
    apply (list_eq_nth _ _ (RtoC 0)); [lia|]. intros n Hn'. rewrite Nq'. destruct (Nat.ltb_spec n (2 ^ K)); [reflexivity|lia].
Qed.

(** NSE, focusing, 2SPLIT2A *)
Theorem nse_roundtrip_2A K normalize (eps_t : R) (q res q0 : list C) numel :
  (1 <= K)%nat -> (Z.of_nat (2 ^ K) <= 2147483647)%Z -> (0 < eps_t)%R ->
  length q = (2 ^ K)%nat -> length q0 = (2 ^ K)%nat -> akns_fscatter_numel (2 ^ K) A_2SPLIT2A = Ret numel -> (numel <= length res)%nat ->
  (forall n, (n < 2 ^ K)%nat -> nth n q (RtoC 0) = 0 \/ (1 / 100000000 <= eps_t * Cmod (nth n q (RtoC 0)) < PI / 2)%R) ->
  exists tm W, 
    nse_fscatter expo jf0 jf1 jf2 jfp normalize (2 ^ K) (Some q) (Some (map (fun x => - Cconj x) q)) eps_t (Some res) true N_2SPLIT2A
      = Ret (SUCCESS, Some (2 ^ K)%nat, Some tm, W) /\
    nseinv (2 ^ K) (Some tm) (Some q0) eps_t 1 N_2SPLIT2A = Ret (SUCCESS, Some q, Some tm).
Proof.
  intros HK HD2 He Lq Lq0 Hn Lres Hden.
  assert (H2 : (2 <= 2 ^ K)%nat) by (replace 2%nat with (2 ^ 1)%nat at 1 by reflexivity; apply Nat.pow_le_mono_r; lia).
  set (r := map _ q). assert (Lr : length r = (2 ^ K)%nat) by (unfold r; now rewrite map_length).
  assert (Nr : forall n, (n < 2 ^ K)%nat -> nth n r (RtoC 0) = - Cconj (nth n q (RtoC 0))).
  { intros n Hn'. unfold r. rewrite (nth_indep _ (RtoC 0) ((fun x => - Cconj x) (RtoC 0))) by (rewrite map_length; lia).
    apply (map_nth (fun x => - Cconj x)). }
  assert (HS : forall n, (n < 2 ^ K)%nat -> sinc_ok (RtoC eps_t * Csqrt (- nth n q (RtoC 0) * nth n r (RtoC 0)))).
  { intros n Hn'. rewrite Nr by exact Hn'. set (x := nth n q (RtoC 0)). pose proof (Csqrt_sqr (- x * - Cconj x)) as Hs. set (s := Csqrt (- x * - Cconj x)) in *.
    assert (Hm : Cmod s = Cmod x).
    { assert (E : (Cmod s * Cmod s = Cmod x * Cmod x)%R).
      { rewrite <- Cmod_mult, Hs. replace (- x * - Cconj x) with (x * Cconj x) by ring. rewrite mul_conj, Cmod_R, Rabs_pos_eq; [ring|]. pose proof (Cmod_ge_0 x). nra. }
      pose proof (Cmod_ge_0 x). pose proof (Cmod_ge_0 s). nra. }
    destruct (Hden n Hn') as [Z|Hb]; fold x in Z || fold x in Hb.
    - left. rewrite Z, Cmod_0 in Hm. rewrite (Cmod_eq_0 s Hm). ring.
    - right. rewrite Cmod_mult, Cmod_R, Rabs_pos_eq, Hm by lra. lra. }
  destruct (forward A_2SPLIT2A (2 ^ K) normalize q r res eps_t numel (fun i => split2A_lists eps_t (nth i q (RtoC 0)) (nth i r (RtoC 0)))
     (split2A_sample eps_t (fun n => nth n q (RtoC 0)) (fun n => nth n r (RtoC 0))) eq_refl H2 HD2 He ltac:(lia) ltac:(lia) Hn Lres) as (tm & W & E & HP).
  { intros i Hi. apply (split2A_value eps_t _ _ 0 (HS i Hi)). }
  { intros i z Hi. apply (split2A_value eps_t _ _ z (HS i Hi)). }
  exists tm, W. split.
  - refine (nse_fscatter_is_akns expo jf0 jf1 jf2 jfp Hf0 Hf1 Hf2 Hfp normalize (2 ^ K) q res _ eps_t N_2SPLIT2A A_2SPLIT2A _ _ _ _ He eq_refl E). lia.
  - apply (holds_ext tm (2 ^ K) _ _ (split2A_sample eps_t (fun n => nth n q (RtoC 0)) (fun n => - Cconj (nth n q (RtoC 0))))) in HP.
    2: { intros z n Hn'. unfold split2A_sample. now rewrite Nr. }
    destruct (nse_finvscatter_2A_focusing junkm junk0 junk1 junk2 Hjm Hj0 Hj1 Hj2 K eps_t (fun n => nth n q (RtoC 0)) tm q0 (zpow (K := CF) (RtoC 2) W)
      HK He (zpow2_neq0 W) ltac:(lia)) as (q' & E' & Lq' & Nq'); [|exact HP|].
    { intros n Hn'. destruct (Hden n Hn') as [Z|Hb]; [rewrite Z, Cmod_0, Rmult_0_r; apply PI2_RGT_0|lra]. }
    rewrite E'. do 3 f_equal. f_equal.
    apply (list_eq_nth _ _ (RtoC 0)); [lia|]. intros n Hn'. rewrite Nq'. destruct (Nat.ltb_spec n (2 ^ K)); [reflexivity|lia].
Qed.

(** KdV, 2SPLIT2_MODAL: kdv_fscatter is called with -1 and the potential (as its callers do) *)
Theorem kdv_roundtrip_modal K normalize (eps_t : R) (q res q0 : list C) numel :
  (1 <= K)%nat -> (Z.of_nat (2 ^ K) <= 2147483647)%Z -> (0 < eps_t)%R ->
  length q = (2 ^ K)%nat -> length q0 = (2 ^ K)%nat -> akns_fscatter_numel (2 ^ K) A_2SPLIT2_MODAL = Ret numel -> (numel <= length res)%nat ->
  (forall n, (n < 2 ^ K)%nat -> 1 + RtoC (eps_t ^ 2) * nth n q (RtoC 0) <> 0) ->
  exists tm tm' W, 
    kdv_fscatter expo jf0 jf1 jf2 jfp normalize (2 ^ K) (Some (repeat (- (1)) (2 ^ K))) (Some q) eps_t (Some res) true K_2SPLIT2_MODAL
      = Ret (SUCCESS, Some (2 ^ K)%nat, Some tm, W) /\
    kdvinv (2 ^ K) (Some tm) (Some q0) eps_t K_2SPLIT2_MODAL = Ret (SUCCESS, Some q, Some tm').
Proof.
  intros HK HD2 He Lq Lq0 Hn Lres Hden.
  assert (H2 : (2 <= 2 ^ K)%nat) by (replace 2%nat with (2 ^ 1)%nat at 1 by reflexivity; apply Nat.pow_le_mono_r; lia).
  set (r := repeat (- (1) : C) (2 ^ K)). assert (Lr : length r = (2 ^ K)%nat) by apply repeat_length.
  assert (Nr : forall n, (n < 2 ^ K)%nat -> nth n r (RtoC 0) = - (1)).
  { intros n Hn'. unfold r. apply (nth_error_nth (repeat (- (1)) (2 ^ K))). apply nth_error_repeat. exact Hn'. }
  assert (HQR : forall n, (n < 2 ^ K)%nat -> 1 - RtoC eps_t * nth n q (RtoC 0) * (RtoC eps_t * nth n r (RtoC 0)) <> 0).
  { intros n Hn'. rewrite Nr by exact Hn'. replace (1 - RtoC eps_t * nth n q (RtoC 0) * (RtoC eps_t * - (1))) with (1 + RtoC (eps_t ^ 2) * nth n q (RtoC 0)); [now apply Hden|].
    replace (eps_t ^ 2)%R with (eps_t * eps_t)%R by ring. rewrite RtoC_mult. ring. }
  destruct (forward A_2SPLIT2_MODAL (2 ^ K) normalize q r res eps_t numel (fun i => modal_lists eps_t (nth i q (RtoC 0)) (nth i r (RtoC 0)))
     (modal_sample eps_t (fun n => nth n q (RtoC 0)) (fun n => nth n r (RtoC 0))) eq_refl H2 HD2 He ltac:(lia) ltac:(lia) Hn Lres) as (tm & W & E & HP).
  { intros i Hi. destruct (modal_value eps_t _ _ 0 (HQR i Hi)) as (ls & El & _). unfold modal_lists. now rewrite El. }
  { intros i z Hi. destruct (modal_value eps_t _ _ z (HQR i Hi)) as (ls & El & Ep). unfold modal_lists. rewrite El. exact Ep. }
  apply (holds_ext tm (2 ^ K) _ _ (modal_sample eps_t (fun n => nth n q (RtoC 0)) (fun n => - (1)))) in HP.
  2: { intros z n Hn'. unfold modal_sample. now rewrite Nr. }
  destruct (kdv_finvscatter_modal junkm junk0 junk1 junk2 Hjm Hj0 Hj1 Hj2 K eps_t (fun n => nth n q (RtoC 0)) tm q0 (zpow (K := CF) (RtoC 2) W)
      HK He (zpow2_neq0 W) ltac:(lia) Hden HP) as (q' & tm' & E' & Lq' & Nq').
  exists tm, tm', W. split.
  - refine (kdv_fscatter_is_akns expo jf0 jf1 jf2 jfp Hf0 Hf1 Hf2 Hfp normalize (2 ^ K) r res (Some q) eps_t K_2SPLIT2_MODAL A_2SPLIT2_MODAL false _ _ _ _ He eq_refl eq_refl E). lia.
  - rewrite E'. do 3 f_equal. f_equal.
    apply (list_eq_nth _ _ (RtoC 0)); [lia|]. intros n Hn'. rewrite Nq'. destruct (Nat.ltb_spec n (2 ^ K)); [reflexivity|lia].
Qed.
End Round.
