(** * Concrete calls that meet the hypotheses of C104 *)
From Coq Require Import Reals Lra List Lia.
From Coquelicot Require Import Coquelicot.
From Verif Require Import Loop CExp CConj CField DiscTables DiscModel FscatterSpec FscatterProof ScatterSpec ScatterModel ScatterRun
  NsevModel NsevSpec NsevEnv KdvvSpec KdvvModel KdvvEnv NftSpec NsevLib NsevCsTop NsevEnergy NsevCsEx KdvFast KdvCsTop KdvEnergy KdvCsEx.
From Verif Require Import Symm Symm2 SymmTop ZeroPad TimeRev.
From Verif Require Import KdvSymm KdvSymm2.
Import ListNotations.
Local Open Scope C_scope.

Definition ob := kcs_opts CS_BOTH K_BO.
Definition ov := kcs_opts CS_AB K_2SPLIT2_MODAL_VANILLA.
(** two samples 1/2, 1/3 on [0, 1], the frequencies 1, 2; the exponential of every step *)
Lemma bo_kcs_call : kcs_call 2 q2 (0, 1)%R 2 XI2 ob u2 (repeat (RtoC 0) 7) A_BO false.
Proof.
  constructor; try reflexivity; try (cbn; lia); try discriminate; try (cbn; discriminate).
  - apply kvalid2. repeat split; discriminate.
  - apply kread2.
  - intros i Hi. unfold kdv_exact, scattering_exact. cbn [akns_degree]. intros j Hj. split; [|exact I].
    rewrite (proj1 spacing2), grid2. right.
    assert (Hq : exists x, nthC q2 j = RtoC x /\ (0 <= x)%R /\ nthC (repeat (- (1)) 2) j = RtoC (-1)).
    { cbn in Hj. destruct j as [|[|j]]; [| |lia]; [exists (1/2)%R|exists (1/3)%R]; (split; [reflexivity|split; [lra|apply Ceq; cbn; ring]]). }
    destruct Hq as (x & E1 & Hx & E2). cbv beta iota delta [step_core X_BO]. unfold X_BO. rewrite ?E1, ?E2.
    replace (mdet _) with (RtoC ((1 + INR i) * (1 + INR i) + x)%R).
    + rewrite Cmod_R. pose proof (pos_INR i). pose proof (Rmult_le_pos _ _ H H). rewrite Rabs_pos_eq; lra.
    + cbn. apply Ceq; cbn; ring.
Qed.
Lemma modal_kcs_call : kcs_call 2 q2 (0, 1)%R 2 XI2 ov u2 (repeat (RtoC 0) 7) A_2SPLIT2_MODAL true.
Proof.
  constructor; try reflexivity; try (cbn; lia); try discriminate; try (cbn; discriminate).
  - apply kvalid2. repeat split; discriminate.
  - apply kread2.
  - intros i Hi. unfold kdv_exact, scattering_exact. cbn [akns_degree]. rewrite (proj1 spacing2). intros j Hj. cbn [fast_exact akns_upsampling_factor INR].
    intros E. apply (f_equal fst) in E. cbn in Hj. destruct j as [|[|j]]; [| |lia]; cbn in E; lra.
Qed.
Lemma kmodal_range : modal_range A_2SPLIT2_MODAL (spacing (0, 1) 2) q2 2.
Proof. intros _ j Hj. rewrite (proj1 spacing2). destruct j as [|[|j]]; [| |lia]; cbn; lra. Qed.
Definition kfine (o : kopts) (q : list C) (T XI : R * R) := exists u', ksucceeds L7 0 (fun x => x) (length q) q T 2 XI (Some o) kplain u2 u'.
Lemma bo_first : kfine ob q2 (0, 1)%R XI2.
Proof. destruct kdv_bo_call_conserves as (u' & a & b & _ & E & _). exists u', a, b. exact E. Qed.
Lemma modal_kfirst : kfine ov q2 (0, 1)%R XI2.
Proof. destruct kdv_modal_call as (_ & _ & u' & a & b & _ & _ & E & _). exists u', a, b. exact E. Qed.
(** the calls succeed, and so do those with the dilated, reversed, delayed and padded signals and at the negative frequencies *)
Theorem kdv_symmetries_example :
  kfine ob (map (Cmult (RtoC (3 * 3))) q2) (0 / 3, 1 / 3)%R (3 * 1, 3 * 2)%R /\ kfine ov (map (Cmult (RtoC (3 * 3))) q2) (0 / 3, 1 / 3)%R (3 * 1, 3 * 2)%R /\
  kfine ob q2 (0, 1)%R (- (2), - (1))%R /\ kfine ov q2 (0, 1)%R (- (2), - (1))%R /\
  kfine ob (rev q2) (- (1), - 0)%R XI2 /\ kfine ov (rev q2) (- (1), - 0)%R XI2 /\
  kfine ob q2 (0 + 5, 1 + 5)%R XI2 /\
  kfine ob (zero_padded 3 2 q2) (0 - INR 3 * spacing (0, 1) 2, 1 + INR 2 * spacing (0, 1) 2)%R XI2.
Proof.
  pose proof bo_first as F. pose proof modal_kfirst as G. pose proof bo_kcs_call as Hb. pose proof modal_kcs_call as Hm.
  assert (N : u_bs u2 = None \/ u_K u2 = Some O) by (left; reflexivity).
  split; [|split; [|split; [|split; [|split; [|split; [|split]]]]]].
  - exact (proj2 (kdvv_dilation L7 0 (fun x => x) L7_ok 2 q2 (0, 1)%R 2 XI2 (Some ob) kplain u2 _ _ _ 3 Hb ltac:(lra)) N F).
  - exact (proj2 (kdvv_dilation L7 0 (fun x => x) L7_ok 2 q2 (0, 1)%R 2 XI2 (Some ov) kplain u2 _ _ _ 3 Hm ltac:(lra)) N G).
  - refine (proj2 (kdvv_reality L7 0 (fun x => x) L7_ok 2 q2 (0, 1)%R 2 XI2 (Some ob) kplain u2 _ _ _ Hb _) N F). discriminate.
  - exact (proj2 (kdvv_reality L7 0 (fun x => x) L7_ok 2 q2 (0, 1)%R 2 XI2 (Some ov) kplain u2 _ _ _ Hm kmodal_range) N G).
  - refine (proj2 (kdvv_time_reversal L7 0 (fun x => x) L7_ok 2 q2 (0, 1)%R 2 XI2 (Some ob) kplain u2 _ _ _ Hb I _ (or_introl eq_refl)) N F). discriminate.
  - exact (proj2 (kdvv_time_reversal L7 0 (fun x => x) L7_ok 2 q2 (0, 1)%R 2 XI2 (Some ov) kplain u2 _ _ _ Hm I kmodal_range (or_intror eq_refl)) N G).
  - destruct Hb as [V Rd HM Ecs Lcs Hct Hr Hd Hv Hu Hint Hx].
    destruct (kdvv_time_shift L7 0 (fun x => x) L7_ok 2 q2 (0, 1)%R 2 XI2 (Some ob) kplain u2 _ _ _ 5 V Rd HM Ecs Lcs Hct Hr Hd Hv (or_intror Hu) ltac:(cbn; lia)) as (p & _ & Hp & H).
    destruct (Hp Hu) as [E1 E2]. rewrite E1, E2 in H. exact (proj2 (H Hx) N F).
  - refine (proj2 (kdvv_zero_padding L7 0 (fun x => x) L7_ok 2 q2 (0, 1)%R 2 XI2 (Some ob) kplain u2 _ _ 3 2 Hb _ _) N F); [cbn; lia|].
    intros i Hi. rewrite (proj1 spacing2), grid2, Rmult_1_l. pose proof (pos_INR i). rewrite Rabs_pos_eq; lra.
Qed.
(** the values of the reversed signal: contspec holds the reflection coefficients, then a, then b *)
Theorem kdv_reversed_values u1 u1' cs1 cs2 :
  ksucceeds L7 0 (fun x => x) 2 q2 (0, 1)%R 2 XI2 (Some ob) kplain u2 u1 -> ksucceeds L7 0 (fun x => x) 2 (rev q2) (- (1), - 0)%R 2 XI2 (Some ob) kplain u2 u1' ->
  u_cs u1 = Some cs1 -> u_cs u1' = Some cs2 -> nth 2 cs2 0 = nth 2 cs1 0 /\ nth 4 cs2 0 = - Cconj (nth 4 cs1 0).
Proof.
  intros R1 R2 E1 E2.
  destruct (proj1 (kdvv_time_reversal L7 0 (fun x => x) L7_ok 2 q2 (0, 1)%R 2 XI2 (Some ob) kplain u2 _ _ _ bo_kcs_call I ltac:(discriminate) (or_introl eq_refl)) u1 u1' R1 R2)
    as (x1 & x2 & a1 & b1 & a2 & b2 & F1 & F2 & S1 & S2 & Rel). rewrite E1 in F1. rewrite E2 in F2. injection F1 as <-. injection F2 as <-.
  destruct (S1 0%nat ltac:(lia)) as (N1 & A1 & B1 & D1). destruct (S2 0%nat ltac:(lia)) as (N2 & A2 & B2 & D2). destruct (Rel 0%nat ltac:(lia)) as [P Q].
  cbn [Nat.mul Nat.add Nat.sub] in *. rewrite B1, B2, D1, D2, (P eq_refl), Q. now split.
Qed.
