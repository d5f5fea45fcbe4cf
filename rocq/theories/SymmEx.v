(** * Concrete calls that meet the hypotheses of C100 and C101 *)
From Coq Require Import Reals Lra.
From Coquelicot Require Import Coquelicot.
From Verif Require Import Loop CExp CField DiscTables DiscModel FscatterSpec FscatterProof ScatterSpec ScatterModel ScatterRun
  NsevModel NsevSpec NsevEnv NftSpec NsevLib NsevCsTop NsevEnergy NsevCsEx.
From Verif Require Import Symm Symm2 SymmTop SymmTop2 ZeroPad.
Local Open Scope C_scope.

Definition om := cs_opts CS_BOTH N_2SPLIT2_MODAL.
(** two samples 1/2, 1/3 on [0, 1], two frequencies 1, 2, defocusing, 2SPLIT2_MODAL: all three kinds of values *)
Lemma modal_cs_call : cs_call 2 q2 (0, 1)%R 2 XI2 (-1) om u2 (repeat (RtoC 0) 7) A_2SPLIT2_MODAL.
Proof.
  constructor; try reflexivity; try (cbn; lia); try discriminate; try (cbn; discriminate).
  - apply valid2; [discriminate|auto].
  - intros i Hi. unfold scattering_exact. cbn [akns_degree]. rewrite (proj1 spacing2). intros j Hj. cbn [fast_exact akns_upsampling_factor INR].
    intros E. apply (f_equal fst) in E. destruct j as [|[|j]]; [| |lia]; cbn in E; lra.
Qed.
Lemma modal_first : exists u1, succeeds L7 2 q2 (0, 1)%R 2 XI2 (-1) (Some om) plain u2 u1.
Proof. destruct modal_call_conserves as (u' & a & b & _ & E & _ & _). exists u', a, b. exact E. Qed.
Lemma small2 : forall j, (j < 2)%nat -> (spacing (0, 1) 2 * Cmod (nth j q2 0) < 1)%R.
Proof. intros j Hj. rewrite (proj1 spacing2). destruct j as [|[|j]]; [| |lia]; cbn [nth q2]; rewrite Cmod_R, Rabs_pos_eq; lra. Qed.
(** the call succeeds, and so do the calls with the rotated, dilated, conjugated, delayed, modulated and padded signals *)
Theorem symmetries_example : no_bound_states (-1) u2 /\
  let ok q T XI := exists u', succeeds L7 (length q) q T 2 XI (-1) (Some om) plain u2 u' in
  ok q2 (0, 1)%R XI2 /\ ok (map (Cmult Ci) q2) (0, 1)%R XI2 /\ ok (map (Cmult (RtoC 3)) q2) (0 / 3, 1 / 3)%R (3 * 1, 3 * 2)%R /\
  ok (map Cconj q2) (0, 1)%R (- (2), - (1))%R /\ ok q2 (0 + 5, 1 + 5)%R XI2 /\
  ok (modulated 4 (0, 1)%R 2 q2) (0, 1)%R (1 + 4, 2 + 4)%R /\
  ok (zero_padded 3 2 q2) (0 - INR 3 * spacing (0, 1) 2, 1 + INR 2 * spacing (0, 1) 2)%R XI2.
Proof.
  assert (N : no_bound_states (-1) u2) by now right. split; [exact N|]. intros ok. pose proof modal_cs_call as Hc. pose proof modal_first as F.
  assert (C1 : Cmod Ci = 1%R) by (unfold Cmod; cbn; replace (0 * (0 * 1) + 1 * (1 * 1))%R with 1%R by ring; apply sqrt_1).
  split; [exact F|]. split; [|split; [|split; [|split; [|split]]]].
  - exact (proj2 (nsev_phase_rotation L7 L7_ok 2 q2 (0, 1)%R 2 XI2 (-1) (Some om) plain u2 _ _ Ci Hc C1) N F).
  - exact (proj2 (nsev_dilation L7 L7_ok 2 q2 (0, 1)%R 2 XI2 (-1) (Some om) plain u2 _ _ 3 Hc ltac:(lra)) N F).
  - exact (proj2 (nsev_conjugation L7 L7_ok 2 q2 (0, 1)%R 2 XI2 (-1) (Some om) plain u2 _ _ Hc (fun _ _ => small2)) N F).
  - destruct Hc as [V Lq HM Ecs Lcs Hct Hr Hd Hu Hint Hx].
    destruct (nsev_time_shift L7 L7_ok 2 q2 (0, 1)%R 2 XI2 (-1) (Some om) plain u2 _ _ 5 V Lq HM Ecs Lcs Hct Hr Hd (or_intror Hu) ltac:(cbn; lia)) as (p & _ & Hp & H).
    destruct (Hp Hu) as [E1 E2]. rewrite E1, E2 in H. exact (proj2 (H Hx) N F).
  - exact (proj2 (nsev_modulation L7 L7_ok 2 q2 (0, 1)%R 2 XI2 (-1) (Some om) plain u2 _ _ 4 Hc (or_intror eq_refl)) N F).
  - refine (proj2 (nsev_zero_padding L7 L7_ok 2 q2 (0, 1)%R 2 XI2 (-1) (Some om) plain u2 _ _ 3 2 Hc _ _ _ _) N F); try discriminate.
Qed.
(** for such a call the theorem determines the six values: e.g. the last of a signal times i *)
Theorem rotated_values u1 u2' cs1 cs2 :
  succeeds L7 2 q2 (0, 1)%R 2 XI2 (-1) (Some om) plain u2 u1 -> succeeds L7 2 (map (Cmult Ci) q2) (0, 1)%R 2 XI2 (-1) (Some om) plain u2 u2' ->
  u_cs u1 = Some cs1 -> u_cs u2' = Some cs2 -> nth 3 cs2 0 = nth 3 cs1 0 /\ nth 5 cs2 0 = - Ci * nth 5 cs1 0 /\ nth 1 cs2 0 = - Ci * nth 1 cs1 0.
Proof.
  intros R1 R2 E1 E2. assert (C1 : Cmod Ci = 1%R) by (unfold Cmod; cbn; replace (0 * (0 * 1) + 1 * (1 * 1))%R with 1%R by ring; apply sqrt_1).
  destruct (proj1 (nsev_phase_rotation L7 L7_ok 2 q2 (0, 1)%R 2 XI2 (-1) (Some om) plain u2 _ _ Ci modal_cs_call C1) u1 u2' R1 R2)
    as (x1 & x2 & a1 & b1 & a2 & b2 & F1 & F2 & S1 & S2 & Rel). rewrite E1 in F1. rewrite E2 in F2. injection F1 as <-. injection F2 as <-.
  assert (H1 : (1 < 2)%nat) by lia. destruct (S1 1%nat H1) as (N1 & A1 & B1 & D1). destruct (S2 1%nat H1) as (N2 & A2 & B2 & D2). destruct (Rel 1%nat H1) as [P Q].
  cbn [Nat.mul Nat.add] in *. rewrite B1, B2, D1, D2, A1, A2, P, Q. split; [reflexivity|]. assert (Ei : Cconj Ci = - Ci) by (apply Ceq; cbn; ring). rewrite Ei.
  split; [reflexivity|]. unfold Cdiv. ring.
Qed.
