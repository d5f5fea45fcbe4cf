(** * Concrete calls that meet the hypotheses of C105 *)
From Coq Require Import Reals Lra.
From Coquelicot Require Import Coquelicot.
From Verif Require Import Base Loop ErrModel CExp CField DiscTables DiscModel FscatterSpec FscatterProof ScatterSpec ScatterModel ScatterRun ManFscSpec ManFscModel ManFscProof ManFscSample ManScatSpec ManScatTop
  NsevModel NsevSpec NsevEnv ManvModel ManvSpec NftSpec NsevLib NsevCsTop NsevEnergy NsevCsEx SymmTop.
From Verif Require Import ManNft ManCs ManCsTop ManEnergy ManCsEx.
From Verif Require Import ManSymm ManSymmTop ManSymmTop2.
Local Open Scope C_scope.

(** U = (0 1; -1 0) *)
Definition swap : mat2 := M2 0 1 (- (1)) 0.
Lemma swap_unitary : unitary swap.
Proof. unfold unitary, swap, dagger. apply mat2_eq; apply Ceq; cbn; ring. Qed.
Lemma swapped : pairs1 swap q2 q2b = q2b /\ pairs2 swap q2 q2b = [RtoC (- (1 / 2)); RtoC (- (1 / 3))].
Proof. unfold pairs1, pairs2, q2, q2b, swap, rotated1, rotated2. cbn [combine map fst snd a11 a12 a21 a22]. split; repeat f_equal; apply Ceq; cbn; lra. Qed.
Lemma mexact_lists (x0 x1 y0 y1 : R) i : (1 / 100 <= y0)%R /\ (1 / 100 <= y1)%R \/ (y0 <= - (1 / 100))%R /\ (y1 <= - (1 / 100))%R -> (x0 * x0 + y0 * y0 < 1)%R -> (x1 * x1 + y1 * y1 < 1)%R ->
  man_scat_exact M_BO (-1) 1 (nthC [RtoC x0; RtoC x1]) (nthC [RtoC y0; RtoC y1]) 2 (RtoC (1 + INR i)).
Proof.
  intros Hy P0 P1 j Hj. right. assert (Hx : (1 <= (1 + INR i) * (1 + INR i))%R). { pose proof (pos_INR i). pose proof (Rmult_le_pos _ _ H H). lra. }
  set (x := (1 + INR i)%R) in *. split.
  - intros [T1 T2]. destruct j as [|[|j]]; [| |lia]; cbn [nthC nth] in T2; rewrite Cmod_R in T2; destruct Hy as [[A B]|[A B]];
      first [rewrite Rabs_pos_eq in T2 by lra; lra | rewrite Rabs_left in T2 by lra; lra].
  - cbn [step_lam]. intros E. apply (f_equal fst) in E. destruct j as [|[|j]]; [| |lia]; cbn in E; lra.
Qed.
Definition mo2 := mcs_opts CS_BOTH M_BO.
Lemma mcall_of (x0 x1 y0 y1 : R) : (forall i, (i < 2)%nat -> man_scat_exact M_BO (-1) 1 (nthC [RtoC x0; RtoC x1]) (nthC [RtoC y0; RtoC y1]) 2 (RtoC (1 + INR i))) ->
  mcs_call 2 [RtoC x0; RtoC x1] [RtoC y0; RtoC y1] (0, 1)%R 2 XI2 (-1) mo2 um (repeat (RtoC 0) 11).
Proof.
  intros H. constructor; try reflexivity; try (cbn; lia); try discriminate; try (cbn; discriminate).
  - apply mvalid2; [discriminate|auto].
  - intros i Hi. rewrite (proj1 spacing2), grid2. apply H, Hi.
Qed.
Lemma bo_cs_call : cs_call 2 q2 (0, 1)%R 2 XI2 (-1) (cs_opts CS_BOTH N_BO) u2 (repeat (RtoC 0) 7) A_BO.
Proof.
  constructor; try reflexivity; try (cbn; lia); try discriminate; try (cbn; discriminate).
  - apply valid2; [discriminate|auto].
  - intros i Hi. unfold scattering_exact. cbn [akns_degree slow_steps]. rewrite (proj1 spacing2), grid2. intros j Hj. split; [|exact I].
    unfold step_core, X_BO. change (weights A_BO) with [RtoC 1]. cbn [length]. rewrite Nat.mod_1_r. cbn [nth]. rewrite Cmult_1_l.
    assert (Hx : (1 <= (1 + INR i) * (1 + INR i))%R). { pose proof (pos_INR i). pose proof (Rmult_le_pos _ _ H H). lra. }
    set (x := (1 + INR i)%R) in *.
    assert (G : forall y : R, (y <= 1 / 2)%R -> (0 <= y)%R -> sinc_exact (mscal (RtoC 1) (akns_A (RtoC x) (RtoC y) (nse_r_from_q (-1) (RtoC y))))).
    { intros y Hy Hy0. unfold sinc_exact. right. assert (Hyy : (y * y <= 1 / 2 * (1 / 2))%R) by (apply Rmult_le_compat; lra).
      assert (E : mdet (mscal (RtoC 1) (akns_A (RtoC x) (RtoC y) (nse_r_from_q (-1) (RtoC y)))) = RtoC (x * x - y * y)%R).
      { unfold mdet, mscal, akns_A, nse_r_from_q. cbn [a11 a12 a21 a22 Z.eqb Pos.eqb]. apply Ceq; cbn; ring. }
      rewrite E, Cmod_R, Rabs_pos_eq by lra. lra. }
    destruct j as [|[|j]]; [| |lia]; cbn [nthC nth q2 map]; apply G; lra.
Qed.
Lemma polar2 : map (Cmult (RtoC (3 / 5))) q2 = [RtoC (3 / 10); RtoC (1 / 5)] /\ map (Cmult (RtoC (4 / 5))) q2 = [RtoC (2 / 5); RtoC (4 / 15)].
Proof. unfold q2. cbn [map]. split; repeat f_equal; apply Ceq; cbn; lra. Qed.
(** the signal (3/5 q, 4/5 q): the call succeeds and its values are those of fnft_nsev *)
Lemma bo_first2 : exists u', succeeds L7 2 q2 (0, 1)%R 2 XI2 (-1) None (cs_opts CS_BOTH N_BO) u2 u'.
Proof.
  destruct bo_cs_call as [V Lq HM Ecs Lcs Hct Hr Hd Hu Hint Hx].
  destruct (nsev_energy_conserved L7 2 q2 (0, 1)%R 2 XI2 (-1) None (cs_opts CS_BOTH N_BO) (cs_opts CS_BOTH N_BO) (repeat (RtoC 0) 7) u2 A_BO) as (p & Ep & H); try assumption; try reflexivity; try apply L7_ok; try discriminate.
  - left. now left.
  - now right.
  - destruct (nsev_contspec_is_discrete_nft L7 L7_ok 2 q2 (0, 1)%R 2 XI2 (-1) None (cs_opts CS_BOTH N_BO) u2 (repeat (RtoC 0) 7) A_BO) as (p' & Ep' & Hpl & _);
      try assumption; try reflexivity; try discriminate; [now right|].
    rewrite Ep in Ep'. injection Ep' as <-. destruct (Hpl eq_refl) as [Eq Er]. rewrite Eq, Er in H. change (2 * akns_upsampling_factor A_BO)%nat with 2%nat in H.
    destruct (proj2 (H Hx) eq_refl) as (u' & x & y & E). exists u', x, y. exact E.
Qed.
Lemma polarised_call : mcs_call 2 (map (Cmult (RtoC (3 / 5))) q2) (map (Cmult (RtoC (4 / 5))) q2) (0, 1)%R 2 XI2 (-1) mo2 um (repeat (RtoC 0) 11).
Proof. destruct polar2 as [-> ->]. apply mcall_of. intros i Hi. apply mexact_lists; [left; lra|lra|lra]. Qed.
Lemma unit_pair : RtoC (3 / 5) * Cconj (RtoC (3 / 5)) + RtoC (4 / 5) * Cconj (RtoC (4 / 5)) = 1.
Proof. apply Ceq; cbn; field. Qed.
Lemma polarised_runs : exists u', msucceeds L7 2 [RtoC (3 / 10); RtoC (1 / 5)] [RtoC (2 / 5); RtoC (4 / 15)] (0, 1)%R 2 XI2 (-1) None mo2 um u'.
Proof.
  destruct polar2 as [<- <-].
  assert (Hs : same_method (m_disc mo2) (discretization (cs_opts CS_BOTH N_BO))) by reflexivity.
  pose proof (manakovv_polarised_is_nsev L7 L7_ok 2 q2 (RtoC (3 / 5)) (RtoC (4 / 5)) (0, 1)%R 2 XI2 (-1) None mo2 um (repeat (RtoC 0) 11) None (cs_opts CS_BOTH N_BO) u2 (repeat (RtoC 0) 7) A_BO) as G.
  cbv zeta in G. specialize (G polarised_call bo_cs_call Hs unit_pair). destruct G as [_ G]. apply G; [right; reflexivity|right; discriminate|exact bo_first2].
Qed.
(** all the calls succeed, so that the values they return are related as C105 says *)
Theorem manakov_symmetries_example : let ok q1 q2 T := exists u', msucceeds L7 2 q1 q2 T 2 XI2 (-1) None mo2 um u' in
  ok q2 q2b (0, 1)%R /\ ok q2b [RtoC (- (1 / 2)); RtoC (- (1 / 3))] (0, 1)%R /\ ok q2 q2b (0 + 5, 1 + 5)%R /\
  ok [RtoC (3 / 10); RtoC (1 / 5)] [RtoC (2 / 5); RtoC (4 / 15)] (0, 1)%R.
Proof.
  intros ok. assert (F : ok q2 q2b (0, 1)%R).
  { destruct manakov_bo_call as (S & u' & x & y & cs & _ & E & _). exists u', x, y. exact E. }
  assert (Hc : mcs_call 2 q2 q2b (0, 1)%R 2 XI2 (-1) mo2 um (repeat (RtoC 0) 11)) by (apply mcall_of; intros i Hi; now apply mexact_bo).
  split; [exact F|]. split.
  - destruct swapped as [E1 E2]. pose proof (manakovv_rotation L7 L7_ok 2 q2 q2b (0, 1)%R 2 XI2 (-1) None mo2 um _ swap Hc swap_unitary) as G.
    rewrite E1, E2 in G. refine (proj2 (G _) (or_intror eq_refl) F). intros i Hi. rewrite (proj1 spacing2), grid2. apply mexact_lists; [right; lra|lra|lra].
  - split. 2: exact polarised_runs. destruct Hc as [V L1 L2 HM Ecs Lcs Hct Hr HB Hu Hint Hx].
    destruct (manakovv_time_shift L7 L7_ok 2 q2 q2b (0, 1)%R 2 XI2 (-1) None mo2 um _ 5 V L1 L2 HM Ecs Lcs Hct Hr HB (or_intror Hu) ltac:(cbn; lia)) as (p & _ & Hp & H).
    destruct (Hp Hu) as [E1 E2]. rewrite E1, E2 in H. exact (proj2 (H Hx) (or_intror eq_refl) F).
Qed.
