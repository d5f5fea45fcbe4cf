(** * Concrete calls that meet the hypotheses of C93 and C94 *)
From Coq Require Import Reals Lra QArith Qreals.
From Coquelicot Require Import Coquelicot.
From Verif Require Import Base Loop ErrModel CExp CField DiscTables DiscModel FscatterSpec FscatterProof ScatterRun ManFscSpec ManFscModel ManFscProof ManFscSample ManScatSpec ManScatTop
  NsevModel NsevSpec NsevEnv ManvModel ManvSpec NftSpec NsevLib NsevCsTop NsevCsEx.
From Verif Require Import ManNft ManCs ManCsTop ManEnergy.
Local Close Scope Q_scope.
Local Open Scope C_scope.

Definition mcs_opts (t : cstype) (d : man_disc) : mopts :=
  {| m_filt := MF_FULL; m_loc := ML_NEWTON; m_niter := 10; m_Dsub := 0; m_ds := DS_NORMING_CONSTANTS; m_cs := t; m_norm := true; m_disc := d; m_rich := 0 |}.
Definition q2b : list C := [RtoC (1 / 4); RtoC 0].
Definition um : outs := {| u_cs := Some (repeat (RtoC 0) 11); u_K := None; u_bs := None; u_nc := None |}.
Lemma mvalid2 t d kappa (x y : list C) : man_known d -> (kappa = 1 \/ kappa = -1)%Z -> manv_valid 2 (Some x) (Some y) T01 (Some XI2) kappa (mcs_opts t d) um.
Proof.
  intros Hd Hk. constructor; cbn; auto; try discriminate; try apply proper01; try (now intros H; contradiction H).
  intros _. exists 1%R, 2%R. split; [reflexivity|lra].
Qed.
Lemma mexact_bo i : (i < 2)%nat -> man_scat_exact M_BO (-1) 1 (nthC q2) (nthC q2b) 2 (RtoC (1 + INR i)).
Proof.
  intros Hi j Hj. right. assert (Hx : (1 <= (1 + INR i) * (1 + INR i))%R). { pose proof (pos_INR i). pose proof (Rmult_le_pos _ _ H H). lra. }
  set (x := (1 + INR i)%R) in *. split.
  - intros [T1 _]. destruct j as [|[|j]]; [| |lia]; cbn [nthC nth q2] in T1; rewrite Cmod_R, Rabs_pos_eq in T1 by lra; lra.
  - cbn [step_lam]. intros E. apply (f_equal fst) in E. destruct j as [|[|j]]; [| |lia]; cbn in E; lra.
Qed.

(** C93 and C94, Boffetta-Osborne method, defocusing: the call succeeds, returns rho1, rho2, a, b1, b2 of the scattering matrices, conserves the energy *)
Theorem manakov_bo_call : exists S u' user' dflt' cs',
  (forall i, (i < 2)%nat -> man_scattering M_BO (-1) 1 (nthC q2) (nthC q2b) 2 (RtoC (1 + INR i)) (S i)) /\
  fnft_manakovv (mlib_env L7) 2 (Some q2) (Some q2b) T01 2 (Some XI2) (-1) None (mcs_opts CS_BOTH M_BO) um = Ret (SUCCESS, u', user', dflt') /\
  u_cs u' = Some cs' /\ (forall i, (i < 2)%nat -> nth (4 + i) cs' 0 = mnft_a (S i) (-(1) / 2, 3 / 2)%R (RtoC (1 + INR i)) /\
     nth (6 + i) cs' 0 = mnft_b1 (S i) (-(1) / 2, 3 / 2)%R (RtoC (1 + INR i)) /\ nth (8 + i) cs' 0 = mnft_b2 (S i) (-(1) / 2, 3 / 2)%R (RtoC (1 + INR i)) /\
     nth i cs' 0 = nth (6 + i) cs' 0 / nth (4 + i) cs' 0 /\ nth (2 + i) cs' 0 = nth (8 + i) cs' 0 / nth (4 + i) cs' 0) /\
  nth 10 cs' (RtoC 5) = 0 /\ mconserved (-1) CS_BOTH 2 cs'.
Proof.
  pose proof (mvalid2 CS_BOTH M_BO (-1) q2 q2b ltac:(discriminate) ltac:(auto)) as V.
  assert (Hsp : spacing (0, 1)%R 2 = 1%R) by apply spacing2.
  assert (Hx : forall i, (i < 2)%nat -> man_scat_exact M_BO (-1) (spacing (0, 1) 2) (nthC q2) (nthC q2b) 2 (RtoC (grid_point XI2 2 i))).
  { intros i Hi. rewrite Hsp, grid2. now apply mexact_bo. }
  destruct (manakovv_contspec_is_discrete_nft L7 L7_ok 2 q2 q2b (0, 1)%R 2 XI2 (-1) None (mcs_opts CS_BOTH M_BO) um (repeat (RtoC 0) 11)) as (p & Ep & Hpl & Hm);
    try assumption; try reflexivity; try (cbn; lia); try discriminate; try (right; reflexivity).
  destruct (manakovv_energy_conserved L7 2 q2 q2b (0, 1)%R 2 XI2 (-1) None (mcs_opts CS_BOTH M_BO) (mcs_opts CS_BOTH M_BO) (repeat (RtoC 0) 11) um) as (p' & Ep' & He);
    try assumption; try reflexivity; try (cbn; lia); try discriminate; try (right; reflexivity); [apply L7_ok|left; reflexivity|].
  destruct (Hpl eq_refl) as [E1 E2].
  cbn [mcs_opts m_disc] in Ep'. cbn [mcs_opts m_disc] in Ep. rewrite Ep in Ep'. injection Ep' as <-.
  cbn [mcs_opts m_disc m_cs man_upsampling_factor Nat.mul Nat.add] in Hm, He. rewrite E1, E2 in Hm, He. destruct (Hm Hx) as (S & HS & H1 & H2). destruct (He Hx) as [H3 H4].
  destruct (H4 eq_refl) as (u' & user' & dflt' & E). destruct (H1 u' user' dflt' E) as (cs' & Ecs & Hs & Hk). destruct (H3 u' user' dflt' E) as (cs'' & Ecs'' & Hc).
  rewrite Ecs in Ecs''. injection Ecs'' as <-.
  exists S, u', user', dflt', cs'. split.
  { intros i Hi. pose proof (proj1 (HS i Hi)) as G. rewrite Hsp, grid2 in G. exact G. }
  split; [exact E|]. split; [exact Ecs|]. split; [|split; [|exact Hc]].
  - intros i Hi. destruct Hs as [Hs1 Hs2]. destruct (Hs1 i Hi) as (_ & R1 & R2). destruct (Hs2 i Hi) as (A & B1 & B2). cbn [Nat.mul Nat.add] in A, B1, B2, R2.
    assert (Ee : man_edges M_BO (0, 1)%R (spacing (0, 1) 2) = (-(1) / 2, 3 / 2)%R) by (unfold man_edges; cbn [man_upsampling_factor fst snd]; rewrite Hsp; f_equal; field).
    rewrite <- A, <- B1, <- B2 in *. rewrite Ee, grid2 in *. 
    cbn [Nat.add]. rewrite R1, R2. rewrite A, B1, B2. repeat split; reflexivity.
  - destruct Hk as [Lk Hk]. cbn in Hk. specialize (Hk 10%nat ltac:(lia)). cbn in Hk. now apply nth_error_nth.
Qed.

(** the fast method FTES4_suzuki (polynomial products) for a constant signal *)
Definition qc : list C := [RtoC (1 / 2); RtoC (1 / 2)].
Lemma exact_half kappa (t : R) : (1 / 10000 <= Rabs t)%R -> exact_at kappa (RtoC (1 / 2)) (RtoC (1 / 2)) t.
Proof.
  intros Ht. right. rewrite Cmod_R, Rabs_pos_eq by lra. split.
  - left. unfold EPSILON. apply Rle_trans with (/ 2)%R; [|lra]. apply Rinv_le_contravar; lra.
  - assert (Hs : (1 / 2 <= sqrt (1 / 2 * (1 / 2) + 1 / 2 * (1 / 2)))%R).
    { apply Rle_trans with (sqrt (1 / 2 * (1 / 2))); [rewrite sqrt_square by lra; lra|apply sqrt_le_1; lra]. }
    apply Rle_trans with (1 / 10000 * (1 / 2))%R; [lra|]. apply Rmult_le_compat; lra.
Qed.
Lemma mexact_suzuki i : man_scat_exact M_FTES4_suzuki (-1) 1 (nthC qc) (nthC qc) 2 (RtoC (1 + INR i)).
Proof.
  intros j Hj.
  assert (Eq : with_neighbours M_FTES4_suzuki 2 (nthC qc) j = (RtoC (1 / 2), RtoC (1 / 2), RtoC (1 / 2))) by (destruct j as [|[|j]]; [reflexivity|reflexivity|lia]).
  rewrite Eq. clear Eq. split.
  - intros u s a [= <- <-] (c & w & Hin & Ha). destruct Hin as [[= <- <-]|[]]. apply exact_half.
    assert (G : forall x : R, (1 <= Rabs x)%R -> (1 / 10000 <= Rabs (x * (1 / INR 48)))%R).
    { intros x Hx. rewrite Rabs_mult. replace (INR 48) with 48%R by (rewrite INR_IZR_INZ; reflexivity). rewrite (Rabs_pos_eq (1 / 48)) by lra.
      apply Rle_trans with (1 * (1 / 48))%R; [lra|]. apply Rmult_le_compat_r; lra. }
    apply G. cbn in Ha. repeat (destruct Ha as [Ha|Ha]; [try discriminate Ha; injection Ha as <-; unfold Q2R; cbn; first [rewrite Rabs_pos_eq by lra; lra|rewrite Rabs_left by lra; lra]|]). destruct Ha.
  - intros _. assert (Z : forall x : C, (x / 12 + d2 (RtoC (1 / 2)) (RtoC (1 / 2)) (RtoC (1 / 2)) / 48) * RtoC 1 = x / 12) by (intros x; unfold d2; field).
    assert (Z1 : d1 (RtoC (1 / 2)) (RtoC (1 / 2)) = 0) by (unfold d1; field).
    rewrite !Z, !Z1. split; left; split; field.
Qed.
Theorem manakov_suzuki_call : exists u' user' dflt' cs',
  fnft_manakovv (mlib_env L7) 2 (Some qc) (Some qc) T01 2 (Some XI2) (-1) None (mcs_opts CS_AB M_FTES4_suzuki) um = Ret (SUCCESS, u', user', dflt') /\
  u_cs u' = Some cs' /\ mconserved (-1) CS_AB 2 cs'.
Proof.
  pose proof (mvalid2 CS_AB M_FTES4_suzuki (-1) qc qc ltac:(discriminate) ltac:(auto)) as V.
  assert (Hsp : spacing (0, 1)%R 2 = 1%R) by apply spacing2.
  destruct (manakovv_contspec_is_discrete_nft L7 L7_ok 2 qc qc (0, 1)%R 2 XI2 (-1) None (mcs_opts CS_AB M_FTES4_suzuki) um (repeat (RtoC 0) 11)) as (p & Ep & Hpl & _);
    try assumption; try reflexivity; try (cbn; lia); try discriminate; try (right; reflexivity).
  destruct (manakovv_energy_conserved L7 2 qc qc (0, 1)%R 2 XI2 (-1) None (mcs_opts CS_AB M_FTES4_suzuki) (mcs_opts CS_AB M_FTES4_suzuki) (repeat (RtoC 0) 11) um) as (p' & Ep' & He);
    try assumption; try reflexivity; try (cbn; lia); try discriminate; try (right; reflexivity); [apply L7_ok|right; right; reflexivity|].
  destruct (Hpl eq_refl) as [E1 E2].
  cbn [mcs_opts m_disc] in Ep'. cbn [mcs_opts m_disc] in Ep. rewrite Ep in Ep'. injection Ep' as <-.
  cbn [mcs_opts m_disc m_cs man_upsampling_factor Nat.mul Nat.add] in He. rewrite E1, E2 in He.
  destruct He as [H3 H4]. { intros i Hi. rewrite Hsp, grid2. apply mexact_suzuki. }
  destruct (H4 eq_refl) as (u' & user' & dflt' & E). destruct (H3 u' user' dflt' E) as (cs' & Ecs & Hc).
  exists u', user', dflt', cs'. auto.
Qed.
