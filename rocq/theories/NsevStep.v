(** * fnft_nsev with the Boffetta-Osborne method returns the exact NFT of the staircase through the samples (C87) *)
From Coq Require Import Reals Lra.
From Coquelicot Require Import Coquelicot.
From Verif Require Import Loop CExp CField DiscTables DiscModel FscatterSpec FscatterProof ScatterSpec ScatterModel ScatterRun ScatterMatProps
  NsevSpec NftSpec StepSpec StepNft NsevLib NsevCsTop.
Local Open Scope C_scope.

Lemma bo_steps (eps : R) (q r : nat -> C) n lam : scattering A_BO (weights A_BO) eps q r n lam = descending n (fun j => mexp (mscal (RtoC eps) (akns_A lam (q j) (r j)))).
Proof.
  unfold scattering. cbn [akns_degree slow_steps]. apply descending_ext. intros j _. unfold slow_step, step_outer, sandwich, step_core, X_BO.
  change (weights A_BO) with [RtoC 1]. cbn [length]. rewrite Nat.mod_1_r. cbn [nth]. now rewrite Cmult_1_l.
Qed.
Lemma edge_ends T D : (2 <= D)%nat -> edge T D 0 = (fst T - spacing T D / 2)%R /\ edge T D D = (snd T + spacing T D / 2)%R.
Proof.
  intros H. unfold edge. cbn [INR]. split; [ring|]. assert (E : (INR D = INR (D - 1) + 1)%R) by (rewrite <- S_INR; f_equal; lia). rewrite E.
  unfold spacing. field. apply not_0_INR. lia.
Qed.

(** C87.  [u] = the staircase through the samples.  Hypothesis on the samples: the code's sinc is evaluated at arguments
   sqrt(x), x = eps^2 (xi^2 + kappa |q_j|^2), where it is exact unless 0 < |x| < 1e-16 *)
Theorem nsev_boffetta_osborne_exact L D q T M XI kappa user dflt o cs u : lib_ok L ->
  (match user with Some o => o | None => dflt end) = o ->
  nsev_valid D (Some q) (Some T) (Some XI) kappa o u -> length q = D -> (2 <= M)%nat ->
  u_cs u = Some cs -> (cs_values (contspec_type o) * M <= length cs)%nat -> contspec_type o <> CS_bad ->
  richardson_extrapolation_flag o <> 1%nat -> discretization o = N_BO -> (Z.of_nat D <= 2147483647)%Z ->
  (forall i j, (i < M)%nat -> (j < D)%nat ->
     let x := (spacing T D * spacing T D * (grid_point XI M i * grid_point XI M i + IZR kappa * (Cmod (nth j q 0) * Cmod (nth j q 0))))%R in
     x = 0%R \/ (1 / 10000000000000000 <= Rabs x)%R) ->
  exists a b : nat -> C,
  (forall i, (i < M)%nat -> forall sig, staircase T D (fun j => nth j q 0) sig ->
     nft_ab (on_edge T D) (edge T D 0) (edge T D D) sig (fun t => - RtoC (IZR kappa) * Cconj (sig t)) (RtoC (grid_point XI M i)) (a i) (b i)) /\
  (forall u' user' dflt', fnft_nsev (lib_env L) D (Some q) (Some T) M (Some XI) kappa user dflt u = Ret (SUCCESS, u', user', dflt') ->
     exists cs', u_cs u' = Some cs' /\ spectrum_is (contspec_type o) M a b cs' /\ kept (cs_values (contspec_type o) * M) cs cs') /\
  ((u_bs u = None \/ kappa = (-1)%Z) -> (contspec_type o = CS_AB \/ forall i, (i < M)%nat -> a i <> 0) ->
     exists u' user' dflt', fnft_nsev (lib_env L) D (Some q) (Some T) M (Some XI) kappa user dflt u = Ret (SUCCESS, u', user', dflt')).
Proof.
  intros HL Eo V Lq HM Ecs Lcs Hct Hr Hd H31 Hx.
  destruct (nsev_contspec_is_discrete_nft L HL D q T M XI kappa user dflt u cs A_BO) as (p & Ep & Hpl & Hmain); try (rewrite Eo); try assumption; try (rewrite Hd; reflexivity); try (right; reflexivity).
  { cbn [akns_upsampling_factor]. now rewrite Nat.mul_1_r. }
  rewrite Eo in Hmain. destruct (Hpl eq_refl) as [Eq Er]. rewrite Eq, Er in Hmain. cbn [akns_upsampling_factor] in Hmain. rewrite Nat.mul_1_r in Hmain.
  set (r := map (nse_r_from_q kappa) q) in *.
  destruct V as [VD _ VT _ Vk _ _ _]. destruct VT as (t0 & t1 & ET & HT). injection ET as ->.
  assert (He : (0 < spacing (t0, t1) D)%R) by (apply spacing_pos; [exact HT|exact VD]). set (eps := spacing (t0, t1) D) in *.
  assert (Rk : forall x, nse_r_from_q kappa x = - RtoC (IZR kappa) * Cconj x).
  { intros x. unfold nse_r_from_q. destruct Vk as [-> | ->]; cbn [Z.eqb Pos.eqb]; apply Ceq; cbn; ring. }
  assert (Nr : forall j, (j < D)%nat -> nthC r j = - RtoC (IZR kappa) * Cconj (nth j q 0)).
  { intros j Hj. unfold nthC, r. rewrite nth_indep with (d' := nse_r_from_q kappa 0) by (rewrite map_length; lia). rewrite map_nth. apply Rk. }
  set (S := fun i => scattering A_BO (weights A_BO) eps (nthC q) (nthC r) D (RtoC (grid_point XI M i))).
  exists (fun i => nft_a_of (S i) (t0, t1) eps (RtoC (grid_point XI M i))), (fun i => nft_b_of (S i) (t0, t1) eps (RtoC (grid_point XI M i))). split.
  - intros i Hi sig Hs. unfold S. rewrite bo_steps. destruct (edge_ends (t0, t1) D VD) as [E0 E1]. unfold nft_a_of, nft_b_of. fold eps in E0, E1. rewrite <- E0, <- E1.
    apply (staircase_nft (t0, t1) D (nthC q) (nthC r) sig (fun t => - RtoC (IZR kappa) * Cconj (sig t)) (RtoC (grid_point XI M i)) He); [exact Hs|].
    destruct Hs as [S1 S2]. split.
    + intros t Ht. rewrite S1 by exact Ht. apply Ceq; cbn; ring.
    + intros j t Hj Ht. rewrite (S2 j t Hj Ht), (Nr j Hj). reflexivity.
  - cbv zeta in Hmain. 
    assert (Hex : forall i, (i < M)%nat -> scattering_exact A_BO (weights A_BO) eps (nthC q) (nthC r) D (RtoC (grid_point XI M i))); [|specialize (Hmain Hex)].
    2: exact Hmain.
    intros i Hi. unfold scattering_exact. cbn [akns_degree slow_steps]. intros j Hj. split; [|exact I].
    unfold step_core, X_BO. change (weights A_BO) with [RtoC 1]. cbn [length]. rewrite Nat.mod_1_r. cbn [nth]. rewrite Cmult_1_l.
    set (x := (eps * eps * (grid_point XI M i * grid_point XI M i + IZR kappa * (Cmod (nth j q 0) * Cmod (nth j q 0))))%R).
    assert (E : mdet (mscal (RtoC eps) (akns_A (RtoC (grid_point XI M i)) (nthC q j) (nthC r j))) = RtoC x).
    { rewrite (Nr j Hj). unfold nthC, x. rewrite Cmod_sq. unfold mdet, mscal, akns_A. cbn [a11 a12 a21 a22]. apply Ceq; cbn; ring. }
    unfold sinc_exact. rewrite E. rewrite Cmod_R. destruct (Hx i j Hi Hj) as [H0|H0]; [left; fold eps in H0; fold x in H0; now rewrite H0|right; exact H0].
Qed.
Print Assumptions nsev_boffetta_osborne_exact.
