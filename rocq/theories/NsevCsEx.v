(** * Concrete calls that meet the hypotheses of C86-C88 *)
From Coq Require Import Reals Lra.
From Coquelicot Require Import Coquelicot.
From Verif Require Import Loop CExp CField DiscTables DiscModel FscatterSpec FscatterProof ScatterSpec ScatterModel ScatterRun
  NsevSpec NsevEnv NftSpec StepSpec StepNft NsevLib NsevCsTop NsevStep NsevEnergy.
Local Open Scope C_scope.

(** fresh arrays full of sevens *)
Definition L7 : lib := {| l_junk := fun _ n => repeat (RtoC 7) n; l_junkR := repeat 7%R; l_junkZ := repeat 7%Z; l_junk1 := repeat (RtoC 7);
  l_expo := fun _ => 3%Z; l_0 := repeat (RtoC 7); l_1 := repeat (RtoC 7); l_2 := repeat (RtoC 7); l_p := repeat (RtoC 7);
  l_roots := fun _ _ buf => Ret (SUCCESS, buf) |}.
Lemma L7_ok : lib_ok L7.
Proof. constructor; intros; apply repeat_length. Qed.
Definition cs_opts (t : cstype) (d : nse_disc) : opts :=
  {| bound_state_filtering := BF_NONE; bound_state_localization := BL_NEWTON; niter := 0; tol := Fin 0; o_Dsub := 0;
     discspec_type := DS_NORMING_CONSTANTS; contspec_type := t; normalization_flag := true;
     discretization := d; richardson_extrapolation_flag := 0; bounding_box := {| x0 := NaN; x1 := NaN; x2 := NaN; x3 := NaN |} |}.
Definition q2 : list C := [RtoC (1 / 2); RtoC (1 / 3)].
Definition XI2 : R * R := (1, 2)%R.
Definition u2 : outs := {| u_cs := Some (repeat (RtoC 0) 7); u_K := None; u_bs := None; u_nc := None |}.
Lemma valid2 t d kappa : known_disc d -> (kappa = 1 \/ kappa = -1)%Z -> nsev_valid 2 (Some q2) T01 (Some XI2) kappa (cs_opts t d) u2.
Proof.
  intros Hd Hk. constructor; cbn; auto; try discriminate; try apply proper01; try (now intros H; contradiction H).
  intros _. exists 1%R, 2%R. split; [reflexivity|lra].
Qed.
Lemma spacing2 : spacing (0, 1)%R 2 = 1%R /\ spacing XI2 2 = 1%R.
Proof. unfold spacing, XI2. cbn. split; field. Qed.
Lemma grid2 i : grid_point XI2 2 i = (1 + INR i)%R.
Proof. unfold grid_point. rewrite (proj2 spacing2). cbn [fst XI2]. ring. Qed.

(** C86 and C88 with a fast method, through the polynomial arithmetic: a defocusing signal, 2SPLIT2_MODAL.  The call
   succeeds and the six values returned conserve the energy *)
Theorem modal_call_conserves : exists u' user' dflt' cs',
  fnft_nsev (lib_env L7) 2 (Some q2) T01 2 (Some XI2) (-1) (Some (cs_opts CS_BOTH N_2SPLIT2_MODAL)) plain u2 = Ret (SUCCESS, u', user', dflt') /\
  u_cs u' = Some cs' /\ conserved (-1) CS_BOTH 2 cs'.
Proof.
  destruct (nsev_energy_conserved L7 2 q2 (0, 1)%R 2 XI2 (-1) (Some (cs_opts CS_BOTH N_2SPLIT2_MODAL)) plain (cs_opts CS_BOTH N_2SPLIT2_MODAL) (repeat (RtoC 0) 7) u2 A_2SPLIT2_MODAL)
    as (p & Ep & H); try reflexivity; try apply L7_ok; try (cbn; lia); try discriminate.
  - apply valid2; [discriminate|auto].
  - unfold lossless. tauto.
  - intros _ _ j Hj. rewrite (proj1 spacing2). destruct j as [|[|j]]; [| |lia]; cbn [nth q2]; rewrite Cmod_R, Rabs_pos_eq; lra.
  - destruct (nsev_contspec_is_discrete_nft L7 L7_ok 2 q2 (0, 1)%R 2 XI2 (-1) (Some (cs_opts CS_BOTH N_2SPLIT2_MODAL)) plain u2 (repeat (RtoC 0) 7) A_2SPLIT2_MODAL) as (p' & Ep' & Hpl & _);
      try reflexivity; try (cbn; lia); try discriminate; try (right; reflexivity); try (apply valid2; [discriminate|auto]); try (cbn; discriminate).
    change (match Some (cs_opts CS_BOTH N_2SPLIT2_MODAL) with Some o => o | None => plain end) with (cs_opts CS_BOTH N_2SPLIT2_MODAL) in Ep'.
    rewrite Ep in Ep'. injection Ep' as <-. destruct (Hpl eq_refl) as [Eq Er]. rewrite Eq, Er in H.
    destruct H as [H1 H2].
    + intros i Hi. unfold scattering_exact. cbn [akns_degree]. rewrite (proj1 spacing2). intros j Hj. cbn [fast_exact akns_upsampling_factor INR].
      intros E. apply (f_equal fst) in E. cbn in Hj. destruct j as [|[|j]]; [| |lia]; cbn in E; lra.
    + destruct (H2 eq_refl) as (u' & user' & dflt' & E). destruct (H1 u' user' dflt' E) as (cs' & Ecs & Hc).
      exists u', user', dflt', cs'. split; [exact E|]. split; [exact Ecs|exact Hc].
Qed.

(** C87: the staircase 1/2 on (-1/2, 1/2), 1/3 on (1/2, 3/2) *)
Theorem bo_call_exact : exists a b u' user' dflt' cs',
  (forall i, (i < 2)%nat -> forall sig, staircase (0, 1)%R 2 (fun j => nth j q2 0) sig ->
     nft_ab (on_edge (0, 1)%R 2) (edge (0, 1)%R 2 0) (edge (0, 1)%R 2 2) sig (fun t => Cconj (sig t)) (RtoC (1 + INR i)) (a i) (b i)) /\
  fnft_nsev (lib_env L7) 2 (Some q2) T01 2 (Some XI2) (-1) None (cs_opts CS_AB N_BO) u2 = Ret (SUCCESS, u', user', dflt') /\
  u_cs u' = Some cs' /\ (forall i, (i < 2)%nat -> nth i cs' 0 = a i /\ nth (2 + i) cs' 0 = b i) /\ nth 4 cs' (RtoC 5) = 0.
Proof.
  assert (Sg : forall i j, (i < 2)%nat -> (j < 2)%nat ->
     let x := (spacing (0, 1) 2 * spacing (0, 1) 2 * (grid_point XI2 2 i * grid_point XI2 2 i + IZR (-1) * (Cmod (nth j q2 0) * Cmod (nth j q2 0))))%R in
     x = 0%R \/ (1 / 10000000000000000 <= Rabs x)%R).
  { intros i j Hi Hj. rewrite (proj1 spacing2), grid2. right.
    assert (Hq : (0 <= Cmod (nth j q2 0) * Cmod (nth j q2 0) <= 1 / 4)%R).
    { destruct j as [|[|j]]; [| |lia]; cbn [nth q2]; rewrite Cmod_R, Rabs_pos_eq by lra; lra. }
    assert (Hx : (1 <= (1 + INR i) * (1 + INR i))%R). { pose proof (pos_INR i). pose proof (Rmult_le_pos _ _ H H). lra. }
    rewrite Rabs_pos_eq; lra. }
  destruct (nsev_boffetta_osborne_exact L7 2 q2 (0, 1)%R 2 XI2 (-1) None (cs_opts CS_AB N_BO) (cs_opts CS_AB N_BO) (repeat (RtoC 0) 7) u2) as (a & b & Hnft & H1 & H2);
    try reflexivity; try apply L7_ok; try (cbn; lia); try discriminate; try exact Sg.
  - apply valid2; [discriminate|auto].
  - destruct (H2 (or_introl eq_refl) (or_introl eq_refl)) as (u' & user' & dflt' & E). destruct (H1 u' user' dflt' E) as (cs' & Ecs & Hs & Hk).
    exists a, b, u', user', dflt', cs'. split.
    { intros i Hi sig Hsig. specialize (Hnft i Hi sig Hsig). rewrite grid2 in Hnft. 
      replace (fun t => - RtoC (IZR (-1)) * Cconj (sig t)) with (fun t => Cconj (sig t)) in Hnft; [exact Hnft|].
      apply FunctionalExtensionality.functional_extensionality. intros t. apply Ceq; cbn; ring. }
    split; [exact E|]. split; [exact Ecs|]. split.
    + intros i Hi. exact (Hs i Hi).
    + destruct Hk as [Lk Hk]. cbn in Hk. specialize (Hk 4%nat ltac:(lia)). cbn in Hk. now apply nth_error_nth.
Qed.
