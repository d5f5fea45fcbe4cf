(** * A concrete call that meets the hypotheses of C90 *)
From Coq Require Import Reals Lra.
From Coquelicot Require Import Coquelicot.
From Verif Require Import Loop CExp CField DiscTables DiscModel FscatterSpec FscatterProof ScatterSpec ScatterModel ScatterRun
  ScatterMatProps BoundModel BoundSpec BoundProps BoundExact NsevSpec NsevProps NsevEnv NftSpec NsevLib NsevCsTop NsevCsEx.
From Verif Require Import NsevNc.
Local Open Scope C_scope.

(** the constant signal 3 pi/4 on two samples has the eigenvalue 0 for BO; it is given as initial guess *)
Definition u_nc1 : outs := {| u_cs := None; u_K := Some 1%nat; u_bs := Some [RtoC 0]; u_nc := Some [RtoC 9] |}.
Lemma ex_spacing : spacing (0, 1)%R 2 = ex.
Proof. rewrite (proj1 spacing2). symmetry. exact ex_1. Qed.
Lemma rx_map : map (nse_r_from_q 1) qx = rx.
Proof. unfold qx, rx, nse_r_from_q. cbn [map]. repeat f_equal; apply Ceq; cbn; ring. Qed.

Theorem nsev_discspec_example : exists u' user' dflt',
  fnft_nsev (lib_env L7) 2 (Some qx) T01 0 None 1 (Some (cs_opts CS_BOTH N_BO)) plain u_nc1 = Ret (SUCCESS, u', user', dflt') /\
  u_K u' = Some 1%nat /\ u_bs u' = Some [RtoC 0] /\ u_nc u' = Some [RtoC 1].
Proof.
  destruct bound_states_case as (BV & SE & AZ & B1 & _).
  destruct (nsev_discspec_is_discrete_nft L7 L7_ok 2 qx (0, 1)%R 0 None (Some (cs_opts CS_BOTH N_BO)) plain u_nc1 [RtoC 9] A_BO) as (p & d & Ep & Hp & Hd & _ & H); try reflexivity; try discriminate.
  { constructor; cbn; auto; try discriminate; try apply proper01; try (intros H; now contradiction H). }
  { right. reflexivity. }
  injection Hd as <-. destruct (Hp eq_refl) as [Eq Er]. rewrite Eq, Er, rx_map, ex_spacing in H. cbn [discretization cs_opts] in Ep. rewrite ex_spacing in Ep. clear Hp.
  assert (BV7 : bvalid 2 2 qx rx ex 1 [RtoC 0] [RtoC 7] [RtoC 7] (Some [RtoC 7]) (Some [7%Z]) A_BO PDE_NSE false).
  { destruct BV. constructor; assumption. }
  destruct (akns_bound_states_result (l_junk1 L7) (l_junkZ L7) (l_junkZ L7) (lk_junk1 L7 L7_ok) (lk_junkZ L7 L7_ok) (lk_junkZ L7 L7_ok) 2 2 qx rx 0 1 1 _ _ _ _ _ A_BO PDE_NSE false false BV7) as (a2 & ap2 & b2 & W2 & E & _ & _ & Lb & _).
  destruct b2 as [[|y [|? ?]]|]; try discriminate Lb.
  assert (R : exists u' user' dflt', fnft_nsev (lib_env L7) 2 (Some qx) T01 0 None 1 (Some (cs_opts CS_BOTH N_BO)) plain u_nc1 = Ret (SUCCESS, u', user', dflt') /\ u_K u' = Some 1%nat /\ u_bs u' = Some [RtoC 0] /\ u_nc u' = Some [y]).
  { unfold fnft_nsev, nsev_run. assert (A : args_bad 2 (Some qx) T01 None 1 u_nc1 = false).
    { apply (args_bad_spec 2 _ _ _ 1 (cs_opts CS_BOTH N_BO) u_nc1). split; [lia|]. split; [discriminate|]. split; [apply proper01|]. split; [now intros H0|]. split; [now left|]. split; [intros _; discriminate|reflexivity]. }
    rewrite A. cbn [cs_opts discretization disc_class is_newton bound_state_localization negb andb Nat.eqb richardson_extrapolation_flag T01 deref bind fst snd].
    change (nse_upsampling_factor N_BO) with 1%nat. cbn [Nat.eqb].
    assert (S1 : step (1 - 0) 2 = Ret ex) by (rewrite <- ex_spacing; exact (step_spacing (0, 1)%R 2 (le_n 2))).
    rewrite S1. cbn [bind lib_env e_pre]. rewrite Ep. cbn [bind].
    cbn [u_bs u_nc1 no_ptr negb andb]. rewrite Eq, Er, rx_map.
    change ((1 =? 1)%Z && true && false)%bool with false. cbv iota. unfold fnft_nsev_base at 1.
    match goal with |- context [args_bad ?a ?b ?c ?d ?e ?f] => change (args_bad a b c d e f) with (args_bad 2 (Some qx) T01 None 1 u_nc1) end. rewrite A. unfold cs_opts. cbn [discretization].
    change (nse_upsampling_factor N_BO) with 1%nat. cbn [Nat.eqb]. change (2 * 1 / 1)%nat with 2%nat. cbn [fst snd]. rewrite S1. cbn [bind].
    change (nse_fscatter_numel (2 * 1) N_BO) with (Ret O). cbn [bind Nat.eqb negb andb]. unfold check at 1. cbn [Z.eqb SUCCESS u_cs u_nc1 bind]. unfold check at 1. cbn [Z.eqb SUCCESS u_K u_bs u_nc1 Pos.eqb deref bind].
    unfold nsev_compute_boundstates. cbn [discretization]. change (nse_upsampling_factor N_BO) with 1%nat. cbn [Nat.eqb]. unfold nsev_box. cbn [bound_state_filtering bind Z.eqb SUCCESS negb bound_state_localization niter].
    unfold nsev_refine_newton. cbn [Nat.eqb bind]. unfold check at 1. cbn [Z.eqb SUCCESS]. unfold nsev_filter. cbn [bound_state_filtering bind Z.eqb SUCCESS negb]. unfold check at 1. cbn [Z.eqb SUCCESS set_K set_bs u_nc u_nc1 Nat.eqb negb].
    unfold nsev_compute_normconsts. cbn [e_alloc lib_env negb normalization_flag andb discretization]. change (nse_upsampling_factor N_BO) with 1%nat. cbn [Nat.eqb e_sbs]. change (base_method N_BO) with N_BO.
    unfold nse_scatter_bound_states. cbn [nse_to_akns firstn]. change (2 * 1)%nat with 2%nat.
    assert (ES : e_sbs (lib_env L7) 1 2 qx rx (0, 1)%R 1 [RtoC 0] true N_BO false = Ret (SUCCESS, a2, ap2, [y], or_nil W2)).
    { cbn [lib_env e_sbs]. unfold nse_scatter_bound_states. cbn [nse_to_akns].
      change (l_junk L7 5 1) with [RtoC 7]. change (l_junk L7 6 1) with [RtoC 7]. change (l_junk L7 7 1) with [RtoC 7]. change (l_junkZ L7 1) with [7%Z]. rewrite E. reflexivity. }
    rewrite ES. cbn. eexists _, _, _. split; [reflexivity|]. cbn. auto. }
  destruct R as (u' & user' & dflt' & ER & EK & EBS & ENC). exists u', user', dflt'. split; [exact ER|]. split; [exact EK|]. split; [exact EBS|].
  destruct (H u' user' dflt' 1%nat [RtoC 0] ER EK EBS (le_n 1)) as (nc' & En & _ & V). rewrite ENC in En. injection En as <-.
  specialize (V ltac:(intros k Hk; assert (k = 0%nat) as -> by lia; cbn [nth]; intros j Hj; cbn in Hj; destruct (SE j Hj) as [S2 S3]; split; [exact S2|unfold core_ok; unfold dsinc_exact in S3; lra]) 0%nat (le_n 1)).
  cbn [nth] in V. assert (Vb := V). clear V. change (discspec_type _) with DS_NORMING_CONSTANTS in Vb. cbn [discspec_entry nth] in Vb.
  rewrite ENC. rewrite Vb.
  - rewrite (b_of_coeff A_BO ex (nthC qx) (nthC rx) 2 (0, 1)%R 0) by (now left). cbn [fst snd]. change (2 * substeps A_BO)%nat with 2%nat. rewrite B1. reflexivity.
  - rewrite (a_of_coeff A_BO ex (nthC qx) (nthC rx) 2 (0, 1)%R 0) by (now left). unfold a_coeff. change (2 * substeps A_BO)%nat with 2%nat. rewrite AZ. ring.
  - exists 1%nat. split; [lia|]. unfold tail. change ((2 - 1) * substeps A_BO)%nat with 1%nat. cbn [descending]. change (1 * substeps A_BO + 0)%nat with 1%nat. rewrite step_x by lia. rewrite mmul_one_r. cbn [a11 a12].
    rewrite cos_x0, sin_x0. assert (PP : (0 < sqrt 2 / 2)%R) by (pose proof (sqrt_lt_R0 2 ltac:(lra)); lra). split; intros Z; apply RtoC_inj in Z; lra.
Qed.
Print Assumptions nsev_discspec_example.
