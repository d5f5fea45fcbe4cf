(** * A concrete call that meets the hypotheses of C99 *)
From Coq Require Import Reals Lra.
From Coquelicot Require Import Coquelicot.
From Verif Require Import Loop CExp CField MatExp DiscTables DiscModel FscatterSpec FscatterProof ScatterSpec ScatterModel ScatterRun ScatterMatProps BoundModel BoundSpec BoundProps BoundExact
  NsevSpec NsevEnv KdvvSpec KdvvModel KdvvProps KdvvSafe KdvvSafe3 KdvvEnv NftSpec NsevLib NsevCsTop NsevEnergy NsevCsEx NsevNc NsevNcEx.
From Verif Require Import KdvFast KdvCsTop KdvCsEx.
From Verif Require Import KdvNc.
Local Open Scope C_scope.

(** the signal 2 x0^2 on two samples, x0 = 3 pi/4, has the bound state i BoundExact.x0; it is given as initial guess *)
Definition qk : list C := [RtoC (2 * (BoundExact.x0 * BoundExact.x0)); RtoC (2 * (BoundExact.x0 * BoundExact.x0))].
Definition rk : list C := [- (1); - (1)].
Definition lk : C := (0%R, BoundExact.x0).
Definition u_k1 : outs := {| u_cs := None; u_K := Some 1%nat; u_bs := Some [lk]; u_nc := Some [RtoC 9] |}.
Definition s2 : R := sqrt 2.
Lemma s2_sq : (s2 * s2 = 2)%R. Proof. apply sqrt_sqrt. lra. Qed.

Lemma core_k j : (j < 2)%nat -> step_core A_BO (weights A_BO) (RtoC ex) (nthC qk) (nthC rk) j lk = M2 (RtoC BoundExact.x0) (RtoC (2 * (BoundExact.x0 * BoundExact.x0))) (- (1)) (- RtoC BoundExact.x0).
Proof.
  intros Hj. cbn [step_core]. rewrite w_1. assert (E1 : nthC qk j = RtoC (2 * (BoundExact.x0 * BoundExact.x0)) /\ nthC rk j = - (1)) by (destruct j as [|[|j]]; try lia; split; reflexivity).
  destruct E1 as [-> ->]. unfold X_BO, akns_A, lk. apply mat2_eq; cbn [a11 a12 a21 a22 mscal]; apply Ceq; cbn; ring.
Qed.
Lemma det_k j : (j < 2)%nat -> mdet (step_core A_BO (weights A_BO) (RtoC ex) (nthC qk) (nthC rk) j lk) = RtoC (BoundExact.x0 * BoundExact.x0).
Proof. intros Hj. rewrite core_k by exact Hj. unfold mdet. cbn [a11 a12 a21 a22]. apply Ceq; cbn; ring. Qed.
Lemma det_k_big j : (j < 2)%nat -> (1 <= Cmod (mdet (step_core A_BO (weights A_BO) (RtoC ex) (nthC qk) (nthC rk) j lk)))%R.
Proof. intros Hj. rewrite det_k by exact Hj. rewrite Cmod_R. pose proof x0_pos. rewrite Rabs_pos_eq by nra. nra. Qed.
Lemma mexp_rotation X (x : R) : (0 < x)%R -> mdet X = RtoC (x * x) -> mexp X = madd (mscal (RtoC (cos x)) mone) (mscal (RtoC (sin x / x)) X).
Proof.
  intros Hx Hd. assert (Nx' : RtoC x <> 0) by (intros E; apply RtoC_inj in E; lra).
  assert (Nx : Ci * RtoC x <> 0) by (apply Cmult_neq_0; [exact Ci_neq0|exact Nx']).
  rewrite (mexp_root (Ci * RtoC x)) by (rewrite Hd, RtoC_mult; ring [Ci_sqr]). unfold mexp_at. destruct (Ceq_dec (Ci * RtoC x) 0) as [E|_]; [contradiction|].
  assert (EP : Cexp (Ci * RtoC x) = RtoC (cos x) + Ci * RtoC (sin x)) by apply Cexp_i.
  assert (EM : Cexp (- (Ci * RtoC x)) = RtoC (cos x) - Ci * RtoC (sin x)).
  { replace (- (Ci * RtoC x)) with (Ci * RtoC (- x)) by (rewrite RtoC_opp; ring). rewrite Cexp_i, cos_neg, sin_neg, RtoC_opp. ring. }
  assert (EC : Ccosh (Ci * RtoC x) = RtoC (cos x)) by (unfold Ccosh; rewrite EP, EM; field; exact C2_neq0).
  assert (ES : Csinh (Ci * RtoC x) = Ci * RtoC (sin x)) by (unfold Csinh; rewrite EP, EM; field; exact C2_neq0).
  rewrite EC, ES. f_equal. f_equal. rewrite RtoC_div by lra. field. split; [exact Nx'|exact Ci_neq0].
Qed.
Lemma step_k j : (j < 2)%nat -> slow_step A_BO (weights A_BO) (RtoC ex) (nthC qk) (nthC rk) j lk = M2 0 (RtoC (s2 * BoundExact.x0)) (RtoC (- (s2 / 2 / BoundExact.x0))) (RtoC (- s2)).
Proof.
  intros Hj. unfold slow_step. cbn [step_outer sandwich]. pose proof x0_pos. rewrite (mexp_rotation _ BoundExact.x0) by (try lra; now apply det_k). rewrite core_k by exact Hj.
  rewrite cos_x0, sin_x0. fold s2. apply mat2_eq; cbn [a11 a12 a21 a22 madd mscal mone]; apply Ceq; cbn; field; lra.
Qed.
Lemma basis_k : minv (basisP PDE_KdV true lk) = M2 (RtoC (- / (2 * BoundExact.x0))) 0 (RtoC (/ (2 * BoundExact.x0))) 1 /\ basisP PDE_KdV true lk = M2 (RtoC (- (2 * BoundExact.x0))) 0 1 1.
Proof.
  pose proof x0_pos as Hx. assert (E : basisP PDE_KdV true lk = M2 (RtoC (- (2 * BoundExact.x0))) 0 1 1) by (apply mat2_eq; cbn [basisP a11 a12 a21 a22]; unfold lk; apply Ceq; cbn; ring).
  split; [|exact E]. rewrite E. assert (N2 : RtoC (- (2 * BoundExact.x0)) <> 0) by (intros Z; apply RtoC_inj in Z; lra).
  unfold minv, mdet. cbn [a11 a12 a21 a22]. replace (RtoC (- (2 * BoundExact.x0)) * 1 - 0 * 1) with (RtoC (- (2 * BoundExact.x0))) by ring. rewrite <- RtoC_inv by lra.
  apply mat2_eq; cbn [a11 a12 a21 a22 mscal]; apply Ceq; cbn; field; lra.
Qed.
Lemma S_k : slow_S A_BO PDE_KdV true (weights A_BO) (RtoC ex) (nthC qk) (nthC rk) 2 lk = M2 0 1 (- (1)) 0.
Proof.
  unfold slow_S. cbn [descending]. rewrite (step_k 0), (step_k 1) by lia. destruct basis_k as [-> ->]. pose proof x0_pos. pose proof s2_sq as E2.
  apply mat2_eq; cbn [a11 a12 a21 a22 mmul mone]; apply Ceq; cbn; field_simplify; try lra; try (replace (s2 ^ 2)%R with 2%R by (rewrite <- E2; ring); field; lra).
Qed.

Theorem kdvv_discspec_example : exists u' user' dflt',
  fnft_kdvv (klib_env L7 0 (fun x => x)) 2 (Some qk) T01 0 None (Some (kcs_opts CS_BOTH K_BO_VANILLA)) kplain u_k1 = Ret (SUCCESS, u', user', dflt') /\
  u_K u' = Some 1%nat /\ u_bs u' = Some [lk] /\ u_nc u' = Some [RtoC (- exp BoundExact.x0)].
Proof.
  pose proof x0_pos as Hx.
  assert (V : kdvv_valid 2 (Some qk) T01 0 None (kcs_opts CS_BOTH K_BO_VANILLA) u_k1).
  { constructor; cbn; auto; try discriminate; try apply proper01; try (intros H; now contradiction H).
    - intros l i x E Hi Hn. injection E as <-. destruct i as [|[|i]]; [| |lia]; cbn in Hn; injection Hn as <-; reflexivity.
    - intros l K i x _ E1 E2 Hi Hn. injection E1 as <-. injection E2 as <-. assert (i = 0%nat) as -> by lia. cbn in Hn. injection Hn as <-. split; [reflexivity|cbn; lra]. }
  assert (Rd : kdvv_readable 2 (Some qk) 0 None u_k1).
  { constructor; cbn; intros; try congruence. + injection H as <-. reflexivity. + injection H as <-. injection H0 as <-. cbn. lia. }
  destruct (kdvv_discspec_is_discrete_nft L7 L7_ok 0 (fun x => x) 2 qk (0, 1)%R 0 None (Some (kcs_opts CS_BOTH K_BO_VANILLA)) kplain u_k1 [RtoC 9] A_BO V Rd) as (p & slow & d & v & Ep & Hsl & Hd & Hv & _ & Hpl & H); try reflexivity; try discriminate.
  { right. reflexivity. }
  destruct (Hpl eq_refl) as (Eq & Er & -> & Hreal). injection Hv as <-. rewrite Eq, Er, ex_spacing in *. change (repeat (- (1)) 2) with rk in *. clear Hpl.
  cbn [k_disc kcs_opts] in Ep. injection Hsl as <-. 

  pose proof (check_valid 2 (Some qk) T01 0 None (kcs_opts CS_BOTH K_BO_VANILLA) u_k1 V Rd) as Hck.
  assert (BV7 : bvalid 2 2 qk rk ex 1 [lk] [RtoC 7] [RtoC 7] (Some [RtoC 7]) (Some [7%Z]) A_BO PDE_KdV false).
  { constructor; try (cbn; lia); try (intros _; cbn; lia).
    - now left.
    - right. split; [reflexivity|]. intros i Hi. assert (i = 0%nat) as -> by lia. cbn. intros E. apply (f_equal snd) in E. cbn in E. lra.
    - intros i j Hi Hj. assert (i = 0%nat) as -> by lia. cbn [nth]. unfold core_ok. change (j < 2)%nat in Hj. pose proof (det_k_big j Hj) as Hb. lra. }
  destruct (akns_bound_states_result (l_junk1 L7) (l_junkZ L7) (l_junkZ L7) (lk_junk1 L7 L7_ok) (lk_junkZ L7 L7_ok) (lk_junkZ L7 L7_ok) 2 2 qk rk 0 1 1 _ _ _ _ _ A_BO PDE_KdV true false BV7) as (a2 & ap2 & b2 & W2 & E & _ & _ & Lb & _).
  destruct b2 as [[|y [|? ?]]|]; try discriminate Lb.
  assert (R : exists u' user' dflt', fnft_kdvv (klib_env L7 0 (fun x => x)) 2 (Some qk) T01 0 None (Some (kcs_opts CS_BOTH K_BO_VANILLA)) kplain u_k1 = Ret (SUCCESS, u', user', dflt') /\ u_K u' = Some 1%nat /\ u_bs u' = Some [lk] /\ u_nc u' = Some [y]).
  { unfold fnft_kdvv, kdvv_run. rewrite Hck. cbn [bind]. change (negb (SUCCESS =? SUCCESS)%Z) with false. cbv iota.
    cbn [kcs_opts k_disc k_rich Nat.eqb andb T01 deref bind fst snd]. change (kdv_upsampling_factor K_BO_VANILLA) with 1%nat. cbn [Nat.eqb].
    assert (S1 : step (1 - 0) 2 = Ret ex) by (rewrite <- ex_spacing; exact (step_spacing (0, 1)%R 2 (le_n 2))).
    rewrite S1. cbn [bind klib_env ke_pre]. rewrite Ep. cbn [bind]. rewrite Eq, Er.
    unfold fnft_kdvv_base at 1.
    assert (A : args_bad (2 * 1) (Some qk) (Some (0, 1)%R) None 1 u_k1 = false).
    { apply (NsevProps.args_bad_spec 2 _ _ _ 1 (cs_opts CS_BOTH N_BO) u_k1). split; [lia|]. split; [discriminate|]. split; [apply proper01|]. split; [now intros H0|]. split; [now left|]. split; [intros _; discriminate|reflexivity]. }
    rewrite A. unfold kcs_opts. cbn [k_disc]. change (kdv_upsampling_factor K_BO_VANILLA) with 1%nat. cbn [Nat.eqb]. change (2 * 1 / 1)%nat with 2%nat. cbn [fst snd]. rewrite S1. cbn [bind].
    change (kdv_fscatter_numel (2 * 1) K_BO_VANILLA) with (Ret O). cbn [bind Nat.eqb negb andb]. unfold check at 1. cbn [Z.eqb SUCCESS u_cs u_k1 bind]. unfold check at 1. cbn [Z.eqb SUCCESS u_K u_bs u_k1 deref bind Nat.eqb negb].

    unfold kdvv_compute_boundstates. cbn [k_disc]. change (kdv_upsampling_factor K_BO_VANILLA) with 1%nat. cbn [Nat.eqb]. change (kdv_slow_discretization K_BO_VANILLA) with (Some K_BO_VANILLA). cbv iota.
    assert (Bd : bound_squared (2 * 1) qk K_BO_VANILLA = Ret (2 * (BoundExact.x0 * BoundExact.x0))%R).
    { unfold bound_squared. change (kdv_upsampling_factor K_BO_VANILLA <=? 2)%nat with true. cbv iota. unfold max_re. cbn -[BoundExact.x0 Rlt_dec Rmult].
      destruct (Rlt_dec (2 * (BoundExact.x0 * BoundExact.x0)) 0); [nra|]. destruct (Rlt_dec (2 * (BoundExact.x0 * BoundExact.x0)) (2 * (BoundExact.x0 * BoundExact.x0))); reflexivity. }
    rewrite Bd. cbn [bind]. destruct (Req_EM_T (2 * (BoundExact.x0 * BoundExact.x0)) 0) as [E0|_]; [exfalso; nra|]. cbn [k_loc k_niter]. unfold kdvv_refine_newton. cbn [Nat.eqb bind]. unfold check at 1. cbn [Z.eqb SUCCESS bind]. unfold check at 1. cbn [Z.eqb SUCCESS set_K set_bs u_nc u_k1 Nat.eqb negb].
    unfold kdvv_compute_normconsts. cbn [ke_alloc klib_env negb k_norm andb k_disc]. change (kdv_upsampling_factor K_BO_VANILLA) with 1%nat. cbn [Nat.eqb]. change (kdv_slow_discretization K_BO_VANILLA) with (Some K_BO_VANILLA). cbv iota.
    change (2 * 1)%nat with 2%nat.
    assert (ES : ke_sbs (klib_env L7 0 (fun x => x)) 1 2 qk rk (0, 1)%R 1 (firstn 1 [lk]) true K_BO_VANILLA false = Ret (SUCCESS, a2, ap2, [y], or_nil W2)).
    { cbn [klib_env ke_sbs]. unfold kdv_scatter_bound_states. cbn [kdv_to_akns kdv_vanilla_flag firstn].
      change (l_junk L7 5 1) with [RtoC 7]. change (l_junk L7 6 1) with [RtoC 7]. change (l_junk L7 7 1) with [RtoC 7]. change (l_junkZ L7 1) with [7%Z].
      fold ex in E. rewrite E. reflexivity. }
    cbn [klib_env ke_sbs firstn] in ES |- *. rewrite ES. cbn. eexists _, _, _. split; [reflexivity|]. cbn. auto. }
  destruct R as (u' & user' & dflt' & ER & EK & EBS & ENC). exists u', user', dflt'. split; [exact ER|]. split; [exact EK|]. split; [exact EBS|].
  destruct (H u' user' dflt' 1%nat [lk] ER EK EBS (le_n 1)) as (nc' & En & _ & Vn). rewrite ENC in En. injection En as <-.
  assert (Nl : lk <> 0) by (intros E0; apply (f_equal snd) in E0; cbn in E0; lra).
  specialize (Vn ltac:(intros k Hk; assert (k = 0%nat) as -> by lia; cbn [nth]; split; [exact Nl|]; intros j Hj; change (j < 2)%nat in Hj; pose proof (det_k_big j Hj) as Hb; split; [split; [right; lra|exact I]|unfold core_ok; lra]) Hreal 0%nat (le_n 1) eq_refl).
  cbn [nth] in Vn. change (k_ds _) with DS_NORMING_CONSTANTS in Vn. cbn [discspec_entry nth] in Vn.
  rewrite ENC. rewrite Vn.
  - assert (Eb := kb_of_coeff A_BO true ex (nthC qk) (nthC rk) 2 (0, 1)%R lk (or_introl eq_refl)). cbv iota in Eb. rewrite Eb. unfold b_coeff. change (2 * substeps A_BO)%nat with 2%nat. rewrite S_k. cbn [a21 fst snd].
    f_equal. f_equal. rewrite ex_1. match goal with |- Cexp ?z * _ = _ => replace z with (RtoC BoundExact.x0) by (unfold lk; apply Ceq; cbn; field) end.
    unfold Cexp. cbn [fst snd RtoC]. rewrite cos_0, sin_0. apply Ceq; cbn; ring.
  - assert (Ea := ka_of_coeff A_BO true ex (nthC qk) (nthC rk) 2 (0, 1)%R lk (or_introl eq_refl)). cbv iota in Ea. rewrite Ea. unfold a_coeff. change (2 * substeps A_BO)%nat with 2%nat. rewrite S_k. cbn [a11]. ring.
  - exists 1%nat. split; [lia|]. cbv iota. unfold NsevNc.tail. change ((2 - 1) * substeps A_BO)%nat with 1%nat. cbn [descending]. change (1 * substeps A_BO + 0)%nat with 1%nat. rewrite step_k by lia. rewrite mmul_one_r.
    unfold based. destruct basis_k as [-> ->]. pose proof s2_sq as E2. assert (P2 : (0 < s2)%R) by (apply sqrt_lt_R0; lra). cbn [mmul a11 a12].
    assert (Nz : (- / (2 * BoundExact.x0) * (s2 * BoundExact.x0) <> 0)%R).
    { intros Z. apply Rmult_integral in Z. destruct Z as [Z|Z]; [|apply Rmult_integral in Z; lra]. assert (0 < / (2 * BoundExact.x0))%R by (apply Rinv_0_lt_compat; lra). lra. }
    split; intros Z; apply Nz; apply (f_equal fst) in Z; cbn in Z; cbn; rewrite <- Z; ring.
Qed.
