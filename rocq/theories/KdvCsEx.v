(** * Concrete calls that meet the hypotheses of C91 and C92 *)
From Coq Require Import Reals Lra.
From Coquelicot Require Import Coquelicot.
From Verif Require Import Loop CExp CField DiscTables DiscModel FscatterSpec FscatterProof ScatterSpec ScatterModel ScatterRun
  NsevSpec NsevEnv KdvvSpec KdvvModel KdvvEnv NftSpec NsevLib NsevCsTop NsevEnergy NsevCsEx.
From Verif Require Import KdvFast KdvCsTop KdvEnergy.
Local Open Scope C_scope.

Definition kcs_opts (t : cstype) (d : kdv_disc) : kopts :=
  {| k_loc := KB_NEWTON; k_niter := 0; k_ds := DS_NORMING_CONSTANTS; k_cs := t; k_norm := true; k_disc := d; k_rich := 0; k_grid := Fin 0 |}.
Lemma kvalid2 t d : kdv_known d -> kdvv_valid 2 (Some q2) T01 2 (Some XI2) (kcs_opts t d) u2.
Proof.
  intros Hd. constructor; cbn; auto; try discriminate; try apply proper01; try (now intros H; contradiction H).
  - intros l i x E Hi Hx. injection E as <-. destruct i as [|[|i]]; [| |lia]; cbn in Hx; injection Hx as <-; reflexivity.
  - intros _. exists 1%R, 2%R. split; [reflexivity|lra].
  - intros I i E H2 Hi. injection E as <-. apply grid12; assumption.
Qed.
Lemma kread2 : kdvv_readable 2 (Some q2) 2 (Some XI2) u2.
Proof. constructor; cbn; intros; try discriminate. injection H as <-. reflexivity. Qed.

(** C91 with a fast method, through the polynomial arithmetic and the chirp transform: the call succeeds and returns a and b of
   the discrete transform; the rest of the array keeps its value *)
Theorem kdv_modal_call : exists a b u' user' dflt' cs',
  (forall i, (i < 2)%nat -> let x := RtoC (1 + INR i) in let S := kdv_S A_2SPLIT2_MODAL true (weights A_2SPLIT2_MODAL) 1 (nthC q2) (nthC [- (1); - (1)]) 2 x in
     a i = nft_a_of S (0, 1)%R 1 x /\ b i = nft_b_of S (0, 1)%R 1 x) /\
  fnft_kdvv (klib_env L7 0 (fun x => x)) 2 (Some q2) T01 2 (Some XI2) (Some (kcs_opts CS_AB K_2SPLIT2_MODAL_VANILLA)) kplain u2 = Ret (SUCCESS, u', user', dflt') /\
  u_cs u' = Some cs' /\ (forall i, (i < 2)%nat -> nth i cs' 0 = a i /\ nth (2 + i) cs' 0 = b i) /\ nth 4 cs' (RtoC 5) = 0.
Proof.
  destruct (kdvv_contspec_is_discrete_nft L7 0 (fun x => x) L7_ok 2 q2 (0, 1)%R 2 XI2 (Some (kcs_opts CS_AB K_2SPLIT2_MODAL_VANILLA)) kplain u2 (repeat (RtoC 0) 7) A_2SPLIT2_MODAL true)
    as (p & Ep & Hpl & H); try reflexivity; try (cbn; lia); try discriminate; try (right; reflexivity); try apply kread2; try (apply kvalid2; repeat split; discriminate); try (cbn; discriminate).
  destruct (Hpl eq_refl) as [Eq Er]. cbv zeta in H. rewrite Eq, Er in H. clear Hpl Ep Eq Er p. change (repeat (- (1)) 2) with [- (1); - (1)] in H.
  rewrite (proj1 spacing2) in H. destruct H as [H1 H2].
  - intros i Hi. unfold kdv_exact, scattering_exact. cbn [akns_degree]. intros j Hj. cbn [fast_exact akns_upsampling_factor INR].
    intros E. apply (f_equal fst) in E. cbn in Hj. destruct j as [|[|j]]; [| |lia]; cbn in E; lra.
  - destruct (H2 (or_introl eq_refl) (or_introl eq_refl)) as (u' & user' & dflt' & E). destruct (H1 u' user' dflt' E) as (cs' & Ecs & Hs & Hk).
    set (S := fun i : nat => kdv_S A_2SPLIT2_MODAL true (weights A_2SPLIT2_MODAL) 1 (nthC q2) (nthC [- (1); - (1)]) 2 (RtoC (1 + INR i))).
    exists (fun i => nft_a_of (S i) (0, 1)%R 1 (RtoC (1 + INR i))), (fun i => nft_b_of (S i) (0, 1)%R 1 (RtoC (1 + INR i))), u', user', dflt', cs'. split; [|split; [exact E|split; [exact Ecs|split]]].
    + intros i Hi x Sx. split; reflexivity.
    + intros i Hi. specialize (Hs i Hi). cbv beta in Hs. rewrite !grid2 in Hs. exact Hs.
    + destruct Hk as [Lk Hk]. cbn in Hk. specialize (Hk 4%nat ltac:(lia)). cbn in Hk. now apply nth_error_nth.
Qed.

(** C92: the exponential of every step, both forms of the spectrum *)
Theorem kdv_bo_call_conserves : exists u' user' dflt' cs',
  fnft_kdvv (klib_env L7 0 (fun x => x)) 2 (Some q2) T01 2 (Some XI2) (Some (kcs_opts CS_BOTH K_BO)) kplain u2 = Ret (SUCCESS, u', user', dflt') /\
  u_cs u' = Some cs' /\ conserved (-1) CS_BOTH 2 cs'.
Proof.
  destruct (kdvv_energy_conserved L7 0 (fun x => x) 2 q2 (0, 1)%R 2 XI2 (Some (kcs_opts CS_BOTH K_BO)) kplain u2 (repeat (RtoC 0) 7) A_BO false)
    as (p & Ep & Hpl & H); try reflexivity; try apply L7_ok; try (cbn; lia); try discriminate; try (right; reflexivity); try apply kread2; try (apply kvalid2; repeat split; discriminate); try (cbn; discriminate).
  { left. reflexivity. }
  destruct (kdvv_contspec_is_discrete_nft L7 0 (fun x => x) L7_ok 2 q2 (0, 1)%R 2 XI2 (Some (kcs_opts CS_BOTH K_BO)) kplain u2 (repeat (RtoC 0) 7) A_BO false)
    as (p' & Ep' & Hpl' & _); try reflexivity; try (cbn; lia); try discriminate; try (right; reflexivity); try apply kread2; try (apply kvalid2; repeat split; discriminate); try (cbn; discriminate).
  rewrite Ep in Ep'. injection Ep' as <-. destruct (Hpl' eq_refl) as [Eq Er]. rewrite Eq, Er in H. destruct H as [H1 H2].
  - intros i Hi. cbn in Hi. destruct i as [|[|i]]; [| |lia]; reflexivity.
  - intros i Hi. unfold kdv_exact, scattering_exact. cbn [akns_degree]. intros j Hj. split; [|exact I].
    rewrite (proj1 spacing2), grid2. right.
    assert (Hq : exists x, nthC q2 j = RtoC x /\ (0 <= x)%R /\ nthC (repeat (- (1)) 2) j = RtoC (-1)).
    { cbn in Hj. destruct j as [|[|j]]; [| |lia]; [exists (1/2)%R|exists (1/3)%R]; (split; [reflexivity|split; [lra|apply Ceq; cbn; ring]]). }
    destruct Hq as (x & E1 & Hx & E2). cbv beta iota delta [step_core X_BO]. change (k_disc (kcs_opts CS_BOTH K_BO)) with K_BO. unfold X_BO. rewrite ?E1, ?E2.
    replace (mdet _) with (RtoC ((1 + INR i) * (1 + INR i) + x)%R).
    + rewrite Cmod_R. pose proof (pos_INR i). pose proof (Rmult_le_pos _ _ H H). rewrite Rabs_pos_eq; lra.
    + cbn. apply Ceq; cbn; ring.
  - destruct (H2 (or_introl eq_refl)) as (u' & user' & dflt' & E). destruct (H1 u' user' dflt' E) as (cs' & Ecs & Hc).
    exists u', user', dflt', cs'. split; [exact E|]. split; [exact Ecs|exact Hc].
Qed.
Print Assumptions kdv_modal_call.
Print Assumptions kdv_bo_call_conserves.
