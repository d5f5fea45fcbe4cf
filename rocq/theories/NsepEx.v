(** * Subroutines that meet their contracts, concrete calls, and promises that fnft_nsep does not keep *)
From Coq Require Import Reals Lra.
From Coquelicot Require Import Coquelicot.
From Verif Require Import Loop CExp MiscSpec MiscProof MiscProps PolyFmultProof DiscProps DiscPreProps NsevSpec NsevProps NsevSafe NsevSafe2 NsevSafe3 NsevSafe5 NsevDisc2 NsevEnv NsevRefuted NsepSpec NsepNewton NsepSafe NsepSafe2 NsepSafe3 NsepSafe4 NsepTop.
Local Open Scope C_scope.

(** Subroutines with constant answers; rootc is the code of the root finders, K0 the uninitialised variable *)
Definition const_penv (rootc : Z) (root : C) (K0 : nat) : penv := {|
  pe_alloc := fun _ _ => true;
  pe_junk := fun _ n => repeat (RtoC 0) n;
  pe_junkK := K0;
  pe_pre := fun s D q eps_t kappa Dsub d => x <- downsample_sizes D Dsub ;;
              Ret (inr {| po_Dsub := snd x; po_q := repeat (RtoC 1) (snd x * nse_upsampling_factor d);
                          po_r := repeat (RtoC (-1)) (snd x * nse_upsampling_factor d); po_first := 0; po_last := (snd x - 1) * fst x |});
  pe_fscatter := fun s D q r eps_t res norm d => Ret (SUCCESS, (nse_degree d * D)%nat, res, 0%Z);
  pe_roots := fun s deg p buf => Ret (rootc, repeat root deg ++ skipn deg buf);
  pe_mono := fun s D q r eps_t kappa lam norm d => Ret (SUCCESS, [lam; lam; RtoC 0; RtoC 0; RtoC 1; RtoC 1; RtoC 0; RtoC 0], 0%Z);
  pe_grid := fun s deg p K PHI roots => Ret (rootc, Nat.min 1 K, repeat root (Nat.min 1 K) ++ skipn (Nat.min 1 K) roots) |}.
Lemma const_penv_ok rootc root K0 : ok_code rootc -> penv_ok (const_penv rootc root K0).
Proof.
  intros Hr. constructor; cbn.
  - intros. apply repeat_length.
  - intros s D q eps_t kappa Dsub d HD _ _.
    assert (Hs : exists x y, downsample_sizes D Dsub = Ret (x, y)).
    { destruct (Nat.eq_dec D 2) as [->|N]; [rewrite sizes_two; eauto|]. destruct (downsample_sizes_spec D Dsub) as (x & y & E & _); [lia|]. eauto. }
    destruct Hs as (x & y & Exy). rewrite Exy. cbn [bind fst snd]. eexists. split; [reflexivity|]. cbn. exists x. rewrite !repeat_length. auto.
  - intros. eexists _, _, _, _. split; [reflexivity|]. split; [codes|]. auto.
  - intros s deg p buf _ Hb. eexists _, _. split; [reflexivity|]. split; [exact Hr|]. split.
    + rewrite app_length, repeat_length, skipn_length. lia.
    + intros i Hi. rewrite nth_error_app2 by (rewrite repeat_length; lia). rewrite repeat_length, nth_error_skip. f_equal. lia.
  - intros. eexists _, _, _. split; [reflexivity|]. split; [codes|reflexivity].
  - intros s deg p K PHI roots _ _ HK. exists rootc, (Nat.min 1 K), (repeat root (Nat.min 1 K) ++ skipn (Nat.min 1 K) roots). split; [reflexivity|]. split; [exact Hr|]. rewrite app_length, repeat_length, skipn_length. split; [|intros _]; lia.
Qed.
Definition EP : penv := const_penv SUCCESS (0, 1)%R 7.
Lemma EP_ok : penv_ok EP. Proof. apply const_penv_ok. codes. Qed.

Definition pbase (l : ploc) (f : pfilt) (d : nse_disc) : popts :=
  {| p_loc := l; p_filt := f; p_box := {| x0 := Fin (-1); x1 := Fin 1; x2 := Fin (-1); x3 := Fin 1 |}; p_max_evals := 0; p_disc := d; p_norm := false;
     p_floquet := (-1, 1)%R; p_points := 2; p_Dsub := 0; p_tol := Fin 0 |}.
Definition q2 : option (list C) := Some [RtoC 1; RtoC 2].
Definition T02 : option (R * R) := Some (0, 2)%R.
Definition wout (m a : option (list C)) : pouts := {| w_K := Some 1%nat; w_main := m; w_M := Some 1%nat; w_aux := a |}.
Lemma valid2 kappa o m a : kappa = 1%Z \/ kappa = (-1)%Z -> (p_filt o <> PF_NONE -> m = None -> a = None) -> nsep_valid 2 q2 T02 false kappa o (wout m a).
Proof.
  intros Hk Hf. constructor; cbn; try discriminate; auto.
  - exists 1%nat. split; [lia|reflexivity].
  - exists 0%R, 2%R. split; [reflexivity|lra].
Qed.
Lemma safe2 kappa o m a : kappa = 1%Z \/ kappa = (-1)%Z -> (p_filt o <> PF_NONE -> m = None -> a = None) ->
  (nse_upsampling_factor (p_disc o) <= 4)%nat -> p_Dsub o = O ->
  (forall l, m = Some l -> (main_size o (wout m a) <= length l)%nat) -> (forall l, a = Some l -> (1 <= length l)%nat) ->
  nsep_safe_call 2 q2 T02 false kappa o (wout m a).
Proof.
  intros Hk Hf Hu Hd Hm Ha. constructor.
  - now apply valid2.
  - intros l El. injection El as <-. reflexivity.
  - lia.
  - rewrite Hd. cbn. lia.
  - constructor; cbn; auto.
Qed.

(** The hypotheses of the theorems are met, and their conclusions are not empty: a successful call that returns a point *)
Example nsep_call_ex : exists w' u' d', penv_ok EP /\
  nsep_safe_call 2 q2 T02 false 1 (pbase PL_NEWTON PF_MANUAL N_BO) (wout (Some [RtoC 0; RtoC 1]) (Some [RtoC 0])) /\
  fnft_nsep EP 2 q2 T02 0 false 1 (Some (pbase PL_NEWTON PF_MANUAL N_BO)) nsep_default_opts (wout (Some [RtoC 0; RtoC 1]) (Some [RtoC 0])) = Ret (SUCCESS, w', u', d') /\
  w_K w' = Some 2%nat /\ w_M w' = Some 1%nat.
Proof.
  assert (HV : nsep_check 2 q2 T02 false 1 (pbase PL_NEWTON PF_MANUAL N_BO) (wout (Some [RtoC 0; RtoC 1]) (Some [RtoC 0])) = SUCCESS).
  { apply nsep_check_valid, valid2; [auto|discriminate]. }
  eexists _, _, _. split; [exact EP_ok|]. split.
  { apply safe2; auto; try discriminate; cbn; try lia; intros l El; injection El as <-; cbn; lia. }
  unfold fnft_nsep, nsep_run. cbv zeta. rewrite HV. change (Z.eqb SUCCESS SUCCESS) with true. cbn [negb].
  assert (HL : lam_shift (0, 2)%R 0 = 0%R) by (unfold lam_shift; cbn [fst snd]; field).
  cbn -[lam_shift nsep_locate Rdiv Rminus Rplus Rmult INR Cexp]. rewrite HL.
  unfold nsep_locate. cbn -[nsep_newton Rdiv Rminus Rplus Rmult INR Cexp]. unfold nsep_newton. cbn -[Rdiv Rminus Rplus Rmult INR Cexp downsample_sizes cfilter].
  rewrite sizes_two. cbn -[Rdiv Rminus Rplus Rmult INR Cexp cfilter].
  assert (HF : forall n (l : list C), n = length l -> (forall x, In x l -> x = RtoC 0 \/ x = RtoC 1) -> cfilter n l {| x0 := Fin (-1 + - 0); x1 := Fin (1 + - 0); x2 := Fin (-1); x3 := Fin 1 |} = Ret (SUCCESS, n, l)).
  { intros n l -> Hl. unfold cfilter. cbn [x0 x1 x2 x3 xle].
    destruct (Rle_dec (-1 + - 0) (1 + - 0)); [|lra]. destruct (Rle_dec (-1) 1); [|lra]. cbn [negb orb].
    destruct (filter_loop_none (box_keep {| x0 := Fin (-1 + - 0); x1 := Fin (1 + - 0); x2 := Fin (-1); x3 := Fin 1 |}) l [] [] [] 0 0 eq_refl eq_refl) as (mid & HLm & HFm).
    cbn [app length Nat.add] in HLm, HFm. rewrite app_nil_r in HFm.
    assert (Hfl : filter (box_keep {| x0 := Fin (-1 + - 0); x1 := Fin (1 + - 0); x2 := Fin (-1); x3 := Fin 1 |}) l = l).
    { clear - Hl. induction l as [|x l IH]; [reflexivity|]. cbn [filter].
      assert (Hx : box_keep {| x0 := Fin (-1 + - 0); x1 := Fin (1 + - 0); x2 := Fin (-1); x3 := Fin 1 |} x = true).
      { apply box_keep_within. unfold within. cbn [x0 x1 x2 x3 xle]. destruct (Hl x (or_introl eq_refl)) as [-> | ->]; cbn [fst snd RtoC];
        repeat split; match goal with |- (if Rle_dec ?a ?b then true else false) = true => destruct (Rle_dec a b); [reflexivity|lra] end. }
      rewrite Hx, IH; [reflexivity|]. intros y Hy. apply Hl. now right. }
    rewrite Hfl in *. rewrite HFm. cbn [bind]. assert (mid = []) by (destruct mid; [reflexivity|cbn in HLm; lia]). subst mid. rewrite app_nil_r. reflexivity. }
  rewrite HF; [|reflexivity|intros x [<-|[<-|[]]]; auto]. cbn -[Rdiv Rminus Rplus Rmult INR Cexp cfilter].
  rewrite HF; [|reflexivity|intros x [<-|[]]; auto]. cbn -[Rdiv Rminus Rplus Rmult INR Cexp cfilter].
  split; [reflexivity|]. split; reflexivity.
Qed.

(** ** C67: options that are not restored *)

(** A successful call without options (or with filtering AUTO) changes the library's default options: fnft_nsep_default_opts() then returns another box *)
Theorem nsep_default_opts_changed_refuted : exists w' dflt', penv_ok EP /\ nsep_safe_call 2 q2 T02 false 1 nsep_default_opts (wout None None) /\
  fnft_nsep EP 2 q2 T02 0 false 1 None nsep_default_opts (wout None None) = Ret (SUCCESS, w', None, dflt') /\ p_box dflt' <> p_box nsep_default_opts.
Proof.
  assert (HV : nsep_check 2 q2 T02 false 1 nsep_default_opts (wout None None) = SUCCESS) by (apply nsep_check_valid, valid2; auto).
  assert (HS : nsep_safe_call 2 q2 T02 false 1 nsep_default_opts (wout None None)) by (apply safe2; auto; cbn; try lia; discriminate).
  eexists _, _. split; [exact EP_ok|]. split; [exact HS|].
  unfold fnft_nsep, nsep_run. cbv zeta. rewrite HV. change (Z.eqb SUCCESS SUCCESS) with true. cbn [negb].
  cbn -[lam_shift nsep_locate Rdiv Rminus Rplus Rmult INR Cexp]. unfold nsep_locate. cbn -[nsep_subsample lam_shift Rdiv Rminus Rplus Rmult INR Cexp].
  unfold nsep_subsample. cbn -[lam_shift choose_Dsub downsample_sizes nse_fscatter_numel Rdiv Rminus Rplus Rmult INR Cexp repeat xscale PI ln Rabs]. rewrite sizes_two. cbn [bind].
  destruct (choose_Dsub_pow 2 0) as (j & ->); [lia|lia|lia|]. cbn [bind]. rewrite sizes_two.
  assert (HN : nse_fscatter_numel 2 N_2SPLIT2A = Ret 16%nat) by (vm_compute; reflexivity).
  cbn -[lam_shift nse_fscatter_numel Rdiv Rminus Rplus Rmult INR Cexp repeat xscale PI ln Rabs]. rewrite HN.
  cbn -[lam_shift Rdiv Rminus Rplus Rmult INR Cexp repeat xscale PI ln Rabs]. split; [reflexivity|]. discriminate.
Qed.

(** A call with manual filtering that fails after the arguments have been checked leaves the user's box shifted; here the grid search refuses a slow discretization *)
Theorem nsep_box_left_shifted_refuted : exists code w' o' dflt', let o := pbase PL_GRIDSEARCH PF_MANUAL N_BO in
  penv_ok EP /\ nsep_safe_call 2 q2 T02 false 1 o (wout (Some [RtoC 0]) None) /\
  fnft_nsep EP 2 q2 T02 4 false 1 (Some o) nsep_default_opts (wout (Some [RtoC 0]) None) = Ret (code, w', Some o', dflt') /\ code <> SUCCESS /\
  x0 (p_box o) = Fin (-1) /\ x0 (p_box o') = Fin 0.
Proof.
  set (o := pbase PL_GRIDSEARCH PF_MANUAL N_BO).
  assert (HV : nsep_check 2 q2 T02 false 1 o (wout (Some [RtoC 0]) None) = SUCCESS) by (apply nsep_check_valid, valid2; auto).
  assert (HS : nsep_safe_call 2 q2 T02 false 1 o (wout (Some [RtoC 0]) None)) by (apply safe2; auto; cbn; try lia; intros l El; [injection El as <-; cbn; lia|discriminate]).
  eexists _, _, _, _. cbv zeta. split; [exact EP_ok|]. split; [exact HS|].
  unfold fnft_nsep, nsep_run. cbv zeta. rewrite HV. change (Z.eqb SUCCESS SUCCESS) with true. cbn [negb].
  assert (HL : lam_shift (0, 2)%R 4 = (-1)%R) by (unfold lam_shift; cbn [fst snd]; field).
  cbn -[lam_shift nsep_locate Rdiv Rminus Rplus Rmult INR Cexp]. rewrite HL. unfold nsep_locate. cbn -[nsep_gridsearch Rdiv Rminus Rplus Rmult INR Cexp].
  unfold nsep_gridsearch. cbn -[downsample_sizes nse_fscatter_numel Rdiv Rminus Rplus Rmult INR Cexp repeat xscale PI ln Rabs]. rewrite sizes_two.
  assert (HN : nse_fscatter_numel 2 N_BO = Ret 0%nat) by (vm_compute; reflexivity).
  cbn -[nse_fscatter_numel Rdiv Rminus Rplus Rmult INR Cexp repeat xscale PI ln Rabs]. rewrite HN.
  cbn -[Rdiv Rminus Rplus Rmult INR Cexp repeat xscale PI ln Rabs]. split; [reflexivity|]. split; [discriminate|]. split; [reflexivity|]. cbn [set_pbox p_box x0]. f_equal. lra.
Qed.

(** ** C70: counts that mean nothing *)

(** With the grid search, without filtering and with main_spec == NULL the number of points that is returned in *K_ptr is an uninitialised variable *)
Theorem nsep_uninitialised_count_refuted K0 : exists w' u' d', let o := pbase PL_GRIDSEARCH PF_NONE N_2SPLIT2A in let E := const_penv SUCCESS (0, 1)%R K0 in
  penv_ok E /\ nsep_safe_call 2 q2 T02 false 1 o (wout None None) /\
  fnft_nsep E 2 q2 T02 0 false 1 (Some o) nsep_default_opts (wout None None) = Ret (SUCCESS, w', u', d') /\ w_K w' = Some K0.
Proof.
  set (o := pbase PL_GRIDSEARCH PF_NONE N_2SPLIT2A).
  assert (HV : nsep_check 2 q2 T02 false 1 o (wout None None) = SUCCESS) by (apply nsep_check_valid, valid2; auto).
  assert (HS : nsep_safe_call 2 q2 T02 false 1 o (wout None None)) by (apply safe2; auto; cbn; try lia; discriminate).
  eexists _, _, _. cbv zeta. split; [apply const_penv_ok; codes|]. split; [exact HS|].
  unfold fnft_nsep, nsep_run. cbv zeta. rewrite HV. change (Z.eqb SUCCESS SUCCESS) with true. cbn [negb].
  cbn -[lam_shift nsep_locate Rdiv Rminus Rplus Rmult INR Cexp]. unfold nsep_locate. cbn -[nsep_gridsearch lam_shift Rdiv Rminus Rplus Rmult INR Cexp].
  unfold nsep_gridsearch. cbn -[downsample_sizes lam_shift nse_fscatter_numel Rdiv Rminus Rplus Rmult INR Cexp repeat xscale xlt PI ln Rabs]. rewrite sizes_two.
  assert (HN : nse_fscatter_numel 2 N_2SPLIT2A = Ret 16%nat) by (vm_compute; reflexivity).
  cbn -[nse_fscatter_numel lam_shift Rdiv Rminus Rplus Rmult INR Cexp repeat xscale xlt PI ln Rabs]. rewrite HN.
  cbn -[Rdiv lam_shift Rminus Rplus Rmult INR Cexp repeat xscale xlt PI ln Rabs]. split; reflexivity.
Qed.

(** When the root finder fails for the auxiliary spectrum, subsample-and-refine still reports success and returns M > 0 points *)
Theorem nsep_root_finder_failure_ignored_refuted : exists w' u' d', let o := pbase PL_SUBSAMPLE_AND_REFINE PF_NONE N_2SPLIT2A in let E := const_penv EC_OTHER (0, 1)%R 0 in
  penv_ok E /\ nsep_safe_call 2 q2 T02 false 1 o (wout None (Some [RtoC 0])) /\
  fnft_nsep E 2 q2 T02 0 false 1 (Some o) nsep_default_opts (wout None (Some [RtoC 0])) = Ret (SUCCESS, w', u', d') /\ w_M w' = Some 1%nat.
Proof.
  set (o := pbase PL_SUBSAMPLE_AND_REFINE PF_NONE N_2SPLIT2A).
  assert (HV : nsep_check 2 q2 T02 false 1 o (wout None (Some [RtoC 0])) = SUCCESS). { apply nsep_check_valid, valid2; [auto|]. intros H. now exfalso; apply H. }
  assert (HS : nsep_safe_call 2 q2 T02 false 1 o (wout None (Some [RtoC 0]))).
  { apply safe2; auto; cbn; try lia; try discriminate. - intros H. now exfalso; apply H. - intros l El; injection El as <-; cbn; lia. }
  eexists _, _, _. cbv zeta. split; [apply const_penv_ok; codes|]. split; [exact HS|].
  unfold fnft_nsep, nsep_run. cbv zeta. rewrite HV. change (Z.eqb SUCCESS SUCCESS) with true. cbn [negb].
  cbn -[lam_shift nsep_locate Rdiv Rminus Rplus Rmult INR Cexp]. unfold nsep_locate. cbn -[nsep_subsample lam_shift Rdiv Rminus Rplus Rmult INR Cexp].
  unfold nsep_subsample. cbn -[lam_shift choose_Dsub downsample_sizes nse_fscatter_numel Rdiv Rminus Rplus Rmult INR Cexp repeat xscale PI ln Rabs nse_z_to_lambda]. rewrite sizes_two. cbn [bind].
  destruct (choose_Dsub_pow 2 0) as (j & ->); [lia|lia|lia|]. cbn [bind]. rewrite sizes_two.
  assert (HN : nse_fscatter_numel 2 N_2SPLIT2A = Ret 16%nat) by (vm_compute; reflexivity).
  cbn -[lam_shift nse_fscatter_numel Rdiv Rminus Rplus Rmult INR Cexp xscale PI ln Rabs nse_z_to_lambda]. rewrite HN.
  cbn -[lam_shift Rdiv Rminus Rplus Rmult INR Cexp xscale PI ln Rabs Clog Carg]. split; reflexivity.
Qed.

(** ** C70: MIXED without filtering and with the default (infinite) box: tol_im is infinite, so that every point of the first stage is thrown away *)
Lemma filter_loop_nothing {A} (keep : A -> bool) : (forall x, keep x = false) -> forall fuel i nf vals r, filter_loop keep fuel i nf vals None = Ret r -> exists v re, r = (nf, v, re).
Proof.
  intros HK. induction fuel as [|n IH]; intros i nf vals r H; cbn [filter_loop] in H; [injection H as <-; eauto|].
  destruct (aget vals i) as [v|]; [|discriminate]. cbn [bind] in H. rewrite HK in H. eauto.
Qed.
Lemma pfilter_real_inf K vals c K' v : pfilter_real true (Inf true) K vals = Ret (c, K', v) -> c = SUCCESS -> K' = O.
Proof.
  unfold pfilter_real, cfilter_nonreal. cbn [xle negb]. intros H Hc. destruct (filter_loop (im_keep (Inf true)) K 0 0 vals None) as [r|] eqn:E; [|discriminate].
  apply filter_loop_nothing in E; [|reflexivity]. destruct E as (v' & re & ->). cbn in H. congruence.
Qed.
Lemma sub_refine_inf E s De q r h K roots rhs kappa d o K' v : sub_refine E s De q r h K roots rhs kappa d true (Inf true) o = Ret (SUCCESS, K', v) -> K' = O.
Proof.
  unfold sub_refine. intros H. destruct (refine_mainspec _ _ _ _ _ _ _ _ _ _ _ _ _ _ _) as [[[c1 v1] ns]|]; [|discriminate]. cbn [bind] in H.
  destruct (negb (Z.eqb c1 SUCCESS)) eqn:E1.
  { destruct (E_SUBROUTINE c1) as [c|] eqn:Ec; [|discriminate]. cbn [bind] in H. inversion H; subst. reflexivity. }
  destruct (pfilter o K v1) as [[[c2 K2] v2]|]; [|discriminate]. cbn [bind] in H. destruct (negb (Z.eqb c2 SUCCESS)).
  { destruct (E_SUBROUTINE c2) as [c|]; [|discriminate]. cbn [bind] in H. inversion H; subst. reflexivity. }
  destruct (pfilter_real true (Inf true) K2 v2) as [[[c3 K3] v3]|] eqn:E3; [|discriminate]. cbn [bind] in H. destruct (Z.eqb_spec c3 SUCCESS) as [S3|N3]; cbn [negb] in H.
  - apply pfilter_real_inf in E3; [|exact S3]. inversion H; subst. reflexivity.
  - destruct (E_SUBROUTINE c3) as [c|]; [|discriminate]. cbn [bind] in H. inversion H; subst. reflexivity.
Qed.
Lemma spine_loop_inf E De q r h deg center W hs kappa d o Kmax : forall cnt nval p K main roots K' main' roots', (K <= Kmax)%nat ->
  spine_loop E cnt nval De q r h deg p center W hs kappa d true (Inf true) o Kmax K main roots = Ret (SUCCESS, (K', main', roots')) -> K' = K.
Proof.
  induction cnt as [|n IH]; intros nval p K main roots K' main' roots' HK H; cbn [spine_loop] in H; [inversion H; subst; reflexivity|].
  destruct (aset p (deg / 2) _) as [p1|]; [|discriminate]. cbn [bind] in H.
  destruct (sub_roots E deg p1 roots hs true (Inf true) o) as [[[c1 K1] v1]|]; [|discriminate]. cbn [bind] in H.
  destruct (Z.eqb_spec c1 SUCCESS); cbn [negb] in H; [|inversion H; subst; congruence].
  destruct (sub_refine E 0 De q r h K1 v1 (spine_rhs o nval) kappa d true (Inf true) o) as [[[c2 K2] v2]|] eqn:E2; [|discriminate]. cbn [bind] in H.
  destruct (Z.eqb_spec c2 SUCCESS) as [S2|]; cbn [negb] in H; [|inversion H; subst; congruence]. subst c2. apply sub_refine_inf in E2. subst K2.
  destruct (Nat.ltb_spec Kmax (K + 0)); [lia|]. destruct (copy 0 K v2 main) as [m1|]; [|discriminate]. cbn [bind] in H.
  apply IH in H; lia.
Qed.
Theorem nsep_mixed_drops_all_points_refuted E D q T kappa t t' :
  (forall s D q h kappa Dsub d c, pe_pre E s D q h kappa Dsub d = Ret (inl c) -> c <> SUCCESS) ->
  p_filt (t_o t) = PF_NONE -> x2 (p_box (t_o t)) = Inf false -> x3 (p_box (t_o t)) = Inf true ->
  nsep_subsample E true D q T kappa t = Ret (SUCCESS, t') -> t_K t' = O /\ t_M t' = O.
Proof.
  intros HE Hf H2 H3 H. unfold nsep_subsample in H. cbv zeta in H.
  assert (Ho : forall h mc, update_box h mc (t_o t) = t_o t) by (intros; unfold update_box; now rewrite Hf).
  destruct (Nat.eqb (nse_upsampling_factor _) 0); [discriminate|]. inv_bind H.
  destruct x as [c|pp]; [inv_bind H; exfalso; inversion H; subst; eapply E_SUB_nonzero; [eapply HE; exact Hx|exact Hx0|reflexivity]|].
  inv_bind H. inv_bind H.
  destruct x0 as [c|ps]; [inv_bind H; exfalso; inversion H; subst; eapply E_SUB_nonzero; [eapply HE; exact Hx1|exact Hx2|reflexivity]|].
  destruct (Nat.eqb (po_Dsub ps) 0); [discriminate|]. destruct (negb (Nat.eqb (po_first ps) 0) || _); [discriminate|].
  inv_bind H. destruct (Nat.eqb x0 0); [discriminate|]. destruct (negb (pe_alloc E 0 0)); [discriminate|].
  inv_bind H. destruct x1 as [[[code deg] tm] W]. apply check_success in H. destruct H as [-> H].
  rewrite Ho, H2, H3 in H. cbn [xsub Bool.eqb xscale] in H. cbn [set_to t_o t_main t_K t_M t_aux] in H.
  inv_bind H. destruct x1 as [c1 [[K main] roots]].
  destruct (Z.eqb_spec c1 SUCCESS) as [->|N1]; cbn [negb] in H; [|exfalso; inversion H; subst; congruence].
  assert (HK : K = O).
  { destruct (t_main t) as [m0|]; [|inversion Hx4; subst; reflexivity]. destruct (negb (pe_alloc E 0 1)); [discriminate|].
    inv_bind Hx4. inv_bind Hx4. inv_bind Hx4. destruct x3 as [cc [[K' m'] r']]. inversion Hx4; subst. eapply spine_loop_inf; [|exact Hx7]. lia. }
  inv_bind H. destruct x1 as [c2 [M aux]]. destruct (Z.eqb_spec c2 SUCCESS) as [->|N2]; cbn [negb] in H; [|exfalso; inversion H; subst; congruence].
  inversion H; subst. cbn [set_counts set_taux t_K t_M]. split; [reflexivity|]. cbn [set_tmain set_to t_aux t_M] in Hx5. clear H. 
  destruct (t_aux t) as [a0|]; [|inversion Hx5; subst; reflexivity].
  inv_bind Hx5. destruct x1 as [cr rr]. inv_bind Hx5. destruct x1 as [cz rz].
  destruct (Z.eqb_spec cz SUCCESS) as [->|Nz]; cbn [negb] in Hx5; [|inv_bind Hx5; inversion Hx5; subst; reflexivity].
  inv_bind Hx5. destruct x1 as [[cf Mf] rf]. destruct (Z.eqb_spec cf SUCCESS) as [->|Nf]; cbn [negb] in Hx5; [|inv_bind Hx5; inversion Hx5; subst; reflexivity].
  inv_bind Hx5. destruct x1 as [[ca ra] na]. destruct (Z.eqb_spec ca SUCCESS) as [->|Na]; cbn [negb] in Hx5; [|inv_bind Hx5; inversion Hx5; subst; reflexivity].
  inv_bind Hx5. destruct x1 as [[cg Mg] rg]. destruct (Z.eqb_spec cg SUCCESS) as [->|Ng]; cbn [negb] in Hx5; [|inv_bind Hx5; inversion Hx5; subst; reflexivity].
  inv_bind Hx5. destruct x1 as [[ch Mh] rh]. destruct (Z.eqb_spec ch SUCCESS) as [->|Nh]; cbn [negb] in Hx5; [|inv_bind Hx5; inversion Hx5; subst; reflexivity].
  apply pfilter_real_inf in Hx11; [|reflexivity]. subst Mh. inv_bind Hx5. inversion Hx5; subst. now destruct (t_M t <? 0)%nat eqn:El; [apply Nat.ltb_lt in El; lia|].
Qed.
Print Assumptions nsep_rejects_invalid_arguments.
Print Assumptions nsep_subsampling_fits.
Print Assumptions nsep_subsampled_size.
Print Assumptions nsep_refinement_is_newton.
Print Assumptions nsep_aux_refinement_is_newton.
Print Assumptions nsep_max_evals_refuted.
Print Assumptions nsep_double_point_refuted.
Print Assumptions nsep_keeps_options.
Print Assumptions nsep_default_opts_changed_refuted.
Print Assumptions nsep_box_left_shifted_refuted.
Print Assumptions nsep_stays_in_bounds.
Print Assumptions nsep_points_filtered.
Print Assumptions nsep_counts.
Print Assumptions nsep_uninitialised_count_refuted.
Print Assumptions nsep_root_finder_failure_ignored_refuted.
Print Assumptions nsep_mixed_drops_all_points_refuted.
