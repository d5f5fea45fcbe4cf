(** * Subroutines that meet their contracts, and calls that show where fnft_kdvv does not keep its promises (C50, C51, C62, C63, C65) *)
From Coq Require Import Reals Lra.
From Coquelicot Require Import Coquelicot.
From Verif Require Import Loop CExp MiscSpec MiscProof MiscProps PolyFmultProof DiscProps DiscPreProps NsevSpec NsevProps NsevSafe NsevSafe2 NsevSafe3 NsevSafe4 NsevSafe5
  NsevEnv NsevRefuted KdvvSpec KdvvProps KdvvSafe KdvvGrid KdvvSafe2 KdvvSafe3 KdvvNewton KdvvTop.
Local Open Scope C_scope.

(** Subroutines with constant answers: preprocessing fails at the call sites s with prec s = Some code; [g i] is the first entry
   of the scattering matrix number i.  All allocations succeed.  The preprocessed samples are 1. *)
Definition const_kenv (prec : nat -> option Z) (g : nat -> C) (a ap b : C) : kenv := {|
  ke_alloc := fun _ _ => true;
  ke_junk := fun _ n => repeat (RtoC 0) n;
  ke_pre := fun s D q eps_t Dsub d =>
    match prec s with
    | Some c => Ret (inl c)
    | None => x <- downsample_sizes D Dsub ;;
              Ret (inr {| po_Dsub := snd x; po_q := repeat (RtoC 1) (snd x * kdv_upsampling_factor d);
                          po_r := repeat (RtoC (-1)) (snd x * kdv_upsampling_factor d); po_first := 0; po_last := (snd x - 1) * fst x |})
    end;
  ke_fscatter := fun s D q r eps_t res norm d => Ret (SUCCESS, (kdv_degree d * D)%nat, res, 0%Z);
  ke_smat := fun s D q r eps_t M xi norm d => Ret (SUCCESS, flat_map (fun i => [g i; RtoC 0; RtoC 0; RtoC 1]) (seq 0 M), repeat 0%Z M);
  ke_chirpz := fun s deg p A V M => Ret (SUCCESS, repeat (RtoC 1) M);
  ke_sbs := fun s D q r T K bs norm d skip => Ret (SUCCESS, repeat a K, repeat ap K, repeat b K, repeat 0%Z K);
  ke_tiny := 0; ke_below := fun x => x |}.

Lemma four_each (g : nat -> C) M k : length (flat_map (fun i => [g i; RtoC 0; RtoC 0; RtoC 1]) (seq k M)) = (4 * M)%nat.
Proof. revert k. induction M as [|M IH]; intros k; [reflexivity|]. cbn [seq flat_map app length]. rewrite IH. lia. Qed.
Lemma const_kenv_ok prec g a ap b : (ap = RtoC 0 \/ snd ap <> 0%R) -> (forall s c, prec s = Some c -> ok_code c /\ c <> SUCCESS) ->
  kenv_ok (const_kenv prec g a ap b).
Proof.
  intros Ha Hp. constructor; cbn -[flat_map seq].
  - intros. apply repeat_length.
  - intros s D q eps_t Dsub d HD _ _. destruct (prec s) as [c|] eqn:Es; [eexists; split; [reflexivity|]; cbn; eauto|].
    assert (Hs : exists x y, downsample_sizes D Dsub = Ret (x, y)).
    { destruct (Nat.eq_dec D 2) as [->|N]; [rewrite NsevEnv.sizes_two; eauto|]. destruct (MiscProof.downsample_sizes_spec D Dsub) as (x & y & E & _); [lia|]. eauto. }
    destruct Hs as (x & y & Exy). rewrite Exy. cbn [bind fst snd]. eexists. split; [reflexivity|]. cbn.
    exists x. rewrite !repeat_length. auto.
  - intros. eexists _, _, _, _. split; [reflexivity|]. split; [codes|]. auto.
  - intros s D q r eps_t M xi norm d _ _ _ _ _ _. eexists _, _, _. split; [reflexivity|]. split; [codes|]. rewrite !repeat_length. split; [|auto].
    rewrite four_each. lia.
  - intros. eexists _, _. split; [reflexivity|]. split; [codes|]. intros _. apply repeat_length.
  - intros. eexists _, _, _, _, _. split; [reflexivity|]. split; [codes|]. rewrite !repeat_length. split; [reflexivity|]. split; [reflexivity|]. split; [auto|]. split; [auto|].
    intros _. apply Forall_forall. intros x Hx. apply repeat_spec in Hx. subst x. exact Ha.
Qed.
(** a = 1 and a' = i everywhere *)
Definition KE0 : kenv := const_kenv no_fail (fun _ => RtoC 1) 1 Ci 1.
Lemma KE0_ok : kenv_ok KE0.
Proof. apply const_kenv_ok; [right; cbn; lra|discriminate]. Qed.
Lemma kno_fail_pre_codes prec g a ap b : (forall s c, prec s = Some c -> c <> SUCCESS) -> kpre_codes (const_kenv prec g a ap b).
Proof.
  intros H s D q eps_t Dsub d c. cbn. destruct (prec s) as [c0|] eqn:E.
  - intros E1. injection E1 as <-. eauto.
  - destruct (downsample_sizes D Dsub); cbn; discriminate.
Qed.

(** options of a slow method without refinement *)
Definition kplain : kopts :=
  {| k_loc := KB_NEWTON; k_niter := 0; k_ds := DS_NORMING_CONSTANTS; k_cs := CS_REFLECTION_COEFFICIENT; k_norm := false; k_disc := K_BO; k_rich := 0; k_grid := Fin 0 |}.
Definition kset_rich (o : kopts) : kopts :=
  {| k_loc := k_loc o; k_niter := k_niter o; k_ds := k_ds o; k_cs := k_cs o; k_norm := k_norm o; k_disc := k_disc o; k_rich := 1; k_grid := k_grid o |}.
Definition kset_niter (o : kopts) (n : nat) : kopts :=
  {| k_loc := k_loc o; k_niter := n; k_ds := k_ds o; k_cs := k_cs o; k_norm := k_norm o; k_disc := k_disc o; k_rich := k_rich o; k_grid := k_grid o |}.
Definition kset_grid (o : kopts) (g : xreal) : kopts :=
  {| k_loc := KB_GRIDSEARCH_AND_REFINE; k_niter := k_niter o; k_ds := k_ds o; k_cs := k_cs o; k_norm := k_norm o; k_disc := k_disc o; k_rich := k_rich o; k_grid := g |}.
Definition X12 : option (R * R) := Some (1, 2)%R.
Lemma proper12 : proper_interval X12.
Proof. exists 1%R, 2%R. split; [reflexivity|lra]. Qed.
Lemma qs_real D i x : nth_error (qs D) i = Some x -> snd x = 0%R.
Proof. intros H. apply nth_error_In, repeat_spec in H. now subst x. Qed.
Lemma grid12 M i : (2 <= M)%nat -> (i < M)%nat -> grid_point (1, 2)%R M i <> 0%R.
Proof.
  intros HM _. unfold grid_point. cbn [fst snd]. assert (0 <= INR i * ((2 - 1) / INR (M - 1)))%R; [|lra].
  apply Rmult_le_pos; [apply pos_INR|]. apply Rlt_le, Rdiv_lt_0_compat; [lra|]. apply lt_0_INR. lia.
Qed.
Ltac kvalid := constructor; cbn -[qs]; intros; unfold X12 in *;
  repeat match goal with H : Some _ = Some _ |- _ => injection H as <- | H : None = Some _ |- _ => discriminate H end;
  try congruence; try lia; try apply proper01; try apply proper12; try (eapply qs_real; eassumption);
  try (now apply grid12); unfold kdv_known; try discriminate; auto.
Ltac kroom := constructor; cbn; intros; repeat match goal with H : Some _ = Some _ |- _ => injection H as <- | H : None = Some _ |- _ => discriminate H end; rewrite ?repeat_length; cbn; try lia; try congruence.
Ltac kread := constructor; cbn; intros; repeat match goal with H : Some _ = Some _ |- _ => injection H as <- | H : None = Some _ |- _ => discriminate H end; rewrite ?repeat_length; cbn; try lia; try congruence; try discriminate; try apply repeat_length.
Lemma one_guess (i : nat) (x : C) : nth_error [(0, 1)%R : C] i = Some x -> on_imaginary_axis x /\ (0 < snd x)%R.
Proof. destruct i as [|[|i]]; cbn; intros H; try discriminate; injection H as <-. split; [reflexivity|cbn; lra]. Qed.

(** ** C62: an unsuccessful call leaves the options changed *)
Definition first_fails : nat -> option Z := fun s => if Nat.eqb s 0 then Some EC_NOMEM else None.
Definition KEfail : kenv := const_kenv first_fails (fun _ => RtoC 1) 1 Ci 1.
Lemma KEfail_ok : kenv_ok KEfail.
Proof. apply const_kenv_ok; [right; cbn; lra|]. unfold first_fails. intros s c. destruct (Nat.eqb s 0); [|discriminate]. intros H. injection H as <-. split; [codes|discriminate]. Qed.
Definition only_K : outs := {| u_cs := None; u_K := Some 1%nat; u_bs := None; u_nc := None |}.
Definition krich_res : kopts := kset_ds (kset_rich kplain) DS_RESIDUES.
Theorem kdvv_restores_options_refuted : exists E D q T M XI o u, kenv_ok E /\ kdvv_safe_call D q T M XI o u /\
  exists code u' o' d', fnft_kdvv E D q T M XI (Some o) kdvv_default_opts u = Ret (code, u', Some o', d') /\ code <> SUCCESS /\ o' <> o.
Proof.
  exists KEfail, 3%nat, (Some (qs 3)), T01, 2%nat, X12, krich_res, only_K. split; [apply KEfail_ok|].
  assert (HV : kdvv_valid 3 (Some (qs 3)) T01 2 X12 krich_res only_K) by kvalid.
  assert (HRd : kdvv_readable 3 (Some (qs 3)) 2 X12 only_K) by kread.
  split.
  { apply (Build_kdvv_safe_call _ _ _ _ _ _ _ HV HRd); [cbn; lia|kroom|cbn; congruence|]. intros _. split; [lia|]. split; [discriminate|]. split; [intros _; split; [discriminate|reflexivity]|discriminate]. }
  unfold fnft_kdvv, kdvv_run. rewrite (check_valid _ _ _ _ _ _ _ HV HRd).
  cbn -[Rdiv Rminus]. eexists _, _, _, _. split; [reflexivity|]. split; discriminate.
Qed.

(** ** C63: calls with valid arguments and arrays of the documented lengths that go wrong *)
Definition kgoes_wrong (D : nat) (q : list C) (M : nat) (XI : option (R * R)) (o : kopts) (u : outs) : Prop :=
  kdvv_valid D (Some q) T01 M XI o u /\ length q = D /\ room 1 M (sizes o) u /\
  fnft_kdvv KE0 D (Some q) T01 M XI (Some o) kdvv_default_opts u = UB.
Ltac kwrong := split; [kvalid; try (eapply one_guess; eassumption)|]; split; [reflexivity|]; split; [kroom|].
Ltac kchecked := let Hck := fresh "Hck" in unfold fnft_kdvv, kdvv_run;
  match goal with |- context [kdvv_check ?a ?b ?c ?d ?e ?f ?g] => assert (Hck : kdvv_check a b c d e f g = Ret SUCCESS) by (apply check_valid; [kvalid; try (eapply one_guess; eassumption)|kread]) end;
  rewrite Hck; clear Hck; cbn -[fnft_kdvv_base Rdiv Rminus Rplus Rmult INR].
Ltac kargs := let Hab := fresh "Hab" in match goal with |- context [args_bad ?a ?b ?c ?d ?e ?f] => assert (Hab : args_bad a b c d e f = false) by (apply (args_bad_spec _ _ _ _ _ plain); repeat split; cbn; try discriminate; try lia; try apply proper01; try apply proper12; auto; try (intros _; apply proper01); try (intros _; apply proper12); try congruence) end; rewrite Hab; clear Hab.

(** XI may be NULL if contspec is NULL, but it is read if M > 0 *)
Theorem kdvv_XI_null_refuted : kgoes_wrong 2 (qs 2) 1 None kplain nothing.
Proof.
  kwrong. unfold fnft_kdvv, kdvv_run, kdvv_check. rewrite NsevEnv.bad01. cbn.
  unfold some_imaginary, qs. cbn. destruct (Req_EM_T 0 0); [reflexivity|contradiction].
Qed.
(** Residues with Richardson extrapolation: 2K values are written into the array of K residues *)
Theorem kdvv_residues_overflow_refuted : kgoes_wrong 3 (qs 3) 0 X12 krich_res {| u_cs := None; u_K := Some 1%nat; u_bs := Some [(0, 1)%R]; u_nc := Some [RtoC 0] |}.
Proof.
  kwrong. kchecked. unfold fnft_kdvv_base at 1. kargs.
  cbn -[kdvv_compute_boundstates Rdiv Rminus Rplus Rmult INR]. unfold kdvv_compute_boundstates. cbn -[bound_squared Rdiv Rminus Rplus Rmult INR].
  assert (Hb : bound_squared 3 [RtoC 1; RtoC 1; RtoC 1] K_BO = Ret 1%R).
  { unfold bound_squared, max_re. cbn. destruct (Rlt_dec 1 0); [lra|]. destruct (Rlt_dec 1 1); [lra|]. destruct (Rlt_dec 1 1); [lra|]. reflexivity. }
  rewrite Hb. cbn -[Rdiv Rminus Rplus Rmult INR]. destruct (Req_EM_T 1 0); [lra|]. cbn -[Rdiv Rminus Rplus Rmult INR]. reflexivity.
Qed.
(** Richardson extrapolation without XI *)
Theorem kdvv_richardson_needs_XI_refuted : kgoes_wrong 3 (qs 3) 0 None (kset_rich kplain) nothing.
Proof.
  kwrong. kchecked. unfold fnft_kdvv_base at 1. kargs. cbn -[fnft_kdvv_base Rdiv Rminus Rplus Rmult INR].
  set (Tsub := (_, _)). assert (Hs : (fst Tsub < snd Tsub)%R) by (unfold Tsub; cbn [fst snd]; rewrite !S_INR; cbn [INR]; lra). clearbody Tsub.
  unfold fnft_kdvv_base. match goal with |- context [args_bad ?a ?b ?c ?d ?e ?f] => assert (Hc : args_bad a b c d e f = false) end.
  { apply (args_bad_spec _ _ _ _ _ plain). split; [lia|]. split; [discriminate|]. split; [exists (fst Tsub), (snd Tsub); destruct Tsub; auto|].
    split; [intros Hc; now contradiction Hc|]. split; [auto|]. split; [intros Hc; now contradiction Hc|reflexivity]. }
  rewrite Hc. cbn -[Rdiv Rminus Rplus Rmult INR]. reflexivity.
Qed.
(** Residues with Richardson extrapolation, no discrete spectrum requested: the number of bound states is read *)
Theorem kdvv_residues_need_K_refuted : kgoes_wrong 3 (qs 3) 0 X12 krich_res nothing.
Proof. kwrong. kchecked. reflexivity. Qed.
(** A continuous spectrum at one point: division by zero *)
Theorem kdvv_one_frequency_refuted : kgoes_wrong 2 (qs 2) 1 X12 kplain {| u_cs := Some [RtoC 0]; u_K := None; u_bs := None; u_nc := None |}.
Proof. kwrong. kchecked. unfold fnft_kdvv_base at 1. kargs. cbn -[Rdiv Rminus Rplus Rmult INR]. reflexivity. Qed.

(** ** C50: more candidates than room: an error and no bound state, instead of a warning and as many as possible *)
Definition alternating (i : nat) : C := RtoC (if Nat.even i then 1 else -1).
Definition KEalt : kenv := const_kenv no_fail alternating 1 Ci 1.
Lemma KEalt_ok : kenv_ok KEalt.
Proof. apply const_kenv_ok; [right; cbn; lra|discriminate]. Qed.
Definition room1 : outs := {| u_cs := None; u_K := Some 1%nat; u_bs := Some [RtoC 0]; u_nc := None |}.
Definition grid3 : kopts := kset_grid kplain (Fin (1 / 3)).
Lemma bound_one n : bound_squared (S n) (repeat (RtoC 1) (S n)) K_BO = Ret 1%R.
Proof.
  destruct (bound_squared_spec (S n) (S n) (repeat (RtoC 1) (S n)) K_BO) as (b & Eb & B1 & B2 & B3); [discriminate|cbn; lia|apply repeat_length|].
  rewrite Eb. f_equal. unfold safety_factor. cbn [kdv_upsampling_factor Nat.leb]. rewrite Rmult_1_l.
  assert (Hn : forall i, (i < S n)%nat -> fst (nth i (repeat (RtoC 1) (S n)) 0) = 1%R).
  { intros i Hi. rewrite (nth_indep _ (RtoC 0) (RtoC 1)) by (rewrite repeat_length; lia). rewrite nth_repeat. reflexivity. }
  assert (H1 : (1 <= b)%R). { specialize (B2 0%nat ltac:(cbn; lia)). cbn [sample_stride Nat.mul] in B2. rewrite Hn in B2 by lia. exact B2. }
  destruct B3 as [B3|(i & Hi & B3)]; [lra|]. cbn [sample_stride Nat.mul] in *. rewrite Nat.add_0_r in *. rewrite Hn in B3 by lia. lra.
Qed.
Lemma grid3_points : uceil (sqrt 1 / (1 / 3)) = 3%nat.
Proof. rewrite sqrt_1. apply uceil_unique; cbn; lra. Qed.
Theorem kdvv_too_many_bound_states_refuted : exists E D q T o u, kenv_ok E /\ kdvv_safe_call D q T 0 None o u /\ k_loc o = KB_GRIDSEARCH_AND_REFINE /\
  exists u' o' d', fnft_kdvv E D q T 0 None (Some o) kdvv_default_opts u = Ret ((- EC_OTHER)%Z, u', o', d') /\ u_K u' = u_K u.
Proof.
  exists KEalt, 2%nat, (Some (qs 2)), T01, grid3, room1. split; [apply KEalt_ok|].
  assert (HV : kdvv_valid 2 (Some (qs 2)) T01 0 None grid3 room1) by kvalid.
  assert (HRd : kdvv_readable 2 (Some (qs 2)) 0 None room1) by kread.
  split; [apply (Build_kdvv_safe_call _ _ _ _ _ _ _ HV HRd); [cbn; lia|kroom|cbn; congruence|cbn; congruence]|]. split; [reflexivity|].
  unfold fnft_kdvv, kdvv_run. rewrite (check_valid _ _ _ _ _ _ _ HV HRd). cbn -[fnft_kdvv_base Rdiv Rminus Rplus Rmult INR].
  unfold fnft_kdvv_base. kargs. cbn -[kdvv_compute_boundstates Rdiv Rminus Rplus Rmult INR].
  unfold kdvv_compute_boundstates. cbn -[bound_squared kdvv_gridsearch Rdiv Rminus Rplus Rmult INR].
  change [RtoC 1; RtoC 1] with (repeat (RtoC 1) 2). rewrite bound_one. cbn -[kdvv_gridsearch Rdiv Rminus Rplus Rmult INR].
  destruct (Req_EM_T 1 0); [lra|]. unfold kdvv_gridsearch. match goal with |- context [Rle_dec ?x 0] => destruct (Rle_dec x 0) as [Hle|_] end; [rewrite sqrt_1 in Hle; lra|].
  cbn [k_grid grid3 kset_grid]. destruct (Rlt_dec 0 (1 / 3)); [|lra]. rewrite grid3_points. cbn -[ceq cdivr Rdiv Rminus Rplus Rmult INR]. unfold alternating. cbn [Nat.even].
  rewrite (ceq_ne (RtoC 1)) by apply C1_ne. rewrite (ceq_ne (RtoC (-1))) by (intros H; apply (f_equal fst) in H; cbn in H; lra).
  cbn [fst RtoC]. destruct (Rlt_dec (-1 * 1) 0); [|lra]. unfold cdivr. 
  match goal with |- context [Req_EM_T ?x 0] => destruct (Req_EM_T x 0) as [Hz|_] end; [exfalso; cbn in Hz; lra|].
  cbn -[Rdiv Rminus Rplus Rmult INR]. destruct (Rlt_dec (1 * -1) 0); [|lra]. cbn -[Rdiv Rminus Rplus Rmult INR].
  eexists _, _, _. split; reflexivity.
Qed.

(** ** C65: an iterate that leaves the box is kept: a successful call can return a bound state in the lower half plane *)
Definition KEneg : kenv := const_kenv no_fail (fun _ => RtoC 1) (RtoC 2) (0, -1)%R 1.
Lemma KEneg_ok : kenv_ok KEneg.
Proof. apply const_kenv_ok; [right; cbn; lra|discriminate]. Qed.
Theorem kdvv_bound_states_positive_refuted : exists E D q T o u, kenv_ok E /\ kdvv_safe_call D q T 0 None o u /\
  exists u' o' d' l x, fnft_kdvv E D q T 0 None (Some o) kdvv_default_opts u = Ret (SUCCESS, u', o', d') /\
    u_K u' = Some 1%nat /\ u_bs u' = Some l /\ nth_error l 0 = Some x /\ (snd x < 0)%R.
Proof.
  set (u := {| u_cs := None; u_K := Some 1%nat; u_bs := Some [(0, 1)%R]; u_nc := None |}).
  exists KEneg, 2%nat, (Some (qs 2)), T01, (kset_niter kplain 1), u. split; [apply KEneg_ok|].
  assert (HV : kdvv_valid 2 (Some (qs 2)) T01 0 None (kset_niter kplain 1) u) by (kvalid; try (eapply one_guess; eassumption)).
  assert (HRd : kdvv_readable 2 (Some (qs 2)) 0 None u) by kread.
  split; [apply (Build_kdvv_safe_call _ _ _ _ _ _ _ HV HRd); [cbn; lia|kroom|cbn; congruence|cbn; congruence]|].
  unfold fnft_kdvv, kdvv_run. rewrite (check_valid _ _ _ _ _ _ _ HV HRd). cbn -[fnft_kdvv_base Rdiv Rminus Rplus Rmult INR].
  unfold fnft_kdvv_base. kargs. cbn -[kdvv_compute_boundstates Rdiv Rminus Rplus Rmult INR].
  unfold kdvv_compute_boundstates. cbn -[bound_squared kdvv_refine_newton Rdiv Rminus Rplus Rmult INR].
  change [RtoC 1; RtoC 1] with (repeat (RtoC 1) 2). rewrite bound_one. cbn -[kdvv_refine_newton Rdiv Rminus Rplus Rmult INR].
  destruct (Req_EM_T 1 0); [lra|]. rewrite sqrt_1. unfold kdvv_refine_newton. cbn -[knewton_all Rdiv Rminus Rplus Rmult INR].
  destruct (Rle_dec 0 0); [|lra]. destruct (Rle_dec 0 1); [|lra].
  cbn -[ceq newton_step left_box Rdiv Rminus Rplus Rmult INR].
  rewrite ceq_ne by (intros H; apply (f_equal fst) in H; cbn in H; lra).
  rewrite ceq_ne by (intros H; apply (f_equal snd) in H; cbn in H; lra).
  unfold newton_step. cbn [snd]. destruct (Req_EM_T (-1) 0); [lra|]. cbn -[left_box small Rdiv Rminus Rplus Rmult INR Cdiv Cmult Cminus].
  set (z := _ - _). assert (Ez : z = (0, -1)%R). { unfold z, Cminus, Cplus, Copp, Cdiv, Cmult, Cinv, Ci, RtoC. cbn [fst snd]. f_equal; field; lra. }
  assert (Eb : left_box {| x0 := Fin 0; x1 := Fin 0; x2 := Fin 0; x3 := Fin 1 |} z = true).
  { apply not_false_iff_true. rewrite Ez. rewrite kleft_box. lra. }
  rewrite Eb. cbn -[Rdiv Rminus Rplus Rmult INR Cdiv Cmult Cminus]. eexists _, _, _, _, _. split; [reflexivity|]. split; [reflexivity|]. split; [reflexivity|]. split; [reflexivity|].
  rewrite Ez. cbn. lra.
Qed.
