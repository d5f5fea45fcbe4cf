(** * Where fnft_nsev does not keep its promises: concrete calls (C43, C44, C45) *)
From Coq Require Import Reals Lra.
From Coquelicot Require Import Coquelicot.
From Verif Require Import Loop CExp MiscSpec MiscProof MiscProps PolyFmultProof DiscProps DiscPreProps NsevSpec NsevProps NsevSafe NsevSafe2 NsevSafe3 NsevSafe4 NsevSafe5 NsevEnv.
Local Open Scope C_scope.

Lemma ceq_ne (a : C) : a <> 0 -> ceq a 0 = false.
Proof. intros H. unfold ceq. destruct (Ceq_dec a 0); [contradiction|reflexivity]. Qed.
Lemma C1_ne : RtoC 1 <> 0.
Proof. intros H. apply (f_equal fst) in H. cbn in H. lra. Qed.
Ltac args_ok := apply (args_bad_spec _ _ _ _ _ plain); repeat split; cbn; try discriminate; try lia; try apply proper01; auto; try (intros _; apply proper01); try congruence.

(** ** C43: an invalid value of an option is only noticed after output has been written *)
Definition late : outs := {| u_cs := Some [RtoC 0; RtoC 0]; u_K := Some 1%nat; u_bs := Some [(0, 1)%R]; u_nc := None |}.
Theorem nsev_checks_all_options_first_refuted : exists E D q T M XI kappa o u,
  env_ok E /\ nsev_valid D q T XI kappa o u /\ bound_state_filtering o = BF_bad /\
  exists u' o' d', fnft_nsev E D q T M XI kappa (Some o) nsev_default_opts u = Ret ((-2)%Z, u', o', d') /\ u_cs u' <> u_cs u.
Proof.
  exists E0, 2%nat, (Some (qs 2)), T01, 2%nat, T01, 1%Z, (set_filt plain BF_bad), late.
  split; [apply E0_ok|]. split; [valid_call|]. split; [reflexivity|].
  unfold fnft_nsev, nsev_run. assert (Ha : args_bad 2 (Some (qs 2)) T01 T01 1 late = false) by args_ok.
  rewrite Ha. cbn -[fnft_nsev_base Rdiv Rminus].
  unfold fnft_nsev_base. change (args_bad 2 (Some [RtoC 1; RtoC 1]) (Some (0%R,1%R)) T01 1 late) with (args_bad 2 (Some (qs 2)) T01 T01 1 late). rewrite Ha.
  cbn -[nsev_compute_contspec Rdiv Rminus].
  unfold nsev_compute_contspec. cbn -[Rdiv Rminus rho_loop]. unfold rho_loop. cbn [aget nth_error bind]. rewrite !ceq_ne by apply C1_ne.
  cbn -[Rdiv Rminus Cmult Cdiv Cexp]. eexists _, _, _. split; [reflexivity|]. cbn -[Rdiv Rminus Cmult Cdiv Cexp]. intros H.
  apply (f_equal (fun l : option (list C) => match l with Some (x :: _) => x | _ => RtoC 1 end)) in H. cbv beta iota in H.
  set (w := Cexp _) in H. assert (Hw : w <> 0) by apply Cexp_neq0. apply Hw. rewrite <- H. field. apply C1_ne.
Qed.

(** ** C44: if a subroutine fails, the options stay changed; with opts = NULL the library's own defaults are changed *)
Definition bound_only : outs := {| u_cs := None; u_K := Some 8%nat; u_bs := Some (repeat (RtoC 0) 8); u_nc := None |}.
Definition Efail : env := const_env no_fail EC_OTHER (0, 1)%R 1 1 1.
Lemma Efail_ok : env_ok Efail.
Proof. apply const_env_ok; [codes|discriminate]. Qed.
Lemma failing_roots : exists u', nsev_run Efail 2 (Some (qs 2)) T01 0 None 1 nsev_default_opts bound_only
  = Ret ((-5)%Z, (set_bsloc nsev_default_opts BL_FAST_EIGENVALUE, u')).
Proof.
  unfold nsev_run. assert (Ha : args_bad 2 (Some (qs 2)) T01 None 1 bound_only = false) by args_ok.
  rewrite Ha. cbn -[fnft_nsev_base Rdiv Rminus sub_size downsample_sizes].
  rewrite sizes_two. cbn [bind]. destruct (sub_size_ok 2 0) as (n & ->); [lia|lia|]. cbn [bind]. rewrite sizes_two.
  cbn -[fnft_nsev_base Rdiv Rminus].
  set (Tsub := (_, _)). set (eps := ((1 - 0) / 1)%R).
  assert (Hs : (fst Tsub < snd Tsub)%R) by (unfold Tsub, eps; cbn; lra).
  unfold fnft_nsev_base.
  set (v := {| u_cs := None; u_K := _; u_bs := _; u_nc := _ |}).
  assert (Hb : args_bad 2 (Some [RtoC 1; RtoC 1]) (Some Tsub) None 1 v = false).
  { apply (args_bad_spec _ _ _ _ _ plain). split; [lia|]. split; [discriminate|]. split; [exists (fst Tsub), (snd Tsub); auto|].
    split; [intros Hc; now contradiction Hc|]. split; [auto|]. split; [intros _; discriminate|reflexivity]. }
  rewrite Hb. cbn -[nsev_compute_boundstates Rdiv Rminus Tsub].
  set (e := ((snd Tsub - fst Tsub) / 1)%R). clearbody Tsub e.
  unfold nsev_compute_boundstates, nsev_box, im_bound. cbn -[misc_l2norm2 Rdiv Rminus re_bound].
  destruct (l2norm_ret 2 [RtoC 1; RtoC 1] (fst Tsub - e / 2)%R (snd Tsub + e / 2)%R eq_refl) as (nv & ->). cbn [bind].
  destruct nv; cbn -[Rdiv Rminus Rmult re_bound]; eexists; reflexivity.
Qed.
Theorem nsev_restores_options_refuted : exists E D q T M XI kappa dflt u,
  env_ok E /\ pre_codes E /\ nsev_valid D q T XI kappa dflt u /\ dflt = nsev_default_opts /\
  exists code u' d', fnft_nsev E D q T M XI kappa None dflt u = Ret (code, u', None, d') /\ code <> SUCCESS /\ d' <> dflt.
Proof.
  exists Efail, 2%nat, (Some (qs 2)), T01, 0%nat, None, 1%Z, nsev_default_opts, bound_only.
  split; [apply Efail_ok|]. split; [apply no_fail_pre_codes; discriminate|]. split; [valid_call|]. { cbn. congruence. } split; [reflexivity|].
  destruct failing_roots as (u' & Er). unfold fnft_nsev. rewrite Er. cbn [bind]. eexists _, _, _. split; [reflexivity|]. split; discriminate.
Qed.

(** ** C45: calls with valid arguments and arrays of the documented lengths that go wrong.
   [UB] is a read or write outside an array, a NULL pointer, a double free, or a division by zero. *)
Definition goes_wrong (E : env) (D : nat) (q : list C) (M : nat) (XI : option (R * R)) (kappa : Z) (o : opts) (u : outs) : Prop :=
  env_ok E /\ nsev_valid D (Some q) T01 XI kappa o u /\ length q = D /\ room kappa M o u /\
  fnft_nsev E D (Some q) T01 M XI kappa (Some o) nsev_default_opts u = UB.
Ltac room_ok := constructor; cbn; intros; repeat match goal with H : Some _ = Some _ |- _ => injection H as <- | H : None = Some _ |- _ => discriminate H end; rewrite ?repeat_length; cbn; try lia.
Ltac wrong := split; [try apply E0_ok|]; split; [valid_call; try (cbn; congruence)|]; split; [reflexivity|]; split; [room_ok|].

(** Residues with Richardson extrapolation when the bound states are located by Newton's method: 2K values are
   written into the array of K residues *)
Theorem nsev_residues_overflow_refuted : goes_wrong E0 2 (qs 2) 0 T01 1 (set_dstype (set_rich plain) DS_RESIDUES)
  {| u_cs := None; u_K := Some 1%nat; u_bs := Some [(0, 1)%R]; u_nc := Some [RtoC 0] |}.
Proof.
  wrong. unfold fnft_nsev, nsev_run. match goal with |- context [args_bad ?a ?b ?c ?d ?e ?f] => assert (Ha : args_bad a b c d e f = false) by args_ok end.
  rewrite Ha. cbn -[fnft_nsev_base Rdiv Rminus]. unfold fnft_nsev_base.
  match goal with |- context [args_bad ?a ?b ?c ?d ?e ?f] => assert (Hb : args_bad a b c d e f = false) by args_ok end. rewrite Hb.
  cbn -[Rdiv Rminus]. reflexivity.
Qed.

(** Richardson extrapolation without XI, which is only needed for the continuous spectrum *)
Theorem nsev_richardson_needs_XI_refuted : goes_wrong E0 3 (qs 3) 0 None (-1) (set_rich plain) nothing.
Proof.
  wrong. unfold fnft_nsev, nsev_run. match goal with |- context [args_bad ?a ?b ?c ?d ?e ?f] => assert (Ha : args_bad a b c d e f = false) by args_ok end.
  rewrite Ha. cbn -[fnft_nsev_base Rdiv Rminus Rplus Rmult INR].
  unfold fnft_nsev_base at 1. match goal with |- context [args_bad ?a ?b ?c ?d ?e ?f] => assert (Hb : args_bad a b c d e f = false) by args_ok end. rewrite Hb.
  cbn -[fnft_nsev_base Rdiv Rminus Rplus Rmult INR]. 
  set (Tsub := (_, _)). assert (Hs : (fst Tsub < snd Tsub)%R) by (unfold Tsub; cbn [fst snd]; rewrite !S_INR; cbn [INR]; lra). clearbody Tsub.
  unfold fnft_nsev_base. match goal with |- context [args_bad ?a ?b ?c ?d ?e ?f] => assert (Hc : args_bad a b c d e f = false) end.
  { apply (args_bad_spec _ _ _ _ _ plain). split; [lia|]. split; [discriminate|]. split; [exists (fst Tsub), (snd Tsub); destruct Tsub; auto|].
    split; [intros Hc; now contradiction Hc|]. split; [auto|]. split; [intros Hc; now contradiction Hc|reflexivity]. }
  rewrite Hc. cbn -[Rdiv Rminus Rplus Rmult INR]. reflexivity.
Qed.

(** Residues with Richardson extrapolation, but no discrete spectrum requested: *K_ptr is read although it may be NULL *)
Theorem nsev_residues_need_K_refuted : goes_wrong E0 3 (qs 3) 0 T01 (-1) (set_dstype (set_rich plain) DS_RESIDUES) nothing.
Proof.
  wrong. unfold fnft_nsev, nsev_run. match goal with |- context [args_bad ?a ?b ?c ?d ?e ?f] => assert (Ha : args_bad a b c d e f = false) by args_ok end.
  rewrite Ha. cbn -[fnft_nsev_base Rdiv Rminus]. reflexivity.
Qed.

(** A continuous spectrum at one point: division by zero *)
Theorem nsev_one_frequency_refuted : goes_wrong E0 2 (qs 2) 1 T01 (-1) plain {| u_cs := Some [RtoC 0]; u_K := None; u_bs := None; u_nc := None |}.
Proof.
  wrong. unfold fnft_nsev, nsev_run. match goal with |- context [args_bad ?a ?b ?c ?d ?e ?f] => assert (Ha : args_bad a b c d e f = false) by args_ok end.
  rewrite Ha. cbn -[fnft_nsev_base Rdiv Rminus]. unfold fnft_nsev_base.
  match goal with |- context [args_bad ?a ?b ?c ?d ?e ?f] => assert (Hb : args_bad a b c d e f = false) by args_ok end. rewrite Hb.
  cbn -[Rdiv Rminus]. reflexivity.
Qed.

(** A number of samples for the initial guesses that is more than twice the number of samples: division by zero *)
Theorem nsev_Dsub_too_large_refuted : goes_wrong E0 2 (qs 2) 0 None 1 (set_Dsub nsev_default_opts 5) bound_only.
Proof.
  wrong. unfold fnft_nsev, nsev_run. match goal with |- context [args_bad ?a ?b ?c ?d ?e ?f] => assert (Ha : args_bad a b c d e f = false) by args_ok end.
  rewrite Ha. cbn -[fnft_nsev_base Rdiv Rminus]. reflexivity.
Qed.

(** Richardson extrapolation with norming constants and residues for bound states without an array for them: NULL is read *)
Definition rich_both : opts := set_dstype (set_rich plain) DS_BOTH.
Definition no_nc : outs := {| u_cs := None; u_K := Some 1%nat; u_bs := Some [(0, 1)%R]; u_nc := None |}.
Theorem nsev_both_needs_array_refuted : goes_wrong E0 3 (qs 3) 0 T01 1 rich_both no_nc.
Proof.
  wrong. unfold fnft_nsev, nsev_run. match goal with |- context [args_bad ?a ?b ?c ?d ?e ?f] => assert (Ha : args_bad a b c d e f = false) by args_ok end.
  rewrite Ha. cbn -[fnft_nsev_base Rdiv Rminus Rplus Rmult INR richardson_bs].
  unfold fnft_nsev_base at 1. match goal with |- context [args_bad ?a ?b ?c ?d ?e ?f] => assert (Hb : args_bad a b c d e f = false) by args_ok end. rewrite Hb.
  cbn -[fnft_nsev_base Rdiv Rminus Rplus Rmult INR richardson_bs].
  set (Tsub := (_, _)). assert (Hs : (fst Tsub < snd Tsub)%R) by (unfold Tsub; cbn [fst snd]; rewrite !S_INR; cbn [INR]; lra).
  set (eps := ((1 - 0) / INR 2)%R) in *. assert (He : (0 < eps)%R) by (unfold eps; rewrite !S_INR; cbn [INR]; lra). clearbody Tsub eps.
  unfold fnft_nsev_base. match goal with |- context [args_bad ?a ?b ?c ?d ?e ?f] => assert (Hc : args_bad a b c d e f = false) end.
  { apply (args_bad_spec _ _ _ _ _ plain). split; [lia|]. split; [discriminate|]. split; [exists (fst Tsub), (snd Tsub); destruct Tsub; auto|].
    split; [intros Hc; now contradiction Hc|]. split; [auto|]. split; [intros Hc; discriminate|reflexivity]. }
  rewrite Hc. cbn -[Rdiv Rminus Rplus Rmult INR richardson_bs Cdiv Cmult residue_loop].
  unfold residue_loop. cbn [aget nth_error bind]. rewrite ceq_ne by apply C1_ne. cbn -[Rdiv Rminus Rplus Rmult INR richardson_bs Cdiv Cmult].
  match goal with |- context [richardson_bs ?a ?b ?c ?d ?e ?f ?g ?h] => assert (HU : richardson_bs a b c d e f g h = UB) end; [|rewrite HU; reflexivity].
  unfold richardson_bs. cbn -[cdivr find_loc Rdiv Rminus Rplus Rmult INR Cdiv Cmult].
  match goal with |- context [find_loc ?a ?b ?c ?d] => assert (HL : find_loc a b c d = Ret 0%nat) end.
  { unfold find_loc. cbn -[Cmod Rdiv Cminus]. assert (Hm : Cmod (0, 1)%R = 1%R).
    { unfold Cmod. cbn. replace (0 * (0 * 1) + 1 * (1 * 1))%R with 1%R by ring. apply sqrt_1. }
    rewrite Hm. destruct (Req_EM_T 1 0); [lra|]. replace ((0, 1)%R - (0, 1)%R)%C with (RtoC 0) by ring.
    rewrite Cmod_0. destruct (Rlt_dec (0 / 1) eps); [reflexivity|]. exfalso. lra. }
  rewrite HL. cbn -[cdivr Rdiv Rminus Rplus Rmult INR Cdiv Cmult]. destruct (cdivr _ _); reflexivity.
Qed.

(** The preprocessing for the second run fails after its arrays have been freed: they are freed again *)
Definition third_fails : nat -> option Z := fun s => if Nat.eqb s 2 then Some EC_NOMEM else None.
Definition E3 : env := const_env third_fails SUCCESS (0, 1)%R 1 1 1.
Lemma E3_ok : env_ok E3.
Proof. apply const_env_ok; [codes|]. unfold third_fails. intros s c. destruct (Nat.eqb s 2); [|discriminate]. intros H. injection H as <-. split; [codes|discriminate]. Qed.
Lemma z2l_fast n eps_t vals d : (n <= length vals)%nat -> known_disc d -> nse_degree d <> O -> exists v, nse_z_to_lambda n eps_t vals d = Ret (0%Z, v) /\ kept n vals v.
Proof.
  intros H Hk Hd. destruct (z2l_safe n eps_t vals d H) as (c & v & E & _ & Hv). exists v. split; [|exact Hv]. rewrite E. f_equal. f_equal.
  revert E. unfold nse_z_to_lambda, via_akns, akns_z_to_lambda. unfold known_disc in Hk. destruct d; try congruence; cbn in *; try congruence;
  match goal with |- context [fill ?a ?b ?c ?e] => destruct (fill a b c e); cbn; [|discriminate] end; intros E; injection E as <- _; reflexivity.
Qed.
Definition rich_sub : opts := set_rich (set_filt (set_bsloc nsev_default_opts BL_SUBSAMPLE_AND_REFINE) BF_NONE).
Definition room0 : outs := {| u_cs := None; u_K := Some 0%nat; u_bs := Some []; u_nc := None |}.
Theorem nsev_double_free_refuted : goes_wrong E3 2 (qs 2) 0 T01 1 rich_sub room0.
Proof.
  split; [apply E3_ok|]. split; [valid_call; cbn; congruence|]. split; [reflexivity|]. split; [room_ok|].
  unfold fnft_nsev, nsev_run. match goal with |- context [args_bad ?a ?b ?c ?d ?e ?f] => assert (Ha : args_bad a b c d e f = false) by args_ok end.
  rewrite Ha. cbn -[fnft_nsev_base Rdiv Rminus Rplus Rmult INR sub_size downsample_sizes nsev_richardson].
  rewrite sizes_two. cbn [bind]. destruct (sub_size_ok 2 0) as (n & ->); [lia|lia|]. cbn [bind]. rewrite sizes_two.
  cbn -[fnft_nsev_base Rdiv Rminus Rplus Rmult INR nsev_richardson].
  set (Tsub := (_, _)). assert (Hs : (fst Tsub < snd Tsub)%R) by (unfold Tsub; cbn [fst snd INR]; lra). clearbody Tsub.
  unfold fnft_nsev_base at 1. match goal with |- context [args_bad ?a ?b ?c ?d ?e ?f] => assert (Hb : args_bad a b c d e f = false) end.
  { apply (args_bad_spec _ _ _ _ _ plain). split; [lia|]. split; [discriminate|]. split; [exists (fst Tsub), (snd Tsub); destruct Tsub; auto|].
    split; [intros Hc; now contradiction Hc|]. split; [auto|]. split; [intros Hc; discriminate|reflexivity]. }
  assert (HN : nse_fscatter_numel 2 N_2SPLIT4B = Ret 24%nat) by (vm_compute; reflexivity).
  rewrite Hb. cbn -[fnft_nsev_base Rdiv Rminus Rplus Rmult INR nsev_richardson nse_z_to_lambda nse_fscatter_numel].
  rewrite HN. cbn -[fnft_nsev_base Rdiv Rminus Rplus Rmult INR nsev_richardson nse_z_to_lambda].
  match goal with |- context [nse_z_to_lambda ?a ?b ?c ?d] => destruct (z2l_fast a b c d) as (zl & -> & Hz) end; [cbn; lia|discriminate|discriminate|].
  cbn -[fnft_nsev_base Rdiv Rminus Rplus Rmult INR nsev_richardson].
  unfold fnft_nsev_base. match goal with |- context [args_bad ?a ?b ?c ?d ?e ?f] => assert (Hc : args_bad a b c d e f = false) by args_ok end. rewrite Hc.
  cbn -[Rdiv Rminus Rplus Rmult INR nsev_richardson nse_fscatter_numel]. rewrite HN. cbn -[Rdiv Rminus Rplus Rmult INR nsev_richardson]. reflexivity.
Qed.
