(** * Concrete calls that meet the hypotheses of the theorems about fnft_kdvv (C50, C51, C61-C66) *)
From Coq Require Import Reals Lra.
From Coquelicot Require Import Coquelicot.
From Verif Require Import Loop CExp MiscSpec MiscProof MiscProps PolyFmultProof DiscProps DiscPreProps NsevSpec NsevProps NsevSafe NsevSafe2 NsevSafe3 NsevSafe4 NsevSafe5
  NsevEnv NsevRefuted NsevRich KdvvSpec KdvvProps KdvvSafe KdvvGrid KdvvSafe2 KdvvSafe3 KdvvNewton KdvvTop KdvvEnv KdvvRich.
Local Open Scope C_scope.

(** C63, C51: the default options, both spectra, room for four bound states *)
Definition kfull_call : outs := {| u_cs := Some (qs 2); u_K := Some 4%nat; u_bs := Some (qs 4); u_nc := Some (qs 4) |}.
Example kfull_call_safe : kdvv_safe_call 4 (Some (qs 4)) T01 2 X12 kdvv_default_opts kfull_call.
Proof. constructor; [kvalid|kread|vm_compute; discriminate|kroom|discriminate|discriminate]. Qed.
(** C51: the theorem applies to it *)
Example kdvv_default_options_fail_example : exists code u' user' dflt',
  fnft_kdvv KE0 4 (Some (qs 4)) T01 2 X12 None kdvv_default_opts kfull_call = Ret (code, u', user', dflt') /\ code <> SUCCESS.
Proof.
  apply (kdvv_default_options_fail KE0 4 (qs 4) (0, 1)%R 2 X12 None kfull_call (qs 4) 4 0); auto using KE0_ok, kfull_call_safe; try discriminate.
  intros p Hp. split; [lia|]. cbn [KE0 const_kenv ke_pre no_fail] in Hp.
  rewrite sizes_full in Hp by lia. cbn in Hp. injection Hp as <-. cbn. lra.
Qed.

(** C50, C64: a grid search that finds two bound states *)
Definition kroom2 : outs := {| u_cs := None; u_K := Some 2%nat; u_bs := Some [RtoC 0; RtoC 0]; u_nc := None |}.
Example kgrid_call_safe : kdvv_safe_call 2 (Some (qs 2)) T01 0 None grid3 kroom2.
Proof. constructor; [kvalid|kread|cbn; lia|kroom|cbn; congruence|cbn; congruence]. Qed.
Example kgrid_call_succeeds : exists u' o' d', fnft_kdvv KEalt 2 (Some (qs 2)) T01 0 None (Some grid3) kdvv_default_opts kroom2 = Ret (SUCCESS, u', o', d') /\ u_K u' = Some 2%nat.
Proof.
  pose proof kgrid_call_safe as [HV HRd _ _ _ _].
  unfold fnft_kdvv, kdvv_run. rewrite (check_valid _ _ _ _ _ _ _ HV HRd). cbn -[fnft_kdvv_base Rdiv Rminus Rplus Rmult INR].
  unfold fnft_kdvv_base. kargs. cbn -[kdvv_compute_boundstates Rdiv Rminus Rplus Rmult INR].
  unfold kdvv_compute_boundstates. cbn -[bound_squared kdvv_gridsearch Rdiv Rminus Rplus Rmult INR].
  change [RtoC 1; RtoC 1] with (repeat (RtoC 1) 2). rewrite bound_one. cbn -[kdvv_gridsearch Rdiv Rminus Rplus Rmult INR].
  destruct (Req_EM_T 1 0); [lra|]. unfold kdvv_gridsearch. match goal with |- context [Rle_dec ?x 0] => destruct (Rle_dec x 0) as [Hle|_] end; [rewrite sqrt_1 in Hle; lra|].
  cbn [k_grid grid3 kset_grid]. destruct (Rlt_dec 0 (1 / 3)); [|lra]. rewrite grid3_points. cbn -[ceq cdivr Rdiv Rminus Rplus Rmult INR]. unfold alternating. cbn [Nat.even].
  rewrite (ceq_ne (RtoC 1)) by apply C1_ne. rewrite (ceq_ne (RtoC (-1))) by (intros H; apply (f_equal fst) in H; cbn in H; lra).
  cbn [fst RtoC]. destruct (Rlt_dec (-1 * 1) 0); [|lra]. unfold cdivr.
  match goal with |- context [Req_EM_T ?x 0] => destruct (Req_EM_T x 0) as [Hz|_] end; [exfalso; cbn in Hz; lra|].
  cbn -[Rdiv Rminus Rplus Rmult INR]. destruct (Rlt_dec (1 * -1) 0); [|lra].
  match goal with |- context [Req_EM_T ?x 0] => destruct (Req_EM_T x 0) as [Hz|_] end; [exfalso; cbn in Hz; lra|].
  cbn -[Rdiv Rminus Rplus Rmult INR]. eexists _, _, _. split; reflexivity.
Qed.

(** C65: one bound state, one step; a = 2 y - 2 on the axis is met by constant answers at the guess only, so here a is constant *)
Example kcomputes_example : kcomputes_at KE0 1 2 (qs 2) (qs 2) (0, 1)%R false K_BO (fun _ => 1) (fun _ => Ci).
Proof. intros lam. cbn. eauto. Qed.

(** C66 *)
Example krich_call_safe : kdvv_safe_call 3 (Some (qs 3)) T01 2 X12 (kset_rich kplain) rich_call.
Proof.
  constructor; [kvalid|kread|cbn; lia|kroom|discriminate|].
  intros _. split; [lia|]. split; [discriminate|]. split; [discriminate|discriminate].
Qed.
Ltac kcs_eval := unfold kdvv_compute_contspec at 1; cbn -[fnft_kdvv_base Rdiv Rminus Rplus Rmult INR rho_loop kdvv_richardson pow richardson_cs]; unfold rho_loop at 1; cbn [aget nth_error bind]; rewrite !ceq_ne by apply C1_ne.
Example krich_call_succeeds : exists u' o' d', fnft_kdvv KE0 3 (Some (qs 3)) T01 2 X12 (Some (kset_rich kplain)) kdvv_default_opts rich_call = Ret (SUCCESS, u', o', d').
Proof.
  pose proof krich_call_safe as [HV HRd _ _ _ _].
  unfold fnft_kdvv, kdvv_run. rewrite (check_valid _ _ _ _ _ _ _ HV HRd). cbn -[fnft_kdvv_base Rdiv Rminus Rplus Rmult INR kdvv_richardson].
  unfold fnft_kdvv_base at 1. kargs.
  cbn -[kdvv_compute_contspec Rdiv Rminus Rplus Rmult INR kdvv_richardson]. kcs_eval.
  cbn -[Rdiv Rminus Rplus Rmult INR Cmult Cdiv Cexp kdvv_richardson].
  match goal with |- context [set_cs _ (Some [?a; ?b])] => set (z0 := a); set (z1 := b) end. clearbody z0 z1.
  unfold kdvv_richardson. cbn -[fnft_kdvv_base Rdiv Rminus Rplus Rmult INR pow richardson_cs].
  match goal with |- context [richardson_cs 2 1 _ ?e _ _] => set (es := e) end.
  assert (Hes : es = 1%R) by (unfold es; rewrite !S_INR; cbn [INR]; field).
  set (Tsub := (_, _)). assert (Hs : (fst Tsub < snd Tsub)%R) by (unfold Tsub; cbn [fst snd]; rewrite !S_INR; cbn [INR]; lra). clearbody Tsub es. subst es.
  unfold fnft_kdvv_base. match goal with |- context [args_bad ?a ?b ?c ?d ?e ?f] => assert (Hc : args_bad a b c d e f = false) end.
  { apply (args_bad_spec _ _ _ _ _ plain). split; [lia|]. split; [discriminate|]. split; [exists (fst Tsub), (snd Tsub); destruct Tsub; auto|].
    split; [intros _; apply proper12|]. split; [auto|]. split; [intros Hc; now contradiction Hc|reflexivity]. }
  rewrite Hc. cbn -[kdvv_compute_contspec Rdiv Rminus Rplus Rmult INR pow richardson_cs]. kcs_eval.
  cbn -[Rdiv Rminus Rplus Rmult INR Cmult Cdiv Cexp pow richardson_cs].
  match goal with |- context [richardson_cs ?a ?b ?c ?d ?e ?f ?g ?h] => destruct (richardson_cs_safe a b c d e f g h) as (l & -> & _) end; [|cbn; lia|cbn; lia|].
  { rewrite !S_INR; cbn [INR]. match goal with |- (?x ^ 2 - 1)%R <> 0%R => replace x with 2%R by field end. cbn. lra. }
  eexists _, _, _. reflexivity.
Qed.

Print Assumptions kdvv_rejects_invalid_arguments.
Print Assumptions kdvv_restores_options.
Print Assumptions kdvv_restores_options_refuted.
Print Assumptions kdvv_stays_in_bounds.
Print Assumptions kdvv_bound_states_imaginary.
Print Assumptions kdvv_bound_states_positive_refuted.
Print Assumptions kdvv_gridsearch_result.
Print Assumptions kdvv_too_many_bound_states_refuted.
Print Assumptions kdvv_default_options_fail.
Print Assumptions kdvv_newton_bound_states.
Print Assumptions kdvv_richardson_contspec.
Print Assumptions kdvv_richardson_exact.
