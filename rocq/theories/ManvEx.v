(** * fnft_manakovv: concrete cases for the hypotheses, and calls where it does not keep its promises (C52, C71-C76) *)
From Coq Require Import Reals Lra.
From Coquelicot Require Import Coquelicot.
From Verif Require Import Loop CExp MiscSpec MiscProof MiscProps PolyFmultProof DiscProps DiscPreProps NsevSpec NsevProps NsevSafe NsevSafe2 NsevSafe3 NsevSafe4 NsevSafe5
  NsevEnv NsevRefuted ManvSpec ManvProps ManvSafe ManvSafe2 ManvSafe3 ManvTop.
Local Open Scope C_scope.

(** Subroutines with constant answers: preprocessing fails at the call sites s with prec s = Some code.  All allocations
   succeed.  The roots are all equal to [root], the entries of the transfer matrices are 1. *)
Definition const_menv (prec : nat -> option Z) (root : C) : menv := {|
  me_alloc := fun _ _ => true;
  me_junk := fun _ n => repeat (RtoC 0) n;
  me_pre := fun s D q1 q2 eps_t Dsub d =>
    match prec s with
    | Some c => Ret (inl c)
    | None => x <- downsample_sizes D Dsub ;;
              Ret (inr {| po_Dsub := snd x; po_q := repeat (RtoC 1) (snd x * man_upsampling_factor d);
                          po_r := repeat (RtoC 1) (snd x * man_upsampling_factor d); po_first := 0; po_last := (snd x - 1) * fst x |})
    end;
  me_fscatter := fun s D q1 q2 kappa eps_t res norm d => Ret (SUCCESS, (man_degree d * D)%nat, res, 0%Z);
  me_smat := fun s D q1 q2 eps_t M xi kappa d => Ret (SUCCESS, repeat (RtoC 1) (9 * M));
  me_chirpz := fun s deg p A V M => Ret (SUCCESS, repeat (RtoC 1) M);
  me_roots := fun s deg p buf => Ret (SUCCESS, repeat root deg ++ skipn deg buf) |}.

Lemma msizes_ex D Dsub : (2 <= D)%nat -> exists x y, downsample_sizes D Dsub = Ret (x, y).
Proof.
  intros HD. destruct (Nat.eq_dec D 2) as [->|N]; [rewrite sizes_two; eauto|].
  destruct (downsample_sizes_spec D Dsub) as (x & y & E & _); [lia|]. eauto.
Qed.
Lemma const_menv_ok prec root : (forall s c, prec s = Some c -> ok_code c /\ c <> SUCCESS) -> menv_ok (const_menv prec root).
Proof.
  intros Hp. constructor; cbn -[Nat.mul].
  - intros. apply repeat_length.
  - intros s D q1 q2 eps_t Dsub d HD _ _ _. destruct (prec s) as [c|] eqn:Es; [eexists; split; [reflexivity|]; cbn; eauto|].
    destruct (msizes_ex D Dsub HD) as (x & y & Exy). rewrite Exy. cbn [bind fst snd]. eexists. split; [reflexivity|]. cbn -[Nat.mul].
    exists x. rewrite !repeat_length. auto.
  - intros. eexists _, _, _, _. split; [reflexivity|]. split; [codes|]. auto.
  - intros. eexists _, _. split; [reflexivity|]. split; [codes|]. apply repeat_length.
  - intros. eexists _, _. split; [reflexivity|]. split; [codes|]. intros _. apply repeat_length.
  - intros s deg p buf _ Hb. eexists _, _. split; [reflexivity|]. split; [codes|]. split.
    + rewrite app_length, repeat_length, skipn_length. lia.
    + intros i Hi. rewrite nth_error_app2 by (rewrite repeat_length; lia). rewrite repeat_length, nth_error_skip. f_equal. lia.
Qed.
Lemma const_menv_never root : mnever_fails (const_menv no_fail root).
Proof.
  constructor; cbn -[Nat.mul]; intros.
  - reflexivity.
  - destruct (downsample_sizes D Dsub); cbn; discriminate.
  - now injection H.
  - now injection H.
  - now injection H.
  - now injection H.
Qed.
Lemma const_menv_codes prec root : (forall s c, prec s = Some c -> c <> SUCCESS) -> mpre_codes (const_menv prec root).
Proof.
  intros H s D q1 q2 eps_t Dsub d c. cbn. destruct (prec s) as [c0|] eqn:E.
  - intros E1. injection E1 as <-. eauto.
  - destruct (downsample_sizes D Dsub); cbn; discriminate.
Qed.
Definition ME0 : menv := const_menv no_fail (RtoC 1).
Lemma ME0_ok : menv_ok ME0.
Proof. apply const_menv_ok. discriminate. Qed.

Definition mplain (d : man_disc) (rich : nat) (ds : dstype) (Dsub : nat) : mopts :=
  {| m_filt := MF_FULL; m_loc := ML_SUBSAMPLE_AND_REFINE; m_niter := 10; m_Dsub := Dsub; m_ds := ds; m_cs := CS_AB; m_norm := true; m_disc := d; m_rich := rich |}.
Ltac mval := constructor; cbn -[qs]; intros; try congruence; try lia; try apply proper01; unfold man_known, man_slow; cbn; try discriminate; auto.
Ltac mrm := constructor; cbn; intros; repeat match goal with H : Some _ = Some _ |- _ => injection H as <- | H : None = Some _ |- _ => discriminate H end; rewrite ?repeat_length; cbn; try lia.
Ltac msafe := constructor; [mval|now intros l0 [= <-]|now intros l0 [= <-]|cbn; lia|mrm|cbn; try lia; try congruence|cbn; lia|cbn -[qs]; try discriminate].

(** ** C52, C73, C76: a call for everything with the fast default discretization and Richardson extrapolation *)
Definition all_outs : outs := {| u_cs := Some (repeat (RtoC 0) 6); u_K := Some 3%nat; u_bs := Some (repeat (RtoC 0) 3); u_nc := None |}.
Example m_all_safe : manv_safe_call ME0 4 (Some (qs 4)) (Some (qs 4)) T01 2 T01 1 (mplain M_2SPLIT4B 1 DS_NORMING_CONSTANTS 0) all_outs.
Proof.
  msafe. intros _. split; [lia|]. split; [discriminate|]. split; [discriminate|].
  intros _ _ D q1 q2 eps_t Dsub d c. exact (nf_pre ME0 (const_menv_never _) 2%nat D q1 q2 eps_t Dsub d c).
Qed.
Example m_all_succeeds : exists u' user' dflt', fnft_manakovv ME0 4 (Some (qs 4)) (Some (qs 4)) T01 2 T01 1 (Some (mplain M_2SPLIT4B 1 DS_NORMING_CONSTANTS 0)) manakovv_default_opts all_outs
  = Ret (SUCCESS, u', user', dflt').
Proof.
  apply manakovv_succeeds; [apply ME0_ok|apply const_menv_never|apply m_all_safe|discriminate|reflexivity|].
  intros H. discriminate H.
Qed.
Definition bs_only : outs := {| u_cs := None; u_K := Some 3%nat; u_bs := Some (repeat (RtoC 0) 3); u_nc := None |}.

(** C71: a rejected call, q2 = NULL *)
Example m_invalid_call : ~ manv_valid 4 (Some (qs 4)) None T01 T01 1 (mplain M_2SPLIT4B 0 DS_NORMING_CONSTANTS 0) all_outs.
Proof. intros H. now apply (vm_q2 _ _ _ _ _ _ _ _ H). Qed.

(** ** C74: a successful call for BOTH *)
Definition both_outs : outs := {| u_cs := Some (repeat (RtoC 0) 10); u_K := None; u_bs := None; u_nc := None |}.
Definition mboth : mopts :=
  {| m_filt := MF_FULL; m_loc := ML_NEWTON; m_niter := 10; m_Dsub := 0; m_ds := DS_NORMING_CONSTANTS; m_cs := CS_BOTH; m_norm := true; m_disc := M_BO; m_rich := 0 |}.
Example m_both_safe : manv_safe_call ME0 2 (Some (qs 2)) (Some (qs 2)) T01 2 T01 (-1) mboth both_outs.
Proof. msafe. Qed.
Ltac margs := let Hab := fresh "Hab" in match goal with |- context [args_bad ?a ?b ?c ?d ?e ?f] => assert (Hab : args_bad a b c d e f = false) by args_ok end; rewrite Hab; clear Hab.
Example m_both_succeeds : exists u' user' dflt', fnft_manakovv ME0 2 (Some (qs 2)) (Some (qs 2)) T01 2 T01 (-1) (Some mboth) manakovv_default_opts both_outs = Ret (SUCCESS, u', user', dflt').
Proof.
  unfold fnft_manakovv, manakovv_run. margs. cbn -[fnft_manakovv_base Rdiv Rminus Rplus Rmult INR].
  unfold fnft_manakovv_base at 1. margs. cbn -[fnft_manakovv_base Rdiv Rminus Rplus Rmult INR].
  unfold fnft_manakovv_base at 1. margs. cbn -[manakovv_compute_contspec Rdiv Rminus Rplus Rmult INR].
  unfold manakovv_compute_contspec. cbn -[Rdiv Rminus Rplus Rmult INR mrho_loop mab_loop].
  unfold mrho_loop. cbn [aget nth_error bind]. rewrite !ceq_ne by apply C1_ne. cbn -[Rdiv Rminus Rplus Rmult INR mab_loop Cmult Cdiv Cexp].
  eexists _, _, _. reflexivity.
Qed.

(** ** C72: an unsuccessful call leaves the options changed *)
Definition mfail_at (k : nat) : nat -> option Z := fun s => if Nat.eqb s k then Some EC_NOMEM else None.
Lemma mfail_ok k root : menv_ok (const_menv (mfail_at k) root).
Proof. apply const_menv_ok. unfold mfail_at. intros s c. destruct (Nat.eqb s k); [|discriminate]. intros H. injection H as <-. split; [codes|discriminate]. Qed.
Definition monly_K : outs := {| u_cs := None; u_K := Some 1%nat; u_bs := None; u_nc := None |}.
Definition mrich_res : mopts := mplain M_2SPLIT4B 1 DS_RESIDUES 0.
Theorem manakovv_restores_options_refuted : exists E D q1 q2 T M XI kappa o u, menv_ok E /\ manv_safe_call E D q1 q2 T M XI kappa o u /\
  exists code u' o' d', fnft_manakovv E D q1 q2 T M XI kappa (Some o) manakovv_default_opts u = Ret (code, u', Some o', d') /\ code <> SUCCESS /\ o' <> o.
Proof.
  exists (const_menv (mfail_at 0) 1), 3%nat, (Some (qs 3)), (Some (qs 3)), T01, 0%nat, T01, 1%Z, mrich_res, monly_K. split; [apply mfail_ok|]. split.
  { msafe. intros _. split; [lia|]. split; [discriminate|]. split; [discriminate|]. intros _ H. now destruct H. }
  unfold fnft_manakovv, manakovv_run. margs. cbn -[Rdiv Rminus]. eexists _, _, _, _. split; [reflexivity|]. split; discriminate.
Qed.

(** ** C73: calls with valid arguments and arrays of the documented lengths that go wrong *)
Definition mgoes_wrong (E : menv) (D M : nat) (XI : option (R * R)) (kappa : Z) (o : mopts) (u : outs) : Prop :=
  menv_ok E /\ manv_valid D (Some (qs D)) (Some (qs D)) T01 XI kappa o u /\ mroom M o u /\
  fnft_manakovv E D (Some (qs D)) (Some (qs D)) T01 M XI kappa (Some o) manakovv_default_opts u = UB.
Ltac mwrong := split; [first [apply ME0_ok|apply mfail_ok]|]; split; [mval|]; split; [mrm|].
(** A continuous spectrum at one point: division by zero *)
Theorem manakovv_one_frequency_refuted : mgoes_wrong ME0 2 1 T01 (-1) (mplain M_BO 0 DS_NORMING_CONSTANTS 0) {| u_cs := Some (repeat (RtoC 0) 3); u_K := None; u_bs := None; u_nc := None |}.
Proof.
  mwrong. unfold fnft_manakovv, manakovv_run. margs. cbn -[fnft_manakovv_base Rdiv Rminus Rplus Rmult INR].
  unfold fnft_manakovv_base at 1. margs. cbn -[fnft_manakovv_base Rdiv Rminus Rplus Rmult INR].
  unfold fnft_manakovv_base at 1. margs. cbn -[Rdiv Rminus Rplus Rmult INR]. reflexivity.
Qed.
(** Residues with Richardson extrapolation, no discrete spectrum requested: the number of bound states is read *)
Theorem manakovv_residues_need_K_refuted : mgoes_wrong ME0 3 0 T01 (-1) mrich_res {| u_cs := None; u_K := None; u_bs := None; u_nc := None |}.
Proof. mwrong. unfold fnft_manakovv, manakovv_run. margs. cbn -[Rdiv Rminus Rplus Rmult INR]. reflexivity. Qed.
(** Dsub larger than 2 D: division by zero *)
Theorem manakovv_Dsub_large_refuted : mgoes_wrong ME0 2 0 T01 1 (mplain M_2SPLIT4B 0 DS_NORMING_CONSTANTS 5) bs_only.
Proof. mwrong. unfold fnft_manakovv, manakovv_run. margs. cbn -[Rdiv Rminus Rplus Rmult INR]. reflexivity. Qed.

Definition T0 : R * R := (0, 1)%R.
Ltac mrdy := constructor; [mval|discriminate|cbn; lra|reflexivity|reflexivity|cbn; lia|mrm|cbn; try lia; try congruence|cbn; lia].
(** Richardson extrapolation without XI *)
Theorem manakovv_richardson_needs_XI_refuted : mgoes_wrong ME0 3 0 None (-1) (mplain M_2SPLIT4B 1 DS_NORMING_CONSTANTS 0) {| u_cs := None; u_K := None; u_bs := None; u_nc := None |}.
Proof.
  mwrong. unfold fnft_manakovv.
  match goal with |- context [manakovv_run ?E ?D (Some ?q1) (Some ?q2) _ ?M ?XI ?k ?o ?u] =>
    assert (HY : mready D q1 q2 T0 M XI k o u) by mrdy;
    destruct (mrun_split E D q1 q2 T0 M XI k o u ME0_ok HY eq_refl) as (c & u1 & E0' & Erun); [discriminate|];
    destruct (mplain_safe E D q1 q2 T0 M XI k (mset_rich o 0) u ME0_ok) as (c' & u1' & E1 & _ & C1 & _ & _ & _ & HN); [mrdy|discriminate|] end.
  rewrite E1 in E0'. injection E0' as <- <-. change (Some T0) with T01 in Erun. rewrite Erun. clear Erun.
  rewrite HN; [|apply const_menv_never|cbn; congruence|discriminate]. cbn [Z.eqb SUCCESS]. 
  assert (Ec : u_cs u1' = None). { destruct (u_cs u1') eqn:Ex; [|reflexivity]. exfalso. apply (proj1 (mcontained_cs_some _ _ _ _ C1)); [congruence|reflexivity]. }
  unfold manakovv_richardson. rewrite Ec. cbn -[fnft_manakovv_base Rdiv Rminus Rplus Rmult INR].
  set (Tsub := (_, _)). assert (Hs : (fst Tsub < snd Tsub)%R) by (unfold Tsub; cbn [fst snd]; rewrite !S_INR; cbn [INR]; lra). clearbody Tsub.
  match goal with |- context [fnft_manakovv_base ?E ?s ?D ?q1 ?q2 ?T ?M ?XI ?k ?o ?u] =>
    destruct (mbase_safe E s D 2 q1 q2 T M XI k o u ME0_ok) as (c2 & v & E2 & _ & _ & _ & _ & _ & HN2) end; try exact Hs; try reflexivity; try (cbn; lia); try discriminate; try (cbn; congruence); try (now mrm).
  rewrite E2. rewrite HN2; [reflexivity|apply const_menv_never|cbn; congruence|auto|cbn; congruence|cbn; congruence].
Qed.

(** Richardson extrapolation of two samples: they cannot be subsampled, and the extrapolation divides by zero *)
Theorem manakovv_richardson_two_samples_refuted : mgoes_wrong ME0 2 2 T01 (-1) (mplain M_2SPLIT4B 1 DS_NORMING_CONSTANTS 0) {| u_cs := Some (repeat (RtoC 0) 6); u_K := None; u_bs := None; u_nc := None |}.
Proof.
  mwrong. unfold fnft_manakovv.
  match goal with |- context [manakovv_run ?E ?D (Some ?q1) (Some ?q2) _ ?M ?XI ?k ?o ?u] =>
    assert (HY : mready D q1 q2 T0 M XI k o u) by mrdy;
    destruct (mrun_split E D q1 q2 T0 M XI k o u ME0_ok HY eq_refl) as (c & u1 & E0' & Erun); [discriminate|];
    destruct (mplain_safe E D q1 q2 T0 M XI k (mset_rich o 0) u ME0_ok) as (c' & u1' & E1 & _ & C1 & _ & _ & _ & HN); [mrdy|discriminate|] end.
  rewrite E1 in E0'. injection E0' as <- <-. change (Some T0) with T01 in Erun. rewrite Erun. clear Erun.
  rewrite HN; [|apply const_menv_never|reflexivity|discriminate]. cbn [Z.eqb SUCCESS].
  pose proof (cm_cs _ _ _ _ C1) as K1. cbn -[kept repeat] in K1. destruct (u_cs u1') as [cs|] eqn:Ecs; [|contradiction].
  assert (L1 : length cs = 6%nat) by (destruct K1 as [-> _]; apply repeat_length).
  unfold manakovv_richardson. rewrite Ecs. cbn -[fnft_manakovv_base Rdiv Rminus Rplus Rmult INR richardson_cs pow repeat].
  match goal with |- context [richardson_cs 2 3 _ ?e _ _] => set (es := e) end.
  assert (Hes : es = 1%R) by (unfold es; cbn [INR]; field).
  set (Tsub := (_, _)). assert (Hs : (fst Tsub < snd Tsub)%R) by (unfold Tsub; cbn [fst snd]; cbn [INR]; lra). clearbody Tsub es. subst es.
  match goal with |- context [fnft_manakovv_base ?E ?s ?D ?q1 ?q2 ?T ?M ?XI ?k ?o ?u] =>
    destruct (mbase_safe E s D 2 q1 q2 T M XI k o u ME0_ok) as (c2 & v & E2 & _ & C2 & _ & _ & _ & HN2) end; try exact Hs; try reflexivity; try (cbn; lia); try discriminate; try (cbn; congruence); try (now mrm).
  rewrite E2. rewrite HN2; [|apply const_menv_never|intros _; apply proper01|auto|reflexivity|cbn; congruence]. cbn -[Rdiv Rminus Rplus Rmult INR richardson_cs pow].
  pose proof (cm_cs _ _ _ _ C2) as K2. cbn -[kept repeat] in K2. destruct (u_cs v) as [sub|]; [|contradiction].
  assert (L2 : length sub = 6%nat) by (destruct K2 as [-> _]; apply repeat_length).
  destruct cs as [|x cs]; [discriminate|]. destruct sub as [|y sub]; [discriminate|].
  cbn [deref bind]. unfold richardson_cs. cbn [for_ bind].
  match goal with |- context [Rlt_dec ?a ?b] => destruct (Rlt_dec a b) as [_|HH] end.
  2:{ exfalso. apply HH. cbn [fst snd INR]. rewrite Rmult_0_r, Rplus_0_l, Rabs_R0. pose proof PI_RGT_0. lra. }
  cbn [Nat.mul Nat.add aget nth_error bind]. unfold cdivr at 1.
  match goal with |- context [Req_EM_T ?z 0] => destruct (Req_EM_T z 0) as [_|HH] end; [reflexivity|].
  exfalso. apply HH. match goal with |- (?z ^ _ - 1)%R = _ => replace z with 1%R by (cbn; field) end. rewrite pow1. ring.
Qed.

(** the second preprocessing of an extrapolated call with bound states fails: memory is freed twice *)
Theorem manakovv_double_free_refuted : mgoes_wrong (const_menv (mfail_at 2) 1) 3 0 T01 1 (mplain M_2SPLIT4B 1 DS_NORMING_CONSTANTS 0) bs_only.
Proof.
  mwrong. unfold fnft_manakovv. set (E := const_menv (mfail_at 2) 1).
  match goal with |- context [manakovv_run ?E ?D (Some ?q1) (Some ?q2) _ ?M ?XI ?k ?o ?u] =>
    assert (HY : mready D q1 q2 T0 M XI k o u) by mrdy;
    destruct (mrun_split E D q1 q2 T0 M XI k o u (mfail_ok 2 1) HY eq_refl) as (c & u1 & E0' & Erun); [discriminate|];
    destruct (mplain_safe ME0 D q1 q2 T0 M XI k (mset_rich o 0) u ME0_ok) as (c' & u1' & E1 & _ & C1 & _ & _ & _ & HN); [mrdy|discriminate|] end.
  change (Some T0) with T01 in *.
  match type of E0' with ?a = _ => match type of E1 with ?b = _ => assert (EE : a = b) end end.
  { unfold manakovv_run. reflexivity. }
  rewrite EE, E1 in E0'. injection E0' as <- <-. rewrite Erun. clear Erun.
  rewrite HN; [|apply const_menv_never|cbn; congruence|discriminate]. cbn [Z.eqb SUCCESS].
  assert (Ec : u_cs u1' = None). { destruct (u_cs u1') eqn:Ex; [|reflexivity]. exfalso. apply (proj1 (mcontained_cs_some _ _ _ _ C1)); [congruence|reflexivity]. }
  unfold manakovv_richardson. rewrite Ec. reflexivity.
Qed.


(** ** C76: what the header promises and the code does not do *)
(** include/fnft_manakovv.h describes normconsts_or_residues as an output.  No call writes to it, whatever discspec_type asks for. *)
Theorem manakovv_norming_constants_refuted E D q1 q2 T M XI kappa user dflt u code u' user' dflt' : menv_ok E ->
  manv_safe_call E D q1 q2 T M XI kappa (match user with Some o => o | None => dflt end) u ->
  fnft_manakovv E D q1 q2 T M XI kappa user dflt u = Ret (code, u', user', dflt') -> u_nc u' = u_nc u.
Proof.
  intros HE HS H. destruct (manakovv_stays_in_bounds E D q1 q2 T M XI kappa user dflt u HE HS) as (c1 & u1 & x1 & y1 & E1 & _ & Cu).
  rewrite H in E1. injection E1 as _ <- _ _. exact (cm_nc _ _ _ _ Cu).
Qed.
(** ... and *K_ptr as the number of bound states that were detected.  In the defocusing case there are none, and *K_ptr
   keeps the capacity that the caller has put there. *)
Theorem manakovv_defocusing_count_refuted : exists D q1 q2 T o u, manv_safe_call ME0 D q1 q2 T 0 None (-1) o u /\ u_K u = Some 3%nat /\
  exists u' user' dflt', fnft_manakovv ME0 D q1 q2 T 0 None (-1) (Some o) manakovv_default_opts u = Ret (SUCCESS, u', user', dflt') /\ u_K u' = Some 3%nat.
Proof.
  exists 2%nat, (Some (qs 2)), (Some (qs 2)), T01, (mplain M_2SPLIT4B 0 DS_NORMING_CONSTANTS 0), bs_only.
  split; [msafe|]. split; [reflexivity|].
  unfold fnft_manakovv, manakovv_run. margs. cbn -[Rdiv Rminus Rplus Rmult INR]. eexists _, _, _. split; reflexivity.
Qed.
(** The bound states are computed from the subsampled signal, but the step handed to the subroutines is not the distance
   of its samples: T is not replaced by the interval that the kept samples span, as in fnft_nsev and fnft_kdvv.  Here 8 samples
   on [0,1], Dsub = 3: the samples 0, 3 and 6 are kept, which are 3/7 apart; a fast scattering that insists on this step fails. *)
Definition strict_menv (h : R) : menv := {|
  me_alloc := me_alloc ME0; me_junk := me_junk ME0; me_pre := me_pre ME0;
  me_fscatter := fun s D q1 q2 kappa eps_t res norm d =>
    Ret (if Req_EM_T eps_t h then SUCCESS else EC_OTHER, (man_degree d * D)%nat, res, 0%Z);
  me_smat := me_smat ME0; me_chirpz := me_chirpz ME0; me_roots := me_roots ME0 |}.
Lemma strict_ok h : menv_ok (strict_menv h).
Proof.
  destruct ME0_ok as [A B _ D0 E F]. constructor; try assumption. intros. cbn -[Nat.mul]. eexists _, _, _, _. split; [reflexivity|].
  split; [destruct (Req_EM_T _ _); codes|]. auto.
Qed.
Theorem manakovv_subsampled_step_refuted : manv_safe_call (strict_menv (3 / 7)) 8 (Some (qs 8)) (Some (qs 8)) T01 0 None 1 (mplain M_2SPLIT4B 0 DS_NORMING_CONSTANTS 3) bs_only /\
  downsample_sizes 8 3 = Ret (3, 3)%nat /\
  exists code u' user' dflt', fnft_manakovv (strict_menv (3 / 7)) 8 (Some (qs 8)) (Some (qs 8)) T01 0 None 1 (Some (mplain M_2SPLIT4B 0 DS_NORMING_CONSTANTS 3)) manakovv_default_opts bs_only
    = Ret (code, u', user', dflt') /\ code <> SUCCESS.
Proof.
  split; [msafe|]. split; [reflexivity|].
  unfold fnft_manakovv, manakovv_run. margs. cbn -[fnft_manakovv_base downsample_sizes sub_size Rdiv Rminus Rplus Rmult INR].
  replace (downsample_sizes 8 8) with (Ret (1, 8)%nat) by (vm_compute; reflexivity).
  replace (sub_size 8 3) with (Ret 3%nat) by (vm_compute; reflexivity). cbn -[fnft_manakovv_base downsample_sizes Rdiv Rminus Rplus Rmult INR].
  replace (downsample_sizes 8 3) with (Ret (3, 3)%nat) by (vm_compute; reflexivity). cbn -[fnft_manakovv_base Rdiv Rminus Rplus Rmult INR].
  unfold fnft_manakovv_base. margs. cbn -[man_fscatter_numel manakovv_compute_boundstates Rdiv Rminus Rplus Rmult INR].
  assert (Hn : exists n, man_fscatter_numel 3 M_2SPLIT4B = Ret (S n)) by (eexists; vm_compute; reflexivity). destruct Hn as (n & ->).
  cbn -[manakovv_compute_boundstates Rdiv Rminus Rplus Rmult INR repeat].
  destruct (Req_EM_T _ _) as [H|_]; [exfalso; cbn in H; lra|].
  cbn -[manakovv_compute_boundstates Rdiv Rminus Rplus Rmult INR repeat]. eexists _, _, _, _. split; [reflexivity|discriminate].
Qed.

Print Assumptions manakovv_rejects_invalid_arguments.
Print Assumptions manakovv_FTES4_4B_refuted.
Print Assumptions manakovv_slow_bound_states_refuted.
Print Assumptions manakovv_slow_richardson_refuted.
Print Assumptions manakovv_restores_options.
Print Assumptions manakovv_restores_options_refuted.
Print Assumptions manakovv_stays_in_bounds.
Print Assumptions manakovv_double_free_refuted.
Print Assumptions manakovv_richardson_two_samples_refuted.
Print Assumptions manakovv_succeeds.
Print Assumptions manakovv_contspec_consistent.
Print Assumptions manakovv_richardson_contspec.
Print Assumptions manakovv_richardson_exact.
Print Assumptions manakovv_bound_states.
Print Assumptions manakovv_subsampled_step_refuted.
