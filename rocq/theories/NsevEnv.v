(** * Subroutines that meet their contracts, and calls that show where fnft_nsev does not keep its promises *)
From Coq Require Import Reals Lra.
From Coquelicot Require Import Coquelicot.
From Verif Require Import Loop CExp MiscSpec MiscProof MiscProps PolyFmultProof DiscProps DiscPreProps NsevSpec NsevProps NsevSafe NsevSafe2 NsevSafe3 NsevSafe4 NsevSafe5.
Local Open Scope C_scope.

(** Subroutines with constant answers: preprocessing fails at the call sites s with prec s = Some code, the root finder
   answers with the code rootc.  All allocations succeed. *)
Definition const_env (prec : nat -> option Z) (rootc : Z) (root a ap b : C) : env := {|
  e_alloc := fun _ _ => true;
  e_junk := fun _ n => repeat (RtoC 0) n;
  e_pre := fun s D q eps_t kappa Dsub d =>
    match prec s with
    | Some c => Ret (inl c)
    | None => x <- downsample_sizes D Dsub ;;
              Ret (inr {| po_Dsub := snd x; po_q := repeat (RtoC 1) (snd x * nse_upsampling_factor d);
                          po_r := repeat (RtoC (-1)) (snd x * nse_upsampling_factor d); po_first := 0; po_last := (snd x - 1) * fst x |})
    end;
  e_fscatter := fun s D q r eps_t res norm d => Ret (SUCCESS, (nse_degree d * D)%nat, res, 0%Z);
  e_smat := fun s D q r eps_t kappa M xi norm d => Ret (SUCCESS, repeat (RtoC 1) (4 * M), repeat 0%Z M);
  e_chirpz := fun s deg p A V M => Ret (SUCCESS, repeat (RtoC 1) M);
  e_sbs := fun s D q r T K bs norm d skip => Ret (SUCCESS, repeat a K, repeat ap K, repeat b K, repeat 0%Z K);
  e_roots := fun s deg p buf => Ret (rootc, repeat root deg ++ skipn deg buf) |}.

Lemma sizes_two n : downsample_sizes 2 n = Ret (1%nat, 2%nat).
Proof.
  unfold downsample_sizes. destruct (Nat.ltb_spec n 2); [reflexivity|]. destruct (Nat.ltb_spec 2 n); [reflexivity|].
  assert (n = 2)%nat as -> by lia. reflexivity.
Qed.
Lemma const_env_ok prec rootc root a ap b : ok_code rootc -> (forall s c, prec s = Some c -> ok_code c /\ c <> SUCCESS) ->
  env_ok (const_env prec rootc root a ap b).
Proof.
  intros Hr Hp. constructor; cbn.
  - intros. apply repeat_length.
  - intros s D q eps_t kappa Dsub d HD _ _. destruct (prec s) as [c|] eqn:Es; [eexists; split; [reflexivity|]; cbn; eauto|].
    assert (Hs : exists x y, downsample_sizes D Dsub = Ret (x, y)).
    { destruct (Nat.eq_dec D 2) as [->|N]; [rewrite sizes_two; eauto|]. destruct (downsample_sizes_spec D Dsub) as (x & y & E & _); [lia|]. eauto. }
    destruct Hs as (x & y & Exy). rewrite Exy. cbn [bind fst snd]. eexists. split; [reflexivity|]. cbn.
    exists x. rewrite !repeat_length. auto.
  - intros. eexists _, _, _, _. split; [reflexivity|]. split; [codes|]. auto.
  - intros. eexists _, _, _. split; [reflexivity|]. split; [codes|]. rewrite !repeat_length. auto.
  - intros. eexists _, _. split; [reflexivity|]. split; [codes|]. intros _. apply repeat_length.
  - intros. eexists _, _, _, _, _. split; [reflexivity|]. split; [codes|]. rewrite !repeat_length. auto.
  - intros s deg p buf _ Hb. eexists _, _. split; [reflexivity|]. split; [exact Hr|]. split.
    + rewrite app_length, repeat_length, skipn_length. lia.
    + intros i Hi. rewrite nth_error_app2 by (rewrite repeat_length; lia). rewrite repeat_length, nth_error_skip. f_equal. lia.
Qed.
Definition no_fail : nat -> option Z := fun _ => None.
Definition E0 : env := const_env no_fail SUCCESS (0, 1)%R 1 1 1.
Lemma E0_ok : env_ok E0.
Proof. apply const_env_ok; [codes|discriminate]. Qed.
Lemma no_fail_pre_codes prec rootc root a ap b : (forall s c, prec s = Some c -> c <> SUCCESS) -> pre_codes (const_env prec rootc root a ap b).
Proof.
  intros H s D q eps_t kappa Dsub d c. cbn. destruct (prec s) as [c0|] eqn:E.
  - intros E1. injection E1 as <-. eauto.
  - destruct (downsample_sizes D Dsub); cbn; discriminate.
Qed.

(** ** Concrete calls *)
Definition with_loc (o : opts) (l : bsloc) := set_bsloc o l.
(** options of a slow method without filtering and without refinement *)
Definition plain : opts :=
  {| bound_state_filtering := BF_NONE; bound_state_localization := BL_NEWTON; niter := 0; tol := Fin 0; o_Dsub := 0;
     discspec_type := DS_NORMING_CONSTANTS; contspec_type := CS_REFLECTION_COEFFICIENT; normalization_flag := false;
     discretization := N_BO; richardson_extrapolation_flag := 0; bounding_box := {| x0 := NaN; x1 := NaN; x2 := NaN; x3 := NaN |} |}.
Definition set_rich (o : opts) : opts :=
  {| bound_state_filtering := bound_state_filtering o; bound_state_localization := bound_state_localization o; niter := niter o; tol := tol o;
     o_Dsub := o_Dsub o; discspec_type := discspec_type o; contspec_type := contspec_type o;
     normalization_flag := normalization_flag o; discretization := discretization o; richardson_extrapolation_flag := 1; bounding_box := bounding_box o |}.
Definition set_filt (o : opts) (f : bsfilt) : opts :=
  {| bound_state_filtering := f; bound_state_localization := bound_state_localization o; niter := niter o; tol := tol o;
     o_Dsub := o_Dsub o; discspec_type := discspec_type o; contspec_type := contspec_type o;
     normalization_flag := normalization_flag o; discretization := discretization o;
     richardson_extrapolation_flag := richardson_extrapolation_flag o; bounding_box := bounding_box o |}.
Definition set_Dsub (o : opts) (n : nat) : opts :=
  {| bound_state_filtering := bound_state_filtering o; bound_state_localization := bound_state_localization o; niter := niter o; tol := tol o;
     o_Dsub := n; discspec_type := discspec_type o; contspec_type := contspec_type o;
     normalization_flag := normalization_flag o; discretization := discretization o;
     richardson_extrapolation_flag := richardson_extrapolation_flag o; bounding_box := bounding_box o |}.
Definition qs (n : nat) : list C := repeat (RtoC 1) n.
Definition T01 : option (R * R) := Some (0, 1)%R.
Definition nothing : outs := {| u_cs := None; u_K := None; u_bs := None; u_nc := None |}.

Lemma bad01 : bad_interval T01 = false.
Proof. cbn. destruct (Rle_dec 1 0); [lra|reflexivity]. Qed.
Lemma proper01 : proper_interval T01.
Proof. exists 0%R, 1%R. split; [reflexivity|lra]. Qed.

Ltac valid_call := constructor; cbn; try discriminate; try lia; try apply proper01; auto; try (intros _; apply proper01); try (left; reflexivity); try (right; reflexivity).
