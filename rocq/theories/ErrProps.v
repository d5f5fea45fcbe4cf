(** * Properties C57, C58: error codes, message hook *)
From Verif Require Import Base ErrModel ErrProof.
Local Open Scope Z_scope.

(** C57. For every call tree whose functions raise only small codes: the code
   the user gets is 0 iff no function raised a code before...; otherwise it is
   the first raised code e if the called function raised it itself, and -|e|
   if a subroutine (at any depth) raised it. *)
Theorem error_code_propagates :
  forall c, Forall (fun e => -100 <= e <= 100) (leaf_codes c) ->
  run c = Ret (match first_error (leaf_codes c) with
               | None => 0
               | Some e => if is_leaf c then e else - Z.abs e
               end).
Proof. exact run_spec. Qed.
Print Assumptions error_code_propagates.

(** C57, reading: success is returned only if every raised code is 0. *)
Theorem success_means_no_error :
  forall c, Forall (fun e => -100 <= e <= 100) (leaf_codes c) ->
  run c = Ret 0 -> Forall (fun e => e = 0) (leaf_codes c).
Proof.
  intros c HF H. rewrite run_spec in H by exact HF. injection H as H.
  apply Forall_forall. intros e He.
  destruct (first_error (leaf_codes c)) as [x|] eqn:E; unfold first_error in E.
  - apply find_some in E. destruct E as [_ E]. apply negb_true_iff, Z.eqb_neq in E.
    destruct (is_leaf c); lia.
  - apply (find_none _ _ E) in He. apply negb_false_iff, Z.eqb_eq in He. exact He.
Qed.
Print Assumptions success_means_no_error.

(** All the codes of the library satisfy the range hypothesis. *)
Theorem library_codes_in_range : Forall (fun e => -100 <= e <= 100 /\ e <> 0) error_codes.
Proof. repeat constructor; unfold EC_NOMEM, EC_INVALID_ARGUMENT, EC_DIV_BY_ZERO,
  EC_TEST_FAILED, EC_OTHER, EC_NOT_YET_IMPLEMENTED, EC_SANITY_CHECK_FAILED,
  EC_ASSERTION_FAILED; lia. Qed.
Print Assumptions library_codes_in_range.

Example propagate_example :
  run (Calls [Leaf 0; Calls [Leaf 0; Calls [Leaf EC_NOMEM]]; Leaf 5]) = Ret (-1).
Proof. reflexivity. Qed.

(** C58. After any history of operations in any threads, what a thread reads
   is the pointer last set by that same thread (the default printf if none). *)
Theorem printf_hook_is_per_thread_register :
  forall h t, snd (hook_step (hook_run hook_init h) t GetPrintf)
    = {| ret_ptr := Some (last_set t h default_hook); ret_ec := None; printed_by := None |}.
Proof. intros h t. cbn [hook_step snd]. now rewrite hook_run_spec. Qed.
Print Assumptions printf_hook_is_per_thread_register.

(** C58. Messages go to the function last set in the thread; after setting NULL
   nothing is printed; the error code handed in is always returned. *)
Theorem messages_follow_hook :
  forall h t ec, snd (hook_step (hook_run hook_init h) t (ErrMsg ec))
    = {| ret_ptr := None; ret_ec := Some ec; printed_by := last_set t h default_hook |}
  /\ printed_by (snd (hook_step (hook_run hook_init h) t Warn)) = last_set t h default_hook.
Proof. intros h t ec. cbn [hook_step snd printed_by]. now rewrite hook_run_spec. Qed.
Print Assumptions messages_follow_hook.

Example hook_example :
  last_set 1 [(1%nat, SetPrintf (Some 7%nat)); (2%nat, SetPrintf None); (1%nat, Warn)] default_hook
  = Some 7%nat.
Proof. reflexivity. Qed.
