(** * Model of error codes and of the message hook *)
From Verif Require Import Base.
Local Open Scope Z_scope.

(** include/fnft_errwarn.h:44-94 (FNFT_SUCCESS, FNFT_EC_... ) *)
Definition SUCCESS : Z := 0.
Definition EC_NOMEM : Z := 1.
Definition EC_INVALID_ARGUMENT : Z := 2.
Definition EC_DIV_BY_ZERO : Z := 3.
Definition EC_TEST_FAILED : Z := 4.
Definition EC_OTHER : Z := 5.
Definition EC_NOT_YET_IMPLEMENTED : Z := 6.
Definition EC_SANITY_CHECK_FAILED : Z := 7.
Definition EC_ASSERTION_FAILED : Z := 8.
Definition error_codes : list Z :=
  [EC_NOMEM; EC_INVALID_ARGUMENT; EC_DIV_BY_ZERO; EC_TEST_FAILED; EC_OTHER;
   EC_NOT_YET_IMPLEMENTED; EC_SANITY_CHECK_FAILED; EC_ASSERTION_FAILED].

(** include/private/fnft__errwarn.h:57, FNFT__E_SUBROUTINE(ec) = -abs(ec).
   [abs(INT_MIN)] is undefined in C: outcome UB.  INT is int32_t. *)
Definition INT_MIN : Z := -2147483648.
Definition E_SUBROUTINE (ec : Z) : out Z :=
  if ec =? INT_MIN then UB else Ret (- Z.abs ec).

(** A function body as seen by its caller: either it returns a code of its own
   ([Leaf]), or it calls subroutines one after the other, each followed by
   CHECK_RETCODE(ret_code, release_mem) (fnft__errwarn.h:101), and finally
   returns the last ret_code.  The cleanup code after the label does not
   change ret_code in any function of the library. *)
Inductive call : Type :=
| Leaf (ec : Z)                 (* return E_xxx, or return SUCCESS *)
| Calls (subs : list call).     (* ret_code = f(..); CHECK_RETCODE(..); ... *)

(** src pattern: ret_code = f(...); CHECK_RETCODE(ret_code, release_mem);
   [run] evaluates calls in order until the first failing one. *)
Fixpoint run (c : call) : out Z :=
  match c with
  | Leaf ec => Ret ec
  | Calls subs =>
      (fix seq (l : list call) : out Z :=
         match l with
         | [] => Ret SUCCESS
         | s :: l' =>
             ec <- run s ;;
             if ec =? SUCCESS then seq l' else E_SUBROUTINE ec
         end) subs
  end.

(** ** The message hook, src/fnft_errwarn.c:44-61 and
   src/private/fnft__errwarn.c:28-46.  One register per thread
   ([_Thread_local]); [None] is the NULL pointer.  Function pointers are
   natural numbers, the initial value is the default printf, number 0. *)
Definition hook := option nat.
Definition default_hook : hook := Some 0%nat.

Inductive hook_op :=
| SetPrintf (p : hook)          (* fnft_errwarn_setprintf, fnft_errwarn.c:53-56 *)
| GetPrintf                     (* fnft_errwarn_getprintf, fnft_errwarn.c:58-61 *)
| ErrMsg (ec : Z)               (* fnft__errmsg_aux, fnft__errwarn.c:28-37 *)
| Warn.                         (* fnft__warn_aux, fnft__errwarn.c:39-46 *)

(** What the caller observes: the returned pointer, the returned code, and
   which printf function got called. *)
Record hook_obs := { ret_ptr : option hook; ret_ec : option Z; printed_by : hook }.

Definition hook_state := nat -> hook.       (* thread id -> fnft__printf_ptr *)
Definition hook_init : hook_state := fun _ => default_hook.

Definition hook_step (s : hook_state) (t : nat) (o : hook_op)
  : hook_state * hook_obs :=
  match o with
  | SetPrintf p =>
      ((fun t' => if Nat.eqb t' t then p else s t'),
       {| ret_ptr := None; ret_ec := None; printed_by := None |})
  | GetPrintf => (s, {| ret_ptr := Some (s t); ret_ec := None; printed_by := None |})
  | ErrMsg ec => (s, {| ret_ptr := None; ret_ec := Some ec; printed_by := s t |})
  | Warn => (s, {| ret_ptr := None; ret_ec := None; printed_by := s t |})
  end.

Definition hook_run (s : hook_state) (h : list (nat * hook_op)) : hook_state :=
  fold_left (fun s x => fst (hook_step s (fst x) (snd x))) h s.
