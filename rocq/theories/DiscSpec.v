(** * Specification of the discretization names (include/fnft_nse_discretization_t.h, ..kdv.., ..manakov..: documentation)

   `xSPLITyz`: splitting of a base method of order x; `CFn_m`: commutator-free of order n with m exponentials;
   `ES4`, `TES4`, `FTES4`: order four; `BO`: order two.  The suffix `_VANILLA` marks the KdV variants with r=-1.
   This file reads these facts off the *names*. *)
From Coq Require Import String Ascii Bool Arith.
Local Open Scope string_scope.
Local Open Scope nat_scope.

Definition digit (s : string) (i : nat) : nat :=
  match String.get i s with Some c => nat_of_ascii c - 48 | None => 0 end.
Definition is (p s : string) : bool := String.prefix p s.
Definition contains_split (s : string) : bool := is "2SPLIT" s || is "4SPLIT" s.

Definition name_order (s : string) : nat :=
  if contains_split s then digit s 0
  else if is "CF" s then digit s 2
  else if is "ES4" s || is "TES4" s || is "FTES4" s then 4
  else if is "BO" s then 2 else 0.

(** samples per step that the method needs *)
Definition name_upsampling (s : string) : nat :=
  if is "2SPLIT" s || is "BO" s || is "FTES4" s then 1
  else if is "4SPLIT" s then 2
  else if is "CF" s then digit s 4
  else if is "ES4" s || is "TES4" s then 3 else 0.

(** methods with a polynomial (fast) transfer matrix *)
Definition name_fast (s : string) : bool := contains_split s || is "FTES4" s.

Definition strip_suffix (suffix s : string) : string :=
  let k := String.length s - String.length suffix in
  if String.eqb (String.substring k (String.length suffix) s) suffix then String.substring 0 k s else s.
Definition is_vanilla (s : string) : bool := negb (String.eqb (strip_suffix "_VANILLA" s) s).
