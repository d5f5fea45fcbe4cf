(** * Model of fnft__akns_finvscatter_q_from_r.inc, fnft__nse_finvscatter.c, fnft__kdv_finvscatter.c
   (fast inverse scattering: the samples from the transfer matrix)

   The recursion with the custom stack is modelled as it is written: a machine whose
   state is the stack s[0..stack_size-1] and the memory, one transition per pass of the
   while loop.  Pointers are (array, offset); accesses are checked.
   Simplifications: exact complex arithmetic (x/0 is 0 instead of an infinity or NaN); malloc and
   plan creation succeed; sizes do not overflow; ROUND(LOG2(D)) is exact for the
   powers of two that reach it. *)
From Coq Require Import Reals ZArith List Lia.
From Coquelicot Require Import Coquelicot.
From Verif Require Import Base Mem Loop Fields ErrModel CExp MiscNumModel KissProof KissModel PolyFmultModel DiscTables FscatterModel.
Import ListNotations.
Local Open Scope C_scope.

(** the arrays of the program: the argument transfer_matrix and, for each stack level, T1, T1i, T2i *)
Inductive arr := TM | AT1 (l : nat) | AT1i (l : nat) | AT2i (l : nat).
Definition arr_eqb (a b : arr) : bool :=
  match a, b with
  | TM, TM => true
  | AT1 l, AT1 l' | AT1i l, AT1i l' | AT2i l, AT2i l' => Nat.eqb l l'
  | _, _ => false
  end.
Definition mem := arr -> list C.
Definition mset (m : mem) (a : arr) (v : list C) : mem := fun b => if arr_eqb a b then v else m b.

(** q_from_r.inc:48-68 struct finvscatter_stack_elem: the fields deg, T, T_stride, Ti (None = NULL),
   Ti_stride, q (an offset into the user's array), start_pos.  (T1, T1i, T2i are the arrays of
   the level, the plans are in [plan], ret_code is never used.) *)
Record frame := mkframe { f_deg : nat; f_T : arr * nat; f_Ts : nat; f_Ti : option (arr * nat); f_Tis : nat; f_q : nat; f_pos : nat }.
Definition set_pos (f : frame) (p : nat) : frame :=
  mkframe (f_deg f) (f_T f) (f_Ts f) (f_Ti f) (f_Tis f) (f_q f) p.
(** an element of the stack: None if not initialised yet.  [plan]: the length of the
   level's FFT plans and mode_offset (0 or 2) *)
Record machine := mkmach { frames : list (option frame); plan : list (nat * nat); mm : mem; qs : list C;
  buf0 : list C; buf1 : list C; buf2 : list C; retc : option Z }.
(** where the while loop continues: at level i; i < 0: left; goto leave_fun *)
Inductive ctl := At (i : nat) | Finished | Leave (code : Z).
Definition pop (i : nat) : ctl := match i with O => Finished | S i' => At i' end.

(** which of the discretizations that the switch distinguishes *)
Inductive kind := KModal | K2A | KOther.

(** fnft__poly_fmult.c:228-317 poly_fmult_two_polys2x2 with operands in different arrays.  The
   operands are not written by the call, so they are fetched first.
   A plan of another length than the one of poly_fmult_two_polys_len(deg) would be undefined. *)
Definition mult2x2 (pl : nat * nat) (deg : nat) (A : list C) (oA sA : nat) (B : list C) (oB sB : nat)
    (res : list C) (ro rs : nat) (b0 b1 b2 : list C) : out (list C * list C * list C * list C) :=
  len <- two_polys_len deg ;;
  if negb (Nat.eqb (fst pl) len) then UB else
  bA <- read_blocks (K := CF) 4 A oA sA (deg + 1) ;;
  bB <- read_blocks (K := CF) 4 B oB sB (deg + 1) ;;
  run_calls (K := CF) kiss_fft (concat (bA ++ bB)) 0 (4 * (deg + 1)) (deg + 1) deg ro rs (script2 (Nat.eqb (snd pl) 2)) res b0 b1 b2.

Section Machine.
Variables (qfr : C -> C) (ret_r : bool) (eps_t : R) (kd : kind).

(** q_from_r.inc:171-216 base case: the recovered sample *)
Definition recover (X : C) : option C :=
  match kd with
  | KModal => Some (X / RtoC eps_t)
  | K2A => Some (RtoC (atan (Cmod X)) * Cexp (Ci * RtoC (Carg X)) / RtoC eps_t)
  | KOther => None
  end.
Definition base_case (s : machine) (i : nat) (f : frame) : out (machine * ctl) :=
  let (ta, to) := f_T f in
  t11 <- aget (mm s ta) (to + 1) ;;
  t21 <- aget (mm s ta) (to + 2 * f_Ts f + 1) ;;
  let R := t21 / t11 in
  let Q := qfr R in
  let scl_den := 1 - Q * R in
  if Ceq_dec scl_den 0 then Ret (s, Leave EC_DIV_BY_ZERO) else
  let scl := 1 / Csqrt scl_den in
  match f_Ti f with
  | None => UB
  | Some (ia, io) =>
      t <- wr (mm s ia) io [scl; RtoC 0] ;;
      t <- wr t (io + f_Tis f) [- scl * Q; RtoC 0] ;;
      t <- wr t (io + 2 * f_Tis f) [RtoC 0; - scl * R] ;;
      t <- wr t (io + 3 * f_Tis f) [RtoC 0; scl] ;;
      let s := mkmach (frames s) (plan s) (mset (mm s) ia t) (qs s) (buf0 s) (buf1 s) (buf2 s) (retc s) in
      match recover (if ret_r then R else Q) with
      | None => Ret (s, Leave EC_INVALID_ARGUMENT)
      | Some x => q <- aset (qs s) (f_q f) x ;;
          Ret (mkmach (frames s) (plan s) (mm s) q (buf0 s) (buf1 s) (buf2 s) (retc s), pop i)
      end
  end.

(** push the frame [c] on level i+1 and continue there; frame i continues at position [p] *)
Definition push (s : machine) (i : nat) (f : frame) (p : nat) (c : frame) : out (machine * ctl) :=
  fr <- aset (frames s) (i + 1) (Some c) ;;
  fr <- aset fr i (Some (set_pos f p)) ;;
  Ret (mkmach fr (plan s) (mm s) (qs s) (buf0 s) (buf1 s) (buf2 s) (retc s), At (i + 1)).

(** q_from_r.inc:114-126 step 1 *)
Definition step1 (s : machine) (i : nat) (f : frame) : out (machine * ctl) :=
  push s i f 1 (mkframe (f_deg f / 2) (fst (f_T f), snd (f_T f) + f_deg f / 2)%nat (f_Ts f)
                        (Some (AT2i i, (f_deg f / 2)%nat)) (f_deg f + 1) (f_q f + f_deg f / 2) 0).

(** q_from_r.inc:128-152 steps 2 and 3 *)
Definition step23 (s : machine) (i : nat) (f : frame) : out (machine * ctl) :=
  pl <- aget (plan s) i ;;
  x <- mult2x2 pl (f_deg f) (mm s (AT2i i)) 0 (f_deg f + 1) (mm s (fst (f_T f))) (snd (f_T f)) (f_Ts f)
         (mm s (AT1 i)) 0 (2 * f_deg f + 1) (buf0 s) (buf1 s) (buf2 s) ;;
  let '(r, b0, b1, b2) := x in
  push (mkmach (frames s) (plan s) (mset (mm s) (AT1 i) r) (qs s) b0 b1 b2 (Some SUCCESS)) i f 2
       (mkframe (f_deg f / 2) (AT1 i, f_deg f) (2 * f_deg f + 1) (Some (AT1i i, 0%nat)) (f_deg f / 2 + 1) (f_q f) 0).

(** q_from_r.inc:154-169 step 4 *)
Definition step4 (s : machine) (i : nat) (f : frame) : out (machine * ctl) :=
  match f_Ti f with
  | None => Ret (s, pop i)
  | Some (ia, io) =>
      pl <- aget (plan s) (i + 1) ;;
      x <- mult2x2 pl (f_deg f / 2) (mm s (AT1i i)) 0 (f_deg f / 2 + 1) (mm s (AT2i i)) (f_deg f / 2) (f_deg f + 1)
             (mm s ia) io (f_Tis f) (buf0 s) (buf1 s) (buf2 s) ;;
      let '(r, b0, b1, b2) := x in
      Ret (mkmach (frames s) (plan s) (mset (mm s) ia r) (qs s) b0 b1 b2 (Some SUCCESS), pop i)
  end.

(** q_from_r.inc:86-226: one pass of the while loop at level i *)
Definition pass (s : machine) (i : nat) : out (machine * ctl) :=
  fo <- aget (frames s) i ;;
  match fo with
  | None => UB
  | Some f =>
      if Nat.eqb (f_pos f) 1 then step23 s i f
      else if Nat.eqb (f_pos f) 2 then step4 s i f
      else if (1 <? f_deg f)%nat then step1 s i f
      else if Nat.eqb (f_deg f) 1 then base_case s i f
      else Ret (s, Leave EC_ASSERTION_FAILED)
  end.

(** the while loop; the fuel is never exhausted (theorem) *)
Fixpoint run (fuel : nat) (s : machine) (c : ctl) : out (machine * Z) :=
  match c with
  | Leave code => Ret (s, code)
  | Finished => match retc s with Some code => Ret (s, code) | None => UB end
  | At i => match fuel with O => UB | S fuel' => x <- pass s i ;; run fuel' (fst x) (snd x) end
  end.
End Machine.

(** q_from_r.inc:31-46 and 344-367: the degrees, lengths and mode offsets of the levels *)
Definition level_deg (deg l : nat) : nat := (deg / 2 ^ l)%nat.
Fixpoint plans (cnt l deg : nat) : out (list (nat * nat)) :=
  match cnt with
  | O => Ret []
  | S cnt' => len <- two_polys_len (level_deg deg l) ;;
      pl <- plans cnt' (S l) deg ;;
      Ret ((len, if (level_deg deg l + 1 <? len)%nat then 0%nat else 2%nat) :: pl)
  end.
(** malloc leaves arbitrary contents ([junkm] : array -> length -> contents), calloc zeros *)
Definition init_mem (junkm : arr -> nat -> list C) (deg : nat) (tm : list C) : mem := fun a =>
  match a with
  | TM => tm
  | AT1 l => junkm a (4 * (2 * level_deg deg l + 1))%nat
  | AT1i l => junkm a (4 * (level_deg deg l / 2 + 1))%nat
  | AT2i l => repeat (RtoC 0) (4 * (level_deg deg l + 1))%nat
  end.

(** q_from_r.inc:286-288 transposition *)
Definition transpose_tm (deg : nat) (tm : list C) : out (list C) :=
  tm <- aset tm (2 * (deg + 1)) (RtoC 0) ;;
  for_ deg 0 (fun i tm => x <- aget tm (deg + 1 + i) ;; aset tm (2 * (deg + 1) + 1 + i) x) tm.
(** q_from_r.inc:376-384 *)
Definition reverse_q (D : nat) (q : list C) : out (list C) :=
  for_ (D / 2) 0 (fun i q => tmp <- aget q i ;; x <- aget q (D - 1 - i) ;; q <- aset q i x ;; aset q (D - 1 - i) tmp) q.

(** D & (D-1) != 0 *)
Definition not_pow2 (D : nat) : bool := negb (Z.eqb (Z.land (Z.of_nat D) (Z.of_nat D - 1)) 0).

(** q_from_r.inc:232-409 finvscatter, with kappa checked by the caller.
   [degree]: the result of discretization_degree.  Result: code, q, transfer_matrix. *)
Definition finvscatter (junkm : arr -> nat -> list C) (junk0 junk1 junk2 : nat -> list C) (qfr : C -> C) (ret_r transpose : bool) (kd : kind) (degree : nat)
    (deg : nat) (tm q : list C) (eps_t : R) : out (Z * list C * list C) :=
  if Nat.eqb degree 0 then Ret (EC_INVALID_ARGUMENT, q, tm) else
  let D := (deg / degree)%nat in
  if orb (D <? 2)%nat (not_pow2 D) then Ret (EC_OTHER, q, tm) else
  tm <- (if transpose then transpose_tm deg tm else Ret tm) ;;
  max_len <- two_polys_len deg ;;
  let stack_size := (Nat.log2 D + 1)%nat in
  pl <- plans stack_size 0 deg ;;
  let fr := Some (mkframe deg (TM, 0%nat) (deg + 1) None 0 0 0) :: repeat None (stack_size - 1) in
  let s := mkmach fr pl (init_mem junkm deg tm) q (junk0 max_len) (junk1 max_len) (junk2 max_len) None in
  x <- run qfr ret_r eps_t kd (4 * deg) s (At 0) ;;
  let '(s, code) := x in
  if negb (Z.eqb code SUCCESS) then c <- E_SUBROUTINE code ;; Ret (c, qs s, mm s TM) else
  q <- (if transpose then reverse_q D (qs s) else Ret (qs s)) ;;
  Ret (SUCCESS, q, mm s TM).

(** the argument checks in front, :242-253; None = NULL *)
Definition finv_args (deg : nat) (tm q : option (list C)) (eps_t : R) (kappa_ok : bool)
    (f : list C -> list C -> out (Z * list C * list C)) : out (Z * option (list C) * option (list C)) :=
  if Nat.eqb deg 0 then Ret (EC_INVALID_ARGUMENT, q, tm) else
  match tm with None => Ret (EC_INVALID_ARGUMENT, q, tm) | Some tm0 =>
  match q with None => Ret (EC_INVALID_ARGUMENT, q, tm) | Some q0 =>
  if Rle_dec eps_t 0 then Ret (EC_INVALID_ARGUMENT, q, tm) else
  if negb kappa_ok then Ret (EC_INVALID_ARGUMENT, q, tm) else
  x <- f tm0 q0 ;; let '(c, q', tm') := x in Ret (c, Some q', Some tm')
  end end.

Definition nse_kind (d : nse_disc) : kind := match d with N_2SPLIT2_MODAL => KModal | N_2SPLIT2A => K2A | _ => KOther end.
Definition kdv_kind (d : kdv_disc) : kind := match d with K_2SPLIT2_MODAL => KModal | K_2SPLIT2A => K2A | _ => KOther end.

Section Finv.
Variable junkm : arr -> nat -> list C.
Variables junk0 junk1 junk2 : nat -> list C.
(** fnft__nse_finvscatter.c:23-29 *)
Definition nse_finvscatter (deg : nat) (tm q : option (list C)) (eps_t : R) (kappa : Z) (d : nse_disc) :=
  finv_args deg tm q eps_t (orb (Z.eqb kappa 1) (Z.eqb kappa (-1))) (fun tm q =>
    finvscatter junkm junk0 junk1 junk2 (fun R => - RtoC (IZR kappa) * Cconj R) false false (nse_kind d) (nse_degree d) deg tm q eps_t).
(** fnft__kdv_finvscatter.c:23-29 *)
Definition kdv_finvscatter (deg : nat) (tm q : option (list C)) (eps_t : R) (d : kdv_disc) :=
  finv_args deg tm q eps_t true (fun tm q =>
    finvscatter junkm junk0 junk1 junk2 (fun R => - RtoC eps_t) true true (kdv_kind d) (kdv_degree d) deg tm q eps_t).
End Finv.
