(** * Model of the discrete helper functions of src/private/fnft__misc.c

   Reading of numbers in this file: a REAL is an IEEE number
   ([SpecFloat.spec_float], with NaN and infinities); a COMPLEX is a pair.
   Arrays are lists with checked access, NULL is [None]. *)
From Coq Require Export Floats.SpecFloat.
From Verif Require Export Base ErrModel.

Definition real := spec_float.
Definition cplx : Type := real * real.
Definition creal (z : cplx) : real := fst z.
Definition cimag (z : cplx) : real := snd z.
(** C's comparison operators on doubles: false as soon as an operand is NaN *)
Definition r_le (x y : real) : bool := SFleb x y.
Definition r_lt (x y : real) : bool := SFltb x y.
Definition r_ge (x y : real) : bool := SFleb y x.
Definition r_gt (x y : real) : bool := SFltb y x.

Record box := { b0 : real; b1 : real; b2 : real; b3 : real }.

(** Everything the caller hands over by pointer *)
Record fstate := {
  fs_N : option nat;             (* *N_ptr; None = NULL pointer *)
  fs_vals : option (list cplx);  (* vals *)
  fs_re : option (list cplx) }.  (* rearrange_as_well *)

(** fnft__misc.c:129-147, 177-193 and 211-215: the loop that the three filters share
   (the branch condition is the parameter [keep]). [fuel] = N_local - i.
   The element type is a parameter: IEEE pairs here, exact complex numbers in NsevModel. *)
Fixpoint filter_loop {A : Type} (keep : A -> bool) (fuel i nf : nat)
  (vals : list A) (re : option (list A))
  : out (nat * list A * option (list A)) :=
  match fuel with
  | O => Ret (nf, vals, re)
  | S fuel' =>
      v <- aget vals i ;;
      if keep v then
        w <- aget vals i ;;
        vals' <- aset vals nf w ;;
        re' <- (match re with
                | None => Ret None
                | Some r => x <- aget r i ;; r' <- aset r nf x ;; Ret (Some r')
                end) ;;
        filter_loop keep fuel' (S i) (S nf) vals' re'
      else filter_loop keep fuel' (S i) nf vals re
  end.

(** fnft__misc.c:134-141, the four [continue] tests *)
Definition filter_keep (bb : box) (v : cplx) : bool :=
  if negb (r_ge (creal v) (b0 bb)) then false else
  if negb (r_le (creal v) (b1 bb)) then false else
  if negb (r_ge (cimag v) (b2 bb)) then false else
  if negb (r_le (cimag v) (b3 bb)) then false else true.

(** fnft__misc.c:179-187, ok_flag *)
Definition filter_inv_keep (bb : box) (v : cplx) : bool :=
  let ok_flag := 0%Z in
  let ok_flag := if negb (r_gt (creal v) (b0 bb)) then 1%Z else ok_flag in
  let ok_flag := if negb (r_lt (creal v) (b1 bb)) then 1%Z else ok_flag in
  let ok_flag := if negb (r_gt (cimag v) (b2 bb)) then 1%Z else ok_flag in
  let ok_flag := if negb (r_lt (cimag v) (b3 bb)) then 1%Z else ok_flag in
  Z.eqb ok_flag 1.

(** fnft__misc.c:114-122 / 160-168, argument checks of both box filters *)
Definition filter_args_ok (st : fstate) (bb : option box) : bool :=
  match fs_N st, fs_vals st, bb with
  | Some _, Some _, Some b =>
      negb (negb (r_le (b0 b) (b1 b)) || negb (r_le (b2 b) (b3 b)))
  | _, _, _ => false
  end.

Definition run_filter (keep : cplx -> bool) (st : fstate) : out (Z * fstate) :=
  match fs_N st, fs_vals st with
  | Some n, Some vals =>
      r <- filter_loop keep n 0 0 vals (fs_re st) ;;
      let '(nf, vals', re') := r in
      Ret (SUCCESS, {| fs_N := Some nf; fs_vals := Some vals'; fs_re := re' |})
  | _, _ => UB
  end.

(** fnft__misc.c:108-151 misc_filter *)
Definition misc_filter (st : fstate) (bb : option box) : out (Z * fstate) :=
  if filter_args_ok st bb then
    match bb with Some b => run_filter (filter_keep b) st | None => UB end
  else Ret (EC_INVALID_ARGUMENT, st).

(** fnft__misc.c:153-197 misc_filter_inv *)
Definition misc_filter_inv (st : fstate) (bb : option box) : out (Z * fstate) :=
  if filter_args_ok st bb then
    match bb with Some b => run_filter (filter_inv_keep b) st | None => UB end
  else Ret (EC_INVALID_ARGUMENT, st).

(** fnft__misc.c:199-220 misc_filter_nonreal (no companion array).  The
   literal 0 in [tol_im >= 0] is [S754_zero false]. *)
Definition nonreal_keep (tol : real) (v : cplx) : bool :=
  if negb (r_gt (SFabs (cimag v)) tol) then false else true.
Definition misc_filter_nonreal (st : fstate) (tol_im : real) : out (Z * fstate) :=
  match fs_N st, fs_vals st with
  | Some _, Some _ =>
      if negb (r_ge tol_im (S754_zero false)) then Ret (EC_INVALID_ARGUMENT, st)
      else run_filter (nonreal_keep tol_im) {| fs_N := fs_N st; fs_vals := fs_vals st; fs_re := None |}
  | _, _ => Ret (EC_INVALID_ARGUMENT, st)
  end.

(** fnft__misc.c:222-253 misc_merge.  [near a b] stands for the C test
   [CABS(a - b) < tol]; it is a parameter, so the theorems hold for every
   distance, also with rounding and NaNs. *)
Section Merge.
  Context {A : Type} (near : A -> A -> bool).

  (** lines 238-242, the inner loop over j = k, k+1, ..., i-1: does it break? *)
  Fixpoint merge_inner (fuel j : nat) (vi : A) (vals : list A) : out bool :=
    match fuel with
    | O => Ret false
    | S fuel' =>
        vj <- aget vals j ;;
        if near vj vi then Ret true else merge_inner fuel' (S j) vi vals
    end.

  (** lines 237-249, the loop over i; [fuel] = N - i *)
  Fixpoint merge_loop (fuel i nf : nat) (vals : list A) : out (nat * list A) :=
    match fuel with
    | O => Ret (nf, vals)
    | S fuel' =>
        vi <- aget vals i ;;
        close <- merge_inner i 0 vi vals ;;
        if (close : bool) then merge_loop fuel' (S i) nf vals
        else vals' <- aset vals nf vi ;; merge_loop fuel' (S i) (S nf) vals'
    end.

  (** the whole function; [tol_neg] is the outcome of the test [tol < 0.0].
     The result is (return code, *N_ptr, vals). *)
  Definition misc_merge (N : option nat) (vals : option (list A)) (tol_neg : bool)
    : out (Z * option nat * option (list A)) :=
    match N with
    | None => Ret (EC_INVALID_ARGUMENT, N, vals)
    | Some O => Ret (SUCCESS, N, vals)
    | Some (S n) =>
        match vals with
        | None => Ret (EC_INVALID_ARGUMENT, N, vals)
        | Some l =>
            if tol_neg then Ret (EC_INVALID_ARGUMENT, N, vals)
            else r <- merge_loop n 1 1 l ;;
                 Ret (SUCCESS, Some (fst r), Some (snd r))
        end
    end.
End Merge.

(** ** misc_downsample, fnft__misc.c:255-296 *)

(** [(UINT) ROUND((REAL)a / b)]: C's round() rounds half away from zero.  The
   quotient is taken exactly here (simplification: C first rounds it to a double). *)
Definition round_div (a b : nat) : nat := (2 * a + b) / (2 * b).

Section Downsample.
  Context {A : Type}.

  (** lines 283-287; [fuel] = Dsub - isub; result: qsub and the final i *)
  Fixpoint downsample_loop (fuel i nskip : nat) (q : list A) : out (list A * nat) :=
    match fuel with
    | O => Ret ([], i)
    | S fuel' =>
        x <- aget q i ;;
        r <- downsample_loop fuel' (i + nskip) nskip q ;;
        Ret (x :: fst r, snd r)
    end.

  (** lines 270-276: clamping, stride, actual number of samples.
     nskip = 0 would be a division by zero (inf converted to UINT is UB). *)
  Definition downsample_sizes (D Dsub : nat) : out (nat * nat) :=
    let Dsub := if Dsub <? 2 then 2 else Dsub in
    let Dsub := if D <? Dsub then D else Dsub in
    let nskip := round_div D Dsub in
    if nskip =? 0 then UB else Ret (nskip, round_div D nskip).

  Record ds_out := { ds_Dsub : nat; ds_qsub : list A; ds_first : nat; ds_last : nat }.

  (** whole function for non-NULL output pointers; [inl] is an error code.
     malloc failure is the argument [oom]. *)
  Definition misc_downsample (D : nat) (q : option (list A)) (Dsub : nat) (oom : bool)
    : out (Z + ds_out) :=
    match q with
    | None => Ret (inl EC_INVALID_ARGUMENT)
    | Some q =>
        if D <=? 2 then Ret (inl EC_INVALID_ARGUMENT) else
        s <- downsample_sizes D Dsub ;;
        let '(nskip, Dsub) := s in
        if oom then Ret (inl EC_NOMEM) else
        r <- downsample_loop Dsub 0 nskip q ;;
        Ret (inr {| ds_Dsub := Dsub; ds_qsub := fst r; ds_first := 0;
                    ds_last := snd r - nskip |})
    end.
End Downsample.

(** ** misc_nextpowerof2, fnft__misc.c:298-306.  UINT is size_t, 64 bits:
   the product wraps.  [None] = the loop has not terminated within [fuel]
   iterations. *)
Definition UINT_MOD : Z := 18446744073709551616.
Fixpoint np2_loop (fuel : nat) (result number : Z) : option Z :=
  match fuel with
  | O => None
  | S fuel' =>
      if Z.ltb result number
      then np2_loop fuel' ((result * 2) mod UINT_MOD)%Z number
      else Some result
  end.
Definition misc_nextpowerof2 (fuel : nat) (number : Z) : option Z :=
  if Z.eqb number 0 then Some 0%Z else np2_loop fuel 1 number.
