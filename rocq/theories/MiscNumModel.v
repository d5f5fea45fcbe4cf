(** * Model of the numeric helper functions of fnft__misc.c and fnft__misc.h (exact arithmetic) *)
From Coq Require Import Reals.
From Coquelicot Require Import Coquelicot.
From Verif Require Export Base Loop Mem CExp Fields.

(** ** Real/complex helpers *)
Section Num.
Local Open Scope R_scope.

(** fnft__misc.h:410-415: max_abs = largest modulus of v[0..len-1], starting from 0.0 *)
Definition max_abs_loop (len : nat) (v : list C) : out R :=
  for_ len 0 (fun i max_abs => x <- aget v i ;;
    let cur_abs := Cmod x in Ret (if Rlt_dec max_abs cur_abs then cur_abs else max_abs)) 0.

(** FLOOR(x) as an integer *)
Definition floorZ (x : R) : Z := (up x - 1)%Z.
(** LOG2(x) *)
Definition log2 (x : R) : R := ln x / ln 2.

(** fnft__misc.h:407-428 misc_normalize_vector: returned exponent and new v.
   (The conversion (INT) a is exact here: overflow of INT is not modelled.) *)
Definition misc_normalize_vector (len : nat) (v : list C) : out (Z * list C) :=
  max_abs <- max_abs_loop len v ;;
  if Req_EM_T max_abs 0 then Ret (0%Z, v) else
  let a := floorZ (log2 max_abs) in
  let scl := powerRZ 2 (- a) in
  v <- for_ len 0 (fun i v => x <- aget v i ;; aset v i (Cmult x (RtoC scl))) v ;;
  Ret (a, v).

(** fnft__misc.h:376-393 misc_legendre_poly.  P is not initialised before the loop: UB if
   it were read, which is why it is an option. *)
Definition misc_legendre_poly (n : nat) (x : R) : out R :=
  if (n =? 0)%nat then Ret 1 else
  if (n =? 1)%nat then Ret x else
  st <- for_ (n - 1) 2 (fun i (st : option R * R * R) =>
    let '(_, P_1, P_2) := st in
    let P := (2 * INR i - 1) * x * P_1 / INR i - (INR i - 1) * P_2 / INR i in
    Ret (Some P, P, P_1)) (None, x, 1) ;;
  match st with (Some P, _, _) => Ret P | (None, _, _) => UB end.

(** fnft__misc.c:41-51 misc_rel_err: numerator and denominator of the returned quotient *)
Definition rel_err_sums (len : nat) (vn ve : list C) : out (R * R) :=
  for_ len 0 (fun i (st : R * R) => let '(n, d) := st in
    a <- aget vn i ;; b <- aget ve i ;;
    Ret (n + Cmod (Cminus a b), d + Cmod b)) (0, 0).
(** the quotient n/d; None when d = 0 (the C code then returns NaN or Inf) *)
Definition misc_rel_err (len : nat) (vn ve : list C) : out (option R) :=
  st <- rel_err_sums len vn ve ;;
  let '(n, d) := st in Ret (if Req_EM_T d 0 then None else Some (n / d)).

(** fnft__misc.c:61-66 and 72-77: distance of one value to all values of the other array;
   None = INFINITY *)
Definition min_dist (f : nat -> out R) (len : nat) : out (option R) :=
  for_ len 0 (fun j (dist : option R) => tmp <- f j ;;
    Ret (match dist with None => Some tmp | Some d => if Rlt_dec tmp d then Some tmp else Some d end)) None.
(** fnft__misc.c:67-68 if (dist > max_dist) max_dist = dist; values: None = INFINITY *)
Definition max_upd (dist max_dist : option R) : option R :=
  match dist, max_dist with
  | _, None => None                       (* nothing is > INFINITY *)
  | None, Some _ => None                  (* INFINITY > finite *)
  | Some d, Some m => if Rlt_dec m d then Some d else Some m
  end.
(** fnft__misc.c:53-83 misc_hausdorff_dist (None = INFINITY) *)
Definition misc_hausdorff_dist (lenA : nat) (vecA : list C) (lenB : nat) (vecB : list C) : out (option R) :=
  m <- for_ lenA 0 (fun i m =>
         dist <- min_dist (fun j => a <- aget vecA i ;; b <- aget vecB j ;; Ret (Cmod (Cminus a b))) lenB ;;
         Ret (max_upd dist m)) (Some (-1)) ;;
  for_ lenB 0 (fun j m =>
         dist <- min_dist (fun i => a <- aget vecA i ;; b <- aget vecB j ;; Ret (Cmod (Cminus a b))) lenA ;;
         Ret (max_upd dist m)) m.

(** fnft__misc.c:90-106 misc_l2norm2; None = NaN *)
Definition misc_l2norm2 (N : nat) (Z : list C) (a b : R) : out (option R) :=
  if (if Rle_dec b a then true else false) || (N =? 0)%nat then Ret None else
  val <- for_ N 0 (fun i val => z <- aget Z i ;; let tmp := Cmod z in Ret (val + tmp * tmp)) 0 ;;
  Ret (Some (val * ((b - a) / INR N))).

(** fnft__misc.c:85-88 misc_sech *)
Definition misc_sech (z : C) : C := Cdiv (RtoC 2) (Cplus (Cexp z) (Cexp (Copp z))).

(** fnft__misc.h:213-221 misc_CSINC; CSQRT(3) is the positive real root *)
Definition misc_CSINC (x : C) : C :=
  if Rle_dec (1 / 100000000) (Cmod x) then Cdiv (Csin x) x else Ccos (Cdiv x (RtoC (sqrt 3))).

(** fnft__misc.h:247-250: for (n=9; n-->0; ) ...; [k] = value of n before the decrement *)
Fixpoint csinc_deriv_loop (k : nat) (x2 r : C) : C :=
  match k with
  | O => r
  | S n => csinc_deriv_loop n x2
      (Cdiv (Cplus (RtoC (if Nat.odd n then 1 else -1)) (Cmult (Cdiv x2 (RtoC (INR (2 * n + 2)))) r)) (RtoC (INR (2 * n + 3))))
  end.
(** fnft__misc.h:239-254 misc_CSINC_derivative *)
Definition misc_CSINC_derivative (x : C) : C :=
  if Rle_dec 1 (Cmod x) then Cdiv (Cminus (Ccos x) (misc_CSINC x)) x
  else Cmult (csinc_deriv_loop 9 (Cmult x x) (RtoC 0)) x.
End Num.

(** ** Matrix products over any field *)
Section Mat.
Context {K : cfield}.
Local Open Scope cf_scope.
(** fnft__misc.h:306-321 misc_matrix_mult: C = A*B, A is n x m, B is m x p, all stored row by row *)
Definition misc_matrix_mult (n m p : nat) (A B C : list K) : out (list K) :=
  for_ n 0 (fun cn C =>
    for_ p 0 (fun cp C =>
      C <- aset C (cn * p + cp) 0 ;;
      for_ m 0 (fun cm C =>
        c <- aget C (cn * p + cp) ;; a <- aget A (cn * m + cm) ;; b <- aget B (cm * p + cp) ;;
        aset C (cn * p + cp) (c + a * b)) C) C) C.
(** fnft__misc.h:334-342, 355-363 misc_mat_mult_2x2 (s = 2), misc_mat_mult_4x4 (s = 4): T := U*T *)
Definition misc_mat_mult_sq (s : nat) (U T : list K) : out (list K) :=
  TM <- misc_matrix_mult s s s U T (repeat 0 (s * s)) ;;
  v <- rd TM 0 (s * s) ;; wr T 0 v.
Definition misc_mat_mult_2x2 := misc_mat_mult_sq 2.
Definition misc_mat_mult_4x4 := misc_mat_mult_sq 4.
End Mat.
