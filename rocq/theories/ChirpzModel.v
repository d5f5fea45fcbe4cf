(** * Model of src/private/fnft__poly_chirpz.c (chirp z-transform)

   Exact complex arithmetic; CPOW(x, t) with a real exponent t is the principal
   power exp(t log x).  Not modelled: malloc failure, wrap-around of UINT. *)
From Coq Require Import Reals.
From Coquelicot Require Import Coquelicot.
From Verif Require Export FftUse.
Local Open Scope C_scope.

(** fnft__poly_chirpz.c:33-105 poly_chirpz.  p, result: None = NULL.
   [junk k n]: contents of the k-th freshly allocated array of n elements.
   Result: return code and contents of result. *)
Definition poly_chirpz (junk : nat -> nat -> list C) (deg : nat) (p : option (list C)) (A W : C) (M : nat)
  (result : option (list C)) : out (Z * option (list C)) :=
  match p with None => Ret (2%Z, result) | Some p =>                         (* :44-45 *)
  if (M =? 0)%nat then Ret (2%Z, result) else                                 (* :46-47 *)
  match result with None => Ret (2%Z, None) | Some result =>                  (* :48-49 *)
  let N := (deg + 1)%nat in                                                   (* :52 *)
  L <- opt (next_fft_length (N + M - 1)) ;;                                   (* :53 *)
  let Y := junk 0%nat L in let V := junk 1%nat L in let buf := junk 2%nat L in
  buf <- fill N 0 (fun n => c <- aget p (deg - n) ;;
     Ret (c * Cpow_real A (-1 * INR n) * Cpow_real W (/ 2 * INR n * INR n))) buf ;;  (* :68-69 *)
  buf <- fill (L - N) N (fun n => Ret (RtoC 0)) buf ;;                        (* :70-71 *)
  Y <- fft_exec false L buf Y ;;                               (* :72 *)
  buf <- fill M 0 (fun n => Ret (Cpow_real W (- / 2 * INR n * INR n))) buf ;; (* :76-77 *)
  buf <- fill (L - N + 1 - M) M (fun n => Ret (RtoC 0)) buf ;;                (* :78-79 *)
  buf <- fill (L - (L - N + 1)) (L - N + 1) (fun n =>
     Ret (Cpow_real W (- / 2 * INR (L - n) * INR (L - n)))) buf ;;            (* :80-81 *)
  V <- fft_exec false L buf V ;;                               (* :82 *)
  buf <- fill L 0 (fun n => v <- aget V n ;; y <- aget Y n ;; Ret (v * y)) buf ;; (* :86-87 *)
  V <- fft_exec true L buf V ;;                                (* :90 *)
  result <- fill M 0 (fun n => v <- aget V n ;;
     Ret (Cpow_real W (/ 2 * INR n * INR n) * v / RtoC (INR L))) result ;;    (* :94-95 *)
  Ret (0%Z, Some result)
  end end.
