(** * Model of misc_resample (src/private/fnft__misc.c:308-376)

   Exact arithmetic.  Not modelled: malloc failure. *)
From Coq Require Import Reals.
From Coquelicot Require Import Coquelicot.
From Verif Require Export FftUse.
Local Open Scope C_scope.

(** fnft__misc.c:308-376 misc_resample.  q, q_new: None = NULL; [junk k n], [junkR n]: contents
   of freshly allocated arrays.  Result: return code and contents of q_new. *)
Definition misc_resample (junk : nat -> nat -> list C) (junkR : nat -> list R) (D : nat) (eps_t : R)
  (q : option (list C)) (delta : R) (q_new : option (list C)) : out (Z * option (list C)) :=
  match q with None => Ret (2%Z, q_new) | Some q =>                             (* :311 *)
  if (D <=? 2)%nat then Ret (2%Z, q_new) else                                    (* :313 *)
  match q_new with None => Ret (2%Z, None) | Some q_new =>                       (* :315 *)
  if Req_EM_T eps_t 0 then Ret (2%Z, Some q_new) else                            (* :317 *)
  let buf0 := junk 0%nat D in let buf1 := junk 1%nat D in let freq := junkR D in
  buf0 <- fill D 0 (fun i => aget q i) buf0 ;;                                   (* :344-345 *)
  buf1 <- fft_exec false D buf0 buf1 ;;                                          (* :347 *)
  let scl_factor := (INR D * eps_t)%R in                                         (* :350 *)
  freq <- fill (D / 2) 0 (fun i => Ret (INR i / scl_factor)%R) freq ;;           (* :352-353 *)
  freq <- fill (D - D / 2) (D / 2) (fun i => Ret ((INR i - INR D) / scl_factor)%R) freq ;; (* :354-355 *)
  buf1 <- fill D 0 (fun i => b <- aget buf1 i ;; f <- aget freq i ;;
     Ret (b * Cexp (2 * Ci * RtoC PI * RtoC delta * RtoC f))) buf1 ;;            (* :357-359 *)
  buf0 <- fft_exec true D buf1 buf0 ;;                                           (* :362 *)
  q_new <- fill D 0 (fun i => b <- aget buf0 i ;; Ret (b / RtoC (INR D))) q_new ;; (* :364-365 *)
  Ret (0%Z, Some q_new)
  end end.
