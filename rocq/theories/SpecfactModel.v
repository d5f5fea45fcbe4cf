(** * Model of src/private/fnft__poly_specfact.c

   Exact complex arithmetic with principal logarithm.  Not modelled: malloc failure, wrap-around,
   the logarithm of zero (Clog 0 is unspecified; the theorems exclude it), the warning. *)
From Coq Require Import Reals.
From Coquelicot Require Import Coquelicot.
From Verif Require Export FftUse CConj.
Local Open Scope C_scope.

(** fnft__poly_specfact.c:79-109 the switch on kappa: the value stored in buf_x[i] for
   buf_out[i] = v; None = default branch (E_INVALID_ARGUMENT) *)
Definition specfact_x (kappa : Z) (v : C) : option C :=
  match kappa with
  | 0%Z => Some (Clog (RtoC (Cmod v)))                                           (* :80-87 *)
  | (-1)%Z => Some (RtoC (/ 2) * Clog (RtoC (1 + Cmod v * Cmod v)))              (* :89-94 *)
  | 1%Z => Some (RtoC (/ 2) * Clog (RtoC (1 - IZR kappa * (Cmod v * Cmod v))))   (* :96-104 *)
  | _ => None                                                                    (* :106-108 *)
  end.

(** fnft__poly_specfact.c:26-147 poly_specfact.  None = NULL; [junk k n]: contents of the k-th
   freshly allocated buffer of n elements.  Result: return code, contents of result. *)
Definition poly_specfact (junk : nat -> nat -> list C) (deg : nat) (poly : option (list C)) (result : option (list C))
  (oversampling_factor : nat) (kappa : Z) : out (Z * option (list C)) :=
  if (deg =? 0)%nat then Ret (2%Z, result) else                                  (* :32-33 *)
  match poly with None => Ret (2%Z, result) | Some poly =>                       (* :34-35 *)
  match result with None => Ret (2%Z, None) | Some result =>                     (* :36-37 *)
  if (oversampling_factor =? 0)%nat then Ret (2%Z, Some result) else             (* :38-39 *)
  M <- opt (next_fft_length ((deg + 1) * oversampling_factor)) ;;                (* :46 *)
  let buf_in := junk 0%nat M in let buf_out := junk 1%nat M in let buf_x := junk 2%nat M in
  buf_in <- fill (deg + 1) 0 (fun i => aget poly i) buf_in ;;                    (* :70-71 *)
  buf_in <- fill (M - (deg + 1)) (deg + 1) (fun _ => Ret (RtoC 0)) buf_in ;;     (* :72-73 *)
  buf_out <- fft_exec false M buf_in buf_out ;;                                  (* :74 *)
  match specfact_x kappa (RtoC 0) with
  | None => Ret (2%Z, Some result)                                               (* :106-108 *)
  | Some _ =>
  buf_x <- fill M 0 (fun i => v <- aget buf_out i ;; opt (specfact_x kappa v)) buf_x ;;
  buf_in <- fft_exec false M buf_x buf_in ;;                                     (* :115 *)
  buf_in <- aset buf_in 0 (RtoC 0) ;;                                            (* :118 *)
  buf_in <- fill (M / 2 - 1 - 1) 1 (fun i => b <- aget buf_in i ;; Ret (b * (- Ci / RtoC (INR M)))) buf_in ;; (* :119-120 *)
  buf_in <- aset buf_in (M / 2 - 1) (RtoC 0) ;;                                  (* :121 *)
  buf_in <- fill (M - M / 2) (M / 2) (fun i => b <- aget buf_in i ;; Ret (b * (Ci / RtoC (INR M)))) buf_in ;; (* :122-123 *)
  buf_out <- fft_exec true M buf_in buf_out ;;                                   (* :125 *)
  buf_in <- fill M 0 (fun i => x <- aget buf_x i ;; y <- aget buf_out i ;;
     Ret (Cexp (x - Ci * y) / RtoC (INR M))) buf_in ;;                           (* :131-132 *)
  buf_out <- fft_exec true M buf_in buf_out ;;                                   (* :134 *)
  result <- fill (deg + 1) 0 (fun i => b <- aget buf_out (deg - i) ;; Ret (Cconj b)) result ;; (* :137-138 *)
  Ret (0%Z, Some result)
  end end end.
