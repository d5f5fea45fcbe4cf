(** * Model of src/private/fnft__poly_eval.c (exact arithmetic over any field) *)
From Verif Require Export Base ErrModel.

Section PolyEval.
Context {K : cfield}.
Local Open Scope cf_scope.
(** [le1 z] is the C test [FNFT_CABS(z) <= 1.0] *)
Variable le1 : K -> bool.

(** fnft__poly_eval.c:40-41: for (j..deg) tmp = p[j] + tmp*z[i]; [fuel] = deg+1-j *)
Fixpoint horner (fuel j : nat) (p : list K) (z tmp : K) : out K :=
  match fuel with
  | O => Ret tmp
  | S fuel' => pj <- aget p j ;; horner fuel' (S j) p z (pj + tmp * z)
  end.

(** fnft__poly_eval.c:45-46: tmp = p[deg - j] + tmp/z[i] *)
Fixpoint horner_rev (fuel j deg : nat) (p : list K) (z tmp : K) : out K :=
  match fuel with
  | O => Ret tmp
  | S fuel' => pj <- aget p (deg - j) ;; horner_rev fuel' (S j) deg p z (pj + tmp / z)
  end.

(** fnft__poly_eval.c:36-48, the body of the loop over the points *)
Definition eval1 (deg : nat) (p : list K) (z : K) : out K :=
  if le1 z then
    tmp <- aget p 0 ;; horner deg 1 p z tmp
  else
    tmp <- aget p deg ;;
    tmp <- horner_rev deg 1 deg p z tmp ;;
    Ret (tmp * z ^ deg).                        (* FNFT_CPOW(z[i], deg) *)

(** fnft__poly_eval.c:36: for (i=0; i<nz; i++); [fuel] = nz - i *)
Fixpoint eval_loop (fuel i deg : nat) (p z : list K) : out (list K) :=
  match fuel with
  | O => Ret z
  | S fuel' =>
      zi <- aget z i ;;
      v <- eval1 deg p zi ;;
      z' <- aset z i v ;;
      eval_loop fuel' (S i) deg p z'
  end.

(** fnft__poly_eval.c:25-53 poly_eval: (return code, array z) *)
Definition poly_eval (deg : nat) (p : option (list K)) (nz : nat) (z : option (list K))
  : out (Z * option (list K)) :=
  match p, z with
  | Some p, Some z => z' <- eval_loop nz 0 deg p z ;; Ret (SUCCESS, Some z')
  | _, _ => Ret (EC_INVALID_ARGUMENT, z)
  end.

(** fnft__poly_eval.c:71-76 and 80-85: the two Horner loops with derivative *)
Fixpoint horner2 (fuel j : nat) (p : list K) (z tmp tmp2 : K) : out (K * K) :=
  match fuel with
  | O => Ret (tmp, tmp2)
  | S fuel' => pj <- aget p j ;; horner2 fuel' (S j) p z (pj + tmp * z) (tmp + tmp2 * z)
  end.
Fixpoint horner2_rev (fuel j deg : nat) (p : list K) (z tmp tmp2 : K) : out (K * K) :=
  match fuel with
  | O => Ret (tmp, tmp2)
  | S fuel' => pj <- aget p (deg - j) ;;
      horner2_rev fuel' (S j) deg p z (pj + tmp / z) (tmp + tmp2 / z)
  end.

(** fnft__poly_eval.c:67-88, body of the loop: (value, derivative).
   For deg = 0 in the second branch the exponent [deg - 1] wraps to 2^64-1
   (the C code then yields inf*0 = NaN); this is the outcome UB here. *)
Definition evalderiv1 (deg : nat) (p : list K) (z : K) : out (K * K) :=
  if le1 z then
    tmp <- aget p 0 ;; horner2 deg 1 p z tmp 0
  else
    tmp <- aget p deg ;;
    r <- horner2_rev deg 1 deg p z tmp 0 ;;
    let '(tmp, tmp2) := r in
    match deg with
    | O => UB
    | S _ => Ret (tmp * z ^ deg, z ^ (deg - 1) * (fofnat deg * tmp - tmp2 / z))
    end.

(** fnft__poly_eval.c:67: loop over the points *)
Fixpoint evalderiv_loop (fuel i deg : nat) (p z deriv : list K) : out (list K * list K) :=
  match fuel with
  | O => Ret (z, deriv)
  | S fuel' =>
      zi <- aget z i ;;
      v <- evalderiv1 deg p zi ;;
      z' <- aset z i (fst v) ;;
      deriv' <- aset deriv i (snd v) ;;
      evalderiv_loop fuel' (S i) deg p z' deriv'
  end.

(** fnft__poly_eval.c:55-91 poly_evalderiv: (return code, z, deriv).
   A NULL deriv is not checked by the code: UB. *)
Definition poly_evalderiv (deg : nat) (p : option (list K)) (nz : nat)
  (z deriv : option (list K)) : out (Z * option (list K) * option (list K)) :=
  match p, z with
  | Some p, Some z' =>
      match deriv with
      | Some d => r <- evalderiv_loop nz 0 deg p z' d ;; Ret (SUCCESS, Some (fst r), Some (snd r))
      | None => match nz with O => Ret (SUCCESS, z, None) | S _ => UB end
      end
  | _, _ => Ret (EC_INVALID_ARGUMENT, z, deriv)
  end.
End PolyEval.
