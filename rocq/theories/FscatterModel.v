(** * Model of fnft__akns_fscatter.c, fnft__nse_fscatter.c, fnft__kdv_fscatter.c
   Simplifications: exact complex arithmetic; malloc succeeds; the sizes do not overflow size_t;
   pointers that may be NULL are options. *)
From Coq Require Import Reals ZArith List Lia.
From Coquelicot Require Import Coquelicot.
From Verif Require Import Base Loop Fields ErrModel CExp MiscNumModel KissProof KissModel PolyFmultModel DiscTables FscatterTab.
Import ListNotations.
Local Open Scope C_scope.

(** fnft__akns_fscatter.c:43-55 akns_fscatter_zero_freq_scatter_matrix *)
Definition zfsm (eps_t : R) (q r : C) : m3 :=
  let Delta := RtoC eps_t * Csqrt (- q * r) in
  let del := RtoC eps_t * misc_CSINC Delta in
  mk3 (Ccos Delta) (q * del) (r * del).

(** fnft__akns_fscatter.c:112-140, body of the loop for 2SPLIT2_MODAL; None: E_DIV_BY_ZERO *)
Definition step_MODAL (eps_t : R) (q r : C) : option (list C * list C * list C * list C) :=
  let Q := RtoC eps_t * q in
  let R := RtoC eps_t * r in
  let scl_den := Csqrt (1 - Q * R) in
  if Ceq_dec scl_den 0 then None else
  let scl := 1 / scl_den in
  Some ([RtoC 0; scl], [scl * Q; RtoC 0], [RtoC 0; scl * R], [scl; RtoC 0]).

(** the body of the loop over the samples for any case: Some (Some lists), Some None = E_DIV_BY_ZERO,
   None = default branch (line 954-956).  356-357, 399-400: 4SPLIT4A, 4SPLIT4B use eps_t/2. *)
Definition akns_sample (d : akns_disc) (eps_t : R) (q r : C) : option (option (list C * list C * list C * list C)) :=
  match d with
  | A_2SPLIT2_MODAL => Some (step_MODAL eps_t q r)
  | _ =>
      let eps_t' := match d with A_4SPLIT4A | A_4SPLIT4B => (eps_t / 2)%R | _ => eps_t end in
      match akns_step d with
      | Some f => Some (Some (f (fun a => zfsm (a * eps_t' / INR (akns_degree d)) q r)))
      | None => None
      end
  end.

(** successive assignments a[off] = l[0]; a[off+1] = l[1]; ... *)
Fixpoint wr_list (l : list C) (off : nat) (a : list C) : out (list C) :=
  match l with [] => Ret a | x :: t => a <- aset a off x ;; wr_list t (S off) a end.

(** fnft__akns_fscatter.c: the loops for (i=D; i-->0;) {...}; after k passes the pointers p11.. have
   advanced by k*(deg+1) and the sample is i = D-1-k.  State: the array p and the return code. *)
Definition sample_loop (d : akns_disc) (eps_t : R) (D : nat) (q r : list C) (p : list C) : out (Z * list C) :=
  let deg := akns_degree d in
  for_ D 0 (fun k st =>
    let '(code, p) := st in
    if Z.eqb code SUCCESS then
      qi <- aget q (D - 1 - k) ;;
      ri <- aget r (D - 1 - k) ;;
      match akns_sample d eps_t qi ri with
      | Some (Some (l11, l12, l21, l22)) =>
          p <- wr_list l11 (k * (deg + 1)) p ;;
          p <- wr_list l12 (D * (deg + 1) + k * (deg + 1)) p ;;
          p <- wr_list l21 (D * (deg + 1) + D * (deg + 1) + k * (deg + 1)) p ;;
          p <- wr_list l22 (D * (deg + 1) + D * (deg + 1) + D * (deg + 1) + k * (deg + 1)) p ;;
          Ret (SUCCESS, p)
      | Some None => Ret (EC_DIV_BY_ZERO, p)
      | None => Ret (EC_INVALID_ARGUMENT, p)
      end
    else Ret st) (SUCCESS, p).

Section Fscatter.
(** the exponent factored out by poly_fmult2x2's normalisation, and the contents of its buffers: see PolyFmultModel *)
Variable expo : list C -> Z.
Variables junk0 junk1 junk2 : nat -> list C.
(** contents of the freshly allocated array p of length len *)
Variable junkp : nat -> list C.

(** fnft__akns_fscatter.c:32-39 akns_fscatter_numel *)
Definition akns_fscatter_numel (D : nat) (d : akns_disc) : out nat :=
  if Nat.eqb (akns_degree d) 0 then Ret O else fmult_numel 4 (akns_degree d) D.

(** fnft__akns_fscatter.c:60-967 akns_fscatter.  normalize = (W_ptr != NULL).  Result: the return code,
   *deg_ptr if it has been written, the array result, and *W_ptr. *)
Definition akns_fscatter (normalize : bool) (D : nat) (q r : option (list C)) (eps_t : R)
    (result : option (list C)) (deg_ptr : bool) (d : akns_disc) : out (Z * option nat * option (list C) * Z) :=
  if orb (Nat.eqb D 0) (Z.ltb 2147483647 (Z.of_nat D)) then Ret (EC_INVALID_ARGUMENT, None, result, 0%Z) else
  match q, r with
  | Some q, Some r =>
    if Rle_dec eps_t 0 then Ret (EC_INVALID_ARGUMENT, None, result, 0%Z) else
    match result with
    | None => Ret (EC_INVALID_ARGUMENT, None, result, 0%Z)
    | Some res =>
      if negb deg_ptr then Ret (EC_INVALID_ARGUMENT, None, result, 0%Z) else
      len <- akns_fscatter_numel D d ;;
      if Nat.eqb len 0 then Ret (EC_INVALID_ARGUMENT, None, result, 0%Z) else
      st <- sample_loop d eps_t D q r (junkp len) ;;
      let '(code, p) := st in
      if negb (Z.eqb code SUCCESS) then Ret (code, Some (akns_degree d), result, 0%Z) else
      o <- poly_fmult2x2 (K := CF) kiss_fft expo (RtoC 2) junk0 junk1 junk2 normalize (akns_degree d) D p res ;;
      let '(ret_code, deg, p, res, W) := o in
      (* CHECK_RETCODE *)
      c <- (if Z.eqb ret_code SUCCESS then Ret SUCCESS else E_SUBROUTINE ret_code) ;;
      Ret (c, Some deg, Some res, W)
    end
  | _, _ => Ret (EC_INVALID_ARGUMENT, None, result, 0%Z)
  end.

(** CHECK_RETCODE(ret_code, leave_fun) after the call of akns_fscatter *)
Definition chk (o : out (Z * option nat * option (list C) * Z)) : out (Z * option nat * option (list C) * Z) :=
  x <- o ;; let '(code, deg, res, W) := x in
  c <- (if Z.eqb code SUCCESS then Ret SUCCESS else E_SUBROUTINE code) ;; Ret (c, deg, res, W).

(** fnft__nse_fscatter.c:43-72 nse_fscatter; r is not checked here (but in akns_fscatter) *)
Definition nse_fscatter (normalize : bool) (D : nat) (q r : option (list C)) (eps_t : R)
    (result : option (list C)) (deg_ptr : bool) (d : nse_disc) : out (Z * option nat * option (list C) * Z) :=
  if Nat.eqb D 0 then Ret (EC_INVALID_ARGUMENT, None, result, 0%Z) else
  match q with None => Ret (EC_INVALID_ARGUMENT, None, result, 0%Z) | Some _ =>
  if Rle_dec eps_t 0 then Ret (EC_INVALID_ARGUMENT, None, result, 0%Z) else
  match result with None => Ret (EC_INVALID_ARGUMENT, None, result, 0%Z) | Some _ =>
  if negb deg_ptr then Ret (EC_INVALID_ARGUMENT, None, result, 0%Z) else
  match nse_to_akns d with
  | None => c <- E_SUBROUTINE EC_INVALID_ARGUMENT ;; Ret (c, None, result, 0%Z)
  | Some ad => chk (akns_fscatter normalize D q r eps_t result deg_ptr ad)
  end end end.

(** fnft__kdv_fscatter.c:44-85 kdv_fscatter: q and r are exchanged unless the discretization is a _VANILLA one *)
Definition kdv_fscatter (normalize : bool) (D : nat) (q r : option (list C)) (eps_t : R)
    (result : option (list C)) (deg_ptr : bool) (d : kdv_disc) : out (Z * option nat * option (list C) * Z) :=
  if Nat.eqb D 0 then Ret (EC_INVALID_ARGUMENT, None, result, 0%Z) else
  match q with None => Ret (EC_INVALID_ARGUMENT, None, result, 0%Z) | Some _ =>
  if Rle_dec eps_t 0 then Ret (EC_INVALID_ARGUMENT, None, result, 0%Z) else
  match result with None => Ret (EC_INVALID_ARGUMENT, None, result, 0%Z) | Some _ =>
  if negb deg_ptr then Ret (EC_INVALID_ARGUMENT, None, result, 0%Z) else
  match kdv_to_akns d with
  | None => c <- E_SUBROUTINE EC_INVALID_ARGUMENT ;; Ret (c, None, result, 0%Z)
  | Some ad =>
      match kdv_vanilla_flag d with
      | Some true => chk (akns_fscatter normalize D q r eps_t result deg_ptr ad)
      | Some false => chk (akns_fscatter normalize D r q eps_t result deg_ptr ad)
      | None => UB (* the return code is ignored, the flag is uninitialised *)
      end
  end end end.
End Fscatter.
