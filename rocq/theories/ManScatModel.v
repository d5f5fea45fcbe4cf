(** * Model of fnft__manakov_scatter.c (slow scattering for the Manakov equation)
   Simplifications: exact complex arithmetic; pointers that may be NULL are options; x/0 is 0 instead of inf or NaN (the theorems
   exclude it and ManScatProps shows where it happens); the two alternating halves of the buffer H[2] are replaced by the value of the
   current half (the other half is completely overwritten by misc_matrix_mult before it is read). *)
From Coq Require Import Reals ZArith List Lia.
From Coquelicot Require Import Coquelicot.
From Verif Require Import Base Loop Mem Fields ErrModel CExp MiscNumModel DiscTables DiscModel NsevModel ScatterModel.
Import ListNotations.
Local Open Scope C_scope.

(** fnft__manakov_scatter.c:35-69 manakov_scatter_U_BO.  eps_t is passed as a complex number. *)
Definition man_U_BO (q1 q2 lam eps_t : C) (kappa : Z) : list C :=
  let k := RtoC (IZR kappa) in
  if (if Rlt_dec (Cmod q1) EPS then if Rlt_dec (Cmod q2) EPS then true else false else false) then
    [Cexp (- Ci * lam * eps_t); RtoC 0; RtoC 0; RtoC 0; Cexp (Ci * lam * eps_t); RtoC 0; RtoC 0; RtoC 0; Cexp (Ci * lam * eps_t)]
  else
    let x1 := Csqrt (lam * lam + k * q1 * Cconj q1 + k * q2 * Cconj q2) in
    let x2 := eps_t * x1 * Ci in
    let x3 := q1 * Cconj q1 + q2 * Cconj q2 in
    [ - (lam / x1) * Csinh x2 + Ccosh x2; - (Ci * q1 / x1) * Csinh x2; - (Ci * q2 / x1) * Csinh x2;
      (Ci * k * Cconj q1 / x1) * Csinh x2;
      (q1 * Cconj q1 / x3) * (Ccosh x2 + (lam / x1) * Csinh x2) + q2 * Cconj q2 * Cexp (eps_t * lam * Ci) / x3;
      (q2 * Cconj q1 / x3) * (Ccosh x2 - Cexp (eps_t * lam * Ci) + (lam / x1) * Csinh x2);
      (Ci * k * Cconj q2 / x1) * Csinh x2;
      (q1 * Cconj q2 / x3) * (Ccosh x2 - Cexp (eps_t * lam * Ci) + (lam / x1) * Csinh x2);
      (q2 * Cconj q2 / x3) * (Ccosh x2 + (lam / x1) * Csinh x2) + q1 * Cconj q1 * Cexp (eps_t * lam * Ci) / x3 ].

(** fnft__manakov_scatter.c:117-128: the loop over the samples for one l_curr *)
Definition man_scat_loop (D : nat) (q1 q2 : list C) (eps_t : R) (kappa : Z) (l_curr : C) : out (list C) :=
  for_ D 0 (fun n H =>
    a <- aget q1 n ;; b <- aget q2 n ;;
    mm 3 3 3 (man_U_BO a b l_curr (RtoC eps_t) kappa) H) (eye 3).

(** fnft__manakov_scatter.c:105-138: the loop over lambda, with the switch *)
Definition man_scat_all (D : nat) (q1 q2 : list C) (eps_t : R) (kappa : Z) (d : man_disc) (K : nat) (lambda result : list C) : out (Z * list C) :=
  for_ K 0 (fun i st =>
    let '(code, result) := st in
    if negb (Z.eqb code SUCCESS) then Ret st else
    l <- aget lambda i ;;
    match d with
    | M_CF4_2 | M_BO =>
        let l_curr := match d with M_CF4_2 => l / 2 | _ => l end in
        H <- man_scat_loop D q1 q2 eps_t kappa l_curr ;;
        result <- wr_list H (9 * i) result ;; Ret (SUCCESS, result)
    | _ => c <- chkZ EC_INVALID_ARGUMENT ;; Ret (c, result)
    end) (SUCCESS, result).

(** fnft__manakov_scatter.c:78-144 manakov_scatter_matrix: return code, result array *)
Definition manakov_scatter_matrix (D : nat) (q1 q2 : option (list C)) (eps_t : R) (K : nat) (lambda : option (list C)) (kappa : Z)
  (result : option (list C)) (d : man_disc) : out (Z * option (list C)) :=
  let bad := Ret (EC_INVALID_ARGUMENT, result) in
  if Nat.eqb D 0 then bad else
  match q1, q2 with
  | Some q1, Some q2 =>
    if negb (if Rlt_dec 0 eps_t then true else false) then bad else
    if Nat.eqb K 0 then bad else
    match lambda, result with
    | Some lam, Some res =>
      if Nat.eqb (man_upsampling_factor d) 0 then bad else
      x <- man_scat_all D q1 q2 eps_t kappa d K lam res ;; let '(code, res) := x in Ret (code, Some res)
    | _, _ => bad
    end
  | _, _ => bad
  end.
