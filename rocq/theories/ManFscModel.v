(** * Model of fnft__manakov_fscatter.c
   Simplifications: exact complex arithmetic; malloc succeeds; the sizes do not overflow size_t;
   pointers that may be NULL are options.  (The tables are in ManFscTab.) *)
From Coq Require Import Reals ZArith List Lia.
From Coquelicot Require Import Coquelicot.
From Verif Require Import Base Loop Fields ErrModel CExp MiscNumModel KissProof KissModel PolyFmultModel DiscTables FscatterModel ManFscSpec ManFscTab.
Import ListNotations.
Local Open Scope C_scope.

(** include/fnft_numtypes.h:68 FNFT_EPSILON = DBL_EPSILON = 2^-52 *)
Definition EPSILON : R := / 4503599627370496.
Definition small (x : C) : bool := if Rlt_dec (Cmod x) EPSILON then true else false.

(** fnft__manakov_fscatter.c:44-78 manakov_fscatter_zero_freq_scatter_matrix; M[0..8] row by row *)
Definition mzfsm (eps_t : R) (q1 q2 : C) (kappa : Z) : mat3 :=
  if andb (small q1) (small q2) then M3 1 0 0 0 1 0 0 0 1 else
  let k := RtoC (IZR kappa) in
  let e := RtoC eps_t in
  let r1 := Cconj q1 * - (1) * k in
  let r2 := Cconj q2 * - (1) * k in
  let x := Csqrt (r1 * q1 + r2 * q2) * e in
  let M0 := Ccos (Ci * x) in
  let M1 := q1 * misc_CSINC (Ci * x) * e in
  let M2 := q2 * misc_CSINC (Ci * x) * e in
  let M3_ := - Cconj M1 * k in
  let M4 := e * e * (r2 * q2 + r1 * q1 * Ccos (Ci * x)) / (x * x) in
  let M5 := q2 * r1 * (Ccos (Ci * x) - 1) * e * e / (x * x) in
  let M6 := - Cconj M2 * k in
  let M7 := Cconj M5 in
  let M8 := e * e * (r1 * q1 + r2 * q2 * Ccos (Ci * x)) / (x * x) in
  M3 M0 M1 M2 M3_ M4 M5 M6 M7 M8.

(** fnft__manakov_fscatter.c:81-108 manakov_fscatter_get_E *)
Definition get_E (s1 s2 t1 t2 : C) : mat3 :=
  if andb (andb (small s1) (small s2)) (andb (small t1) (small t2)) then M3 1 0 0 0 1 0 0 0 1 else
  let x := Csqrt (t1 * s1 + t2 * s2) in
  M3 (Ccos (Ci * x)) (s1 * misc_CSINC (Ci * x)) (s2 * misc_CSINC (Ci * x))
     (t1 * misc_CSINC (Ci * x)) ((t2 * s2 + t1 * s1 * Ccos (Ci * x)) / (x * x)) (s2 * t1 * (Ccos (Ci * x) - 1) / (x * x))
     (t2 * misc_CSINC (Ci * x)) (s1 * t2 * (Ccos (Ci * x) - 1) / (x * x)) ((t1 * s1 + t2 * s2 * Ccos (Ci * x)) / (x * x)).

(** fnft__manakov_fscatter.c:110-131 manakov_fscatter_mult_E1_TM_E2: P -> E1 P E2 by two calls of misc_matrix_mult(3,3,3,...);
   the sum of the products in misc_matrix_mult (fnft__misc.c, see MiscNumModel) is written out *)
Definition mult_E1_TM_E2 (P E1 E2 : mat3) : mat3 := m3mul (m3mul E1 P) E2.

(** the matrix of the coefficients pij[j], and writing one back *)
Definition coef_mat (ls : list (list C)) (j : nat) : mat3 :=
  let p k := nth j (nth k ls []) (RtoC 0) in
  M3 (p 0%nat) (p 1%nat) (p 2%nat) (p 3%nat) (p 4%nat) (p 5%nat) (p 6%nat) (p 7%nat) (p 8%nat).
Definition entries (M : mat3) : list C := [c11 M; c12 M; c13 M; c21 M; c22 M; c23 M; c31 M; c32 M; c33 M].
Definition set_coef (ls : list (list C)) (j : nat) (M : mat3) : list (list C) :=
  map (fun pe => upd (fst pe) j (snd pe)) (combine ls (entries M)).

(** fnft__manakov_fscatter.c:766-774 = 913-921: E1 and E2; a, b, c are q[i-1], q[i], q[i+1] *)
Definition ftes_E1 (kappa : Z) (eps_t : R) (q1n q2n : C * C * C) : mat3 :=
  let '(q10, q11, q12) := q1n in let '(q20, q21, q22) := q2n in
  let e := RtoC eps_t in let k := RtoC (IZR kappa) in
  get_E ((q12 - q10) * e / 24 + (q12 - 2 * q11 + q10) * e / 48)
        ((q22 - q20) * e / 24 + (q22 - 2 * q21 + q20) * e / 48)
        (k * Cconj (q10 - q12) * e / 24 - k * Cconj (q12 - 2 * q11 + q10) * e / 48)
        (k * Cconj (q20 - q22) * e / 24 - k * Cconj (q22 - 2 * q21 + q20) * e / 48).
Definition ftes_E2 (kappa : Z) (eps_t : R) (q1n q2n : C * C * C) : mat3 :=
  let '(q10, q11, q12) := q1n in let '(q20, q21, q22) := q2n in
  let e := RtoC eps_t in let k := RtoC (IZR kappa) in
  get_E (- (q12 - q10) * e / 24 + (q12 - 2 * q11 + q10) * e / 48)
        (- (q22 - q20) * e / 24 + (q22 - 2 * q21 + q20) * e / 48)
        (k * Cconj (q12 - q10) * e / 24 - k * Cconj (q12 - 2 * q11 + q10) * e / 48)
        (k * Cconj (q22 - q20) * e / 24 - k * Cconj (q22 - 2 * q21 + q20) * e / 48).

(** fnft__manakov_fscatter.c:205-1086, the body of the loop over the samples; None = default branch (1084-1086).
   q1n, q2n: the sample and (used by FTES4 only) its neighbours. *)
Definition man_sample (d : man_disc) (kappa : Z) (eps_t : R) (q1n q2n : C * C * C) : option (list (list C)) :=
  let '(_, q1, _) := q1n in let '(_, q2, _) := q2n in
  let e t := mzfsm t q1 q2 kappa in
  match d with
  | M_2SPLIT3A => Some (mstep_2SPLIT3A (e (eps_t / 3)%R) (e eps_t))
  | M_2SPLIT3B => Some (mstep_2SPLIT3B (e (eps_t / 3)%R) (e (eps_t * 2 / 3)%R) (e eps_t))
  | M_4SPLIT4A | M_2SPLIT4A => Some (mstep_2SPLIT4A (e (eps_t / 2)%R) (e eps_t))
  | M_4SPLIT4B | M_2SPLIT4B => Some (mstep_2SPLIT4B (e (eps_t / 2)%R) (e (eps_t / 4)%R))
  | M_4SPLIT6B | M_2SPLIT6B => Some (mstep_2SPLIT6B (e (eps_t / 2)%R) (e (eps_t / 3)%R) (e (eps_t / 4)%R) (e (eps_t / 6)%R))
  | M_FTES4_4A => Some (mstep_FTES4_4A (e (eps_t / 2)%R) (e eps_t) (ftes_E1 kappa eps_t q1n q2n) (ftes_E2 kappa eps_t q1n q2n))
  | M_FTES4_suzuki =>
      let E1 := ftes_E1 kappa eps_t q1n q2n in
      let E2 := ftes_E2 kappa eps_t q1n q2n in
      (* 1067-1070: for (j = 0; j < 15; j += 2) *)
      Some (fold_left (fun ls j => set_coef ls j (mult_E1_TM_E2 (coef_mat ls j) E1 E2)) [0;2;4;6;8;10;12;14]%nat
             (mstep_FTES4_suzuki (e (7 * eps_t / 48)%R) (e (3 * eps_t / 8)%R) (e (-1 * eps_t / 48)%R)))
  | _ => None
  end.

Definition is_ftes (d : man_disc) : bool := match d with M_FTES4_4A | M_FTES4_suzuki => true | _ => false end.
(** fnft__manakov_fscatter.c:744-764 = 891-911: the sample and its neighbours (clamped at the ends); others: the sample only *)
Definition neighbours (d : man_disc) (D_eff : nat) (q : list C) (i : nat) : out (C * C * C) :=
  b <- aget q i ;;
  if is_ftes d then
    a <- (if Nat.eqb i 0 then aget q i else aget q (i - 1)) ;;
    c <- (if Nat.eqb i (D_eff - 1) then aget q i else aget q (i + 1)) ;;
    Ret (a, b, c)
  else Ret (b, b, b).

(** the nine pointers p11,...,p33 are a*D*(deg+1) (a = 0..8) away from p; each pass writes deg+1 entries through
   each of them and advances them by deg+1 *)
Fixpoint wr_blocks (ls : list (list C)) (stride off : nat) (p : list C) : out (list C) :=
  match ls with [] => Ret p | l :: t => p <- wr_list l off p ;; wr_blocks t stride (off + stride) p end.

(** fnft__manakov_fscatter.c: the loops for (i = D; i-- > 0;) {...} (i = D_eff for FTES4_4A, FTES4_suzuki);
   State: the return code and the array p. *)
Definition man_sample_loop (d : man_disc) (kappa : Z) (eps_t : R) (D D_eff : nat) (q1 q2 p : list C) : out (Z * list C) :=
  let deg := man_degree d in
  let cnt := if is_ftes d then D_eff else D in
  for_ cnt 0 (fun k st =>
    let '(code, p) := st in
    if Z.eqb code SUCCESS then
      q1n <- neighbours d D_eff q1 (cnt - 1 - k) ;;
      q2n <- neighbours d D_eff q2 (cnt - 1 - k) ;;
      match man_sample d kappa eps_t q1n q2n with
      | Some ls => p <- wr_blocks ls (D * (deg + 1)) (k * (deg + 1)) p ;; Ret (SUCCESS, p)
      | None => Ret (EC_INVALID_ARGUMENT, p)
      end
    else Ret st) (SUCCESS, p).

Section Fscatter.
Variable expo : list C -> Z.
Variables junk0 junk1 junk2 : nat -> list C.
Variable junkp : nat -> list C.

(** fnft__manakov_fscatter.c:31-38 manakov_fscatter_numel *)
Definition man_fscatter_numel (D : nat) (d : man_disc) : out nat :=
  if Nat.eqb (man_degree d) 0 then Ret O else fmult_numel 9 (man_degree d) D.

(** fnft__manakov_fscatter.c:138-1098 manakov_fscatter.  normalize = (W_ptr != NULL).  Result: the return code,
   *deg_ptr if it has been written, the array result, and *W_ptr. *)
Definition manakov_fscatter (normalize : bool) (D : nat) (q1 q2 : option (list C)) (kappa : Z) (eps_t : R)
    (result : option (list C)) (deg_ptr : bool) (d : man_disc) : out (Z * option nat * option (list C) * Z) :=
  if orb (Nat.eqb D 0) (Z.ltb 2147483647 (Z.of_nat D)) then Ret (EC_INVALID_ARGUMENT, None, result, 0%Z) else
  match q1, q2 with
  | Some q1, Some q2 =>
    if Rle_dec eps_t 0 then Ret (EC_INVALID_ARGUMENT, None, result, 0%Z) else
    match result with
    | None => Ret (EC_INVALID_ARGUMENT, None, result, 0%Z)
    | Some res =>
      if negb deg_ptr then Ret (EC_INVALID_ARGUMENT, None, result, 0%Z) else
      if negb (Z.eqb (Z.abs kappa) 1) then Ret (EC_INVALID_ARGUMENT, None, result, 0%Z) else
      let ups := man_upsampling_factor d in
      if Nat.eqb ups 0 then Ret (EC_INVALID_ARGUMENT, None, result, 0%Z) else
      let D_eff := (D * ups)%nat in
      len <- man_fscatter_numel D_eff d ;;
      if Nat.eqb len 0 then Ret (EC_INVALID_ARGUMENT, None, result, 0%Z) else
      st <- (match man_sample d kappa eps_t (RtoC 0, RtoC 0, RtoC 0) (RtoC 0, RtoC 0, RtoC 0) with
             | None => Ret (EC_INVALID_ARGUMENT, junkp len) (* default branch of the switch, no loop *)
             | Some _ => man_sample_loop d kappa eps_t D D_eff q1 q2 (junkp len)
             end) ;;
      let '(code, p) := st in
      if negb (Z.eqb code SUCCESS) then Ret (code, Some (man_degree d), result, 0%Z) else
      o <- poly_fmult3x3 (K := CF) kiss_fft expo (RtoC 2) junk0 junk1 junk2 normalize (man_degree d) D p res ;;
      let '(ret_code, deg, p, res, W) := o in
      (* CHECK_RETCODE *)
      c <- (if Z.eqb ret_code SUCCESS then Ret SUCCESS else E_SUBROUTINE ret_code) ;;
      Ret (c, Some deg, Some res, W)
    end
  | _, _ => Ret (EC_INVALID_ARGUMENT, None, result, 0%Z)
  end.
End Fscatter.
