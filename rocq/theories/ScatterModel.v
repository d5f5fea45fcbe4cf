(** * Model of fnft__akns_scatter.c, fnft__nse_scatter.c, fnft__kdv_scatter.c (slow scattering)
   Simplifications: exact complex arithmetic; malloc succeeds; sizes and exponents do not overflow;
   pointers that may be NULL are options; x/0 is 0 instead of inf or NaN (the theorems exclude it or say
   where it matters); the two alternating halves of the buffers H[2], phi_temp[2], psi_temp[2] are replaced by
   the value of the current half (the other half is completely overwritten by misc_matrix_mult before it is read). *)
From Coq Require Import Reals ZArith List Lia.
From Coquelicot Require Import Coquelicot.
From Verif Require Import Base Loop Mem Fields ErrModel CExp MiscNumModel DiscTables DiscModel FscatterModel.
Import ListNotations.
Local Open Scope C_scope.

(** misc_matrix_mult(n,m,p,A,B,out) into a buffer of n*p elements *)
Definition mm (n m p : nat) (A B : list C) : out (list C) := misc_matrix_mult (K := CF) n m p A B (repeat (RtoC 0) (n * p)).

(** fnft__akns_scatter.c:29-63 akns_scatter_U_BO.  With derivative: U[4][4] has been initialised with zeros and the
   entries not assigned here are never assigned. *)
Definition U_BO (qn rn ln eps_t : C) (derivative_flag : bool) : out (list C) :=
  let ln2 := ln * ln in
  let ks := qn * rn - ln2 in
  let k := Csqrt ks in
  let ch := Ccosh (k * eps_t) in
  let sh := eps_t * misc_CSINC (Ci * k * eps_t) in
  let u1 := ln * sh * Ci in
  if derivative_flag then
    U <- wrs (repeat (RtoC 0) 16) [(0%nat, ch - u1); (1%nat, qn * sh); (4%nat, rn * sh); (5%nat, ch + u1)] ;;
    b <- rd U 0 6 ;; U <- wr U 10 b ;;
    let chi := ch / ks in
    let ud1 := eps_t * ln2 * chi * Ci in
    let ud2 := misc_CSINC_derivative (Ci * eps_t * k) * Ci * ln * eps_t * eps_t / k in
    wrs U [(8%nat, ud1 - (ln * eps_t + Ci + (ln2 * Ci) / ks) * sh); (9%nat, - qn * ud2);
           (12%nat, - rn * ud2); (13%nat, - ud1 - (ln * eps_t - Ci - (ln2 * Ci) / ks) * sh)]
  else Ret [ch - u1; qn * sh; rn * sh; ch + u1].

(** fnft__akns_scatter.c:65-95 akns_scatter_U_ES4; (t0,t1,t2) = tmp2[0..2] *)
Definition U_ES4 (a1 a2 a3 : C) (derivative_flag : bool) (t0 t1 t2 : C) : out (list C) :=
  let w := Csqrt (- (a1 * a1) - a2 * a2 - a3 * a3) in
  let s := misc_CSINC w in
  let c := Ccos w in
  if derivative_flag then
    U <- wrs (repeat (RtoC 0) 16) [(0%nat, c + s * a3); (1%nat, s * (a1 - Ci * a2)); (4%nat, s * (a1 + Ci * a2)); (5%nat, c - s * a3)] ;;
    b <- rd U 0 6 ;; U <- wr U 10 b ;;
    let w_d := - (a1 * t0 + a2 * t1 + a3 * t2) in
    let c_d := - misc_CSINC w * w_d in
    let w_d := w_d / w in
    let s_d := w_d * misc_CSINC_derivative w in
    wrs U [(8%nat, c_d + s_d * a3 + s * t2); (9%nat, s_d * a1 + s * t0 - Ci * s_d * a2 - Ci * s * t1);
           (12%nat, s_d * a1 + s * t0 + Ci * s_d * a2 + Ci * s * t1); (13%nat, c_d - s_d * a3 - s * t2)]
  else Ret [c + s * a3; s * (a1 - Ci * a2); s * (a1 + Ci * a2); c - s * a3].

(** the switch statements: which step is used *)
Inductive stepper := S_BO | S_ES4 | S_TES4.
Definition stepper_of (d : akns_disc) : option stepper :=
  match d with
  | A_BO | A_CF4_2 | A_CF4_3 | A_CF5_3 | A_CF6_4 => Some S_BO
  | A_ES4 => Some S_ES4
  | A_TES4 => Some S_TES4
  | _ => None
  end.

Section Pre.
Variables (D : nat) (q r : list C) (eps_t : R).
Let e : C := RtoC eps_t.
Let e2 : C := RtoC (eps_t * eps_t).
Let e3 : C := RtoC (eps_t * eps_t * eps_t).
(** [for (n = 0; n < D; n += 3)] *)
Definition triples : nat := ((D + 2) / 3)%nat.
(** assignments t[n], t[n+1], t[n+2] for n = 0, 3, ...; f gets q[n..n+2], r[n..n+2].  tmp1, tmp2, ... are modelled as
   separate arrays of D elements (in C they are parts of one allocation). *)
Definition pre_loop (f : C -> C -> C -> C -> C -> C -> list C) : out (list C) :=
  for_ triples 0 (fun i t =>
    let n := (3 * i)%nat in
    q0 <- aget q n ;; q1 <- aget q (n + 1) ;; q2 <- aget q (n + 2) ;;
    r0 <- aget r n ;; r1 <- aget r (n + 1) ;; r2 <- aget r (n + 2) ;;
    wr_list (f q0 q1 q2 r0 r1 r2) n t) (repeat (RtoC 0) D).

(** fnft__akns_scatter.c:161-165, 534-537 (ES4) *)
Definition es4_tmp1 (q0 q1 q2 r0 r1 r2 : C) : list C :=
  [ e3 * (q2 + r2) / 48 + (e * (q0 + r0)) * RtoC (1/2);
    (e * (q0 - r0) * Ci) * RtoC (1/2) + (e3 * (q2 - r2) * Ci) / 48;
    - e3 * (q0 * r1 - q1 * r0) / 12 ].
(** fnft__akns_scatter.c:166-173, 539-541 *)
Definition es4_tmp2 (q0 q1 q2 r0 r1 r2 : C) : list C :=
  [ Ci * e3 * (q1 - r1) / 12; - e3 * (q1 + r1) / 12; - Ci * e ].
(** fnft__akns_scatter.c:183-188, 553-556 (TES4); the third entry of each triple is not used *)
Definition tes4_tmp1 (q0 q1 q2 r0 r1 r2 : C) : list C :=
  [ (e3 * (q2 + r2)) / 96 - (e2 * (q1 + r1)) / 24; (e3 * (q2 - r2) * Ci) / 96 + (e2 * (r1 - q1) * Ci) / 24 ].
Definition tes4_tmp2 (q0 q1 q2 r0 r1 r2 : C) : list C :=
  [ (e3 * (q2 + r2)) / 96 + (e2 * (q1 + r1)) / 24; (e3 * (q2 - r2) * Ci) / 96 + (e2 * (q1 - r1) * Ci) / 24 ].
(** fnft__akns_scatter.c:564-567 *)
Definition tes4_tmp3 (q0 q1 q2 r0 r1 r2 : C) : list C :=
  [ (- e3 * (q2 + r2)) / 96 - (e2 * (q1 + r1)) / 24; (- e3 * (q2 - r2) * Ci) / 96 + (e2 * (r1 - q1) * Ci) / 24 ].
Definition tes4_tmp4 (q0 q1 q2 r0 r1 r2 : C) : list C :=
  [ (- e3 * (q2 + r2)) / 96 + (e2 * (q1 + r1)) / 24; (- e3 * (q2 - r2) * Ci) / 96 + (e2 * (q1 - r1) * Ci) / 24 ].

(** What the first switch statement prepares *)
Inductive prep :=
| P_BO (eps_t_scaled : list C)
| P_ES4 (tmp1 tmp2 : list C)
| P_TES4 (tmp1 tmp2 tmp3 tmp4 : list C).

(** fnft__akns_scatter.c:148-208, 524-594: the first switch statement; the code is the one that CHECK_RETCODE makes of it.
   (tmp2 of ES4 and tmp3, tmp4 of TES4 are computed only where they are needed; here always.) *)
Definition prepare (d : akns_disc) : out (Z + prep) :=
  match stepper_of d with
  | Some S_ES4 => t1 <- pre_loop es4_tmp1 ;; t2 <- pre_loop es4_tmp2 ;; Ret (inr (P_ES4 t1 t2))
  | Some S_TES4 => t1 <- pre_loop tes4_tmp1 ;; t2 <- pre_loop tes4_tmp2 ;; t3 <- pre_loop tes4_tmp3 ;; t4 <- pre_loop tes4_tmp4 ;;
      Ret (inr (P_TES4 t1 t2 t3 t4))
  | Some S_BO =>
      match akns_method_weights d with
      | inl code => c <- E_SUBROUTINE code ;; Ret (inl c)
      | inr (_, w) => Ret (inr (P_BO (map (fun x => x * e) w)))
      end
  | None => c <- E_SUBROUTINE EC_INVALID_ARGUMENT ;; Ret (inl c)
  end.

(** the arguments a1, a2, a3 of U_ES4 at n for the ES4 discretization: lines 239-241, 336-338, 647-649 *)
Definition es4_args (t1 : list C) (l : C) (n : nat) : out (C * C * C) :=
  q1 <- aget q (n + 1) ;; r1 <- aget r (n + 1) ;;
  x <- aget t1 n ;; y <- aget t1 (n + 1) ;; z <- aget t1 (n + 2) ;;
  Ret (x + e3 * (l * Ci * (q1 - r1)) / 12, y - e3 * l * (q1 + r1) / 12, - e * Ci * l + z).
(** the ones of the backward recursion: lines 745-747 *)
Definition es4_args_back (t1 : list C) (l : C) (n : nat) : out (C * C * C) :=
  q1 <- aget q (n + 1) ;; r1 <- aget r (n + 1) ;;
  x <- aget t1 n ;; y <- aget t1 (n + 1) ;; z <- aget t1 (n + 2) ;;
  Ret (- x - e3 * (l * Ci * (q1 - r1)) / 12, - y + e3 * l * (q1 + r1) / 12, e * Ci * l - z).
End Pre.

(** ** akns_scatter_matrix *)
Section Matrix.
Variables (D : nat) (q r : list C) (eps_t : R).

Definition dimof (df : bool) : nat := if df then 4%nat else 2%nat.

(** one pass of the innermost loops without the normalisation; i = number of the pass.
   fnft__akns_scatter.c:225-227, 322-325 (BO, CF), 238-243, 333-340 (ES4), 253-270, 350-366 (TES4) *)
Definition step (df : bool) (ups : nat) (pr : prep) (l : C) (i : nat) (H : list C) : out (list C) :=
  let m := dimof df in
  match pr with
  | P_BO es =>
      qn <- aget q i ;; rn <- aget r i ;; h <- aget es (i mod ups) ;;
      U <- U_BO qn rn l h df ;; mm m m m U H
  | P_ES4 t1 t2 =>
      let n := (3 * i)%nat in
      a <- es4_args q r eps_t t1 l n ;; let '(a1, a2, a3) := a in
      (if df then d0 <- aget t2 n ;; d1 <- aget t2 (n + 1) ;; d2 <- aget t2 (n + 2) ;;
            U <- U_ES4 a1 a2 a3 true d0 d1 d2 ;; mm m m m U H
       else U <- U_ES4 a1 a2 a3 false 0 0 0 ;; mm m m m U H)
  | P_TES4 t1 t2 _ _ =>
      let n := (3 * i)%nat in
      qn <- aget q n ;; rn <- aget r n ;;
      let half t H :=
        a1 <- aget t n ;; a2 <- aget t (n + 1) ;;
        M <- U_ES4 a1 a2 0 false 0 0 0 ;;
        (if df then
          h0 <- rd H 0 8 ;; h1 <- rd H 8 8 ;;
          x <- mm 2 2 4 M h0 ;; y <- mm 2 2 4 M h1 ;; Ret (x ++ y)
         else mm 2 2 2 M H) in
      H <- half t1 H ;;
      U <- U_BO qn rn l (RtoC eps_t) df ;;
      H <- mm m m m U H ;;
      half t2 H
  end.
(** number of passes *)
Definition passes (pr : prep) : nat := match pr with P_BO _ => D | _ => triples D end.
Definition eye (m : nat) : list C := flat_map (fun i => map (fun j => if Nat.eqb i j then RtoC 1 else RtoC 0) (seq 0 m)) (seq 0 m).
(** the loop over n: H and Wi *)
Definition scat_loop (df : bool) (norm : bool) (ups : nat) (pr : prep) (l : C) : out (list C * Z) :=
  for_ (passes pr) 0 (fun i st =>
    let '(H, Wi) := st in
    H <- step df ups pr l i H ;;
    if norm then x <- misc_normalize_vector (dimof df * dimof df) H ;; let '(a, H) := x in Ret (H, (Wi + a)%Z)
    else Ret (H, Wi)) (eye (dimof df), 0%Z).

(** CHECK_RETCODE *)
Definition chkZ (code : Z) : out Z := if Z.eqb code SUCCESS then Ret SUCCESS else E_SUBROUTINE code.

(** one lambda: lines 214-302 (with derivative), 306-398 (without).  Result: code, entries to be stored, Wi *)
Definition scat_one (df norm : bool) (ups : nat) (pr : prep) (d : akns_disc) (pde : akns_pde) (vanilla : bool) (l : C)
  : out (Z * list C * Z) :=
  let m := dimof df in
  x <- scat_loop df norm ups pr l ;; let '(H, Wi) := x in
  t <- akns_to_S (repeat (RtoC 0) (m * m)) l df eps_t d vanilla pde ;; let '(code, T) := t in
  if negb (Z.eqb code SUCCESS) then c <- chkZ code ;; Ret (c, [], Wi) else
  H <- mm m m m T H ;;
  t <- akns_from_S (repeat (RtoC 0) (m * m)) l df eps_t d vanilla pde ;; let '(code, T) := t in
  if negb (Z.eqb code SUCCESS) then c <- chkZ code ;; Ret (c, [], Wi) else
  H <- mm m m m H T ;;
  if df then
    let h := RtoC (1/2) in
    x00 <- aget H 0 ;; x22 <- aget H 10 ;; x01 <- aget H 1 ;; x23 <- aget H 11 ;;
    x10 <- aget H 4 ;; x32 <- aget H 14 ;; x11 <- aget H 5 ;; x33 <- aget H 15 ;;
    x20 <- aget H 8 ;; x21 <- aget H 9 ;; x30 <- aget H 12 ;; x31 <- aget H 13 ;;
    Ret (SUCCESS, [h * x00 + h * x22; h * x01 + h * x23; h * x10 + h * x32; h * x11 + h * x33; x20; x21; x30; x31], Wi)
  else v <- rd H 0 4 ;; Ret (SUCCESS, v, Wi).

(** the loop over lambda.  W[i] is assigned before the changes of basis, result[..] at the end *)
Definition scat_all (df : bool) (ups : nat) (pr : prep) (d : akns_disc) (pde : akns_pde) (vanilla : bool)
  (K : nat) (lambda result : list C) (W : option (list Z)) : out (Z * list C * option (list Z)) :=
  for_ K 0 (fun i st =>
    let '(code, result, W) := st in
    if negb (Z.eqb code SUCCESS) then Ret st else
    l <- aget lambda i ;;
    x <- scat_one df (match W with Some _ => true | None => false end) ups pr d pde vanilla l ;;
    let '(code, v, Wi) := x in
    W <- (match W with Some w => w <- aset w i Wi ;; Ret (Some w) | None => Ret None end) ;;
    if Z.eqb code SUCCESS then
      result <- wr_list v ((if df then 8 else 4) * i)%nat result ;; Ret (SUCCESS, result, W)
    else Ret (code, result, W)) (SUCCESS, result, W).
End Matrix.

(** fnft__akns_scatter.c:105-417 akns_scatter_matrix.  derivative_flag is a UINT of which only 0 and 1 are accepted.
   Result: return code, result array, array W. *)
Definition akns_scatter_matrix (D : nat) (q r : option (list C)) (eps_t : R) (K : nat) (lambda result : option (list C))
  (W : option (list Z)) (d : akns_disc) (pde : akns_pde) (vanilla : bool) (derivative_flag : nat)
  : out (Z * option (list C) * option (list Z)) :=
  let bad := Ret (EC_INVALID_ARGUMENT, result, W) in
  if Nat.eqb D 0 then bad else
  match q, r with
  | Some q, Some r =>
    if negb (if Rlt_dec 0 eps_t then true else false) then bad else
    if Nat.eqb K 0 then bad else
    match lambda, result with
    | Some lam, Some res =>
      if Nat.ltb 1 derivative_flag then bad else
      let df := Nat.eqb derivative_flag 1 in
      let ups := akns_upsampling_factor d in
      if Nat.eqb ups 0 then bad else
      p <- prepare D q r eps_t d ;;
      match p with
      | inl code => Ret (code, result, W)
      | inr pr => x <- scat_all D q r eps_t df ups pr d pde vanilla K lam res W ;;
          let '(code, res, W) := x in Ret (code, Some res, W)
      end
    | _, _ => bad
    end
  | _, _ => bad
  end.

(** fnft__nse_scatter.c:37-83 nse_scatter_matrix *)
Definition nse_scatter_matrix (D : nat) (q r : option (list C)) (eps_t : R) (kappa : Z) (K : nat) (lambda result : option (list C))
  (W : option (list Z)) (d : nse_disc) (derivative_flag : nat) : out (Z * option (list C) * option (list Z)) :=
  let bad := Ret (EC_INVALID_ARGUMENT, result, W) in
  if Nat.eqb D 0 then bad else
  match q, r with
  | Some _, Some _ =>
    if negb (if Rlt_dec 0 eps_t then true else false) then bad else
    if negb (Z.eqb (Z.abs kappa) 1) then bad else
    if Nat.eqb K 0 then bad else
    match lambda, result with
    | Some _, Some _ =>
      match nse_to_akns d with
      | None => c <- E_SUBROUTINE EC_INVALID_ARGUMENT ;; Ret (c, result, W)
      | Some a =>
          x <- akns_scatter_matrix D q r eps_t K lambda result W a PDE_NSE false derivative_flag ;;
          let '(code, res, W) := x in c <- chkZ code ;; Ret (c, res, W)
      end
    | _, _ => bad
    end
  | _, _ => bad
  end.

(** fnft__kdv_scatter.c:36-97 kdv_scatter_matrix: q and r exchanged unless the discretization is a _VANILLA one *)
Definition kdv_scatter_matrix (D : nat) (q r : option (list C)) (eps_t : R) (kappa : Z) (K : nat) (lambda result : option (list C))
  (W : option (list Z)) (d : kdv_disc) (derivative_flag : nat) : out (Z * option (list C) * option (list Z)) :=
  let bad := Ret (EC_INVALID_ARGUMENT, result, W) in
  if Nat.eqb D 0 then bad else
  match q, r with
  | Some _, Some _ =>
    if negb (if Rlt_dec 0 eps_t then true else false) then bad else
    if Nat.eqb K 0 then bad else
    match lambda, result with
    | Some _, Some _ =>
      match kdv_to_akns d with
      | None => c <- E_SUBROUTINE EC_INVALID_ARGUMENT ;; Ret (c, result, W)
      | Some a =>
        match kdv_vanilla_flag d with
        | None => c <- E_SUBROUTINE EC_INVALID_ARGUMENT ;; Ret (c, result, W)
        | Some v =>
          x <- (if v then akns_scatter_matrix D q r eps_t K lambda result W a PDE_KdV v derivative_flag
                else akns_scatter_matrix D r q eps_t K lambda result W a PDE_KdV v derivative_flag) ;;
          let '(code, res, W) := x in c <- chkZ code ;; Ret (c, res, W)
        end
      end
    | _, _ => bad
    end
  | _, _ => bad
  end.
