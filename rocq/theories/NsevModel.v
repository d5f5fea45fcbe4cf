(** * Model of src/fnft_nsev.c: the driver of the NFT for the NSE with vanishing boundaries

   Exact complex arithmetic; REAL options that the code compares with infinities or NaN are of type
   [xreal].  Arrays are lists with checked access, NULL is [None].  The outcome [UB] stands for
   undefined behaviour, and also for a division by zero of a REAL (an inf or NaN in C) where the
   operation is written [rdiv], [step] or [cdivr] below.

   The numerical subroutines are a parameter of type [env]: what a call returns (error code and
   contents of its output arrays) may depend in any way on its arguments and on a number that
   identifies the call site, so a failure at every single call is covered.  Models of these
   subroutines are in DiscModel, FscatterModel, ScatterModel, BoundModel and ChirpzModel; the
   Fortran root finder behind poly_roots_fasteigen has no model.  Also part of [env]: which
   allocations succeed.  Not modelled: printing of warnings, release of memory (except for one
   double free), wrap-around of UINT, rounding. *)
From Coq Require Import Reals.
From Coquelicot Require Import Coquelicot.
From Verif Require Export MiscModel MiscNumModel DiscModel FscatterModel GridModel.
Local Open Scope C_scope.

(** ** Options, include/fnft_nsev.h:37-215.  A C enum can hold other values than the named ones: _bad. *)
Inductive bsfilt := BF_NONE | BF_BASIC | BF_FULL | BF_MANUAL | BF_bad.
Inductive bsloc := BL_FAST_EIGENVALUE | BL_NEWTON | BL_SUBSAMPLE_AND_REFINE | BL_bad.
Inductive dstype := DS_NORMING_CONSTANTS | DS_RESIDUES | DS_BOTH | DS_bad.
Inductive cstype := CS_REFLECTION_COEFFICIENT | CS_AB | CS_BOTH | CS_bad.
Record xbox := { x0 : xreal; x1 : xreal; x2 : xreal; x3 : xreal }.
Record opts := {
  bound_state_filtering : bsfilt;
  bound_state_localization : bsloc;
  niter : nat;
  tol : xreal;
  o_Dsub : nat;
  discspec_type : dstype;
  contspec_type : cstype;
  normalization_flag : bool;
  discretization : nse_disc;
  richardson_extrapolation_flag : nat;
  bounding_box : xbox }.
(** opts->bound_state_localization = x; opts->discspec_type = x *)
Definition set_bsloc (o : opts) (x : bsloc) : opts :=
  {| bound_state_filtering := bound_state_filtering o; bound_state_localization := x; niter := niter o; tol := tol o;
     o_Dsub := o_Dsub o; discspec_type := discspec_type o; contspec_type := contspec_type o;
     normalization_flag := normalization_flag o; discretization := discretization o;
     richardson_extrapolation_flag := richardson_extrapolation_flag o; bounding_box := bounding_box o |}.
Definition set_dstype (o : opts) (x : dstype) : opts :=
  {| bound_state_filtering := bound_state_filtering o; bound_state_localization := bound_state_localization o; niter := niter o; tol := tol o;
     o_Dsub := o_Dsub o; discspec_type := x; contspec_type := contspec_type o;
     normalization_flag := normalization_flag o; discretization := discretization o;
     richardson_extrapolation_flag := richardson_extrapolation_flag o; bounding_box := bounding_box o |}.

(** fnft_nsev.c:28-40 *)
Definition nsev_default_opts : opts :=
  {| bound_state_filtering := BF_FULL; bound_state_localization := BL_SUBSAMPLE_AND_REFINE; niter := 100;
     tol := Fin (-1); o_Dsub := 0; discspec_type := DS_NORMING_CONSTANTS; contspec_type := CS_REFLECTION_COEFFICIENT;
     normalization_flag := true; discretization := N_2SPLIT4B; richardson_extrapolation_flag := 0;
     bounding_box := {| x0 := NaN; x1 := NaN; x2 := NaN; x3 := NaN |} |}.

(** fnft_nsev.c:55-61 fnft_nsev_max_K; [dflt] is the static variable default_opts *)
Definition nsev_max_K (dflt : opts) (D : nat) (o : option opts) : nat :=
  match o with
  | Some o => nse_degree (discretization o) * D
  | None => nse_degree (discretization dflt) * D
  end.

(** the arrays the user hands over for output, *K_ptr *)
Record outs := { u_cs : option (list C); u_K : option nat; u_bs : option (list C); u_nc : option (list C) }.
Definition set_cs (u : outs) x := {| u_cs := x; u_K := u_K u; u_bs := u_bs u; u_nc := u_nc u |}.
Definition set_K (u : outs) x := {| u_cs := u_cs u; u_K := x; u_bs := u_bs u; u_nc := u_nc u |}.
Definition set_bs (u : outs) x := {| u_cs := u_cs u; u_K := u_K u; u_bs := x; u_nc := u_nc u |}.
Definition set_nc (u : outs) x := {| u_cs := u_cs u; u_K := u_K u; u_bs := u_bs u; u_nc := x |}.

(** ** Subroutines.  The first argument is the call site. *)
Record env := {
  (** malloc succeeds at (site, number of the allocation) *)
  e_alloc : nat -> nat -> bool;
  (** contents of a fresh array: allocation number, length *)
  e_junk : nat -> nat -> list C;
  (** nse_discretization_preprocess_signal(D, q, eps_t, kappa, &Dsub, ..): error code or outputs *)
  e_pre : nat -> nat -> list C -> R -> Z -> nat -> nse_disc -> out (Z + pre_out);
  (** nse_fscatter(D, q, r, eps_t, result, &deg, W_ptr, discretization): code, deg, result, W *)
  e_fscatter : nat -> nat -> list C -> list C -> R -> list C -> bool -> nse_disc -> out (Z * nat * list C * Z);
  (** nse_scatter_matrix(D, q, r, eps_t, kappa, K, lambda, result, W_ptr, discretization, 0): code, result, Ws *)
  e_smat : nat -> nat -> list C -> list C -> R -> Z -> nat -> list C -> bool -> nse_disc -> out (Z * list C * list Z);
  (** poly_chirpz(deg, p, A, W, M, result): code, result *)
  e_chirpz : nat -> nat -> list C -> C -> C -> nat -> out (Z * list C);
  (** nse_scatter_bound_states(D, q, r, T, K, bound_states, a, aprime, b, Ws, discretization, skip_b):
      code, a, aprime, b, Ws; the bool says whether Ws != NULL *)
  e_sbs : nat -> nat -> list C -> list C -> R * R -> nat -> list C -> bool -> nse_disc -> bool
          -> out (Z * list C * list C * list C * list Z);
  (** poly_roots_fasteigen(deg, p, roots): code, roots *)
  e_roots : nat -> nat -> list C -> list C -> out (Z * list C) }.

(** ** Arithmetic *)
(** x / (n-1) for a UINT n; n = 0, where n-1 wraps, does not occur below *)
Definition step (x : R) (n : nat) : out R := if (n <=? 1)%nat then UB else Ret (x / INR (n - 1))%R.
Definition rdiv (x y : R) : out R := if Req_EM_T y 0 then UB else Ret (x / y)%R.
Definition cdivr (z : C) (y : R) : out C := if Req_EM_T y 0 then UB else Ret (z / RtoC y).
(** a <= b, a < b on doubles (false if one of them is NaN) *)
Definition xle (a b : xreal) : bool :=
  match a, b with
  | NaN, _ | _, NaN => false
  | Fin x, Fin y => if Rle_dec x y then true else false
  | Fin _, Inf s => s
  | Inf s, Fin _ => negb s
  | Inf s, Inf t => negb s || t
  end.
Definition is_nan (a : xreal) : bool := match a with NaN => true | _ => false end.
(** include/fnft.h EPSILON = DBL_EPSILON *)
Definition EPS : R := (/ 2 ^ 52)%R.
(** (UINT) x for a REAL x >= 0 *)
Definition ufloor (x : R) : nat := Z.to_nat (Int_part x).
(** LOG2 *)
Definition log2 (x : R) : R := (ln x / ln 2)%R.
(** read *p for a pointer that may be NULL *)
Definition deref {A} (p : option A) : out A := match p with Some x => Ret x | None => UB end.
(** CHECK_RETCODE(ret_code, leave_fun): [st] is what the caller sees *)
Definition check {S} (code : Z) (st : S) (k : out (Z * S)) : out (Z * S) :=
  if Z.eqb code SUCCESS then k else c <- E_SUBROUTINE code ;; Ret (c, st).

(** ** misc_filter(&K, buffer, NULL, bounding_box) on exact complex numbers: the loop of MiscModel with
   the tests of fnft__misc.c:134-141 *)
Definition box_keep (bb : xbox) (v : C) : bool :=
  if negb (xle (x0 bb) (Fin (fst v))) then false else
  if negb (xle (Fin (fst v)) (x1 bb)) then false else
  if negb (xle (x2 bb) (Fin (snd v))) then false else
  if negb (xle (Fin (snd v)) (x3 bb)) then false else true.
Definition cfilter (K : nat) (vals : list C) (bb : xbox) : out (Z * nat * list C) :=
  if negb (xle (x0 bb) (x1 bb)) || negb (xle (x2 bb) (x3 bb)) then Ret (EC_INVALID_ARGUMENT, K, vals) else
  r <- filter_loop (box_keep bb) K 0 0 vals None ;; let '(nf, vals, _) := r in Ret (SUCCESS, nf, vals).
(** misc_merge(&K, buffer, SQRT(EPSILON)) *)
Definition cnear (a b : C) : bool := if Rlt_dec (Cmod (a - b)) (sqrt EPS) then true else false.
Definition cmerge (K : nat) (vals : list C) : out (Z * nat * list C) :=
  r <- misc_merge cnear (Some K) (Some vals) false ;;
  match r with (c, Some n, Some v) => Ret (c, n, v) | _ => UB end.

Section Nsev.
Variable E : env.

(** ** fnft_nsev.c:760-900 nsev_compute_contspec *)

(** :846-852, with the early return at a zero of H11 *)
Fixpoint rho_loop (cnt i : nat) (H11 H21 xi : list C) (phase : R) (result : list C) : out (Z * list C) :=
  match cnt with
  | O => Ret (SUCCESS, result)
  | S k =>
      h <- aget H11 i ;;
      if ceq h 0 then Ret (EC_DIV_BY_ZERO, result) else
      g <- aget H21 i ;; x <- aget xi i ;;
      result <- aset result i (g * Cexp (Ci * x * RtoC phase) / h) ;;
      rho_loop k (S i) H11 H21 xi phase result
  end.
(** :869-872 *)
Definition ab_loop (M offset : nat) (H11 H21 xi : list C) (scale pa pb : R) (result : list C) : out (list C) :=
  for_ M 0 (fun i result =>
    h <- aget H11 i ;; g <- aget H21 i ;; x <- aget xi i ;;
    result <- aset result (offset + i) (h * RtoC scale * Cexp (Ci * x * RtoC pa)) ;;
    aset result (offset + M + i) (g * RtoC scale * Cexp (Ci * x * RtoC pb))) result.
(** a phase factor function: NaN would spread to the result *)
Definition phase (p : phase_result) : out (Z * R) :=
  match p with PErr c => Ret (c, 0%R) | POk (Some v) => Ret (SUCCESS, v) | POk None => UB end.

(** :807-841, the values of the transfer matrix entries 11 and 21 on the grid *)
Definition contspec_values (s deg : nat) (W : Z) (tm : option (list C)) (q r : list C) (eps_t eps_xi : R)
    (D M : nat) (XI0 : R) (xi : list C) (kappa : Z) (o : opts) : out (Z * (list C * list C)) :=
  if Nat.eqb deg 0 && match tm with None => true | _ => false end && Z.eqb W 0 then
    if negb (e_alloc E s 2) then Ret (EC_NOMEM, ([], [])) else
    if normalization_flag o && negb (e_alloc E s 3) then Ret (EC_NOMEM, ([], [])) else
    x <- e_smat E s D q r eps_t kappa M xi (normalization_flag o) (discretization o) ;;
    let '(code, sc, Ws) := x in
    check code ([], []) (
    H <- for_ M 0 (fun i H =>
      h <- aget sc (i * 4) ;; g <- aget sc (i * 4 + 2) ;;
      if normalization_flag o then
        w <- aget Ws i ;; let scl := RtoC (powerRZ 2 w) in Ret (fst H ++ [h * scl], snd H ++ [g * scl])
      else Ret (fst H ++ [h], snd H ++ [g])) ([], []) ;;
    Ret (SUCCESS, H))
  else
    v <- nse_lambda_to_z 1 eps_t [RtoC eps_xi] (discretization o) ;; let '(code, v) := v in
    check code ([], []) (
    a <- nse_lambda_to_z 1 eps_t [RtoC (- XI0)] (discretization o) ;; let '(code, a) := a in
    check code ([], []) (
    V <- aget v 0 ;; A <- aget a 0 ;;
    p <- deref tm ;;
    h <- e_chirpz E s deg (firstn (deg + 1) p) A V M ;; let '(code, H11) := h in
    check code ([], []) (
    h <- e_chirpz E s deg (firstn (deg + 1) (skipn (2 * (deg + 1)) p)) A V M ;; let '(code, H21) := h in
    check code ([], []) (Ret (SUCCESS, (H11, H21)))))).

Definition nsev_compute_contspec (s deg : nat) (W : Z) (tm : option (list C)) (q r : list C) (T : R * R) (D : nat)
    (XI : option (R * R)) (M : nat) (result : list C) (kappa : Z) (o : opts) : out (Z * list C) :=
  let ups := nse_upsampling_factor (discretization o) in
  if Nat.eqb ups 0 then Ret (EC_INVALID_ARGUMENT, result) else
  let D_given := (D / ups)%nat in
  eps_t <- step (snd T - fst T) D_given ;;
  XI <- deref XI ;;
  eps_xi <- step (snd XI - fst XI) M ;;
  if negb (e_alloc E s 0) then Ret (EC_NOMEM, result) else
  let xi := map (fun i => RtoC (fst XI + eps_xi * INR i)) (seq 0 M) in
  if negb (e_alloc E s 1) then Ret (EC_NOMEM, result) else
  v <- contspec_values s deg W tm q r eps_t eps_xi D M (fst XI) xi kappa o ;;
  let '(code, (H11, H21)) := v in
  if negb (Z.eqb code SUCCESS) then Ret (code, result) else
  let rho (result : list C) :=
    p <- phase (nse_phase_factor_rho eps_t (snd T) (discretization o)) ;;
    check (fst p) result (rho_loop M 0 H11 H21 xi (snd p) result) in
  let ab (offset : nat) (result : list C) :=
    pa <- phase (nse_phase_factor_a eps_t D_given (fst T) (snd T) (discretization o)) ;;
    check (fst pa) result (
    pb <- phase (nse_phase_factor_b eps_t D_given (fst T) (snd T) (discretization o)) ;;
    check (fst pb) result (
    result <- ab_loop M offset H11 H21 xi (powerRZ 2 W) (snd pa) (snd pb) result ;;
    Ret (SUCCESS, result))) in
  match contspec_type o with
  | CS_REFLECTION_COEFFICIENT => rho result
  | CS_AB => ab O result
  | CS_BOTH => x <- rho result ;; let '(code, result) := x in
               if negb (Z.eqb code SUCCESS) then Ret (code, result) else ab M result
  | CS_bad => Ret (EC_INVALID_ARGUMENT, result)
  end.

(** ** fnft_nsev.c:902-1000 nsev_compute_normconsts_or_residues *)

(** :707-713 and :940-948: the slow method that is used for the discrete spectrum *)
Definition base_method (d : nse_disc) : nse_disc :=
  let ups := nse_upsampling_factor d in
  let deg := nse_degree d in
  if Nat.eqb ups 1 && negb (Nat.eqb deg 0) then N_BO
  else if Nat.eqb ups 2 && negb (Nat.eqb deg 0) then N_CF4_2
  else d.
(** :971-977, with the early return *)
Fixpoint residue_loop (cnt i offset : nat) (aprime : list C) (Ws : option (list Z)) (nc : list C) : out (Z * list C) :=
  match cnt with
  | O => Ret (SUCCESS, nc)
  | S k =>
      ap <- aget aprime i ;;
      if ceq ap 0 then Ret (EC_DIV_BY_ZERO, nc) else
      x <- aget nc (offset + i) ;;
      nc <- aset nc (offset + i) (x / ap) ;;
      nc <- match Ws with
            | None => Ret nc
            | Some Ws => w <- aget Ws i ;; x <- aget nc (offset + i) ;; aset nc (offset + i) (x / RtoC (powerRZ 2 w))
            end ;;
      residue_loop k (S i) offset aprime Ws nc
  end.
(** memcpy(a + off, b, n) / copying a prefix of the result of a subroutine into the caller's array *)
Definition copy (n off : nat) (src dst : list C) : out (list C) :=
  for_ n 0 (fun i dst => x <- aget src i ;; aset dst (off + i) x) dst.

(** K > 0, D > 0, q != NULL at the only call (:568).  The subroutine writes the b-values directly into
   normconsts_or_residues: the first K entries *)
Definition nsev_compute_normconsts (s D : nat) (q r : list C) (T : R * R) (K : nat) (bs nc : list C) (o : opts)
  : out (Z * list C) :=
  if negb (e_alloc E s 5) then Ret (EC_NOMEM, nc) else
  if normalization_flag o && negb (e_alloc E s 6) then Ret (EC_NOMEM, nc) else
  if Nat.eqb (nse_upsampling_factor (discretization o)) 0 then Ret (EC_INVALID_ARGUMENT, nc) else
  x <- e_sbs E s D q r T K (firstn K bs) (normalization_flag o) (base_method (discretization o)) false ;;
  let '(code, a, ap, b, Ws) := x in
  nc <- copy K 0 b nc ;;
  check code nc (
  match discspec_type o with
  | DS_NORMING_CONSTANTS => Ret (SUCCESS, nc)
  | DS_RESIDUES => residue_loop K 0 0 ap (if normalization_flag o then Some Ws else None) nc
  | DS_BOTH => nc <- copy K K nc nc ;;
               residue_loop K 0 K ap (if normalization_flag o then Some Ws else None) nc
  | DS_bad => Ret (EC_INVALID_ARGUMENT, nc)
  end).

(** ** fnft_nsev.c:1003-1112 nsev_refine_bound_states_newton *)

(** :1070-1074, the point left the box *)
Definition left_box (bb : xbox) (v : C) : bool :=
  xlt (x3 bb) (Fin (snd v)) || xlt (x1 bb) (Fin (fst v)) || xlt (Fin (fst v)) (x0 bb) || xlt (Fin (snd v)) (x2 bb).
(** |z| <= tol *)
Definition small (z : C) (tol : R) : bool := if Rle_dec (Cmod z) tol then true else false.
(** :1048-1083, the loop over iter for one bound state.  Result: code, the refined bound state and the number of
   calls to nse_scatter_bound_states.  [fuel] bounds the number of passes; niter+1 is enough (theorem). *)
Fixpoint newton_loop (fuel iter s D : nat) (q r : list C) (T : R * R) (d : nse_disc) (niter : nat) (tol : R)
    (bb : xbox) (norm : bool) (lam : C) : out (Z * C * nat) :=
  match fuel with
  | O => UB
  | S fuel =>
      if negb (iter <? niter)%nat then Ret (SUCCESS, lam, O) else
      x <- e_sbs E s D q r T 1 [lam] norm d true ;;
      let '(code, a, ap, _, _) := x in
      if negb (Z.eqb code SUCCESS) then
        c <- E_SUBROUTINE code ;; c <- E_SUBROUTINE c ;; Ret (c, lam, 1%nat) else
      a_val <- aget a 0 ;; ap_val <- aget ap 0 ;;
      if ceq a_val 0 then Ret (SUCCESS, lam, 1%nat) else
      if ceq ap_val 0 then Ret (EC_DIV_BY_ZERO, lam, 1%nat) else
      let error := a_val / ap_val in
      let lam := lam - error in
      let iter := S iter in
      if left_box bb lam then Ret (SUCCESS, lam, 1%nat) else
      if small error tol || small a_val tol then Ret (SUCCESS, lam, 1%nat) else
      y <- newton_loop fuel (S iter) s D q r T d niter tol bb norm lam ;;
      let '(code, lam, calls) := y in Ret (code, lam, S calls)
  end.

(** :1044-1098, the loop over the bound states: i = lo, ..., lo+cnt-1 *)
Fixpoint newton_all (cnt i s D : nat) (q r : list C) (T : R * R) (d : nse_disc) (niter : nat) (tol : R)
    (bb : xbox) (norm : bool) (bs : list C) : out (Z * list C) :=
  match cnt with
  | O => Ret (SUCCESS, bs)
  | S k =>
      lam <- aget bs i ;;
      x <- newton_loop (S niter) 0 s D q r T d niter tol bb norm lam ;;
      let '(code, lam, _) := x in
      bs <- aset bs i lam ;;
      if negb (Z.eqb code SUCCESS) then Ret (code, bs) else
      newton_all k (S i) s D q r T d niter tol bb norm bs
  end.

Definition newton_tol (t : xreal) : R :=
  match t with Fin x => if Rle_dec 0 x then x else (100 * EPS)%R | _ => (100 * EPS)%R end.

(** whole function; tol = +inf (every step is accepted) is read as the default tolerance *)
Definition nsev_refine_newton (s D : nat) (q r : list C) (T : R * R) (K : nat) (bs : list C) (d : nse_disc)
    (niter : nat) (tol : xreal) (bb : xbox) (norm : bool) : out (Z * list C) :=
  if Nat.eqb K 0 then Ret (SUCCESS, bs) else
  if Nat.eqb niter 0 then Ret (SUCCESS, bs) else
  if negb (xle (x0 bb) (x1 bb)) || negb (xle (x2 bb) (x3 bb)) then Ret (EC_INVALID_ARGUMENT, bs) else
  newton_all K 0 s D q r T d niter (newton_tol tol) bb norm bs.

(** ** fnft_nsev.c:614-757 nsev_compute_boundstates *)

(** :580-590 re_bound; :594-606 im_bound (None = NaN) *)
Definition re_bound (eps_t map_coeff : R) : R := (9 / 10 * PI / Rabs (map_coeff * eps_t))%R.
Definition im_bound (D : nat) (q : list C) (T : R * R) (eps_t : R) : out xreal :=
  n <- misc_l2norm2 D q (fst T - eps_t / 2)%R (snd T + eps_t / 2)%R ;;
  Ret (match n with Some n => Fin (3 / 2 * (1 / 4) * n)%R | None => NaN end).

(** :646-697 *)
Definition nsev_box (s D : nat) (q : list C) (T : R * R) (eps_t : R) (o : opts) : out (Z * xbox) :=
  let ups := nse_upsampling_factor (discretization o) in
  let deg1 := nse_degree (discretization o) in
  let map_coeff := (if Nat.eqb deg1 0 then 2 else 2 / INR deg1)%R in
  let D_given := (D / ups)%nat in
  let nan := {| x0 := NaN; x1 := NaN; x2 := NaN; x3 := NaN |} in
  match bound_state_filtering o with
  | BF_BASIC => Ret (SUCCESS, {| x0 := Inf false; x1 := Inf true; x2 := Fin 0; x3 := Inf true |})
  | BF_FULL =>
      let re := re_bound eps_t map_coeff in
      let go im := Ret (SUCCESS, {| x0 := Fin (- re); x1 := Fin re; x2 := Fin 0; x3 := im |}) in
      match discretization o with
      | N_ES4 | N_TES4 =>
          if negb (e_alloc E s 7) then c <- E_SUBROUTINE EC_NOMEM ;; Ret (c, nan) else
          qt <- for_ D_given 0 (fun i acc => x <- aget q (3 * i) ;; Ret (acc ++ [x])) [] ;;
          im <- im_bound D_given qt T eps_t ;; go im
      | _ => im <- im_bound D q T eps_t ;; go im
      end
  | BF_MANUAL =>
      let b := bounding_box o in
      if is_nan (x0 b) || is_nan (x1 b) || is_nan (x2 b) || is_nan (x3 b) then Ret (EC_OTHER, nan) else Ret (SUCCESS, b)
  | BF_NONE => Ret (SUCCESS, {| x0 := Inf false; x1 := Inf true; x2 := Inf false; x3 := Inf true |})
  | BF_bad => Ret (EC_INVALID_ARGUMENT, nan)
  end.

(** :739-747: filter and merge, then go on with code, K and buffer *)
Definition nsev_filter (K : nat) (buffer : list C) (bb : xbox) (o : opts) : out (Z * (nat * list C)) :=
  match bound_state_filtering o with
  | BF_NONE => Ret (SUCCESS, (K, buffer))
  | _ =>
      f <- cfilter K buffer bb ;; let '(code, K, buffer) := f in
      check code (K, buffer) (
      m <- cmerge K buffer ;; let '(code, K, buffer) := m in
      check code (K, buffer) (Ret (SUCCESS, (K, buffer))))
  end.

(** result: code, *K_ptr, bound_states.  The transfer matrix is not used any more after this call, so the buffer
   inside it is a list of its own here. *)
Definition nsev_compute_boundstates (s D : nat) (q r : list C) (deg : nat) (tm : option (list C)) (T : R * R)
    (eps_t : R) (K_in : nat) (bs : list C) (o : opts) : out (Z * (nat * list C)) :=
  if Nat.eqb (nse_upsampling_factor (discretization o)) 0 then Ret (EC_INVALID_ARGUMENT, (K_in, bs)) else
  b <- nsev_box s D q T eps_t o ;; let '(code, bb) := b in
  if negb (Z.eqb code SUCCESS) then Ret (code, (K_in, bs)) else
  match bound_state_localization o with
  | BL_NEWTON =>
      x <- nsev_refine_newton s D q r T K_in bs (base_method (discretization o)) (niter o) (tol o) bb (normalization_flag o) ;;
      let '(code, bs) := x in
      check code (K_in, bs) (
      f <- nsev_filter K_in bs bb o ;; let '(code, (K, bs)) := f in
      if negb (Z.eqb code SUCCESS) then Ret (code, (K_in, bs)) else
      Ret (SUCCESS, (K, bs)))
  | BL_FAST_EIGENVALUE =>
      tm <- deref tm ;;
      let own := (deg <=? K_in)%nat in
      let buffer := if own then bs else skipn (deg + 1) tm in
      x <- e_roots E s deg (firstn (deg + 1) tm) buffer ;; let '(code, buffer) := x in
      let bs := if own then buffer else bs in
      check code (K_in, bs) (
      z <- nse_z_to_lambda deg eps_t buffer (discretization o) ;; let '(code, buffer) := z in
      let bs := if own then buffer else bs in
      check code (K_in, bs) (
      f <- nsev_filter deg buffer bb o ;; let '(code, (K, buffer)) := f in
      let bs := if own then buffer else bs in
      if negb (Z.eqb code SUCCESS) then Ret (code, (K_in, bs)) else
      if own then Ret (SUCCESS, (K, bs)) else
      let K := if (K_in <? K)%nat then K_in else K in
      bs <- copy K 0 buffer bs ;;
      Ret (SUCCESS, (K, bs))))
  | _ => Ret (EC_INVALID_ARGUMENT, (K_in, bs))
  end.

(** ** fnft_nsev.c:460-578 fnft_nsev_base.  q and r are not NULL at the calls, opts is not NULL.
   nse_fscatter_numel: fnft__nse_fscatter.c:34-41 *)
Definition nse_fscatter_numel (D : nat) (d : nse_disc) : out nat :=
  if Nat.eqb (nse_degree d) 0 then Ret O else fmult_numel 4 (nse_degree d) D.

Definition bad_interval (T : option (R * R)) : bool :=
  match T with None => true | Some T => if Rle_dec (snd T) (fst T) then true else false end.
Definition no_ptr {A} (p : option A) : bool := match p with None => true | _ => false end.
(** :505-523, the same tests as in fnft_nsev, :169-184 *)
Definition args_bad (D : nat) (q : option (list C)) (T : option (R * R)) (XI : option (R * R)) (kappa : Z) (u : outs) : bool :=
  (D <? 2)%nat || no_ptr q || bad_interval T || (negb (no_ptr (u_cs u)) && bad_interval XI)
  || negb (Z.eqb (Z.abs kappa) 1) || (negb (no_ptr (u_bs u)) && no_ptr (u_K u)).

Definition fnft_nsev_base (s D : nat) (q r : list C) (T : R * R) (M : nat) (XI : option (R * R)) (kappa : Z)
    (o : opts) (u : outs) : out (Z * outs) :=
  if args_bad D (Some q) (Some T) XI kappa u then Ret (EC_INVALID_ARGUMENT, u) else
  let ups := nse_upsampling_factor (discretization o) in
  if Nat.eqb ups 0 then Ret (EC_INVALID_ARGUMENT, u) else
  eps_t <- step (snd T - fst T) (D / ups) ;;
  i <- nse_fscatter_numel D (discretization o) ;;
  if negb (Nat.eqb i 0) && negb (e_alloc E s 8) then Ret (EC_NOMEM, u) else
  t <- (if negb (Nat.eqb i 0)
        then x <- e_fscatter E s D q r eps_t (e_junk E 8 i) (normalization_flag o) (discretization o) ;;
             let '(code, deg, tm, W) := x in
             Ret (code, deg, Some tm, if normalization_flag o then W else 0%Z)
        else Ret (SUCCESS, O, None, 0%Z)) ;;
  let '(code, deg, tm, W) := t in
  check code u (
  c <- match u_cs u with
       | Some cs => if (0 <? M)%nat
                    then x <- nsev_compute_contspec s deg W tm q r T D XI M cs kappa o ;; Ret (fst x, set_cs u (Some (snd x)))
                    else Ret (SUCCESS, u)
       | None => Ret (SUCCESS, u)
       end ;;
  let '(code, u) := c in
  check code u (
  match u_bs u with
  | Some bs =>
      if Z.eqb kappa 1 then
        K <- deref (u_K u) ;;
        x <- nsev_compute_boundstates s D q r deg tm T eps_t K bs o ;;
        let '(code, (K, bs)) := x in
        let u := set_K (set_bs u (Some bs)) (Some K) in
        check code u (
        match u_nc u with
        | Some nc =>
            if negb (Nat.eqb K 0) then
              y <- nsev_compute_normconsts s D q r T K bs nc o ;;
              let u := set_nc u (Some (snd y)) in
              check (fst y) u (Ret (SUCCESS, u))
            else Ret (SUCCESS, u)
        | None => Ret (SUCCESS, u)
        end)
      else Ret (SUCCESS, match u_K u with Some _ => set_K u (Some O) | None => u end)
  | None => Ret (SUCCESS, match u_K u with Some _ => set_K u (Some O) | None => u end)
  end)).

(** ** fnft_nsev.c:133-455 fnft_nsev *)

(** :189-229 *)
Definition disc_class (d : nse_disc) : option bool :=   (* Some true: fast, Some false: slow, None: unknown *)
  match d with
  | N_2SPLIT2_MODAL | N_2SPLIT1A | N_2SPLIT1B | N_2SPLIT2A | N_2SPLIT2B | N_2SPLIT2S | N_2SPLIT3S | N_2SPLIT4B
  | N_2SPLIT3A | N_2SPLIT3B | N_2SPLIT4A | N_2SPLIT6B | N_2SPLIT6A | N_2SPLIT8B | N_2SPLIT5A | N_2SPLIT5B
  | N_2SPLIT8A | N_2SPLIT7A | N_2SPLIT7B | N_4SPLIT4A | N_4SPLIT4B => Some true
  | N_BO | N_CF4_2 | N_CF4_3 | N_CF5_3 | N_CF6_4 | N_ES4 | N_TES4 => Some false
  | _ => None
  end.
Definition is_newton (l : bsloc) : bool := match l with BL_NEWTON => true | _ => false end.

(** :300-303: the number of samples for the initial guesses *)
Definition auto_Dsub (D : nat) : nat := ufloor (sqrt (INR D * log2 (INR D) * log2 (INR D))).
Definition sub_size (D Dsub : nat) : out nat :=
  let Dsub := if Nat.eqb Dsub 0 then auto_Dsub D else Dsub in
  if Nat.eqb Dsub 0 then UB else
  let nskip := round_div D Dsub in
  if Nat.eqb nskip 0 then UB else Ret (round_div D nskip).

(** :383-396, the continuous spectrum; [blocks] = contspec_len / M *)
Definition richardson_cs (M blocks : nat) (XI : R * R) (eps_sub scl_num scl_den : R) (cs_sub cs : list C) : out (list C) :=
  let dxi := ((snd XI - fst XI) / INR (M - 1))%R in
  for_ M 0 (fun i cs =>
    if Rlt_dec (Rabs (fst XI + dxi * INR i)) (9 / 10 * PI / (2 * eps_sub)) then
      for_ blocks 0 (fun b cs =>
        v <- aget cs (i + b * M) ;; w <- aget cs_sub (i + b * M) ;;
        z <- cdivr (RtoC scl_num * v - w) scl_den ;;
        aset cs (i + b * M) z) cs
    else Ret cs) cs.

(** :406-414, the closest bound state of the second run: result loc (K_sub if there is none).  For
   bound_states[i] = 0 the quotient is inf or NaN, which is not below the threshold. *)
Definition find_loc (K_sub : nat) (lam : C) (bs_sub : list C) (eps_t : R) : out nat :=
  r <- for_ K_sub 0 (fun j st =>
    l <- aget bs_sub j ;;
    if Req_EM_T (Cmod lam) 0 then Ret st else
    let err := (Cmod (lam - l)%C / Cmod lam)%R in
    if Rlt_dec err (snd st) then Ret (j, err) else Ret st) (K_sub, eps_t) ;;
  Ret (fst r).

(** :399-429; state: bound_states, normconsts_or_residues_reserve, normconsts_or_residues_sub *)
Definition richardson_bs (K K_sub : nat) (ds : dstype) (eps_t scl_num scl_den : R) (bs_sub : list C)
    (st : list C * option (list C) * option (list C)) : out (list C * option (list C) * option (list C)) :=
  for_ K 0 (fun i st =>
    let '(bs, rv, sub) := st in
    lam <- aget bs i ;;
    loc <- find_loc K_sub lam bs_sub eps_t ;;
    if (loc <? K_sub)%nat then
      l <- aget bs_sub loc ;;
      lam <- cdivr (RtoC scl_num * lam - l) scl_den ;;
      bs <- aset bs i lam ;;
      match ds with
      | DS_RESIDUES | DS_BOTH =>
          rv <- deref rv ;; sub <- deref sub ;;
          x <- aget rv i ;; y <- aget rv (K + i) ;; rv <- aset rv (K + i) (x / y) ;;
          x <- aget sub loc ;; y <- aget sub (K_sub + loc) ;; sub <- aset sub (K_sub + loc) (x / y) ;;
          x <- aget rv (K + i) ;; y <- aget sub (loc + K_sub) ;; z <- cdivr (RtoC scl_num * x - y) scl_den ;;
          rv <- aset rv (K + i) z ;;
          x <- aget rv i ;; y <- aget rv (K + i) ;; rv <- aset rv (K + i) (x / y) ;;
          Ret (bs, Some rv, Some sub)
      | _ => Ret (bs, rv, sub)
      end
    else Ret (bs, rv, sub)) st.

Definition cs_blocks (t : cstype) : nat :=
  match t with CS_BOTH => 3 | CS_REFLECTION_COEFFICIENT => 1 | CS_AB => 2 | CS_bad => 0 end.

(** :338-444, everything under the second richardson_extrapolation_flag == 1.  [ds_opt] = ds_type_opt;
   [own]: Some l if normconsts_or_residues_reserve is an array of its own with contents l, None if it is the
   pointer normconsts_or_residues; [live]: qsub_preprocessed is allocated.  Result: code, opts and outputs. *)
Definition nsev_richardson (D : nat) (q : list C) (T : R * R) (M : nat) (XI : option (R * R)) (kappa : Z) (eps_t : R)
    (ups : nat) (ds_opt : dstype) (live : bool) (own : option (list C)) (o : opts) (u : outs) : out (Z * (opts * outs)) :=
  let fail (c : Z) := Ret (c, (o, u)) in
  let want_cs := negb (no_ptr (u_cs u)) && (0 <? M)%nat in
  if want_cs && match contspec_type o with CS_bad => true | _ => false end then fail EC_INVALID_ARGUMENT else
  let cs_len := if want_cs then (cs_blocks (contspec_type o) * M)%nat else O in
  if want_cs && negb (e_alloc E 3 0) then fail EC_NOMEM else
  let cs_sub := if want_cs then Some (e_junk E 0 cs_len) else None in
  K <- (if Z.eqb kappa 1 && negb (no_ptr (u_bs u)) then deref (u_K u) else Ret O) ;;
  let want_bs := Z.eqb kappa 1 && negb (no_ptr (u_bs u)) && negb (Nat.eqb K 0) in
  if want_bs && match discspec_type o with DS_bad => true | _ => false end then fail EC_INVALID_ARGUMENT else
  let ds_len := match discspec_type o with DS_NORMING_CONSTANTS => K | _ => (2 * K)%nat end in
  if want_bs && (negb (e_alloc E 3 1) || negb (e_alloc E 3 2)) then fail EC_NOMEM else
  bs_sub <- (if want_bs then bs <- deref (u_bs u) ;;
               l <- copy K 0 bs (e_junk E 1 K) ;; Ret (Some l) else Ret None) ;;
  let nc_sub := if want_bs then Some (e_junk E 2 ds_len) else None in
  let order := nse_method_order (discretization o) in
  if Nat.eqb order 0 then fail EC_INVALID_ARGUMENT else
  p <- e_pre E 2 D q eps_t kappa (D / 2) (discretization o) ;;
  match p with
  | inl c =>
      (* :369-372 have freed qsub_preprocessed, which leave_fun frees again if the failing call has not
         stored a new pointer: akns_preprocess stores it only on success *)
      if live then UB else c <- E_SUBROUTINE c ;; fail c
  | inr p =>
      let Tsub := (fst T + INR (po_first p) * eps_t, fst T + INR (po_last p) * eps_t)%R in
      eps_sub <- step (snd Tsub - fst Tsub) (po_Dsub p) ;;
      let o' := set_bsloc o BL_NEWTON in
      x <- fnft_nsev_base 2 (po_Dsub p * ups) (po_q p) (po_r p) Tsub M XI kappa o'
             {| u_cs := cs_sub; u_K := Some K; u_bs := bs_sub; u_nc := nc_sub |} ;;
      let '(code, v) := x in
      if negb (Z.eqb code SUCCESS) then c <- E_SUBROUTINE code ;; Ret (c, (o', u)) else
      let o := set_dstype (set_bsloc o' (bound_state_localization o)) ds_opt in
      let scl_num := ((eps_sub / eps_t) ^ order)%R in
      let scl_den := (scl_num - 1)%R in
      XI <- deref XI ;;
      u <- match u_cs u with
           | Some cs =>
               if (0 <? M)%nat then
                 sub <- deref (u_cs v) ;;
                 cs <- richardson_cs M (cs_len / M) XI eps_sub scl_num scl_den sub cs ;; Ret (set_cs u (Some cs))
               else Ret u
           | None => Ret u
           end ;;
      if want_bs then
        K_sub <- deref (u_K v) ;;
        if Nat.eqb K_sub 0 then Ret (SUCCESS, (o, u)) else
        bs <- deref (u_bs u) ;; sub <- deref (u_bs v) ;;
        let rv := match own with Some l => Some l | None => u_nc u end in
        r <- richardson_bs K K_sub ds_opt eps_t scl_num scl_den sub (bs, rv, u_nc v) ;;
        let '(bs, rv, _) := r in
        let u := set_bs u (Some bs) in
        match ds_opt with
        | DS_RESIDUES => rv <- deref rv ;; nc <- deref (u_nc u) ;;
                         nc <- copy K 0 (skipn K rv) nc ;; Ret (SUCCESS, (o, set_nc u (Some nc)))
        | DS_BOTH => rv <- deref rv ;; nc <- deref (u_nc u) ;;
                     nc <- copy (2 * K) 0 rv nc ;; Ret (SUCCESS, (o, set_nc u (Some nc)))
        | _ => Ret (SUCCESS, (o, set_nc u (match own with Some _ => u_nc u | None => rv end)))
        end
      else Ret (SUCCESS, (o, u))
  end.

(** :169-337 for a non-NULL [o] (the options struct in use).  Result: code, contents of that struct, outputs. *)
Definition nsev_run (D : nat) (q : option (list C)) (T : option (R * R)) (M : nat) (XI : option (R * R)) (kappa : Z)
    (o : opts) (u : outs) : out (Z * (opts * outs)) :=
  if args_bad D q T XI kappa u then Ret (EC_INVALID_ARGUMENT, (o, u)) else
  match disc_class (discretization o) with
  | None => Ret (EC_INVALID_ARGUMENT, (o, u))
  | Some fast =>
  if negb fast && negb (is_newton (bound_state_localization o)) && Z.eqb kappa 1 && negb (no_ptr (u_bs u))
  then Ret (EC_INVALID_ARGUMENT, (o, u)) else
  let ups := nse_upsampling_factor (discretization o) in
  if Nat.eqb ups 0 then Ret (EC_INVALID_ARGUMENT, (o, u)) else
  q <- deref q ;; T <- deref T ;;
  eps_t <- step (snd T - fst T) D ;;
  let rich := Nat.eqb (richardson_extrapolation_flag o) 1 in
  let ds_opt := if rich then discspec_type o else DS_NORMING_CONSTANTS in
  let res := rich && match discspec_type o with DS_RESIDUES => true | _ => false end in
  let o := if res then set_dstype o DS_BOTH else o in
  K2 <- (if res then K <- deref (u_K u) ;; Ret (2 * K)%nat else Ret O) ;;
  if res && negb (e_alloc E 0 9) then Ret (EC_NOMEM, (o, u)) else
  let own := if res then Some (e_junk E 9 K2) else None in
  p <- e_pre E 0 D q eps_t kappa D (discretization o) ;;
  match p with
  | inl c => c <- E_SUBROUTINE c ;; Ret (c, (o, u))
  | inr p =>
    if Z.eqb kappa 1 && negb (no_ptr (u_bs u)) && match bound_state_localization o with BL_SUBSAMPLE_AND_REFINE => true | _ => false end
    then
      Dsub <- sub_size D (o_Dsub o) ;;
      ps <- e_pre E 1 D q eps_t kappa Dsub (discretization o) ;;
      match ps with
      | inl c => c <- E_SUBROUTINE c ;; Ret (c, (o, u))
      | inr ps =>
        let Tsub := (fst T + INR (po_first ps) * eps_t, fst T + INR (po_last ps) * eps_t)%R in
        let o := set_bsloc o BL_FAST_EIGENVALUE in
        x <- fnft_nsev_base 0 (po_Dsub ps * ups) (po_q ps) (po_r ps) Tsub 0 XI kappa o
               {| u_cs := None; u_K := u_K u; u_bs := u_bs u; u_nc := None |} ;;
        let '(code, v) := x in
        let u := set_K (set_bs u (u_bs v)) (u_K v) in
        check code (o, u) (
        let o := set_bsloc o BL_NEWTON in
        let nc_arg := match own with Some l => Some l | None => u_nc u end in
        x <- fnft_nsev_base 1 (D * ups) (po_q p) (po_r p) T M XI kappa o (set_nc u nc_arg) ;;
        let '(code, v) := x in
        let own' := match own with Some _ => u_nc v | None => None end in
        let u := match own with Some _ => set_nc v (u_nc u) | None => v end in
        check code (o, u) (
        let o := set_bsloc o BL_SUBSAMPLE_AND_REFINE in
        if rich then nsev_richardson D q T M XI kappa eps_t ups ds_opt true own' o u
        else Ret (SUCCESS, (o, u))))
      end
    else
      x <- fnft_nsev_base 1 (D * ups) (po_q p) (po_r p) T M XI kappa o u ;;
      let '(code, u) := x in
      check code (o, u) (
      if rich then nsev_richardson D q T M XI kappa eps_t ups ds_opt false own o u
      else Ret (SUCCESS, (o, u)))
  end
  end.

(** The call itself: [user] is what opts points to (None = NULL), [dflt] is the static variable default_opts.
   Result: return code, outputs, the user's struct and default_opts after the call. *)
Definition fnft_nsev (D : nat) (q : option (list C)) (T : option (R * R)) (M : nat) (XI : option (R * R)) (kappa : Z)
    (user : option opts) (dflt : opts) (u : outs) : out (Z * outs * option opts * opts) :=
  x <- nsev_run D q T M XI kappa (match user with Some o => o | None => dflt end) u ;;
  let '(code, (o, u)) := x in
  Ret (code, u, match user with Some _ => Some o | None => None end, match user with Some _ => dflt | None => o end).

End Nsev.
