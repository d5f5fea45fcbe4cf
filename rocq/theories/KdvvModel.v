(** * Model of src/fnft_kdvv.c: the driver of the NFT for the KdV with vanishing boundaries

   Same conventions as NsevModel: exact complex arithmetic, arrays are lists with checked access, NULL is [None],
   [UB] is undefined behaviour or a division of a REAL by zero, and the numerical subroutines are a parameter, of
   type [kenv], whose results may depend in any way on the arguments and the call site.  Models of the subroutines are
   in DiscModel, FscatterModel, ScatterModel, BoundModel and ChirpzModel.  The text of the Richardson extrapolation and
   of several loops agrees with fnft_nsev.c; their models are shared.  Not modelled: printing of warnings, release of
   memory, wrap-around of UINT and INT, rounding. *)
From Coq Require Import Reals.
From Coquelicot Require Import Coquelicot.
From Verif Require Export Fields NsevModel.
Local Open Scope C_scope.

(** ** Options, include/fnft_kdvv.h:41-176.  A C enum can hold other values than the named ones: _bad. *)
Inductive kbsloc := KB_NEWTON | KB_GRIDSEARCH_AND_REFINE | KB_bad.
Record kopts := {
  k_loc : kbsloc;              (* bound_state_localization *)
  k_niter : nat;
  k_ds : dstype;               (* discspec_type *)
  k_cs : cstype;               (* contspec_type *)
  k_norm : bool;               (* normalization_flag *)
  k_disc : kdv_disc;           (* discretization *)
  k_rich : nat;                (* richardson_extrapolation_flag *)
  k_grid : xreal }.            (* grid_spacing *)
Definition kset_loc (o : kopts) (x : kbsloc) : kopts :=
  {| k_loc := x; k_niter := k_niter o; k_ds := k_ds o; k_cs := k_cs o; k_norm := k_norm o; k_disc := k_disc o; k_rich := k_rich o; k_grid := k_grid o |}.
Definition kset_ds (o : kopts) (x : dstype) : kopts :=
  {| k_loc := k_loc o; k_niter := k_niter o; k_ds := x; k_cs := k_cs o; k_norm := k_norm o; k_disc := k_disc o; k_rich := k_rich o; k_grid := k_grid o |}.

(** fnft_kdvv.c:28-37 *)
Definition kdvv_default_opts : kopts :=
  {| k_loc := KB_GRIDSEARCH_AND_REFINE; k_niter := 10; k_ds := DS_NORMING_CONSTANTS; k_cs := CS_REFLECTION_COEFFICIENT;
     k_norm := true; k_disc := K_2SPLIT4B; k_rich := 0; k_grid := Fin 0 |}.

(** ** Subroutines.  The first argument is the call site. *)
Record kenv := {
  ke_alloc : nat -> nat -> bool;
  ke_junk : nat -> nat -> list C;
  (** kdv_discretization_preprocess_signal(D, q, eps_t, 1, &Dsub, ..) *)
  ke_pre : nat -> nat -> list C -> R -> nat -> kdv_disc -> out (Z + pre_out);
  (** kdv_fscatter(D, q, r, eps_t, 1, result, &deg, W_ptr, discretization): code, deg, result, W *)
  ke_fscatter : nat -> nat -> list C -> list C -> R -> list C -> bool -> kdv_disc -> out (Z * nat * list C * Z);
  (** kdv_scatter_matrix(D, q, r, eps_t, 1, K, lambda, result, W_ptr, discretization, 0): code, result, Ws *)
  ke_smat : nat -> nat -> list C -> list C -> R -> nat -> list C -> bool -> kdv_disc -> out (Z * list C * list Z);
  (** poly_chirpz(deg, p, A, W, M, result): code, result *)
  ke_chirpz : nat -> nat -> list C -> C -> C -> nat -> out (Z * list C);
  (** kdv_scatter_bound_states(D, q, r, T, K, bound_states, a, aprime, b, Ws, discretization, skip_b):
      code, a, aprime, b, Ws *)
  ke_sbs : nat -> nat -> list C -> list C -> R * R -> nat -> list C -> bool -> kdv_disc -> bool
           -> out (Z * list C * list C * list C * list Z);
  (** nexttoward(0, x) and nexttoward(x, 0) for x > 0 *)
  ke_tiny : R;
  ke_below : R -> R }.

Section Kdvv.
Variable E : kenv.

(** ** fnft_kdvv.c:700-893 kdvv_compute_contspec *)

(** :811-836, the change of basis at the frequencies i, i+1, ..; state: the array of length 4M *)
Fixpoint basis_loop (cnt i M : nat) (xi : list C) (eps_t : R) (d : kdv_disc) (H : list C) : out (Z * list C) :=
  match cnt with
  | O => Ret (SUCCESS, H)
  | S k =>
      h0 <- aget H i ;; h1 <- aget H (M + i) ;; h2 <- aget H (2 * M + i) ;; h3 <- aget H (3 * M + i) ;;
      x <- aget xi i ;;
      t <- kdv_from_S (ke_junk E 10 4) x false eps_t d ;; let '(code, Tmx) := t in
      check code H (
      Mmx <- misc_matrix_mult (K:=CF) 2 2 2 [h0; h1; h2; h3] Tmx (ke_junk E 11 4) ;;
      t <- kdv_to_S Tmx x false eps_t d ;; let '(code, Tmx) := t in
      check code H (
      Hmx <- misc_matrix_mult (K:=CF) 2 2 2 Tmx Mmx [h0; h1; h2; h3] ;;
      y0 <- aget Hmx 0 ;; y1 <- aget Hmx 1 ;; y2 <- aget Hmx 2 ;; y3 <- aget Hmx 3 ;;
      H <- aset H i y0 ;; H <- aset H (M + i) y1 ;; H <- aset H (2 * M + i) y2 ;; H <- aset H (3 * M + i) y3 ;;
      basis_loop k (S i) M xi eps_t d H))
  end.

(** :752-837, the values of the change of state matrix in the basis S: the entries 11 and 21 on the grid *)
Definition kcontspec_values (s deg : nat) (W : Z) (tm : option (list C)) (q r : list C) (eps_t eps_xi : R)
    (D M : nat) (XI0 : R) (xi : list C) (o : kopts) : out (Z * (list C * list C)) :=
  if Nat.eqb deg 0 && match tm with None => true | _ => false end && Z.eqb W 0 then
    if negb (ke_alloc E s 2) then Ret (EC_NOMEM, ([], [])) else
    if k_norm o && negb (ke_alloc E s 3) then Ret (EC_NOMEM, ([], [])) else
    x <- ke_smat E s D q r eps_t M xi (k_norm o) (k_disc o) ;;
    let '(code, sc, Ws) := x in
    check code ([], []) (
    H <- for_ M 0 (fun i H =>
      h <- aget sc (i * 4) ;; g <- aget sc (i * 4 + 2) ;;
      if k_norm o then
        w <- aget Ws i ;; let scl := RtoC (powerRZ 2 w) in Ret (fst H ++ [scl * h], snd H ++ [scl * g])
      else Ret (fst H ++ [h], snd H ++ [g])) ([], []) ;;
    Ret (SUCCESS, H))
  else
    v <- kdv_lambda_to_z 1 eps_t [RtoC eps_xi] (k_disc o) ;; let '(code, v) := v in
    check code ([], []) (
    a <- kdv_lambda_to_z 1 eps_t [RtoC (- XI0)] (k_disc o) ;; let '(code, a) := a in
    check code ([], []) (
    V <- aget v 0 ;; A <- aget a 0 ;;
    p <- deref tm ;;
    h <- ke_chirpz E s deg (firstn (deg + 1) p) A V M ;; let '(code, H11) := h in
    check code ([], []) (
    h <- ke_chirpz E s deg (firstn (deg + 1) (skipn (1 * (deg + 1)) p)) A V M ;; let '(code, H12) := h in
    check code ([], []) (
    h <- ke_chirpz E s deg (firstn (deg + 1) (skipn (2 * (deg + 1)) p)) A V M ;; let '(code, H21) := h in
    check code ([], []) (
    h <- ke_chirpz E s deg (firstn (deg + 1) (skipn (3 * (deg + 1)) p)) A V M ;; let '(code, H22) := h in
    check code ([], []) (
    b <- basis_loop M 0 M xi eps_t (k_disc o) (H11 ++ H12 ++ H21 ++ H22) ;; let '(code, H) := b in
    if negb (Z.eqb code SUCCESS) then Ret (code, ([], [])) else
    Ret (SUCCESS, (firstn M H, firstn M (skipn (2 * M) H))))))))).

Definition kdvv_compute_contspec (s deg : nat) (W : Z) (tm : option (list C)) (q r : list C) (T : R * R) (D : nat)
    (XI : option (R * R)) (M : nat) (result : list C) (o : kopts) : out (Z * list C) :=
  let ups := kdv_upsampling_factor (k_disc o) in
  if Nat.eqb ups 0 then Ret (EC_INVALID_ARGUMENT, result) else
  let D_given := (D / ups)%nat in
  eps_t <- step (snd T - fst T) D_given ;;
  XI <- deref XI ;;
  eps_xi <- step (snd XI - fst XI) M ;;
  if negb (ke_alloc E s 0) then Ret (EC_NOMEM, result) else
  let xi := map (fun i => RtoC (fst XI + eps_xi * INR i)) (seq 0 M) in
  if negb (ke_alloc E s 1) then Ret (EC_NOMEM, result) else
  v <- kcontspec_values s deg W tm q r eps_t eps_xi D M (fst XI) xi o ;;
  let '(code, (H11, H21)) := v in
  if negb (Z.eqb code SUCCESS) then Ret (code, result) else
  let rho (result : list C) :=
    p <- phase (kdv_phase_factor_rho eps_t (snd T) (k_disc o)) ;;
    check (fst p) result (rho_loop M 0 H11 H21 xi (snd p) result) in
  let ab (offset : nat) (result : list C) :=
    pa <- phase (kdv_phase_factor_a eps_t D_given (fst T) (snd T) (k_disc o)) ;;
    check (fst pa) result (
    pb <- phase (kdv_phase_factor_b eps_t D_given (fst T) (snd T) (k_disc o)) ;;
    check (fst pb) result (
    result <- ab_loop M offset H11 H21 xi (powerRZ 2 W) (snd pa) (snd pb) result ;;
    Ret (SUCCESS, result))) in
  match k_cs o with
  | CS_REFLECTION_COEFFICIENT => rho result
  | CS_AB => ab O result
  | CS_BOTH => x <- rho result ;; let '(code, result) := x in
               if negb (Z.eqb code SUCCESS) then Ret (code, result) else ab M result
  | CS_bad => Ret (EC_INVALID_ARGUMENT, result)
  end.

(** ** fnft_kdvv.c:897-974 kdvv_compute_normconsts_or_residues; K > 0, D > 0, q != NULL at the only call (:483) *)
Definition kdvv_compute_normconsts (s D : nat) (q r : list C) (T : R * R) (K : nat) (bs nc : list C) (o : kopts)
  : out (Z * list C) :=
  if negb (ke_alloc E s 5) then Ret (EC_NOMEM, nc) else
  if k_norm o && negb (ke_alloc E s 6) then Ret (EC_NOMEM, nc) else
  if Nat.eqb (kdv_upsampling_factor (k_disc o)) 0 then Ret (EC_INVALID_ARGUMENT, nc) else
  match kdv_slow_discretization (k_disc o) with
  | None => c <- E_SUBROUTINE EC_INVALID_ARGUMENT ;; Ret (c, nc)
  | Some slow =>
  x <- ke_sbs E s D q r T K (firstn K bs) (k_norm o) slow false ;;
  let '(code, a, ap, b, Ws) := x in
  nc <- copy K 0 b nc ;;
  check code nc (
  match k_ds o with
  | DS_NORMING_CONSTANTS => Ret (SUCCESS, nc)
  | DS_RESIDUES => residue_loop K 0 0 ap (if k_norm o then Some Ws else None) nc
  | DS_BOTH => nc <- copy K K nc nc ;;
               residue_loop K 0 K ap (if k_norm o then Some Ws else None) nc
  | DS_bad => Ret (EC_INVALID_ARGUMENT, nc)
  end)
  end.

(** ** fnft_kdvv.c:977-1047 kdvv_refine_bound_states_newton *)

(** CREAL(a) / (I*CIMAG(b)): 0 divides for a purely real b *)
Definition newton_step (a b : C) : out C :=
  if Req_EM_T (snd b) 0 then UB else Ret (RtoC (fst a) / (Ci * RtoC (snd b))).
(** :1015-1042, the do-while loop for one bound state.  Result: code, bound state, number of evaluations.
   [fuel] bounds the number of passes; niter is enough (theorem). *)
Fixpoint knewton_loop (fuel iter s D : nat) (q r : list C) (T : R * R) (d : kdv_disc) (niter : nat)
    (bb : xbox) (norm : bool) (lam : C) : out (Z * C * nat) :=
  match fuel with
  | O => UB
  | S fuel =>
      x <- ke_sbs E s D q r T 1 [lam] norm d true ;;
      let '(code, a, ap, _, _) := x in
      if negb (Z.eqb code SUCCESS) then
        c <- E_SUBROUTINE code ;; c <- E_SUBROUTINE c ;; Ret (c, lam, 1%nat) else
      a_val <- aget a 0 ;; ap_val <- aget ap 0 ;;
      if ceq a_val 0 then Ret (SUCCESS, lam, 1%nat) else
      if ceq ap_val 0 then Ret (EC_DIV_BY_ZERO, lam, 1%nat) else
      error <- newton_step a_val ap_val ;;
      let lam := lam - error in
      let iter := S iter in
      if left_box bb lam then Ret (SUCCESS, lam, 1%nat) else
      if negb (small error (EPS * 100)) && (iter <? niter)%nat then
        y <- knewton_loop fuel iter s D q r T d niter bb norm lam ;;
        let '(code, lam, calls) := y in Ret (code, lam, S calls)
      else Ret (SUCCESS, lam, 1%nat)
  end.
(** :1013-1043 *)
Fixpoint knewton_all (cnt i s D : nat) (q r : list C) (T : R * R) (d : kdv_disc) (niter : nat)
    (bb : xbox) (norm : bool) (bs : list C) : out (Z * list C) :=
  match cnt with
  | O => Ret (SUCCESS, bs)
  | S k =>
      lam <- aget bs i ;;
      x <- knewton_loop niter 0 s D q r T d niter bb norm lam ;;
      let '(code, lam, _) := x in
      bs <- aset bs i lam ;;
      if negb (Z.eqb code SUCCESS) then Ret (code, bs) else
      knewton_all k (S i) s D q r T d niter bb norm bs
  end.
Definition kdvv_refine_newton (s D : nat) (q r : list C) (T : R * R) (K : nat) (bs : list C) (d : kdv_disc)
    (niter : nat) (bb : xbox) (norm : bool) : out (Z * list C) :=
  if Nat.eqb K 0 then Ret (SUCCESS, bs) else
  if Nat.eqb niter 0 then Ret (SUCCESS, bs) else
  if negb (xle (x0 bb) (x1 bb)) || negb (xle (x2 bb) (x3 bb)) then Ret (EC_INVALID_ARGUMENT, bs) else
  knewton_all K 0 s D q r T d niter bb norm bs.

(** ** fnft_kdvv.c:498-697 kdvv_compute_boundstates *)

(** :528-568 the largest real part of the samples q[0], q[stride], .., at least 0 *)
Definition max_re (cnt stride : nat) (q : list C) : out R :=
  for_ cnt 0 (fun i b => x <- aget q (stride * i) ;; Ret (if Rlt_dec (fst x) b then b else fst x)) 0%R.
Definition bound_squared (D : nat) (q : list C) (d : kdv_disc) : out R :=
  if (kdv_upsampling_factor d <=? 2)%nat then max_re D 1 q else
  b <- match d with
       | K_ES4_VANILLA | K_TES4_VANILLA | K_ES4 | K_TES4 => max_re ((D + 2) / 3) 3 q
       | _ => max_re D 1 q
       end ;; Ret (b * 2)%R.

(** (UINT) CEIL(x) for x >= 0 *)
Definition uceil (x : R) : nat := Z.to_nat (- Int_part (- x)).
(** :603-606 the search grid on the imaginary axis *)
Definition search_grid (M : nat) (dist : R) : list C :=
  map (fun i => (0%R, if Nat.eqb i 0 then ke_tiny E else if Nat.eqb i (M - 1) then ke_below E dist else (dist / INR (M - 1) * INR i)%R) : C) (seq 0 M).

(** :626-670, the loop over the grid: i = lo, ..; Kmax is *K_ptr, K the number of initial guesses so far *)
Fixpoint crossings (cnt i : nat) (xi sc : list C) (Ws : option (list Z)) (Kmax K : nat) (bs : list C)
  : out (Z * (nat * list C)) :=
  match cnt with
  | O => Ret (SUCCESS, (K, bs))
  | S k =>
      let full := c <- E_SUBROUTINE EC_OTHER ;; Ret (c, (K, bs)) in
      a <- aget sc (4 * i) ;;
      if ceq a 0 then
        if (Kmax <=? K)%nat then full else
        x <- aget xi i ;; bs <- aset bs K x ;; crossings k (S i) xi sc Ws Kmax (S K) bs
      else if Nat.eqb i 0 then crossings k (S i) xi sc Ws Kmax K bs else
      a' <- aget sc (4 * (i - 1)) ;;
      if Rlt_dec (fst a * fst a') 0 then
        if (Kmax <=? K)%nat then full else
        scl <- match Ws with
               | None => Ret (1, 1)%R
               | Some Ws => l <- aget Ws i ;; l' <- aget Ws (i - 1) ;;
                            let s := Z.quot (l - l') 2 in Ret (powerRZ 2 s, powerRZ 2 (- s))
               end ;;
        x <- aget xi i ;; x' <- aget xi (i - 1) ;;
        z <- cdivr (x' * RtoC (fst scl) * RtoC (fst a) - x * RtoC (snd scl) * RtoC (fst a'))
                   (fst (RtoC (fst scl) * a - RtoC (snd scl) * a')%C) ;;
        bs <- aset bs K z ;; crossings k (S i) xi sc Ws Kmax (S K) bs
      else crossings k (S i) xi sc Ws Kmax K bs
  end.

(** :577-671: initial guesses.  Result: code, and (Some K) or None if the search is skipped and *K_ptr set to 0; bound_states *)
Definition kdvv_gridsearch (s D : nat) (q r : list C) (dist eps_t : R) (Kmax : nat) (bs : list C) (slow : kdv_disc) (o : kopts)
  : out (Z * (option nat * list C)) :=
  if Rle_dec dist 0 then Ret (EC_ASSERTION_FAILED, (Some Kmax, bs)) else
  match k_grid o with
  | Inf true => Ret (SUCCESS, (None, bs))
  | Fin g =>
    if Rlt_dec 0 g then
      let M := uceil (dist / g) in
      if (M <? 2)%nat then Ret (SUCCESS, (None, bs)) else
      if negb (ke_alloc E s 10) then Ret (EC_NOMEM, (Some Kmax, bs)) else
      let xi := search_grid M dist in
      if negb (ke_alloc E s 11) then Ret (EC_NOMEM, (Some Kmax, bs)) else
      if k_norm o && negb (ke_alloc E s 12) then Ret (EC_NOMEM, (Some Kmax, bs)) else
      x <- ke_smat E s D q r eps_t M xi (k_norm o) slow ;;
      let '(code, sc, Ws) := x in
      check code (Some Kmax, bs) (
      c <- crossings M 0 xi sc (if k_norm o then Some Ws else None) Kmax 0 bs ;;
      let '(code, (K, bs)) := c in Ret (code, (Some K, bs)))
    else Ret (EC_INVALID_ARGUMENT, (Some Kmax, bs))
  | _ => Ret (EC_INVALID_ARGUMENT, (Some Kmax, bs))
  end.

(** result: code, *K_ptr, bound_states *)
Definition kdvv_compute_boundstates (s D : nat) (q r : list C) (T : R * R) (eps_t : R) (K_in : nat) (bs : list C) (o : kopts)
  : out (Z * (nat * list C)) :=
  if Nat.eqb (kdv_upsampling_factor (k_disc o)) 0 then Ret (EC_INVALID_ARGUMENT, (K_in, bs)) else
  match kdv_slow_discretization (k_disc o) with
  | None => c <- E_SUBROUTINE EC_INVALID_ARGUMENT ;; Ret (c, (K_in, bs))
  | Some slow =>
  b <- bound_squared D q (k_disc o) ;;
  if Req_EM_T b 0 then Ret (SUCCESS, (O, bs)) else
  let bb := {| x0 := Fin 0; x1 := Fin 0; x2 := Fin 0; x3 := Fin (sqrt b) |} in
  let refine (K : nat) (bs : list C) :=
    x <- kdvv_refine_newton s D q r T K bs slow (k_niter o) bb (k_norm o) ;;
    let '(code, bs) := x in check code (K_in, bs) (Ret (SUCCESS, (K, bs))) in
  match k_loc o with
  | KB_GRIDSEARCH_AND_REFINE =>
      g <- kdvv_gridsearch s D q r (sqrt b) eps_t K_in bs slow o ;;
      let '(code, (K, bs)) := g in
      if negb (Z.eqb code SUCCESS) then Ret (code, (K_in, bs)) else
      match K with None => Ret (SUCCESS, (O, bs)) | Some K => refine K bs end
  | KB_NEWTON => refine K_in bs
  | KB_bad => Ret (EC_INVALID_ARGUMENT, (K_in, bs))
  end
  end.

(** ** fnft_kdvv.c:388-495 fnft_kdvv_base.  q and r are not NULL at the calls, opts is not NULL, kappa = 1.
   kdv_fscatter_numel: fnft__kdv_fscatter.c:34-42 *)
Definition kdv_fscatter_numel (D : nat) (d : kdv_disc) : out nat :=
  if Nat.eqb (kdv_degree d) 0 then Ret O else fmult_numel 4 (kdv_degree d) D.

Definition fnft_kdvv_base (s D : nat) (q r : list C) (T : R * R) (M : nat) (XI : option (R * R))
    (o : kopts) (u : outs) : out (Z * outs) :=
  if args_bad D (Some q) (Some T) XI 1 u then Ret (EC_INVALID_ARGUMENT, u) else
  let ups := kdv_upsampling_factor (k_disc o) in
  if Nat.eqb ups 0 then Ret (EC_INVALID_ARGUMENT, u) else
  eps_t <- step (snd T - fst T) (D / ups) ;;
  i <- kdv_fscatter_numel D (k_disc o) ;;
  if negb (Nat.eqb i 0) && negb (ke_alloc E s 8) then Ret (EC_NOMEM, u) else
  t <- (if negb (Nat.eqb i 0)
        then x <- ke_fscatter E s D q r eps_t (ke_junk E 8 i) (k_norm o) (k_disc o) ;;
             let '(code, deg, tm, W) := x in
             Ret (code, deg, Some tm, if k_norm o then W else 0%Z)
        else Ret (SUCCESS, O, None, 0%Z)) ;;
  let '(code, deg, tm, W) := t in
  check code u (
  c <- match u_cs u with
       | Some cs => if (0 <? M)%nat
                    then x <- kdvv_compute_contspec s deg W tm q r T D XI M cs o ;; Ret (fst x, set_cs u (Some (snd x)))
                    else Ret (SUCCESS, u)
       | None => Ret (SUCCESS, u)
       end ;;
  let '(code, u) := c in
  check code u (
  let none := Ret (SUCCESS, match u_K u with Some _ => set_K u (Some O) | None => u end) in
  match u_bs u with
  | Some bs =>
      K <- deref (u_K u) ;;
      if negb (Nat.eqb K 0) then
        x <- kdvv_compute_boundstates s D q r T eps_t K bs o ;;
        let '(code, (K, bs)) := x in
        let u := set_K (set_bs u (Some bs)) (Some K) in
        check code u (
        match u_nc u with
        | Some nc =>
            if negb (Nat.eqb K 0) then
              y <- kdvv_compute_normconsts s D q r T K bs nc o ;;
              let u := set_nc u (Some (snd y)) in
              check (fst y) u (Ret (SUCCESS, u))
            else Ret (SUCCESS, u)
        | None => Ret (SUCCESS, u)
        end)
      else none
  | None => none
  end)).

(** ** fnft_kdvv.c:121-383 fnft_kdvv *)

(** :156-159 some sample is not real (q is read up to D) *)
Definition some_imaginary (D : nat) (q : list C) : out bool :=
  for_ D 0 (fun i b => x <- aget q i ;; Ret (b || if Req_EM_T (snd x) 0 then false else true)) false.
(** :166-169; for M = 1 the quotient is 0/0 = NaN, which is not equal to 0 *)
Definition some_zero (M : nat) (XI : option (R * R)) : out bool :=
  if Nat.eqb M 0 then Ret false else
  XI <- deref XI ;;
  if Nat.eqb M 1 then Ret false else
  Ret (existsb (fun i => if Req_EM_T (fst XI + INR i * (snd XI - fst XI) / INR (M - 1)) 0 then true else false) (seq 0 M)).
(** :178-182 an initial guess is not on the positive imaginary axis *)
Definition some_bad_guess (K : nat) (bs : list C) : out bool :=
  for_ K 0 (fun i b => x <- aget bs i ;;
    Ret (b || (if Req_EM_T (fst x) 0 then false else true) || (if Rle_dec (snd x) 0 then true else false))) false.

(** :151-185; code 0: go on *)
Definition kdvv_check (D : nat) (q : option (list C)) (T : option (R * R)) (M : nat) (XI : option (R * R)) (o : kopts) (u : outs) : out Z :=
  if (D <? 2)%nat then Ret EC_INVALID_ARGUMENT else
  match q with None => Ret EC_INVALID_ARGUMENT | Some q =>
  im <- some_imaginary D q ;;
  if (im : bool) then Ret EC_INVALID_ARGUMENT else
  if bad_interval T then Ret EC_INVALID_ARGUMENT else
  if negb (no_ptr (u_cs u)) && bad_interval XI then Ret EC_INVALID_ARGUMENT else
  z <- some_zero M XI ;;
  if (z : bool) then Ret EC_INVALID_ARGUMENT else
  match u_bs u with
  | None => Ret SUCCESS
  | Some bs =>
      match u_K u with
      | None => Ret EC_INVALID_ARGUMENT
      | Some K =>
          match k_loc o with
          | KB_NEWTON => g <- some_bad_guess K bs ;; Ret (if (g : bool) then EC_INVALID_ARGUMENT else SUCCESS)
          | _ => Ret SUCCESS
          end
      end
  end end.

(** :244-370, everything under the second richardson_extrapolation_flag == 1; as in NsevModel *)
Definition kdvv_richardson (D : nat) (q : list C) (T : R * R) (M : nat) (XI : option (R * R)) (eps_t : R)
    (ups : nat) (ds_opt : dstype) (own : option (list C)) (o : kopts) (u : outs) : out (Z * (kopts * outs)) :=
  let fail (c : Z) := Ret (c, (o, u)) in
  let want_cs := negb (no_ptr (u_cs u)) && (0 <? M)%nat in
  if want_cs && match k_cs o with CS_bad => true | _ => false end then fail EC_INVALID_ARGUMENT else
  let cs_len := if want_cs then (cs_blocks (k_cs o) * M)%nat else O in
  if want_cs && negb (ke_alloc E 3 0) then fail EC_NOMEM else
  let cs_sub := if want_cs then Some (ke_junk E 0 cs_len) else None in
  K <- (if negb (no_ptr (u_bs u)) then deref (u_K u) else Ret O) ;;
  let want_bs := negb (no_ptr (u_bs u)) && negb (Nat.eqb K 0) in
  if want_bs && match k_ds o with DS_bad => true | _ => false end then fail EC_INVALID_ARGUMENT else
  let ds_len := match k_ds o with DS_NORMING_CONSTANTS => K | _ => (2 * K)%nat end in
  if want_bs && (negb (ke_alloc E 3 1) || negb (ke_alloc E 3 2)) then fail EC_NOMEM else
  bs_sub <- (if want_bs then bs <- deref (u_bs u) ;;
               l <- copy K 0 bs (ke_junk E 1 K) ;; Ret (Some l) else Ret None) ;;
  let nc_sub := if want_bs then Some (ke_junk E 2 ds_len) else None in
  let order := kdv_method_order (k_disc o) in
  if Nat.eqb order 0 then fail EC_INVALID_ARGUMENT else
  p <- ke_pre E 2 D q eps_t (D / 2) (k_disc o) ;;
  match p with
  | inl c => c <- E_SUBROUTINE c ;; fail c
  | inr p =>
      let Tsub := (fst T + INR (po_first p) * eps_t, fst T + INR (po_last p) * eps_t)%R in
      eps_sub <- step (snd Tsub - fst Tsub) (po_Dsub p) ;;
      let o' := kset_loc o KB_NEWTON in
      x <- fnft_kdvv_base 2 (po_Dsub p * ups) (po_q p) (po_r p) Tsub M XI o'
             {| u_cs := cs_sub; u_K := Some K; u_bs := bs_sub; u_nc := nc_sub |} ;;
      let '(code, v) := x in
      if negb (Z.eqb code SUCCESS) then c <- E_SUBROUTINE code ;; Ret (c, (o', u)) else
      let o := kset_ds (kset_loc o' (k_loc o)) ds_opt in
      let scl_num := ((eps_sub / eps_t) ^ order)%R in
      let scl_den := (scl_num - 1)%R in
      XI <- deref XI ;;
      u <- match u_cs u with
           | Some cs =>
               if (0 <? M)%nat then
                 sub <- deref (u_cs v) ;;
                 cs <- richardson_cs M (cs_len / M) XI eps_sub scl_num scl_den sub cs ;; Ret (set_cs u (Some cs))
               else Ret u
           | None => Ret u
           end ;;
      if want_bs then
        K_sub <- deref (u_K v) ;;
        if Nat.eqb K_sub 0 then Ret (SUCCESS, (o, u)) else
        bs <- deref (u_bs u) ;; sub <- deref (u_bs v) ;;
        let rv := match own with Some l => Some l | None => u_nc u end in
        r <- richardson_bs K K_sub ds_opt eps_t scl_num scl_den sub (bs, rv, u_nc v) ;;
        let '(bs, rv, _) := r in
        let u := set_bs u (Some bs) in
        match ds_opt with
        | DS_RESIDUES => rv <- deref rv ;; nc <- deref (u_nc u) ;;
                         nc <- copy K 0 (skipn K rv) nc ;; Ret (SUCCESS, (o, set_nc u (Some nc)))
        | DS_BOTH => rv <- deref rv ;; nc <- deref (u_nc u) ;;
                     nc <- copy (2 * K) 0 rv nc ;; Ret (SUCCESS, (o, set_nc u (Some nc)))
        | _ => Ret (SUCCESS, (o, set_nc u (match own with Some _ => u_nc u | None => rv end)))
        end
      else Ret (SUCCESS, (o, u))
  end.

(** :151-243 for a non-NULL [o].  Result: code, contents of the options struct, outputs.
   Unlike in fnft_nsev, :240 passes normconsts_or_residues and not normconsts_or_residues_reserve. *)
Definition kdvv_run (D : nat) (q : option (list C)) (T : option (R * R)) (M : nat) (XI : option (R * R))
    (o : kopts) (u : outs) : out (Z * (kopts * outs)) :=
  code <- kdvv_check D q T M XI o u ;;
  if negb (Z.eqb code SUCCESS) then Ret (code, (o, u)) else
  let ups := kdv_upsampling_factor (k_disc o) in
  if Nat.eqb ups 0 then Ret (EC_INVALID_ARGUMENT, (o, u)) else
  q <- deref q ;; T <- deref T ;;
  eps_t <- step (snd T - fst T) D ;;
  let rich := Nat.eqb (k_rich o) 1 in
  let ds_opt := if rich then k_ds o else DS_NORMING_CONSTANTS in
  let res := rich && match k_ds o with DS_RESIDUES => true | _ => false end in
  let o := if res then kset_ds o DS_BOTH else o in
  K2 <- (if res then K <- deref (u_K u) ;; Ret (2 * K)%nat else Ret O) ;;
  if res && negb (ke_alloc E 0 9) then Ret (EC_NOMEM, (o, u)) else
  let own := if res then Some (ke_junk E 9 K2) else None in
  p <- ke_pre E 0 D q eps_t D (k_disc o) ;;
  match p with
  | inl c => c <- E_SUBROUTINE c ;; Ret (c, (o, u))
  | inr p =>
      x <- fnft_kdvv_base 1 (D * ups) (po_q p) (po_r p) T M XI o u ;;
      let '(code, u) := x in
      check code (o, u) (
      if rich then kdvv_richardson D q T M XI eps_t ups ds_opt own o u
      else Ret (SUCCESS, (o, u)))
  end.

(** [user] is what opts points to (None = NULL), [dflt] is the static variable default_opts.
   Result: return code, outputs, the user's struct and default_opts after the call. *)
Definition fnft_kdvv (D : nat) (q : option (list C)) (T : option (R * R)) (M : nat) (XI : option (R * R))
    (user : option kopts) (dflt : kopts) (u : outs) : out (Z * outs * option kopts * kopts) :=
  x <- kdvv_run D q T M XI (match user with Some o => o | None => dflt end) u ;;
  let '(code, (o, u)) := x in
  Ret (code, u, match user with Some _ => Some o | None => None end, match user with Some _ => dflt | None => o end).

End Kdvv.
