(** * Model of akns_scatter_bound_states (fnft__akns_scatter.c:422-867) and its wrappers
   (fnft__nse_scatter.c:88-116, fnft__kdv_scatter.c:98-136)
   Simplifications: those of ScatterModel.v; [junk], [junkW1], [junkW2] are the arbitrary contents of the freshly allocated
   arrays PSIPHI, WPHI, WPSI; the temporary vectors phi_temp, psi_temp of the BO/CF branch hold a copy of the entry of PHI
   (PSI) written last and are replaced by it; the first substep of TES4 writes its intermediate result to the place of the
   final result (here to a temporary vector); D_given = 1, where the step size becomes infinite, is excluded in the theorems. *)
From Coq Require Import Reals ZArith List Lia.
From Coquelicot Require Import Coquelicot.
From Verif Require Import Base Loop Mem Fields ErrModel CExp MiscNumModel DiscTables DiscModel FscatterModel ScatterModel.
Import ListNotations.
Local Open Scope C_scope.

(** math.h round: nearest integer, halfway cases away from zero *)
Definition roundZ (x : R) : Z := if Rle_dec 0 x then floorZ (x + 1 / 2) else (- floorZ (- x + 1 / 2))%Z.

Section Bound.
Variables (D : nat) (q r : list C) (T0 T1 : R) (ups Dg : nat) (eps_t bc : R) (pr : prep) (norm : bool).

(** normalisation of a vector with n entries: added exponent, new vector *)
Definition normv (n : nat) (v : list C) : out (Z * list C) := if norm then misc_normalize_vector n v else Ret (0%Z, v).

(** one pass n_given of the forward loops, lines 625-698: vector at n_given -> exponent, vector at n_given+1 *)
Definition fwd (l : C) (ng : nat) (phi : list C) : out (Z * list C) :=
  match pr with
  | P_BO es =>
      phi <- for_ ups 0 (fun count phi =>
        let n := (ng * ups + count)%nat in
        qn <- aget q n ;; rn <- aget r n ;; h <- aget es count ;;
        U <- U_BO qn rn l h true ;; mm 4 4 1 U phi) phi ;;
      normv 4 phi
  | P_ES4 t1 t2 =>
      let n := (3 * ng)%nat in
      a <- es4_args q r eps_t t1 l n ;; let '(a1, a2, a3) := a in
      d0 <- aget t2 n ;; d1 <- aget t2 (n + 1) ;; d2 <- aget t2 (n + 2) ;;
      U <- U_ES4 a1 a2 a3 true d0 d1 d2 ;;
      phi <- mm 4 4 1 U phi ;; normv 4 phi
  | P_TES4 t1 t2 _ _ =>
      let n := (3 * ng)%nat in
      let half t v :=
        a1 <- aget t n ;; a2 <- aget t (n + 1) ;;
        M <- U_ES4 a1 a2 0 false 0 0 0 ;;
        x <- rd v 0 2 ;; y <- rd v 2 2 ;;
        x <- mm 2 2 1 M x ;; y <- mm 2 2 1 M y ;; Ret (x ++ y) in
      v <- half t1 phi ;;
      qn <- aget q n ;; rn <- aget r n ;;
      U <- U_BO qn rn l (RtoC eps_t) true ;;
      v <- mm 4 4 1 U v ;;
      x <- normv 4 v ;; let '(a, v) := x in
      v <- half t2 v ;; Ret (a, v)
  end.
(** number of passes of the forward loops *)
Definition fwd_passes : nat := match pr with P_BO _ => Dg | _ => triples D end.

(** PHI = &PSIPHI[2], PSI = &PSIPHI[0]; WPHI[n_given+1] = WPHI_acc if allocated *)
Definition fwd_loop (l : C) (mem : list C) (WPHI : option (list Z)) : out (list C * Z * option (list Z)) :=
  for_ fwd_passes 0 (fun ng st =>
    let '(mem, acc, W) := st in
    phi <- rd mem (2 + 4 * ng) 4 ;;
    x <- fwd l ng phi ;; let '(a, phi) := x in
    let acc := (acc + a)%Z in
    W <- (match W with Some w => if norm then w <- aset w (ng + 1) acc ;; Ret (Some w) else Ret W | None => Ret W end) ;;
    mem <- wr mem (2 + 4 * (ng + 1)) phi ;;
    Ret (mem, acc, W)) (mem, 0%Z, WPHI).

(** one pass of the backward loops, lines 716-779: vector at n_given+1 -> exponent, vector at n_given *)
Definition bwd (l : C) (ng : nat) (psi : list C) : out (Z * list C) :=
  match pr with
  | P_BO es =>
      psi <- for_ ups 0 (fun k psi =>
        let count := (ups - 1 - k)%nat in
        let n := (ng * ups + count)%nat in
        qn <- aget q n ;; rn <- aget r n ;; h <- aget es count ;;
        U <- U_BO qn rn l (- h) false ;; mm 2 2 1 U psi) psi ;;
      normv 2 psi
  | P_ES4 t1 _ =>
      let n := (D - 3 - 3 * (Dg - 1 - ng))%nat in
      a <- es4_args_back q r eps_t t1 l n ;; let '(a1, a2, a3) := a in
      U <- U_ES4 a1 a2 a3 false 0 0 0 ;;
      psi <- mm 2 2 1 U psi ;; normv 2 psi
  | P_TES4 _ _ t3 t4 =>
      let n := (D - 3 - 3 * (Dg - 1 - ng))%nat in
      let half t v :=
        a1 <- aget t n ;; a2 <- aget t (n + 1) ;;
        M <- U_ES4 a1 a2 0 false 0 0 0 ;; mm 2 2 1 M v in
      v <- half t3 psi ;;
      qn <- aget q n ;; rn <- aget r n ;;
      U <- U_BO qn rn l (- RtoC eps_t) false ;;
      v <- mm 2 2 1 U v ;;
      x <- normv 2 v ;; let '(a, v) := x in
      v <- half t4 v ;; Ret (a, v)
  end.
(** WPSI[n_given] = WPSI_acc *)
Definition bwd_loop (l : C) (mem : list C) (WPSI : option (list Z)) : out (list C * Z * option (list Z)) :=
  for_ Dg 0 (fun k st =>
    let ng := (Dg - 1 - k)%nat in
    let '(mem, acc, W) := st in
    psi <- rd mem (4 * (ng + 1)) 2 ;;
    x <- bwd l ng psi ;; let '(a, psi) := x in
    let acc := (acc + a)%Z in
    W <- (if norm then match W with Some w => w <- aset w ng acc ;; Ret (Some w) | None => UB end else Ret W) ;;
    mem <- wr mem (4 * ng) psi ;;
    Ret (mem, acc, W)) (mem, 0%Z, WPSI).

(** the metric |log|b1/b0||/2 of b_i = f phi_i/psi_i.  None: one of the four numbers is zero; b1/b0 is then 0, inf or NaN
   and the metric is inf or NaN, so that the comparison tmp < error_metric fails *)
Definition metric (b0 b1 : C) : R := Rabs (1 / 2 * ln (Cmod (b1 / b0)%C)).
Definition nz (x : C) : bool := if Ceq_dec x 0 then false else true.
Definition less (x : R) (o : option R) : bool := match o with None => true | Some y => if Rlt_dec x y then true else false end.

(** the loop over n = 0..D_given that selects b, lines 833-855.  Tm = change of basis to S (2x2), state: b, error_metric *)
Definition b_loop (Tm mem : list C) (kdv : bool) (WPHI WPSI : option (list Z)) (b : C) : out (C * option R) :=
  for_ (Dg + 1) 0 (fun n st =>
    let '(b, em) := st in
    phi <- rd mem (2 + 4 * n) 2 ;; psi <- rd mem (4 * n) 2 ;;
    phi <- mm 2 2 1 Tm phi ;; psi <- mm 2 2 1 Tm psi ;;
    f0 <- aget phi 0 ;; f1 <- aget phi 1 ;; g0 <- aget psi 0 ;; g1 <- aget psi 1 ;;
    let re x := if kdv then RtoC (fst x) else x in
    let f0 := re f0 in let f1 := re f1 in let g0 := re g0 in let g1 := re g1 in
    scl <- (if norm then
       match WPHI, WPSI with
       | Some w1, Some w2 => x <- aget w1 n ;; y <- aget w2 n ;; Ret (RtoC (powerRZ 2 (x - y)))
       | _, _ => UB end else Ret (RtoC 1)) ;;
    let b0 := f0 / g0 * scl in let b1 := f1 / g1 * scl in
    if nz f0 && nz f1 && nz g0 && nz g1 then
      if negb kdv || (if Rlt_dec 0 (fst (b0 * b1)) then true else false) then
        let m := metric b0 b1 in if less m em then Ret (b0, Some m) else Ret (b, em)
      else Ret (b, em)
    else Ret (b, em)) (b, None).

(** one bound state, lines 597-857.  Result: code, a, aprime, Ws (if normalised), b, memory *)
Definition one_bound (d : akns_disc) (pde : akns_pde) (vanilla skip_b : bool) (junkm : list C) (WPHI WPSI : option (list Z)) (l b_old : C)
  : out (Z * (C * C * Z * C) * (list C * option (list Z) * option (list Z))) :=
  let tm := (T0 - eps_t * bc)%R in let tp := (T1 + eps_t * bc)%R in
  let fail code W1 W2 mem := c <- chkZ code ;; Ret (c, (RtoC 0, RtoC 0, 0%Z, b_old), (mem, W1, W2)) in
  let f0 := Cexp (- Ci * l * RtoC tm) in
  let fS := [f0; RtoC 0; f0 * (- Ci * RtoC tm); RtoC 0] in
  t <- akns_from_S (repeat (RtoC 0) 16) l true eps_t d vanilla pde ;; let '(code, Tm) := t in
  if negb (Z.eqb code SUCCESS) then fail code WPHI WPSI junkm else
  phi0 <- mm 4 4 1 Tm fS ;;
  mem <- wr junkm 2 phi0 ;;
  x <- fwd_loop l mem WPHI ;; let '(mem, WPHI_acc, WPHI) := x in
  y <- (if skip_b then Ret (SUCCESS, mem, WPSI) else
    t <- akns_from_S (repeat (RtoC 0) 4) l false eps_t d vanilla pde ;; let '(code, Tm) := t in
    if negb (Z.eqb code SUCCESS) then Ret (code, mem, WPSI) else
    psi0 <- mm 2 2 1 Tm [RtoC 0; Cexp (Ci * l * RtoC tp)] ;;
    mem <- wr mem (4 * Dg) psi0 ;;
    x <- bwd_loop l mem WPSI ;; let '(mem, _, WPSI) := x in Ret (SUCCESS, mem, WPSI)) ;;
  let '(code, mem, WPSI) := y in
  if negb (Z.eqb code SUCCESS) then fail code WPHI WPSI mem else
  t <- akns_to_S (repeat (RtoC 0) 16) l true eps_t d vanilla pde ;; let '(code, Tm) := t in
  if negb (Z.eqb code SUCCESS) then fail code WPHI WPSI mem else
  phi <- rd mem (2 + 4 * Dg) 4 ;;
  fS <- mm 4 4 1 Tm phi ;;
  f0 <- aget fS 0 ;; f2 <- aget fS 2 ;;
  let exponent := Ci * l * RtoC tp in
  let v := roundZ (fst exponent / ln 2) in
  let u := (fst exponent / ln 2 - IZR v)%R in
  let ex := Cexp (Ci * RtoC (snd exponent) + RtoC (u * ln 2)) in
  let a := if norm then f0 * ex else f0 * Cexp exponent in
  let ap := if norm then (f2 + Ci * RtoC tp * f0) * ex else f2 * Cexp exponent + Ci * RtoC tp * a in
  let W := (v + WPHI_acc)%Z in
  let kdv := match pde with PDE_KdV => true | _ => false end in
  let a := if kdv then RtoC (fst a) else a in
  let ap := if kdv then Ci * RtoC (snd ap) else ap in
  if skip_b then Ret (SUCCESS, (a, ap, W, b_old), (mem, WPHI, WPSI)) else
  t <- akns_to_S (repeat (RtoC 0) 4) l false eps_t d vanilla pde ;; let '(code, Tm) := t in
  if negb (Z.eqb code SUCCESS) then fail code WPHI WPSI mem else
  x <- b_loop Tm mem kdv WPHI WPSI b_old ;; let '(b, _) := x in
  Ret (SUCCESS, (a, ap, W, b), (mem, WPHI, WPSI)).
End Bound.

(** the loop over the bound states; the buffers are reused.  A failing change of basis returns before a_vals[neig] is
   assigned (the assignment of a_vals, aprime_vals, Ws before the last change of basis, which cannot fail alone, is not modelled) *)
Record bstate := BS { bs_code : Z; bs_a : list C; bs_ap : list C; bs_b : option (list C); bs_W : option (list Z);
                      bs_mem : list C; bs_W1 : option (list Z); bs_W2 : option (list Z) }.

(** fnft__akns_scatter.c:422-867.  Result: code, a_vals, aprime_vals, b_vals, Ws *)
Definition akns_scatter_bound_states (junk : nat -> list C) (junkW1 junkW2 : nat -> list Z)
  (D : nat) (q r : option (list C)) (T : option (R * R)) (K : nat) (bound_states a_vals aprime_vals b_vals : option (list C))
  (Ws : option (list Z)) (d : akns_disc) (pde : akns_pde) (vanilla skip_b : bool)
  : out (Z * option (list C) * option (list C) * option (list C) * option (list Z)) :=
  let ret code := Ret (code, a_vals, aprime_vals, b_vals, Ws) in
  let bad := ret EC_INVALID_ARGUMENT in
  if Nat.eqb D 0 then bad else
  match q, r, T with
  | Some q, Some r, Some (T0, T1) =>
    if Nat.eqb K 0 then bad else
    match bound_states, a_vals, aprime_vals with
    | Some bs, Some av, Some apv =>
      if negb skip_b && (match b_vals with None => true | _ => false end) then bad else
      let ups := akns_upsampling_factor d in
      if Nat.eqb ups 0 then bad else
      match akns_boundary_coeff d with
      | None => UB (* NaN is not recognised by [boundary_coeff == NAN]; does not occur if ups <> 0 *)
      | Some bc =>
        if negb (Nat.eqb (D mod ups) 0) then ret EC_ASSERTION_FAILED else
        let Dg := (D / ups)%nat in
        match pde with
        | PDE_KdV | PDE_NSE =>
          let eps_t := ((T1 - T0) / (INR Dg - 1))%R in
          let norm := match Ws with Some _ => true | None => false end in
          p <- prepare D q r eps_t d ;;
          match p with
          | inl code => ret code
          | inr pr =>
              let alloc j := if norm && negb skip_b then Some (j (Dg + 1)%nat) else None in
              st <- for_ K 0 (fun neig st =>
                if negb (Z.eqb (bs_code st) SUCCESS) then Ret st else
                l <- aget bs neig ;;
                b_old <- (match bs_b st with Some b => if skip_b then Ret (RtoC 0) else aget b neig | None => Ret (RtoC 0) end) ;;
                x <- one_bound D q r T0 T1 ups Dg eps_t bc pr norm d pde vanilla skip_b (bs_mem st) (bs_W1 st) (bs_W2 st) l b_old ;;
                let '(code, (a, ap, W, b), (mem, W1, W2)) := x in
                if negb (Z.eqb code SUCCESS) then Ret (BS code (bs_a st) (bs_ap st) (bs_b st) (bs_W st) mem W1 W2) else
                av <- aset (bs_a st) neig a ;;
                apv <- aset (bs_ap st) neig ap ;;
                wv <- (match bs_W st with Some w => w <- aset w neig W ;; Ret (Some w) | None => Ret None end) ;;
                bv <- (match bs_b st with Some bv => if skip_b then Ret (Some bv) else bv <- aset bv neig b ;; Ret (Some bv) | None => Ret None end) ;;
                Ret (BS SUCCESS av apv bv wv mem W1 W2))
                (BS SUCCESS av apv b_vals Ws (junk (4 * (Dg + 1) + 2)%nat) (alloc junkW1) (alloc junkW2)) ;;
              Ret (bs_code st, Some (bs_a st), Some (bs_ap st), bs_b st, bs_W st)
          end
        | _ => bad
        end
      end
    | _, _, _ => bad
    end
  | _, _, _ => bad
  end.

(** fnft__nse_scatter.c:88-116 *)
Definition nse_scatter_bound_states (junk : nat -> list C) (junkW1 junkW2 : nat -> list Z)
  (D : nat) (q r : option (list C)) (T : option (R * R)) (K : nat) (bound_states a_vals aprime_vals b_vals : option (list C))
  (Ws : option (list Z)) (d : nse_disc) (skip_b : bool)
  : out (Z * option (list C) * option (list C) * option (list C) * option (list Z)) :=
  match nse_to_akns d with
  | None => c <- E_SUBROUTINE EC_INVALID_ARGUMENT ;; Ret (c, a_vals, aprime_vals, b_vals, Ws)
  | Some a =>
      x <- akns_scatter_bound_states junk junkW1 junkW2 D q r T K bound_states a_vals aprime_vals b_vals Ws a PDE_NSE false skip_b ;;
      let '(code, av, apv, bv, W) := x in c <- chkZ code ;; Ret (c, av, apv, bv, W)
  end.

(** fnft__kdv_scatter.c:98-136 *)
Definition kdv_scatter_bound_states (junk : nat -> list C) (junkW1 junkW2 : nat -> list Z)
  (D : nat) (q r : option (list C)) (T : option (R * R)) (K : nat) (bound_states a_vals aprime_vals b_vals : option (list C))
  (Ws : option (list Z)) (d : kdv_disc) (skip_b : bool)
  : out (Z * option (list C) * option (list C) * option (list C) * option (list Z)) :=
  match kdv_vanilla_flag d with
  | None => c <- E_SUBROUTINE EC_INVALID_ARGUMENT ;; Ret (c, a_vals, aprime_vals, b_vals, Ws)
  | Some v =>
    match kdv_to_akns d with
    | None => c <- E_SUBROUTINE EC_INVALID_ARGUMENT ;; Ret (c, a_vals, aprime_vals, b_vals, Ws)
    | Some a =>
      x <- (if v then akns_scatter_bound_states junk junkW1 junkW2 D q r T K bound_states a_vals aprime_vals b_vals Ws a PDE_KdV v skip_b
            else akns_scatter_bound_states junk junkW1 junkW2 D r q T K bound_states a_vals aprime_vals b_vals Ws a PDE_KdV v skip_b) ;;
      let '(code, av, apv, bv, W) := x in c <- chkZ code ;; Ret (c, av, apv, bv, W)
    end
  end.
