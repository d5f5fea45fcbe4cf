(** * Model of src/fnft_nsev_inverse.c: the inverse NFT for the NSE with vanishing boundaries

   Exact complex arithmetic; arrays are lists with checked access; NULL is [None].  [UB] is undefined behaviour, or a division
   by zero or a square root of a negative number whose result (infinity, NaN) enters the computation.
   The FFT is the model of KissFFT (FftUse).  Fast inverse scattering, spectral factorization, the scattering of bound states,
   memory contents and allocation are a parameter of type [ienv]: their results may depend in any way on the arguments.
   Models of them are in FinvModel, SpecfactModel and BoundModel.  Not modelled: printing of warnings, release of memory,
   wrap-around of UINT and INT, rounding. *)
From Coq Require Import Reals.
From Coquelicot Require Import Coquelicot.
From Verif Require Export Mem FftUse CConj NsevModel.
Local Open Scope C_scope.

(** z / w *)
Definition cdivc (z w : C) : out C := if ceq w 0 then UB else Ret (z / w).

(** ** Options, include/fnft_nsev_inverse.h:57-160.  A C enum can hold other values than the named ones: _bad. *)
Inductive icstype := IC_REFLECTION_COEFFICIENT | IC_B_OF_XI | IC_B_OF_TAU | IC_bad.
Inductive imethod := IM_DEFAULT | IM_REFL_COEFF | IM_AB_FROM_ITER | IM_SEED | IM_bad.
Inductive idstype := ID_NORMING_CONSTANTS | ID_RESIDUES | ID_bad.
Record iopts := {
  i_disc : nse_disc;           (* discretization *)
  i_cs : icstype;              (* contspec_type *)
  i_meth : imethod;            (* contspec_inversion_method *)
  i_ds : idstype;              (* discspec_type *)
  i_maxiter : nat;
  i_os : nat }.                (* oversampling_factor *)
(** fnft_nsev_inverse.c:27-34 *)
Definition inverse_default_opts : iopts :=
  {| i_disc := N_2SPLIT2A; i_cs := IC_REFLECTION_COEFFICIENT; i_meth := IM_DEFAULT; i_ds := ID_NORMING_CONSTANTS; i_maxiter := 100; i_os := 8 |}.

(** ** fnft_nsev_inverse.c:41-66 fnft_nsev_inverse_XI.  Result: code and *XI *)
Definition fnft_nsev_inverse_XI (D : nat) (T : option (R * R)) (M : nat) (XI : option (R * R)) (d : nse_disc) : out (Z * option (R * R)) :=
  if (D <? 2)%nat then Ret (EC_INVALID_ARGUMENT, XI) else
  if Nat.eqb M 0 then Ret (EC_INVALID_ARGUMENT, XI) else
  if no_ptr XI then Ret (EC_INVALID_ARGUMENT, XI) else
  if bad_interval T then Ret (EC_INVALID_ARGUMENT, XI) else
  T <- deref T ;;
  eps_t <- step (snd T - fst T) D ;;
  let XIC := [Cexp (2 * RtoC PI * Ci * RtoC (INR (M / 2 + 1)) / RtoC (INR M)); RtoC (-1)] in
  x <- nse_z_to_lambda 2 eps_t XIC d ;; let '(code, XIC) := x in
  a <- aget XIC 0 ;; b <- aget XIC 1 ;;
  Ret (code, Some (fst a, fst b)).

(** ** Subroutines; the first argument is the call site *)
Record ienv := {
  ie_alloc : nat -> bool;
  ie_junk : nat -> nat -> list C;
  ie_plan : nat -> Z;                                              (* fft_wrapper_create_plan *)
  (** poly_specfact(deg, poly, result, oversampling_factor, kappa): code, result *)
  ie_specfact : nat -> nat -> list C -> nat -> Z -> out (Z * list C);
  (** nse_finvscatter(deg, transfer_matrix, q, eps_t, kappa, discretization): code, q *)
  ie_finv : nat -> list C -> list C -> R -> Z -> nse_disc -> out (Z * list C);
  (** nse_scatter_bound_states(D, q, r, T, K, bound_states, a, a', b, Ws, BO, 1): code, a, Ws *)
  ie_sbs : nat -> list C -> list C -> R * R -> nat -> list C -> out (Z * list C * list Z) }.

Section Inv.
Variable E : ienv.

(** ** fnft_nsev_inverse.c:252-298 remove_boundary_conds_and_reorder_for_fft *)
(** :290-293 *)
Definition reorder (M : nat) (src dst : list C) : out (list C) :=
  dst <- fill (M / 2 + 1) 0 (fun i => aget src (i + (M / 2 - 1))) dst ;;
  fill (M - (M / 2 + 1)) (M / 2 + 1) (fun i => aget src (i - (M / 2 + 1))) dst.
(** result: code, contspec, contspec_reordered *)
Definition remove_boundary (M : nat) (contspec re : list C) (XI : R * R) (D : nat) (T : R * R) (o : iopts) : out (Z * (list C * list C)) :=
  eps_t <- step (snd T - fst T) D ;;
  eps_xi <- step (snd XI - fst XI) M ;;
  let go (p : phase_result) :=
    p <- phase p ;;
    check (fst p) (contspec, re) (
    contspec <- fill M 0 (fun i => c <- aget contspec i ;; Ret (c * Cexp (- Ci * RtoC (fst XI + INR i * eps_xi) * RtoC (snd p)))) contspec ;;
    re <- reorder M contspec re ;;
    Ret (SUCCESS, (contspec, re))) in
  match i_cs o with
  | IC_REFLECTION_COEFFICIENT => go (nse_phase_factor_rho eps_t (snd T) (i_disc o))
  | IC_B_OF_XI => go (nse_phase_factor_b eps_t D (fst T) (snd T) (i_disc o))
  | _ => Ret (EC_INVALID_ARGUMENT, (contspec, re))
  end.

(** :335-341 and :590-598, b_coeffs; common text of the two functions.  Result: code, contspec, b_coeffs *)
Definition b_coefficients (s M : nat) (contspec : list C) (XI : R * R) (D : nat) (T : R * R) (o : iopts) : out (Z * (list C * list C)) :=
  if negb (ie_alloc E (s + 0)) || negb (ie_alloc E (s + 1)) then Ret (EC_NOMEM, (contspec, [])) else
  x <- remove_boundary M contspec (ie_junk E s M) XI D T o ;;
  let '(code, (contspec, re)) := x in
  check code (contspec, []) (
  check (ie_plan E s) (contspec, []) (
  b <- fft_exec false M re (ie_junk E (s + 1) M) ;;
  Ret (SUCCESS, (contspec, b)))).

(** ** fnft_nsev_inverse.c:303-371 ..._TFMATRIX_CONTAINS_REFL_COEFF.  Result: code, contspec, transfer_matrix *)
Definition i0_of (deg M : nat) : nat := if (deg <=? M - 1)%nat then O else (deg - (M - 1))%nat.
(** -kappa*CONJ(b/M) and b/M *)
Definition up_entry (kappa : Z) (M : nat) (b : C) : C := - RtoC (IZR kappa) * Cconj (b / RtoC (INR M)).
Definition low_entry (M : nat) (b : C) : C := b / RtoC (INR M).
Definition tm_refl_coeff (M : nat) (contspec : list C) (XI : R * R) (D : nat) (T : R * R) (deg : nat) (tm : list C) (kappa : Z) (o : iopts)
  : out (Z * (list C * list C)) :=
  x <- b_coefficients 10 M contspec XI D T o ;;
  let '(code, (contspec, b)) := x in
  if negb (Z.eqb code SUCCESS) then Ret (code, (contspec, tm)) else
  let i0 := i0_of deg M in
  tm <- for_ i0 0 (fun i tm =>
    tm <- aset tm i (RtoC 0) ;; tm <- aset tm (1 * (deg + 1) + i) (RtoC 0) ;;
    tm <- aset tm (2 * (deg + 1) + i) (RtoC 0) ;; aset tm (3 * (deg + 1) + i) (RtoC 0)) tm ;;
  tm <- for_ (deg + 1 - i0) i0 (fun i tm =>
    tm <- aset tm i (RtoC 0) ;;
    u <- aget b (M - 1 + i - deg) ;; tm <- aset tm (1 * (deg + 1) + i) (up_entry kappa M u) ;;
    l <- aget b (deg - i) ;; tm <- aset tm (2 * (deg + 1) + i) (low_entry M l) ;;
    aset tm (3 * (deg + 1) + i) (RtoC 0)) tm ;;
  tm <- aset tm deg (RtoC 1) ;;
  tm <- aset tm (3 * (deg + 1)) (RtoC 1) ;;
  Ret (SUCCESS, (contspec, tm)).

(** ** fnft_nsev_inverse.c:376-508 ..._TFMATRIX_CONTAINS_AB_FROM_ITER *)
(** :443-447 *)
Definition reverse_b (D : nat) (b : list C) : out (list C) :=
  for_ (D / 2) 0 (fun i b => tmp <- aget b i ;; y <- aget b (D - 1 - i) ;; b <- aset b i y ;; aset b (D - 1 - i) tmp) b.
(** :466-469 *)
Definition reorder_phase (M : nat) (src ph dst : list C) : out (list C) :=
  dst <- fill (M / 2 + 1) 0 (fun i => c <- aget src (i + (M / 2 - 1)) ;; p <- aget ph i ;; Ret (c * Cexp (Ci * p))) dst ;;
  fill (M - (M / 2 + 1)) (M / 2 + 1) (fun i => c <- aget src (i - (M / 2 + 1)) ;; p <- aget ph i ;; Ret (c * Cexp (Ci * p))) dst.
(** the buffers contspec_reordered, fft_in, fft_out, a_coeffs, b_coeffs *)
Record ibufs := { ib_re : list C; ib_in : list C; ib_out : list C; ib_a : list C; ib_b : list C }.
(** an infinite REAL is None; x > 0.9*y *)
Definition exceeds (x : option R) (y : option R) : bool :=
  match x, y with
  | None, Some _ => true
  | None, None => false
  | Some _, None => false
  | Some x, Some y => if Rlt_dec (9 / 10 * y) x then true else false
  end.
(** :433-480, one pass; the last component: whether to leave the loop *)
Definition iter_pass (M D : nat) (contspec : list C) (kappa : Z) (w : ibufs) (pc pcd : option R) : out (Z * (ibufs * option R * option R * bool)) :=
  fin <- fill D 0 (fun i =>
    q <- aget (ib_re w) i ;; let x := (1 + IZR kappa * (Cmod q * Cmod q))%R in
    if Rlt_dec x 0 then UB else z <- cdivr q (sqrt x) ;; Ret (z / RtoC (INR D))) (ib_in w) ;;
  b <- fft_exec false D fin (ib_b w) ;;
  b <- reverse_b D b ;;
  p <- rd b 0 D ;;
  x <- ie_specfact E 0 (D - 1) p 32 kappa ;; let '(code, a) := x in
  check code (w, pc, pcd, true) (
  a <- wr (ib_a w) 0 a ;;
  fin <- fill D 0 (fun i => aget a (D - 1 - i)) fin ;;
  fout <- fft_exec true D fin (ib_out w) ;;
  fout <- fill D 0 (fun i => v <- aget fout i ;; Ret (RtoC (Carg v))) fout ;;
  let cur := fold_left (fun s i => (s + Cmod (nth i fout 0) / INR D)%R) (seq 0 D) 0%R in
  re <- reorder_phase M contspec fout (ib_re w) ;;
  let w := {| ib_re := re; ib_in := fin; ib_out := fout; ib_a := a; ib_b := b |} in
  let diff := match pc with None => None | Some p => Some (Rabs (cur - p)) end in
  if (match diff with None => false | Some x => if Rlt_dec x (10 * EPS) then true else false end) then Ret (SUCCESS, (w, pc, pcd, true)) else
  if exceeds diff pcd then Ret (SUCCESS, (w, Some cur, pcd, true)) else
  Ret (SUCCESS, (w, Some cur, diff, false))).
(** :431-481 *)
Fixpoint iter_loop (n M D : nat) (contspec : list C) (kappa : Z) (w : ibufs) (pc pcd : option R) : out (Z * ibufs) :=
  match n with
  | O => Ret (SUCCESS, w)
  | S n =>
      x <- iter_pass M D contspec kappa w pc pcd ;;
      let '(code, (w, pc, pcd, stop)) := x in
      if negb (Z.eqb code SUCCESS) then Ret (code, w) else
      if stop then Ret (SUCCESS, w) else iter_loop n M D contspec kappa w pc pcd
  end.
(** :487-497 and :668-675: the entries from the coefficients of A(z) and B(z) *)
Definition ab_matrix (D deg : nat) (kappa : Z) (a b tm : list C) : out (list C) :=
  tm <- for_ D 0 (fun i tm =>
    x <- aget a i ;; tm <- aset tm (1 + i) x ;;
    y <- aget b (D - 1 - i) ;; tm <- aset tm (1 * (deg + 1) + i) (- RtoC (IZR kappa) * Cconj y) ;;
    x <- aget b i ;; tm <- aset tm (2 * (deg + 1) + 1 + i) x ;;
    y <- aget a (D - 1 - i) ;; aset tm (3 * (deg + 1) + i) y) tm ;;
  tm <- aset tm 0 (RtoC 0) ;; tm <- aset tm (2 * (deg + 1) - 1) (RtoC 0) ;;
  tm <- aset tm (2 * (deg + 1)) (RtoC 0) ;; aset tm (4 * (deg + 1) - 1) (RtoC 0).
Definition not_power_of_two (D : nat) : bool := (D <? 2)%nat || negb (Z.eqb (Z.land (Z.of_nat D) (Z.of_nat D - 1)) 0).
Definition tm_ab_from_iter (M : nat) (contspec : list C) (XI : R * R) (D : nat) (T : R * R) (deg : nat) (tm : list C) (kappa : Z) (o : iopts)
  : out (Z * (list C * list C)) :=
  let fail (c : Z) := Ret (c, (contspec, tm)) in
  if not_power_of_two D then fail EC_INVALID_ARGUMENT else
  if negb (Nat.eqb M D) then fail EC_INVALID_ARGUMENT else
  if negb (Nat.eqb D deg) then fail EC_ASSERTION_FAILED else
  if negb (Z.eqb kappa (-1)) then fail EC_INVALID_ARGUMENT else
  if negb (ie_alloc E 20) || negb (ie_alloc E 21) || negb (ie_alloc E 22) || negb (ie_alloc E 23) || negb (ie_alloc E 24) then fail EC_NOMEM else
  check (ie_plan E 20) (contspec, tm) (
  check (ie_plan E 21) (contspec, tm) (
  x <- remove_boundary M contspec (ie_junk E 20 M) XI D T o ;;
  let '(code, (contspec, re)) := x in
  check code (contspec, tm) (
  x <- iter_loop (i_maxiter o) M D contspec kappa
         {| ib_re := re; ib_in := ie_junk E 21 M; ib_out := ie_junk E 22 M; ib_a := ie_junk E 23 D; ib_b := ie_junk E 24 D |} None None ;;
  let '(code, w) := x in
  if negb (Z.eqb code SUCCESS) then Ret (code, (contspec, tm)) else
  tm <- ab_matrix D deg kappa (ib_a w) (ib_b w) tm ;;
  Ret (SUCCESS, (contspec, tm))))).

(** ** fnft_nsev_inverse.c:513-556 transfer_matrix_from_reflection_coefficient.  XI is not NULL here. *)
Definition tm_from_reflection_coefficient (M : nat) (contspec : list C) (XI : R * R) (D : nat) (T : R * R) (deg : nat) (tm : list C)
    (kappa : Z) (o : iopts) : out (Z * (list C * list C)) :=
  match i_meth o with
  | IM_DEFAULT | IM_REFL_COEFF =>
      x <- tm_refl_coeff M contspec XI D T deg tm kappa o ;; let '(code, st) := x in check code st (Ret (SUCCESS, st))
  | IM_AB_FROM_ITER =>
      x <- tm_ab_from_iter M contspec XI D T deg tm kappa o ;; let '(code, st) := x in check code st (Ret (SUCCESS, st))
  | _ => Ret (EC_INVALID_ARGUMENT, (contspec, tm))
  end.

(** ** fnft_nsev_inverse.c:561-628 transfer_matrix_from_b_of_xi *)
Definition tm_from_b_of_xi (M : nat) (contspec : list C) (XI : R * R) (D : nat) (T : R * R) (deg : nat) (tm : list C) (kappa : Z) (o : iopts)
  : out (Z * (list C * list C)) :=
  x <- b_coefficients 30 M contspec XI D T o ;;
  let '(code, (contspec, b)) := x in
  if negb (Z.eqb code SUCCESS) then Ret (code, (contspec, tm)) else
  let i0 := i0_of deg M in
  tm <- for_ i0 0 (fun i tm => tm <- aset tm (1 * (deg + 1) + i) (RtoC 0) ;; aset tm (2 * (deg + 1) + i) (RtoC 0)) tm ;;
  tm <- for_ (deg + 1 - i0) i0 (fun i tm =>
    u <- aget b (M - 1 + i - deg) ;; tm <- aset tm (1 * (deg + 1) + i) (up_entry kappa M u) ;;
    l <- aget b (deg - i) ;; aset tm (2 * (deg + 1) + i) (low_entry M l)) tm ;;
  p <- rd tm (2 * (deg + 1)) (deg + 1) ;;
  x <- ie_specfact E 1 deg p (i_os o) kappa ;; let '(code, a) := x in
  check code (contspec, tm) (
  tm <- wr tm 0 a ;;
  tm <- for_ (deg + 1) 0 (fun i tm => x <- aget tm (deg - i) ;; aset tm (3 * (deg + 1) + i) x) tm ;;
  Ret (SUCCESS, (contspec, tm))).

(** ** fnft_nsev_inverse.c:633-679 transfer_matrix_from_B_of_tau *)
Definition tm_from_B_of_tau (M : nat) (contspec : list C) (D : nat) (T : R * R) (deg : nat) (tm : list C) (kappa : Z) (o : iopts)
  : out (Z * (list C * list C)) :=
  let fail (c : Z) := Ret (c, (contspec, tm)) in
  if negb (Nat.eqb M D) then fail EC_INVALID_ARGUMENT else
  if (if Req_EM_T (fst T) (- snd T) then false else true) then fail EC_INVALID_ARGUMENT else
  if (match i_meth o with IM_DEFAULT => false | _ => true end) then fail EC_INVALID_ARGUMENT else
  eps_t <- step (snd T - fst T) D ;;
  let ob := (2 * (deg + 1) + 1)%nat in
  tm <- for_ D 0 (fun i tm => c <- aget contspec i ;; z <- cdivr (2 * RtoC eps_t * c) (INR (nse_degree (i_disc o))) ;; aset tm (ob + i) z) tm ;;
  x <- aget tm (ob + 0) ;; tm <- aset tm (ob + 0) (x * RtoC (1 / 2)) ;;
  x <- aget tm (ob + (D - 1)) ;; tm <- aset tm (ob + (D - 1)) (x * RtoC (1 / 2)) ;;
  p <- rd tm ob D ;;
  x <- ie_specfact E 2 (D - 1) p (i_os o) kappa ;; let '(code, a) := x in
  check code (contspec, tm) (
  tm <- wr tm 1 a ;;
  tm <- for_ D 0 (fun i tm =>
    y <- aget tm (ob + (D - 1 - i)) ;; tm <- aset tm (1 * (deg + 1) + i) (- RtoC (IZR kappa) * Cconj y) ;;
    y <- aget tm (1 + (D - 1 - i)) ;; aset tm (3 * (deg + 1) + i) y) tm ;;
  tm <- aset tm 0 (RtoC 0) ;; tm <- aset tm (2 * (deg + 1) - 1) (RtoC 0) ;;
  tm <- aset tm (2 * (deg + 1)) (RtoC 0) ;; tm <- aset tm (4 * (deg + 1) - 1) (RtoC 0) ;;
  Ret (SUCCESS, (contspec, tm))).

(** ** fnft_nsev_inverse.c:681-919 add_discrete_spectrum *)

(** :725-734, zc_point: the first sample with t >= 0, or 0 if there is none *)
Definition time (T : R * R) (eps_t : R) (i : nat) : R := (fst T + eps_t * INR i)%R.
Definition zc_point (T : R * R) (eps_t : R) (D : nat) : nat :=
  match find (fun i => if Rle_dec 0 (time T eps_t i) then true else false) (seq 0 D) with Some i => i | None => O end.

(** :741-753 *)
Definition swap (l : list C) (i j : nat) : out (list C) := x <- aget l i ;; y <- aget l j ;; l <- aset l i y ;; aset l j x.
Definition sort_step (i j : nat) (st : list C * list C) : out (list C * list C) :=
  let (bs, nc) := st in
  x <- aget bs i ;; y <- aget bs j ;;
  if Rlt_dec (snd x) (snd y) then bs <- swap bs i j ;; nc <- swap nc i j ;; Ret (bs, nc) else Ret (bs, nc).
Definition sort_bs (K : nat) (st : list C * list C) : out (list C * list C) :=
  for_ K 0 (fun i st => for_ (K - (i + 1)) (i + 1) (sort_step i) st) st.
(** :754-760: equal neighbours *)
Definition has_double (K : nat) (bs : list C) : out bool :=
  for_ (K - 1) 0 (fun i (r : bool) => if r then Ret true else x <- aget bs (i + 1) ;; y <- aget bs i ;; Ret (ceq x y)) false.

(** :796-804, residues to norming constants *)
Definition residue_factor (K i : nat) (bs : list C) (a : C) : out C :=
  for_ K 0 (fun j tmp => if Nat.eqb j i then Ret tmp else
    x <- aget bs i ;; y <- aget bs j ;; cdivc (tmp * (x - y)) (x - Cconj y)) a.
Definition to_norm_consts (K : nat) (bs a nc : list C) : out (list C) :=
  fill K 0 (fun i => ai <- aget a i ;; tmp <- residue_factor K i bs ai ;; r <- aget nc i ;; x <- aget bs i ;;
    z <- cdivc r (2 * Ci * RtoC (snd x)) ;; Ret (z * tmp)) nc.

(** :815-830 and :836-851 for one t: [w] is 2*I or -2*I; result: qt *)
Definition rho_update (li lj rho f rj : C) : out C :=
  cdivc ((lj - li) * rj + (rj - rho) * f) (lj - Cconj li - (1 + Cconj rho * rj) * f).
Definition soliton_step (K i : nat) (bs : list C) (st : C * list C) : out (C * list C) :=
  let (qt, rhok) := st in
  rho <- aget rhok i ;; li <- aget bs i ;;
  let f := 2 * Ci * RtoC (snd li) / RtoC (1 + Cmod rho * Cmod rho) in
  let qt := qt + 2 * Cconj rho * f * Ci in
  rhok <- for_ (K - (i + 1)) (i + 1) (fun j rhok =>
    lj <- aget bs j ;; rj <- aget rhok j ;; z <- rho_update li lj rho f rj ;; aset rhok j z) rhok ;;
  Ret (qt, rhok).
Definition soliton_point (K : nat) (bs nc : list C) (w : C) (t : R) : out C :=
  rhok <- for_ K 0 (fun i (acc : list C) => b <- aget nc i ;; l <- aget bs i ;; Ret (acc ++ [b * Cexp (w * l * RtoC t)])) [] ;;
  x <- for_ K 0 (fun i st => soliton_step K i bs st) (RtoC 0, rhok) ;;
  Ret (fst x).
(** :812-853.  The inversion of the norming constants (:833-834) is skipped if zc_point is 0, when the inverses are not used *)
Definition multi_soliton (K : nat) (bs nc : list C) (T : R * R) (eps_t : R) (D : nat) (q : list C) : out (list C) :=
  let zc := zc_point T eps_t D in
  q <- fill (D - zc) zc (fun n => soliton_point K bs nc (2 * Ci) (time T eps_t n)) q ;;
  if Nat.eqb zc 0 then Ret q else
  nc <- fill K 0 (fun i => b <- aget nc i ;; cdivc 1 b) nc ;;
  fill zc 0 (fun n => x <- soliton_point K bs nc (- (2) * Ci) (time T eps_t n) ;; Ret (Cconj x)) q.

(** ** fnft_nsev_inverse.c:921-1019 compute_eigenfunctions *)
(** :946-950 etc.: ks, and ch, sh, u1 for the half step h; ks = 0: not used *)
Definition ks_of (q l : C) : C := - RtoC (Cmod q * Cmod q) - l * l.
Definition half (h : R) (q l : C) : C * C * C :=
  let k := Csqrt (ks_of q l) in
  let sh := Csinh (k * RtoC h) / k in
  (Ccosh (k * RtoC h), sh, l * sh * Ci).
(** :954-957 *)
Definition half_fwd (h : R) (q l : C) (v : C * C) : C * C :=
  if ceq (ks_of q l) 0 then v else
  let '(ch, sh, u1) := half h q l in
  ((ch - u1) * fst v + (q * sh) * snd v, (- Cconj q * sh) * fst v + (ch + u1) * snd v).
(** :993-997 *)
Definition half_bwd (h : R) (q l : C) (v : C * C) : out (C * C) :=
  if ceq (ks_of q l) 0 then Ret v else
  let '(ch, sh, u1) := half h q l in
  let scl := (ch - u1) * (ch + u1) - (- Cconj q * sh) * (q * sh) in
  a <- cdivc ((ch + u1) * fst v + (- q * sh) * snd v) scl ;;
  b <- cdivc ((Cconj q * sh) * fst v + (ch - u1) * snd v) scl ;;
  Ret (a, b).
(** phi_ptr1[n], phi_ptr2[n] for bound state i *)
Definition vget (K D i n : nat) (v : list C) : out (C * C) := x <- aget v (i * D + n) ;; y <- aget v (i * D + K * D + n) ;; Ret (x, y).
Definition vset (K D i n : nat) (x : C * C) (v : list C) : out (list C) := v <- aset v (i * D + n) (fst x) ;; aset v (i * D + K * D + n) (snd x).
Definition phi_loop (K : nat) (bs : list C) (D : nat) (q : list C) (T : R * R) (h : R) (phi : list C) : out (list C) :=
  for_ K 0 (fun i phi =>
    l <- aget bs i ;;
    phi <- vset K D i 0 (Cexp (- Ci * l * RtoC (fst T)), RtoC 0) phi ;;
    for_ (D - 1) 1 (fun n phi =>
      v <- vget K D i (n - 1) phi ;; q0 <- aget q (n - 1) ;; q1 <- aget q n ;;
      vset K D i n (half_fwd h q1 l (half_fwd h q0 l v)) phi) phi) phi.
Definition psi_loop (K : nat) (bs : list C) (D : nat) (q : list C) (T : R * R) (h : R) (psi : list C) : out (list C) :=
  for_ K 0 (fun i psi =>
    l <- aget bs i ;;
    psi <- vset K D i (D - 1) (RtoC 0, Cexp (Ci * l * RtoC (snd T))) psi ;;
    for_ (D - 1) 0 (fun m psi => let n := (D - 1 - m)%nat in
      v <- vget K D i n psi ;; q1 <- aget q n ;; q0 <- aget q (n - 1) ;;
      v <- half_bwd h q1 l v ;; v <- half_bwd h q0 l v ;;
      vset K D i (n - 1) v psi) psi) psi.

(** :885-894 *)
Definition cdt_vec (l s1 s2 : C) (v : C * C) : C * C :=
  ((l - s1) * fst v - s2 * snd v, Cconj s2 * fst v + (l - Cconj s1) * snd v).
(** :879-902 for one n: the state is S1, S2, qn *)
Definition cdt_step (K D n i : nat) (bs nc phi psi : list C) (st : list C * list C * C) : out (list C * list C * C) :=
  let '(S1, S2, qn) := st in
  l <- aget bs i ;; b <- aget nc i ;;
  ph <- vget K D i n phi ;; ps <- vget K D i n psi ;;
  x <- for_ i 0 (fun j (x : (C * C) * (C * C)) => s1 <- aget S1 j ;; s2 <- aget S2 j ;; Ret (cdt_vec l s1 s2 (fst x), cdt_vec l s1 s2 (snd x))) (ph, ps) ;;
  let '(ph, ps) := x in
  beta <- cdivc (fst ph - b * fst ps) (snd ph - b * snd ps) ;;
  let tmp := RtoC (Cmod beta * Cmod beta) in
  let s1 := (tmp * l + Cconj l) / (1 + tmp) in
  let s2 := (2 * Ci * RtoC (snd l) * beta) / (1 + tmp) in
  Ret (S1 ++ [s1], S2 ++ [s2], qn - 2 * Ci * s2).
Definition cdt_point (K D n : nat) (bs nc phi psi : list C) (qn : C) : out C :=
  x <- for_ K 0 (fun i st => cdt_step K D n i bs nc phi psi st) ([], [], qn) ;; Ret (snd x).

(** result: code, q *)
Definition add_discrete_spectrum (K : nat) (bs nc : list C) (D : nat) (q : list C) (T : R * R) (contspec_flag : bool) (o : iopts) : out (Z * list C) :=
  eps_t <- step (snd T - fst T) D ;;
  if negb (ie_alloc E 40) || negb (ie_alloc E 41) || negb (ie_alloc E 42) || negb (ie_alloc E 43) || negb (ie_alloc E 44) || negb (ie_alloc E 45)
  then Ret (EC_NOMEM, q) else
  b <- rd bs 0 K ;; n <- rd nc 0 K ;;
  x <- sort_bs K (b, n) ;; let (bs, nc) := (x : list C * list C) in
  d <- has_double K bs ;;
  if (d : bool) then Ret (EC_SANITY_CHECK_FAILED, q) else
  x <- match i_ds o with
       | ID_RESIDUES =>
           if contspec_flag then
             if negb (ie_alloc E 46) then Ret (EC_NOMEM, nc) else
             if negb (ie_alloc E 47) then Ret (EC_NOMEM, nc) else
             r <- fill D 0 (fun i => x <- aget q i ;; Ret (- Cconj x)) (ie_junk E 46 D) ;;
             x <- ie_sbs E D q r T K bs ;; let '(code, a, Ws) := x in
             check code nc (
             a <- fill K 0 (fun i => w <- aget Ws i ;; x <- aget a i ;; Ret (x * RtoC (powerRZ 2 w))) a ;;
             nc <- to_norm_consts K bs a nc ;; Ret (SUCCESS, nc))
           else nc <- to_norm_consts K bs (repeat (RtoC 1) K) nc ;; Ret (SUCCESS, nc)
       | _ => Ret (SUCCESS, nc)
       end ;;
  let '(code, nc) := x in
  if negb (Z.eqb code SUCCESS) then Ret (code, q) else
  let seed := match i_meth o with IM_SEED => true | _ => false end in
  if negb contspec_flag && negb seed then q <- multi_soliton K bs nc T eps_t D q ;; Ret (SUCCESS, q)
  else if (negb contspec_flag && seed) || (contspec_flag && negb seed) then
    if negb (ie_alloc E 48) || negb (ie_alloc E 49) then Ret (EC_NOMEM, q) else
    let h := (eps_t / 2)%R in
    phi <- phi_loop K bs D q T h (ie_junk E 48 (D * K * 2)) ;;
    psi <- psi_loop K bs D q T h (ie_junk E 49 (D * K * 2)) ;;
    q <- fill D 0 (fun n => qn <- aget q n ;; cdt_point K D n bs nc phi psi qn) q ;;
    Ret (SUCCESS, q)
  else Ret (EC_INVALID_ARGUMENT, q).

(** ** fnft_nsev_inverse.c:1026-1046 precompensate_for_cdt_phaseshifts *)
Definition precompensate (M : nat) (contspec : list C) (XI : R * R) (K : nat) (bs : list C) : out (list C) :=
  if Nat.eqb K 0 then Ret contspec else
  eps_xi <- step (snd XI - fst XI) M ;;
  fill M 0 (fun i => let xi := RtoC (fst XI + INR i * eps_xi) in
    c <- aget contspec i ;;
    for_ K 0 (fun k c => l <- aget bs k ;; z <- cdivc (xi - l) (xi - Cconj l) ;; Ret (c * z)) c) contspec.

(** ** fnft_nsev_inverse.c:122-245 fnft_nsev_inverse.  Result: code, contspec, q.  The options are not changed. *)
(** :151-159, one of the bound states is not in the upper half plane; [bs] is not NULL if K > 0 *)
Definition some_below (K : nat) (bs : list C) : out bool :=
  for_ K 0 (fun i (r : bool) => if r then Ret true else x <- aget bs i ;; Ret (if Rle_dec (snd x) 0 then true else false)) false.
Definition supported (d : nse_disc) : bool := match d with N_2SPLIT2A | N_2SPLIT2_MODAL => true | _ => false end.
(** :135-169 *)
Definition inverse_check (M : nat) (contspec : option (list C)) (XI : option (R * R)) (K : nat) (bs nc : option (list C)) (D : nat)
    (q : option (list C)) (T : option (R * R)) (kappa : Z) (o : iopts) : out Z :=
  if (0 <? M)%nat && no_ptr contspec then Ret EC_INVALID_ARGUMENT else
  if negb (no_ptr contspec) && negb (Nat.even M) then Ret EC_INVALID_ARGUMENT else
  if negb (no_ptr contspec) && (M <? D)%nat then Ret EC_INVALID_ARGUMENT else
  if not_power_of_two D then Ret EC_INVALID_ARGUMENT else
  if no_ptr q then Ret EC_INVALID_ARGUMENT else
  if bad_interval T then Ret EC_INVALID_ARGUMENT else
  if negb (Z.eqb kappa 1) && negb (Z.eqb kappa (-1)) then Ret EC_INVALID_ARGUMENT else
  if (0 <? K)%nat && negb (Z.eqb kappa 1) then Ret EC_SANITY_CHECK_FAILED else
  if (0 <? K)%nat && no_ptr bs then Ret EC_INVALID_ARGUMENT else
  low <- match bs with Some bs => some_below K bs | None => Ret false end ;;
  if low : bool then Ret EC_SANITY_CHECK_FAILED else
  if (0 <? K)%nat && no_ptr nc then Ret EC_INVALID_ARGUMENT else
  if negb (supported (i_disc o)) then Ret EC_INVALID_ARGUMENT else
  if no_ptr contspec && Nat.eqb K 0 then Ret EC_SANITY_CHECK_FAILED else
  if no_ptr XI && negb (no_ptr contspec) && match i_cs o with IC_B_OF_TAU => false | _ => true end then Ret EC_INVALID_ARGUMENT else
  Ret SUCCESS.

(** :175-232 for contspec != NULL *)
Definition invert_contspec (M : nat) (contspec : list C) (XI : option (R * R)) (K : nat) (bs : option (list C)) (D : nat) (q : list C)
    (T : R * R) (kappa : Z) (o : iopts) : out (Z * (list C * list C)) :=
  let deg := (D * nse_degree (i_disc o))%nat in
  if Nat.eqb deg 0 then Ret (EC_INVALID_ARGUMENT, (contspec, q)) else
  if negb (ie_alloc E 0) then Ret (EC_NOMEM, (contspec, q)) else
  let tm := ie_junk E 0 (4 * (deg + 1))%nat in
  x <- match i_cs o with
       | IC_REFLECTION_COEFFICIENT =>
           XI <- deref XI ;;
           contspec <- match bs with Some bs => precompensate M contspec XI K bs | None => if Nat.eqb K 0 then Ret contspec else UB end ;;
           x <- tm_from_reflection_coefficient M contspec XI D T deg tm kappa o ;; let '(code, st) := x in check code st (Ret (SUCCESS, st))
       | IC_B_OF_XI =>
           XI <- deref XI ;;
           x <- tm_from_b_of_xi M contspec XI D T deg tm kappa o ;; let '(code, st) := x in check code st (Ret (SUCCESS, st))
       | IC_B_OF_TAU =>
           x <- tm_from_B_of_tau M contspec D T deg tm kappa o ;; let '(code, st) := x in check code st (Ret (SUCCESS, st))
       | IC_bad => Ret (EC_INVALID_ARGUMENT, (contspec, tm))
       end ;;
  let '(code, (contspec, tm)) := x in
  if negb (Z.eqb code SUCCESS) then Ret (code, (contspec, q)) else
  eps_t <- step (snd T - fst T) D ;;
  x <- ie_finv E deg tm q eps_t kappa (i_disc o) ;; let '(code, q) := x in
  check code (contspec, q) (Ret (SUCCESS, (contspec, q))).

Definition fnft_nsev_inverse (M : nat) (contspec : option (list C)) (XI : option (R * R)) (K : nat) (bs nc : option (list C)) (D : nat)
    (q : option (list C)) (T : option (R * R)) (kappa : Z) (user : option iopts) : out (Z * (option (list C) * option (list C))) :=
  let o := match user with Some o => o | None => inverse_default_opts end in
  code <- inverse_check M contspec XI K bs nc D q T kappa o ;;
  if negb (Z.eqb code SUCCESS) then Ret (code, (contspec, q)) else
  q <- deref q ;; T <- deref T ;;
  x <- match contspec with
       | Some cs => x <- invert_contspec M cs XI K bs D q T kappa o ;; let '(code, (cs, q)) := x in Ret (code, (Some cs, q))
       | None => Ret (SUCCESS, (None, q))
       end ;;
  let '(code, (contspec, q)) := x in
  if negb (Z.eqb code SUCCESS) then Ret (code, (contspec, Some q)) else
  if (0 <? K)%nat then
    bs <- deref bs ;; nc <- deref nc ;;
    x <- add_discrete_spectrum K bs nc D q T (negb (no_ptr contspec)) o ;; let '(code, q) := x in
    check code (contspec, Some q) (Ret (SUCCESS, (contspec, Some q)))
  else Ret (SUCCESS, (contspec, Some q)).
End Inv.
