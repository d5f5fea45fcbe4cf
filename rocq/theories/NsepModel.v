(** * Model of src/fnft_nsep.c: the driver of the NFT for the NSE with (quasi-)periodic boundaries

   As in NsevModel: exact complex arithmetic, option values that are compared with infinities are of type [xreal],
   arrays are lists with checked access, NULL is [None]; the numerical subroutines (and which allocations succeed) are a
   parameter, here of type [penv]; the first argument of a subroutine identifies the call site.  Not modelled: printing of
   warnings, release of memory, wrap-around of UINT, rounding. *)
From Coq Require Import Reals.
From Coquelicot Require Import Coquelicot.
From Verif Require Export NsevModel.
Local Open Scope C_scope.

(** ** Options, include/fnft_nsep.h:58-167.  A C enum can hold other values than the named ones: _bad. *)
Inductive ploc := PL_SUBSAMPLE_AND_REFINE | PL_NEWTON | PL_GRIDSEARCH | PL_MIXED | PL_bad.
(** code that compares with _NONE, _MANUAL and _AUTO only: every other value filters with the given box *)
Inductive pfilt := PF_NONE | PF_MANUAL | PF_AUTO | PF_bad.
Record popts := {
  p_loc : ploc;
  p_filt : pfilt;
  p_box : xbox;
  p_max_evals : nat;
  p_disc : nse_disc;
  p_norm : bool;
  p_floquet : R * R;
  p_points : nat;
  p_Dsub : nat;
  p_tol : xreal }.
Definition set_pbox (o : popts) (b : xbox) : popts :=
  {| p_loc := p_loc o; p_filt := p_filt o; p_box := b; p_max_evals := p_max_evals o; p_disc := p_disc o; p_norm := p_norm o;
     p_floquet := p_floquet o; p_points := p_points o; p_Dsub := p_Dsub o; p_tol := p_tol o |}.
(** fnft_nsep.c:28-42 *)
Definition nsep_default_opts : popts :=
  {| p_loc := PL_SUBSAMPLE_AND_REFINE; p_filt := PF_AUTO; p_box := {| x0 := Inf false; x1 := Inf true; x2 := Inf false; x3 := Inf true |};
     p_max_evals := 50; p_disc := N_2SPLIT2A; p_norm := true; p_floquet := (-1, 1)%R; p_points := 2; p_Dsub := 0; p_tol := Fin (-1) |}.
(** fnft_nsep.c:44 *)
Definition oversampling : nat := 32.

(** the arrays main_spec and aux_spec of the user, *K_ptr and *M_ptr *)
Record pouts := { w_K : option nat; w_main : option (list C); w_M : option nat; w_aux : option (list C) }.

(** ** Subroutines *)
Record penv := {
  pe_alloc : nat -> nat -> bool;
  pe_junk : nat -> nat -> list C;
  (** the value of the uninitialised variable K, fnft_nsep.c:254 *)
  pe_junkK : nat;
  (** nse_discretization_preprocess_signal, nse_fscatter, poly_roots_fasteigen as in [env] *)
  pe_pre : nat -> nat -> list C -> R -> Z -> nat -> nse_disc -> out (Z + pre_out);
  pe_fscatter : nat -> nat -> list C -> list C -> R -> list C -> bool -> nse_disc -> out (Z * nat * list C * Z);
  pe_roots : nat -> nat -> list C -> list C -> out (Z * list C);
  (** nse_scatter_matrix(D, q, r, eps_t, kappa, 1, &lam, M, W_ptr, discretization, 1): code, M, W *)
  pe_mono : nat -> nat -> list C -> list C -> R -> Z -> C -> bool -> nse_disc -> out (Z * list C * Z);
  (** poly_roots_fftgridsearch(deg, p, &K, PHI, roots): code, K, roots *)
  pe_grid : nat -> nat -> list C -> nat -> xreal * xreal -> list C -> out (Z * nat * list C) }.

(** ** Arithmetic with infinities *)
Definition xadd (a : xreal) (y : R) : xreal := match a with Fin x => Fin (x + y) | _ => a end.
Definition xsub (a b : xreal) : xreal :=
  match a, b with
  | NaN, _ | _, NaN => NaN
  | Fin x, Fin y => Fin (x - y)
  | Fin _, Inf s => Inf (negb s)
  | Inf s, Fin _ => Inf s
  | Inf s, Inf t => if Bool.eqb s t then NaN else Inf s
  end.
(** product with a positive number *)
Definition xscale (c : R) (a : xreal) : xreal := match a with Fin x => Fin (c * x) | _ => a end.
(** ROUND(x) for x >= 0: halves are rounded up *)
Definition uround (x : R) : nat := ufloor (x + / 2).
(** CEIL(x) for x >= 0 *)
Definition uceiling (x : R) : nat := Z.to_nat (- Int_part (- x)).
(** (UINT) POW(2.0, e): undefined if the value does not fit *)
Definition upow2 (e : nat) : out nat := if (64 <=? e)%nat then UB else Ret (2 ^ e)%nat.

(** ** misc_filter_nonreal(&K, vals, tol_im), fnft__misc.c:199-220 on exact numbers *)
Definition im_keep (tol : xreal) (v : C) : bool := xlt tol (Fin (Rabs (snd v))).
Definition cfilter_nonreal (K : nat) (vals : list C) (tol : xreal) : out (Z * nat * list C) :=
  if negb (xle (Fin 0) tol) then Ret (EC_INVALID_ARGUMENT, K, vals) else
  r <- filter_loop (im_keep tol) K 0 0 vals None ;; let '(nf, vals, _) := r in Ret (SUCCESS, nf, vals).

(** fnft_nsep.c:1042-1082 update_bounding_box_if_auto; [None] is map_coeff = 2/0 = INFINITY *)
Definition update_box (eps_t : R) (map_coeff : option R) (o : popts) : popts :=
  let mc := match map_coeff with None => 1%R | Some m => if Req_EM_T m 0 then 1%R else m end in
  match p_filt o with
  | PF_AUTO =>
      let re := (9 / 10 * PI / (Rabs mc * eps_t))%R in
      let im := (- ln (1 / 10) / (Rabs mc * eps_t))%R in
      set_pbox o {| x0 := Fin (- re); x1 := Fin re; x2 := Fin (- im); x3 := Fin im |}
  | _ => o
  end.
(** :301-305, :559-563, :789-793: map_coeff = 2/degree1step *)
Definition map_coeff (d : nse_disc) : option R :=
  if Nat.eqb (nse_degree d) 0 then None else Some (2 / INR (nse_degree d))%R.
(** :867-871 in_box *)
Definition in_boxb (bb : xbox) (z : C) : bool :=
  xle (x0 bb) (Fin (fst z)) && xle (Fin (fst z)) (x1 bb) && xle (x2 bb) (Fin (snd z)) && xle (Fin (snd z)) (x3 bb).
(** CABS(z) <= tol *)
Definition xsmall (z : C) (tol : xreal) : bool := xle (Fin (Cmod z)) tol.

Section Nsep.
Variable E : penv.

(** ** :874-980 refine_mainspec *)

(** :906-913, :937-943: the monodromy matrix at lam; f = a + a~ + rhs and f'.  inl: error code *)
Definition main_f (s D : nat) (q r : list C) (eps_t : R) (kappa : Z) (d : nse_disc) (norm : bool) (rhs : R) (lam : C)
  : out (Z + C * C) :=
  x <- pe_mono E s D q r eps_t kappa lam norm d ;;
  let '(code, M, W) := x in
  if negb (Z.eqb code SUCCESS) then c <- E_SUBROUTINE code ;; Ret (inl c) else
  m0 <- aget M 0 ;; m3 <- aget M 3 ;; m4 <- aget M 4 ;; m7 <- aget M 7 ;;
  let scl := RtoC (if norm then powerRZ 2 W else 1) in
  Ret (inr (scl * (m0 + m3) + RtoC rhs, scl * (m4 + m7))).

(** :933-953, the trial steps m, m+1, .. (cnt of them) from lam; state: min_abs (None = INFINITY), best_m, next_f,
   next_f_prime; the last component counts the evaluations *)
Fixpoint try_steps (f : C -> out (Z + C * C)) (cnt m : nat) (lam incr : C) (tol : xreal) (min_abs : option R) (best : nat)
    (nf nfp : C) : out (Z * nat + nat * C * C * nat) :=
  match cnt with
  | O => Ret (inr (best, nf, nfp, O))
  | S k =>
      x <- f (lam - RtoC (INR m) * incr) ;;
      match x with
      | inl c => Ret (inl (c, 1%nat))
      | inr (tmp, tmpp) =>
          let cur := Cmod tmp in
          if (match min_abs with None => true | Some a => if Rlt_dec cur a then true else false end) then
            if xlt (Fin cur) tol then Ret (inr (m, tmp, tmpp, 1%nat)) else
            y <- try_steps f k (S m) lam incr tol (Some cur) m tmp tmpp ;;
            Ret (match y with inl (c, n) => inl (c, S n) | inr (b, g, gp, n) => inr (b, g, gp, S n) end)
          else
            y <- try_steps f k (S m) lam incr tol min_abs best nf nfp ;;
            Ret (match y with inl (c, n) => inl (c, S n) | inr (b, g, gp, n) => inr (b, g, gp, S n) end)
      end
  end.
(** :915-971, the loop of one spectrum point.  Result: code, the point, number of evaluations in the loop.  [fuel] bounds the
   passes; max_evals is enough (theorem). *)
Fixpoint main_loop (f : C -> out (Z + C * C)) (fuel nevals max_evals : nat) (tol : xreal) (bb : xbox) (lam fv fp : C)
  : out (Z * C * nat) :=
  if negb (nevals <=? max_evals)%nat then Ret (SUCCESS, lam, O) else
  match fuel with
  | O => UB
  | S fuel =>
      if ceq fp 0 then Ret (EC_DIV_BY_ZERO, lam, O) else
      let incr := fv / fp in
      y <- try_steps f 2 1 lam incr tol None 1 fv fp ;;
      match y with
      | inl (c, n) => Ret (c, lam, n)
      | inr (best, nf, nfp, n) =>
          let best_incr := RtoC (INR best) * incr in
          let lam := lam - best_incr in
          if xsmall best_incr tol || xsmall fv tol then
            if ceq nfp 0 then Ret (EC_DIV_BY_ZERO, lam, n) else Ret (SUCCESS, lam - nf / nfp, n)
          else if negb (in_boxb bb lam) then Ret (SUCCESS, lam, n)
          else z <- main_loop f fuel (nevals + n) max_evals tol bb lam nf nfp ;;
               let '(code, lam, k) := z in Ret (code, lam, (n + k)%nat)
      end
  end.
(** :904-974: one spectrum point *)
Definition refine_main_point (f : C -> out (Z + C * C)) (max_evals : nat) (tol : xreal) (bb : xbox) (lam : C) : out (Z * C * nat) :=
  x <- f lam ;;
  match x with
  | inl c => Ret (c, lam, 1%nat)
  | inr (fv, fp) =>
      y <- main_loop f max_evals 1 max_evals tol bb lam fv fp ;;
      let '(code, lam, n) := y in Ret (code, lam, S n)
  end.
(** :897-978: the points arr[i], ..., arr[i+cnt-1]; the last component lists the numbers of evaluations *)
Fixpoint refine_points (one : C -> out (Z * C * nat)) (cnt i : nat) (arr : list C) : out (Z * list C * list nat) :=
  match cnt with
  | O => Ret (SUCCESS, arr, [])
  | S k =>
      lam <- aget arr i ;;
      x <- one lam ;; let '(code, lam, n) := x in
      arr <- aset arr i lam ;;
      if negb (Z.eqb code SUCCESS) then Ret (code, arr, [n]) else
      y <- refine_points one k (S i) arr ;; let '(code, arr, ns) := y in Ret (code, arr, n :: ns)
  end.
Definition refine_mainspec (s D : nat) (q r : list C) (eps_t : R) (K off : nat) (arr : list C) (max_evals : nat) (rhs : R)
    (tol : xreal) (kappa : Z) (d : nse_disc) (bb : xbox) (norm : bool) : out (Z * list C * list nat) :=
  if Nat.eqb max_evals 0 then Ret (SUCCESS, arr, []) else
  refine_points (refine_main_point (main_f s D q r eps_t kappa d norm rhs) max_evals tol bb) K off arr.

(** ** :983-1040 refine_auxspec *)
Definition aux_f (s D : nat) (q r : list C) (eps_t : R) (kappa : Z) (d : nse_disc) (norm : bool) (lam : C) : out (Z + C * C) :=
  x <- pe_mono E s D q r eps_t kappa lam norm d ;;
  let '(code, M, W) := x in
  if negb (Z.eqb code SUCCESS) then c <- E_SUBROUTINE code ;; Ret (inl c) else
  m1 <- aget M 1 ;; m5 <- aget M 5 ;; Ret (inr (m1, m5)).
(** :1003-1032 *)
Fixpoint refine_aux_point (f : C -> out (Z + C * C)) (evals : nat) (tol : xreal) (bb : xbox) (lam : C) : out (Z * C * nat) :=
  match evals with
  | O => Ret (SUCCESS, lam, O)
  | S k =>
      x <- f lam ;;
      match x with
      | inl c => Ret (c, lam, 1%nat)
      | inr (fv, fp) =>
          if ceq fp 0 then Ret (EC_DIV_BY_ZERO, lam, 1%nat) else
          let incr := fv / fp in
          let lam := lam - incr in
          if xsmall incr tol || xsmall fv tol then Ret (SUCCESS, lam, 1%nat) else
          if negb (in_boxb bb lam) then Ret (SUCCESS, lam, 1%nat) else
          y <- refine_aux_point f k tol bb lam ;; let '(code, lam, n) := y in Ret (code, lam, S n)
      end
  end.
Definition refine_auxspec (s D : nat) (q r : list C) (eps_t : R) (K : nat) (arr : list C) (max_evals : nat)
    (tol : xreal) (kappa : Z) (d : nse_disc) (bb : xbox) (norm : bool) : out (Z * list C * list nat) :=
  if Nat.eqb max_evals 0 then Ret (SUCCESS, arr, []) else
  refine_points (refine_aux_point (aux_f s D q r eps_t kappa d norm) max_evals tol bb) K 0 arr.

(** what the subroutines change: options, *K_ptr, main_spec, *M_ptr, aux_spec *)
Record pst := { t_o : popts; t_K : nat; t_main : option (list C); t_M : nat; t_aux : option (list C) }.
Definition set_to (t : pst) x := {| t_o := x; t_K := t_K t; t_main := t_main t; t_M := t_M t; t_aux := t_aux t |}.
Definition set_tmain (t : pst) x := {| t_o := t_o t; t_K := t_K t; t_main := x; t_M := t_M t; t_aux := t_aux t |}.
Definition set_taux (t : pst) x := {| t_o := t_o t; t_K := t_K t; t_main := t_main t; t_M := t_M t; t_aux := x |}.
Definition set_counts (t : pst) K M := {| t_o := t_o t; t_K := K; t_main := t_main t; t_M := M; t_aux := t_aux t |}.

(** if (opts_ptr->filtering != fnft_nsep_filt_NONE) misc_filter(&K, roots, NULL, opts_ptr->bounding_box) *)
Definition pfilter (o : popts) (K : nat) (roots : list C) : out (Z * nat * list C) :=
  match p_filt o with PF_NONE => Ret (SUCCESS, K, roots) | _ => cfilter K roots (p_box o) end.
Definition pfilter_real (skip : bool) (tol_im : xreal) (K : nat) (roots : list C) : out (Z * nat * list C) :=
  if skip then cfilter_nonreal K roots tol_im else Ret (SUCCESS, K, roots).
(** :346-347, :602-603: p[i] = transfer_matrix[i] + CONJ(transfer_matrix[deg-i]) *)
Definition trace_poly (deg : nat) (tm : list C) : out (list C) :=
  for_ (S deg) 0 (fun i p => a <- aget tm i ;; b <- aget tm (deg - i) ;; Ret (p ++ [a + Cconj b])) [].

(** ** :241-456 gridsearch *)

(** the roots of p: :353-372, :388-409, :433-446.  [most]: the test that there are at most deg of them.  code, K, roots *)
Definition grid_roots (s deg : nat) (p : list C) (PHI : xreal * xreal) (eps_t : R) (roots : list C) (most : bool) (o : popts)
  : out (Z * nat * list C) :=
  x <- pe_grid E s deg p (oversampling * deg) PHI roots ;; let '(code, K, roots) := x in
  if negb (Z.eqb code SUCCESS) then c <- E_SUBROUTINE code ;; Ret (c, K, roots) else
  if most && (deg <? K)%nat then Ret (EC_OTHER, K, roots) else
  x <- nse_z_to_lambda K eps_t roots (p_disc o) ;; let '(code, roots) := x in
  if negb (Z.eqb code SUCCESS) then c <- E_SUBROUTINE code ;; Ret (c, K, roots) else
  x <- pfilter o K roots ;; let '(code, K, roots) := x in
  if negb (Z.eqb code SUCCESS) then c <- E_SUBROUTINE code ;; Ret (c, K, roots) else
  Ret (SUCCESS, K, roots).

(** main_spec and aux_spec point to the entries number offK and offM of the arrays of the user *)
Definition nsep_gridsearch (offK offM D : nat) (q : list C) (T : R * R) (kappa : Z) (t : pst) : out (Z * pst) :=
  let d := p_disc (t_o t) in
  let ups := nse_upsampling_factor d in
  if Nat.eqb ups 0 then Ret (EC_INVALID_ARGUMENT, t) else
  let eps_t := ((snd T - fst T) / INR D)%R in
  pp <- pe_pre E 10 D q eps_t kappa D d ;;
  match pp with
  | inl c => c <- E_SUBROUTINE c ;; Ret (c, t)
  | inr pp =>
  i <- nse_fscatter_numel (D * ups) d ;;
  if Nat.eqb i 0 then Ret (EC_INVALID_ARGUMENT, t) else
  if negb (pe_alloc E 10 0) then Ret (EC_NOMEM, t) else
  x <- pe_fscatter E 10 (D * ups) (po_q pp) (po_r pp) eps_t (pe_junk E 10 i) (p_norm (t_o t)) d ;;
  let '(code, deg, tm, W) := x in
  check code t (
  let W := if p_norm (t_o t) then W else 0%Z in
  let o := update_box eps_t (map_coeff d) (t_o t) in
  let t := set_to t o in
  mc <- deref (map_coeff d) ;;
  let a := xscale (mc * eps_t) (x0 (p_box o)) in
  let b := xscale (mc * eps_t) (x1 (p_box o)) in
  let PHI := if xlt b a then (b, a) else (a, b) in
  if negb (pe_alloc E 10 1) then Ret (EC_NOMEM, t) else
  let roots := pe_junk E 11 (oversampling * deg) in
  m <- match t_main t with
       | None => Ret (SUCCESS, (pe_junkK E, roots, None))
       | Some main =>
           if negb (pe_alloc E 10 2) then Ret (EC_NOMEM, (O, roots, Some main)) else
           p <- trace_poly deg tm ;;
           c <- aget p (deg / 2) ;;
           p <- aset p (deg / 2) (c + RtoC (2 * powerRZ 2 (- W))) ;;
           x <- grid_roots 10 deg p PHI eps_t roots true o ;; let '(code, K, roots) := x in
           if negb (Z.eqb code SUCCESS) then Ret (code, (O, roots, Some main)) else
           let K := if (t_K t <? K)%nat then t_K t else K in
           main <- copy K offK roots main ;;
           c <- aget p (deg / 2) ;;
           p <- aset p (deg / 2) (c - RtoC (4 * powerRZ 2 (- W))) ;;
           x <- grid_roots 11 deg p PHI eps_t roots true o ;; let '(code, K2, roots) := x in
           if negb (Z.eqb code SUCCESS) then Ret (code, (O, roots, Some main)) else
           let K2 := if (t_K t <? K + K2)%nat then (if (K <? t_K t)%nat then t_K t - K else 0)%nat else K2 in
           main <- copy K2 (offK + K) roots main ;;
           Ret (SUCCESS, ((K + K2)%nat, roots, Some main))
       end ;;
  let '(code, (K, roots, main)) := m in
  let t := set_tmain t main in
  if negb (Z.eqb code SUCCESS) then Ret (code, t) else
  m <- match t_aux t with
       | None => Ret (SUCCESS, (O, None))
       | Some aux =>
           x <- grid_roots 12 deg (firstn (deg + 1) (skipn (deg + 1) tm)) PHI eps_t roots false o ;; let '(code, M, roots) := x in
           if negb (Z.eqb code SUCCESS) then Ret (code, (O, Some aux)) else
           let M := if (t_M t <? M)%nat then t_M t else M in
           aux <- copy M offM roots aux ;;
           Ret (SUCCESS, (M, Some aux))
       end ;;
  let '(code, (M, aux)) := m in
  let t := set_taux t aux in
  if negb (Z.eqb code SUCCESS) then Ret (code, t) else
  Ret (SUCCESS, set_counts t K M))
  end.

(** ** :461-727 subsample_and_refine *)

(** :517-521 *)
Definition choose_Dsub (D Dsub : nat) : out nat :=
  if Nat.eqb Dsub 0
  then upow2 (uceiling (/ 2 * log2 (INR D * log2 (INR D) * log2 (INR D))))
  else upow2 (uround (log2 (INR Dsub))).
(** :541-545 and :783-786 *)
Definition refine_tol (o : popts) : xreal := if xlt (p_tol o) (Fin 0) then Fin (sqrt EPS) else p_tol o.
(** :609-616 and :805-813: 2.0*(rhs_0 + nval*rhs_step) *)
Definition spine_rhs (o : popts) (nval : nat) : R :=
  let st := (snd (p_floquet o) - fst (p_floquet o))%R in
  let st := if (1 <? p_points o)%nat then (st / INR (p_points o - 1))%R else st in
  (2 * (fst (p_floquet o) + INR nval * st))%R.

(** :624-652: roots of p, filtered; code, K_new, roots *)
Definition sub_roots (deg : nat) (p roots : list C) (eps_sub : R) (skip : bool) (tol_im : xreal) (o : popts) : out (Z * nat * list C) :=
  x <- pe_roots E 0 deg p roots ;; let '(code, roots) := x in
  if negb (Z.eqb code SUCCESS) then c <- E_SUBROUTINE code ;; Ret (c, O, roots) else
  x <- nse_z_to_lambda deg eps_sub roots (p_disc o) ;; let '(code, roots) := x in
  if negb (Z.eqb code SUCCESS) then c <- E_SUBROUTINE code ;; Ret (c, O, roots) else
  x <- pfilter o deg roots ;; let '(code, K, roots) := x in
  if negb (Z.eqb code SUCCESS) then c <- E_SUBROUTINE code ;; Ret (c, O, roots) else
  x <- pfilter_real skip tol_im K roots ;; let '(code, K, roots) := x in
  if negb (Z.eqb code SUCCESS) then c <- E_SUBROUTINE code ;; Ret (c, O, roots) else
  Ret (SUCCESS, K, roots).
(** :654-671: refinement and the second filtering *)
Definition sub_refine (s De : nat) (q r : list C) (eps_t : R) (K : nat) (roots : list C) (rhs : R) (kappa : Z) (d : nse_disc)
    (skip : bool) (tol_im : xreal) (o : popts) : out (Z * nat * list C) :=
  x <- refine_mainspec s De q r eps_t K 0 roots (p_max_evals o) (- rhs) (refine_tol o) kappa d (p_box o) (p_norm o) ;;
  let '(code, roots, _) := x in
  if negb (Z.eqb code SUCCESS) then c <- E_SUBROUTINE code ;; Ret (c, O, roots) else
  x <- pfilter o K roots ;; let '(code, K, roots) := x in
  if negb (Z.eqb code SUCCESS) then c <- E_SUBROUTINE code ;; Ret (c, O, roots) else
  x <- pfilter_real skip tol_im K roots ;; let '(code, K, roots) := x in
  if negb (Z.eqb code SUCCESS) then c <- E_SUBROUTINE code ;; Ret (c, O, roots) else
  Ret (SUCCESS, K, roots).
(** :618-686: nval, nval+1, .. (cnt of them); K points have been stored in main.  code, K, main, roots.  Kmax is *K_ptr *)
Fixpoint spine_loop (cnt nval : nat) (De : nat) (q r : list C) (eps_t : R) (deg : nat) (p : list C) (center : C) (W : Z)
    (eps_sub : R) (kappa : Z) (d : nse_disc) (skip : bool) (tol_im : xreal) (o : popts) (Kmax K : nat) (main roots : list C)
  : out (Z * (nat * list C * list C)) :=
  match cnt with
  | O => Ret (SUCCESS, (K, main, roots))
  | S k =>
      let rhs := spine_rhs o nval in
      p <- aset p (deg / 2) (center - RtoC (rhs * powerRZ 2 (- W))) ;;
      x <- sub_roots deg p roots eps_sub skip tol_im o ;; let '(code, Kn, roots) := x in
      if negb (Z.eqb code SUCCESS) then Ret (code, (K, main, roots)) else
      x <- sub_refine 0 De q r eps_t Kn roots rhs kappa d skip tol_im o ;; let '(code, Kn, roots) := x in
      if negb (Z.eqb code SUCCESS) then Ret (code, (K, main, roots)) else
      if (Kmax <? K + Kn)%nat then
        main <- copy (Kmax - K) K roots main ;; Ret (SUCCESS, (Kmax, main, roots))
      else
        main <- copy Kn K roots main ;;
        spine_loop k (S nval) De q r eps_t deg p center W eps_sub kappa d skip tol_im o Kmax (K + Kn)%nat main roots
  end.

Definition nsep_subsample (skip : bool) (D : nat) (q : list C) (T : R * R) (kappa : Z) (t : pst) : out (Z * pst) :=
  let d := p_disc (t_o t) in
  let ups := nse_upsampling_factor d in
  if Nat.eqb ups 0 then Ret (EC_INVALID_ARGUMENT, t) else
  let eps_t := ((snd T - fst T) / INR D)%R in
  pp <- pe_pre E 0 D q eps_t kappa D d ;;
  match pp with
  | inl c => c <- E_SUBROUTINE c ;; Ret (c, t)
  | inr pp =>
  Dsub <- choose_Dsub D (p_Dsub (t_o t)) ;;
  ps <- pe_pre E 1 D q eps_t kappa Dsub d ;;
  match ps with
  | inl c => c <- E_SUBROUTINE c ;; Ret (c, t)
  | inr ps =>
  let Dsub := po_Dsub ps in
  if Nat.eqb Dsub 0 then UB else
  let nskip := (D / Dsub)%nat in
  if negb (Nat.eqb (po_first ps) 0) || negb (Nat.eqb (po_last ps + nskip) D) then Ret (EC_ASSERTION_FAILED, t) else
  let rd := if Nat.eqb ups 2 then N_CF4_2 else if Nat.eqb ups 1 then N_BO else N_2SPLIT2_MODAL in
  i <- nse_fscatter_numel (Dsub * ups) d ;;
  if Nat.eqb i 0 then Ret (EC_INVALID_ARGUMENT, t) else
  if negb (pe_alloc E 0 0) then Ret (EC_NOMEM, t) else
  let eps_sub := (INR nskip * eps_t)%R in
  x <- pe_fscatter E 0 (Dsub * ups) (po_q ps) (po_r ps) eps_sub (pe_junk E 0 i) (p_norm (t_o t)) d ;;
  let '(code, deg, tm, W) := x in
  check code t (
  let W := if p_norm (t_o t) then W else 0%Z in
  let o := update_box eps_sub (map_coeff d) (t_o t) in
  let t := set_to t o in
  let tol_im := xscale (/ INR (oversampling * (D - 1))) (xsub (x3 (p_box o)) (x2 (p_box o))) in
  let roots := skipn (3 * (deg + 1)) tm in
  m <- match t_main t with
       | None => Ret (SUCCESS, (O, None, roots))
       | Some main =>
           if negb (pe_alloc E 0 1) then Ret (EC_NOMEM, (O, Some main, roots)) else
           p <- trace_poly deg tm ;;
           center <- aget p (deg / 2) ;;
           x <- spine_loop (p_points o) 0 (D * ups) (po_q pp) (po_r pp) eps_t deg p center W eps_sub kappa rd skip tol_im o (t_K t) 0 main roots ;;
           let '(code, (K, main, roots)) := x in Ret (code, (K, Some main, roots))
       end ;;
  let '(code, (K, main, roots)) := m in
  let t := set_tmain t main in
  if negb (Z.eqb code SUCCESS) then Ret (code, t) else
  m <- match t_aux t with
       | None => Ret (SUCCESS, (O, None))
       | Some aux =>
           x <- pe_roots E 1 deg (firstn (deg + 1) (skipn (deg + 1) tm)) roots ;; let '(_, roots) := x in
           x <- nse_z_to_lambda deg eps_sub roots d ;; let '(code, roots) := x in
           if negb (Z.eqb code SUCCESS) then c <- E_SUBROUTINE code ;; Ret (c, (O, Some aux)) else
           x <- pfilter o deg roots ;; let '(code, M, roots) := x in
           if negb (Z.eqb code SUCCESS) then c <- E_SUBROUTINE code ;; Ret (c, (O, Some aux)) else
           x <- refine_auxspec 1 (D * ups) (po_q pp) (po_r pp) eps_t M roots (p_max_evals o) (refine_tol o) kappa rd (p_box o) (p_norm o) ;;
           let '(code, roots, _) := x in
           if negb (Z.eqb code SUCCESS) then c <- E_SUBROUTINE code ;; Ret (c, (O, Some aux)) else
           x <- pfilter o M roots ;; let '(code, M, roots) := x in
           if negb (Z.eqb code SUCCESS) then c <- E_SUBROUTINE code ;; Ret (c, (O, Some aux)) else
           x <- pfilter_real skip tol_im M roots ;; let '(code, M, roots) := x in
           if negb (Z.eqb code SUCCESS) then c <- E_SUBROUTINE code ;; Ret (c, (O, Some aux)) else
           let M := if (t_M t <? M)%nat then t_M t else M in
           aux <- copy M 0 roots aux ;;
           Ret (SUCCESS, (M, Some aux))
       end ;;
  let '(code, (M, aux)) := m in
  let t := set_taux t aux in
  if negb (Z.eqb code SUCCESS) then Ret (code, t) else
  Ret (SUCCESS, set_counts t K M))
  end end.

(** ** :731-864 newton *)

(** :817-831: the blocks of K guesses number nval, nval+1, .. *)
Fixpoint newton_blocks (cnt nval : nat) (De : nat) (q r : list C) (eps_t : R) (K : nat) (kappa : Z) (o : popts) (main : list C)
  : out (Z * list C) :=
  match cnt with
  | O => Ret (SUCCESS, main)
  | S k =>
      x <- refine_mainspec 20 De q r eps_t K (nval * K) main (p_max_evals o) (- spine_rhs o nval) (refine_tol o) kappa (p_disc o) (p_box o) (p_norm o) ;;
      let '(code, main, _) := x in
      if negb (Z.eqb code SUCCESS) then c <- E_SUBROUTINE code ;; Ret (c, main) else
      newton_blocks k (S nval) De q r eps_t K kappa o main
  end.
Definition nsep_newton (D : nat) (q : list C) (T : R * R) (kappa : Z) (t : pst) : out (Z * pst) :=
  let d := p_disc (t_o t) in
  let ups := nse_upsampling_factor d in
  if Nat.eqb ups 0 then Ret (EC_INVALID_ARGUMENT, t) else
  let eps_t := ((snd T - fst T) / INR D)%R in
  pp <- pe_pre E 20 D q eps_t kappa D d ;;
  match pp with
  | inl c => c <- E_SUBROUTINE c ;; Ret (c, t)
  | inr pp =>
  if negb (Nat.eqb (po_Dsub pp) D) then Ret (EC_ASSERTION_FAILED, t) else
  let o := update_box eps_t (map_coeff d) (t_o t) in
  let t := set_to t o in
  m <- match t_main t with
       | None => Ret (SUCCESS, t)
       | Some main =>
           x <- newton_blocks (p_points o) 0 (D * ups) (po_q pp) (po_r pp) eps_t (t_K t) kappa o main ;;
           let '(code, main) := x in
           let t := set_tmain t (Some main) in
           if negb (Z.eqb code SUCCESS) then Ret (code, t) else
           x <- pfilter o (t_K t * p_points o) main ;; let '(code, K, main) := x in
           let t := set_tmain t (Some main) in
           check code t (Ret (SUCCESS, set_counts t K (t_M t)))
       end ;;
  let '(code, t) := m in
  if negb (Z.eqb code SUCCESS) then Ret (code, t) else
  match t_aux t with
  | None => Ret (SUCCESS, t)
  | Some aux =>
      x <- refine_auxspec 21 (D * ups) (po_q pp) (po_r pp) eps_t (t_M t) aux (p_max_evals o) (refine_tol o) kappa d (p_box o) (p_norm o) ;;
      let '(code, aux, _) := x in
      let t := set_taux t (Some aux) in
      check code t (
      x <- pfilter o (t_M t) aux ;; let '(code, M, aux) := x in
      let t := set_taux t (Some aux) in
      check code t (Ret (SUCCESS, set_counts t (t_K t) M)))
  end
  end.

(** ** :94-237 fnft_nsep *)

(** :110-131 *)
Definition nsep_check (D : nat) (q : option (list C)) (T : option (R * R)) (sheet : bool) (kappa : Z) (o : popts) (w : pouts) : Z :=
  if (D <? 2)%nat || negb (Nat.eqb (Nat.land D (D - 1)) 0) then EC_INVALID_ARGUMENT else
  if no_ptr q then EC_INVALID_ARGUMENT else
  if bad_interval T then EC_INVALID_ARGUMENT else
  if negb (Z.eqb (Z.abs kappa) 1) then EC_INVALID_ARGUMENT else
  if no_ptr (w_K w) then EC_INVALID_ARGUMENT else
  if no_ptr (w_M w) then EC_INVALID_ARGUMENT else
  if sheet then EC_NOT_YET_IMPLEMENTED else
  if match p_filt o with PF_NONE => false | _ => true end && no_ptr (w_main w) && negb (no_ptr (w_aux w)) then EC_INVALID_ARGUMENT else
  SUCCESS.
(** :134: phase_shift/(-2*(T[1]-T[0])) *)
Definition lam_shift (T : R * R) (phase_shift : R) : R := (phase_shift / (-2 * (snd T - fst T)))%R.
(** :145, :220 *)
Definition shift_box (o : popts) (x : R) : popts :=
  match p_filt o with
  | PF_MANUAL => let b := p_box o in set_pbox o {| x0 := xadd (x0 b) x; x1 := xadd (x1 b) x; x2 := x2 b; x3 := x3 b |}
  | _ => o
  end.
Definition shift_points (n : nat) (x : R) (l : option (list C)) : out (option (list C)) :=
  match l with
  | None => Ret None
  | Some l => l <- for_ n 0 (fun i l => v <- aget l i ;; aset l i (v + RtoC x)) l ;; Ret (Some l)
  end.
Definition to_outs (t : pst) : pouts := {| w_K := Some (t_K t); w_main := t_main t; w_M := Some (t_M t); w_aux := t_aux t |}.

(** :154-213: the four localization methods *)
Definition nsep_locate (D : nat) (q : list C) (T : R * R) (kappa : Z) (t : pst) : out (Z * pst) :=
  match p_loc (t_o t) with
  | PL_MIXED =>
      let K := t_K t in let M := t_M t in
      x <- (if Z.eqb kappa 1 then nsep_subsample true D q T kappa t
            else
              y <- nsep_subsample true D q T kappa (set_counts (set_tmain t None) 0 M) ;;
              let '(code, t') := y in Ret (code, set_tmain t' (t_main t))) ;;
      let '(code, t1) := x in
      let K1 := t_K t1 in let M1 := t_M t1 in
      check code (set_counts t1 K M) (
      if (K <? K1)%nat || (M <? M1)%nat then Ret (EC_ASSERTION_FAILED, set_counts t1 K M) else
      x <- nsep_gridsearch K1 M1 D q T kappa (set_counts t1 (K - K1) (M - M1)) ;; let '(code, t2) := x in
      check code (set_counts t2 K M) (Ret (SUCCESS, set_counts t2 (K1 + t_K t2) (M1 + t_M t2))))
  | PL_SUBSAMPLE_AND_REFINE => x <- nsep_subsample false D q T kappa t ;; let '(code, t) := x in check code t (Ret (SUCCESS, t))
  | PL_NEWTON => x <- nsep_newton D q T kappa t ;; let '(code, t) := x in check code t (Ret (SUCCESS, t))
  | PL_GRIDSEARCH => x <- nsep_gridsearch 0 0 D q T kappa t ;; let '(code, t) := x in check code t (Ret (SUCCESS, t))
  | PL_bad => Ret (EC_INVALID_ARGUMENT, t)
  end.

Definition nsep_run (D : nat) (q : option (list C)) (T : option (R * R)) (phase_shift : R) (sheet : bool) (kappa : Z)
    (o : popts) (w : pouts) : out (Z * (popts * pouts)) :=
  let code := nsep_check D q T sheet kappa o w in
  if negb (Z.eqb code SUCCESS) then Ret (code, (o, w)) else
  q <- deref q ;; T <- deref T ;; K <- deref (w_K w) ;; M <- deref (w_M w) ;;
  let L := lam_shift T phase_shift in
  let eps_t := ((snd T - fst T) / INR D)%R in
  if negb (pe_alloc E 30 0) then Ret (EC_NOMEM, (o, w)) else
  qp <- for_ D 0 (fun i l => x <- aget q i ;; Ret (l ++ [x * Cexp (RtoC 2 * Ci * RtoC L * RtoC (fst T + eps_t * INR i))])) [] ;;
  let t := {| t_o := shift_box o (- L); t_K := K; t_main := w_main w; t_M := M; t_aux := w_aux w |} in
  x <- nsep_locate D qp T kappa t ;; let '(code, t) := x in
  if negb (Z.eqb code SUCCESS) then Ret (code, (t_o t, to_outs t)) else
  main <- shift_points (t_K t) L (t_main t) ;;
  aux <- shift_points (t_M t) L (t_aux t) ;;
  Ret (SUCCESS, (shift_box (t_o t) L, to_outs (set_taux (set_tmain t main) aux))).

(** [user] is opts_ptr, [dflt] the static variable default_opts *)
Definition fnft_nsep (D : nat) (q : option (list C)) (T : option (R * R)) (phase_shift : R) (sheet : bool) (kappa : Z)
    (user : option popts) (dflt : popts) (w : pouts) : out (Z * pouts * option popts * popts) :=
  match user with
  | Some o => x <- nsep_run D q T phase_shift sheet kappa o w ;; let '(code, (o, w)) := x in Ret (code, w, Some o, dflt)
  | None => x <- nsep_run D q T phase_shift sheet kappa dflt w ;; let '(code, (o, w)) := x in Ret (code, w, None, o)
  end.
End Nsep.
