(** * Model of src/fnft_manakovv.c: the driver of the NFT for the Manakov equation with vanishing boundaries

   Same conventions as NsevModel: exact complex arithmetic, arrays are lists with checked access, NULL is [None],
   [UB] is undefined behaviour or a division of a REAL by zero, and the numerical subroutines are a parameter, of
   type [menv], whose results may depend in any way on the arguments and the call site.  Models of the subroutines are
   in DiscModel, ManFscModel and ChirpzModel.  The array normconsts_or_residues is in the outputs although no
   statement writes to it.  Not modelled: printing of warnings, release of memory (except for the double free), wrap-around of UINT and INT,
   rounding. *)
From Coq Require Import Reals.
From Coquelicot Require Import Coquelicot.
From Verif Require Export Fields ManFscModel NsevModel.
Local Open Scope C_scope.

(** ** Options, include/fnft_manakovv.h:39-180.  A C enum can hold other values than the named ones: _bad. *)
Inductive mfilt := MF_NONE | MF_BASIC | MF_FULL | MF_bad.
Inductive mloc := ML_FAST_EIGENVALUE | ML_NEWTON | ML_SUBSAMPLE_AND_REFINE | ML_bad.
Record mopts := {
  m_filt : mfilt;              (* bound_state_filtering *)
  m_loc : mloc;                (* bound_state_localization *)
  m_niter : nat;
  m_Dsub : nat;
  m_ds : dstype;               (* discspec_type *)
  m_cs : cstype;               (* contspec_type *)
  m_norm : bool;               (* normalization_flag *)
  m_disc : man_disc;           (* discretization *)
  m_rich : nat }.              (* richardson_extrapolation_flag *)
Definition mset_loc (o : mopts) (x : mloc) : mopts :=
  {| m_filt := m_filt o; m_loc := x; m_niter := m_niter o; m_Dsub := m_Dsub o; m_ds := m_ds o; m_cs := m_cs o; m_norm := m_norm o; m_disc := m_disc o; m_rich := m_rich o |}.
Definition mset_ds (o : mopts) (x : dstype) : mopts :=
  {| m_filt := m_filt o; m_loc := m_loc o; m_niter := m_niter o; m_Dsub := m_Dsub o; m_ds := x; m_cs := m_cs o; m_norm := m_norm o; m_disc := m_disc o; m_rich := m_rich o |}.
(** fnft_manakovv.c:28-38 *)
Definition manakovv_default_opts : mopts :=
  {| m_filt := MF_FULL; m_loc := ML_SUBSAMPLE_AND_REFINE; m_niter := 10; m_Dsub := 0; m_ds := DS_NORMING_CONSTANTS;
     m_cs := CS_REFLECTION_COEFFICIENT; m_norm := true; m_disc := M_2SPLIT4B; m_rich := 0 |}.
(** fnft_manakovv.c:53-59 fnft_manakovv_max_K *)
Definition manakovv_max_K (D : nat) (opts : option mopts) : nat :=
  (man_degree (m_disc (match opts with Some o => o | None => manakovv_default_opts end)) * D)%nat.

(** ** Subroutines.  The first argument is the call site. *)
Record menv := {
  me_alloc : nat -> nat -> bool;
  me_junk : nat -> nat -> list C;
  (** manakov_discretization_preprocess_signal(D, q1, q2, eps_t, &Dsub, ..); po_q and po_r are the two components *)
  me_pre : nat -> nat -> list C -> list C -> R -> nat -> man_disc -> out (Z + pre_out);
  (** manakov_fscatter(D, q1, q2, kappa, eps_t, result, &deg, W_ptr, discretization): code, deg, result, W *)
  me_fscatter : nat -> nat -> list C -> list C -> Z -> R -> list C -> bool -> man_disc -> out (Z * nat * list C * Z);
  (** manakov_scatter_matrix(D, q1, q2, eps_t, M, xi, kappa, result, discretization): code, result *)
  me_smat : nat -> nat -> list C -> list C -> R -> nat -> list C -> Z -> man_disc -> out (Z * list C);
  (** poly_chirpz(deg, p, A, W, M, result): code, result; poly_roots_fasteigen(deg, p, roots): code, roots *)
  me_chirpz : nat -> nat -> list C -> C -> C -> nat -> out (Z * list C);
  me_roots : nat -> nat -> list C -> list C -> out (Z * list C) }.

Section Manv.
Variable E : menv.

(** ** fnft_manakovv.c:516-667 manakovv_compute_contspec *)

(** :617-624, the reflection coefficients at the frequencies i, i+1, .. *)
Fixpoint mrho_loop (cnt i M : nat) (H11 H21 H31 xi : list C) (phase : R) (result : list C) : out (Z * list C) :=
  match cnt with
  | O => Ret (SUCCESS, result)
  | S k =>
      h <- aget H11 i ;;
      if ceq h 0 then Ret (EC_DIV_BY_ZERO, result) else
      x <- aget xi i ;;
      g <- aget H21 i ;; result <- aset result i (g * Cexp (Ci * x * RtoC phase) / h) ;;
      g <- aget H31 i ;; result <- aset result (M + i) (g * Cexp (Ci * x * RtoC phase) / h) ;;
      mrho_loop k (S i) M H11 H21 H31 xi phase result
  end.
(** :643-647 *)
Definition mab_loop (M offset : nat) (H11 H21 H31 xi : list C) (scale pa pb : R) (result : list C) : out (list C) :=
  for_ M 0 (fun i result =>
    h <- aget H11 i ;; g <- aget H21 i ;; g' <- aget H31 i ;; x <- aget xi i ;;
    result <- aset result (offset + i) (h * RtoC scale * Cexp (Ci * x * RtoC pa)) ;;
    result <- aset result (offset + M + i) (g * RtoC scale * Cexp (Ci * x * RtoC pb)) ;;
    aset result (offset + 2 * M + i) (g' * RtoC scale * Cexp (Ci * x * RtoC pb))) result.

(** :562-605, the values of the transfer matrix entries 11, 21 and 31 on the grid *)
Definition mcontspec_values (s deg : nat) (W : Z) (tm : option (list C)) (q1 q2 : list C) (eps_t eps_xi : R)
    (D M : nat) (XI0 : R) (xi : list C) (kappa : Z) (o : mopts) : out (Z * (list C * list C * list C)) :=
  let none := ([], [], []) in
  if Nat.eqb deg 0 && match tm with None => true | _ => false end && Z.eqb W 0 then
    if negb (me_alloc E s 2) then Ret (EC_NOMEM, none) else
    x <- me_smat E s D q1 q2 eps_t M xi kappa (m_disc o) ;; let '(code, sc) := x in
    check code none (
    H <- for_ M 0 (fun i H => let '(H11, H21, H31) := H in
      h <- aget sc (i * 9) ;; g <- aget sc (i * 9 + 3) ;; g' <- aget sc (i * 9 + 6) ;;
      Ret (H11 ++ [h], H21 ++ [g], H31 ++ [g'])) none ;;
    Ret (SUCCESS, H))
  else
    v <- man_lambda_to_z 1 eps_t [RtoC eps_xi] (m_disc o) ;; let '(code, v) := v in
    check code none (
    a <- man_lambda_to_z 1 eps_t [RtoC (- XI0)] (m_disc o) ;; let '(code, a) := a in
    check code none (
    V <- aget v 0 ;; A <- aget a 0 ;;
    p <- deref tm ;;
    h <- me_chirpz E s deg (firstn (deg + 1) p) A V M ;; let '(code, H11) := h in
    check code none (
    h <- me_chirpz E s deg (firstn (deg + 1) (skipn (3 * (deg + 1)) p)) A V M ;; let '(code, H21) := h in
    check code none (
    h <- me_chirpz E s deg (firstn (deg + 1) (skipn (6 * (deg + 1)) p)) A V M ;; let '(code, H31) := h in
    check code none (Ret (SUCCESS, (H11, H21, H31))))))).

Definition manakovv_compute_contspec (s deg : nat) (W : Z) (tm : option (list C)) (q1 q2 : list C) (T : R * R) (D : nat)
    (XI : option (R * R)) (M : nat) (result : list C) (kappa : Z) (o : mopts) : out (Z * list C) :=
  let ups := man_upsampling_factor (m_disc o) in
  if Nat.eqb ups 0 then Ret (EC_INVALID_ARGUMENT, result) else
  let D_given := (D / ups)%nat in
  eps_t <- step (snd T - fst T) D_given ;;
  XI <- deref XI ;;
  eps_xi <- step (snd XI - fst XI) M ;;
  if negb (me_alloc E s 0) then Ret (EC_NOMEM, result) else
  let xi := map (fun i => RtoC (fst XI + eps_xi * INR i)) (seq 0 M) in
  if negb (me_alloc E s 1) then Ret (EC_NOMEM, result) else
  v <- mcontspec_values s deg W tm q1 q2 eps_t eps_xi D M (fst XI) xi kappa o ;;
  let '(code, (H11, H21, H31)) := v in
  if negb (Z.eqb code SUCCESS) then Ret (code, result) else
  let rho (result : list C) :=
    p <- phase (man_phase_factor_rho eps_t (snd T) (m_disc o)) ;;
    check (fst p) result (mrho_loop M 0 M H11 H21 H31 xi (snd p) result) in
  let ab (offset : nat) (result : list C) :=
    pa <- phase (man_phase_factor_a eps_t D_given (fst T) (snd T) (m_disc o)) ;;
    check (fst pa) result (
    pb <- phase (man_phase_factor_b eps_t D_given (fst T) (snd T) (m_disc o)) ;;
    check (fst pb) result (
    result <- mab_loop M offset H11 H21 H31 xi (powerRZ 2 W) (snd pa) (snd pb) result ;;
    Ret (SUCCESS, result))) in
  match m_cs o with
  | CS_REFLECTION_COEFFICIENT => rho result
  | CS_AB => ab O result
  | CS_BOTH => x <- rho result ;; let '(code, result) := x in
               if negb (Z.eqb code SUCCESS) then Ret (code, result) else ab (2 * M)%nat result
  | CS_bad => Ret (EC_INVALID_ARGUMENT, result)
  end.

(** ** fnft_manakovv.c:445-512 manakovv_compute_boundstates *)

(** :454-457 *)
Definition upper_half_plane : xbox := {| x0 := Inf false; x1 := Inf true; x2 := Fin 0; x3 := Inf true |}.
(** :484-491 *)
Definition manakovv_filter (K : nat) (buffer : list C) (o : mopts) : out (Z * (nat * list C)) :=
  match m_filt o with
  | MF_NONE => Ret (SUCCESS, (K, buffer))
  | _ =>
      f <- cfilter K buffer upper_half_plane ;; let '(code, K, buffer) := f in
      check code (K, buffer) (
      m <- cmerge K buffer ;; let '(code, K, buffer) := m in
      check code (K, buffer) (Ret (SUCCESS, (K, buffer))))
  end.
(** result: code, *K_ptr, bound_states.  The transfer matrix is not used any more after this call, so the buffer
   inside it is a list of its own here.  poly_roots_fasteigen rejects p == NULL (fnft__poly_roots_fasteigen.c:35) *)
Definition manakovv_compute_boundstates (s deg : nat) (tm : option (list C)) (eps_t : R) (K_in : nat) (bs : list C) (o : mopts)
  : out (Z * (nat * list C)) :=
  let own := (deg <=? K_in)%nat in
  match tm with
  | None => c <- E_SUBROUTINE EC_INVALID_ARGUMENT ;; Ret (c, (K_in, bs))
  | Some tm =>
  let buffer := if own then bs else skipn (deg + 1) tm in
  x <- me_roots E s deg (firstn (deg + 1) tm) buffer ;; let '(code, buffer) := x in
  let bs := if own then buffer else bs in
  check code (K_in, bs) (
  z <- man_z_to_lambda deg eps_t buffer (m_disc o) ;; let '(code, buffer) := z in
  let bs := if own then buffer else bs in
  check code (K_in, bs) (
  f <- manakovv_filter deg buffer o ;; let '(code, (K, buffer)) := f in
  let bs := if own then buffer else bs in
  if negb (Z.eqb code SUCCESS) then Ret (code, (K_in, bs)) else
  if own then Ret (SUCCESS, (K, bs)) else
  let K := if (K_in <? K)%nat then K_in else K in
  bs <- copy K 0 buffer bs ;;
  Ret (SUCCESS, (K, bs))))
  end.

(** ** fnft_manakovv.c:342-443 fnft_manakovv_base.  q1, q2 and opts are not NULL at the calls. *)
Definition fnft_manakovv_base (s D : nat) (q1 q2 : list C) (T : R * R) (M : nat) (XI : option (R * R)) (kappa : Z)
    (o : mopts) (u : outs) : out (Z * outs) :=
  if args_bad D (Some q1) (Some T) XI kappa u then Ret (EC_INVALID_ARGUMENT, u) else
  let ups := man_upsampling_factor (m_disc o) in
  if Nat.eqb ups 0 then Ret (EC_INVALID_ARGUMENT, u) else
  eps_t <- step (snd T - fst T) (D / ups) ;;
  i <- man_fscatter_numel D (m_disc o) ;;
  if negb (Nat.eqb i 0) && negb (me_alloc E s 8) then Ret (EC_NOMEM, u) else
  t <- (if negb (Nat.eqb i 0)
        then x <- me_fscatter E s D q1 q2 kappa eps_t (me_junk E 8 i) (m_norm o) (m_disc o) ;;
             let '(code, deg, tm, W) := x in
             Ret (code, deg, Some tm, if m_norm o then W else 0%Z)
        else Ret (SUCCESS, O, None, 0%Z)) ;;
  let '(code, deg, tm, W) := t in
  check code u (
  c <- match u_cs u with
       | Some cs => if (0 <? M)%nat
                    then x <- manakovv_compute_contspec s deg W tm q1 q2 T D XI M cs kappa o ;; Ret (fst x, set_cs u (Some (snd x)))
                    else Ret (SUCCESS, u)
       | None => Ret (SUCCESS, u)
       end ;;
  let '(code, u) := c in
  check code u (
  match u_bs u with
  | Some bs =>
      if Z.eqb kappa 1 then
        K <- deref (u_K u) ;;
        x <- manakovv_compute_boundstates s deg tm eps_t K bs o ;;
        let '(code, (K, bs)) := x in
        let u := set_K (set_bs u (Some bs)) (Some K) in
        check code u (Ret (SUCCESS, u))
      else Ret (SUCCESS, u)
  | None => Ret (SUCCESS, u)
  end)).

(** ** fnft_manakovv.c:110-331 fnft_manakovv *)

(** :168-192: None for a value that is not in the switch, Some true for the fast methods, Some false for BO and CF4_2 *)
Definition man_class (d : man_disc) : option bool :=
  match d with
  | M_2SPLIT3A | M_2SPLIT3B | M_2SPLIT4A | M_2SPLIT4B | M_2SPLIT6B | M_4SPLIT4A | M_4SPLIT4B | M_4SPLIT6B | M_FTES4_4A | M_FTES4_suzuki => Some true
  | M_BO | M_CF4_2 => Some false
  | _ => None
  end.
Definition is_mnewton (l : mloc) : bool := match l with ML_NEWTON => true | _ => false end.

(** :261-272: contspec_len / M *)
Definition mcs_blocks (t : cstype) : nat :=
  match t with CS_BOTH => 5 | CS_REFLECTION_COEFFICIENT => 2 | CS_AB => 3 | CS_bad => 0 end.

(** :255-320, everything under the second richardson_extrapolation_flag == 1.  [live]: q1sub_preprocessed is allocated *)
Definition manakovv_richardson (D : nat) (q1 q2 : list C) (T : R * R) (M : nat) (XI : option (R * R)) (kappa : Z) (eps_t : R)
    (ups : nat) (ds_opt : dstype) (live : bool) (o : mopts) (u : outs) : out (Z * (mopts * outs)) :=
  let fail (c : Z) := Ret (c, (o, u)) in
  let want_cs := negb (no_ptr (u_cs u)) && (0 <? M)%nat in
  if want_cs && match m_cs o with CS_bad => true | _ => false end then fail EC_INVALID_ARGUMENT else
  let cs_len := if want_cs then (mcs_blocks (m_cs o) * M)%nat else O in
  if want_cs && negb (me_alloc E 3 0) then fail EC_NOMEM else
  let cs_sub := if want_cs then Some (me_junk E 0 cs_len) else None in
  let order := man_method_order (m_disc o) in
  if Nat.eqb order 0 then fail EC_INVALID_ARGUMENT else
  p <- me_pre E 2 D q1 q2 eps_t (D / 2) (m_disc o) ;;
  match p with
  | inl c =>
      (* :289-292 have freed q1sub_preprocessed, which leave_fun frees again: the failing call stores no new pointer
         (fnft__manakov_discretization.c:211-212) *)
      if live then UB else c <- E_SUBROUTINE c ;; fail c
  | inr p =>
      let Tsub := (fst T + INR (po_first p) * eps_t, fst T + INR (po_last p) * eps_t)%R in
      eps_sub <- step (snd Tsub - fst Tsub) (po_Dsub p) ;;
      let o' := mset_loc o ML_NEWTON in
      x <- fnft_manakovv_base 3 (po_Dsub p * ups) (po_q p) (po_r p) Tsub M XI kappa o'
             {| u_cs := cs_sub; u_K := Some O; u_bs := None; u_nc := None |} ;;
      let '(code, v) := x in
      if negb (Z.eqb code SUCCESS) then c <- E_SUBROUTINE code ;; Ret (c, (o', u)) else
      let o := mset_ds (mset_loc o' (m_loc o)) ds_opt in
      let scl_num := ((eps_sub / eps_t) ^ order)%R in
      let scl_den := (scl_num - 1)%R in
      XI <- deref XI ;;
      match u_cs u with
      | Some cs =>
          if (0 <? M)%nat then
            sub <- deref (u_cs v) ;;
            cs <- richardson_cs M (cs_len / M) XI eps_sub scl_num scl_den sub cs ;; Ret (SUCCESS, (o, set_cs u (Some cs)))
          else Ret (SUCCESS, (o, u))
      | None => Ret (SUCCESS, (o, u))
      end
  end.

(** :140-253 for a non-NULL [o].  Result: code, contents of the options struct, outputs. *)
Definition manakovv_run (D : nat) (q1 q2 : option (list C)) (T : option (R * R)) (M : nat) (XI : option (R * R)) (kappa : Z)
    (o : mopts) (u : outs) : out (Z * (mopts * outs)) :=
  if args_bad D q1 T XI kappa u || no_ptr q2 then Ret (EC_INVALID_ARGUMENT, (o, u)) else
  match man_class (m_disc o) with
  | None => Ret (EC_INVALID_ARGUMENT, (o, u))
  | Some fast =>
  if negb fast && negb (is_mnewton (m_loc o)) && Z.eqb kappa 1 && negb (no_ptr (u_bs u))
  then Ret (EC_INVALID_ARGUMENT, (o, u)) else
  let ups := man_upsampling_factor (m_disc o) in
  if Nat.eqb ups 0 then Ret (EC_INVALID_ARGUMENT, (o, u)) else
  q1 <- deref q1 ;; q2 <- deref q2 ;; T <- deref T ;;
  eps_t <- step (snd T - fst T) D ;;
  let rich := Nat.eqb (m_rich o) 1 in
  let ds_opt := if rich then m_ds o else DS_NORMING_CONSTANTS in
  let res := rich && match m_ds o with DS_RESIDUES => true | _ => false end in
  let o := if res then mset_ds o DS_BOTH else o in
  _ <- (if res then deref (u_K u) else Ret O) ;;
  if res && negb (me_alloc E 0 9) then Ret (EC_NOMEM, (o, u)) else
  p <- me_pre E 0 D q1 q2 eps_t D (m_disc o) ;;
  match p with
  | inl c => c <- E_SUBROUTINE c ;; Ret (c, (o, u))
  | inr p =>
      (* :226-234 *)
      x <- match u_cs u with
           | None => Ret (SUCCESS, u)
           | Some cs =>
               x <- fnft_manakovv_base 0 (D * ups) (po_q p) (po_r p) T M XI kappa o (set_cs u None) ;;
               let '(code, v) := x in
               let u := set_cs v (Some cs) in
               check code u (
               x <- fnft_manakovv_base 1 (D * ups) (po_q p) (po_r p) T M XI kappa o (set_bs u None) ;;
               let '(code, v) := x in
               let u := set_bs v (u_bs u) in
               check code u (Ret (SUCCESS, u)))
           end ;;
      let '(code, u) := x in
      if negb (Z.eqb code SUCCESS) then Ret (code, (o, u)) else
      (* :236-253 *)
      let want_bs := Z.eqb kappa 1 && negb (no_ptr (u_bs u)) in
      x <- (if want_bs then
              Dsub <- sub_size D (m_Dsub o) ;;
              ps <- me_pre E 1 D q1 q2 eps_t Dsub (m_disc o) ;;
              match ps with
              | inl c => c <- E_SUBROUTINE c ;; Ret (c, u)
              | inr ps =>
                  x <- fnft_manakovv_base 2 (po_Dsub ps * ups) (po_q ps) (po_r ps) T M XI kappa o (set_cs u None) ;;
                  let '(code, v) := x in
                  let u := set_cs v (u_cs u) in
                  check code u (Ret (SUCCESS, u))
              end
            else Ret (SUCCESS, u)) ;;
      let '(code, u) := x in
      if negb (Z.eqb code SUCCESS) then Ret (code, (o, u)) else
      if rich then manakovv_richardson D q1 q2 T M XI kappa eps_t ups ds_opt want_bs o u else Ret (SUCCESS, (o, u))
  end
  end.

(** [user] is what opts points to (None = NULL), [dflt] is the static variable default_opts.
   Result: return code, outputs, the user's struct and default_opts after the call. *)
Definition fnft_manakovv (D : nat) (q1 q2 : option (list C)) (T : option (R * R)) (M : nat) (XI : option (R * R)) (kappa : Z)
    (user : option mopts) (dflt : mopts) (u : outs) : out (Z * outs * option mopts * mopts) :=
  x <- manakovv_run D q1 q2 T M XI kappa (match user with Some o => o | None => dflt end) u ;;
  let '(code, (o, u)) := x in
  Ret (code, u, match user with Some _ => Some o | None => None end, match user with Some _ => dflt | None => o end).

End Manv.
