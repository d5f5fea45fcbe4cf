(** * Model of the discretization routines of AKNS, NSE, KdV and Manakov

   src/private/fnft__akns_discretization.c, fnft__nse_discretization.c, fnft__kdv_discretization.c,
   fnft__manakov_discretization.c.  The switch tables are in DiscTables.v.
   Exact arithmetic over Coquelicot's C.  Error code 2 = E_INVALID_ARGUMENT, 3 = E_DIV_BY_ZERO,
   negative = error of a subroutine (FNFT__E_SUBROUTINE). *)
From Coq Require Import Reals.
From Coquelicot Require Import Coquelicot.
From Verif Require Export DiscTables ResampleModel MiscModel MiscNumModel CExp.
Local Open Scope C_scope.

(** ** lambda <-> z *)

(** fnft__akns_discretization.c:204-219 *)
Definition akns_lambda_to_z (n : nat) (eps_t : R) (vals : list C) (d : akns_disc) : out (Z * list C) :=
  let ups := akns_upsampling_factor d in
  if (ups =? 0)%nat then Ret (2%Z, vals) else
  let deg := akns_degree d in
  if (deg =? 0)%nat then Ret (2%Z, vals) else
  let degree1step := (INR deg * INR ups)%R in
  vals <- fill n 0 (fun i => v <- aget vals i ;; Ret (Cexp (2 * Ci * v * RtoC eps_t / RtoC degree1step))) vals ;;
  Ret (0%Z, vals).

(** fnft__akns_discretization.c:225-240 *)
Definition akns_z_to_lambda (n : nat) (eps_t : R) (vals : list C) (d : akns_disc) : out (Z * list C) :=
  let ups := akns_upsampling_factor d in
  if (ups =? 0)%nat then Ret (2%Z, vals) else
  let deg := akns_degree d in
  if (deg =? 0)%nat then Ret (2%Z, vals) else
  let degree1step := (INR deg * INR ups)%R in
  vals <- fill n 0 (fun i => v <- aget vals i ;; Ret (Clog v / (2 * Ci * RtoC eps_t / RtoC degree1step))) vals ;;
  Ret (0%Z, vals).

(** fnft__nse_discretization.c:211-237, fnft__kdv_discretization.c: lambda_to_z, z_to_lambda (same text):
   map the discretization, then call the AKNS routine; no CHECK_RETCODE after the second call. *)
Definition via_akns {X Y} (m : X -> option akns_disc) (d : X) (vals : Y) (f : akns_disc -> out (Z * Y)) : out (Z * Y) :=
  match m d with Some a => f a | None => Ret ((-2)%Z, vals) end.
Definition nse_lambda_to_z n eps_t vals d := via_akns nse_to_akns d vals (akns_lambda_to_z n eps_t vals).
Definition nse_z_to_lambda n eps_t vals d := via_akns nse_to_akns d vals (akns_z_to_lambda n eps_t vals).
Definition kdv_lambda_to_z n eps_t vals d := via_akns kdv_to_akns d vals (akns_lambda_to_z n eps_t vals).
Definition kdv_z_to_lambda n eps_t vals d := via_akns kdv_to_akns d vals (akns_z_to_lambda n eps_t vals).

(** fnft__manakov_discretization.c: manakov_discretization_lambda_to_z (262-285) *)
Definition man_lambda_to_z (n : nat) (eps_t : R) (vals : list C) (d : man_disc) : out (Z * list C) :=
  match d with
  | M_FTES4_suzuki =>
      vals <- fill n 0 (fun i => v <- aget vals i ;; Ret (Cexp (Ci * v * RtoC eps_t / 3))) vals ;; Ret (0%Z, vals)
  | _ =>
      let ups := man_upsampling_factor d in
      if (ups =? 0)%nat then Ret (2%Z, vals) else
      let deg := man_degree d in
      if (deg =? 0)%nat then Ret (2%Z, vals) else
      let degree1step := (INR deg * INR ups)%R in
      vals <- fill n 0 (fun i => v <- aget vals i ;; Ret (Cexp (2 * Ci * v * RtoC eps_t / RtoC degree1step))) vals ;;
      Ret (0%Z, vals)
  end.
(** fnft__manakov_discretization.c: manakov_discretization_z_to_lambda (291-314) *)
Definition man_z_to_lambda (n : nat) (eps_t : R) (vals : list C) (d : man_disc) : out (Z * list C) :=
  match d with
  | M_FTES4_suzuki =>
      vals <- fill n 0 (fun i => v <- aget vals i ;; Ret (Clog v * 3 / (Ci * RtoC eps_t))) vals ;; Ret (0%Z, vals)
  | _ =>
      let ups := man_upsampling_factor d in
      if (ups =? 0)%nat then Ret (2%Z, vals) else
      let deg := man_degree d in
      if (deg =? 0)%nat then Ret (2%Z, vals) else
      let degree1step := (INR deg * INR ups)%R in
      vals <- fill n 0 (fun i => v <- aget vals i ;; Ret (Clog v * RtoC degree1step / (2 * Ci * RtoC eps_t))) vals ;;
      Ret (0%Z, vals)
  end.

(** ** Change of basis *)

(** a sequence of assignments T[i] = v *)
Fixpoint wrs {A} (T : list A) (ws : list (nat * A)) : out (list A) :=
  match ws with [] => Ret T | (i, v) :: ws' => T <- aset T i v ;; wrs T ws' end.

(** The assignments of one branch: [t11 t12 t21 t22], then their derivatives; at the indices used without
   (2x2) and with (4x4) derivative flag.  Every branch of both functions has this shape. *)
Definition branch_writes (df : bool) (t11 t12 t21 t22 d11 d12 d21 d22 : C) : list (nat * C) :=
  if df then [(0, t11); (1, t12); (4, t21); (5, t22); (8, d11); (9, d12); (12, d21); (13, d22)]%nat
  else [(0, t11); (1, t12); (2, t21); (3, t22)]%nat.

(** fnft__akns_discretization.c:871-881 and 1083-1093: fill the last two columns *)
Definition fill_last_columns (T : list C) : out (list C) :=
  t0 <- aget T 0 ;; t1 <- aget T 1 ;; t4 <- aget T 4 ;; t5 <- aget T 5 ;;
  wrs T [(2, RtoC 0); (3, RtoC 0); (6, RtoC 0); (7, RtoC 0); (10, t0); (11, t1); (14, t4); (15, t5)]%nat.

(** [vanilla], [mod]: which branch; values of the 2x2 matrix and its derivative.
   fnft__akns_discretization.c:725-757 (plain), :761-799 (2SPLIT2_MODAL, 2SPLIT2A) *)
Definition to_S_kdv_writes (df vanilla mod_ : bool) (xi : C) (eps_t : R) : list (nat * C) :=
  let e := RtoC eps_t in
  match mod_, vanilla with
  | false, true =>
      let t0 := - Ci * RtoC (1/2) / xi in let t8 := - t0 / xi in
      branch_writes df t0 0 (- t0) 1 t8 0 (- t8) 0
  | false, false =>
      let t1 := - Ci * RtoC (1/2) / xi in let t9 := - t1 / xi in
      branch_writes df 1 t1 0 (- t1) 0 t9 0 (- t9)
  | true, true =>
      let t0 := Cexp (RtoC (-1/2) * Ci * xi * e) * - Ci * RtoC (1/2) / xi in
      let t5 := Cexp (RtoC (1/2) * Ci * xi * e) in
      let t8 := - t0 * (1 / xi + RtoC (1/2) * Ci * e) in
      branch_writes df t0 0 (- t0) t5 t8 0 (- t8) (RtoC (1/2) * Ci * e * t5)
  | true, false =>
      let t0 := Cexp (RtoC (-1/2) * Ci * xi * e) in
      let t1 := Cexp (RtoC (1/2) * Ci * xi * e) * - Ci * RtoC (1/2) / xi in
      let t9 := t1 * (- 1 / xi + RtoC (1/2) * Ci * e) in
      branch_writes df t0 t1 0 (- t1) (RtoC (-1/2) * Ci * e * t0) t9 0 (- t9)
  end.

(** fnft__akns_discretization.c:943-977 (plain), :981-1018 (2SPLIT2_MODAL, 2SPLIT2A) *)
Definition from_S_kdv_writes (df vanilla mod_ : bool) (xi : C) (eps_t : R) : list (nat * C) :=
  let e := RtoC eps_t in
  match mod_, vanilla with
  | false, true => branch_writes df (2 * Ci * xi) 0 1 1 (2 * Ci) 0 0 0
  | false, false => branch_writes df 1 1 0 (- (2) * Ci * xi) 0 0 0 (- (2) * Ci)
  | true, true =>
      let t0 := Cexp (RtoC (1/2) * Ci * xi * e) * 2 * Ci * xi in
      let t4 := Cexp (RtoC (-1/2) * Ci * xi * e) in
      let t12 := t4 * RtoC (-1/2) * Ci * e in
      branch_writes df t0 0 t4 t4 (t0 * (1 / xi + RtoC (1/2) * Ci * e)) 0 t12 t12
  | true, false =>
      let t0 := Cexp (RtoC (1/2) * Ci * xi * e) in
      let t5 := Cexp (RtoC (-1/2) * Ci * xi * e) * - (2) * Ci * xi in
      let t8 := t0 * RtoC (1/2) * Ci * e in
      branch_writes df t0 t0 0 t5 t8 t8 0 (t5 * (1 / xi - RtoC (1/2) * Ci * e))
  end.

(** fnft__akns_discretization.c:846-860, 1058-1072: identity *)
Definition id_writes (df : bool) : list (nat * C) := branch_writes df 1 0 0 1 0 0 0 0.

Definition basis_matrix (kdv_class nse_class : akns_disc -> option bool)
  (kdv_writes : bool -> bool -> bool -> C -> R -> list (nat * C))
  (T : list C) (xi : C) (df : bool) (eps_t : R) (d : akns_disc) (vanilla : bool) (pde : akns_pde)
  : out (Z * list C) :=
  let finish ws :=
    T <- wrs T ws ;;
    (if df then (T <- fill_last_columns T ;; Ret (0%Z, T)) else Ret (0%Z, T)) in
  match pde with
  | PDE_KdV =>
      if Ceq_dec xi 0 then Ret ((-3)%Z, T) else       (* E_DIV_BY_ZERO, then CHECK_RETCODE: negative *)
      match kdv_class d with
      | Some m => finish (kdv_writes df vanilla m xi eps_t)
      | None => Ret ((-2)%Z, T)
      end
  | PDE_NSE => match nse_class d with Some _ => finish (id_writes df) | None => Ret ((-2)%Z, T) end
  | PDE_other => Ret ((-2)%Z, T)
  end.

(** fnft__akns_discretization.c:680-886 *)
Definition akns_to_S := basis_matrix akns_to_S_kdv_class akns_to_S_nse_class to_S_kdv_writes.
(** fnft__akns_discretization.c:891-1096 *)
Definition akns_from_S := basis_matrix akns_from_S_kdv_class akns_from_S_nse_class from_S_kdv_writes.

(** fnft__kdv_discretization.c:487-513 and 517-543.  The nested E_SUBROUTINE keeps the absolute value. *)
Definition kdv_basis (f : list C -> C -> bool -> R -> akns_disc -> bool -> akns_pde -> out (Z * list C))
  (T : list C) (xi : C) (df : bool) (eps_t : R) (d : kdv_disc) : out (Z * list C) :=
  match kdv_vanilla_flag d with
  | None => Ret ((-2)%Z, T)
  | Some v => match kdv_to_akns d with None => Ret ((-2)%Z, T) | Some a => f T xi df eps_t a v PDE_KdV end
  end.
Definition kdv_to_S := kdv_basis akns_to_S.
Definition kdv_from_S := kdv_basis akns_from_S.

(** ** Method weights, fnft__akns_discretization.c:246-415: (qr_weights, eps_t_weights) *)

(** lines 322-331, 355-361, 392-398: eps_t_weights[m] = row sum of the rows of length 3 of qr_weights;
   the rows are divided by it *)
Definition normalise_rows (rows : nat) (qr : list C) : list C * list C :=
  let s m := nth (3 * m) qr 0 + nth (3 * m + 1) qr 0 + nth (3 * m + 2) qr 0 in
  (tabulate (3 * rows) (fun k => nth k qr 0 / s (k / 3)%nat), tabulate rows s).

(** lines 303-311, CF4_3 *)
Definition cf43_f (i n : nat) : R :=
  nth n (nth i [[11/40; 20/87; 7/50]; [9/20; 0; -7/25]; [11/40; -20/87; 7/50]] [])%R 0%R.
Definition cf43_wm (m : nat) : R := nth m [5/18; 4/9; 5/18]%R 0%R.
Definition cf43_xm (m : nat) : R := nth m [2 * sqrt (3/20); 0; - (2) * sqrt (3/20)]%R 0%R.
(** [misc_legendre_poly], whose model returns an outcome (C09: it is the Legendre polynomial) *)
Definition legendre (n : nat) (x : R) : R := match misc_legendre_poly n x with Ret v => v | UB => 0%R end.
Definition cf43_qr : list C :=
  tabulate 9 (fun k => let i := (k / 3)%nat in let m := (k mod 3)%nat in
    RtoC ((INR (2 * 0 + 1) * legendre 0 (cf43_xm m) * cf43_f i 0
         + INR (2 * 1 + 1) * legendre 1 (cf43_xm m) * cf43_f i 1
         + INR (2 * 2 + 1) * legendre 2 (cf43_xm m) * cf43_f i 2) * cf43_wm m)%R).

(** lines 343-352, CF5_3 *)
Definition cf53_qr : list C :=
  let q0 := (((145 + 37 * sqrt 15) / 900)%R, ((5 + 3 * sqrt 15) / 300)%R) in
  let q1 := ((-1/45)%R, (1/15)%R) in
  let q2 := (((145 - 37 * sqrt 15) / 900)%R, ((5 - 3 * sqrt 15) / 300)%R) in
  let q3 := ((-2/45)%R, (- sqrt 15 / 50)%R) in
  [q0; q1; q2; q3; RtoC (22/45); Cconj q3; Cconj q2; Cconj q1; Cconj q0].

(** lines 378-389, CF6_4 *)
Definition dec15 (n : Z) : R := (IZR n / 1000000000000000)%R.
Definition cf64_qr : list C :=
  let a := (dec15 245985577298764, dec15 38734389227165) in
  let b := (dec15 (-46806149832549), dec15 12442141491185) in
  let c := (dec15 10894359342569, dec15 (-4575808769067)) in
  let d := (dec15 62868370946917, dec15 (-48761268117765)) in
  let e := (dec15 269028372054771, dec15 (-12442141491185)) in
  let f := (dec15 (-41970529810473), dec15 14602687659668) in
  [a; b; c;  d; e; f;  f; e; d;  c; b; a].

Definition akns_method_weights (d : akns_disc) : Z + (list C * list C) :=
  match akns_weight_class d with
  | None => inl 2%Z
  | Some W_one => inr ([RtoC 1], [RtoC 1])
  | Some W_CF4_2 =>
      let s := (1 / sqrt 3)%R in
      inr ([RtoC (1/2 + s); RtoC (1/2 - s); RtoC (1/2 - s); RtoC (1/2 + s)], [RtoC (1/2); RtoC (1/2)])
  | Some W_CF4_3 => inr (normalise_rows 3 cf43_qr)
  | Some W_CF5_3 => inr (normalise_rows 3 cf53_qr)
  | Some W_CF6_4 => inr (normalise_rows 4 cf64_qr)
  end.

(** ** Preprocessing *)

(** What a successful call stores: *Dsub_ptr, the two arrays, first_last_index *)
Record pre_out := { po_Dsub : nat; po_q : list C; po_r : list C; po_first : nat; po_last : nat }.

Section Pre.
  (** contents of freshly allocated memory (k numbers the allocations) *)
  Variable junk : nat -> nat -> list C.
  Variable junkR : nat -> list R.

  (** result of misc_resample into a fresh array of D elements *)
  Definition resample_new (k D : nat) (eps_t : R) (q : list C) (delta : R) : out (Z * list C) :=
    r <- misc_resample (fun i => junk (100 + 10 * k + i)) junkR D eps_t (Some q) delta (Some (junk k D)) ;;
    match r with (c, Some q') => Ret (c, q') | (c, None) => Ret (c, []) end.

  (** weighted sum of the samples: w[off..off+k-1] . xs *)
  Definition wsum (w : list C) (off : nat) (xs : list C) : out C :=
    for_ (length xs) 0 (fun m acc => a <- aget w (off + m) ;; x <- aget xs m ;; Ret (acc + a * x)) 0.

  (** one pass of the loops at :537-544, :566-582, :604-620, :642-662:
     [u] new entries q_pre[isub+j] = sum_m w[j*len+m]*x_m[i], and the same for r *)
  Definition cf_step (u : nat) (w : list C) (rf : C -> C) (cols : list (list C)) (isub i : nat)
    (qr : list C * list C) : out (list C * list C) :=
    xs <- for_ (length cols) 0 (fun m acc => c <- aget cols m ;; x <- aget c i ;; Ret (acc ++ [x])) [] ;;
    for_ u 0 (fun j qr =>
      sq <- wsum w (j * length cols) xs ;;
      sr <- wsum w (j * length cols) (map rf xs) ;;
      q <- aset (fst qr) (isub + j) sq ;;
      r <- aset (snd qr) (isub + j) sr ;;
      Ret (q, r)) qr.
  (** for (isub=0, i=0; isub<D_effective; isub+=u, i+=nskip) *)
  Definition cf_loop (u Dsub nskip : nat) (w : list C) (rf : C -> C) (cols : list (list C))
    (qr : list C * list C) : out (list C * list C) :=
    for_ Dsub 0 (fun k => cf_step u w rf cols (u * k) (k * nskip)) qr.

  (** the CF branches: resample with -delta and +delta, get the weights, combine.
     [mid]: the unshifted signal is the middle column *)
  Definition cf_branch (u Dsub nskip D : nat) (eps_t : R) (q : list C) (rf : C -> C) (delta : R) (mid : bool)
    (d : akns_disc) (qr : list C * list C) : out (Z * (list C * list C)) :=
    r1 <- resample_new 2 D eps_t q (- delta)%R ;;
    if negb (fst r1 =? 0)%Z then Ret ((- Z.abs (fst r1))%Z, qr) else
    r3 <- resample_new 3 D eps_t q delta ;;
    if negb (fst r3 =? 0)%Z then Ret ((- Z.abs (fst r3))%Z, qr) else
    match akns_method_weights d with
    | inl c => Ret ((- Z.abs c)%Z, qr)
    | inr (w, _) =>
        let cols := if mid then [snd r1; q; snd r3] else [snd r1; snd r3] in
        qr <- cf_loop u Dsub nskip w rf cols qr ;;
        Ret (0%Z, qr)
    end.

  (** ES4 branch, lines 666-695 of the source (:665-692): samples and finite differences *)
  Definition es4_branch (Dsub nskip : nat) (eps_t : R) (q : list C) (rf : nat -> C -> C)
    (qr : list C * list C) : out (list C * list C) :=
    let De := (3 * Dsub)%nat in
    let qp := fst qr in
    qp <- for_ Dsub 0 (fun k qp => x <- aget q (k * nskip) ;; aset qp (3 * k) x) qp ;;
    let h := RtoC (eps_t * INR nskip) in
    let h2 := h * h in
    x3 <- aget qp 3 ;; x0 <- aget qp 0 ;;
    qp <- aset qp 1 ((x3 - 0) / (2 * h)) ;;
    qp <- aset qp 2 ((x3 - 2 * x0 + 0) / h2) ;;
    xm6 <- aget qp (De - 6) ;;
    qp <- aset qp (De - 2) ((0 - xm6) / (2 * h)) ;;
    xm3 <- aget qp (De - 3) ;; xm6 <- aget qp (De - 6) ;;
    qp <- aset qp (De - 1) ((0 - 2 * xm3 + xm6) / h2) ;;
    qp <- for_ (Dsub - 2) 1 (fun k qp =>                    (* isub = 3k, 3 <= isub < De-3 *)
       xp <- aget qp (3 * k + 3) ;; xm <- aget qp (3 * k - 3) ;;
       qp <- aset qp (3 * k + 1) ((xp - xm) / (2 * h)) ;;
       x <- aget qp (3 * k) ;;
       aset qp (3 * k + 2) ((xp - 2 * x + xm) / h2)) qp ;;
    rp <- for_ Dsub 0 (fun k rp =>
       for_ 3 0 (fun i rp => x <- aget qp (3 * k + i) ;; aset rp (3 * k + i) (rf i x)) rp) (snd qr) ;;
    Ret (qp, rp).

  (** fnft__akns_discretization.c:421-675.  Output pointers are assumed non-NULL (each is checked first, error 2);
     q = None is NULL.  malloc failure is not modelled. *)
  Definition akns_preprocess (D : nat) (q : option (list C)) (rf : nat -> C -> C) (eps_t : R) (Dsub0 : nat)
    (d : akns_disc) : out (Z + pre_out) :=
    if (D <? 2)%nat then Ret (inl 2%Z) else
    match q with None => Ret (inl 2%Z) | Some q =>
    if Rle_dec eps_t 0 then Ret (inl 2%Z) else
    s <- downsample_sizes D Dsub0 ;;                        (* :455-461, same statements as misc_downsample *)
    let '(nskip, Dsub) := s in
    let u := akns_upsampling_factor d in
    if (u =? 0)%nat then Ret (inl 2%Z) else
    let De := (Dsub * u)%nat in
    let qr := (junk 0 De, junk 1 De) in
    r <- match akns_pre_class d with
    | None => Ret (2%Z, qr)
    | Some P_plain =>
        qr <- for_ De 0 (fun k qr => x <- aget q (k * nskip) ;;
          a <- aset (fst qr) k x ;; b <- aset (snd qr) k (rf 0%nat x) ;; Ret (a, b)) qr ;; Ret (0%Z, qr)
    | Some P_CF4_2 => cf_branch 2 Dsub nskip D eps_t q (rf 0%nat) (eps_t * (sqrt 3 / 6) * INR nskip) false d qr
    | Some P_CF4_3 => cf_branch 3 Dsub nskip D eps_t q (rf 0%nat) (eps_t * sqrt (3/20) * INR nskip) true d qr
    | Some P_CF5_3 => cf_branch 3 Dsub nskip D eps_t q (rf 0%nat) (eps_t * sqrt 15 / 10 * INR nskip) true d qr
    | Some P_CF6_4 => cf_branch 4 Dsub nskip D eps_t q (rf 0%nat) (eps_t * INR nskip * sqrt 15 / 10) true d qr
    | Some P_ES4 => qr <- es4_branch Dsub nskip eps_t q rf qr ;; Ret (0%Z, qr)
    end ;;
    if (fst r =? 0)%Z
    then Ret (inr {| po_Dsub := Dsub; po_q := fst (snd r); po_r := snd (snd r); po_first := 0;
                     po_last := (Dsub - 1) * nskip |})
    else Ret (inl (fst r))
    end.

  (** fnft__nse_discretization.c:390-415 *)
  Definition nse_r_from_q (kappa : Z) (q : C) : C := if (kappa =? 1)%Z then - Cconj q else Cconj q.
  Definition nse_preprocess D q eps_t (kappa : Z) Dsub0 (d : nse_disc) : out (Z + pre_out) :=
    match nse_to_akns d with
    | None => Ret (inl (-2)%Z)
    | Some a =>
        r <- akns_preprocess D q (fun _ => nse_r_from_q kappa) eps_t Dsub0 a ;;
        match r with inl c => Ret (inl (- Z.abs c)%Z) | inr o => Ret (inr o) end
    end.
  (** fnft__kdv_discretization.c:454-482 *)
  Definition kdv_r_from_q (i : nat) (q : C) : C := match i with O => - (1) | _ => 0 end.
  Definition kdv_preprocess D q eps_t Dsub0 (d : kdv_disc) : out (Z + pre_out) :=
    match kdv_to_akns d with
    | None => Ret (inl (-2)%Z)
    | Some a =>
        r <- akns_preprocess D q kdv_r_from_q eps_t Dsub0 a ;;
        match r with inl c => Ret (inl (- Z.abs c)%Z) | inr o => Ret (inr o) end
    end.

  (** fnft__manakov_discretization.c:107-224.  The return codes of misc_resample are not looked at
     (:190-193): on its failure the fresh array is used as allocated. *)
  Definition man_preprocess (D : nat) (q1 q2 : option (list C)) (eps_t : R) (Dsub0 : nat) (d : man_disc)
    : out (Z + pre_out) :=
    if (D <? 2)%nat then Ret (inl 2%Z) else
    match q1 with None => Ret (inl 2%Z) | Some q1 =>
    match q2 with None => Ret (inl 2%Z) | Some q2 =>
    if Rle_dec eps_t 0 then Ret (inl 2%Z) else
    s <- downsample_sizes D Dsub0 ;;
    let '(nskip, Dsub) := s in
    let u := man_upsampling_factor d in
    if (u =? 0)%nat then Ret (inl 2%Z) else
    let De := (Dsub * u)%nat in
    let qq := (junk 0 De, junk 1 De) in
    r <- match man_pre_class d with
    | Some P_plain =>
        qq <- for_ De 0 (fun k qq => x <- aget q1 (k * nskip) ;; y <- aget q2 (k * nskip) ;;
          a <- aset (fst qq) k x ;; b <- aset (snd qq) k y ;; Ret (a, b)) qq ;; Ret (0%Z, qq)
    | Some P_CF4_2 =>
        q1s <- fill Dsub 0 (fun k => aget q1 (k * nskip)) (junk 6 Dsub) ;;
        q2s <- fill Dsub 0 (fun k => aget q2 (k * nskip)) (junk 7 Dsub) ;;
        let a1 := RtoC (1/4 + sqrt 3 / 6) in let a2 := RtoC (1/4 - sqrt 3 / 6) in
        let e := (eps_t / INR nskip)%R in
        c11 <- resample_new 2 Dsub e q1s ((1/2 - sqrt 3 / 6) * e) ;;
        c12 <- resample_new 3 Dsub e q1s ((1/2 + sqrt 3 / 6) * e) ;;
        c21 <- resample_new 4 Dsub e q2s ((1/2 - sqrt 3 / 6) * e) ;;
        c22 <- resample_new 5 Dsub e q2s ((1/2 + sqrt 3 / 6) * e) ;;
        qq <- for_ Dsub 0 (fun i qq =>
          x1 <- aget (snd c11) i ;; x2 <- aget (snd c12) i ;; y1 <- aget (snd c21) i ;; y2 <- aget (snd c22) i ;;
          a <- aset (fst qq) (2 * i) (a1 * x1 + a2 * x2) ;; b <- aset (snd qq) (2 * i) (a1 * y1 + a2 * y2) ;;
          a <- aset a (2 * i + 1) (a2 * x1 + a1 * x2) ;; b <- aset b (2 * i + 1) (a2 * y1 + a1 * y2) ;;
          Ret (a, b)) qq ;;
        Ret (0%Z, qq)
    | _ => Ret (2%Z, qq)
    end ;;
    if (fst r =? 0)%Z
    then Ret (inr {| po_Dsub := Dsub; po_q := fst (snd r); po_r := snd (snd r); po_first := 0;
                     po_last := (Dsub - 1) * nskip |})
    else Ret (inl (fst r))
    end end.
End Pre.
