(** * Model of src/private/fnft__poly_roots_fftgridsearch.c

   Exact complex arithmetic; the two angles PHI[0], PHI[1] may also be infinite
   or NaN (type [xreal]), since the code tests for that.
   Not modelled: malloc failure, wrap-around of UINT, rounding. *)
From Coq Require Import Reals.
From Coquelicot Require Import Coquelicot.
From Verif Require Export FftUse ChirpzModel ErrModel.
Local Open Scope C_scope.

(** a REAL that is finite, infinite or NaN *)
Inductive xreal := Fin (x : R) | Inf (positive : bool) | NaN.
(** C's [a < b] on such numbers *)
Definition xlt (a b : xreal) : bool :=
  match a, b with
  | NaN, _ | _, NaN => false
  | Fin x, Fin y => if Rlt_dec x y then true else false
  | Fin _, Inf s => s
  | Inf s, Fin _ => negb s
  | Inf s, Inf t => negb s && t
  end.
Definition is_ninf (a : xreal) : bool := match a with Inf s => negb s | _ => false end.
Definition is_pinf (a : xreal) : bool := match a with Inf s => s | _ => false end.
(** fnft__poly_roots_fftgridsearch.c:54-56 and 179-180: PHI is rejected *)
Definition phi_bad (PHI : xreal * xreal) : bool :=
  negb (xlt (fst PHI) (snd PHI)) || is_ninf (fst PHI) || is_pinf (snd PHI).
(** the finite values; only used after [phi_bad] was found false *)
Definition phi_val (a : xreal) : R := match a with Fin x => x | _ => 0 end.

(** [a > b] and [a <= b] on reals *)
Definition rgt (a b : R) : bool := if Rlt_dec b a then true else false.
Definition rle (a b : R) : bool := if Rle_dec a b then true else false.
Definition ceq (a b : C) : bool := if Ceq_dec a b then true else false.
(** eps = (PHI[1]-PHI[0]) / (M-1): :69 and :187 *)
Definition grid_eps (phi0 phi1 : R) (M : nat) : R := (phi1 - phi0) / INR (M - 1).
(** CEXP(I*phi) *)
Definition cis (phi : R) : C := Cexp (Ci * RtoC phi).

(** :73 A = (1.0 + ((REAL)k - 1.0)*eps) * CEXP(-I*PHI[0]) *)
Definition ring_A (phi0 eps : R) (k : nat) : C := RtoC (1 + (INR k - 1) * eps) * cis (- phi0).

(** :71-76 three calls of poly_chirpz, each on the block vals[k*M .. k*M+M-1].
   [junk k]: uninitialised memory of the k-th call *)
Fixpoint gs_rings (cnt k : nat) (junk : nat -> nat -> nat -> list C) (deg : nat) (p : list C) (phi0 eps : R) (M : nat)
  (vals : list C) : out (Z * list C) :=
  match cnt with
  | O => Ret (0%Z, vals)
  | S cnt' =>
      blk <- rd vals (k * M) M ;;
      r <- poly_chirpz (junk k) deg (Some p) (ring_A phi0 eps k) (cis eps) M (Some blk) ;;
      let '(code, blk') := r in
      if negb (code =? 0)%Z then e <- E_SUBROUTINE code ;; Ret (e, vals) else (* :75 *)
      match blk' with None => UB | Some b =>
        vals <- wr vals (k * M) b ;;
        gs_rings cnt' (S k) junk deg p phi0 eps M vals
      end
  end.

(** :85-101 the eight tests: true = [continue] *)
Definition gs_skip (vals : list C) (M i : nat) : out bool :=
  c <- aget vals (M + i) ;;
  let tmp := Cmod c in
  v <- aget vals (i - 1) ;; if rgt tmp (Cmod v) then Ret true else
  v <- aget vals i ;; if rgt tmp (Cmod v) then Ret true else
  v <- aget vals (i + 1) ;; if rgt tmp (Cmod v) then Ret true else
  v <- aget vals (M + i - 1) ;; if rgt tmp (Cmod v) then Ret true else
  v <- aget vals (M + i + 1) ;; if rgt tmp (Cmod v) then Ret true else
  v <- aget vals (2 * M + i - 1) ;; if rgt tmp (Cmod v) then Ret true else
  v <- aget vals (2 * M + i) ;; if rgt tmp (Cmod v) then Ret true else
  v <- aget vals (2 * M + i + 1) ;; if rgt tmp (Cmod v) then Ret true else
  Ret false.

(** :112-121 body of the two inner loops: accumulates c and tmp *)
Definition gs_fit_body (vals : list C) (M : nat) (phi0 eps : R) (z0 y0 : C) (j k : nat) (st : C * R) : out (C * R) :=
  if (j =? 0)%nat && (k =? 1)%nat then Ret st else                             (* :114-115 *)
  let zi := RtoC (1 - (INR k - 1) * eps) * cis (phi0 + INR j * eps) in         (* :117 *)
  yi <- aget vals (k * M + j) ;;                                               (* :118 *)
  let '(c, tmp) := st in
  Ret (c + Cconj (zi - z0) * (yi - y0), (tmp + Cmod (zi - z0)%C * Cmod (zi - z0)%C)%R).   (* :119-120 *)
(** :111-122 *)
Definition gs_fit (vals : list C) (M : nat) (phi0 eps : R) (z0 y0 : C) (i : nat) : out (C * R) :=
  for_ 3 (i - 1) (fun j st => for_ 3 0 (fun k st => gs_fit_body vals M phi0 eps z0 y0 j k st) st) (RtoC 0, 0%R).

(** :79-148 the search loop, from index i, cnt iterations left.
   Result: return code, nroots, roots *)
Fixpoint gs_loop (cnt i : nat) (vals : list C) (M : nat) (phi0 eps : R) (nroots : nat) (roots : list C)
  : out (Z * nat * list C) :=
  match cnt with
  | O => Ret (0%Z, nroots, roots)
  | S cnt' =>
      s <- gs_skip vals M i ;;
      if s then gs_loop cnt' (S i) vals M phi0 eps nroots roots else
      let z0 := cis (phi0 + INR i * eps) in                                    (* :107 *)
      y0 <- aget vals (M + i) ;;                                               (* :110 *)
      f <- gs_fit vals M phi0 eps z0 y0 i ;;
      let '(c, tmp) := f in
      if Req_EM_T tmp 0 then Ret (3%Z, nroots, roots) else                     (* :123-126 E_DIV_BY_ZERO *)
      let c := c / RtoC tmp in                                                 (* :127 *)
      if ceq c 0 then                                                          (* :130 *)
        if negb (ceq y0 0) then gs_loop cnt' (S i) vals M phi0 eps nroots roots   (* :133-134 *)
        else roots <- aset roots nroots z0 ;;                                  (* :135, 147 *)
             gs_loop cnt' (S i) vals M phi0 eps (S nroots) roots
      else
        let zr := z0 - y0 / c in                                               (* :140 *)
        if rgt (Cmod (zr - z0)) eps then gs_loop cnt' (S i) vals M phi0 eps nroots roots   (* :141-142 *)
        else roots <- aset roots nroots zr ;;                                  (* :147 *)
             gs_loop cnt' (S i) vals M phi0 eps (S nroots) roots
  end.

(** fnft__poly_roots_fftgridsearch.c:36-155 poly_roots_fftgridsearch.
   None = NULL.  Result: return code, *M_ptr, contents of roots. *)
Definition poly_roots_fftgridsearch (junk : nat -> nat -> nat -> list C) (junkv : nat -> list C) (deg : nat)
  (p : option (list C)) (M_ptr : option nat) (PHI : option (xreal * xreal)) (roots : option (list C))
  : out (Z * option nat * option (list C)) :=
  if (deg <? 2)%nat then Ret (2%Z, M_ptr, roots) else                          (* :48-49 *)
  match p with None => Ret (2%Z, M_ptr, roots) | Some p =>                     (* :50-51 *)
  match M_ptr with None => Ret (2%Z, M_ptr, roots) | Some M =>
  if (M <? 2)%nat then Ret (2%Z, M_ptr, roots) else                            (* :52-53 *)
  match PHI with None => Ret (2%Z, M_ptr, roots) | Some PHI =>
  if phi_bad PHI then Ret (2%Z, M_ptr, roots) else                             (* :54-56 *)
  match roots with None => Ret (2%Z, M_ptr, roots) | Some roots =>             (* :57-58 *)
  let vals := junkv (3 * M)%nat in                                             (* :62 *)
  let phi0 := phi_val (fst PHI) in
  let eps := grid_eps phi0 (phi_val (snd PHI)) M in                            (* :69 *)
  r <- gs_rings 3 0 junk deg p phi0 eps M vals ;;                              (* :71-76 *)
  let '(code, vals) := r in
  if negb (code =? 0)%Z then Ret (code, M_ptr, Some roots) else
  r <- gs_loop (M - 2) 1 vals M phi0 eps 0 roots ;;                            (* :79-148 *)
  let '(code, nroots, roots) := r in
  if negb (code =? 0)%Z then Ret (code, M_ptr, Some roots) else                (* goto release_mem *)
  Ret (0%Z, Some nroots, Some roots)                                           (* :150-154 *)
  end end end end.

(** :202-216 the root approximation loop of poly_roots_fftgridsearch_paraherm; reads and
   writes the same array *)
Fixpoint ph_loop (cnt i : nat) (phi0 eps : R) (nroots : nat) (roots : list C) : out (nat * list C) :=
  match cnt with
  | O => Ret (nroots, roots)
  | S cnt' =>
      a <- aget roots (i - 1) ;; b <- aget roots i ;;
      if rle (fst a * fst b) 0 then
        let phi1 := (phi0 + eps * INR (i - 1))%R in
        let phi2 := (phi1 + eps)%R in
        let phi := if negb (ceq a b) then (phi1 - fst a * (phi2 - phi1) / fst (b - a)%C)%R
                   else (/ 2 * (phi1 + phi2))%R in
        roots <- aset roots nroots (cis phi) ;;
        ph_loop cnt' (S i) phi0 eps (S nroots) roots
      else ph_loop cnt' (S i) phi0 eps nroots roots
  end.

(** fnft__poly_roots_fftgridsearch.c:163-220 poly_roots_fftgridsearch_paraherm *)
Definition poly_roots_fftgridsearch_paraherm (junk : nat -> nat -> list C) (deg : nat)
  (p : option (list C)) (M_ptr : option nat) (PHI : option (xreal * xreal)) (roots : option (list C))
  : out (Z * option nat * option (list C)) :=
  if (deg mod 2 =? 1)%nat || (deg <? 2)%nat then Ret (2%Z, M_ptr, roots) else
  match p with None => Ret (2%Z, M_ptr, roots) | Some p =>
  match M_ptr with None => Ret (2%Z, M_ptr, roots) | Some M =>
  if (M <? 2)%nat then Ret (2%Z, M_ptr, roots) else
  match PHI with None => Ret (2%Z, M_ptr, roots) | Some PHI =>
  if phi_bad PHI then Ret (2%Z, M_ptr, roots) else
  match roots with None => Ret (2%Z, M_ptr, roots) | Some roots =>
  let phi0 := phi_val (fst PHI) in
  let eps := grid_eps phi0 (phi_val (snd PHI)) M in
  r <- poly_chirpz junk deg (Some p) (cis (- phi0)) (cis eps) M (Some roots) ;;
  let '(code, res) := r in
  match res with None => UB | Some roots =>
  if negb (code =? 0)%Z then e <- E_SUBROUTINE code ;; Ret (e, M_ptr, Some roots) else (* :191-192 *)
  let N := (deg / 2 + 1)%nat in
  roots <- for_ M 0 (fun i roots =>
      let phi := (phi0 + eps * INR i)%R in
      x <- aget roots i ;;
      aset roots i (x * Cexp (- Ci * RtoC phi * RtoC (INR (N - 1))))) roots ;;
  r <- ph_loop (M - 1) 1 phi0 eps 0 roots ;;
  let '(nroots, roots) := r in
  Ret (0%Z, Some nroots, Some roots)
  end end end end end.
