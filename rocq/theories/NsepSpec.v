(** * What the driver fnft_nsep is supposed to do (C48, C49, C67-C70) *)
From Coq Require Import Reals.
From Coquelicot Require Import Coquelicot.
From Verif Require Export NsevSpec NsepModel.
Local Open Scope C_scope.

(** ** C48: the arguments that include/fnft_nsep.h allows *)
Record nsep_valid (D : nat) (q : option (list C)) (T : option (R * R)) (sheet : bool) (kappa : Z) (o : popts) (w : pouts) : Prop := {
  vp_D : exists k, (1 <= k)%nat /\ D = (2 ^ k)%nat;
  vp_q : q <> None;
  vp_T : proper_interval T;
  vp_kappa : kappa = 1%Z \/ kappa = (-1)%Z;
  vp_K : w_K w <> None;
  vp_M : w_M w <> None;
  vp_sheet : sheet = false;
  vp_filt : p_filt o <> PF_NONE -> w_main w = None -> w_aux w = None }.

(** ** C67: everything but the bounding box *)
Definition same_but_box (o o' : popts) : Prop := exists b, o' = set_pbox o b.

(** ** C68: the arrays are as long as the header demands *)
Definition pcap (w : pouts) : nat := match w_K w with Some K => K | None => O end.
Definition acap (w : pouts) : nat := match w_M w with Some M => M | None => O end.
(** number of entries of main_spec that may be used; the guesses for Newton's method are given for each spine point *)
Definition main_size (o : popts) (w : pouts) : nat :=
  match p_loc o with PL_NEWTON => pcap w * p_points o | _ => pcap w end.
Record nsep_room (o : popts) (w : pouts) : Prop := {
  rp_main : forall l, w_main w = Some l -> (main_size o w <= length l)%nat;
  rp_aux : forall l, w_aux w = Some l -> (acap w <= length l)%nat }.
Record nsep_safe_call (D : nat) (q : option (list C)) (T : option (R * R)) (sheet : bool) (kappa : Z) (o : popts) (w : pouts) : Prop := {
  sp_valid : nsep_valid D q T sheet kappa o w;
  sp_len : forall l, q = Some l -> length l = D;
  sp_size : (Z.of_nat (D * nse_upsampling_factor (p_disc o)) <= 2 ^ 63)%Z;
  sp_Dsub : (Z.of_nat (p_Dsub o) <= 2 ^ 63)%Z;
  sp_room : nsep_room o w }.
(** The arrays are where they were; entries behind the stated capacity are untouched. *)
Record nsep_contained (o : popts) (w w' : pouts) : Prop := {
  cp_main : kept_opt (main_size o w) (w_main w) (w_main w');
  cp_aux : kept_opt (acap w) (w_aux w) (w_aux w');
  cp_K : w_K w' <> None /\ w_M w' <> None }.

(** ** The contracts of the subroutines, as in NsevSpec *)
Record penv_ok (E : penv) : Prop := {
  kp_junk : forall k n, length (pe_junk E k n) = n;
  kp_pre : forall s D q eps_t kappa Dsub d, (2 <= D)%nat -> length q = D -> (0 < eps_t)%R ->
    exists r, pe_pre E s D q eps_t kappa Dsub d = Ret r /\
      match r with
      | inl c => ok_code c /\ c <> SUCCESS
      | inr p => exists nskip, downsample_sizes D Dsub = Ret (nskip, po_Dsub p) /\ po_first p = O
                 /\ po_last p = ((po_Dsub p - 1) * nskip)%nat
                 /\ length (po_q p) = (po_Dsub p * nse_upsampling_factor d)%nat
                 /\ length (po_r p) = (po_Dsub p * nse_upsampling_factor d)%nat
      end;
  kp_fscatter : forall s D q r eps_t res norm d, (2 <= D)%nat -> length q = D -> length r = D -> (0 < eps_t)%R ->
    nse_fscatter_numel D d = Ret (length res) -> nse_degree d <> O ->
    exists c deg tm W, pe_fscatter E s D q r eps_t res norm d = Ret (c, deg, tm, W) /\ ok_code c
      /\ length tm = length res /\ (c = SUCCESS -> deg = (nse_degree d * D)%nat);
  kp_roots : forall s deg p buf, length p = (deg + 1)%nat -> (deg <= length buf)%nat ->
    exists c v, pe_roots E s deg p buf = Ret (c, v) /\ ok_code c /\ kept deg buf v;
  kp_mono : forall s D q r eps_t kappa lam norm d, (2 <= D)%nat -> length q = D -> length r = D -> (0 < eps_t)%R ->
    exists c M W, pe_mono E s D q r eps_t kappa lam norm d = Ret (c, M, W) /\ ok_code c /\ length M = 8%nat;
  kp_grid : forall s deg p K PHI roots, (1 <= deg)%nat -> length p = (deg + 1)%nat -> length roots = K ->
    exists c K' v, pe_grid E s deg p K PHI roots = Ret (c, K', v) /\ ok_code c /\ length v = K /\ (c = SUCCESS -> (K' <= K)%nat) }.

(** ** C69: the part of the complex plane in which the returned points have to lie *)
Definition within (bb : xbox) (z : C) : Prop :=
  xle (x0 bb) (Fin (fst z)) = true /\ xle (Fin (fst z)) (x1 bb) = true /\
  xle (x2 bb) (Fin (snd z)) = true /\ xle (Fin (snd z)) (x3 bb) = true.
(** for AUTO: |Re| <= 0.9 pi / (c h), |Im| <= ln 10 / (c h), where h is the step size and c = 2/degree (1 for a slow method);
   the points are shifted by L = - phase_shift / (2 (T1 - T0)) *)
Definition auto_coeff (d : nse_disc) : R := match nse_degree d with O => 1%R | n => (2 / INR n)%R end.
Definition nsep_allowed (D : nat) (T : R * R) (phase_shift : R) (o : popts) (z : C) : Prop :=
  let h := ((snd T - fst T) / INR D)%R in
  let L := (- phase_shift / (2 * (snd T - fst T)))%R in
  match p_filt o with
  | PF_NONE | PF_bad => True
  | PF_AUTO => (Rabs (fst z - L) <= 9 / 10 * PI / (auto_coeff (p_disc o) * h))%R /\ (Rabs (snd z) <= ln 10 / (auto_coeff (p_disc o) * h))%R
  | PF_MANUAL => within (p_box o) z
  end.

(** ** C49: Newton's method with a line search over the order 1 or 2 of the root.  The step from z: order 1 if it brings |f|
   below tol or is not worse than order 2, otherwise order 2. *)
Definition trial (f f' : C -> C) (z : C) (m : nat) : C := z - RtoC (INR m) * (f z / f' z).
Definition best_order (f f' : C -> C) (tol : xreal) (z : C) (m : nat) : Prop :=
  let f1 := Cmod (f (trial f f' z 1)) in let f2 := Cmod (f (trial f f' z 2)) in
  (m = 1%nat /\ (xlt (Fin f1) tol = true \/ (f1 <= f2)%R)) \/
  (m = 2%nat /\ xlt (Fin f1) tol = false /\ (f2 < f1)%R).
(** the value is small, or the step is *)
Definition converged (f f' : C -> C) (tol : xreal) (z : C) (m : nat) : Prop :=
  xle (Fin (Cmod (RtoC (INR m) * (f z / f' z))%C)) tol = true \/ xle (Fin (Cmod (f z))) tol = true.
(** number of evaluations that the line search from z needs *)
Definition evals (f f' : C -> C) (tol : xreal) (z : C) : nat := if xlt (Fin (Cmod (f (trial f f' z 1)))) tol then 1 else 2.
(** [refines b code z y n]: what the iteration makes of z if it may use b more evaluations when it starts; it has used n *)
Inductive refines (f f' : C -> C) (tol : xreal) (bb : xbox) : nat -> Z -> C -> C -> nat -> Prop :=
| rf_stop z : refines f f' tol bb 0 SUCCESS z z 0
| rf_flat b z : f' z = 0 -> refines f f' tol bb (S b) EC_DIV_BY_ZERO z z 0
| rf_converged b z m : f' z <> 0 -> best_order f f' tol z m -> converged f f' tol z m -> f' (trial f f' z m) <> 0 ->
    refines f f' tol bb (S b) SUCCESS z (trial f f' (trial f f' z m) 1) (evals f f' tol z)
| rf_converged_flat b z m : f' z <> 0 -> best_order f f' tol z m -> converged f f' tol z m -> f' (trial f f' z m) = 0 ->
    refines f f' tol bb (S b) EC_DIV_BY_ZERO z (trial f f' z m) (evals f f' tol z)
| rf_outside b z m : f' z <> 0 -> best_order f f' tol z m -> ~ converged f f' tol z m -> ~ within bb (trial f f' z m) ->
    refines f f' tol bb (S b) SUCCESS z (trial f f' z m) (evals f f' tol z)
| rf_step b z m c y n : f' z <> 0 -> best_order f f' tol z m -> ~ converged f f' tol z m -> within bb (trial f f' z m) ->
    refines f f' tol bb (S b - evals f f' tol z) c (trial f f' z m) y n -> refines f f' tol bb (S b) c z y (evals f f' tol z + n).
(** f and f' are computed from the monodromy matrix: f = (M11 + M22) 2^W + rhs *)
Definition mono_computes (E : penv) (s D : nat) (q r : list C) (eps_t : R) (kappa : Z) (d : nse_disc) (norm : bool) (rhs : R) (f f' : C -> C) : Prop :=
  forall lam, exists M W, pe_mono E s D q r eps_t kappa lam norm d = Ret (SUCCESS, M, W) /\ length M = 8%nat /\
    let scl := RtoC (if norm then powerRZ 2 W else 1) in
    f lam = scl * (nth 0 M 0 + nth 3 M 0) + RtoC rhs /\ f' lam = scl * (nth 4 M 0 + nth 7 M 0).
