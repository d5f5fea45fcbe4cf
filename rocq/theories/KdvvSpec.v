(** * What the driver fnft_kdvv is supposed to do (C50, C51, C61-C66) *)
From Coq Require Import Reals Sorted.
From Coquelicot Require Import Coquelicot.
From Verif Require Export NsevSpec KdvvModel.
Local Open Scope C_scope.

(** ** C61: the arguments that include/fnft_kdvv.h allows *)
Definition kdv_known (d : kdv_disc) : Prop := d <> K_other.
(** the point number i of the grid of M points from XI[0] to XI[1] *)
Definition grid_point (XI : R * R) (M i : nat) : R := (fst XI + INR i * ((snd XI - fst XI) / INR (M - 1)))%R.
Definition on_imaginary_axis (x : C) : Prop := fst x = 0%R.
Record kdvv_valid (D : nat) (q : option (list C)) (T : option (R * R)) (M : nat) (XI : option (R * R)) (o : kopts) (u : outs) : Prop := {
  vk_D : (2 <= D)%nat;
  vk_q : q <> None;
  vk_real : forall l i x, q = Some l -> (i < D)%nat -> nth_error l i = Some x -> snd x = 0%R;
  vk_T : proper_interval T;
  vk_XI : u_cs u <> None -> proper_interval XI;
  vk_zero : forall I i, XI = Some I -> (2 <= M)%nat -> (i < M)%nat -> grid_point I M i <> 0%R;
  vk_K : u_bs u <> None -> u_K u <> None;
  vk_guess : forall l K i x, k_loc o = KB_NEWTON -> u_bs u = Some l -> u_K u = Some K -> (i < K)%nat ->
             nth_error l i = Some x -> on_imaginary_axis x /\ (0 < snd x)%R;
  vk_disc : kdv_known (k_disc o) }.
(** the arrays can be read: q has D samples, bound_states the stated number of entries, and XI is given if M > 0 *)
Record kdvv_readable (D : nat) (q : option (list C)) (M : nat) (XI : option (R * R)) (u : outs) : Prop := {
  rk_q : forall l, q = Some l -> length l = D;
  rk_XI : M <> O -> XI <> None;
  rk_bs : forall l K, u_bs u = Some l -> u_K u = Some K -> (K <= length l)%nat }.

(** ** C63: only the two fields that say how many values are stored matter for the size of the arrays; this puts
   them into the options of fnft_nsev, so that [room] and [contained] of NsevSpec can be used *)
Definition sizes (o : kopts) : opts :=
  {| bound_state_filtering := BF_NONE; bound_state_localization := BL_NEWTON; niter := 0; tol := Fin 0; o_Dsub := 0;
     discspec_type := k_ds o; contspec_type := k_cs o; normalization_flag := false; discretization := N_other;
     richardson_extrapolation_flag := 0; bounding_box := {| x0 := NaN; x1 := NaN; x2 := NaN; x3 := NaN |} |}.
Record kdvv_safe_call (D : nat) (q : option (list C)) (T : option (R * R)) (M : nat) (XI : option (R * R)) (o : kopts) (u : outs) : Prop := {
  sk_valid : kdvv_valid D q T M XI o u;
  sk_read : kdvv_readable D q M XI u;
  sk_size : (Z.of_nat (D * kdv_upsampling_factor (k_disc o)) <= 2 ^ 63)%Z;
  sk_room : room 1 M (sizes o) u;
  sk_M : u_cs u <> None -> M <> 1%nat;
  sk_rich : k_rich o = 1%nat ->
    (3 <= D)%nat /\ XI <> None /\ (k_ds o = DS_RESIDUES -> u_K u <> None /\ u_bs u = None) /\
    (k_ds o = DS_BOTH -> u_bs u <> None -> u_nc u <> None) }.

(** ** The contracts of the subroutines, as in NsevSpec.  What is added: at a point of the imaginary axis the derivative
   of a is zero or not real (a is real there). *)
Record kenv_ok (E : kenv) : Prop := {
  kk_junk : forall k n, length (ke_junk E k n) = n;
  kk_pre : forall s D q eps_t Dsub d, (2 <= D)%nat -> length q = D -> (0 < eps_t)%R ->
    exists r, ke_pre E s D q eps_t Dsub d = Ret r /\
      match r with
      | inl c => ok_code c /\ c <> SUCCESS
      | inr p => exists nskip, downsample_sizes D Dsub = Ret (nskip, po_Dsub p) /\ po_first p = O
                 /\ po_last p = ((po_Dsub p - 1) * nskip)%nat
                 /\ length (po_q p) = (po_Dsub p * kdv_upsampling_factor d)%nat
                 /\ length (po_r p) = (po_Dsub p * kdv_upsampling_factor d)%nat
      end;
  kk_fscatter : forall s D q r eps_t res norm d, (2 <= D)%nat -> length q = D -> length r = D -> (0 < eps_t)%R ->
    kdv_fscatter_numel D d = Ret (length res) -> kdv_degree d <> O ->
    exists c deg tm W, ke_fscatter E s D q r eps_t res norm d = Ret (c, deg, tm, W) /\ ok_code c
      /\ length tm = length res /\ (c = SUCCESS -> deg = (kdv_degree d * D)%nat);
  kk_smat : forall s D q r eps_t M xi norm d, (2 <= D)%nat -> length q = D -> length r = D -> (0 < eps_t)%R ->
    (1 <= M)%nat -> length xi = M ->
    exists c sc Ws, ke_smat E s D q r eps_t M xi norm d = Ret (c, sc, Ws) /\ ok_code c
      /\ length sc = (4 * M)%nat /\ (norm = true -> (M <= length Ws)%nat);
  kk_chirpz : forall s deg p A V M, length p = (deg + 1)%nat -> (1 <= M)%nat ->
    exists c v, ke_chirpz E s deg p A V M = Ret (c, v) /\ ok_code c /\ (c = SUCCESS -> length v = M);
  kk_sbs : forall s D q r T K bs norm d skip, (2 <= D)%nat -> length q = D -> length r = D -> (fst T < snd T)%R ->
    (1 <= K)%nat -> length bs = K ->
    exists c a ap b Ws, ke_sbs E s D q r T K bs norm d skip = Ret (c, a, ap, b, Ws) /\ ok_code c
      /\ length a = K /\ length ap = K /\ (skip = false -> length b = K) /\ (norm = true -> length Ws = K)
      /\ (Forall on_imaginary_axis bs -> Forall (fun x : C => x = RtoC 0 \/ snd x <> 0%R) ap) }.

(** ** C50: the grid search *)
(** the sign of a changes from the grid point i-1 to the grid point i *)
Definition sign_change (a : nat -> C) (i : nat) : Prop := a i <> 0 /\ (1 <= i)%nat /\ (fst (a i) * fst (a (i - 1)%nat) < 0)%R.
Definition candidate (a : nat -> C) (i : nat) : Prop := a i = 0 \/ sign_change a i.
(** what is found for the candidate i: the grid point if a is zero there, otherwise a point strictly between the grid points *)
Definition found_at (a x : nat -> C) (i : nat) (z : C) : Prop :=
  (a i = 0 -> z = x i) /\
  (sign_change a i -> exists t, (0 < t < 1)%R /\ z = RtoC (1 - t) * x (i - 1)%nat + RtoC t * x i).
(** the numbers [is] are the candidates below n, in increasing order *)
Definition all_candidates (a : nat -> C) (n : nat) (is : list nat) : Prop :=
  StronglySorted Nat.lt is /\ forall i, In i is <-> (i < n)%nat /\ candidate a i.
(** the zero of the straight line through (u, f u) and (v, f v) *)
Definition is_secant_zero (u v fu fv z : C) : Prop := fv <> fu /\ z = (u * fv - v * fu) / (fv - fu).

(** ** C65: Newton's method for a real function F with derivative F' *)
Fixpoint rnewton (F F' : R -> R) (n : nat) (y : R) : R :=
  match n with O => y | S n => let z := rnewton F F' n y in (z - F z / F' z)%R end.
(** The derivative of y -> Re a(iy) is -Im a'(iy). *)
Definition re_on_axis (f : C -> C) (y : R) : R := fst (f (0%R, y)).
Definition re_slope (f' : C -> C) (y : R) : R := (- snd (f' (0%R, y)))%R.
(** the reasons for which the iteration that starts at y ends after n of at most nmax steps, and the error code; the
   iteration is restricted to 0 <= y <= top *)
Inductive knewton_ends (f f' : C -> C) (top : R) (nmax : nat) (y : R) (n : nat) : Z -> Prop :=
| k_all_steps : n = nmax -> knewton_ends f f' top nmax y n SUCCESS
| k_exact_zero : (n < nmax)%nat -> f (0%R, rnewton (re_on_axis f) (re_slope f') n y) = 0 -> knewton_ends f f' top nmax y n SUCCESS
| k_flat : (n < nmax)%nat -> f' (0%R, rnewton (re_on_axis f) (re_slope f') n y) = 0 -> knewton_ends f f' top nmax y n EC_DIV_BY_ZERO
| k_outside m : n = S m -> ~ (0 <= rnewton (re_on_axis f) (re_slope f') n y <= top)%R -> knewton_ends f f' top nmax y n SUCCESS
| k_converged m : n = S m -> (Rabs (re_on_axis f (rnewton (re_on_axis f) (re_slope f') m y) / re_slope f' (rnewton (re_on_axis f) (re_slope f') m y)) <= EPS * 100)%R ->
    knewton_ends f f' top nmax y n SUCCESS.
(** the values of a and a' that the subroutine computes at the call site s for the given signal *)
Definition kcomputes_at (E : kenv) (s D : nat) (q r : list C) (T : R * R) (norm : bool) (d : kdv_disc) (f f' : C -> C) : Prop :=
  forall lam, exists b Ws, ke_sbs E s D q r T 1 [lam] norm d true = Ret (SUCCESS, [f lam], [f' lam], b, Ws).
(** z is what at most nmax Newton steps make of y *)
Definition refined (f f' : C -> C) (top : R) (nmax : nat) (y z : C) : Prop :=
  exists k, (k <= nmax)%nat /\ z = (0%R, rnewton (re_on_axis f) (re_slope f') k (snd y)) /\ knewton_ends f f' top nmax (snd y) k SUCCESS.
