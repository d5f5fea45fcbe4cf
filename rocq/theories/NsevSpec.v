(** * What the driver fnft_nsev is supposed to do (C43-C47) *)
From Coq Require Import Reals.
From Coquelicot Require Import Coquelicot.
From Verif Require Export DiscSpec NsevModel.
Local Open Scope C_scope.

(** ** C43: the arguments that include/fnft_nsev.h excludes *)
Definition proper_interval (I : option (R * R)) : Prop := exists a b, I = Some (a, b) /\ (a < b)%R.
Definition known_disc (d : nse_disc) : Prop := d <> N_other.
Definition slow_disc (d : nse_disc) : Prop := name_fast (nse_name d) = false.
Record nsev_valid (D : nat) (q : option (list C)) (T XI : option (R * R)) (kappa : Z) (o : opts) (u : outs) : Prop := {
  v_D : (2 <= D)%nat;
  v_q : q <> None;
  v_T : proper_interval T;
  v_XI : u_cs u <> None -> proper_interval XI;
  v_kappa : kappa = 1%Z \/ kappa = (-1)%Z;
  v_K : u_bs u <> None -> u_K u <> None;
  v_disc : known_disc (discretization o);
  v_loc : slow_disc (discretization o) -> kappa = 1%Z -> u_bs u <> None -> bound_state_localization o = BL_NEWTON }.

(** ** C45: an array whose entries from number n on have not been touched *)
Definition kept {A} (n : nat) (l l' : list A) : Prop :=
  length l' = length l /\ forall i, (n <= i)%nat -> nth_error l' i = nth_error l i.
Definition kept_opt {A} (n : nat) (l l' : option (list A)) : Prop :=
  match l, l' with Some l, Some l' => kept n l l' | None, None => True | _, _ => False end.

(** number of values per point of the continuous spectrum, and per bound state *)
Definition cs_values (t : cstype) : nat :=
  match t with CS_REFLECTION_COEFFICIENT => 1 | CS_AB => 2 | CS_BOTH => 3 | CS_bad => 0 end.
Definition ds_values (t : dstype) : nat :=
  match t with DS_NORMING_CONSTANTS => 1 | DS_RESIDUES => 1 | DS_BOTH => 2 | DS_bad => 1 end.
(** the arrays are as long as include/fnft_nsev.h demands *)
Record room (kappa : Z) (M : nat) (o : opts) (u : outs) : Prop := {
  r_cs : forall l, u_cs u = Some l -> (cs_values (contspec_type o) * M <= length l)%nat;
  r_bs : forall l K, u_bs u = Some l -> u_K u = Some K -> (K <= length l)%nat;
  r_nc : forall l K, kappa = 1%Z -> u_bs u <> None -> u_nc u = Some l -> u_K u = Some K ->
         (ds_values (discspec_type o) * K <= length l)%nat }.
(** the capacity that the user has stated in *K_ptr *)
Definition cap (u : outs) : nat := match u_K u with Some K => K | None => O end.
(** The call has changed u into u': the arrays are still where and as long as they were, entries behind the stated
   capacity are untouched, and *K_ptr has not grown *)
Record contained (M : nat) (o : opts) (u u' : outs) : Prop := {
  c_cs : kept_opt (cs_values (contspec_type o) * M) (u_cs u) (u_cs u');
  c_bs : kept_opt (cap u) (u_bs u) (u_bs u');
  c_nc : kept_opt (ds_values (discspec_type o) * cap u) (u_nc u) (u_nc u');
  c_K : (cap u' <= cap u)%nat /\ (u_K u' = None <-> u_K u = None) }.
(** The calls for which the driver has to be safe; what is asked beyond validity and sufficiently long arrays is
   shown to be necessary in NsevTop *)
Record safe_call (E : env) (D : nat) (q : option (list C)) (T : option (R * R)) (M : nat) (XI : option (R * R)) (kappa : Z)
    (o : opts) (u : outs) : Prop := {
  s_valid : nsev_valid D q T XI kappa o u;
  s_len : forall l, q = Some l -> length l = D;
  s_size : (Z.of_nat (D * nse_upsampling_factor (discretization o)) <= 2 ^ 63)%Z;
  s_room : room kappa M o u;
  s_M : u_cs u <> None -> M <> 1%nat;
  s_Dsub : (o_Dsub o <= 2 * D)%nat;
  s_rich : richardson_extrapolation_flag o = 1%nat ->
    (3 <= D)%nat /\ XI <> None /\ (discspec_type o = DS_RESIDUES -> u_K u <> None) /\
    (kappa = 1%Z -> u_bs u <> None ->
       (discspec_type o = DS_RESIDUES -> bound_state_localization o = BL_SUBSAMPLE_AND_REFINE) /\
       (discspec_type o = DS_RESIDUES \/ discspec_type o = DS_BOTH -> u_nc u <> None) /\
       (bound_state_localization o = BL_SUBSAMPLE_AND_REFINE ->
          forall D q eps_t kappa Dsub d c, e_pre E 2 D q eps_t kappa Dsub d <> Ret (inl c))) }.

(** ** What the driver relies on: the contracts of its subroutines.  Every call whose arguments are as described
   comes back, with an error code that is an int other than INT_MIN, and its output arrays have the promised lengths.
   Nothing is said about the computed values. *)
Definition ok_code (c : Z) : Prop := (INT_MIN < c < 2147483648)%Z.
Record env_ok (E : env) : Prop := {
  k_junk : forall k n, length (e_junk E k n) = n;
  k_pre : forall s D q eps_t kappa Dsub d, (2 <= D)%nat -> length q = D -> (0 < eps_t)%R ->
    exists r, e_pre E s D q eps_t kappa Dsub d = Ret r /\
      match r with
      | inl c => ok_code c /\ c <> SUCCESS
      | inr p => exists nskip, downsample_sizes D Dsub = Ret (nskip, po_Dsub p) /\ po_first p = O
                 /\ po_last p = ((po_Dsub p - 1) * nskip)%nat
                 /\ length (po_q p) = (po_Dsub p * nse_upsampling_factor d)%nat
                 /\ length (po_r p) = (po_Dsub p * nse_upsampling_factor d)%nat
      end;
  k_fscatter : forall s D q r eps_t res norm d, (2 <= D)%nat -> length q = D -> length r = D -> (0 < eps_t)%R ->
    nse_fscatter_numel D d = Ret (length res) -> nse_degree d <> O ->
    exists c deg tm W, e_fscatter E s D q r eps_t res norm d = Ret (c, deg, tm, W) /\ ok_code c
      /\ length tm = length res /\ (c = SUCCESS -> deg = (nse_degree d * D)%nat);
  k_smat : forall s D q r eps_t kappa M xi norm d, (2 <= D)%nat -> length q = D -> length r = D -> (0 < eps_t)%R ->
    (1 <= M)%nat -> length xi = M ->
    exists c sc Ws, e_smat E s D q r eps_t kappa M xi norm d = Ret (c, sc, Ws) /\ ok_code c
      /\ length sc = (4 * M)%nat /\ (norm = true -> (M <= length Ws)%nat);
  k_chirpz : forall s deg p A V M, length p = (deg + 1)%nat -> (1 <= M)%nat ->
    exists c v, e_chirpz E s deg p A V M = Ret (c, v) /\ ok_code c /\ (c = SUCCESS -> length v = M);
  k_sbs : forall s D q r T K bs norm d skip, (2 <= D)%nat -> length q = D -> length r = D -> (fst T < snd T)%R ->
    (1 <= K)%nat -> length bs = K ->
    exists c a ap b Ws, e_sbs E s D q r T K bs norm d skip = Ret (c, a, ap, b, Ws) /\ ok_code c
      /\ length a = K /\ length ap = K /\ (skip = false -> length b = K) /\ (norm = true -> length Ws = K);
  k_roots : forall s deg p buf, length p = (deg + 1)%nat -> (deg <= length buf)%nat ->
    exists c v, e_roots E s deg p buf = Ret (c, v) /\ ok_code c /\ kept deg buf v }.

(** ** C46: Newton's method for f, f' *)
Fixpoint newton_iterate (f f' : C -> C) (n : nat) (lam : C) : C :=
  match n with O => lam | S n => let l := newton_iterate f f' n lam in l - f l / f' l end.
Definition in_box (bb : xbox) (v : C) : Prop :=
  xlt (Fin (fst v)) (x0 bb) = false /\ xlt (x1 bb) (Fin (fst v)) = false /\
  xlt (Fin (snd v)) (x2 bb) = false /\ xlt (x3 bb) (Fin (snd v)) = false.
(** nothing stops the iteration in step n -> n+1: the function value and its derivative are not zero, the new
   point is in the box, the step and the function value are larger than the tolerance *)
Definition newton_goes_on (f f' : C -> C) (bb : xbox) (tol : R) (lam : C) (n : nat) : Prop :=
  let l := newton_iterate f f' n lam in
  f l <> 0 /\ f' l <> 0 /\ in_box bb (newton_iterate f f' (S n) lam) /\ (tol < Cmod (f l / f' l)%C)%R /\ (tol < Cmod (f l))%R.

(** ** C47: two approximations whose errors are c h^p and c h'^p *)
Definition error_term (exact c : C) (h : R) (p : nat) : C := exact + c * RtoC (h ^ p)%R.
