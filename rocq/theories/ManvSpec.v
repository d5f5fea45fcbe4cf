(** * What the driver fnft_manakovv is supposed to do (C52, C71-C76) *)
From Coq Require Import Reals.
From Coquelicot Require Import Coquelicot.
From Verif Require Export NsevSpec ManvModel.
Local Open Scope C_scope.

(** ** C71: the arguments that include/fnft_manakovv.h allows *)
Definition man_known (d : man_disc) : Prop := d <> M_other.
Definition man_slow (d : man_disc) : Prop := name_fast (man_name d) = false.
Record manv_valid (D : nat) (q1 q2 : option (list C)) (T XI : option (R * R)) (kappa : Z) (o : mopts) (u : outs) : Prop := {
  vm_D : (2 <= D)%nat;
  vm_q1 : q1 <> None;
  vm_q2 : q2 <> None;
  vm_T : proper_interval T;
  vm_XI : u_cs u <> None -> proper_interval XI;
  vm_kappa : kappa = 1%Z \/ kappa = (-1)%Z;
  vm_K : u_bs u <> None -> u_K u <> None;
  vm_disc : man_known (m_disc o);
  vm_loc : man_slow (m_disc o) -> kappa = 1%Z -> u_bs u <> None -> m_loc o = ML_NEWTON }.

(** ** C73: arrays *)
(** number of values per point of the continuous spectrum: rho1, rho2 and a, b1, b2 *)
Definition mcs_values (t : cstype) : nat :=
  match t with CS_REFLECTION_COEFFICIENT => 2 | CS_AB => 3 | CS_BOTH => 5 | CS_bad => 0 end.
Record mroom (M : nat) (o : mopts) (u : outs) : Prop := {
  rm_cs : forall l, u_cs u = Some l -> (mcs_values (m_cs o) * M <= length l)%nat;
  rm_bs : forall l K, u_bs u = Some l -> u_K u = Some K -> (K <= length l)%nat }.
(** The call has changed u into u': the arrays are still where and as long as they were, entries behind the stated
   capacity are untouched, *K_ptr has not grown, and the norming constants have not been touched at all *)
Record mcontained (M : nat) (o : mopts) (u u' : outs) : Prop := {
  cm_cs : kept_opt (mcs_values (m_cs o) * M) (u_cs u) (u_cs u');
  cm_bs : kept_opt (cap u) (u_bs u) (u_bs u');
  cm_nc : u_nc u' = u_nc u;
  cm_K : (cap u' <= cap u)%nat /\ (u_K u' = None <-> u_K u = None) }.
(** the calls for which the driver has to be safe; what is asked beyond validity and sufficiently long arrays is shown
   to be necessary in ManvEx *)
Record manv_safe_call (E : menv) (D : nat) (q1 q2 : option (list C)) (T : option (R * R)) (M : nat) (XI : option (R * R)) (kappa : Z)
    (o : mopts) (u : outs) : Prop := {
  sm_valid : manv_valid D q1 q2 T XI kappa o u;
  sm_len1 : forall l, q1 = Some l -> length l = D;
  sm_len2 : forall l, q2 = Some l -> length l = D;
  sm_size : (Z.of_nat (D * man_upsampling_factor (m_disc o)) <= 2 ^ 63)%Z;
  sm_room : mroom M o u;
  sm_M : u_cs u <> None -> M <> 1%nat;
  sm_Dsub : (m_Dsub o <= 2 * D)%nat;
  sm_rich : m_rich o = 1%nat ->
    (3 <= D)%nat /\ XI <> None /\ (m_ds o = DS_RESIDUES -> u_K u <> None) /\
    (kappa = 1%Z -> u_bs u <> None -> forall D q1 q2 eps_t Dsub d c, me_pre E 2 D q1 q2 eps_t Dsub d <> Ret (inl c)) }.

(** ** The contracts of the subroutines, as in NsevSpec *)
Record menv_ok (E : menv) : Prop := {
  km_junk : forall k n, length (me_junk E k n) = n;
  km_pre : forall s D q1 q2 eps_t Dsub d, (2 <= D)%nat -> length q1 = D -> length q2 = D -> (0 < eps_t)%R ->
    exists r, me_pre E s D q1 q2 eps_t Dsub d = Ret r /\
      match r with
      | inl c => ok_code c /\ c <> SUCCESS
      | inr p => exists nskip, downsample_sizes D Dsub = Ret (nskip, po_Dsub p) /\ po_first p = O
                 /\ po_last p = ((po_Dsub p - 1) * nskip)%nat
                 /\ length (po_q p) = (po_Dsub p * man_upsampling_factor d)%nat
                 /\ length (po_r p) = (po_Dsub p * man_upsampling_factor d)%nat
      end;
  km_fscatter : forall s D q1 q2 kappa eps_t res norm d, (2 <= D)%nat -> length q1 = D -> length q2 = D -> (0 < eps_t)%R ->
    man_fscatter_numel D d = Ret (length res) -> man_degree d <> O ->
    exists c deg tm W, me_fscatter E s D q1 q2 kappa eps_t res norm d = Ret (c, deg, tm, W) /\ ok_code c
      /\ length tm = length res /\ (c = SUCCESS -> deg = (man_degree d * D)%nat);
  km_smat : forall s D q1 q2 eps_t M xi kappa d, (2 <= D)%nat -> length q1 = D -> length q2 = D -> (0 < eps_t)%R ->
    (1 <= M)%nat -> length xi = M ->
    exists c sc, me_smat E s D q1 q2 eps_t M xi kappa d = Ret (c, sc) /\ ok_code c /\ length sc = (9 * M)%nat;
  km_chirpz : forall s deg p A V M, length p = (deg + 1)%nat -> (1 <= M)%nat ->
    exists c v, me_chirpz E s deg p A V M = Ret (c, v) /\ ok_code c /\ (c = SUCCESS -> length v = M);
  km_roots : forall s deg p buf, length p = (deg + 1)%nat -> (deg <= length buf)%nat ->
    exists c v, me_roots E s deg p buf = Ret (c, v) /\ ok_code c /\ kept deg buf v }.
(** C52: no allocation and no subroutine fails *)
Record mnever_fails (E : menv) : Prop := {
  nf_alloc : forall s k, me_alloc E s k = true;
  nf_pre : forall s D q1 q2 eps_t Dsub d c, me_pre E s D q1 q2 eps_t Dsub d <> Ret (inl c);
  nf_fscatter : forall s D q1 q2 kappa eps_t res norm d c deg tm W, me_fscatter E s D q1 q2 kappa eps_t res norm d = Ret (c, deg, tm, W) -> c = SUCCESS;
  nf_smat : forall s D q1 q2 eps_t M xi kappa d c sc, me_smat E s D q1 q2 eps_t M xi kappa d = Ret (c, sc) -> c = SUCCESS;
  nf_chirpz : forall s deg p A V M c v, me_chirpz E s deg p A V M = Ret (c, v) -> c = SUCCESS;
  nf_roots : forall s deg p buf c v, me_roots E s deg p buf = Ret (c, v) -> c = SUCCESS }.

(** ** C74: the blocks of a continuous spectrum of type BOTH: rho1, rho2, a, b1, b2 *)
Definition block (M : nat) (l : list C) (b i : nat) : C := nth (b * M + i) l 0.
Definition rho_is_b_over_a (M : nat) (l : list C) : Prop :=
  forall i, (i < M)%nat -> block M l 2 i <> 0 /\
    block M l 0 i = block M l 3 i / block M l 2 i /\ block M l 1 i = block M l 4 i / block M l 2 i.

(** ** C76: the first K entries are in the closed upper half plane and pairwise at least sqrt(EPSILON) apart *)
Definition distinct_in_upper_half_plane (K : nat) (l : list C) : Prop :=
  (forall i, (i < K)%nat -> (0 <= snd (nth i l 0))%R) /\
  (forall i j a b, (i < j)%nat -> nth_error (firstn K l) i = Some a -> nth_error (firstn K l) j = Some b -> (sqrt EPS <= Cmod (a - b)%C)%R).
