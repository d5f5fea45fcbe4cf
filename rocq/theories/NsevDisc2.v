(** * The discrete spectrum that fnft_nsev returns (C46, C60): statements about the call *)
From Coq Require Import Reals Lra.
From Coquelicot Require Import Coquelicot.
From Verif Require Import MiscMetricProps Loop CExp MiscSpec MiscProof DiscProps DiscPreProps NsevSpec NsevProps NsevSafe NsevSafe2 NsevSafe3 NsevSafe5 NsevEnv NsevRefuted NsevNewton NsevDisc.
Local Open Scope C_scope.

Lemma check_success {A} code (st : A) k x : check code st k = Ret (SUCCESS, x) -> code = SUCCESS /\ k = Ret (SUCCESS, x).
Proof.
  unfold check. destruct (Z.eqb_spec code SUCCESS) as [->|N]; [auto|]. unfold E_SUBROUTINE. destruct (Z.eqb code INT_MIN); [discriminate|].
  cbn. intros H. injection H as H _. exfalso. now apply abs_nonzero in N.
Qed.

(** what a successful run of fnft_nsev_base does to the bound states *)
Lemma base_bs E s D q r T M XI o u u' bs K : fnft_nsev_base E s D q r T M XI 1 o u = Ret (SUCCESS, u') -> u_bs u = Some bs -> u_K u = Some K ->
  exists deg tm eps_t K' bs', step (snd T - fst T) (D / nse_upsampling_factor (discretization o)) = Ret eps_t /\
    nsev_compute_boundstates E s D q r deg tm T eps_t K bs o = Ret (SUCCESS, (K', bs')) /\ u_bs u' = Some bs' /\ u_K u' = Some K'
    /\ (tm = None -> nse_fscatter_numel D (discretization o) = Ret O)
    /\ (forall t, tm = Some t -> exists n ec, nse_fscatter_numel D (discretization o) = Ret n /\ n <> O /\
          e_fscatter E s D q r eps_t (e_junk E 8 n) (normalization_flag o) (discretization o) = Ret (SUCCESS, deg, t, ec)).
Proof.
  intros H Eb EK. unfold fnft_nsev_base in H. cbv zeta in H. destruct (args_bad _ _ _ _ _ _); [discriminate|].
  destruct (Nat.eqb (nse_upsampling_factor (discretization o)) 0); [discriminate|].
  inv_bind H. inv_bind H. destruct (_ && _) in H; [discriminate|]. inv_bind H. destruct x1 as [[[c deg] tm] W].
  apply check_success in H. destruct H as [Hc H]. inv_bind H. destruct x1 as [c1 u1]. apply check_success in H. destruct H as [Hc1 H].
  assert (Hu1 : u_bs u1 = u_bs u /\ u_K u1 = u_K u).
  { destruct (u_cs u) as [cs|]; [|injection Hx2 as _ <-; auto]. destruct (0 <? M)%nat; [|injection Hx2 as _ <-; auto].
    inv_bind Hx2. injection Hx2 as _ <-. auto. }
  destruct Hu1 as [Eb1 EK1]. rewrite Eb1, Eb in H. cbn [Z.eqb] in H. change (Z.eqb 1 1) with true in H. cbn iota in H. rewrite EK1, EK in H. cbn [deref bind] in H.
  inv_bind H. destruct x1 as [c2 [K2 bs2]]. apply check_success in H. destruct H as [Hc2 H]. subst c2.
  exists deg, tm, x, K2, bs2. split; [exact Hx|]. split; [exact Hx3|].
  assert (Hout : u_bs u' = Some bs2 /\ u_K u' = Some K2).
  { destruct (u_nc _); [|injection H as <-; auto]. destruct (negb _) in H; [|injection H as <-; auto].
    inv_bind H. apply check_success in H. destruct H as [_ H]. injection H as <-. auto. }
  split; [apply Hout|]. split; [apply Hout|].
  destruct (Nat.eqb_spec x0 0) as [Ez|Nz]; cbn [negb] in Hx1.
  - injection Hx1 as _ _ <- _. split; [intros _; now rewrite Ez in Hx0|discriminate].
  - inv_bind Hx1. destruct x1 as [[[c0 d0] t0] w0]. injection Hx1 as Ec Ed Et _. subst. split; [discriminate|].
    intros t Et. injection Et as <-. exists x0, w0. auto.
Qed.

(** The number of samples from which the initial guesses are computed (include/fnft_nsev.h, Dsub): as close as a
   constant stride allows to what the user has asked for: the stride k is D/Dsub rounded to the nearest integer, the
   number of samples D/k rounded to the nearest integer; without a wish, about sqrt(D log2(D)^2). *)
Theorem nsev_subsampling_size D Dsub n : sub_size D Dsub = Ret n ->
  let wish := if Nat.eqb Dsub 0 then ufloor (sqrt (INR D * log2 (INR D) * log2 (INR D))) else Dsub in
  exists k, (0 < k)%nat /\ (0 < wish)%nat /\ (2 * (k * wish) <= 2 * D + wish /\ 2 * D < 2 * (k * wish) + wish)%nat /\ (2 * (n * k) <= 2 * D + k /\ 2 * D < 2 * (n * k) + k)%nat.
Proof.
  intros H wish. unfold sub_size in H. change (if Nat.eqb Dsub 0 then auto_Dsub D else Dsub) with wish in H. cbv zeta in H.
  destruct (Nat.eqb_spec wish 0) as [|Hw]; [discriminate|]. destruct (Nat.eqb_spec (round_div D wish) 0) as [|Hk]; [discriminate|]. injection H as <-.
  assert (R : forall a b, b <> O -> (2 * (round_div a b * b) <= 2 * a + b /\ 2 * a < 2 * (round_div a b * b) + b)%nat).
  { intros a b Hb. unfold round_div. pose proof (Nat.div_mod (2 * a + b) (2 * b) ltac:(lia)) as HH. pose proof (Nat.mod_upper_bound (2 * a + b) (2 * b) ltac:(lia)). set (x := ((2 * a + b) / (2 * b))%nat) in *.
    replace (2 * b * x)%nat with (2 * (x * b))%nat in HH by ring. lia. }
  exists (round_div D wish). split; [lia|]. split; [lia|]. split; apply R; assumption.
Qed.

(** the last run of fnft_nsev_base in a successful call without Richardson extrapolation *)
Lemma run_last E D q T M XI o u o' u' bs K : pre_codes E -> nsev_run E D (Some q) (Some T) M XI 1 o u = Ret (SUCCESS, (o', u')) ->
  richardson_extrapolation_flag o <> 1%nat -> u_bs u = Some bs -> u_K u = Some K ->
  let ups := nse_upsampling_factor (discretization o) in
  exists eps_t p o1 u1 bs1 K1, step (snd T - fst T) D = Ret eps_t /\ e_pre E 0 D q eps_t 1 D (discretization o) = Ret (inr p)
    /\ fnft_nsev_base E 1 (D * ups) (po_q p) (po_r p) T M XI 1 o1 u1 = Ret (SUCCESS, u') /\ u_bs u1 = Some bs1 /\ u_K u1 = Some K1
    /\ (bound_state_localization o <> BL_SUBSAMPLE_AND_REFINE -> o1 = o /\ u1 = u)
    /\ (bound_state_localization o = BL_SUBSAMPLE_AND_REFINE -> o1 = set_bsloc o BL_NEWTON /\
        exists n ps v, sub_size D (o_Dsub o) = Ret n /\ e_pre E 1 D q eps_t 1 n (discretization o) = Ret (inr ps) /\
          fnft_nsev_base E 0 (po_Dsub ps * ups) (po_q ps) (po_r ps) (fst T + INR (po_first ps) * eps_t, fst T + INR (po_last ps) * eps_t)%R 0 XI 1
            (set_bsloc o BL_FAST_EIGENVALUE) {| u_cs := None; u_K := u_K u; u_bs := u_bs u; u_nc := None |} = Ret (SUCCESS, v)
          /\ u1 = set_K (set_bs u (u_bs v)) (u_K v)).
Proof.
  intros HE H Hr Eb EK. cbv zeta. unfold nsev_run in H. destruct (args_bad _ _ _ _ _ _); [discriminate|].
  destruct (disc_class (discretization o)) as [fast|]; [|discriminate]. destruct (_ && _) in H; [discriminate|].
  destruct (Nat.eqb (nse_upsampling_factor (discretization o)) 0); [discriminate|]. cbn [deref bind] in H. inv_bind H.
  apply Nat.eqb_neq in Hr. rewrite Hr in H. cbn [andb] in H. cbv zeta in H. cbn [bind] in H. inv_bind H.
  destruct x0 as [c|p]. { inv_bind H. exfalso. injection H as Hc _ _. eapply E_SUB_nonzero; [eapply HE; exact Hx0|exact Hx1|exact Hc]. }
  assert (Hz : (1 =? 1)%Z && negb (no_ptr (u_bs u)) = true) by (rewrite Eb; reflexivity). rewrite Hz in H. cbn [andb] in H.
  destruct (bound_state_localization o) eqn:El.
  all: try (inv_bind H; destruct x0 as [c2 v2]; apply check_success in H; destruct H as [-> H]; injection H as _ <-;
    exists x, p, o, u, bs, K; (split; [exact Hx|]); (split; [exact Hx0|]); (split; [exact Hx1|]); (split; [exact Eb|]); (split; [exact EK|]); (split; [auto|]);
    intros HH; discriminate HH).
  inv_bind H. inv_bind H. destruct x1 as [c|ps]. { inv_bind H. exfalso. injection H as Hc _ _. eapply E_SUB_nonzero; [eapply HE; exact Hx2|exact Hx3|exact Hc]. }
  inv_bind H. destruct x1 as [c1 v1]. apply check_success in H. destruct H as [-> H].
  inv_bind H. destruct x1 as [c2 v2]. apply check_success in H. destruct H as [-> H]. injection H as _ <-. rewrite set_bsloc_twice in Hx4.
  assert (HV : exists bs1 K1, u_bs v1 = Some bs1 /\ u_K v1 = Some K1).
  { destruct (base_bs _ _ _ _ _ _ _ _ _ _ _ bs K Hx3 Eb EK) as (? & ? & ? & K1 & bs1 & _ & _ & Hb1 & HK1 & _). eauto. }
  destruct HV as (bs1 & K1 & Eb1 & EK1).
  exists x, p, (set_bsloc o BL_NEWTON), (set_K (set_bs u (u_bs v1)) (u_K v1)), bs1, K1. split; [exact Hx|]. split; [exact Hx0|].
  split; [exact Hx4|]. split; [exact Eb1|]. split; [exact EK1|]. split; [congruence|]. intros _. split; [reflexivity|].
  exists x0, ps, v1. auto.
Qed.

(** the bounds of the box: what the option promises *)
Lemma box_BASIC E s D q T eps_t o bb : box_of E s D q T eps_t o bb -> bound_state_filtering o = BF_BASIC ->
  bb = {| x0 := Inf false; x1 := Inf true; x2 := Fin 0; x3 := Inf true |}.
Proof. unfold box_of, nsev_box. intros H E0. rewrite E0 in H. now injection H as <-. Qed.
Lemma box_MANUAL E s D q T eps_t o bb : box_of E s D q T eps_t o bb -> bound_state_filtering o = BF_MANUAL -> bb = bounding_box o.
Proof. unfold box_of, nsev_box. intros H E0. rewrite E0 in H. destruct (_ || _) in H; [discriminate|]. now injection H as <-. Qed.
Lemma box_FULL E s D q T eps_t o bb : box_of E s D q T eps_t o bb -> bound_state_filtering o = BF_FULL ->
  x2 bb = Fin 0 /\ exists re, x0 bb = Fin (- re) /\ x1 bb = Fin re /\
    re = re_bound eps_t (if Nat.eqb (nse_degree (discretization o)) 0 then 2 else 2 / INR (nse_degree (discretization o)))%R.
Proof.
  unfold box_of, nsev_box. intros H E0. rewrite E0 in H.
  assert (G : forall im, Ret (SUCCESS, {| x0 := Fin (- re_bound eps_t (if Nat.eqb (nse_degree (discretization o)) 0 then 2 else 2 / INR (nse_degree (discretization o)))%R);
      x1 := Fin (re_bound eps_t (if Nat.eqb (nse_degree (discretization o)) 0 then 2 else 2 / INR (nse_degree (discretization o)))%R); x2 := Fin 0; x3 := im |}) = Ret (SUCCESS, bb) ->
      x2 bb = Fin 0 /\ exists re, x0 bb = Fin (- re) /\ x1 bb = Fin re /\ re = re_bound eps_t (if Nat.eqb (nse_degree (discretization o)) 0 then 2 else 2 / INR (nse_degree (discretization o)))%R).
  { intros im HH. injection HH as <-. cbn. split; [reflexivity|]. eexists. split; [reflexivity|]. auto. }
  cbv zeta in H. destruct (discretization o);
  try (inv_bind H; exact (G _ H)); (destruct (negb _) in H; [inv_bind H; injection H as H _; rewrite H in Hx; discriminate Hx|]); inv_bind H; inv_bind H; exact (G _ H).
Qed.

(** What a bound state has to satisfy for each value of the option bound_state_filtering (include/fnft_nsev.h:37-55):
   BASIC: not in the lower half-plane; FULL: also inside the strip |Re| <= 0.9 pi / (|map| h) of the given time step h;
   MANUAL: in the user's box *)
Definition passes (o : opts) (h : R) (v : C) : Prop :=
  match bound_state_filtering o with
  | BF_BASIC => (0 <= snd v)%R
  | BF_FULL => (0 <= snd v)%R /\ (Rabs (fst v) <= 9 / 10 * PI / (2 / (if Nat.eqb (nse_degree (discretization o)) 0 then 1 else INR (nse_degree (discretization o))) * h))%R
  | BF_MANUAL => inside (bounding_box o) v
  | _ => True
  end.

(** FULL also limits the imaginary part: at most 3/2 times a quarter of the energy of the (preprocessed) samples, by the rectangle
   rule; for the methods ES4 and TES4 every third entry of the preprocessed array is a sample *)
Definition energy_samples (d : nse_disc) (l : list C) : list C :=
  match d with N_ES4 | N_TES4 => map (fun i => nth (3 * i) l 0) (seq 0 (length l / 3)) | _ => l end.
Definition im_limit (d : nse_disc) (l : list C) (t0 t1 h : R) : R :=
  let S := energy_samples d l in (3 / 2 * (1 / 4) * (sum_sq S * ((t1 + h / 2 - (t0 - h / 2)) / INR (length S))))%R.
Lemma every_third (q : list C) n : (3 * n <= length q)%nat -> forall l,
  for_ n 0 (fun i acc => x <- aget q (3 * i) ;; Ret (acc ++ [x])) [] = Ret l -> l = map (fun i => nth (3 * i) q 0) (seq 0 n).
Proof.
  intros H l Hl. destruct (for_inv (fun i (l : list C) => l = map (fun i => nth (3 * i) q 0) (seq 0 i)) (fun i acc => x <- aget q (3 * i) ;; Ret (acc ++ [x])) n 0 [] eq_refl) as (l' & El & HH).
  - intros i l0 Hi ->. rewrite (aget_nth q (RtoC 0)) by lia. cbn [bind]. eexists. split; [reflexivity|]. rewrite seq_S, map_app. reflexivity.
  - rewrite Hl in El. injection El as <-. exact HH.
Qed.
Lemma box_FULL_im E s Dg q T eps_t o bb : box_of E s (Dg * nse_upsampling_factor (discretization o)) q T eps_t o bb -> bound_state_filtering o = BF_FULL ->
  known_disc (discretization o) -> length q = (Dg * nse_upsampling_factor (discretization o))%nat -> (0 < Dg)%nat -> (fst T < snd T)%R -> (0 < eps_t)%R ->
  x3 bb = Fin (im_limit (discretization o) q (fst T) (snd T) eps_t).
Proof.
  intros H E0 Hd Lq HD HT He. pose proof (known_ups _ Hd) as Hu. unfold box_of, nsev_box in H. rewrite E0 in H. cbv zeta in H. rewrite Nat.div_mul in H by exact Hu.
  assert (Him : forall (l : list C) im, (0 < length l)%nat -> im_bound (length l) l T eps_t = Ret im ->
     im = Fin (3 / 2 * (1 / 4) * (sum_sq l * ((snd T + eps_t / 2 - (fst T - eps_t / 2)) / INR (length l))))%R).
  { intros l im Hl Hi. unfold im_bound in Hi. rewrite misc_l2norm2_rectangle_rule in Hi. cbn [bind] in Hi. destruct (Rle_dec _ _); [lra|]. destruct (Nat.eqb_spec (length l) 0); [lia|]. now injection Hi as <-. }
  unfold im_limit, energy_samples. set (ups := nse_upsampling_factor (discretization o)) in *.
  destruct (discretization o) eqn:Ed; try (rewrite <- Lq in H; inv_bind H; injection H as <-; cbn [x3]; apply Him; [rewrite Lq; unfold ups in *; nia|exact Hx]);
  (destruct (negb _) in H; [inv_bind H; injection H as Hc _; rewrite Hc in Hx; discriminate Hx|]; inv_bind H; inv_bind H; injection H as <-; cbn [x3];
   change ups with 3%nat in Lq; assert (E3 : (length q / 3 = Dg)%nat) by (rewrite Lq; apply Nat.div_mul; lia);
   rewrite E3; apply every_third in Hx; [|lia]; subst x; apply Him; [rewrite map_length, seq_length; exact HD|]; rewrite map_length, seq_length; exact Hx0).
Qed.

Theorem nsev_bound_states_filtered E D q T M XI kappa user dflt u u' user' dflt' K' bs' : env_ok E -> pre_codes E ->
  let o := match user with Some o => o | None => dflt end in
  safe_call E D q T M XI kappa o u -> richardson_extrapolation_flag o <> 1%nat -> kappa = 1%Z -> u_bs u <> None ->
  fnft_nsev E D q T M XI kappa user dflt u = Ret (SUCCESS, u', user', dflt') -> u_K u' = Some K' -> u_bs u' = Some bs' ->
  bound_state_filtering o <> BF_NONE ->
  (forall i t0 t1, (i < K')%nat -> T = Some (t0, t1) -> passes o ((t1 - t0) / INR (D - 1)) (nth i bs' 0)) /\
  (forall i t0 t1 l, (i < K')%nat -> T = Some (t0, t1) -> q = Some l -> bound_state_filtering o = BF_FULL -> let h := ((t1 - t0) / INR (D - 1))%R in
     exists p, e_pre E 0 D l h 1 D (discretization o) = Ret (inr p) /\ (snd (nth i bs' 0) <= im_limit (discretization o) (po_q p) t0 t1 h)%R) /\
  (forall i j, (i < j < K')%nat -> (sqrt EPS <= Cmod (nth i bs' 0 - nth j bs' 0)%C)%R).
Proof.
  intros HE HP o HS Hr -> Hb H EK' Eb' Hf. unfold fnft_nsev in H. inv_bind H. destruct x as [c [o1 u1]]. injection H as -> -> _ _.
  fold o in Hx. destruct HS as [HV Hlen Hsz HR HM HDs _]. destruct HV as [V1 V2 V3 V4 V5 V6 V7 V8].
  destruct q as [q|]; [|congruence]. destruct V3 as (t0 & t1 & -> & HT). specialize (Hlen q eq_refl).
  destruct (u_bs u) as [bs|] eqn:Eb; [|congruence]. destruct (u_K u) as [K|] eqn:EK; [|exfalso; now apply V6].
  pose proof (known_ups _ V7) as Hu. set (ups := nse_upsampling_factor (discretization o)) in *.
  destruct (run_last E D q (t0, t1) M XI o u o1 u' bs K HP Hx Hr Eb EK) as (eps_t & p & o2 & u2 & bs2 & K2 & He & Hp & Hbase & Eb2 & EK2 & Hn & Hs).
  cbn [fst snd] in He. rewrite step_ok in He by exact V1. injection He as He. symmetry in He.
  assert (Hep : (0 < eps_t)%R) by (rewrite He; apply step_pos; [lra|exact V1]).
  destruct (k_pre E HE 0 D q eps_t 1 D (discretization o) V1 Hlen Hep) as (p' & Ep & Hpp). rewrite Hp in Ep. injection Ep as <-.
  destruct Hpp as (nskip & Es & _ & _ & Lq & Lr). rewrite sizes_full in Es by exact V1. injection Es as <- EDs. rewrite <- EDs in Lq, Lr. fold ups in Lq, Lr.
  assert (Ho2 : discretization o2 = discretization o /\ bound_state_filtering o2 = bound_state_filtering o /\ bounding_box o2 = bounding_box o).
  { destruct (bound_state_localization o) eqn:El; try (destruct (Hn ltac:(discriminate)) as [-> _]; auto). destruct (Hs eq_refl) as [-> _]. auto. }
  destruct Ho2 as (Ed2 & Ef2 & Ebb2).
  assert (Hfast2 : bound_state_localization o2 = BL_FAST_EIGENVALUE -> nse_degree (discretization o) <> O).
  { intros Hl. pose proof (disc_class_spec (discretization o)) as HC. destruct (disc_class (discretization o)) as [[|]|]; [apply HC| |contradiction].
    destruct HC as (_ & HC & _). specialize (V8 HC eq_refl ltac:(discriminate)). destruct (Hn ltac:(congruence)) as [-> _]. congruence. }
  assert (HK2 : (K2 <= length bs2)%nat).
  { destruct (bound_state_localization o) eqn:El; try (destruct (Hn ltac:(discriminate)) as [_ ->]; rewrite Eb in Eb2; rewrite EK in EK2; injection Eb2 as <-; injection EK2 as <-; eapply (r_bs _ _ _ _ HR); eassumption).
    destruct (Hs eq_refl) as (_ & n & ps & v & En & Eps & Ebase0 & ->). cbn in Eb2, EK2.
    destruct (k_pre E HE 1 D q eps_t 1 n (discretization o) V1 Hlen Hep) as (p' & Ep' & Hpp). rewrite Eps in Ep'. injection Ep' as <-.
    destruct Hpp as (ns & Es & Pf & Pl & Lpq & Lpr). fold ups in Lpq, Lpr.
    assert (Hsub : (1 <= ns)%nat /\ (2 <= po_Dsub ps <= D)%nat).
    { destruct (Nat.eq_dec D 2) as [E2|N2].
      - rewrite E2 in Es. rewrite sizes_two in Es. injection Es as <- <-. lia.
      - destruct (MiscProof.downsample_sizes_spec D n) as (ns' & m' & Es' & K1 & K2' & K3 & K4 & K5); [lia|]. rewrite Es in Es'. injection Es' as <- <-. split; [lia|]. nia. }
    destruct Hsub as [Hns HDsub].
    match type of Ebase0 with fnft_nsev_base _ _ _ _ _ ?TT _ _ _ _ _ = _ => set (Tsub := TT) in * end.
    assert (HTs : (fst Tsub < snd Tsub)%R).
    { unfold Tsub. cbn [fst snd]. rewrite Pf, Pl, mult_INR. simpl (INR 0).
      assert (1 <= INR ns)%R by (apply (le_INR 1); exact Hns). assert (1 <= INR (po_Dsub ps - 1))%R by (apply (le_INR 1); lia).
      assert (0 < INR (po_Dsub ps - 1) * INR ns * eps_t)%R by (apply Rmult_lt_0_compat; [apply Rmult_lt_0_compat; lra|exact Hep]). lra. }
    destruct (base_safe E 0 (po_Dsub ps * ups) (po_Dsub ps) (po_q ps) (po_r ps) Tsub 0 XI 1 (set_bsloc o BL_FAST_EIGENVALUE)
       {| u_cs := None; u_K := u_K u; u_bs := u_bs u; u_nc := None |}) as (c & v' & Ev & Hc & Cv & _); auto.
    { lia. } { nia. } { cbn. rewrite EK. congruence. }
    { constructor; cbn; try discriminate. intros l K0 Hbs HK0. eapply (r_bs _ _ _ _ HR); eassumption. }
    { intros _ _ _. cbn. pose proof (disc_class_spec (discretization o)) as HC. destruct (disc_class (discretization o)) as [[|]|]; [apply HC| |contradiction].
      destruct HC as (_ & HC & _). specialize (V8 HC eq_refl ltac:(discriminate)). congruence. }
    change (nse_upsampling_factor (discretization o)) with ups in Ebase0. rewrite Ebase0 in Ev. injection Ev as <- <-. destruct Cv as [_ A2 _ [A4 _]]. cbn in A2. unfold cap in *. cbn in A4, A2. rewrite EK in *. rewrite Eb in A2. rewrite Eb2 in A2. cbn in A2.
    rewrite EK2 in A4. rewrite (kept_length _ _ _ A2). assert (K <= length bs)%nat by (eapply (r_bs _ _ _ _ HR); eassumption). lia. }
  destruct (base_bs _ _ _ _ _ _ _ _ _ _ _ bs2 K2 Hbase Eb2 EK2) as (deg & tm & e2 & K3 & bs3 & He2 & Hbs & Eb3 & EK3 & Htm0 & Htm1).
  rewrite Eb' in Eb3. injection Eb3 as <-. rewrite EK' in EK3. injection EK3 as <-.
  rewrite Ed2 in *. change (nse_upsampling_factor (discretization o)) with ups in He2, Htm0, Htm1, Hbs, Hbase. rewrite Nat.div_mul in He2 by exact Hu. cbn [fst snd] in He2. rewrite step_ok in He2 by exact V1. injection He2 as He2. rewrite <- He in He2. subst e2.
  assert (Htm : bound_state_localization o2 = BL_FAST_EIGENVALUE -> exists t, tm = Some t /\ (4 * (deg + 1) <= length t)%nat).
  { intros Hl. specialize (Hfast2 Hl). destruct (numel_ok (D * ups) (discretization o)) as (n & En & _ & Hn1); [nia|exact Hsz|].
    destruct tm as [t|]. 2:{ exfalso. rewrite (Htm0 eq_refl) in En. injection En as <-. destruct (Hn1 Hfast2). congruence. }
    exists t. split; [reflexivity|]. destruct (Htm1 t eq_refl) as (n' & ec & En' & Nn & Efs).
    rewrite En in En'. injection En' as <-.
    destruct (k_fscatter E HE 1 (D * ups) (po_q p) (po_r p) eps_t (e_junk E 8 n) (normalization_flag o2) (discretization o)) as (c & d0 & t' & W & Ef & _ & Lt & Hdeg); auto; [nia|now rewrite (k_junk E HE)|].
    rewrite Efs in Ef. injection Ef as <- <- <- _. rewrite Lt, (k_junk E HE), (Hdeg eq_refl). apply Hn1. exact Hfast2. }
  destruct (boundstates_result E 1 (D * ups) D (po_q p) (po_r p) deg tm (t0, t1) eps_t K2 bs2 o2 K' bs' HE) as (bb & Hbb & Hin & Hap); auto.
  { now rewrite Ed2. } { now rewrite Ed2. }
  { congruence. }
  split.
  - intros i a b Hi Hab. injection Hab as <- <-. rewrite <- He. specialize (Hin i Hi). unfold passes. rewrite <- Ef2 in Hf |- *.
    unfold inside in Hin. destruct (bound_state_filtering o2) eqn:Eff.
    + congruence.
    + rewrite (box_BASIC _ _ _ _ _ _ _ _ Hbb Eff) in Hin. cbn in Hin. destruct Hin as (_ & _ & H0 & _). destruct (Rle_dec 0 (snd (nth i bs' 0))); [assumption|discriminate].
    + destruct (box_FULL _ _ _ _ _ _ _ _ Hbb Eff) as (Z2 & re & Z0 & Z1 & Ere). rewrite Z0, Z1, Z2 in Hin. cbn in Hin. destruct Hin as (H0 & H1 & H2 & _).
      destruct (Rle_dec 0 (snd (nth i bs' 0))); [|discriminate]. split; [assumption|].
      destruct (Rle_dec (- re) (fst (nth i bs' 0))); [|discriminate]. destruct (Rle_dec (fst (nth i bs' 0)) re); [|discriminate].
      replace (9 / 10 * PI / (2 / (if Nat.eqb (nse_degree (discretization o)) 0 then 1 else INR (nse_degree (discretization o))) * eps_t))%R with re.
      * apply Rabs_le. lra.
      * rewrite Ere, Ed2. unfold re_bound. destruct (Nat.eqb_spec (nse_degree (discretization o)) 0) as [Ez|Nz].
        -- rewrite Rabs_pos_eq by lra. field. lra.
        -- assert (0 < INR (nse_degree (discretization o)))%R by (apply lt_0_INR; lia).
           rewrite Rabs_pos_eq; [reflexivity|]. apply Rmult_le_pos; [|lra]. apply Rlt_le, Rdiv_lt_0_compat; lra.
    + rewrite (box_MANUAL _ _ _ _ _ _ _ _ Hbb Eff), Ebb2 in Hin. exact Hin.
    + exact I.
  - split.
    { intros i a b l Hi Hab Hl Hff. injection Hab as <- <-. injection Hl as <-. cbv zeta. rewrite <- He. exists p. split; [exact Hp|]. specialize (Hin i Hi). unfold inside in Hin.
      rewrite (box_FULL_im E 1 D (po_q p) (t0, t1) eps_t o2 bb) in Hin; try (rewrite ?Ed2; assumption); try (rewrite ?Ed2; fold ups; assumption); try congruence; try lia.
      - cbn [fst snd] in Hin. rewrite Ed2 in Hin. destruct Hin as (_ & _ & _ & H3). cbn in H3. destruct (Rle_dec (snd (nth i bs' 0)) _); [assumption|discriminate]. }
    intros i j Hij. assert (Lb : (K' <= length bs')%nat).
    { destruct (boundstates_safe E 1 (D * ups) D (po_q p) (po_r p) deg tm (t0, t1) eps_t K2 bs2 o2 HE) as (c0 & K0 & b0 & E0' & _ & HK0 & Hk0); auto.
      - now rewrite Ed2.
      - now rewrite Ed2.
      - rewrite Hbs in E0'. injection E0' as <- <- <-. rewrite (kept_length _ _ _ Hk0). lia. }
    apply (Hap i j); [lia| |]; rewrite <- (firstn_skipn K' bs') at 2; rewrite app_nth1 by (rewrite firstn_length; lia); apply nth_error_nth'; rewrite firstn_length; lia.
Qed.

(** ** The bound states as Newton iterates *)
Lemma newton_all_spec E s D q r T norm d f f' nit tl bb : computes_at E s D q r T norm d f f' ->
  forall cnt i bs bs', (i + cnt <= length bs)%nat -> newton_all E cnt i s D q r T d nit tl bb norm bs = Ret (SUCCESS, bs') ->
  length bs' = length bs /\ forall j, if ((i <=? j) && (j <? i + cnt))%nat
    then exists k, (k <= allowed nit)%nat /\ nth j bs' 0 = newton_iterate f f' k (nth j bs 0) /\ newton_ends f f' bb tl (allowed nit) (nth j bs 0) k SUCCESS
    else nth j bs' 0 = nth j bs 0.
Proof.
  intros Hc. induction cnt as [|cnt IH]; intros i bs bs' Hl H; cbn [newton_all] in H.
  - injection H as <-. split; [reflexivity|]. intros j. destruct (Nat.leb_spec i j), (Nat.ltb_spec j (i + 0)); cbn [andb]; auto; lia.
  - rewrite (aget_nth bs (RtoC 0) i) in H by lia. cbn [bind] in H. set (lam := nth i bs (RtoC 0)) in *.
    destruct (newton_refinement_is_newton E s D q r T norm d f f' nit tl bb lam Hc) as (code & k & calls & El & Hk & _ & He). rewrite El in H. cbn [bind] in H.
    rewrite aset_upd in H by lia. cbn [bind] in H. destruct (Z.eqb_spec code SUCCESS) as [->|N]; cbn [negb] in H; [|injection H as -> _; congruence].
    assert (Hl2 : (S i + cnt <= length (upd bs i (newton_iterate f f' k lam)))%nat) by (rewrite upd_length; lia). destruct (IH (S i) _ _ Hl2 H) as [L2 H2]. rewrite upd_length in L2. split; [exact L2|]. intros j. specialize (H2 j).
    destruct (Nat.eq_dec j i) as [->|Nj].
    + destruct (Nat.leb_spec (S i) i); [lia|]. cbn [andb] in H2. destruct (Nat.leb_spec i i); [|lia]. destruct (Nat.ltb_spec i (i + S cnt)); [|lia]. cbn [andb].
      rewrite H2, nth_upd, Nat.eqb_refl by lia. exists k. auto.
    + assert (Eu : nth j (upd bs i (newton_iterate f f' k lam)) (RtoC 0) = nth j bs 0).
      { rewrite nth_upd by lia. destruct (Nat.eqb_spec j i); [contradiction|reflexivity]. }
      rewrite Eu in H2. destruct (Nat.leb_spec (S i) j), (Nat.leb_spec i j), (Nat.ltb_spec j (S i + cnt)), (Nat.ltb_spec j (i + S cnt)); cbn [andb] in *; auto; lia.
Qed.

Theorem nsev_newton_bound_states E D q T M XI o dflt u u' user' dflt' K bs : pre_codes E ->
  fnft_nsev E D (Some q) (Some T) M XI 1 (Some o) dflt u = Ret (SUCCESS, u', user', dflt') ->
  u_K u = Some K -> u_bs u = Some bs -> (K <= length bs)%nat ->
  bound_state_localization o = BL_NEWTON -> bound_state_filtering o = BF_NONE -> richardson_extrapolation_flag o <> 1%nat ->
  exists p, e_pre E 0 D q ((snd T - fst T) / INR (D - 1)) 1 D (discretization o) = Ret (inr p) /\
  forall f f', computes_at E 1 (D * nse_upsampling_factor (discretization o)) (po_q p) (po_r p) T (normalization_flag o) (base_method (discretization o)) f f' ->
  u_K u' = Some K /\ exists bs', u_bs u' = Some bs' /\ length bs' = length bs /\
  forall i, (i < K)%nat -> exists k, (k <= allowed (niter o))%nat /\ nth i bs' 0 = newton_iterate f f' k (nth i bs 0)
    /\ newton_ends f f' nobox (match tol o with Fin x => if Rle_dec 0 x then x else (100 * EPS)%R | _ => (100 * EPS)%R end) (allowed (niter o)) (nth i bs 0) k SUCCESS.
Proof.
  intros HP H EK Eb HK Hl Hf Hr. unfold fnft_nsev in H. inv_bind H. destruct x as [c [o1 u1]]. injection H as -> -> _ _.
  destruct (run_last E D q T M XI o u o1 u' bs K HP Hx Hr Eb EK) as (eps_t & p & o2 & u2 & bs2 & K2 & He & Hp & Hbase & Eb2 & EK2 & Hn & _).
  destruct (Hn ltac:(congruence)) as [-> ->]. rewrite Eb in Eb2. injection Eb2 as <-. rewrite EK in EK2. injection EK2 as <-.
  unfold step in He. destruct (D <=? 1)%nat; [discriminate|]. injection He as <-. exists p. split; [exact Hp|]. intros f f' Hc.
  destruct (base_bs _ _ _ _ _ _ _ _ _ _ _ bs K Hbase Eb EK) as (deg & tm & e2 & K3 & bs3 & _ & Hbs & Eb3 & EK3 & _ & _).
  unfold nsev_compute_boundstates, nsev_box, nsev_filter in Hbs. rewrite Hf, Hl in Hbs. cbv zeta in Hbs.
  destruct (Nat.eqb (nse_upsampling_factor (discretization o)) 0); [discriminate|]. cbn [bind] in Hbs. change (Z.eqb SUCCESS SUCCESS) with true in Hbs. cbn [negb] in Hbs.
  inv_bind Hbs. destruct x as [c1 b1]. apply check_success in Hbs. destruct Hbs as [-> Hbs]. cbn [bind] in Hbs. change (Z.eqb SUCCESS SUCCESS) with true in Hbs. cbn [negb] in Hbs.
  injection Hbs as <- <-. split; [exact EK3|]. exists b1. split; [exact Eb3|].
  unfold nsev_refine_newton in Hx0. destruct (Nat.eqb_spec K 0) as [->|NK]. { injection Hx0 as <-. split; [reflexivity|lia]. }
  destruct (Nat.eqb_spec (niter o) 0) as [E0|N0].
  { injection Hx0 as <-. split; [reflexivity|]. intros i Hi. exists O. rewrite E0. split; [lia|]. split; [reflexivity|]. now apply all_steps. }
  cbn in Hx0. destruct (newton_all_spec _ _ _ _ _ _ _ _ f f' _ _ nobox Hc K 0 bs b1 ltac:(lia) Hx0) as [L1 H1]. split; [exact L1|].
  intros i Hi. specialize (H1 i). cbn [Nat.leb Nat.add andb] in H1. destruct (Nat.ltb_spec i K); [exact H1|lia].
Qed.
