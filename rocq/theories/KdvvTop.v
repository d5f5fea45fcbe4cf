(** * The grid search of fnft_kdvv (C50), the default options (C51) and the Newton refinement (C65): theorems *)
From Coq Require Import Reals Lra Sorted.
From Coquelicot Require Import Coquelicot.
From Verif Require Import Loop MiscSpec MiscProof MiscProps MiscMetricProps MiscNumProps PolyFmultProof DiscProps DiscPreProps NsevSpec NsevProps
  NsevSafe NsevSafe2 NsevSafe3 NsevSafe4 NsevSafe5 NsevDisc2 KdvvSpec KdvvProps KdvvSafe KdvvGrid KdvvSafe2 KdvvSafe3 KdvvNewton.
Local Open Scope C_scope.

Lemma kbase_disc E s D q r T M XI o u u' bs K0 : fnft_kdvv_base E s D q r T M XI o u = Ret (SUCCESS, u') ->
  u_bs u = Some bs -> u_K u = Some K0 -> K0 <> O ->
  exists eps_t K bs', step (snd T - fst T) (D / kdv_upsampling_factor (k_disc o)) = Ret eps_t /\
    kdvv_compute_boundstates E s D q r T eps_t K0 bs o = Ret (SUCCESS, (K, bs')) /\ u_K u' = Some K /\ u_bs u' = Some bs'.
Proof.
  intros H Hb HK HK0. unfold fnft_kdvv_base in H. destruct (args_bad _ _ _ _ _ _); [discriminate|]. cbv zeta in H.
  destruct (Nat.eqb _ 0); [discriminate|]. inv_bind H. rename x into eps_t. inv_bind H. rename x into n.
  destruct (negb (Nat.eqb n 0) && negb (ke_alloc E s 8)); [discriminate|]. inv_bind H. destruct x as [[[c deg] tm] W].
  apply check_success in H. destruct H as [_ H]. inv_bind H. destruct x as [c1 u1].
  assert (HU : u_bs u1 = u_bs u /\ u_K u1 = u_K u).
  { destruct (u_cs u) as [cs|]; [|injection Hx2 as _ <-; auto]. destruct (0 <? M)%nat; [|injection Hx2 as _ <-; auto].
    inv_bind Hx2. injection Hx2 as _ <-. auto. }
  destruct HU as [Hb1 HK1]. apply check_success in H. destruct H as [_ H]. rewrite Hb1, HK1, Hb, HK in H. cbn [deref bind] in H.
  destruct (Nat.eqb_spec K0 0); [contradiction|]. cbn [negb] in H. inv_bind H. destruct x as [c2 [K bs']]. apply check_success in H. destruct H as [-> H].
  exists eps_t, K, bs'. split; [exact Hx|]. split; [exact Hx3|]. cbn in H.
  destruct (u_nc u1) as [nc|]; [|injection H as <-; auto]. destruct (Nat.eqb K 0); cbn [negb] in H; [injection H as <-; auto|].
  inv_bind H. apply check_success in H. destruct H as [_ H]. injection H as <-. auto.
Qed.


Lemma Forall2_impl' {A B} (P Q : A -> B -> Prop) : (forall x y, P x y -> Q x y) -> forall l m, Forall2 P l m -> Forall2 Q l m.
Proof. intros H l m F. induction F; constructor; auto. Qed.
Lemma Forall2_nth {A B} (P : A -> B -> Prop) d e : forall l m, length l = length m -> (forall j, (j < length l)%nat -> P (nth j l d) (nth j m e)) -> Forall2 P l m.
Proof.
  induction l as [|x l IH]; intros [|y m] L H; try discriminate; constructor.
  - apply (H O). cbn. lia.
  - apply IH; [now injection L|]. intros j Hj. apply (H (S j)). cbn. lia.
Qed.
Lemma nth_firstn' {A} (l : list A) n j d : (j < n)%nat -> nth j (firstn n l) d = nth j l d.
Proof. revert n j. induction l as [|x l IH]; intros [|n] [|j] H; cbn; try lia; try reflexivity. apply IH. lia. Qed.
Lemma krun_base E D q T M XI o u o' u' bs K0 : kenv_ok E -> kdvv_safe_call D (Some q) (Some T) M XI o u ->
  kdvv_run E D (Some q) (Some T) M XI o u = Ret (SUCCESS, (o', u')) -> k_rich o <> 1%nat ->
  u_bs u = Some bs -> u_K u = Some K0 -> K0 <> O ->
  exists p K bs', ke_pre E 0 D q ((snd T - fst T) / INR (D - 1)) D (k_disc o) = Ret (inr p) /\
    length (po_q p) = (D * kdv_upsampling_factor (k_disc o))%nat /\ length (po_r p) = (D * kdv_upsampling_factor (k_disc o))%nat /\
    kdvv_compute_boundstates E 1 (D * kdv_upsampling_factor (k_disc o)) (po_q p) (po_r p) T ((snd T - fst T) / INR (D - 1)) K0 bs o = Ret (SUCCESS, (K, bs')) /\
    u_K u' = Some K /\ u_bs u' = Some bs'.
Proof.
  intros HE HS H Hr Hb HK HK0. destruct HS as [HV HRd _ _ _ _]. unfold kdvv_run in H. rewrite (check_valid _ _ _ _ _ _ _ HV HRd) in H. cbn [bind Z.eqb SUCCESS negb] in H.
  destruct HV as [HD _ _ HT _ _ _ _ Hd]. destruct HRd as [Lq _ _]. specialize (Lq q eq_refl). destruct HT as (t0 & t1 & ET & HT). injection ET as ->. cbn [fst snd] in *.
  cbv zeta in H. pose proof (proj1 (kups _) Hd) as Hu. destruct (Nat.eqb_spec (kdv_upsampling_factor (k_disc o)) 0) as [|_]; [contradiction|]. cbn [deref bind fst snd] in H.
  rewrite step_ok in H by exact HD. cbn [bind] in H. destruct (Nat.eqb_spec (k_rich o) 1) as [|_]; [contradiction|].
  assert (He : (0 < (t1 - t0) / INR (D - 1))%R) by (apply step_pos; [lra|exact HD]).
  cbn [andb bind] in H. destruct (kk_pre E HE 0 D q _ D (k_disc o) HD Lq He) as (r & Er & Hp). rewrite Er in H. cbn [bind] in H.
  destruct r as [c|p].
  { destruct Hp as [Hc N]. rewrite E_SUB_ok in H by exact Hc. cbn [bind] in H. injection H as H _. now apply abs_nonzero in H. }
  destruct Hp as (nskip & Es & _ & _ & L1 & L2). rewrite sizes_full in Es by exact HD. injection Es as _ EDs. rewrite <- EDs in L1, L2.
  inv_bind H. destruct x as [c u1]. apply check_success in H. destruct H as [-> H]. injection H as _ ->.
  destruct (kbase_disc _ _ _ _ _ _ _ _ _ _ _ _ _ Hx Hb HK HK0) as (eps & K & bs' & Ee & EB & EK & Eb). cbn [fst snd] in Ee.
  rewrite Nat.div_mul, step_ok in Ee by assumption. injection Ee as <-.
  exists p, K, bs'. auto 10.
Qed.

(** [b] is the largest of the values x_i with P i, or 0 if all are negative *)
Definition largest_or_zero (P : nat -> Prop) (x : nat -> R) (b : R) : Prop :=
  (0 <= b)%R /\ (forall i, P i -> (x i <= b)%R) /\ (b = 0%R \/ exists i, P i /\ b = x i).
Lemma largest_unique P x b b' : largest_or_zero P x b -> largest_or_zero P x b' -> b = b'.
Proof.
  intros (H0 & H1 & H2) (H0' & H1' & H2'). destruct H2 as [->|(i & Hi & ->)], H2' as [->|(j & Hj & ->)]; try reflexivity.
  - specialize (H1 j Hj). lra.
  - specialize (H1' i Hi). lra.
  - specialize (H1 j Hj). specialize (H1' i Hi). lra.
Qed.

(** the points of the grid: m points from the smallest positive number to the number below dist, in equal steps in between *)
Definition kdv_axis_point (E : kenv) (m : nat) (dist : R) (i : nat) : C :=
  (0%R, if Nat.eqb i 0 then ke_tiny E else if Nat.eqb i (m - 1) then ke_below E dist else (dist / INR (m - 1) * INR i)%R).

(** What the grid search of a successful call returns.  [b] is the largest preprocessed sample of the potential (0 if
   none is positive); [sc] are the scattering matrices on the grid, four entries per grid point, and [a i] is the first of
   them; [x i] is the grid point number i.
   - if b = 0, there are no bound states;
   - if the grid has less than two points, no bound states are returned;
   - otherwise there is one bound state for each zero and each sign change of a on the grid, in the order of the grid,
     and before the Newton refinement it is the grid point, or a point strictly inside the cell. *)
Theorem kdvv_gridsearch_result E D q T M XI user dflt u u' user' dflt' bs K0 : kenv_ok E ->
  let o := match user with Some o => o | None => dflt end in
  kdvv_safe_call D (Some q) (Some T) M XI o u -> k_loc o = KB_GRIDSEARCH_AND_REFINE -> k_rich o <> 1%nat ->
  u_bs u = Some bs -> u_K u = Some K0 -> K0 <> O ->
  fnft_kdvv E D (Some q) (Some T) M XI user dflt u = Ret (SUCCESS, u', user', dflt') ->
  let h := ((snd T - fst T) / INR (D - 1))%R in
  let n := (D * kdv_upsampling_factor (k_disc o))%nat in
  exists (p : pre_out) (b : R), ke_pre E 0 D q h D (k_disc o) = Ret (inr p) /\
  largest_or_zero (fun i => (sample_stride (k_disc o) * i < n)%nat) (fun i => fst (nth (sample_stride (k_disc o) * i) (po_q p) 0)) b /\
  (b = 0%R -> u_K u' = Some O) /\
  (b <> 0%R -> let dist := sqrt (safety_factor (k_disc o) * b) in
     (k_grid o = Inf true /\ u_K u' = Some O) \/
     exists g, k_grid o = Fin g /\ (0 < g)%R /\ let m := uceil (dist / g) in
       ((m < 2)%nat -> u_K u' = Some O) /\
       ((2 <= m)%nat -> exists (slow : kdv_disc) (sc : list C) (Ws : list Z) (is : list nat) (bs' : list C), let a i := nth (4 * i) sc 0 in let x i := nth i (map (kdv_axis_point E m dist) (seq 0 m)) 0 in
          kdv_slow_discretization (k_disc o) = Some slow /\
          ke_smat E 1 n (po_q p) (po_r p) h m (map (kdv_axis_point E m dist) (seq 0 m)) (k_norm o) slow = Ret (SUCCESS, sc, Ws) /\
          all_candidates a m is /\ (length is <= K0)%nat /\ u_K u' = Some (length is) /\ u_bs u' = Some bs' /\
          exists zs, Forall2 (found_at a x) is zs /\
             Forall2 (fun i z => sign_change a i ->
                (k_norm o = true -> Z.Even (nth i Ws 0%Z - nth (i - 1) Ws 0%Z)) ->
                let val j := RtoC (fst (a j) * if k_norm o then powerRZ 2 (nth j Ws 0%Z) else 1)%R in
                is_secant_zero (x (i - 1)%nat) (x i) (val (i - 1)%nat) (val i) z) is zs /\
             (k_niter o = O -> firstn (length is) bs' = zs) /\
             (forall f f', kcomputes_at E 1 n (po_q p) (po_r p) T (k_norm o) slow f f' ->
                Forall2 (refined f f' dist (k_niter o)) zs (firstn (length is) bs')))).
Proof.
  intros HE o HS Hl Hr Hb HK HK0 H h n. unfold fnft_kdvv in H. fold o in H. inv_bind H. destruct x as [c [o1 u1]]. injection H as -> -> _ _.
  destruct (krun_base _ _ _ _ _ _ _ _ _ _ _ _ HE HS Hx Hr Hb HK HK0) as (p & K & bs' & Ep & L1 & L2 & EB & EK & Eb). fold h in Ep, EB. fold n in EB, L1, L2.
  destruct HS as [HV HRd _ HR _ _]. destruct HV as [HD _ _ HT _ _ _ _ Hd].
  assert (HKb : (K0 <= length bs)%nat) by (apply (rk_bs _ _ _ _ _ HRd); assumption).
  destruct HT as (t0 & t1 & ET & HT). injection ET as ->. cbn [fst snd] in *.
  pose proof (proj1 (kups _) Hd) as Hu. assert (Hn : (2 <= n)%nat) by (unfold n; nia).
  assert (He : (0 < h)%R) by (apply step_pos; [lra|exact HD]).
  unfold kdvv_compute_boundstates in EB. destruct (Nat.eqb_spec (kdv_upsampling_factor (k_disc o)) 0) as [|_]; [contradiction|].
  destruct (kslow_some _ Hd) as (slow & Es). rewrite Es in EB.
  destruct (bound_squared_spec n D (po_q p) (k_disc o) Hd eq_refl L1) as (b & E0 & B1 & B2 & B3). rewrite E0 in EB. cbn [bind] in EB.
  exists p, b. split; [exact Ep|]. split; [exact (conj B1 (conj B2 B3))|].
  assert (Hsf : (0 < safety_factor (k_disc o))%R) by (unfold safety_factor; destruct (_ <=? _)%nat; lra).
  destruct (Req_EM_T (safety_factor (k_disc o) * b) 0) as [Ez|Nz].
  { injection EB as <- <-. split; [intros _; exact EK|]. intros Nb. exfalso. nra. }
  split; [intros ->; exfalso; apply Nz; ring|]. intros _. cbv zeta. cbv zeta in EB. rewrite Hl in EB.
  assert (Hpos : (0 < safety_factor (k_disc o) * b)%R) by nra.
  set (dist := sqrt (safety_factor (k_disc o) * b)) in *. assert (Hdist : (0 < dist)%R) by (apply sqrt_lt_R0; exact Hpos).
  inv_bind EB. destruct x as [c [Kg bg]]. destruct (Z.eqb_spec c SUCCESS) as [->|N]; cbn [negb] in EB; [|injection EB as -> _ _; contradiction].
  unfold kdvv_gridsearch in Hx0. destruct (Rle_dec dist 0); [lra|].
  destruct (k_grid o) as [g|[|]|] eqn:Eg; try discriminate.
  2:{ injection Hx0 as <- <-. injection EB as <- <-. left. auto. }
  destruct (Rlt_dec 0 g) as [Hg|]; [|discriminate]. right. exists g. split; [reflexivity|]. split; [exact Hg|].
  cbv zeta in Hx0. set (m := uceil (dist / g)) in *. destruct (Nat.ltb_spec m 2) as [Hm|Hm].
  { injection Hx0 as <- <-. injection EB as <- <-. split; [intros _; exact EK|lia]. }
  split; [lia|]. intros _. destruct (ke_alloc E 1 10); [|discriminate]. destruct (ke_alloc E 1 11); [|discriminate]. cbn [negb] in Hx0.
  destruct (k_norm o && negb (ke_alloc E 1 12)); [discriminate|].
  destruct (kk_smat E HE 1 n (po_q p) (po_r p) h m (search_grid E m dist) (k_norm o) slow Hn L1 L2 He) as (c & sc & Ws & Em & _ & Lsc & LWs); [lia|apply search_grid_length|].
  rewrite Em in Hx0. cbn [bind] in Hx0. apply check_success in Hx0. destruct Hx0 as [-> Hx0].
  destruct (crossings_spec m (search_grid E m dist) sc (if k_norm o then Some Ws else None) K0 (search_grid_length _ _ _) Lsc) with (cnt := m) (i := O) (K := O) (bs := bs)
    as (c & K' & b' & is & Ec & Kept & HK' & Sis & Iis & Sc & Fc); [destruct (k_norm o); [intros w Hw; injection Hw as <-; auto|discriminate]|lia|lia|exact HKb|].
  rewrite Ec in Hx0. cbn [bind] in Hx0. injection Hx0 as -> <- <-. cbn [Nat.add] in *.
  destruct (Nat.le_gt_cases (length is) K0) as [Hle|Hgt]; [|specialize (Fc Hgt); discriminate].
  destruct (Sc Hle) as (_ & -> & zs & FF & Ez). cbn [firstn app] in Ez.
  inv_bind EB. destruct x as [c1 b1]. apply check_success in EB. destruct EB as [-> EB]. injection EB as <- <-.
  exists slow, sc, Ws, is, b1. split; [exact Es|]. split; [exact Em|].
  split. { split; [exact Sis|]. intros i. rewrite Iis. split; intros [Hi Hc]; (split; [lia|exact Hc]). }
  split; [exact Hle|]. split; [exact EK|]. split; [exact Eb|]. exists zs. split; [|split; [|split]].
  - revert FF. apply Forall2_impl'. intros i z. apply hit_found.
  - revert FF. apply Forall2_impl'. intros i z Hz Hsc Hev. cbv zeta.
    pose proof (hit_secant _ _ _ _ _ Hz Hsc) as HH. cbv zeta in HH. unfold sc_at, pt_at in HH.
    destruct (k_norm o); apply HH; [intros w Hw; injection Hw as <-; auto|discriminate].
  - intros Hn0. unfold kdvv_refine_newton in Hx0. rewrite Hn0 in Hx0.
    assert (b1 = b') as -> by (destruct (Nat.eqb (length is) 0); cbn in Hx0; injection Hx0 as ->; reflexivity). exact Ez.
  - intros f f' Hc. assert (Lb' : length b' = length bs) by (apply (kept_length K0); exact Kept).
    assert (Axz : axis (length is) b').
    { eapply axis_app; [exact Ez|lia|]. apply Forall_forall. intros z Hz.
      assert (HI : exists i, In i is /\ hit (sc_at sc) (pt_at (search_grid E m dist)) (if k_norm o then Some Ws else None) i z).
      { clear - FF Hz. induction FF; [contradiction|]. destruct Hz as [->|Hz]; [exists x; split; [now left|assumption]|]. destruct (IHFF Hz) as (i & Hi & HH). exists i. split; [now right|exact HH]. }
      destruct HI as (i & Hi & HH). eapply found_axis; [intros j; apply grid_axis| |eapply hit_found; exact HH]. apply Iis. exact Hi. }
    destruct (krefine_spec E 1 n (po_q p) (po_r p) (t0, t1) (length is) (k_norm o) slow f f' (k_niter o) dist b' b1) as [L1' Hj]; auto; [lra|lia|].
    apply (Forall2_nth _ (RtoC 0) (RtoC 0)).
    + rewrite <- Ez, !firstn_length. lia.
    + intros j Hj0. rewrite <- Ez in Hj0 |- *. rewrite firstn_length in Hj0. rewrite !nth_firstn' by lia. apply Hj. lia.
Qed.

(** With bound_state_localization = NEWTON the bound states are the refined initial guesses. *)
Theorem kdvv_newton_bound_states E D q T M XI user dflt u u' user' dflt' bs K0 : kenv_ok E ->
  let o := match user with Some o => o | None => dflt end in
  kdvv_safe_call D (Some q) (Some T) M XI o u -> k_loc o = KB_NEWTON -> k_rich o <> 1%nat ->
  u_bs u = Some bs -> u_K u = Some K0 -> K0 <> O ->
  fnft_kdvv E D (Some q) (Some T) M XI user dflt u = Ret (SUCCESS, u', user', dflt') ->
  let h := ((snd T - fst T) / INR (D - 1))%R in
  let n := (D * kdv_upsampling_factor (k_disc o))%nat in
  exists (p : pre_out) (b : R), ke_pre E 0 D q h D (k_disc o) = Ret (inr p) /\
  largest_or_zero (fun i => (sample_stride (k_disc o) * i < n)%nat) (fun i => fst (nth (sample_stride (k_disc o) * i) (po_q p) 0)) b /\
  (b = 0%R -> u_K u' = Some O) /\
  (b <> 0%R -> u_K u' = Some K0 /\ exists slow bs', kdv_slow_discretization (k_disc o) = Some slow /\ u_bs u' = Some bs' /\ length bs' = length bs /\
     forall f f', kcomputes_at E 1 n (po_q p) (po_r p) T (k_norm o) slow f f' ->
     forall j, (j < K0)%nat -> refined f f' (sqrt (safety_factor (k_disc o) * b)) (k_niter o) (nth j bs 0) (nth j bs' 0)).
Proof.
  intros HE o HS Hl Hr Hb HK HK0 H h n. unfold fnft_kdvv in H. fold o in H. inv_bind H. destruct x as [c [o1 u1]]. injection H as -> -> _ _.
  destruct (krun_base _ _ _ _ _ _ _ _ _ _ _ _ HE HS Hx Hr Hb HK HK0) as (p & K & bs' & Ep & L1 & L2 & EB & EK & Eb). fold h in Ep, EB. fold n in EB, L1, L2.
  destruct HS as [HV HRd _ HR _ _]. destruct HV as [HD _ _ HT _ _ _ Hgs Hd].
  assert (HKb : (K0 <= length bs)%nat) by (apply (rk_bs _ _ _ _ _ HRd); assumption).
  assert (Ax : axis K0 bs) by (intros i x Hi Hx1; apply (Hgs bs K0 i x Hl Hb HK Hi Hx1)).
  destruct HT as (t0 & t1 & ET & HT). injection ET as ->. cbn [fst snd] in *.
  pose proof (proj1 (kups _) Hd) as Hu. assert (Hn : (2 <= n)%nat) by (unfold n; nia).
  unfold kdvv_compute_boundstates in EB. destruct (Nat.eqb_spec (kdv_upsampling_factor (k_disc o)) 0) as [|_]; [contradiction|].
  destruct (kslow_some _ Hd) as (slow & Es). rewrite Es in EB.
  destruct (bound_squared_spec n D (po_q p) (k_disc o) Hd eq_refl L1) as (b & E0 & B1 & B2 & B3). rewrite E0 in EB. cbn [bind] in EB.
  exists p, b. split; [exact Ep|]. split; [exact (conj B1 (conj B2 B3))|].
  assert (Hsf : (0 < safety_factor (k_disc o))%R) by (unfold safety_factor; destruct (_ <=? _)%nat; lra).
  destruct (Req_EM_T (safety_factor (k_disc o) * b) 0) as [Ez|Nz].
  { injection EB as <- <-. split; [intros _; exact EK|]. intros Nb. exfalso. nra. }
  split; [intros ->; exfalso; apply Nz; ring|]. intros _. cbv zeta in EB. rewrite Hl in EB.
  inv_bind EB. destruct x as [c1 b1]. apply check_success in EB. destruct EB as [-> EB]. injection EB as <- <-.
  split; [exact EK|]. exists slow, b1. split; [exact Es|]. split; [exact Eb|].
  assert (Lb1 : length b1 = length bs).
  { destruct (knewton_safe E 1 n (po_q p) (po_r p) (t0, t1) K0 bs slow (k_niter o) {| x0 := Fin 0; x1 := Fin 0; x2 := Fin 0; x3 := Fin (sqrt (safety_factor (k_disc o) * b)) |} (k_norm o) HE Hn L1 L2 HT HKb Ax) as (c2 & b2 & E2 & _ & K2 & _).
    rewrite Hx0 in E2. injection E2 as <- <-. eapply kept_length; exact K2. }
  split; [exact Lb1|]. intros f f' Hc j Hj.
  destruct (krefine_spec E 1 n (po_q p) (po_r p) (t0, t1) K0 (k_norm o) slow f f' (k_niter o) (sqrt (safety_factor (k_disc o) * b)) bs b1) as [_ HH]; auto. apply sqrt_pos.
Qed.

(** ** C51: the default options.  Whatever the subroutines do: a valid call with the default options that asks for bound
   states of a potential with a positive (preprocessed) sample does not succeed, because the default grid spacing is 0. *)
Theorem kdvv_default_options_fail E D q T M XI user u bs K0 i : kenv_ok E -> (user = None \/ user = Some kdvv_default_opts) ->
  kdvv_safe_call D (Some q) (Some T) M XI kdvv_default_opts u -> u_bs u = Some bs -> u_K u = Some K0 -> K0 <> O ->
  (forall p, ke_pre E 0 D q ((snd T - fst T) / INR (D - 1)) D K_2SPLIT4B = Ret (inr p) -> (i < D)%nat /\ (0 < fst (nth i (po_q p) 0))%R) ->
  exists code u' user' dflt', fnft_kdvv E D (Some q) (Some T) M XI user kdvv_default_opts u = Ret (code, u', user', dflt') /\ code <> SUCCESS.
Proof.
  intros HE Hus HS Hb HK HK0 Hp.
  assert (Eo : match user with Some o => o | None => kdvv_default_opts end = kdvv_default_opts) by (destruct Hus as [->| ->]; reflexivity).
  assert (HS' : kdvv_safe_call D (Some q) (Some T) M XI (match user with Some o => o | None => kdvv_default_opts end) u) by (rewrite Eo; exact HS).
  destruct (kdvv_stays_in_bounds E D (Some q) (Some T) M XI user kdvv_default_opts u HE HS') as (code & u' & user' & dflt' & Er & _).
  exists code, u', user', dflt'. split; [exact Er|]. intros ->.
  destruct (kdvv_gridsearch_result E D q T M XI user kdvv_default_opts u u' user' dflt' bs K0 HE HS') as (p & b & Ep & Hl & _ & H1); auto; try (rewrite Eo; try reflexivity; discriminate).
  rewrite Eo in *. destruct (Hp p Ep) as [Hi Hpos]. destruct Hl as (_ & Hl & _).
  cbn [k_disc kdvv_default_opts sample_stride kdv_upsampling_factor k_grid] in Hl. specialize (Hl i). cbn in Hl. rewrite Nat.add_0_r, Nat.mul_1_r in Hl. specialize (Hl Hi).
  destruct H1 as [[H1 _]|(g & H1 & Hg & _)]; [lra|discriminate|]. cbn in H1. injection H1 as <-. lra.
Qed.

(** ** The distance of the points of the search grid *)
Lemma uceil_spec x : (0 <= x)%R -> (x <= INR (uceil x) < x + 1)%R.
Proof.
  intros Hx. unfold uceil. pose proof (base_Int_part (- x)) as [H1 H2].
  assert (Hz : (0 <= - Int_part (- x))%Z).
  { apply le_IZR. rewrite opp_IZR. lra. }
  rewrite INR_IZR_INZ, Z2Nat.id by exact Hz. rewrite opp_IZR. lra.
Qed.
Lemma uceil_unique x n : (INR n < x + 1)%R -> (x <= INR n)%R -> (0 <= x)%R -> uceil x = n.
Proof.
  intros H1 H2 H0. pose proof (uceil_spec x H0) as [H3 H4]. apply Nat.le_antisymm; apply Nat.lt_succ_r; apply INR_lt; rewrite S_INR; lra.
Qed.

(** include/fnft_kdvv.h promises that the distance of neighbouring points is not larger than grid_spacing.  Instead it
   is always larger. *)
Theorem kdvv_grid_spacing_refuted E dist g m i : (0 < dist)%R -> (0 < g)%R -> m = uceil (dist / g) -> (1 <= i)%nat -> (i + 2 < m)%nat ->
  (g < snd (nth (S i) (search_grid E m dist) 0%C) - snd (nth i (search_grid E m dist) 0%C))%R.
Proof.
  intros Hd Hg Hm Hi Him.
  assert (Hq : (0 < dist / g)%R) by (apply Rdiv_lt_0_compat; assumption).
  pose proof (uceil_spec (dist / g) ltac:(lra)) as [_ Hc]. rewrite <- Hm in Hc.
  assert (Hpt : forall j, (1 <= j)%nat -> (j + 1 < m)%nat -> snd (nth j (search_grid E m dist) 0%C) = (dist / INR (m - 1) * INR j)%R).
  { intros j H1 H2.
    assert (Es : nth_error (seq 0 m) j = Some j).
    { rewrite (nth_error_nth' _ O) by (rewrite seq_length; lia). now rewrite seq_nth by lia. }
    assert (En : nth_error (search_grid E m dist) j = Some ((0%R, (dist / INR (m - 1) * INR j)%R) : C)).
    { unfold search_grid. rewrite (map_nth_error _ _ _ Es). destruct (Nat.eqb_spec j 0); [lia|]. destruct (Nat.eqb_spec j (m - 1)); [lia|]. reflexivity. }
    now rewrite (nth_error_nth _ _ (RtoC 0) En). }
  rewrite !Hpt by lia. rewrite S_INR.
  assert (Hm1 : (INR (m - 1) < dist / g)%R) by (rewrite minus_INR by lia; cbn [INR]; lra).
  assert (Hm0 : (0 < INR (m - 1))%R) by (apply lt_0_INR; lia).
  replace (dist / INR (m - 1) * (INR i + 1) - dist / INR (m - 1) * INR i)%R with (dist / INR (m - 1))%R by ring.
  apply (Rmult_lt_reg_r (INR (m - 1))); [exact Hm0|]. unfold Rdiv at 1. rewrite Rmult_assoc, Rinv_l, Rmult_1_r by lra.
  apply (Rmult_lt_compat_r g) in Hm1; [|exact Hg]. unfold Rdiv in Hm1. rewrite Rmult_assoc, Rinv_l in Hm1 by lra. lra.
Qed.
