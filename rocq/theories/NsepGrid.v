(** * The points that the grid search of fnft_nsep returns (C95) *)
From Coq Require Import Reals Lra Lia List ZArith QArith Qreals.
From Coquelicot Require Import Coquelicot.
From Verif Require Import Base Loop Mem Fields ErrModel CExp CField CConj DiscTables DiscModel DiscProps DiscPreProps DiscPreNse PolySpec MatSpec FscatterSpec FscatterModel FscatterProof FscatterProps
  ScatterSpec MatExp ScatterStep ScatterModel ScatterRun ScatterProps ScatterMatProps ScatterNse PolyFmultProof NsevSpec NsevModel NsevSafe NsevProps NftSpec NsevFast NsevLib NsevCsTop NsevEnergy KdvFast NsepModel NsepSpec NsepSafe NsepSafe2.
From Verif Require Import NsepFloq.
Import ListNotations.
Local Close Scope Q_scope.
Local Open Scope C_scope.

(** fnft_nsep with the functions it calls: nse_discretization_preprocess_signal, nse_fscatter, nse_scatter_matrix as modelled;
   the root finder poly_roots_fftgridsearch is G, poly_roots_fasteigen is that of L *)
Definition plib_env (L : lib) (G : nat -> nat -> list C -> nat -> xreal * xreal -> list C -> out (Z * nat * list C)) : penv := {|
  pe_alloc := fun _ _ => true;
  pe_junk := l_junk L;
  pe_junkK := O;
  pe_pre := fun _ D q eps_t kappa Dsub d => nse_preprocess (l_junk L) (l_junkR L) D (Some q) eps_t kappa Dsub d;
  pe_fscatter := fun _ D q r eps_t res norm d =>
    x <- nse_fscatter (l_expo L) (l_0 L) (l_1 L) (l_2 L) (l_p L) norm D (Some q) (Some r) eps_t (Some res) true d ;;
    let '(code, deg, res, W) := x in Ret (code, match deg with Some n => n | None => O end, or_nil res, W);
  pe_roots := fun _ deg p buf => l_roots L deg p buf;
  pe_mono := fun _ D q r eps_t kappa lam norm d =>
    x <- nse_scatter_matrix D (Some q) (Some r) eps_t kappa 1 (Some [lam]) (Some (l_junk L 2 8)) (if norm then Some (l_junkZ L 1) else None) d 1 ;;
    let '(code, res, W) := x in Ret (code, or_nil res, nth 0 (or_nil W) 0%Z);
  pe_grid := G |}.

(** ** What is required of the root finder: it stays within its array, and the points that it returns are approximate zeros *)
Record finder_ok (G : nat -> nat -> list C -> nat -> xreal * xreal -> list C -> out (Z * nat * list C)) (delta : R) : Prop := {
  fo_room : forall s deg p K PHI roots, (1 <= deg)%nat -> length p = (deg + 1)%nat -> length roots = K ->
    exists c K' v, G s deg p K PHI roots = Ret (c, K', v) /\ ok_code c /\ length v = K /\ (c = SUCCESS -> (K' <= K)%nat);
  fo_roots : forall s deg p K PHI roots K' v, (1 <= deg)%nat -> length p = (deg + 1)%nat -> G s deg p K PHI roots = Ret (SUCCESS, K', v) ->
    forall i, (i < K')%nat -> nth i v 0 <> 0 /\ (Cmod (peval (K := CF) p (nth i v 0)) <= delta)%R }.

(** it may even find at most deg points always *)
Definition finder_total (G : nat -> nat -> list C -> nat -> xreal * xreal -> list C -> out (Z * nat * list C)) : Prop :=
  forall s deg p K PHI roots c K' v, (1 <= deg)%nat -> length p = (deg + 1)%nat -> G s deg p K PHI roots = Ret (c, K', v) -> c = SUCCESS /\ (K' <= deg)%nat.

(** ** What the points are: |trace M(lam) -+ 2| and |M12(lam)| are small, where M is the (discrete) monodromy matrix *)
Definition main_point (S : C -> mat2) (len bound : R) (lam : C) : Prop :=
  exists s : R, (s = 2%R \/ s = (-2)%R) /\ (Cmod (a11 (S lam) + a22 (S lam) - RtoC s)%C * exp (- (snd lam * len)) <= bound)%R.
Definition aux_point (S : C -> mat2) (len bound : R) (lam : C) : Prop := (Cmod (a12 (S lam)) * exp (- (snd lam * len)) <= bound)%R.

Lemma RtoC_m2 : RtoC (-2) = - RtoC 2.
Proof. rewrite <- RtoC_opp. reflexivity. Qed.
Lemma z2l_value K h (v : list C) nd d : nse_to_akns nd = Some d -> akns_degree d <> O -> akns_upsampling_factor d <> O -> (K <= length v)%nat -> h <> 0%R ->
  exists v1, nse_z_to_lambda K h v nd = Ret (SUCCESS, v1) /\ length v1 = length v /\ forall i, (i < K)%nat -> nth i v 0 <> 0 -> zmap d h (nth i v1 0) = nth i v 0.
Proof.
  intros Hd Nd Nu HK Hh. unfold nse_z_to_lambda, via_akns. rewrite Hd. unfold akns_z_to_lambda.
  destruct (Nat.eqb_spec (akns_upsampling_factor d) 0); [contradiction|]. destruct (Nat.eqb_spec (akns_degree d) 0); [contradiction|].
  set (D1 := (INR (akns_degree d) * INR (akns_upsampling_factor d))%R).
  destruct (fill_ok (fun i => Clog (nth i v 0) / (2 * Ci * RtoC h / RtoC D1)) (RtoC 0) K 0 (fun i => x <- aget v i ;; Ret (Clog x / (2 * Ci * RtoC h / RtoC D1))) v) as (v1 & E & L1 & V1); [lia| |].
  { intros i Hi. rewrite (aget_nth v (RtoC 0)) by lia. reflexivity. }
  rewrite E. cbn [bind]. exists v1. split; [reflexivity|]. split; [exact L1|]. intros i Hi Hn. rewrite V1.
  destruct (Nat.leb_spec 0 i); [|lia]. destruct (Nat.ltb_spec i (0 + K)); [|lia]. cbn [andb].
  unfold zmap. fold D1. rewrite <- (Cexp_log (nth i v 0) Hn) at 2. f_equal.
  assert (N1 : RtoC D1 <> 0). { intros HH. apply RtoC_inj in HH. revert HH. unfold D1. apply Rmult_integral_contrapositive_currified; now apply not_0_INR. }
  assert (N2 : RtoC h <> 0) by (intros HH; apply RtoC_inj in HH; contradiction).
  assert (N3 : Ci <> 0) by (intros HH; apply (f_equal snd) in HH; cbn in HH; lra).
  assert (N4 : RtoC 2 <> 0) by (intros HH; apply RtoC_inj in HH; lra).
  field. repeat split; assumption.
Qed.

Section Grid.
Variable L : lib.
Hypothesis HL : lib_ok L.
Variable G : nat -> nat -> list C -> nat -> xreal * xreal -> list C -> out (Z * nat * list C).
Variable delta : R.
Hypothesis HG : finder_ok G delta.
Let E := plib_env L G.

Lemma grid_roots_points s deg p PHI h roots most o d : nse_to_akns (p_disc o) = Some d -> akns_degree d <> O -> akns_upsampling_factor d <> O -> h <> 0%R ->
  (1 <= deg)%nat -> length p = (deg + 1)%nat -> length roots = (oversampling * deg)%nat ->
  exists c K v, grid_roots E s deg p PHI h roots most o = Ret (c, K, v) /\ length v = length roots
    /\ (c = SUCCESS -> (K <= length roots)%nat /\ all_in (fun lam => (Cmod (peval (K := CF) p (zmap d h lam)) <= delta)%R) 0 K v)
    /\ (finder_total G -> p_filt o = PF_NONE -> c = SUCCESS).
Proof.
  intros Hd Nd Nu Hh H1 Lp Lr. unfold grid_roots. cbn [E plib_env pe_grid].
  destruct (fo_room G delta HG s deg p (oversampling * deg) PHI roots H1 Lp Lr) as (c & K & v & EG & Hc & Lv & HK). rewrite EG. cbn [bind].
  assert (HX : forall c0 K (v : list C), (finder_total G -> p_filt o = PF_NONE -> c0 = SUCCESS) -> ok_code c0 -> c0 <> SUCCESS -> length v = length roots -> exists c K' v', (c <- E_SUBROUTINE c0 ;; Ret (c, K, v)) = Ret (c, K', v')
      /\ length v' = length roots /\ (c = SUCCESS -> (K' <= length roots)%nat /\ all_in (fun lam => (Cmod (peval (K := CF) p (zmap d h lam)) <= delta)%R) 0 K' v') /\ (finder_total G -> p_filt o = PF_NONE -> c = SUCCESS)).
  { intros c0 K0 v0 HT0 H0 H2 H3. destruct (E_SUB_nz c0 H0 H2) as (c' & -> & Hc' & Hn). cbn [bind]. eexists _, _, _. split; [reflexivity|]. split; [exact H3|]. split; [congruence|]. intros A1 A2. now destruct H2; apply HT0. }
  destruct (Z.eqb_spec c SUCCESS) as [S0|N0]; cbn [negb]; [|apply HX; auto; [intros A1 _; now destruct (A1 _ _ _ _ _ _ _ _ _ H1 Lp EG)|congruence]]. specialize (HK S0). subst c.
  destruct (most && _) eqn:Emost. { eexists _, _, _. split; [reflexivity|]. split; [congruence|]. split; [discriminate|]. intros A1 _. exfalso. destruct (A1 _ _ _ _ _ _ _ _ _ H1 Lp EG) as [_ A2].
    apply andb_prop in Emost. destruct Emost as [_ Emost]. apply Nat.ltb_lt in Emost. lia. }
  destruct (z2l_value K h v (p_disc o) d Hd Nd Nu ltac:(lia) Hh) as (v1 & -> & L1 & V1). cbn [bind]. change (Z.eqb SUCCESS SUCCESS) with true. cbn [negb].
  destruct (pfilter_safe o K v1) as (c2 & K2 & v2 & E2 & Hc2 & HK2 & Hk2 & HP); [lia|]. rewrite E2. cbn [bind]. pose proof (kept_length _ _ _ Hk2).
  destruct (Z.eqb_spec c2 SUCCESS) as [S2|N2]; cbn [negb].
  2:{ apply HX; auto; [|congruence]. intros _ A2. unfold pfilter in E2. rewrite A2 in E2. now injection E2. }
  eexists _, _, _. split; [reflexivity|]. split; [congruence|]. split; [|reflexivity]. intros _. split; [lia|]. apply (proj2 (HP S2)).
  intros i z Hi Hz. assert (Ez : z = nth i v1 0) by (symmetry; now apply nth_error_nth).
  destruct (fo_roots G delta HG s deg p _ PHI roots K v H1 Lp EG i ltac:(lia)) as [Nz Hz0]. rewrite Ez, V1 by (auto; lia). exact Hz0.
Qed.

Section Call.
Variables (D : nat) (T : R * R) (kappa : Z) (t : pst) (d : akns_disc) (q : list C) (pp : pre_out).
Hypothesis HT : (fst T < snd T)%R.
Hypothesis HD : exists k, (1 <= k)%nat /\ D = (2 ^ k)%nat.
Hypothesis Hkap : kappa = 1%Z \/ kappa = (-1)%Z.
Hypothesis Hd : nse_to_akns (p_disc (t_o t)) = Some d.
Hypothesis Hf : is_fast d.
Let ups := akns_upsampling_factor d.
Hypothesis Hu : ups <> O.
Let N := (D * ups)%nat.
Hypothesis HN : (Z.of_nat N <= 2147483647)%Z.
Let h := ((snd T - fst T) / INR D)%R.
Hypothesis Hpre : nse_preprocess (l_junk L) (l_junkR L) D (Some q) h kappa D (p_disc (t_o t)) = Ret (inr pp).
Hypothesis Lq : length (po_q pp) = N.
Hypothesis Lr : length (po_r pp) = N.
Hypothesis Hr : forall i, (i < N)%nat -> nthC (po_r pp) i = - RtoC (IZR kappa) * Cconj (nthC (po_q pp) i).
Hypothesis Hm : d = A_2SPLIT2_MODAL -> kappa = (-1)%Z -> forall i, (i < N)%nat -> (Rabs (step_size d h) * Cmod (nthC (po_q pp) i) < 1)%R.
Hypothesis Hx : forall j, (j < N)%nat -> fast_exact d (step_size d h) (nthC (po_q pp) j) (nthC (po_r pp) j).
Let S lam := scattering d (weights d) h (nthC (po_q pp)) (nthC (po_r pp)) N lam.
Let len := (snd T - fst T)%R.
Let len12 := (snd T - fst T + (if half_shifted d then step_size d h else 0))%R.

Lemma D_even : exists m, D = (2 * m)%nat /\ (1 <= m)%nat.
Proof. destruct HD as (k & Hk & ->). destruct k as [|k]; [lia|]. exists (2 ^ k)%nat. pose proof (Nat.pow_nonzero 2 k). cbn. lia. Qed.
Lemma hpos : (0 < h)%R.
Proof. destruct D_even as (m & E1 & E2). apply Rdiv_lt_0_compat; [lra|apply lt_0_INR; lia]. Qed.
Lemma Nh : (INR N * step_size d h = len)%R.
Proof.
  unfold N, step_size, h, len. fold ups. rewrite mult_INR. destruct D_even as (m & E1 & E2). field. split; apply not_0_INR; lia.
Qed.
Lemma Cmod_X lam : Cmod (Cexp (Ci * lam * RtoC (INR N * step_size d h))) = exp (- (snd lam * len)).
Proof. rewrite Cmod_Cexp, Nh. f_equal. destruct lam as [x y]. cbn. ring. Qed.
Lemma close_scaled (W : Z) (v X y : C) : RtoC (powerRZ 2 W) * v = X * y -> (Cmod v <= delta)%R -> (Cmod y * Cmod X <= delta * powerRZ 2 W)%R.
Proof.
  intros H1 H2. assert (HW : (0 < powerRZ 2 W)%R) by (apply powerRZ_lt; lra).
  rewrite Rmult_comm, <- Cmod_mult, <- H1, Cmod_mult, Cmod_R, Rabs_pos_eq, Rmult_comm by lra. apply Rmult_le_compat_r; lra.
Qed.

Lemma gridsearch_points offK offM :
  (forall l, t_main t = Some l -> (offK + t_K t <= length l)%nat) -> (forall l, t_aux t = Some l -> (offM + t_M t <= length l)%nat) ->
  exists c t', nsep_gridsearch E offK offM D q T kappa t = Ret (c, t') /\ (c = SUCCESS ->
    exists W : Z, (p_norm (t_o t) = false -> W = 0%Z) /\
      (forall l, t_main t' = Some l -> (t_main t = None -> False) /\ (offK + t_K t' <= length l)%nat /\ all_in (main_point S len (delta * powerRZ 2 W)) offK (t_K t') l) /\
      (forall l, t_aux t' = Some l -> (offM + t_M t' <= length l)%nat /\ all_in (aux_point S len12 (delta * powerRZ 2 W)) offM (t_M t') l)) /\
    (finder_total G -> p_filt (t_o t) = PF_NONE -> c = SUCCESS).
Proof.
  intros Hmain Haux. unfold nsep_gridsearch. cbv zeta. destruct D_even as (m0 & ED & Hm0). pose proof hpos as Hh.
  assert (Eu : nse_upsampling_factor (p_disc (t_o t)) = ups) by (unfold nse_upsampling_factor, via; now rewrite Hd). rewrite Eu.
  destruct (Nat.eqb_spec ups 0); [contradiction|]. fold h. cbn [E plib_env pe_pre]. rewrite Hpre. cbn [bind]. fold N.
  pose proof (degree_pos d Hf) as Nd. assert (HN2 : (2 <= N)%nat) by (unfold N; nia).
  unfold nse_fscatter_numel, nse_degree, via. rewrite Hd. destruct (Nat.eqb_spec (akns_degree d) 0); [contradiction|].
  destruct (poly_fmult_numel_value 4 (akns_degree d) N ltac:(lia) ltac:(lia)) as (k & Ek & Hk2 & _). match type of Ek with ?l = _ => change (fmult_numel 4 (akns_degree d) N) with l end. rewrite Ek. cbn [bind].
  set (numel := (4 * (akns_degree d + 1) * 2 ^ k)%nat) in *.
  destruct (Nat.eqb_spec numel 0) as [E0|_]; [pose proof (Nat.pow_nonzero 2 k); unfold numel in E0; nia|]. cbn [negb E plib_env pe_alloc pe_fscatter pe_junk].
  destruct (nfscatter_entries (l_expo L) (l_0 L) (l_1 L) (l_2 L) (l_p L) (lk_0 L HL) (lk_1 L HL) (lk_2 L HL) (lk_p L HL) (p_norm (t_o t)) N (po_q pp) (po_r pp) (l_junk L 10 numel) h (p_disc (t_o t)) d numel Hd Hf HN2 HN Hh)
    as (tm & W & -> & Lt & L4 & HW & Hent); try lia; try exact Hx.
  { unfold akns_fscatter_numel. destruct (Nat.eqb_spec (akns_degree d) 0); [contradiction|exact Ek]. }
  { rewrite (lk_junk L HL). lia. }
  cbn [bind or_nil]. unfold check. change (Z.eqb SUCCESS SUCCESS) with true. cbv iota.
  set (W' := if p_norm (t_o t) then W else 0%Z). assert (EW : W' = W) by (unfold W'; destruct (p_norm (t_o t)); [reflexivity|symmetry; now apply HW]). rewrite EW. clear W' EW.
  set (deg := (N * akns_degree d)%nat) in *.
  assert (Edeg : exists m, (deg = 2 * m)%nat /\ (deg / 2 = m)%nat).
  { exists (m0 * ups * akns_degree d)%nat. assert (X : (deg = 2 * (m0 * ups * akns_degree d))%nat) by (unfold deg, N; rewrite ED; ring). split; [exact X|]. rewrite X, Nat.mul_comm. apply Nat.div_mul. lia. }
  destruct Edeg as (m & Edeg & Em). rewrite Em. assert (Hdeg1 : (1 <= deg)%nat) by (unfold deg; nia).
  unfold map_coeff, nse_degree, via. rewrite Hd. destruct (Nat.eqb_spec (akns_degree d) 0); [contradiction|]. cbn [deref bind].
  set (o := update_box _ _ _). assert (Ho : p_disc o = p_disc (t_o t)) by (unfold o, update_box; destruct (p_filt (t_o t)); reflexivity).
  assert (Hof : p_filt o = p_filt (t_o t)) by (unfold o, update_box; destruct (p_filt (t_o t)) eqn:Ef; try reflexivity; cbn; exact Ef).
  set (PHI := if xlt _ _ then _ else _). clearbody PHI.
  cbn [t_main set_to t_aux t_K t_M].
  set (roots := l_junk L 11 (oversampling * deg)). assert (Lro : length roots = (oversampling * deg)%nat) by apply (lk_junk L HL).
  assert (Hh0 : h <> 0%R) by lra. rewrite <- Ho in Hd. pose proof (grid_roots_points) as GR.
  assert (V11 : forall lam, RtoC (powerRZ 2 W) * peval (K := CF) (firstn (deg + 1) tm) (zmap d h lam) = Cexp (Ci * lam * RtoC (INR N * step_size d h)) * a11 (S lam)).
  { intros lam. specialize (Hent lam 0%nat 0%nat ltac:(lia) ltac:(lia)). cbn [Nat.mul Nat.add skipn entry] in Hent. rewrite (proj1 (shifted_diag _ _ _ _)) in Hent. exact Hent. }
  assert (V12 : forall lam, RtoC (powerRZ 2 W) * peval (K := CF) (firstn (deg + 1) (skipn (deg + 1) tm)) (zmap d h lam)
     = Cexp (Ci * lam * RtoC (INR N * step_size d h)) * ((if half_shifted d then Cexp (Ci * lam * RtoC (step_size d h)) else RtoC 1) * a12 (S lam))).
  { intros lam. specialize (Hent lam 0%nat 1%nat ltac:(lia) ltac:(lia)). cbn [Nat.mul Nat.add entry] in Hent. rewrite Nat.add_0_r in Hent. rewrite (proj2 (proj2 (shifted_diag _ _ _ _))) in Hent. exact Hent. }
  (* main spectrum *)
  match goal with |- exists c t', bind ?e _ = _ /\ _ => assert (HM : exists c K roots' main, e = Ret (c, (K, roots', main)) /\ length roots' = length roots /\ (c = SUCCESS ->
     forall l, main = Some l -> (t_main t = None -> False) /\ (offK + K <= length l)%nat /\ all_in (main_point S len (delta * powerRZ 2 W)) offK K l) /\ (finder_total G -> p_filt (t_o t) = PF_NONE -> c = SUCCESS)) end.
  { destruct (t_main t) as [main|] eqn:Emain; [|eexists _, _, _, _; split; [reflexivity|]; split; [reflexivity|]; split; [discriminate|reflexivity]].
    specialize (Hmain main eq_refl).
    destruct (trace_poly_value deg tm ltac:(lia)) as (p0 & -> & L0 & V0). cbn [bind].
    rewrite (aget_nth p0 (RtoC 0)) by lia. cbn [bind]. rewrite aset_upd by lia. cbn [bind].
    set (p1 := upd p0 m _). assert (Lp1 : length p1 = (deg + 1)%nat) by (unfold p1; rewrite upd_length; exact L0).
    assert (V1 : forall i, (i <= deg)%nat -> nth i p1 0 = nth i tm 0 + Cconj (nth (deg - i) tm 0) + (if Nat.eqb i m then RtoC 2 * RtoC (powerRZ 2 (- W)) else 0)).
    { intros i Hi. unfold p1. rewrite nth_upd by lia. destruct (Nat.eqb_spec i m) as [->|].
      - rewrite V0 by lia. rewrite RtoC_mult. reflexivity.
      - rewrite V0 by lia. ring. }
    assert (Good1 : forall lam, (Cmod (peval (K := CF) p1 (zmap d h lam)) <= delta)%R -> main_point S len (delta * powerRZ 2 W) lam).
    { intros lam Hl. exists (-2)%R. split; [now right|]. rewrite <- Cmod_X. eapply close_scaled; [|exact Hl].
      rewrite (trace_value (IZR kappa) d h (nthC (po_q pp)) (nthC (po_r pp)) N) with (tm := tm) (c := RtoC 2) (m := m); auto; try lia.
      - f_equal. fold (S lam). rewrite RtoC_m2. ring.
      - destruct Hkap as [-> | ->]; [now left|now right].
      - intros E1 E2. apply Hm; [exact E1|]. now apply eq_IZR. }
    destruct (GR 10%nat deg p1 PHI h roots true o d Hd Nd Hu Hh0 Hdeg1 Lp1 Lro) as (c1 & K1 & v1 & -> & Lv1 & H1 & T1). cbn [bind].
    destruct (Z.eqb_spec c1 SUCCESS) as [S1|N1]; cbn [negb].
    2:{ eexists _, _, _, _. split; [reflexivity|]. split; [lia|]. split; [congruence|]. intros A1 A2. apply T1; [exact A1|]. now rewrite Hof. }
    destruct (H1 S1) as [HK1 HP1]. clear H1. set (K := if (t_K t <? K1)%nat then t_K t else K1).
    assert (HK : (K <= t_K t)%nat /\ (K <= K1)%nat) by (unfold K; destruct (Nat.ltb_spec (t_K t) K1); lia).
    destruct (copy_all_in (main_point S len (delta * powerRZ 2 W)) K offK v1 main) as (main1 & -> & Hs1 & HA1); [lia|lia|apply (all_in_le _ _ K1); [lia|eapply all_in_impl; [exact Good1|exact HP1]]|]. cbn [bind].
    rewrite (aget_nth p1 (RtoC 0)) by lia. cbn [bind]. rewrite aset_upd by lia. cbn [bind].
    set (p2 := upd p1 m _). assert (Lp2 : length p2 = (deg + 1)%nat) by (unfold p2; rewrite upd_length; exact Lp1).
    assert (V2 : forall i, (i <= deg)%nat -> nth i p2 0 = nth i tm 0 + Cconj (nth (deg - i) tm 0) + (if Nat.eqb i m then RtoC (-2) * RtoC (powerRZ 2 (- W)) else 0)).
    { intros i Hi. unfold p2. rewrite nth_upd by lia. destruct (Nat.eqb_spec i m) as [->|].
      - rewrite V1 by lia. rewrite Nat.eqb_refl, RtoC_mult. replace (RtoC 4) with (RtoC 2 + RtoC 2) by (rewrite <- RtoC_plus; f_equal; ring). rewrite RtoC_m2. ring.
      - rewrite V1 by lia. destruct (Nat.eqb_spec i m); [contradiction|reflexivity]. }
    assert (Good2 : forall lam, (Cmod (peval (K := CF) p2 (zmap d h lam)) <= delta)%R -> main_point S len (delta * powerRZ 2 W) lam).
    { intros lam Hl. exists 2%R. split; [now left|]. rewrite <- Cmod_X. eapply close_scaled; [|exact Hl].
      rewrite (trace_value (IZR kappa) d h (nthC (po_q pp)) (nthC (po_r pp)) N) with (tm := tm) (c := RtoC (-2)) (m := m); auto; try lia.
      - f_equal. fold (S lam). rewrite RtoC_m2. ring.
      - destruct Hkap as [-> | ->]; [now left|now right].
      - intros E1 E2. apply Hm; [exact E1|]. now apply eq_IZR. }
    destruct (GR 11%nat deg p2 PHI h v1 true o d Hd Nd Hu Hh0 Hdeg1 Lp2 ltac:(lia)) as (c2 & K2' & v2 & -> & Lv2 & H2 & T2). cbn [bind].
    destruct (Z.eqb_spec c2 SUCCESS) as [S2|N2]; cbn [negb].
    2:{ eexists _, _, _, _. split; [reflexivity|]. split; [lia|]. split; [congruence|]. intros A1 A2. apply T2; [exact A1|]. now rewrite Hof. }
    destruct (H2 S2) as [HK2' HP2]. clear H2. set (K2 := if (t_K t <? K + K2')%nat then (if (K <? t_K t)%nat then t_K t - K else 0)%nat else K2').
    assert (HK2 : (K + K2 <= t_K t)%nat /\ (K2 <= K2')%nat).
    { unfold K2. destruct (Nat.ltb_spec (t_K t) (K + K2')); [|lia]. destruct (Nat.ltb_spec K (t_K t)); lia. }
    pose proof (seg_length _ _ _ _ Hs1) as Lm1.
    destruct (copy_all_in (main_point S len (delta * powerRZ 2 W)) K2 (offK + K) v2 main1) as (main2 & -> & Hs2 & HA2); [lia|lia|apply (all_in_le _ _ K2'); [lia|eapply all_in_impl; [exact Good2|exact HP2]]|]. cbn [bind].
    pose proof (seg_length _ _ _ _ Hs2) as Lm2.
    eexists _, _, _, _. split; [reflexivity|]. split; [lia|]. split; [|reflexivity]. intros _ l El. injection El as <-. split; [discriminate|]. split; [lia|].
    apply all_in_app; [|exact HA2]. eapply all_in_seg; [exact Hs2|lia|exact HA1]. }
  destruct HM as (c1 & K & roots' & main & -> & Lr' & H1 & T1). cbn [bind].
  destruct (Z.eqb_spec c1 SUCCESS) as [S1|N1]; cbn [negb].
  2:{ eexists _, _. split; [reflexivity|]. split; [congruence|]. exact T1. }
  specialize (H1 S1). cbn [t_aux set_tmain set_to t_M t_K t_main t_o].
  assert (Good : forall lam, (Cmod (peval (K := CF) (firstn (deg + 1) (skipn (deg + 1) tm)) (zmap d h lam)) <= delta)%R -> aux_point S len12 (delta * powerRZ 2 W) lam).
  { intros lam Hl. unfold aux_point. pose proof (close_scaled W _ _ _ (V12 lam) Hl) as HC. rewrite Cmod_X, Cmod_mult in HC.
    replace (exp (- (snd lam * len12))) with ((Cmod (if half_shifted d then Cexp (Ci * lam * RtoC (step_size d h))%C else RtoC 1)) * exp (- (snd lam * len)))%R.
    - rewrite <- Rmult_assoc. rewrite (Rmult_comm (Cmod (a12 (S lam)))). exact HC.
    - unfold len12. fold len. destruct (half_shifted d).
      + rewrite Cmod_Cexp, <- exp_plus. f_equal. destruct lam as [x y]. cbn. ring.
      + rewrite Cmod_1, Rmult_1_l. f_equal. ring. }
  destruct (t_aux t) as [aux|] eqn:Eaux.
  2:{ cbn [bind]. change (Z.eqb SUCCESS SUCCESS) with true. cbn [negb]. eexists _, _. split; [reflexivity|]. split; [|reflexivity]. intros _. exists W. split; [exact HW|]. split; [exact H1|]. cbn. discriminate. }
  specialize (Haux aux eq_refl).
  destruct (GR 12%nat deg (firstn (deg + 1) (skipn (deg + 1) tm)) PHI h roots' false o d Hd Nd Hu Hh0 Hdeg1) as (c2 & M1 & v2 & -> & Lv2 & H2 & T2); [rewrite firstn_length, skipn_length; lia|lia|]. cbn [bind].
  destruct (Z.eqb_spec c2 SUCCESS) as [S2|N2]; cbn [negb bind].
  2:{ destruct (Z.eqb_spec c2 SUCCESS); [congruence|]. cbn [negb]. eexists _, _. split; [reflexivity|]. split; [congruence|]. intros A1 A2. apply T2; [exact A1|]. now rewrite Hof. }
  destruct (H2 S2) as [HM1 HPa]. clear H2. set (M := if (t_M t <? M1)%nat then t_M t else M1).
  assert (HM : (M <= t_M t)%nat /\ (M <= M1)%nat) by (unfold M; destruct (Nat.ltb_spec (t_M t) M1); lia).
  destruct (copy_all_in (aux_point S len12 (delta * powerRZ 2 W)) M offM v2 aux) as (aux1 & -> & Hs1 & HA1); [lia|lia|apply (all_in_le _ _ M1); [lia|eapply all_in_impl; [exact Good|exact HPa]]|]. cbn [bind].
  change (Z.eqb SUCCESS SUCCESS) with true. cbn [negb].
  eexists _, _. split; [reflexivity|]. split; [|reflexivity]. intros _. exists W. split; [exact HW|]. split; [exact H1|]. cbn. intros l El. injection El as <-. split; [rewrite (seg_length _ _ _ _ Hs1); lia|exact HA1].
Qed.
End Call.
End Grid.
