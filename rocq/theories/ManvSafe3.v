(** * fnft_manakovv: Richardson extrapolation and the whole driver (C52, C73-C76) *)
From Coq Require Import Reals Lra.
From Coquelicot Require Import Coquelicot.
From Verif Require Import Loop MiscSpec MiscProof MiscProps MiscMetricProps PolyFmultProof DiscProps DiscPreProps NsevSpec NsevProps
  NsevSafe NsevSafe2 NsevSafe3 NsevSafe4 NsevSafe5 NsevDisc NsevDisc2 NsevRich NsevEnv ManvSpec ManvProps ManvSafe ManvSafe2.
Local Open Scope C_scope.

Lemma mcs_blocks_values t : mcs_blocks t = mcs_values t.
Proof. destruct t; reflexivity. Qed.

(** what the second half of a successful call has done *)
Definition mextrapolated (E : menv) (D : nat) (q1 q2 : list C) (T : R * R) (M : nat) (XI : R * R) (kappa : Z) (o : mopts) (cs1 cs' : list C) : Prop :=
  let h := ((snd T - fst T) / INR (D - 1))%R in
  exists (cs2 : list C) nskip m p v,
  downsample_sizes D (D / 2) = Ret (nskip, m) /\ (2 <= nskip)%nat /\ me_pre E 2 D q1 q2 h (D / 2) (m_disc o) = Ret (inr p) /\
  fnft_manakovv_base E 3 (m * man_upsampling_factor (m_disc o)) (po_q p) (po_r p) (fst T, fst T + INR ((m - 1) * nskip) * h)%R M (Some XI) kappa
    (mset_loc o ML_NEWTON) {| u_cs := Some (me_junk E 0 (mcs_values (m_cs o) * M)); u_K := Some O; u_bs := None; u_nc := None |} = Ret (SUCCESS, v) /\
  u_cs v = Some cs2 /\
  forall i b, (i < M)%nat -> (b < mcs_values (m_cs o))%nat -> let j := (i + b * M)%nat in
  (low_frequency XI M i (INR nskip * h) -> nth j cs' 0 = extrapolate h (INR nskip * h) (man_method_order (m_disc o)) (nth j cs1 0) (nth j cs2 0)) /\
  (~ low_frequency XI M i (INR nskip * h) -> nth j cs' 0 = nth j cs1 0).

Lemma mrichardson_safe E D q1 q2 T M XI kappa eps_t ds live o u : menv_ok E -> man_known (m_disc o) -> (3 <= D)%nat ->
  length q1 = D -> length q2 = D -> (Z.of_nat (D * man_upsampling_factor (m_disc o)) <= 2 ^ 63)%Z ->
  (fst T < snd T)%R -> eps_t = ((snd T - fst T) / INR (D - 1))%R ->
  (u_cs u <> None -> M <> 1%nat) -> mroom M o u ->
  (live = true -> forall D q1 q2 eps_t Dsub d c, me_pre E 2 D q1 q2 eps_t Dsub d <> Ret (inl c)) ->
  exists c o' u', manakovv_richardson E D q1 q2 T M (Some XI) kappa eps_t (man_upsampling_factor (m_disc o)) ds live o u = Ret (c, (o', u'))
    /\ ok_code c /\ mcontained M o u u' /\ u_bs u' = u_bs u /\ u_K u' = u_K u
    /\ (c = SUCCESS -> forall cs, u_cs u = Some cs -> (0 < M)%nat -> exists cs', u_cs u' = Some cs' /\ mextrapolated E D q1 q2 T M XI kappa o cs cs')
    /\ (mnever_fails E -> man_method_order (m_disc o) <> O -> kappa = 1%Z \/ kappa = (-1)%Z -> (u_cs u <> None -> (fst XI < snd XI)%R) ->
        (u_cs u <> None -> (0 < M)%nat -> m_cs o = CS_AB) -> c = SUCCESS).
Proof.
  intros HE Hd HD Lq1 Lq2 Hsz HT He HM HR Hlive. unfold manakovv_richardson. cbv zeta.
  set (OK := mnever_fails E -> man_method_order (m_disc o) <> O -> kappa = 1%Z \/ kappa = (-1)%Z -> (u_cs u <> None -> (fst XI < snd XI)%R) ->
        (u_cs u <> None -> (0 < M)%nat -> m_cs o = CS_AB) -> False).
  match goal with |- exists c o' u', ?x = Ret (c, (o', u')) /\ @?P c o' u' => set (G := fun y : out (Z * (mopts * outs)) => exists c o' u', y = Ret (c, (o', u')) /\ P c o' u'); change (G x) end.
  assert (Hfail : forall c o', ok_code c -> c <> SUCCESS -> OK -> G (Ret (c, (o', u)))).
  { intros c o' Hc N HN. exists c, o', u. split; [reflexivity|]. split; [exact Hc|]. split; [apply mcontained_refl|]. split; [reflexivity|]. split; [reflexivity|].
    split; [congruence|]. intros a1 a2 a3 a4 a5. exfalso. exact (HN a1 a2 a3 a4 a5). }
  assert (Hep : (0 < eps_t)%R) by (rewrite He; apply step_pos; [lra|lia]).
  set (wc := negb (no_ptr (u_cs u)) && (0 <? M)%nat).
  assert (Hwc : wc = true -> u_cs u <> None /\ (0 < M)%nat).
  { unfold wc. intros Hw. apply andb_true_iff in Hw. destruct Hw as [H1 H2]. split; [destruct (u_cs u); [discriminate|discriminate H1]|now apply Nat.ltb_lt]. }
  destruct (wc && match m_cs o with CS_bad => true | _ => false end) eqn:E1.
  { apply Hfail; [codes|discriminate|]. intros _ _ _ _ a5. apply andb_true_iff in E1. destruct E1 as [E1 E2]. destruct (Hwc E1) as [H1 H2]. rewrite (a5 H1 H2) in E2. discriminate. }
  destruct (wc && negb (me_alloc E 3 0)) eqn:E2.
  { apply Hfail; [codes|discriminate|]. intros HN _ _ _ _. rewrite (nf_alloc E HN), andb_false_r in E2. discriminate. }
  set (cs_len := if wc then (mcs_blocks (m_cs o) * M)%nat else O).
  destruct (Nat.eqb_spec (man_method_order (m_disc o)) 0) as [Ho|Hord]. { apply Hfail; [codes|discriminate|]. intros _ a2 _ _ _. contradiction. }
  destruct (km_pre E HE 2 D q1 q2 eps_t (D / 2) (m_disc o)) as (p & Ep & Hp); [lia|exact Lq1|exact Lq2|exact Hep|].
  rewrite Ep. cbn [bind]. destruct p as [c|p].
  { destruct Hp as [Hc Nc]. destruct live eqn:El; [exfalso; eapply Hlive; [reflexivity|exact Ep]|]. rewrite E_SUB_ok by exact Hc. cbn [bind].
    apply Hfail; [now apply ok_neg|now apply abs_nonzero|]. intros HN _ _ _ _. eapply (nf_pre E HN). exact Ep. }
  destruct Hp as (nskip & Es & Pf & Pl & Lpq & Lpr). destruct (half_sizes D HD) as (ns & m & Es' & Hns & Hm).
  rewrite Es in Es'. injection Es' as <- Em. cbn [fst snd]. rewrite Pf, Pl, Em in *.
  assert (ET0 : (fst T + INR 0 * eps_t)%R = fst T) by (simpl INR; ring). rewrite ET0.
  set (Tsub := (fst T, (fst T + INR ((m - 1) * nskip) * eps_t)%R)).
  assert (HTs : (snd Tsub - fst Tsub = INR (m - 1) * (INR nskip * eps_t))%R).
  { unfold Tsub. cbn [fst snd]. rewrite mult_INR. ring. }
  assert (Hnn : (2 <= INR nskip)%R) by (apply (le_INR 2); exact Hns).
  assert (Hmm : (1 <= INR (m - 1))%R) by (apply (le_INR 1); lia).
  change (fst T + INR ((m - 1) * nskip) * eps_t - fst T)%R with (snd Tsub - fst Tsub)%R.
  rewrite step_ok by lia. cbn [bind]. 
  assert (Hes : ((snd Tsub - fst Tsub) / INR (m - 1) = INR nskip * eps_t)%R) by (rewrite HTs; field; lra). rewrite Hes. clear Hes.
  set (v0 := {| u_cs := _; u_K := _; u_bs := _; u_nc := _ |}).
  assert (Hv0 : u_cs v0 <> None -> u_cs u <> None /\ (0 < M)%nat) by (unfold v0; cbn; destruct wc; [intros _; now apply Hwc|congruence]).
  destruct (mbase_safe E 3 (m * man_upsampling_factor (m_disc o)) m (po_q p) (po_r p) Tsub M (Some XI) kappa (mset_loc o ML_NEWTON) v0)
    as (c & v & Ebase & Hc & Cv & _ & _ & _ & HNF); auto.
  { clear - Hm. lia. } { clear - Hm Hsz. nia. } { clear - HTs Hmm Hnn Hep. assert (0 < snd Tsub - fst Tsub)%R; [rewrite HTs; apply Rmult_lt_0_compat; [lra|apply Rmult_lt_0_compat; lra]|lra]. }
  { intros Hv. apply HM. now apply Hv0. } 
  { constructor; unfold v0; cbn; [|discriminate]. intros l Hl. destruct wc; [|discriminate]. injection Hl as <-. rewrite (km_junk E HE). unfold cs_len. change (mcs_blocks (m_cs o)) with (mcs_values (m_cs o)). lia. }
  rewrite Ebase. cbn [bind]. destruct (Z.eqb_spec c SUCCESS) as [Sc|Nc]; cbn [negb].
  2:{ rewrite E_SUB_ok by exact Hc. cbn [bind]. apply Hfail; [now apply ok_neg|now apply abs_nonzero|]. intros HN a2 a3 a4 a5. apply Nc, HNF; auto.
      - intros Hv. exists (fst XI), (snd XI). destruct XI. split; [reflexivity|]. apply a4. now apply Hv0.
      - intros Hv _. apply a5; now apply Hv0. }
  cbn [deref bind]. set (o2 := mset_ds _ ds). set (scn := ((INR nskip * eps_t / eps_t) ^ man_method_order (m_disc o))%R). set (scd := (scn - 1)%R).
  assert (Hsd : scd <> 0%R).
  { unfold scd, scn. replace (INR nskip * eps_t / eps_t)%R with (INR nskip) by (field; lra).
    destruct (man_method_order (m_disc o)) as [|k]; [congruence|].
    assert (1 <= INR nskip ^ k)%R by (apply pow_R1_Rle; lra). cbn [pow]. nra. }
  assert (Hdone : (forall cs, u_cs u = Some cs -> ~ (0 < M)%nat) -> G (Ret (SUCCESS, (o2, u)))).
  { intros Hn. exists SUCCESS, o2, u. split; [reflexivity|]. split; [codes|]. split; [apply mcontained_refl|]. split; [reflexivity|]. split; [reflexivity|]. split; [|reflexivity].
    intros _ cs Hcs HM0. destruct (Hn cs Hcs HM0). }
  destruct (u_cs u) as [cs|] eqn:Ecs; [|apply Hdone; discriminate].
  destruct (Nat.ltb_spec 0 M) as [HM0|HM0]; [|apply Hdone; intros; lia].
  assert (Ew : cs_len = (mcs_values (m_cs o) * M)%nat) by reflexivity.
  pose proof (cm_cs _ _ _ _ Cv) as Kc. unfold v0 in Kc. cbn in Kc. destruct (u_cs v) as [sub|] eqn:Ev; [|contradiction].
  cbn [deref bind]. pose proof (kept_length _ _ _ Kc) as Ls. rewrite (km_junk E HE) in Ls. change (length sub = cs_len)%nat in Ls.
  change (if wc then (mcs_blocks (m_cs o) * M)%nat else 0%nat) with cs_len. rewrite Ew in *. rewrite Nat.div_mul by lia. pose proof (rm_cs _ _ _ HR _ Ecs) as Lcs.
  destruct (richardson_cs_safe M (mcs_values (m_cs o)) XI (INR nskip * eps_t) scn scd sub cs Hsd) as (l & El & Hl); [lia|lia|].
  rewrite El. cbn [bind]. exists SUCCESS, o2, (set_cs u (Some l)). split; [reflexivity|]. split; [codes|]. split; [|split; [reflexivity|split; [reflexivity|split; [|reflexivity]]]].
  - constructor; cbn; try apply kept_opt_refl; try reflexivity; [rewrite Ecs; exact Hl|]. unfold cap; cbn. split; [lia|tauto].
  - intros _ cs0 Hcs0 _. injection Hcs0 as <-. exists l. split; [reflexivity|]. unfold mextrapolated. cbv zeta. rewrite <- He.
    exists sub, nskip, m, p, v. split; [exact Es|]. split; [exact Hns|]. split; [exact Ep|]. split.
    { unfold v0 in Ebase. destruct wc eqn:Ewc; [|unfold wc in Ewc; cbn in Ewc; destruct (Nat.ltb_spec 0 M); [discriminate|lia]]. rewrite Ew in Ebase. rewrite <- Sc. exact Ebase. }
    split; [exact Ev|]. intros i b Hi Hb. assert (Ls' : (mcs_values (m_cs o) * M <= length sub)%nat) by (rewrite Ls; lia).
    destruct (richardson_cs_spec _ _ _ _ _ _ _ _ _ Hsd Ls' Lcs El i b Hi Hb) as [G1 G2]. split; [exact G1|exact G2].
Qed.

(** ** The driver without Richardson extrapolation *)
Definition mset_rich (o : mopts) (n : nat) : mopts :=
  {| m_filt := m_filt o; m_loc := m_loc o; m_niter := m_niter o; m_Dsub := m_Dsub o; m_ds := m_ds o; m_cs := m_cs o; m_norm := m_norm o; m_disc := m_disc o; m_rich := n |}.

Record mready (D : nat) (q1 q2 : list C) (T : R * R) (M : nat) (XI : option (R * R)) (kappa : Z) (o : mopts) (u : outs) : Prop := {
  ry_valid : manv_valid D (Some q1) (Some q2) (Some T) XI kappa o u;
  ry_class : man_class (m_disc o) <> None;
  ry_T : (fst T < snd T)%R;
  ry_len1 : length q1 = D;
  ry_len2 : length q2 = D;
  ry_size : (Z.of_nat (D * man_upsampling_factor (m_disc o)) <= 2 ^ 63)%Z;
  ry_room : mroom M o u;
  ry_M : u_cs u <> None -> M <> 1%nat;
  ry_Dsub : (m_Dsub o <= 2 * D)%nat }.

Lemma msub_sizes D Dsub : (2 <= D)%nat -> exists nskip m, downsample_sizes D Dsub = Ret (nskip, m) /\ (2 <= m <= D)%nat.
Proof.
  intros H. destruct (Nat.eq_dec D 2) as [->|N]; [exists 1%nat, 2%nat; rewrite sizes_two; split; [reflexivity|lia]|].
  destruct (downsample_sizes_spec D Dsub) as (nskip & m & E & Hn & Hm & H1 & H2 & H3); [lia|]. exists nskip, m. split; [exact E|]. nia.
Qed.

Lemma mplain_safe E D q1 q2 T M XI kappa o u : menv_ok E -> mready D q1 q2 T M XI kappa o u -> m_rich o <> 1%nat ->
  exists c u', manakovv_run E D (Some q1) (Some q2) (Some T) M XI kappa o u = Ret (c, (o, u')) /\ ok_code c /\ mcontained M o u u'
    /\ (c = SUCCESS -> kappa = 1%Z -> mbs_good o u') /\ (c = SUCCESS -> mcs_good M o u')
    /\ (kappa <> 1%Z \/ u_bs u = None -> u_bs u' = u_bs u /\ u_K u' = u_K u)
    /\ (mnever_fails E -> (u_cs u <> None -> (0 < M)%nat -> m_cs o = CS_AB) -> (kappa = 1%Z -> u_bs u <> None -> man_degree (m_disc o) <> O) -> c = SUCCESS).
Proof.
  intros HE HY Hr. pose proof HY as [HV Hcl HT L1 L2 Hsz HR HM HDs]. destruct HV as [V1 V2 V3 V4 V5 V6 V7 V8 V9]. unfold manakovv_run.
  assert (Ha : args_bad D (Some q1) (Some T) XI kappa u = false) by (apply args_bad_false; auto 10). rewrite Ha. cbn [orb no_ptr].
  pose proof (man_class_spec (m_disc o)) as HC. destruct (man_class (m_disc o)) as [fast|]; [|contradiction].
  assert (Hloc : negb fast && negb (is_mnewton (m_loc o)) && (kappa =? 1)%Z && negb (no_ptr (u_bs u)) = false).
  { destruct fast; [reflexivity|]. destruct HC as (_ & Hs & _). destruct (Z.eqb_spec kappa 1) as [Hk|]; [|now rewrite andb_false_r]. destruct (u_bs u); [|now rewrite andb_false_r].
    rewrite (V9 Hs Hk ltac:(discriminate)). reflexivity. }
  rewrite Hloc. clear Hloc. pose proof (proj1 (mups _) V8) as Hu. set (ups := man_upsampling_factor (m_disc o)) in *.
  destruct (Nat.eqb_spec ups 0) as [|_]; [contradiction|]. cbn [deref bind]. rewrite step_ok by exact V1. cbn [bind]. set (eps_t := ((snd T - fst T) / INR (D - 1))%R).
  assert (Hep : (0 < eps_t)%R) by (apply step_pos; [lra|exact V1]).
  destruct (Nat.eqb_spec (m_rich o) 1) as [|_]; [contradiction|]. cbv zeta. cbn [andb bind].
  set (OK := mnever_fails E -> (u_cs u <> None -> (0 < M)%nat -> m_cs o = CS_AB) -> (kappa = 1%Z -> u_bs u <> None -> man_degree (m_disc o) <> O) -> False).
  match goal with |- exists c u', ?x = Ret (c, (o, u')) /\ @?P c u' => set (G := fun y : out (Z * (mopts * outs)) => exists c u', y = Ret (c, (o, u')) /\ P c u'); change (G x) end.
  assert (Hfail : forall c u', ok_code c -> c <> SUCCESS -> mcontained M o u u' -> (kappa <> 1%Z \/ u_bs u = None -> u_bs u' = u_bs u /\ u_K u' = u_K u) -> OK -> G (Ret (c, (o, u')))).
  { intros c u' Hc N Hm Hs HN. exists c, u'. split; [reflexivity|]. split; [exact Hc|]. split; [exact Hm|]. split; [congruence|]. split; [congruence|]. split; [exact Hs|].
    intros a1 a2 a3. exfalso. exact (HN a1 a2 a3). }
  destruct (km_pre E HE 0 D q1 q2 eps_t D (m_disc o) V1 L1 L2 Hep) as (p & Ep & Hp). rewrite Ep. cbn [bind].
  destruct p as [c|p]. { destruct Hp as [Hc N]. rewrite E_SUB_ok by exact Hc. cbn [bind]. apply Hfail; [now apply ok_neg|now apply abs_nonzero|apply mcontained_refl|auto|]. intros HN _ _. eapply (nf_pre E HN). exact Ep. }
  destruct Hp as (nskip & Es & _ & _ & Lq & Lr). rewrite sizes_full in Es by exact V1. injection Es as <- EDs. rewrite <- EDs in Lq, Lr. fold ups in Lq, Lr.
  (* part 1 *)
  assert (H1 : exists c u1, (match u_cs u with
           | None => Ret (SUCCESS, u)
           | Some cs =>
               x <- fnft_manakovv_base E 0 (D * ups) (po_q p) (po_r p) T M XI kappa o (set_cs u None) ;;
               let '(code, v) := x in
               let u := set_cs v (Some cs) in
               check code u (
               x <- fnft_manakovv_base E 1 (D * ups) (po_q p) (po_r p) T M XI kappa o (set_bs u None) ;;
               let '(code, v) := x in
               let u := set_bs v (u_bs u) in
               check code u (Ret (SUCCESS, u)))
           end) = Ret (c, u1) /\ ok_code c /\ mcontained M o u u1 /\ (c = SUCCESS -> mcs_good M o u1) /\ (kappa <> 1%Z \/ u_bs u = None -> u_bs u1 = u_bs u /\ u_K u1 = u_K u)
     /\ (mnever_fails E -> (u_cs u <> None -> (0 < M)%nat -> m_cs o = CS_AB) -> (kappa = 1%Z -> u_bs u <> None -> man_degree (m_disc o) <> O) -> c = SUCCESS)).
  { destruct (u_cs u) as [cs|] eqn:Ecs.
    2:{ exists SUCCESS, u. split; [reflexivity|]. split; [codes|]. split; [apply mcontained_refl|]. split; [intros _ _ l Hl; congruence|]. auto. }
    destruct (mbase_safe E 0 (D * ups) D (po_q p) (po_r p) T M XI kappa o (set_cs u None)) as (c1 & v & -> & Hc1 & C1 & S1 & _ & _ & N1); auto.
    { destruct HR as [A B]. constructor; cbn; [discriminate|exact B]. }
    cbn [bind].
    assert (C1' : mcontained M o u (set_cs v (Some cs))).
    { destruct C1 as [A1 A2 A3 A4]. constructor; cbn in *; auto. rewrite Ecs. apply kept_refl. }
    assert (S1' : kappa <> 1%Z \/ u_bs u = None -> u_bs (set_cs v (Some cs)) = u_bs u /\ u_K (set_cs v (Some cs)) = u_K u) by exact S1.
    unfold check. destruct (Z.eqb_spec c1 SUCCESS) as [_|Nc1].
    2:{ rewrite E_SUB_ok by exact Hc1. cbn [bind]. eexists _, _. split; [reflexivity|]. split; [now apply ok_neg|]. split; [exact C1'|]. split; [intros Hz; now apply abs_nonzero in Hz|].
        split; [exact S1'|]. intros a1 a2 a3. exfalso. apply Nc1, N1; auto; cbn; congruence. }
    pose proof (mcontained_room _ _ _ _ C1' HR) as HR1.
    destruct (mbase_safe E 1 (D * ups) D (po_q p) (po_r p) T M XI kappa o (set_bs (set_cs v (Some cs)) None)) as (c2 & w & -> & Hc2 & C2 & S2 & _ & G2 & N2); auto.
    { destruct HR1 as [A B]. constructor; cbn in *; [exact A|discriminate]. }
    cbn [bind]. set (u1 := set_bs w _).
    assert (C2' : mcontained M o u u1).
    { eapply mcontained_trans; [exact C1'|]. destruct C2 as [A1 A2 A3 A4]. constructor; cbn in *; auto. apply kept_opt_refl. }
    assert (S2' : kappa <> 1%Z \/ u_bs u = None -> u_bs u1 = u_bs u /\ u_K u1 = u_K u).
    { intros Hk. destruct (S1' Hk) as [Q1 Q2]. destruct (S2 (or_intror eq_refl)) as [_ Q3]. split; [exact Q1|]. cbn in *. congruence. }
    destruct (Z.eqb_spec c2 SUCCESS) as [Sc2|Nc2].
    - eexists _, _. split; [reflexivity|]. split; [codes|]. split; [exact C2'|]. split; [|split; [exact S2'|reflexivity]]. intros _. exact (G2 Sc2).
    - rewrite E_SUB_ok by exact Hc2. cbn [bind]. eexists _, _. split; [reflexivity|]. split; [now apply ok_neg|]. split; [exact C2'|]. split; [intros Hz; now apply abs_nonzero in Hz|].
      split; [exact S2'|]. intros a1 a2 a3. exfalso. apply Nc2, N2; auto; cbn; congruence. }
  cbv zeta in H1. destruct H1 as (c & u1 & -> & Hc & C1 & G1 & S1 & N1). cbn [bind].
  destruct (Z.eqb_spec c SUCCESS) as [Sc|Nc]; cbn [negb]; [|apply Hfail; auto; intros a1 a2 a3; auto].
  specialize (G1 Sc). pose proof (mcontained_room _ _ _ _ C1 HR) as HR1.
  (* part 2 *)
  assert (Eb : (u_bs u1 = None <-> u_bs u = None)) by (pose proof (mcontained_bs_some _ _ _ _ C1) as Hb; destruct (u_bs u1), (u_bs u); intuition congruence).
  set (wb := (kappa =? 1)%Z && negb (no_ptr (u_bs u1))).
  destruct wb eqn:Ewb.
  2:{ cbn [bind Z.eqb SUCCESS negb]. exists SUCCESS, u1. split; [reflexivity|]. split; [codes|]. split; [exact C1|]. split; [|split; [auto|split; [exact S1|reflexivity]]].
      intros _ Hk _ l K Hl. unfold wb in Ewb. rewrite Hk, Hl in Ewb. discriminate. }
  assert (Hwb : kappa = 1%Z /\ u_bs u1 <> None).
  { unfold wb in Ewb. apply andb_true_iff in Ewb. destruct Ewb as [W1 W2]. apply Z.eqb_eq in W1. split; [exact W1|]. destruct (u_bs u1); discriminate. }
  destruct Hwb as [Hk Hb1].
  destruct (sub_size_ok D (m_Dsub o) V1 HDs) as (Dsub & ->). cbn [bind].
  destruct (km_pre E HE 1 D q1 q2 eps_t Dsub (m_disc o) V1 L1 L2 Hep) as (ps & Eps & Hps). rewrite Eps. cbn [bind].
  destruct ps as [c'|ps].
  { destruct Hps as [Hc' N']. rewrite E_SUB_ok by exact Hc'. cbn [bind]. destruct (Z.eqb_spec (- Z.abs c') SUCCESS) as [Hz|_]; [now apply abs_nonzero in Hz|]. cbn [negb].
    apply Hfail; [now apply ok_neg|now apply abs_nonzero|exact C1|exact S1|]. intros HN _ _. eapply (nf_pre E HN). exact Eps. }
  destruct Hps as (ns & Ess & _ & _ & Lsq & Lsr). destruct (msub_sizes D Dsub V1) as (ns' & m & Ess' & Hm). rewrite Ess in Ess'. injection Ess' as <- Em. rewrite Em in *.
  destruct (mbase_safe E 2 (m * ups) m (po_q ps) (po_r ps) T M XI kappa o (set_cs u1 None)) as (c2 & v & -> & Hc2 & C2 & S2 & G2 & _ & N2); auto.
  { clear - Hm. lia. } { clear - Hm Hsz. nia. } { cbn. intros _. apply (mcontained_K_some _ _ _ _ C1). apply V7. now apply (mcontained_bs_some _ _ _ _ C1). }
  { destruct HR1 as [A B]. constructor; cbn; [discriminate|exact B]. }
  cbn [bind]. set (u2 := set_cs v (u_cs u1)).
  assert (C2' : mcontained M o u u2).
  { eapply mcontained_trans; [exact C1|]. destruct C2 as [A1 A2 A3 A4]. constructor; cbn in *; auto. apply kept_opt_refl. }
  assert (Hno : ~ (kappa <> 1%Z \/ u_bs u = None)) by (intros [Hx|Hx]; [contradiction|]; now apply Eb in Hx).
  unfold check. destruct (Z.eqb_spec c2 SUCCESS) as [Sc2|Nc2].
  - cbn [bind Z.eqb SUCCESS negb]. exists SUCCESS, u2. split; [reflexivity|]. split; [codes|]. split; [exact C2'|]. split; [|split; [|split; [contradiction|reflexivity]]].
    + intros _ _ Hf l K Hl HK. apply (G2 Sc2 Hk Hf l K Hl HK).
    + intros _ Hboth l Hl. apply (G1 Hboth l Hl).
  - rewrite E_SUB_ok by exact Hc2. cbn [bind]. destruct (Z.eqb_spec (- Z.abs c2) SUCCESS) as [Hz|_]; [now apply abs_nonzero in Hz|]. cbn [negb].
    apply Hfail; [now apply ok_neg|now apply abs_nonzero|exact C2'|contradiction|]. intros a1 a2 a3. apply Nc2, N2; auto.
Qed.

(** ** ... and with it *)
Lemma mrun_split E D q1 q2 T M XI kappa o u : menv_ok E -> mready D q1 q2 T M XI kappa o u -> m_rich o = 1%nat ->
  (m_ds o = DS_RESIDUES -> u_K u <> None /\ me_alloc E 0 9 = true) ->
  let o1 := if match m_ds o with DS_RESIDUES => true | _ => false end then mset_ds o DS_BOTH else o in
  exists c u1, manakovv_run E D (Some q1) (Some q2) (Some T) M XI kappa (mset_rich o 0) u = Ret (c, (mset_rich o 0, u1)) /\
  manakovv_run E D (Some q1) (Some q2) (Some T) M XI kappa o u =
    if Z.eqb c SUCCESS then manakovv_richardson E D q1 q2 T M XI kappa ((snd T - fst T) / INR (D - 1)) (man_upsampling_factor (m_disc o)) (m_ds o) (Z.eqb kappa 1 && negb (no_ptr (u_bs u))) o1 u1
    else Ret (c, (o1, u1)).
Proof.
  intros HE HY Hr HRes o1.
  assert (HY0 : mready D q1 q2 T M XI kappa (mset_rich o 0) u).
  { destruct HY as [[V1 V2 V3 V4 V5 V6 V7 V8 V9] Hcl HT L1 L2 Hsz HR HM HDs]. constructor; auto. constructor; auto. destruct HR as [A B]. constructor; auto. }
  destruct (mplain_safe E D q1 q2 T M XI kappa (mset_rich o 0) u HE HY0) as (c & u1 & E0 & _ & C1 & _); [discriminate|].
  exists c, u1. split; [exact E0|].
  pose proof HY as [HV Hcl HT L1 L2 Hsz HR HM HDs]. destruct HV as [V1 V2 V3 V4 V5 V6 V7 V8 V9].
  unfold manakovv_run in E0 |- *. rewrite Hr.
  assert (Ha : args_bad D (Some q1) (Some T) XI kappa u = false) by (apply args_bad_false; auto 10). rewrite Ha in *. cbn [orb no_ptr] in *.
  change (m_disc (mset_rich o 0)) with (m_disc o) in E0. change (m_loc (mset_rich o 0)) with (m_loc o) in E0.
  pose proof (man_class_spec (m_disc o)) as HC. destruct (man_class (m_disc o)) as [fast|]; [|contradiction].
  assert (Hloc : negb fast && negb (is_mnewton (m_loc o)) && (kappa =? 1)%Z && negb (no_ptr (u_bs u)) = false).
  { destruct fast; [reflexivity|]. destruct HC as (_ & Hs & _). destruct (Z.eqb_spec kappa 1) as [Hk|]; [|now rewrite andb_false_r]. destruct (u_bs u); [|now rewrite andb_false_r].
    rewrite (V9 Hs Hk ltac:(discriminate)). reflexivity. }
  rewrite Hloc in *. clear Hloc. pose proof (proj1 (mups _) V8) as Hu. set (ups := man_upsampling_factor (m_disc o)) in *.
  destruct (Nat.eqb_spec ups 0) as [|_]; [contradiction|]. cbn [deref bind] in *. rewrite step_ok in * by exact V1. cbn [bind] in *. set (eps_t := ((snd T - fst T) / INR (D - 1))%R) in *.
  assert (Hep : (0 < eps_t)%R) by (apply step_pos; [lra|exact V1]).
  cbv zeta in E0 |- *. change (Nat.eqb (m_rich (mset_rich o 0)) 1) with false in E0. change (Nat.eqb 1 1) with true. cbn [andb bind] in E0 |- *.
  assert (Hd : (if match m_ds o with DS_RESIDUES => true | _ => false end then deref (u_K u) else Ret 0%nat) <> UB).
  { destruct (m_ds o) eqn:Eds; try discriminate. destruct (HRes eq_refl) as [HK _]. destruct (u_K u); [discriminate|congruence]. }
  destruct (if match m_ds o with DS_RESIDUES => true | _ => false end then deref (u_K u) else Ret 0%nat) as [k|]; [|congruence]. clear Hd. cbn [bind].
  assert (Hal : (if match m_ds o with DS_RESIDUES => true | _ => false end then negb (me_alloc E 0 9) else false) = false).
  { destruct (m_ds o) eqn:Eds; try reflexivity. destruct (HRes eq_refl) as [_ ->]. reflexivity. }
  change (match m_ds o with DS_RESIDUES => true | _ => false end && negb (me_alloc E 0 9)) with (if match m_ds o with DS_RESIDUES => true | _ => false end then negb (me_alloc E 0 9) else false).
  rewrite Hal. clear Hal. fold o1. assert (D1 : m_disc o1 = m_disc o) by (unfold o1; destruct (m_ds o); reflexivity).
  assert (Ds1 : m_Dsub o1 = m_Dsub o) by (unfold o1; destruct (m_ds o); reflexivity).
  assert (Ebase : forall s DD a b TT u', fnft_manakovv_base E s DD a b TT M XI kappa o1 u' = fnft_manakovv_base E s DD a b TT M XI kappa (mset_rich o 0) u').
  { intros. unfold o1. destruct (m_ds o); reflexivity. }
  rewrite D1, Ds1. change (m_disc (mset_rich o 0)) with (m_disc o) in E0. change (m_Dsub (mset_rich o 0)) with (m_Dsub o) in E0.
  destruct (km_pre E HE 0 D q1 q2 eps_t D (m_disc o) V1 L1 L2 Hep) as (p & Ep & Hp). rewrite Ep in *. cbn [bind] in *.
  destruct p as [c'|p].
  { destruct Hp as [Hc' N']. rewrite E_SUB_ok in * by exact Hc'. cbn [bind] in *. injection E0 as <- <-. destruct (Z.eqb_spec (- Z.abs c') SUCCESS) as [Hz|_]; [now apply abs_nonzero in Hz|]. reflexivity. }
  match type of E0 with (x <- ?a ;; _) = _ => match goal with |- (x <- ?b ;; _) = _ => assert (Eab : b = a) end end.
  { destruct (u_cs u) as [cs|]; [|reflexivity]. rewrite Ebase. destruct (fnft_manakovv_base E 0 _ _ _ _ _ _ _ _ _) as [[x v]|]; [|reflexivity]. cbn [bind]. rewrite Ebase. reflexivity. }
  rewrite Eab. clear Eab.
  inv_bind E0. rewrite Hx. cbn [bind]. destruct x as [ca ua].
  destruct (Z.eqb_spec ca SUCCESS) as [Sa|Na]; cbn [negb] in *.
  2:{ injection E0 as <- <-. destruct (Z.eqb_spec ca SUCCESS); [contradiction|reflexivity]. }
  match type of E0 with (x <- ?a ;; _) = _ => match goal with |- (x <- ?b ;; _) = _ => assert (Eab : b = a) end end.
  { destruct (_ && _); [|reflexivity]. destruct (sub_size _ _); [|reflexivity]. cbn [bind]. destruct (me_pre E 1 _ _ _ _ _ _) as [[?|ps]|]; try reflexivity. cbn [bind]. now rewrite Ebase. }
  rewrite Eab. clear Eab.
  inv_bind E0. rewrite Hx0. cbn [bind]. destruct x as [cb ub].
  destruct (Z.eqb_spec cb SUCCESS) as [Sb|Nb]; cbn [negb] in *.
  2:{ injection E0 as <- <-. destruct (Z.eqb_spec cb SUCCESS); [contradiction|reflexivity]. }
  injection E0 as <- <-. change (Z.eqb SUCCESS SUCCESS) with true. cbn iota.
  assert (Hbb : no_ptr (u_bs ua) = no_ptr (u_bs u)); [|now rewrite Hbb].
  assert (Hbn : u_bs ua = None <-> u_bs u = None).
  { destruct (u_cs u) as [cs|]; [|injection Hx as _ <-; tauto]. inv_bind Hx. destruct x as [c3 v3]. pose proof (mbase_bs_some _ _ _ _ _ _ _ _ _ _ _ _ _ Hx1) as Hb. cbn in Hb.
    apply check_Ret in Hx. destruct Hx as [[_ Hx]|(_ & Hst & _)]; [|cbn in Hst; subst; exact Hb]. inv_bind Hx. destruct x as [c4 v4].
    apply check_Ret in Hx. destruct Hx as [[_ Hx]|(_ & Hst & _)]; [injection Hx as _ <-|cbn in Hst; subst]; exact Hb. }
  destruct (u_bs ua), (u_bs u); cbn; try reflexivity; exfalso; [now discriminate (proj2 Hbn eq_refl)|now discriminate (proj1 Hbn eq_refl)].
Qed.
