(** * fnft_manakovv: the theorems (C52, C73-C76) *)
From Coq Require Import Reals Lra.
From Coquelicot Require Import Coquelicot.
From Verif Require Import Loop MiscSpec MiscProof MiscProps MiscMetricProps PolyFmultProof DiscProps DiscPreProps NsevSpec NsevProps
  NsevSafe NsevSafe2 NsevSafe3 NsevSafe4 NsevSafe5 NsevDisc NsevDisc2 NsevRich NsevEnv ManvSpec ManvProps ManvSafe ManvSafe2 ManvSafe3.
Local Open Scope C_scope.

Lemma mextrapolated_ds E D q1 q2 T M XI kappa o x cs1 cs' : mextrapolated E D q1 q2 T M XI kappa (mset_ds o x) cs1 cs' <-> mextrapolated E D q1 q2 T M XI kappa o cs1 cs'.
Proof. split; intros H; exact H. Qed.

Lemma mrun_safe E D q1 q2 T M XI kappa o u : menv_ok E -> manv_safe_call E D q1 q2 T M XI kappa o u ->
  exists c o' u', manakovv_run E D q1 q2 T M XI kappa o u = Ret (c, (o', u')) /\ ok_code c /\ mcontained M o u u'
    /\ (c = SUCCESS -> kappa = 1%Z -> mbs_good o u') /\ (c = SUCCESS -> m_rich o <> 1%nat -> mcs_good M o u')
    /\ (mnever_fails E -> man_class (m_disc o) <> None -> (u_cs u <> None -> (0 < M)%nat -> m_cs o = CS_AB) -> (m_rich o = 1%nat -> man_method_order (m_disc o) <> O) ->
        (kappa = 1%Z -> u_bs u <> None -> man_degree (m_disc o) <> O) -> c = SUCCESS)
    /\ (c = SUCCESS -> m_rich o = 1%nat -> forall a b t x cs, q1 = Some a -> q2 = Some b -> T = Some t -> XI = Some x -> u_cs u = Some cs -> (0 < M)%nat ->
        exists u1 cs1 cs', manakovv_run E D q1 q2 T M XI kappa (mset_rich o 0) u = Ret (SUCCESS, (mset_rich o 0, u1)) /\ u_cs u1 = Some cs1 /\ u_cs u' = Some cs'
          /\ u_bs u1 = u_bs u' /\ u_K u1 = u_K u' /\ mextrapolated E D a b t M x kappa o cs1 cs').
Proof.
  intros HE [HV HL1 HL2 Hsz HR HM HDs Hrich].
  destruct (man_class (m_disc o)) as [fast|] eqn:Ecl.
  2:{ exists EC_INVALID_ARGUMENT, o, u. split; [unfold manakovv_run; rewrite Ecl; destruct (_ || _); reflexivity|]. split; [codes|]. split; [apply mcontained_refl|].
      split; [discriminate|]. split; [discriminate|]. split; [congruence|discriminate]. }
  destruct q1 as [q1|]; [|now destruct (vm_q1 _ _ _ _ _ _ _ _ HV)]. destruct q2 as [q2|]; [|now destruct (vm_q2 _ _ _ _ _ _ _ _ HV)].
  destruct (vm_T _ _ _ _ _ _ _ _ HV) as (t0 & t1 & ET & HT). rewrite ET in *.
  assert (HY : mready D q1 q2 (t0, t1) M XI kappa o u).
  { constructor; auto. congruence. }
  destruct (Nat.eq_dec (m_rich o) 1) as [Hr|Hr].
  2:{ destruct (mplain_safe E D q1 q2 (t0, t1) M XI kappa o u HE HY Hr) as (c & u' & Er & Hc & Cu & Gb & Gc & _ & HN). exists c, o, u'.
      split; [exact Er|]. split; [exact Hc|]. split; [exact Cu|]. split; [exact Gb|]. split; [auto|]. split; [auto|]. congruence. }
  destruct (Hrich Hr) as (H3 & HXI & HRK & Hpre).
  set (res := match m_ds o with DS_RESIDUES => true | _ => false end).
  destruct (res && negb (me_alloc E 0 9)) eqn:Eal.
  { (* the allocation of the residues fails *)
    apply andb_true_iff in Eal. destruct Eal as [Er Eal]. assert (Hds : m_ds o = DS_RESIDUES) by (unfold res in Er; destruct (m_ds o); congruence).
    exists EC_NOMEM, (mset_ds o DS_BOTH), u. split.
    - destruct HV as [V1 V2 V3 V4 V5 V6 V7 V8 V9]. unfold manakovv_run.
      assert (Ha : args_bad D (Some q1) (Some (t0, t1)) XI kappa u = false) by (apply args_bad_false; auto 10). rewrite Ha. cbn [orb no_ptr]. rewrite Ecl.
      assert (Hloc : negb fast && negb (is_mnewton (m_loc o)) && (kappa =? 1)%Z && negb (no_ptr (u_bs u)) = false).
      { pose proof (man_class_spec (m_disc o)) as HC. rewrite Ecl in HC. destruct fast; [reflexivity|]. destruct HC as (_ & Hs & _). destruct (Z.eqb_spec kappa 1) as [Hk|]; [|now rewrite andb_false_r]. destruct (u_bs u); [|now rewrite andb_false_r].
        rewrite (V9 Hs Hk ltac:(discriminate)). reflexivity. }
      rewrite Hloc. pose proof (proj1 (mups _) V8) as Hu. destruct (Nat.eqb_spec (man_upsampling_factor (m_disc o)) 0) as [|_]; [contradiction|]. cbn [deref bind]. rewrite step_ok by exact V1. cbn [bind].
      rewrite Hr, Hds. change (Nat.eqb 1 1) with true. cbn [andb]. specialize (HRK Hds). destruct (u_K u); [|congruence]. cbn [deref bind]. rewrite Eal. reflexivity.
    - split; [codes|]. split; [apply mcontained_refl|]. split; [discriminate|]. split; [discriminate|]. split; [|discriminate].
      intros HN. rewrite (nf_alloc E HN) in Eal. discriminate. }
  assert (HRes : m_ds o = DS_RESIDUES -> u_K u <> None /\ me_alloc E 0 9 = true).
  { intros Hds. split; [auto|]. unfold res in Eal. rewrite Hds in Eal. cbn in Eal. now destruct (me_alloc E 0 9). }
  assert (HY0 : mready D q1 q2 (t0, t1) M XI kappa (mset_rich o 0) u).
  { destruct HY as [[V1 V2 V3 V4 V5 V6 V7 V8 V9] Y1 Y2 Y3 Y4 Y5 [A B] Y7 Y8]. constructor; auto; constructor; auto. }
  destruct (mplain_safe E D q1 q2 (t0, t1) M XI kappa (mset_rich o 0) u HE HY0) as (c & u1 & E0 & Hc & C1 & Gb & _ & _ & HN); [discriminate|].
  destruct (mrun_split E D q1 q2 (t0, t1) M XI kappa o u HE HY Hr HRes) as (c' & u1' & E0' & Erun). rewrite E0 in E0'. injection E0' as <- <-.
  fold res in Erun. set (o1 := if res then mset_ds o DS_BOTH else o) in Erun.
  assert (C1' : mcontained M o u u1) by (eapply mcontained_opts; [|exact C1]; reflexivity). rewrite Erun.
  destruct (Z.eqb_spec c SUCCESS) as [Sc|Nc].
  2:{ exists c, o1, u1. split; [reflexivity|]. split; [exact Hc|]. split; [exact C1'|]. split; [congruence|]. split; [congruence|]. split; [|congruence].
      intros a1 _ a3 _ a5. auto. }
  destruct XI as [XI|]; [|congruence].
  assert (D1 : m_disc o1 = m_disc o) by (unfold o1; destruct res; reflexivity). assert (M1 : m_cs o1 = m_cs o) by (unfold o1; destruct res; reflexivity).
  rewrite <- D1.
  destruct (mrichardson_safe E D q1 q2 (t0, t1) M XI kappa ((snd (t0, t1) - fst (t0, t1)) / INR (D - 1)) (m_ds o) (Z.eqb kappa 1 && negb (no_ptr (u_bs u))) o1 u1)
    as (c2 & o2 & u2 & Er2 & Hc2 & C2 & Eb2 & EK2 & Hex & HN2); auto.
  { rewrite D1. apply (vm_disc _ _ _ _ _ _ _ _ HV). } { rewrite D1. exact Hsz. }
  { intros Hx. apply HM. now apply (mcontained_cs_some _ _ _ _ C1). }
  { apply (mroom_opts _ o); [exact M1|]. eapply mcontained_room; [exact C1'|exact HR]. }
  { intros Hl. apply andb_true_iff in Hl. destruct Hl as [Hl1 Hl2]. apply Z.eqb_eq in Hl1. apply Hpre; [exact Hl1|]. destruct (u_bs u); discriminate. }
  exists c2, o2, u2. split; [exact Er2|]. split; [exact Hc2|]. split; [|split; [|split; [|split]]].
  - eapply mcontained_trans; [exact C1'|]. eapply mcontained_opts; [|exact C2]. now symmetry.
  - intros _ Hk Hf l K Hl HK. apply (Gb Sc Hk Hf l K); congruence.
  - congruence.
  - intros a1 _ a3 a4 a5. apply HN2; auto.
    + apply (vm_kappa _ _ _ _ _ _ _ _ HV).
    + intros Hx. apply (mcontained_cs_some _ _ _ _ C1) in Hx. destruct (vm_XI _ _ _ _ _ _ _ _ HV Hx) as (xa & xb & Ex & Hlt). injection Ex as ->. exact Hlt.
    + intros Hx HM0. rewrite M1. apply a3; [|exact HM0]. now apply (mcontained_cs_some _ _ _ _ C1).
  - intros Sc2 _ a b t x cs Ea Eb Et Ex Ecs HM0. injection Ea as <-. injection Eb as <-. injection Et as <-. injection Ex as <-.
    assert (Hcs1 : exists cs1, u_cs u1 = Some cs1). { destruct (u_cs u1) as [cs1|] eqn:E1; [now exists cs1|]. exfalso. apply (proj2 (mcontained_cs_some _ _ _ _ C1)); congruence. }
    destruct Hcs1 as (cs1 & Ecs1). destruct (Hex Sc2 cs1 Ecs1 HM0) as (cs' & Ecs' & HH). exists u1, cs1, cs'.
    split; [rewrite <- Sc; exact E0|]. split; [exact Ecs1|]. split; [exact Ecs'|]. split; [congruence|]. split; [congruence|].
    unfold o1 in HH. destruct res; [exact (proj1 (mextrapolated_ds E D q1 q2 _ M XI kappa o DS_BOTH cs1 cs') HH)|exact HH].
Qed.

(** C73.  Whatever the subroutines compute and wherever they or an allocation fail: a call comes back with an error code
   and has stayed inside the arrays. *)
Theorem manakovv_stays_in_bounds E D q1 q2 T M XI kappa user dflt u : menv_ok E ->
  let o := match user with Some o => o | None => dflt end in
  manv_safe_call E D q1 q2 T M XI kappa o u ->
  exists code u' user' dflt', fnft_manakovv E D q1 q2 T M XI kappa user dflt u = Ret (code, u', user', dflt')
    /\ ok_code code /\ mcontained M o u u'.
Proof.
  intros HE o HS. destruct (mrun_safe E D q1 q2 T M XI kappa o u HE HS) as (c & o' & u' & Er & Hc & Cu & _). unfold fnft_manakovv. fold o. rewrite Er. cbn [bind].
  eexists _, _, _, _. split; [reflexivity|]. auto.
Qed.

(** C52.  Every discretization in the table except FTES4_4B works: if no subroutine fails, the call succeeds. The
   reflection coefficients are excluded since they need not exist. *)
Theorem manakovv_succeeds E D q1 q2 T M XI kappa user dflt u : menv_ok E -> mnever_fails E ->
  let o := match user with Some o => o | None => dflt end in
  manv_safe_call E D q1 q2 T M XI kappa o u -> m_disc o <> M_FTES4_4B ->
  (u_cs u <> None -> (0 < M)%nat -> m_cs o = CS_AB) ->
  (man_slow (m_disc o) -> m_rich o <> 1%nat /\ (kappa = 1%Z -> u_bs u = None)) ->
  exists u' user' dflt', fnft_manakovv E D q1 q2 T M XI kappa user dflt u = Ret (SUCCESS, u', user', dflt').
Proof.
  intros HE HN o HS Hd Hab Hslow. destruct (mrun_safe E D q1 q2 T M XI kappa o u HE HS) as (c & o' & u' & Er & _ & _ & _ & _ & HC & _).
  pose proof (vm_disc _ _ _ _ _ _ _ _ (sm_valid _ _ _ _ _ _ _ _ _ _ HS)) as Hkn. pose proof (man_class_spec (m_disc o)) as Hcl.
  assert (c = SUCCESS) as ->.
  { apply HC; auto.
    - intros Hc. rewrite Hc in Hcl. destruct Hcl; [contradiction|]. now apply Hkn.
    - intros Hr. destruct (man_class (m_disc o)) as [[|]|].
      + apply Hcl.
      + destruct Hcl as (_ & Hs & _). now destruct (proj1 (Hslow Hs)).
      + destruct Hcl; [contradiction|]. now destruct Hkn.
    - intros Hk Hb. destruct (man_class (m_disc o)) as [[|]|].
      + apply Hcl.
      + destruct Hcl as (_ & Hs & _). now destruct Hb; apply (Hslow Hs).
      + destruct Hcl; [contradiction|]. now destruct Hkn. }
  unfold fnft_manakovv. fold o. rewrite Er. cbn [bind]. eexists _, _, _. reflexivity.
Qed.

(** C74.  Of a continuous spectrum of type BOTH the reflection coefficients are the quotients of the b's and a. *)
Theorem manakovv_contspec_consistent E D q1 q2 T M XI kappa user dflt u u' user' dflt' cs : menv_ok E ->
  let o := match user with Some o => o | None => dflt end in
  manv_safe_call E D q1 q2 T M XI kappa o u -> m_cs o = CS_BOTH -> m_rich o <> 1%nat ->
  fnft_manakovv E D q1 q2 T M XI kappa user dflt u = Ret (SUCCESS, u', user', dflt') -> u_cs u' = Some cs ->
  forall i, (i < M)%nat -> block M cs 2 i <> 0 /\
    block M cs 0 i = block M cs 3 i / block M cs 2 i /\ block M cs 1 i = block M cs 4 i / block M cs 2 i.
Proof.
  intros HE o HS Hb Hr H Hcs. destruct (mrun_safe E D q1 q2 T M XI kappa o u HE HS) as (c & o' & u1 & Er & _ & _ & _ & Gc & _).
  unfold fnft_manakovv in H. fold o in H. rewrite Er in H. cbn [bind] in H. injection H as -> -> _ _. exact (Gc eq_refl Hr Hb cs Hcs).
Qed.

(** C75.  With Richardson extrapolation, the continuous spectrum at the low frequencies is the extrapolation of the
   result of the same call without it and of the result for about half the samples; elsewhere it is the former. The bound
   states are not extrapolated. *)
Theorem manakovv_richardson_contspec E D q1 q2 T M XI kappa o dflt u u' user' dflt' cs : menv_ok E ->
  manv_safe_call E D (Some q1) (Some q2) (Some T) M (Some XI) kappa o u -> m_rich o = 1%nat -> u_cs u = Some cs -> (2 <= M)%nat ->
  fnft_manakovv E D (Some q1) (Some q2) (Some T) M (Some XI) kappa (Some o) dflt u = Ret (SUCCESS, u', user', dflt') ->
  let h := ((snd T - fst T) / INR (D - 1))%R in
  exists u1 (cs' cs1 cs2 : list C) nskip m p v, u_cs u' = Some cs' /\
  fnft_manakovv E D (Some q1) (Some q2) (Some T) M (Some XI) kappa (Some (mset_rich o 0)) dflt u = Ret (SUCCESS, u1, Some (mset_rich o 0), dflt) /\
  u_cs u1 = Some cs1 /\ u_bs u' = u_bs u1 /\ u_K u' = u_K u1 /\
  downsample_sizes D (D / 2) = Ret (nskip, m) /\ (2 <= nskip)%nat /\ me_pre E 2 D q1 q2 h (D / 2) (m_disc o) = Ret (inr p) /\
  fnft_manakovv_base E 3 (m * man_upsampling_factor (m_disc o)) (po_q p) (po_r p) (fst T, fst T + INR ((m - 1) * nskip) * h)%R M (Some XI) kappa
    (mset_loc o ML_NEWTON) {| u_cs := Some (me_junk E 0 (mcs_values (m_cs o) * M)); u_K := Some O; u_bs := None; u_nc := None |} = Ret (SUCCESS, v) /\
  u_cs v = Some cs2 /\
  forall i b, (i < M)%nat -> (b < mcs_values (m_cs o))%nat -> let j := (i + b * M)%nat in
  (low_frequency XI M i (INR nskip * h) -> nth j cs' 0 = extrapolate h (INR nskip * h) (man_method_order (m_disc o)) (nth j cs1 0) (nth j cs2 0)) /\
  (~ low_frequency XI M i (INR nskip * h) -> nth j cs' 0 = nth j cs1 0).
Proof.
  intros HE HS Hr Ecs HM H h. destruct (mrun_safe E D (Some q1) (Some q2) (Some T) M (Some XI) kappa o u HE HS) as (c & o' & u2 & Er & _ & _ & _ & _ & _ & HX).
  unfold fnft_manakovv in H. rewrite Er in H. cbn [bind] in H. injection H as -> -> _ _.
  destruct (HX eq_refl Hr q1 q2 T XI cs eq_refl eq_refl eq_refl eq_refl Ecs) as (u1 & cs1 & cs' & E0 & E1 & E2 & E3 & E4 & (cs2 & nskip & m & p & v & X1 & X2 & X3 & X4 & X5 & X6)); [lia|].
  exists u1, cs', cs1, cs2, nskip, m, p, v. split; [exact E2|]. split; [unfold fnft_manakovv; rewrite E0; reflexivity|]. split; [exact E1|]. split; [now symmetry|]. split; [now symmetry|].
  split; [exact X1|]. split; [exact X2|]. split; [exact X3|]. split; [exact X4|]. split; [exact X5|exact X6].
Qed.

(** Both approximations have the leading error term only: the extrapolated continuous spectrum is exact at the low frequencies. *)
Corollary manakovv_richardson_exact E D q1 q2 T M XI kappa o dflt u u' user' dflt' cs (exact err : nat -> C) : menv_ok E ->
  manv_safe_call E D (Some q1) (Some q2) (Some T) M (Some XI) kappa o u -> m_rich o = 1%nat -> u_cs u = Some cs -> (2 <= M)%nat ->
  fnft_manakovv E D (Some q1) (Some q2) (Some T) M (Some XI) kappa (Some o) dflt u = Ret (SUCCESS, u', user', dflt') ->
  let h := ((snd T - fst T) / INR (D - 1))%R in
  let p := man_method_order (m_disc o) in
  p <> O ->
  (forall v cs1 o' d', fnft_manakovv E D (Some q1) (Some q2) (Some T) M (Some XI) kappa (Some (mset_rich o 0)) dflt u = Ret (SUCCESS, v, o', d') -> u_cs v = Some cs1 ->
     forall j, (j < mcs_values (m_cs o) * M)%nat -> nth j cs1 0 = error_term (exact j) (err j) h p) ->
  (forall D' qq rr T' w v cs2, fnft_manakovv_base E 3 D' qq rr T' M (Some XI) kappa (mset_loc o ML_NEWTON) w = Ret (SUCCESS, v) -> u_cs v = Some cs2 ->
     forall j, (j < mcs_values (m_cs o) * M)%nat ->
     nth j cs2 0 = error_term (exact j) (err j) ((snd T' - fst T') / INR (D' / man_upsampling_factor (m_disc o) - 1))%R p) ->
  exists cs' nskip m, u_cs u' = Some cs' /\ downsample_sizes D (D / 2) = Ret (nskip, m) /\
  forall i b, (i < M)%nat -> (b < mcs_values (m_cs o))%nat -> low_frequency XI M i (INR nskip * h) ->
  nth (i + b * M) cs' 0 = exact (i + b * M)%nat.
Proof.
  intros HE HS Hr Ecs HM H h p Hp H1 H2. pose proof HS as HS0. destruct HS0 as [HV _ _ _ _ _ _ Hrich]. destruct (Hrich Hr) as (HD3 & _).
  destruct HV as [V1 _ _ V3 _ _ _ V7 _]. destruct V3 as (t0 & t1 & ET & HT). injection ET as ->.
  assert (Hep : (0 < h)%R) by (apply step_pos; [cbn; lra|exact V1]).
  destruct (manakovv_richardson_contspec E D q1 q2 (t0, t1) M XI kappa o dflt u u' user' dflt' cs HE HS Hr Ecs HM H)
    as (u1 & cs' & cs1 & cs2 & nskip & m & pp & v & Ec' & Er1 & Ec1 & _ & _ & Es & Hns & Ep & Er2 & Ev & Hex). fold h in Er2, Hex, Ep. cbn [fst snd] in Er2.
  exists cs', nskip, m. split; [exact Ec'|]. split; [exact Es|]. intros i b Hi Hb HL.
  destruct (Hex i b Hi Hb) as [G _]. rewrite (G HL). clear G Hex.
  assert (Hj : (i + b * M < mcs_values (m_cs o) * M)%nat) by (clear - Hi Hb; nia).
  rewrite (H1 _ cs1 _ _ Er1 Ec1 _ Hj), (H2 _ _ _ _ _ _ _ Er2 Ev _ Hj). cbn [fst snd].
  destruct (half_sizes D HD3) as (ns & m' & Es' & _ & Hm). rewrite Es in Es'. injection Es' as <- <-.
  pose proof (proj1 (mups _) V7) as Hu. rewrite Nat.div_mul by exact Hu.
  assert (Hmm : (1 <= INR (m - 1))%R) by (apply (le_INR 1); clear - Hm; lia). assert (Hnn : (2 <= INR nskip)%R) by (apply (le_INR 2); exact Hns).
  replace ((t0 + INR ((m - 1) * nskip) * h - t0) / INR (m - 1))%R with (INR nskip * h)%R by (rewrite mult_INR; field; lra).
  apply extrapolate_exact; [exact Hep| |exact Hp].
  assert (0 < (INR nskip - 1) * h)%R by (apply Rmult_lt_0_compat; lra). lra.
Qed.

(** C76.  The bound states of a successful call: at most as many as the caller has room for, and with filtering
   all of them are in the closed upper half plane and pairwise at least sqrt(EPSILON) apart. *)
Theorem manakovv_bound_states E D q1 q2 T M XI user dflt u u' user' dflt' l K l' K' : menv_ok E ->
  let o := match user with Some o => o | None => dflt end in
  manv_safe_call E D q1 q2 T M XI 1 o u -> 
  fnft_manakovv E D q1 q2 T M XI 1 user dflt u = Ret (SUCCESS, u', user', dflt') ->
  u_bs u = Some l -> u_K u = Some K -> u_bs u' = Some l' -> u_K u' = Some K' ->
  (K' <= K)%nat /\ (m_filt o <> MF_NONE ->
  (forall i, (i < K')%nat -> (0 <= snd (nth i l' 0))%R) /\
  (forall i j, (i < j < K')%nat -> (sqrt EPS <= Cmod (nth i l' 0 - nth j l' 0)%C)%R)).
Proof.
  intros HE o HS H Hl HK Hl' HK'. destruct (mrun_safe E D q1 q2 T M XI 1 o u HE HS) as (c & o' & u1 & Er & _ & Cu & Gb & _).
  unfold fnft_manakovv in H. fold o in H. rewrite Er in H. cbn [bind] in H. injection H as -> -> _ _.
  pose proof (cm_K _ _ _ _ Cu) as [Hcap _]. unfold cap in Hcap. rewrite HK, HK' in Hcap. split; [exact Hcap|]. intros Hf.
  destruct (Gb eq_refl eq_refl Hf l' K' Hl' HK') as [G1 G2]. split; [exact G1|]. intros i j Hij.
  assert (HL : (K' <= length l')%nat).
  { pose proof (rm_bs _ _ _ (sm_room _ _ _ _ _ _ _ _ _ _ HS) l K Hl HK) as Hlen. pose proof (cm_bs _ _ _ _ Cu) as Kb. rewrite Hl, Hl' in Kb. cbn in Kb. rewrite (kept_length _ _ _ Kb). lia. }
  apply (G2 i j); [lia| |]; rewrite <- (firstn_skipn K' l') at 2; rewrite app_nth1 by (rewrite firstn_length; lia); apply nth_error_nth'; rewrite firstn_length; lia.
Qed.
