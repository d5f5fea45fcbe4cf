(** * fnft_nsev stays inside the arrays of the caller (C45): proofs, part 5 *)
From Coq Require Import Reals Lra.
From Coquelicot Require Import Coquelicot.
From Verif Require Import Loop MiscSpec MiscProof MiscProps PolyFmultProof DiscProps DiscPreProps NsevSpec NsevProps NsevSafe NsevSafe2 NsevSafe3 NsevSafe4.
Local Open Scope C_scope.

(** ** The automatic number of samples *)
Lemma ln_le_sqrt x : (1 <= x)%R -> (ln x <= sqrt x)%R.
Proof.
  intros H. set (y := sqrt (sqrt x)).
  assert (H1 : (1 <= sqrt x)%R) by (rewrite <- sqrt_1; apply sqrt_le_1; lra).
  assert (H2 : (1 <= y)%R) by (unfold y; rewrite <- sqrt_1; apply sqrt_le_1; lra).
  assert (E1 : (y * y = sqrt x)%R) by (apply sqrt_sqrt; lra).
  assert (E2 : (sqrt x * sqrt x = x)%R) by (apply sqrt_sqrt; lra).
  assert (El : (ln x = 4 * ln y)%R).
  { rewrite <- E2, <- E1. rewrite !ln_mult by nra. ring. }
  assert (Hl : (ln y <= y - 1)%R).
  { destruct (Req_dec y 1) as [->|N]; [rewrite ln_1; lra|].
    assert (exp (ln y) = y) by (apply exp_ln; lra). pose proof (exp_ineq1_le (ln y)). lra. }
  rewrite El, <- E1. assert (0 <= (y - 2) * (y - 2))%R by apply Rle_0_sqr; lra.
Qed.
Lemma auto_Dsub_range D : (2 <= D)%nat -> (1 <= auto_Dsub D <= 2 * D)%nat.
Proof.
  intros H. unfold auto_Dsub, ufloor, log2. set (x := INR D).
  assert (Hx : (2 <= x)%R) by (apply (le_INR 2); exact H).
  pose proof ln_lt_2 as H2.
  assert (L1 : (1 <= ln x / ln 2)%R).
  { apply (Rmult_le_reg_r (ln 2)); [lra|]. replace (ln x / ln 2 * ln 2)%R with (ln x) by (field; lra). rewrite Rmult_1_l.
    destruct (Req_dec x 2) as [->|N]; [lra|]. apply Rlt_le, ln_increasing; lra. }
  assert (L2 : (ln x / ln 2 <= 2 * sqrt x)%R).
  { apply (Rmult_le_reg_r (ln 2)); [lra|]. replace (ln x / ln 2 * ln 2)%R with (ln x) by (field; lra).
    pose proof (ln_le_sqrt x ltac:(lra)). pose proof (sqrt_pos x). nra. }
  set (l := (ln x / ln 2)%R) in *. pose proof (sqrt_pos x) as Hs. assert (E : (sqrt x * sqrt x = x)%R) by (apply sqrt_sqrt; lra).
  assert (S1 : (1 <= sqrt (x * l * l))%R) by (rewrite <- sqrt_1; apply sqrt_le_1; nra).
  assert (S2 : (sqrt (x * l * l) <= 2 * x)%R).
  { replace (2 * x)%R with (sqrt ((2 * x) * (2 * x))) by (apply sqrt_square; lra). apply sqrt_le_1; [nra|nra|].
    assert (l * l <= 4 * x)%R by nra. nra. }
  set (s := sqrt (x * l * l)) in *. destruct (base_Int_part s) as [B1 B2].
  assert (I1 : (0 < Int_part s)%Z) by (apply lt_IZR; lra).
  assert (I2 : (Int_part s <= Z.of_nat (2 * D))%Z).
  { apply le_IZR. rewrite <- INR_IZR_INZ, mult_INR. fold x. simpl INR. lra. }
  lia.
Qed.
Lemma sub_size_ok D Dsub : (2 <= D)%nat -> (Dsub <= 2 * D)%nat -> exists n, sub_size D Dsub = Ret n.
Proof.
  intros H H1. unfold sub_size. cbv zeta. set (m := if Nat.eqb Dsub 0 then auto_Dsub D else Dsub).
  assert (Hm : (1 <= m <= 2 * D)%nat) by (unfold m; destruct (Nat.eqb_spec Dsub 0); [now apply auto_Dsub_range|lia]).
  destruct (Nat.eqb_spec m 0); [lia|].
  assert (1 <= round_div D m)%nat by (unfold round_div; apply Nat.div_le_lower_bound; lia).
  destruct (Nat.eqb_spec (round_div D m) 0); [lia|]. eexists. reflexivity.
Qed.

Lemma room_opts kappa M o o' u : contspec_type o' = contspec_type o -> discspec_type o' = discspec_type o -> room kappa M o u -> room kappa M o' u.
Proof. intros H1 H2 [A1 A2 A3]. constructor; rewrite ?H1, ?H2; auto. Qed.

Lemma contained_K_some M o u u' : contained M o u u' -> (u_K u <> None -> u_K u' <> None).
Proof. intros [_ _ _ [_ H]] H1 H2. apply H1, H, H2. Qed.
Lemma contained_bs_some M o u u' : contained M o u u' -> (u_bs u' <> None <-> u_bs u <> None).
Proof. intros [_ H _ _]. destruct (u_bs u), (u_bs u'); cbn in H; try contradiction; split; congruence. Qed.
Lemma contained_cs_some M o u u' : contained M o u u' -> (u_cs u' <> None <-> u_cs u <> None).
Proof. intros [H _ _ _]. destruct (u_cs u), (u_cs u'); cbn in H; try contradiction; split; congruence. Qed.
Lemma contained_nc_some M o u u' : contained M o u u' -> (u_nc u' <> None <-> u_nc u <> None).
Proof. intros [_ _ H _]. destruct (u_nc u), (u_nc u'); cbn in H; try contradiction; split; congruence. Qed.

Lemma run_safe E D q T M XI kappa o u : env_ok E -> safe_call E D q T M XI kappa o u ->
  exists c o' u', nsev_run E D q T M XI kappa o u = Ret (c, (o', u')) /\ ok_code c /\ contained M o u u'.
Proof.
  intros HE [HV Hlen Hsz HR HM HDs Hrich]. unfold nsev_run. destruct HV as [V1 V2 V3 V4 V5 V6 V7 V8].
  set (G := fun x : out (Z * (opts * outs)) => exists c o' u', x = Ret (c, (o', u')) /\ ok_code c /\ contained M o u u').
  match goal with |- exists c o' u', ?x = _ /\ _ /\ _ => change (G x) end.
  assert (Hfail : forall c o', ok_code c -> G (Ret (c, (o', u)))).
  { intros c o' Hc. exists c, o', u. split; [reflexivity|]. split; [exact Hc|]. apply contained_refl. }
  assert (Hdone : forall c o' u', ok_code c -> contained M o u u' -> G (Ret (c, (o', u')))).
  { intros c o' u' Hc Hu. exists c, o', u'. auto. }
  destruct (args_bad D q T XI kappa u); [apply Hfail; codes|].
  pose proof (disc_class_spec (discretization o)) as HC. destruct (disc_class (discretization o)) as [fast|]; [|contradiction].
  destruct (negb fast && negb (is_newton (bound_state_localization o)) && (kappa =? 1)%Z && negb (no_ptr (u_bs u))) eqn:Eslow; [apply Hfail; codes|].
  pose proof (known_ups _ V7) as Hu. set (ups := nse_upsampling_factor (discretization o)) in *.
  destruct (Nat.eqb_spec ups 0) as [|_]; [contradiction|].
  destruct q as [q|]; [|congruence]. destruct V3 as (t0 & t1 & -> & HT). cbn [deref bind fst snd].
  specialize (Hlen q eq_refl). rewrite step_ok by exact V1. cbn [bind]. set (eps_t := ((t1 - t0) / INR (D - 1))%R).
  assert (Hep : (0 < eps_t)%R) by (apply step_pos; [lra|exact V1]).
  cbv zeta. set (rich := Nat.eqb (richardson_extrapolation_flag o) 1).
  set (res := rich && match discspec_type o with DS_RESIDUES => true | _ => false end).
  set (o1 := if res then set_dstype o DS_BOTH else o).
  assert (Hr : rich = true -> richardson_extrapolation_flag o = 1%nat) by (apply Nat.eqb_eq).
  assert (Hres : res = true -> rich = true /\ discspec_type o = DS_RESIDUES).
  { unfold res. destruct rich; [|discriminate]. destruct (discspec_type o); try discriminate. auto. }
  assert (D1 : discretization o1 = discretization o) by (unfold o1; destruct res; reflexivity).
  assert (B1 : bound_state_localization o1 = bound_state_localization o) by (unfold o1; destruct res; reflexivity).
  assert (C1 : contspec_type o1 = contspec_type o) by (unfold o1; destruct res; reflexivity).
  assert (HK2 : exists K2, (if res then K <- deref (u_K u);; Ret (2 * K)%nat else Ret 0%nat) = Ret K2 /\ (res = true -> K2 = (2 * cap u)%nat)).
  { destruct res eqn:Er; [|exists O; split; [reflexivity|discriminate]].
    destruct (Hres eq_refl) as [Hr1 Hr2]. destruct (Hrich (Hr Hr1)) as (_ & _ & HH & _). specialize (HH Hr2). unfold cap.
    destruct (u_K u) as [K|]; [|congruence]. cbn [deref bind]. eexists. split; [reflexivity|]. auto. }
  destruct HK2 as (K2 & -> & HK2). cbn [bind].
  destruct (res && negb (e_alloc E 0 9)); [apply Hfail; codes|].
  set (own := if res then Some (e_junk E 9 K2) else None).
  rewrite D1. destruct (k_pre E HE 0 D q eps_t kappa D (discretization o) V1 Hlen Hep) as (p & -> & Hp). cbn [bind].
  destruct p as [c|p]. { destruct Hp as [Hc _]. rewrite E_SUB_ok by exact Hc. cbn [bind]. apply Hfail. now apply ok_neg. }
  destruct Hp as (nskip & Es & _ & _ & Lq & Lr). rewrite sizes_full in Es by exact V1. injection Es as <- EDs. rewrite <- EDs in Lq, Lr. fold ups in Lq, Lr.
  assert (Hfast1 : bound_state_localization o = BL_FAST_EIGENVALUE -> kappa = 1%Z -> u_bs u <> None -> nse_degree (discretization o) <> O).
  { intros HB Hk Hb. destruct fast; [apply HC|]. destruct HC as (_ & HC & _). specialize (V8 HC Hk Hb). congruence. }
  set (ds := if rich then discspec_type o else DS_NORMING_CONSTANTS).
  assert (Hds : rich = true -> set_dstype o1 ds = o).
  { intros Hr1. unfold ds, o1. rewrite Hr1. destruct res; destruct o; reflexivity. }
  assert (Hds2 : rich = true -> discspec_type o1 = if match ds with DS_RESIDUES => true | _ => false end then DS_BOTH else ds).
  { intros Hr1. unfold ds, o1, res. rewrite Hr1. destruct (discspec_type o) eqn:E0; cbn; auto. }
  assert (HR1 : res = false -> room kappa M o1 u) by (intros E0; unfold o1; now rewrite E0).
  assert (Ho1 : res = false -> o1 = o) by (intros E0; unfold o1; now rewrite E0).
  assert (HTL : u_bs u <> None -> kappa = 1%Z -> res = true -> bound_state_localization o = BL_SUBSAMPLE_AND_REFINE /\ u_nc u <> None).
  { intros Hb Hk E0. destruct (Hres E0) as [Hr1 Hr2]. destruct (Hrich (Hr Hr1)) as (_ & _ & _ & HH). destruct (HH Hk Hb) as (H1 & H2 & _).
    split; [auto|]. apply H2. auto. }
  (* what Richardson needs *)
  assert (HRI : forall live own' u1, rich = true -> contained M o u u1 ->
     (live = true -> kappa = 1%Z /\ u_bs u <> None /\ bound_state_localization o = BL_SUBSAMPLE_AND_REFINE) ->
     (kappa = 1%Z -> u_bs u <> None -> match own' with Some l => (2 * cap u <= length l)%nat | None => ds <> DS_RESIDUES end) ->
     G (nsev_richardson E D q (t0, t1) M XI kappa eps_t ups ds live own' o1 u1)).
  { intros live own' u1 Hr1 Cu Hl Hown. destruct (Hrich (Hr Hr1)) as (H3 & HXI & HRK & Hdisc).
    unfold ups. rewrite <- D1.
    destruct (richardson_safe E D q (t0, t1) M XI kappa eps_t ds live own' o1 u1) as (c & o' & u' & -> & Hc & Cu'); auto.
    - now rewrite D1.
    - rewrite D1. exact Hsz.
    - intros Hc. apply HM. now apply (contained_cs_some _ _ _ _ Cu).
    - intros Hb. apply (contained_bs_some _ _ _ _ Cu) in Hb. apply (contained_K_some _ _ _ _ Cu). now apply V6.
    - rewrite Hds by exact Hr1. eapply contained_room; eassumption.
    - intros Hlt. destruct (Hl Hlt) as (Hk & Hb & Hloc). apply (Hdisc Hk Hb), Hloc.
    - intros K Hk Hb EK. apply (contained_bs_some _ _ _ _ Cu) in Hb. split.
      + specialize (Hown Hk Hb). destruct own' as [l|]; [|exact Hown]. pose proof (c_K _ _ _ _ Cu) as [Hcap _]. unfold cap in Hcap at 1. rewrite EK in Hcap. lia.
      + intros Hd0. apply (contained_nc_some _ _ _ _ Cu). apply (Hdisc Hk Hb). unfold ds in Hd0. rewrite Hr1 in Hd0. exact Hd0.
    - apply Hdone; [exact Hc|]. rewrite Hds in Cu' by exact Hr1. eapply contained_trans; eassumption. }
  destruct ((kappa =? 1)%Z && negb (no_ptr (u_bs u)) && match bound_state_localization o1 with BL_SUBSAMPLE_AND_REFINE => true | _ => false end) eqn:Esub.
  - assert (Hk : kappa = 1%Z) by (destruct (Z.eqb_spec kappa 1); [assumption|discriminate]).
    assert (Hb : u_bs u <> None) by (destruct (u_bs u); [discriminate|]; rewrite andb_false_r in Esub; discriminate).
    assert (Hl : bound_state_localization o = BL_SUBSAMPLE_AND_REFINE).
    { rewrite <- B1. destruct (bound_state_localization o1); rewrite ?andb_false_r in Esub; try discriminate. reflexivity. }
    assert (Hfst : nse_degree (discretization o) <> O).
    { destruct fast; [apply HC|]. destruct HC as (_ & HC & _). specialize (V8 HC Hk Hb). congruence. }
    assert (HDs1 : o_Dsub o1 = o_Dsub o) by (unfold o1; destruct res; reflexivity).
    destruct (sub_size_ok D (o_Dsub o1) V1) as (n & ->); [rewrite HDs1; exact HDs|]. cbn [bind].
    destruct (k_pre E HE 1 D q eps_t kappa n (discretization o) V1 Hlen Hep) as (ps & -> & Hps). cbn [bind].
    destruct ps as [c|ps]. { destruct Hps as [Hc _]. rewrite E_SUB_ok by exact Hc. cbn [bind]. apply Hfail. now apply ok_neg. }
    destruct Hps as (ns & Es & Pf & Pl & Lpq & Lpr). fold ups in Lpq, Lpr.
    assert (Hsub : (1 <= ns)%nat /\ (2 <= po_Dsub ps <= D)%nat).
    { destruct (Nat.eq_dec D 2) as [E2|N2].
      - subst D. rewrite E2 in Es. revert Es. unfold downsample_sizes. destruct (Nat.ltb_spec n 2); [|destruct (Nat.ltb_spec 2 n)].
        + cbn. intros Es; injection Es as <- <-. lia.
        + cbn. intros Es; injection Es as <- <-. lia.
        + assert (n = 2)%nat as -> by lia. cbn. intros Es; injection Es as <- <-. lia.
      - destruct (downsample_sizes_spec D n) as (ns' & m' & Es' & K1 & K2' & K3 & K4 & K5); [lia|]. rewrite Es in Es'. injection Es' as <- <-. split; [lia|]. nia. }
    destruct Hsub as [Hns HDsub].
    set (Tsub := ((t0 + INR (po_first ps) * eps_t)%R, (t0 + INR (po_last ps) * eps_t)%R)).
    assert (HTs : (fst Tsub < snd Tsub)%R).
    { unfold Tsub. cbn [fst snd]. rewrite Pf, Pl, mult_INR. simpl (INR 0).
      assert (1 <= INR ns)%R by (apply (le_INR 1); exact Hns). assert (1 <= INR (po_Dsub ps - 1))%R by (apply (le_INR 1); lia). assert (0 < INR (po_Dsub ps - 1) * INR ns * eps_t)%R by (apply Rmult_lt_0_compat; [apply Rmult_lt_0_compat; lra|exact Hep]). lra. }
    destruct (base_safe E 0 (po_Dsub ps * ups) (po_Dsub ps) (po_q ps) (po_r ps) Tsub 0 XI kappa (set_bsloc o1 BL_FAST_EIGENVALUE)
       {| u_cs := None; u_K := u_K u; u_bs := u_bs u; u_nc := None |}) as (c & v & -> & Hc & Cv & _); auto.
    { cbn. now rewrite D1. } { cbn. rewrite D1. reflexivity. } { lia. } { nia. }
    { constructor; cbn; try discriminate. intros l K Hbs HK. eapply (r_bs _ _ _ _ HR); eassumption. }
    { cbn. rewrite D1. auto. }
    cbn [bind]. set (u1 := set_K (set_bs u (u_bs v)) (u_K v)).
    assert (Cu1 : contained M o u u1).
    { destruct Cv as [_ A2 _ A4]. cbn in A2, A4. constructor; cbn; try apply kept_opt_refl; auto. }
    assert (Ecs1 : u_cs u1 = u_cs u) by reflexivity. assert (Enc1 : u_nc u1 = u_nc u) by reflexivity.
    unfold check. destruct (Z.eqb_spec c SUCCESS) as [_|]. 2:{ rewrite E_SUB_ok by exact Hc. cbn [bind]. apply Hdone; [now apply ok_neg|exact Cu1]. }
    set (nca := match own with Some l => Some l | None => u_nc u1 end).
    rewrite !set_bsloc_twice.
    destruct (base_safe E 1 (D * ups) D (po_q p) (po_r p) (t0, t1) M XI kappa (set_bsloc o1 BL_NEWTON) (set_nc u1 nca)) as (c2 & v2 & -> & Hc2 & Cv2 & _); auto.
    { cbn. now rewrite D1. } { cbn. rewrite D1. reflexivity. }
    { cbn. intros Hbv. apply (contained_bs_some _ _ _ _ Cu1) in Hbv. apply (contained_K_some _ _ _ _ Cu1). now apply V6. }
    { pose proof (contained_room kappa M o u u1 Cu1 HR) as [A1 A2 A3]. constructor; cbn.
      - rewrite C1. exact A1.
      - exact A2.
      - intros l K Hk0 Hb0 Hl0 HK. unfold nca, own in Hl0. unfold o1. destruct res eqn:Er.
        + injection Hl0 as <-. rewrite (k_junk E HE), (HK2 eq_refl). pose proof (c_K _ _ _ _ Cu1) as [Hcap _]. cbn [ds_values set_dstype discspec_type]. assert (HK3 : cap u1 = K) by (unfold cap, u1; cbn; now rewrite HK). lia.
        + cbn. apply (A3 l K Hk0); assumption. }
    { discriminate. }
    cbn [bind].
    assert (Cu2 : contained M o u (match own with Some _ => set_nc v2 (u_nc u1) | None => v2 end)).
    { eapply contained_trans; [exact Cu1|]. destruct Cv2 as [A1 A2 A3 A4]. cbn in A1, A2, A3, A4. unfold nca, own in *. rewrite C1 in A1. destruct res eqn:Er.
      - constructor; cbn; auto. apply kept_opt_refl.
      - rewrite (Ho1 eq_refl) in A3. constructor; auto. }
    destruct (Z.eqb_spec c2 SUCCESS) as [_|]. 2:{ rewrite E_SUB_ok by exact Hc2. cbn [bind]. apply Hdone; [now apply ok_neg|exact Cu2]. }
    replace (set_bsloc o1 BL_SUBSAMPLE_AND_REFINE) with o1 by (rewrite <- Hl, <- B1; symmetry; apply set_bsloc_same).
    destruct rich eqn:Er; [|apply Hdone; [codes|exact Cu2]].
    apply HRI; auto. intros _ _. unfold own. destruct res eqn:Ers.
    + pose proof (c_nc _ _ _ _ Cv2) as A3. unfold nca, own in A3. cbn in A3. destruct (u_nc v2) as [l2|]; [|contradiction].
      cbn in A3. rewrite (kept_length _ _ _ A3), (k_junk E HE), (HK2 eq_refl). lia.
    + unfold ds. unfold res in Ers. cbn in Ers. destruct (discspec_type o); congruence.
  - assert (Hnc1 : res = true -> kappa <> 1%Z \/ u_bs u = None).
    { intros E0. destruct (Z.eq_dec kappa 1) as [Hk|]; [|auto]. right. destruct (u_bs u) eqn:Eb; [|reflexivity]. exfalso.
      destruct (HTL ltac:(discriminate) Hk E0) as [Hl _]. rewrite B1, Hl, Hk in Esub. discriminate. }
    destruct (base_safe E 1 (D * ups) D (po_q p) (po_r p) (t0, t1) M XI kappa o1 u) as (c2 & v2 & -> & Hc2 & Cv2 & Hnc2); auto.
    { now rewrite D1. } { rewrite D1. reflexivity. }
    { destruct res eqn:Er; [|now apply HR1]. destruct HR as [A1 A2 A3]. constructor; auto.
      - intros l K Hk Hb. destruct (Hnc1 eq_refl); contradiction. }
    { rewrite B1, D1. exact Hfast1. }
    cbn [bind].
    assert (Cu2 : contained M o u v2).
    { destruct res eqn:Er; [|rewrite (Ho1 eq_refl) in Cv2; exact Cv2]. destruct Cv2 as [A1 A2 A3 A4]. rewrite C1 in A1.
      constructor; auto. rewrite (Hnc2 (Hnc1 eq_refl)). apply kept_opt_refl. }
    unfold check. destruct (Z.eqb_spec c2 SUCCESS) as [_|]. 2:{ rewrite E_SUB_ok by exact Hc2. cbn [bind]. apply Hdone; [now apply ok_neg|exact Cu2]. }
    destruct rich eqn:Er; [|apply Hdone; [codes|exact Cu2]].
    apply HRI; auto. { discriminate. }
    intros Hk Hb. unfold own. destruct res eqn:Ers.
    + destruct (Hnc1 eq_refl); contradiction.
    + unfold ds. unfold res in Ers. cbn in Ers. destruct (discspec_type o); congruence.
Qed.

(** Whatever the subroutines compute and wherever they or an allocation fail: a valid call comes back with an error
   code and has stayed inside the arrays; it has written no more than the stated number of values. *)
Theorem nsev_stays_in_bounds E D q T M XI kappa user dflt u : env_ok E ->
  safe_call E D q T M XI kappa (match user with Some o => o | None => dflt end) u ->
  exists code u' user' dflt', fnft_nsev E D q T M XI kappa user dflt u = Ret (code, u', user', dflt')
    /\ ok_code code /\ contained M (match user with Some o => o | None => dflt end) u u'.
Proof.
  intros HE HS. destruct (run_safe E D q T M XI kappa _ u HE HS) as (c & o' & u' & Er & Hc & Cu). unfold fnft_nsev. rewrite Er. cbn [bind].
  eexists _, _, _, _. split; [reflexivity|]. auto.
Qed.
