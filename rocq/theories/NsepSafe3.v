(** * fnft_nsep stays inside the arrays of the caller and filters (C67-C70): proofs, part 3 *)
From Coq Require Import Reals Lra.
From Coquelicot Require Import Coquelicot.
From Verif Require Import Loop MiscSpec MiscProof MiscProps PolyFmultProof DiscProps DiscPreProps NsevSpec NsevProps NsevSafe NsevSafe2 NsevSafe3 NsevSafe5 NsevEnv NsepSpec NsepNewton NsepSafe NsepSafe2.
Local Open Scope C_scope.

(** ** Subsampling *)
Lemma sub_roots_safe E deg p roots h skip tol o : penv_ok E -> length p = (deg + 1)%nat -> (deg <= length roots)%nat ->
  exists c K v, sub_roots E deg p roots h skip tol o = Ret (c, K, v) /\ ok_code c /\ (c <= 0)%Z /\ length v = length roots /\ (K <= deg)%nat.
Proof.
  intros HE Lp Lr. unfold sub_roots.
  assert (HX : forall c0 (v : list C), ok_code c0 -> length v = length roots -> exists c K' v', (c <- E_SUBROUTINE c0 ;; Ret (c, O, v)) = Ret (c, K', v') /\ ok_code c
      /\ (c <= 0)%Z /\ length v' = length roots /\ (K' <= deg)%nat).
  { intros c0 v H0 H2. rewrite E_SUB_ok by exact H0. cbn [bind]. eexists _, _, _. split; [reflexivity|]. split; [now apply ok_neg|]. split; [lia|]. split; [exact H2|lia]. }
  destruct (kp_roots E HE 0 deg p roots Lp Lr) as (c & v & -> & Hc & Hk). cbn [bind]. apply kept_length in Hk.
  destruct (negb _); [apply HX; auto; congruence|].
  destruct (z2l_safe deg h v (p_disc o)) as (c1 & v1 & -> & Hc1 & Hk1); [lia|]. cbn [bind]. apply kept_length in Hk1.
  destruct (negb _); [apply HX; auto; congruence|].
  destruct (pfilter_safe o deg v1) as (c2 & K2 & v2 & -> & Hc2 & HK2 & Hk2 & _); [lia|]. cbn [bind]. apply kept_length in Hk2.
  destruct (negb _); [apply HX; auto; congruence|].
  destruct (pfilter_real_safe skip tol K2 v2) as (c3 & K3 & v3 & -> & Hc3 & HK3 & Hk3 & _); [lia|]. cbn [bind]. apply kept_length in Hk3.
  destruct (negb _); [apply HX; auto; congruence|].
  eexists _, _, _. split; [reflexivity|]. split; [codes|]. split; [unfold SUCCESS; lia|]. split; [congruence|lia].
Qed.
Lemma sub_refine_safe E s De q r h K roots rhs kappa d skip tol o : penv_ok E -> (2 <= De)%nat -> length q = De -> length r = De -> (0 < h)%R -> (K <= length roots)%nat ->
  exists c K' v, sub_refine E s De q r h K roots rhs kappa d skip tol o = Ret (c, K', v) /\ ok_code c /\ (c <= 0)%Z /\ length v = length roots /\ (K' <= K)%nat
    /\ (c = SUCCESS -> all_in (passes o) 0 K' v).
Proof.
  intros HE HD Lq Lr Hh HK. unfold sub_refine.
  assert (HX : forall c0 (v : list C), ok_code c0 -> c0 <> SUCCESS -> length v = length roots -> exists c K' v', (c <- E_SUBROUTINE c0 ;; Ret (c, O, v)) = Ret (c, K', v') /\ ok_code c
      /\ (c <= 0)%Z /\ length v' = length roots /\ (K' <= K)%nat /\ (c = SUCCESS -> all_in (passes o) 0 K' v')).
  { intros c0 v H0 H1 H2. rewrite E_SUB_ok by exact H0. cbn [bind]. unfold SUCCESS in *. eexists _, _, _. split; [reflexivity|]. split; [now apply ok_neg|]. split; [lia|]. split; [exact H2|]. split; [lia|]. lia. }
  destruct (refine_mainspec_safe E s De q r h K 0 roots (p_max_evals o) (- rhs) (refine_tol o) kappa d (p_box o) (p_norm o) HE HD Lq Lr Hh HK) as (c & v & ns & -> & Hc & Hs).
  cbn [bind]. apply seg_length in Hs.
  destruct (Z.eqb_spec c SUCCESS) as [S0|N0]; cbn [negb]; [|apply HX; auto; congruence].
  destruct (pfilter_safe o K v) as (c2 & K2 & v2 & -> & Hc2 & HK2 & Hk2 & H2); [lia|]. cbn [bind]. apply kept_length in Hk2.
  destruct (Z.eqb_spec c2 SUCCESS) as [S2|N2]; cbn [negb]; [|apply HX; auto; congruence]. destruct (H2 S2) as [HP _].
  destruct (pfilter_real_safe skip tol K2 v2) as (c3 & K3 & v3 & -> & Hc3 & HK3 & Hk3 & H3); [lia|]. cbn [bind]. apply kept_length in Hk3.
  destruct (Z.eqb_spec c3 SUCCESS) as [S3|N3]; cbn [negb]; [|apply HX; auto; congruence].
  eexists _, _, _. split; [reflexivity|]. split; [codes|]. split; [unfold SUCCESS; lia|]. split; [congruence|]. split; [lia|]. intros _. exact (H3 S3 _ HP).
Qed.
Lemma spine_loop_safe E De q r h deg center W hs kappa d skip tol o Kmax : penv_ok E -> (2 <= De)%nat -> length q = De -> length r = De -> (0 < h)%R ->
  forall cnt nval p K main roots, length p = (deg + 1)%nat -> (deg <= length roots)%nat -> (K <= Kmax)%nat -> (Kmax <= length main)%nat -> all_in (passes o) 0 K main ->
  exists c K' main' roots', spine_loop E cnt nval De q r h deg p center W hs kappa d skip tol o Kmax K main roots = Ret (c, (K', main', roots')) /\ ok_code c /\ (c <= 0)%Z
    /\ seg 0 Kmax main main' /\ length roots' = length roots /\ (K' <= Kmax)%nat /\ (c = SUCCESS -> all_in (passes o) 0 K' main').
Proof.
  intros HE HD Lq Lr Hh. induction cnt as [|k IH]; intros nval p K main roots Lp Lro HK Lm HP; cbn [spine_loop].
  - eexists _, _, _, _. split; [reflexivity|]. split; [codes|]. split; [unfold SUCCESS; lia|]. split; [apply seg_refl|]. auto.
  - assert (Hhalf : (deg / 2 < deg + 1)%nat) by (pose proof (Nat.div_le_upper_bound deg 2 deg); lia).
    match goal with |- context [aset p (deg / 2) ?x] => destruct (aset_seg p (deg / 2) x) as (p1 & -> & Hp1 & _); [lia|] end. cbn [bind]. apply seg_length in Hp1.
    destruct (sub_roots_safe E deg p1 roots hs skip tol o HE) as (c1 & K1 & v1 & -> & Hc1 & Hz1 & Lv1 & HK1); [lia|lia|]. cbn [bind].
    destruct (Z.eqb_spec c1 SUCCESS) as [S1|N1]; cbn [negb].
    2:{ eexists _, _, _, _. split; [reflexivity|]. split; [exact Hc1|]. split; [exact Hz1|]. split; [apply seg_refl|]. split; [lia|]. split; [lia|congruence]. }
    destruct (sub_refine_safe E 0 De q r h K1 v1 (spine_rhs o nval) kappa d skip tol o HE HD Lq Lr Hh) as (c2 & K2 & v2 & -> & Hc2 & Hz2 & Lv2 & HK2 & HP2); [lia|]. cbn [bind].
    destruct (Z.eqb_spec c2 SUCCESS) as [S2|N2]; cbn [negb].
    2:{ eexists _, _, _, _. split; [reflexivity|]. split; [exact Hc2|]. split; [exact Hz2|]. split; [apply seg_refl|]. split; [lia|]. split; [lia|congruence]. }
    specialize (HP2 S2). destruct (Nat.ltb_spec Kmax (K + K2)) as [Hlt|Hge].
    + destruct (copy_all_in (passes o) (Kmax - K) K v2 main) as (main1 & -> & Hs1 & HA1); [lia|lia|apply (all_in_le _ _ K2); [lia|exact HP2]|]. cbn [bind].
      eexists _, _, _, _. split; [reflexivity|]. split; [codes|]. split; [unfold SUCCESS; lia|]. split; [eapply seg_mono; [| |exact Hs1]; lia|]. split; [lia|]. split; [lia|]. intros _.
      replace Kmax with (K + (Kmax - K))%nat by lia. apply all_in_app; [|exact HA1]. eapply all_in_seg; [exact Hs1|lia|exact HP].
    + destruct (copy_all_in (passes o) K2 K v2 main) as (main1 & -> & Hs1 & HA1); [lia|lia|exact HP2|]. cbn [bind].
      destruct (IH (S nval) p1 (K + K2)%nat main1 v2) as (c & K' & main' & roots' & -> & Hc & Hz & Hs & Lr' & HK' & HPf); [lia|lia|lia|rewrite (seg_length _ _ _ _ Hs1); lia| |].
      { apply all_in_app; [|exact HA1]. eapply all_in_seg; [exact Hs1|lia|exact HP]. }
      eexists _, _, _, _. split; [reflexivity|]. split; [exact Hc|]. split; [exact Hz|]. split; [|split; [lia|split; [exact HK'|exact HPf]]].
      eapply seg_trans; [|exact Hs]. eapply seg_mono; [| |exact Hs1]; lia.
Qed.

Lemma subsample_safe E skip k D q T kappa t : penv_ok E -> (1 <= k)%nat -> D = (2 ^ k)%nat -> length q = D -> (fst T < snd T)%R ->
  (Z.of_nat (D * nse_upsampling_factor (p_disc (t_o t))) <= 2 ^ 63)%Z -> (Z.of_nat (p_Dsub (t_o t)) <= 2 ^ 63)%Z ->
  (forall l, t_main t = Some l -> (t_K t <= length l)%nat) -> (forall l, t_aux t = Some l -> (t_M t <= length l)%nat) ->
  exists c t', nsep_subsample E skip D q T kappa t = Ret (c, t') /\ c <> EC_ASSERTION_FAILED /\
    sub_post true 0 (t_K t) 0 (t_M t) (fine ((snd T - fst T) / INR D) (t_o t)) t c t'.
Proof.
  intros HE Hk HDk Lq HT Hsz Hds Hmain Haux. assert (HD : (2 <= D)%nat) by (rewrite HDk; apply (Nat.pow_le_mono_r 2 1 k); lia).
  unfold nsep_subsample. cbv zeta. set (d := p_disc (t_o t)) in *.
  set (h := ((snd T - fst T) / INR D)%R). assert (Hh : (0 < h)%R) by (apply Rdiv_lt_0_compat; [lra|apply lt_0_INR; lia]).
  assert (HX : forall c0, ok_code c0 -> c0 <> SUCCESS -> c0 <> EC_ASSERTION_FAILED -> exists c t', Ret (c0, t) = Ret (c, t') /\ c <> EC_ASSERTION_FAILED /\ sub_post true 0 (t_K t) 0 (t_M t) (fine h (t_o t)) t c t').
  { intros c0 H0 H1 H2. eexists _, _. split; [reflexivity|]. split; [exact H2|]. apply sub_fail; auto using box_only_refl, seg_opt_refl. }
  assert (HXs : forall c0, ok_code c0 -> c0 <> SUCCESS -> exists c t', (c <- E_SUBROUTINE c0 ;; Ret (c, t)) = Ret (c, t') /\ c <> EC_ASSERTION_FAILED /\ sub_post true 0 (t_K t) 0 (t_M t) (fine h (t_o t)) t c t').
  { intros c0 H0 H1. rewrite E_SUB_ok by exact H0. cbn [bind]. unfold SUCCESS in H1. apply HX; [now apply ok_neg|unfold SUCCESS; lia|unfold EC_ASSERTION_FAILED; lia]. }
  destruct (Nat.eqb_spec (nse_upsampling_factor d) 0) as [_|Hu]; [apply HX; [codes|discriminate|discriminate]|].
  destruct (kp_pre E HE 0 D q h kappa D d HD Lq Hh) as (r & -> & Hr). cbn [bind].
  destruct r as [c|pp]; [destruct Hr; now apply HXs|].
  destruct Hr as (nskip & Es & _ & _ & Lpq & Lpr). rewrite sizes_full in Es by exact HD. injection Es as Es1 Es2. rewrite <- Es2 in Lpq, Lpr.
  set (De := (D * nse_upsampling_factor d)%nat) in *. assert (HDe : (2 <= De)%nat) by (unfold De; nia).
  destruct (choose_Dsub_pow D (p_Dsub (t_o t)) HD) as (j & ->); [nia|exact Hds|]. cbn [bind].
  destruct (kp_pre E HE 1 D q h kappa (2 ^ j)%nat d HD Lq Hh) as (r & -> & Hr). cbn [bind].
  destruct r as [c|ps]; [destruct Hr; now apply HXs|].
  destruct Hr as (ns & Es & Ef & El & Lsq & Lsr). destruct (pow2_sizes k j Hk) as (ns' & m & Es' & Hns & Hm & Hprod). rewrite <- HDk in Es', Hprod.
  rewrite Es in Es'. injection Es' as E1' E2'. rewrite E1' in *. rewrite E2' in *. clear ns E1'.
  destruct (Nat.eqb_spec m 0); [lia|].
  assert (Hdiv : (D / m = ns')%nat) by (rewrite <- Hprod; rewrite Nat.mul_comm; apply Nat.div_mul; lia). rewrite Hdiv, Ef, El.
  assert (Hlast : ((m - 1) * ns' + ns' = D)%nat) by nia. rewrite Hlast, !Nat.eqb_refl. cbn [negb orb].
  set (Dm := (m * nse_upsampling_factor d)%nat) in *. assert (HDm : (2 <= Dm)%nat) by (unfold Dm; nia).
  destruct (numel_ok Dm d) as (n0 & En & Hn0 & Hn1); [lia| |]. { eapply Z.le_trans; [|exact Hsz]. unfold Dm, De. apply Nat2Z.inj_le. apply Nat.mul_le_mono_r. nia. }
  rewrite En. cbn [bind].
  destruct (Nat.eqb_spec n0 0) as [_|Nn]; [apply HX; [codes|discriminate|discriminate]|].
  assert (Hdeg0 : nse_degree d <> O) by (intros H; now apply Nn, Hn0). destruct (Hn1 Hdeg0) as [_ Hn2].
  destruct (negb (pe_alloc E 0 0)); [apply HX; [codes|discriminate|discriminate]|].
  set (hs := (INR ns' * h)%R). assert (Hns1 : (1 <= INR ns')%R) by (apply (le_INR 1); exact Hns). assert (Hhs : (h <= hs)%R) by (unfold hs; nra).
  destruct (kp_fscatter E HE 0 Dm (po_q ps) (po_r ps) hs (pe_junk E 0 n0) (p_norm (t_o t)) d HDm Lsq Lsr) as (c & deg & tm & W & -> & Hc & Lt & Hdeg); [lra|now rewrite (kp_junk E HE)|exact Hdeg0|].
  cbn [bind]. unfold check. destruct (Z.eqb_spec c SUCCESS) as [S0|N0]; [|now apply HXs].
  specialize (Hdeg S0). rewrite (kp_junk E HE) in Lt. clear HX HXs.
  assert (Hd1 : (1 <= deg)%nat) by (rewrite Hdeg; nia). assert (Ltm : (4 * (deg + 1) <= length tm)%nat) by (rewrite Hdeg, Lt; exact Hn2).
  set (o := update_box hs (map_coeff d) (t_o t)). assert (Ho : box_only (t_o t) o) by apply update_box_only.
  assert (HP : forall z, passes o z -> fine h (t_o t) z) by (intros z Hz; apply (coarse_fine h hs); auto).
  set (rd := if Nat.eqb (nse_upsampling_factor d) 2 then _ else _). clearbody rd. set (W' := if p_norm (t_o t) then W else 0%Z). clearbody W'.
  set (tol := xscale _ _). clearbody tol. set (t1 := set_to t o).
  set (roots := skipn (3 * (deg + 1)) tm). assert (Lr : (deg <= length roots)%nat) by (unfold roots; rewrite skipn_length; lia).
  match goal with |- exists c t', bind ?m0 _ = _ /\ _ => assert (HM : exists c K main roots', m0 = Ret (c, (K, main, roots')) /\ ok_code c /\ c <> EC_ASSERTION_FAILED /\
      seg_opt 0 (t_K t) (t_main t) main /\ (deg <= length roots')%nat /\ (K <= t_K t)%nat /\
      (c = SUCCESS -> forall l, main = Some l -> all_in (fine h (t_o t)) 0 K l)) end.
  { unfold t1. cbn [t_main t_K set_to]. destruct (t_main t) as [main|] eqn:Emain.
    2:{ eexists _, _, _, _. split; [reflexivity|]. split; [codes|]. split; [discriminate|]. split; [exact I|]. split; [exact Lr|]. split; [lia|discriminate]. }
    specialize (Hmain main eq_refl).
    destruct (negb _). { eexists _, _, _, _. split; [reflexivity|]. split; [codes|]. split; [discriminate|]. split; [apply seg_refl|]. split; [exact Lr|]. split; [lia|discriminate]. }
    destruct (trace_poly_safe deg tm) as (p & -> & Lp); [lia|]. cbn [bind].
    assert (Hhalf : (deg / 2 < deg + 1)%nat) by (pose proof (Nat.div_le_upper_bound deg 2 deg); lia).
    destruct (aget_ex p (deg / 2)) as (center & Ex); [lia|]. rewrite Ex. cbn [bind].
    destruct (spine_loop_safe E De (po_q pp) (po_r pp) h deg center W' hs kappa rd skip tol o (t_K t) HE HDe Lpq Lpr Hh (p_points o) 0 p 0%nat main roots) as (c1 & K1 & main1 & roots1 & -> & Hc1 & Hz1 & Hs1 & Lr1 & HK1 & HP1);
      [exact Lp|exact Lr|lia|exact Hmain|intros i z Hi; lia|]. cbn [bind].
    eexists _, _, _, _. split; [reflexivity|]. split; [exact Hc1|]. split; [|split; [exact Hs1|split; [lia|split; [exact HK1|]]]].
    - unfold EC_ASSERTION_FAILED. lia.
    - intros H l Hl. injection Hl as <-. eapply all_in_impl; [exact HP|]. now apply HP1. }
  destruct HM as (c1 & K & main & roots' & -> & Hc1 & Hca & Hsm & Lr' & HK & HPm). cbn [bind].
  destruct (Z.eqb_spec c1 SUCCESS) as [S1|N1]; cbn [negb].
  2:{ eexists _, _. split; [reflexivity|]. split; [exact Hca|]. apply sub_fail; auto using seg_opt_refl. }
  specialize (HPm S1). unfold t1. cbn [t_aux set_tmain set_to t_M t_K t_main t_o].
  destruct (t_aux t) as [aux|] eqn:Eaux.
  2:{ cbn [bind]. change (Z.eqb SUCCESS SUCCESS) with true. cbn [negb]. eexists _, _. split; [reflexivity|]. split; [discriminate|].
      constructor; cbn; rewrite ?Eaux; auto; try (intros; lia); try (intros; discriminate).
      - codes.
      - exact I. }
  specialize (Haux aux eq_refl).
  set (t2 := {| t_o := o; t_K := t_K t; t_main := main; t_M := t_M t; t_aux := Some aux |}).
  match goal with |- exists c t', bind ?m0 _ = _ /\ _ => assert (HM : exists c M aux', m0 = Ret (c, (M, Some aux')) /\ ok_code c /\ c <> EC_ASSERTION_FAILED /\
      seg 0 (t_M t) aux aux' /\ (M <= t_M t)%nat /\ (c = SUCCESS -> all_in (fine h (t_o t)) 0 M aux')) end.
  { assert (HX : forall c0, ok_code c0 -> c0 <> SUCCESS -> exists c M aux', (c <- E_SUBROUTINE c0 ;; Ret (c, (O, Some aux))) = Ret (c, (M, Some aux')) /\ ok_code c /\ c <> EC_ASSERTION_FAILED /\
      seg 0 (t_M t) aux aux' /\ (M <= t_M t)%nat /\ (c = SUCCESS -> all_in (fine h (t_o t)) 0 M aux')).
    { intros c0 H0 H1. rewrite E_SUB_ok by exact H0. cbn [bind]. unfold SUCCESS in H1. eexists _, _, _. split; [reflexivity|]. split; [now apply ok_neg|]. split; [unfold EC_ASSERTION_FAILED; lia|]. split; [apply seg_refl|]. split; [lia|]. unfold SUCCESS. lia. }
    destruct (kp_roots E HE 1 deg (firstn (deg + 1) (skipn (deg + 1) tm)) roots') as (c2 & v2 & -> & _ & Hk2); [rewrite firstn_length, skipn_length; lia|exact Lr'|]. cbn [bind]. apply kept_length in Hk2.
    destruct (z2l_safe deg hs v2 d) as (c3 & v3 & -> & Hc3 & Hk3); [lia|]. cbn [bind]. apply kept_length in Hk3.
    destruct (Z.eqb_spec c3 SUCCESS) as [S3|N3]; cbn [negb]; [|now apply HX].
    destruct (pfilter_safe o deg v3) as (c4 & M4 & v4 & -> & Hc4 & HM4 & Hk4 & _); [lia|]. cbn [bind]. apply kept_length in Hk4.
    destruct (Z.eqb_spec c4 SUCCESS) as [S4|N4]; cbn [negb]; [|now apply HX].
    match goal with |- context [refine_auxspec E 1 ?a ?b ?cc ?dd ?ee ?ff ?gg ?hh ?ii ?jj ?kk ?ll] =>
      destruct (refine_auxspec_safe E 1 a b cc dd ee ff gg hh ii jj kk ll HE HDe Lpq Lpr Hh) as (c5 & v5 & ns5 & -> & Hc5 & Hs5); [lia|] end. cbn [bind]. apply seg_length in Hs5.
    destruct (Z.eqb_spec c5 SUCCESS) as [S5|N5]; cbn [negb]; [|now apply HX].
    destruct (pfilter_safe o M4 v5) as (c6 & M6 & v6 & -> & Hc6 & HM6 & Hk6 & H6); [lia|]. cbn [bind]. apply kept_length in Hk6.
    destruct (Z.eqb_spec c6 SUCCESS) as [S6|N6]; cbn [negb]; [|now apply HX]. destruct (H6 S6) as [HP6 _].
    destruct (pfilter_real_safe skip tol M6 v6) as (c7 & M7 & v7 & -> & Hc7 & HM7 & Hk7 & H7); [lia|]. cbn [bind]. apply kept_length in Hk7.
    destruct (Z.eqb_spec c7 SUCCESS) as [S7|N7]; cbn [negb]; [|now apply HX].
    set (M := if (t_M t <? M7)%nat then t_M t else M7).
    assert (HM : (M <= t_M t)%nat /\ (M <= M7)%nat) by (unfold M; destruct (Nat.ltb_spec (t_M t) M7); lia).
    destruct (copy_all_in (fine h (t_o t)) M 0 v7 aux) as (aux1 & -> & Hs1 & HA1); [lia|lia| |].
    { apply (all_in_le _ _ M7); [lia|]. eapply all_in_impl; [exact HP|]. apply (H7 S7), HP6. }
    cbn [bind]. eexists _, _, _. split; [reflexivity|]. split; [codes|]. split; [discriminate|]. split; [eapply seg_mono; [| |exact Hs1]; lia|]. split; [lia|auto]. }
  destruct HM as (c2 & M & aux' & -> & Hc2 & Hca2 & Hsa & HM & HPa). cbn [bind].
  destruct (Z.eqb_spec c2 SUCCESS) as [S2|N2]; cbn [negb]; (eexists _, _; split; [reflexivity|]; split; [try discriminate; exact Hca2|]).
  - constructor; cbn; rewrite ?Eaux; auto; try lia.
    + codes.
    + intros _ l El'. injection El' as <-. auto.
  - apply sub_fail; auto. cbn. rewrite Eaux. exact Hsa.
Qed.
