(** * fnft_nsep stays inside the arrays of the caller and filters (C67-C70): proofs, part 2 *)
From Coq Require Import Reals Lra.
From Coquelicot Require Import Coquelicot.
From Verif Require Import Loop MiscSpec MiscProof MiscProps PolyFmultProof DiscProps DiscPreProps NsevSpec NsevProps NsevSafe NsevSafe2 NsevSafe3 NsevSafe5 NsevEnv NsepSpec NsepNewton NsepSafe.
Local Open Scope C_scope.

(** ** Options: only the box changes, and only if it is chosen automatically *)
Definition box_only (o o' : popts) : Prop := o' = o \/ (p_filt o = PF_AUTO /\ exists b, o' = set_pbox o b).
Lemma box_only_refl o : box_only o o. Proof. now left. Qed.
Lemma box_only_trans o o' o'' : box_only o o' -> box_only o' o'' -> box_only o o''.
Proof.
  intros [->|[Hf (b & ->)]] [->|[Hf' (b' & ->)]].
  - now left.
  - right. split; [exact Hf'|eauto].
  - right. split; [exact Hf|eauto].
  - right. split; [exact Hf|]. exists b'. reflexivity.
Qed.
Lemma update_box_only h mc o : box_only o (update_box h mc o).
Proof. unfold update_box. destruct (p_filt o) eqn:Ef; try (now left). right. split; [exact Ef|]. eexists. reflexivity. Qed.
Lemma box_only_fields o o' : box_only o o' -> p_filt o' = p_filt o /\ p_disc o' = p_disc o /\ p_loc o' = p_loc o /\ p_points o' = p_points o /\ p_Dsub o' = p_Dsub o.
Proof. intros [->|[_ (b & ->)]]; cbn; auto. Qed.
(** the points that pass the filter for the step size h *)
Definition fine (h : R) (o : popts) : C -> Prop := passes (update_box h (map_coeff (p_disc o)) o).
Lemma fine_box_only h o o' z : box_only o o' -> fine h o' z <-> fine h o z.
Proof.
  intros [->|[Hf (b & ->)]]; [tauto|]. unfold fine, passes, update_box. cbn [p_filt set_pbox p_disc]. rewrite Hf. cbn [p_filt set_pbox p_box].
  rewrite Hf. tauto.
Qed.
Lemma coarse_fine h h' o z : (0 < h)%R -> (h <= h')%R -> fine h' o z -> fine h o z.
Proof.
  intros H0 Hh. unfold fine, passes, update_box. destruct (p_filt o) eqn:Ef; cbn [p_filt set_pbox p_box]; rewrite ?Ef; auto.
  set (mc := match map_coeff (p_disc o) with None => 1%R | Some m => if Req_EM_T m 0 then 1%R else m end).
  assert (Hm : (0 < Rabs mc)%R). { apply Rabs_pos_lt. unfold mc. destruct (map_coeff (p_disc o)) as [m|]; [destruct (Req_EM_T m 0); lra|lra]. }
  assert (HI : forall x, (0 <= x)%R -> (x / (Rabs mc * h') <= x / (Rabs mc * h))%R).
  { intros x Hx. apply Rmult_le_compat_l; [exact Hx|]. apply Rinv_le_contravar; [now apply Rmult_lt_0_compat|]. apply Rmult_le_compat_l; lra. }
  pose proof PI_RGT_0. assert (Hl : (0 <= - ln (1 / 10))%R).
  { assert (ln (1 / 10) < ln 1)%R by (apply ln_increasing; lra). rewrite ln_1 in *. lra. }
  pose proof (HI (9 / 10 * PI)%R ltac:(lra)) as H1. pose proof (HI (- ln (1 / 10))%R Hl) as H2.
  unfold within. cbn [x0 x1 x2 x3 xle].
  generalize dependent (9 / 10 * PI / (Rabs mc * h'))%R. generalize dependent (9 / 10 * PI / (Rabs mc * h))%R.
  generalize dependent (- ln (1 / 10) / (Rabs mc * h'))%R. generalize dependent (- ln (1 / 10) / (Rabs mc * h))%R.
  clear. intros a b Hab c d Hcd. intros (X1 & X2 & X3 & X4).
  repeat match goal with H : (if Rle_dec ?x ?y then true else false) = true |- _ => destruct (Rle_dec x y); [clear H|discriminate] end.
  repeat split; match goal with |- (if Rle_dec ?x ?y then true else false) = true => destruct (Rle_dec x y); [reflexivity|lra] end.
Qed.
Lemma passes_fine h o : passes (update_box h (map_coeff (p_disc o)) o) = fine h o.
Proof. reflexivity. Qed.

Record sub_post (any : bool) (offK nK offM nM : nat) (P : C -> Prop) (t : pst) (c : Z) (t' : pst) : Prop := {
  sb_code : ok_code c;
  sb_o : box_only (t_o t) (t_o t');
  sb_main : seg_opt offK nK (t_main t) (t_main t');
  sb_aux : seg_opt offM nM (t_aux t) (t_aux t');
  sb_K : c = SUCCESS -> any = true \/ t_main t <> None -> (t_K t' <= nK)%nat;
  sb_M : c = SUCCESS -> (t_M t' <= nM)%nat;
  sb_Pm : c = SUCCESS -> forall l, t_main t' = Some l -> all_in P offK (t_K t') l;
  sb_Pa : c = SUCCESS -> forall l, t_aux t' = Some l -> all_in P offM (t_M t') l }.
Lemma sub_fail any offK nK offM nM P t c t' : ok_code c -> c <> SUCCESS -> box_only (t_o t) (t_o t') ->
  seg_opt offK nK (t_main t) (t_main t') -> seg_opt offM nM (t_aux t) (t_aux t') -> sub_post any offK nK offM nM P t c t'.
Proof. intros. constructor; auto; congruence. Qed.
Lemma E_SUB_nz c : ok_code c -> c <> SUCCESS -> exists c', E_SUBROUTINE c = Ret c' /\ ok_code c' /\ c' <> SUCCESS.
Proof. intros H H1. rewrite E_SUB_ok by exact H. eexists. split; [reflexivity|]. split; [now apply ok_neg|]. unfold SUCCESS in *. lia. Qed.

(** ** Grid search *)
Lemma grid_roots_safe E s deg p PHI h roots most o : penv_ok E -> (1 <= deg)%nat -> length p = (deg + 1)%nat -> length roots = (oversampling * deg)%nat ->
  exists c K v, grid_roots E s deg p PHI h roots most o = Ret (c, K, v) /\ ok_code c /\ length v = length roots
    /\ (c = SUCCESS -> (K <= length roots)%nat /\ all_in (passes o) 0 K v).
Proof.
  intros HE Hd Lp Lr. unfold grid_roots.
  assert (HX : forall c0 K v, ok_code c0 -> c0 <> SUCCESS -> length v = length roots -> exists c K' v', (c <- E_SUBROUTINE c0 ;; Ret (c, K, v)) = Ret (c, K', v') /\ ok_code c
      /\ length v' = length roots /\ (c = SUCCESS -> (K' <= length roots)%nat /\ all_in (passes o) 0 K' v')).
  { intros c0 K v H0 H1 H2. destruct (E_SUB_nz c0 H0 H1) as (c & -> & Hc & Hn). cbn [bind]. eexists _, _, _. split; [reflexivity|]. split; [exact Hc|]. split; [exact H2|congruence]. }
  destruct (kp_grid E HE s deg p (oversampling * deg) PHI roots Hd Lp Lr) as (c & K & v & -> & Hc & Lv & HK). cbn [bind].
  destruct (Z.eqb_spec c SUCCESS) as [S0|N0]; cbn [negb]; [|apply HX; auto; congruence]. specialize (HK S0).
  destruct (most && _). { eexists _, _, _. split; [reflexivity|]. split; [codes|]. split; [congruence|]. discriminate. }
  destruct (z2l_safe K h v (p_disc o)) as (c1 & v1 & -> & Hc1 & Hk1); [lia|]. cbn [bind]. pose proof (kept_length _ _ _ Hk1).
  destruct (Z.eqb_spec c1 SUCCESS) as [S1|N1]; cbn [negb]; [|apply HX; auto; congruence].
  destruct (pfilter_safe o K v1) as (c2 & K2 & v2 & -> & Hc2 & HK2 & Hk2 & HP); [lia|]. cbn [bind]. pose proof (kept_length _ _ _ Hk2).
  destruct (Z.eqb_spec c2 SUCCESS) as [S2|N2]; cbn [negb]; [|apply HX; auto; congruence].
  eexists _, _, _. split; [reflexivity|]. split; [codes|]. split; [congruence|]. intros _. split; [lia|]. exact (proj1 (HP S2)).
Qed.

Lemma pre_inr E s D q h kappa Dsub d p : penv_ok E -> (2 <= D)%nat -> length q = D -> (0 < h)%R -> pe_pre E s D q h kappa Dsub d = Ret (inr p) ->
  exists nskip, downsample_sizes D Dsub = Ret (nskip, po_Dsub p) /\ po_first p = O /\ po_last p = ((po_Dsub p - 1) * nskip)%nat
     /\ length (po_q p) = (po_Dsub p * nse_upsampling_factor d)%nat /\ length (po_r p) = (po_Dsub p * nse_upsampling_factor d)%nat.
Proof.
  intros HE HD Lq Hh H. destruct (kp_pre E HE s D q h kappa Dsub d HD Lq Hh) as (r & Er & Hr). rewrite H in Er. injection Er as <-. exact Hr.
Qed.
Lemma map_coeff_some d : nse_degree d <> O -> exists m, map_coeff d = Some m.
Proof. intros H. unfold map_coeff. destruct (Nat.eqb_spec (nse_degree d) 0); [congruence|eauto]. Qed.

Lemma gridsearch_safe E offK offM D q T kappa t : penv_ok E -> (2 <= D)%nat -> length q = D -> (fst T < snd T)%R ->
  (Z.of_nat (D * nse_upsampling_factor (p_disc (t_o t))) <= 2 ^ 63)%Z ->
  (forall l, t_main t = Some l -> (offK + t_K t <= length l)%nat) -> (forall l, t_aux t = Some l -> (offM + t_M t <= length l)%nat) ->
  exists c t', nsep_gridsearch E offK offM D q T kappa t = Ret (c, t') /\
    sub_post false offK (t_K t) offM (t_M t) (fine ((snd T - fst T) / INR D) (t_o t)) t c t'.
Proof.
  intros HE HD Lq HT Hsz Hmain Haux. unfold nsep_gridsearch. cbv zeta. set (d := p_disc (t_o t)) in *.
  set (h := ((snd T - fst T) / INR D)%R). assert (Hh : (0 < h)%R) by (apply Rdiv_lt_0_compat; [lra|apply lt_0_INR; lia]).
  assert (HX : forall c0, ok_code c0 -> c0 <> SUCCESS -> exists c t', Ret (c0, t) = Ret (c, t') /\ sub_post false offK (t_K t) offM (t_M t) (fine h (t_o t)) t c t').
  { intros c0 H0 H1. eexists _, _. split; [reflexivity|]. apply sub_fail; auto using box_only_refl, seg_opt_refl. }
  destruct (Nat.eqb_spec (nse_upsampling_factor d) 0) as [_|Hu]; [apply HX; [codes|discriminate]|].
  destruct (kp_pre E HE 10 D q h kappa D d HD Lq Hh) as (r & -> & Hr). cbn [bind].
  destruct r as [c|pp]. { destruct Hr as [Hc Hn]. destruct (E_SUB_nz c Hc Hn) as (c' & -> & ? & ?). cbn [bind]. now apply HX. }
  destruct Hr as (nskip & Es & _ & _ & Lpq & Lpr). rewrite sizes_full in Es by exact HD. injection Es as Es1 Es2. rewrite <- Es2 in Lpq, Lpr.
  set (De := (D * nse_upsampling_factor d)%nat) in *. assert (HDe : (2 <= De)%nat) by (unfold De; nia).
  destruct (numel_ok De d) as (n & En & Hn0 & Hn1); [lia|exact Hsz|]. rewrite En. cbn [bind].
  destruct (Nat.eqb_spec n 0) as [_|Nn]; [apply HX; [codes|discriminate]|].
  assert (Hdeg0 : nse_degree d <> O) by (intros H; now apply Nn, Hn0). destruct (Hn1 Hdeg0) as [_ Hn2].
  destruct (negb _); [apply HX; [codes|discriminate]|].
  destruct (kp_fscatter E HE 10 De (po_q pp) (po_r pp) h (pe_junk E 10 n) (p_norm (t_o t)) d HDe Lpq Lpr Hh) as (c & deg & tm & W & -> & Hc & Lt & Hdeg); [now rewrite (kp_junk E HE)|exact Hdeg0|].
  cbn [bind]. unfold check. destruct (Z.eqb_spec c SUCCESS) as [S0|N0].
  2:{ destruct (E_SUB_nz c Hc N0) as (c' & -> & ? & ?). cbn [bind]. now apply HX. }
  specialize (Hdeg S0). rewrite (kp_junk E HE) in Lt. clear HX.
  assert (Hd1 : (1 <= deg)%nat) by (rewrite Hdeg; nia). assert (Ltm : (4 * (deg + 1) <= length tm)%nat) by (rewrite Hdeg, Lt; exact Hn2).
  destruct (map_coeff_some d Hdeg0) as (m & Em). rewrite Em. cbn [deref bind]. rewrite <- Em.
  set (o := update_box h (map_coeff d) (t_o t)). assert (Ho : box_only (t_o t) o) by apply update_box_only.
  assert (HP : passes o = fine h (t_o t)) by reflexivity.
  set (PHI := if xlt _ _ then _ else _). clearbody PHI. set (W' := if p_norm (t_o t) then W else 0%Z). clearbody W'.
  set (t1 := set_to t o).
  assert (HX : forall c0 main aux, ok_code c0 -> c0 <> SUCCESS -> seg_opt offK (t_K t) (t_main t) main -> seg_opt offM (t_M t) (t_aux t) aux ->
     sub_post false offK (t_K t) offM (t_M t) (fine h (t_o t)) t c0 (set_taux (set_tmain t1 main) aux)).
  { intros c0 main aux H0 H1 H2 H3. apply sub_fail; auto. }
  destruct (negb _). { eexists _, _. split; [reflexivity|]. apply sub_fail; auto using seg_opt_refl; [codes|discriminate]. }
  set (roots := pe_junk E 11 (oversampling * deg)). assert (Lr : length roots = (oversampling * deg)%nat) by apply (kp_junk E HE).
  (* main spectrum *)
  match goal with |- exists c t', bind ?m _ = _ /\ _ => assert (HM : exists c K roots' main, m = Ret (c, (K, roots', main)) /\ ok_code c /\ seg_opt offK (t_K t) (t_main t) main /\ length roots' = (oversampling * deg)%nat /\
       (c = SUCCESS -> (t_main t <> None -> (K <= t_K t)%nat) /\ forall l, main = Some l -> all_in (fine h (t_o t)) offK K l)) end.
  { unfold t1. cbn [t_main t_K set_to]. destruct (t_main t) as [main|] eqn:Emain.
    2:{ eexists _, _, _, _. split; [reflexivity|]. split; [codes|]. split; [exact I|]. split; [exact Lr|]. intros _. split; [congruence|discriminate]. }
    specialize (Hmain main eq_refl).
    destruct (negb _). { eexists _, _, _, _. split; [reflexivity|]. split; [codes|]. split; [apply seg_refl|]. split; [exact Lr|discriminate]. }
    destruct (trace_poly_safe deg tm) as (p & -> & Lp); [lia|]. cbn [bind].
    assert (Hhalf : (deg / 2 < deg + 1)%nat) by (pose proof (Nat.div_le_upper_bound deg 2 deg); lia).
    destruct (aget_ex p (deg / 2)) as (x & Ex); [lia|]. rewrite Ex. cbn [bind].
    destruct (aset_seg p (deg / 2) (x + RtoC (2 * powerRZ 2 (- W')))) as (p1 & -> & Hp1 & _); [lia|]. cbn [bind]. apply seg_length in Hp1.
    destruct (grid_roots_safe E 10 deg p1 PHI h roots true o HE Hd1) as (c1 & K1 & v1 & -> & Hc1 & Lv1 & H1); [lia|exact Lr|]. cbn [bind].
    destruct (Z.eqb_spec c1 SUCCESS) as [S1|N1]; cbn [negb].
    2:{ eexists _, _, _, _. split; [reflexivity|]. split; [exact Hc1|]. split; [apply seg_refl|]. split; [lia|congruence]. }
    destruct (H1 S1) as [HK1 HP1]. clear H1. cbv zeta. set (K := if (t_K t <? K1)%nat then t_K t else K1).
    assert (HK : (K <= t_K t)%nat /\ (K <= K1)%nat) by (unfold K; destruct (Nat.ltb_spec (t_K t) K1); lia).
    destruct (copy_all_in (fine h (t_o t)) K offK v1 main) as (main1 & -> & Hs1 & HA1); [lia|lia|rewrite <- HP; apply (all_in_le _ _ K1); [lia|exact HP1]|]. cbn [bind].
    destruct (aget_ex p1 (deg / 2)) as (y & Ey); [lia|]. rewrite Ey. cbn [bind].
    destruct (aset_seg p1 (deg / 2) (y - RtoC (4 * powerRZ 2 (- W')))) as (p2 & -> & Hp2 & _); [lia|]. cbn [bind]. apply seg_length in Hp2.
    destruct (grid_roots_safe E 11 deg p2 PHI h v1 true o HE Hd1) as (c2 & K2' & v2 & -> & Hc2 & Lv2 & H2); [lia|lia|]. cbn [bind].
    assert (Hs1' : seg offK (t_K t) main main1) by (eapply seg_mono; [| |exact Hs1]; lia).
    destruct (Z.eqb_spec c2 SUCCESS) as [S2|N2]; cbn [negb].
    2:{ eexists _, _, _, _. split; [reflexivity|]. split; [exact Hc2|]. split; [exact Hs1'|]. split; [lia|congruence]. }
    destruct (H2 S2) as [HK2' HP2]. clear H2. set (K2 := if (t_K t <? K + K2')%nat then (if (K <? t_K t)%nat then t_K t - K else 0)%nat else K2').
    assert (HK2 : (K + K2 <= t_K t)%nat /\ (K2 <= K2')%nat).
    { unfold K2. destruct (Nat.ltb_spec (t_K t) (K + K2')); [|lia]. destruct (Nat.ltb_spec K (t_K t)); lia. }
    destruct (copy_all_in (fine h (t_o t)) K2 (offK + K) v2 main1) as (main2 & -> & Hs2 & HA2); [lia|rewrite (seg_length _ _ _ _ Hs1); lia|rewrite <- HP; apply (all_in_le _ _ K2'); [lia|exact HP2]|]. cbn [bind].
    eexists _, _, _, _. split; [reflexivity|]. split; [codes|]. split; [|split; [lia|]].
    - eapply seg_trans; [exact Hs1'|]. eapply seg_mono; [| |exact Hs2]; lia.
    - intros _. split; [lia|]. intros l El. injection El as <-. apply all_in_app; [|exact HA2]. eapply all_in_seg; [exact Hs2|lia|exact HA1]. }
  destruct HM as (c1 & K & roots' & main & -> & Hc1 & Hsm & Lr' & H1). cbn [bind].
  destruct (Z.eqb_spec c1 SUCCESS) as [S1|N1]; cbn [negb].
  2:{ eexists _, _. split; [reflexivity|]. apply sub_fail; auto using seg_opt_refl. }
  destruct (H1 S1) as [HK HPm]. clear H1. unfold t1. cbn [t_aux set_tmain set_to t_M t_K t_main t_o].
  destruct (t_aux t) as [aux|] eqn:Eaux.
  2:{ cbn [bind negb Z.eqb]. change (Z.eqb SUCCESS SUCCESS) with true. cbn [negb]. eexists _, _. split; [reflexivity|]. constructor; cbn; rewrite ?Eaux; auto; try (intros; lia); try (intros; discriminate).
    - codes.
    - exact I.
    - intros _ [|]; [discriminate|auto]. }
  specialize (Haux aux eq_refl).
  destruct (grid_roots_safe E 12 deg (firstn (deg + 1) (skipn (deg + 1) tm)) PHI h roots' false o HE Hd1) as (c2 & M1 & v2 & -> & Hc2 & Lv2 & H2); [rewrite firstn_length, skipn_length; lia|exact Lr'|]. cbn [bind].
  destruct (Z.eqb_spec c2 SUCCESS) as [S2|N2]; cbn [negb bind].
  2:{ destruct (Z.eqb_spec c2 SUCCESS); [congruence|]. cbn [negb]. eexists _, _. split; [reflexivity|]. apply sub_fail; auto. cbn. rewrite Eaux. apply seg_refl. }
  destruct (H2 S2) as [HM1 HPa]. clear H2. set (M := if (t_M t <? M1)%nat then t_M t else M1).
  assert (HM : (M <= t_M t)%nat /\ (M <= M1)%nat) by (unfold M; destruct (Nat.ltb_spec (t_M t) M1); lia).
  destruct (copy_all_in (fine h (t_o t)) M offM v2 aux) as (aux1 & -> & Hs1 & HA1); [lia|lia|rewrite <- HP; apply (all_in_le _ _ M1); [lia|exact HPa]|]. cbn [bind].
  change (Z.eqb SUCCESS SUCCESS) with true. cbn [negb].
  eexists _, _. split; [reflexivity|]. constructor; cbn; rewrite ?Eaux; auto; try lia.
  - codes.
  - cbn. eapply seg_mono; [| |exact Hs1]; lia.
  - intros _ [|]; [discriminate|auto].
  - intros _ l El. injection El as <-. exact HA1.
Qed.
