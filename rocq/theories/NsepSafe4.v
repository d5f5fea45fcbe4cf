(** * fnft_nsep stays inside the arrays of the caller and filters (C67-C70): proofs, part 4 *)
From Coq Require Import Reals Lra.
From Coquelicot Require Import Coquelicot.
From Verif Require Import Loop MiscSpec MiscProof MiscProps PolyFmultProof DiscProps DiscPreProps NsevSpec NsevProps NsevSafe NsevSafe2 NsevSafe3 NsevSafe5 NsevEnv NsepSpec NsepNewton NsepSafe NsepSafe2 NsepSafe3.
Local Open Scope C_scope.

Lemma newton_blocks_safe E De q r h K kappa o : penv_ok E -> (2 <= De)%nat -> length q = De -> length r = De -> (0 < h)%R ->
  forall cnt nval main, ((nval + cnt) * K <= length main)%nat ->
  exists c main', newton_blocks E cnt nval De q r h K kappa o main = Ret (c, main') /\ ok_code c /\ seg 0 ((nval + cnt) * K) main main'.
Proof.
  intros HE HD Lq Lr Hh. induction cnt as [|k IH]; intros nval main Lm; cbn [newton_blocks].
  - eexists _, _. split; [reflexivity|]. split; [codes|apply seg_refl].
  - match goal with |- context [refine_mainspec E 20 ?a ?b ?cc ?dd ?ee ?ff ?gg ?hh ?ii ?jj ?kk ?ll ?mm ?nn] =>
      destruct (refine_mainspec_safe E 20 a b cc dd ee ff gg hh ii jj kk ll mm nn HE HD Lq Lr Hh) as (c & main1 & ns & -> & Hc & Hs); [nia|] end. cbn [bind].
    assert (Hs' : seg 0 ((nval + S k) * K) main main1) by (eapply seg_mono; [| |exact Hs]; nia).
    destruct (Z.eqb_spec c SUCCESS) as [_|N]; cbn [negb].
    + destruct (IH (S nval) main1) as (c2 & main2 & -> & Hc2 & Hs2); [rewrite (seg_length _ _ _ _ Hs); lia|]. eexists _, _. split; [reflexivity|]. split; [exact Hc2|].
      eapply seg_trans; [exact Hs'|]. replace (nval + S k)%nat with (S nval + k)%nat by lia. exact Hs2.
    + rewrite E_SUB_ok by exact Hc. cbn [bind]. eexists _, _. split; [reflexivity|]. split; [now apply ok_neg|exact Hs'].
Qed.
(** as newton_blocks_safe; the negated codes are nonzero *)
Lemma newton_safe E D q T kappa t : penv_ok E -> (2 <= D)%nat -> length q = D -> (fst T < snd T)%R ->
  (forall l, t_main t = Some l -> (t_K t * p_points (t_o t) <= length l)%nat) -> (forall l, t_aux t = Some l -> (t_M t <= length l)%nat) ->
  exists c t', nsep_newton E D q T kappa t = Ret (c, t') /\
    sub_post false 0 (t_K t * p_points (t_o t)) 0 (t_M t) (fine ((snd T - fst T) / INR D) (t_o t)) t c t'.
Proof.
  intros HE HD Lq HT Hmain Haux. unfold nsep_newton. cbv zeta. set (d := p_disc (t_o t)) in *.
  set (h := ((snd T - fst T) / INR D)%R). assert (Hh : (0 < h)%R) by (apply Rdiv_lt_0_compat; [lra|apply lt_0_INR; lia]).
  set (NK := (t_K t * p_points (t_o t))%nat) in *.
  assert (HX : forall c0, ok_code c0 -> c0 <> SUCCESS -> exists c t', Ret (c0, t) = Ret (c, t') /\ sub_post false 0 NK 0 (t_M t) (fine h (t_o t)) t c t').
  { intros c0 H0 H1. eexists _, _. split; [reflexivity|]. apply sub_fail; auto using box_only_refl, seg_opt_refl. }
  destruct (Nat.eqb_spec (nse_upsampling_factor d) 0) as [_|Hu]; [apply HX; [codes|discriminate]|].
  destruct (kp_pre E HE 20 D q h kappa D d HD Lq Hh) as (r & -> & Hr). cbn [bind].
  destruct r as [c|pp]. { destruct Hr as [Hc Hn]. destruct (E_SUB_nz c Hc Hn) as (c' & -> & ? & ?). cbn [bind]. now apply HX. }
  destruct Hr as (nskip & Es & _ & _ & Lpq & Lpr). rewrite sizes_full in Es by exact HD. injection Es as Es1 Es2. rewrite <- Es2 in *. rewrite Nat.eqb_refl. cbn [negb].
  set (De := (D * nse_upsampling_factor d)%nat) in *. assert (HDe : (2 <= De)%nat) by (unfold De; nia).
  set (o := update_box h (map_coeff d) (t_o t)). assert (Ho : box_only (t_o t) o) by apply update_box_only. clear HX.
  assert (HP : passes o = fine h (t_o t)) by reflexivity. destruct (box_only_fields _ _ Ho) as (_ & _ & _ & Hpts & _).
  match goal with |- exists c t', bind ?m0 _ = _ /\ _ => assert (HM : exists c t', m0 = Ret (c, t') /\ ok_code c /\ t_o t' = o /\ t_aux t' = t_aux t /\ t_M t' = t_M t /\
      seg_opt 0 NK (t_main t) (t_main t') /\
      (c = SUCCESS -> (t_main t <> None -> (t_K t' <= NK)%nat) /\ forall l, t_main t' = Some l -> all_in (fine h (t_o t)) 0 (t_K t') l)) end.
  { cbn [t_main set_to t_K]. destruct (t_main t) as [main|] eqn:Emain.
    2:{ eexists _, _. split; [reflexivity|]. split; [codes|]. cbn. rewrite Emain. repeat split; auto; try congruence; try discriminate. }
    specialize (Hmain main eq_refl). rewrite Hpts.
    destruct (newton_blocks_safe E De (po_q pp) (po_r pp) h (t_K t) kappa o HE HDe Lpq Lpr Hh (p_points (t_o t)) 0 main) as (c & main1 & -> & Hc & Hs); [unfold NK in *; lia|]. cbn [bind].
    replace ((0 + p_points (t_o t)) * t_K t)%nat with NK in Hs by (unfold NK; lia). pose proof (seg_length _ _ _ _ Hs) as L1.
    destruct (Z.eqb_spec c SUCCESS) as [S0|N0]; cbn [negb].
    2:{ eexists _, _. split; [reflexivity|]. split; [exact Hc|]. cbn. repeat split; auto; try (apply Hs); congruence. }
    cbn [t_K set_tmain set_to]. rewrite ?Hpts. fold NK. destruct (pfilter_safe o NK main1) as (c2 & K2 & main2 & -> & Hc2 & HK2 & Hk2 & H2); [lia|]. cbn [bind]. pose proof (kept_length _ _ _ Hk2).
    assert (Hs2 : seg 0 NK main main2) by (eapply seg_trans; [exact Hs|]; now apply seg_kept).
    unfold check. destruct (Z.eqb_spec c2 SUCCESS) as [S2|N2].
    - destruct (H2 S2) as [HP2 _]. eexists _, _. split; [reflexivity|]. split; [codes|]. cbn. split; [reflexivity|]. split; [reflexivity|]. split; [reflexivity|]. split; [exact Hs2|].
      intros _. split; [auto|]. intros l El. injection El as <-. exact HP2.
    - destruct (E_SUB_nz c2 Hc2 N2) as (c' & -> & ? & ?). cbn [bind]. eexists _, _. split; [reflexivity|]. split; [auto|]. cbn. split; [reflexivity|]. split; [reflexivity|]. split; [reflexivity|].
      split; [exact Hs2|]. congruence. }
  destruct HM as (c & t1 & -> & Hc & Eo & Ea & EM & Hsm & H1). cbn [bind].
  destruct (Z.eqb_spec c SUCCESS) as [S0|N0]; cbn [negb].
  2:{ eexists _, _. split; [reflexivity|]. apply sub_fail; rewrite ?Eo, ?Ea; auto using seg_opt_refl. }
  destruct (H1 S0) as [HK HPm]. clear H1. rewrite Ea, EM. destruct (t_aux t) as [aux|] eqn:Eaux.
  2:{ eexists _, _. split; [reflexivity|]. constructor; rewrite ?Eo, ?Ea, ?Eaux; auto; try (intros; discriminate); try lia; try exact I.
    - codes.
    - intros _ [|]; [discriminate|auto]. }
  specialize (Haux aux eq_refl).
  match goal with |- context [refine_auxspec E 21 ?a ?b ?cc ?dd ?ee ?ff ?gg ?hh ?ii ?jj ?kk ?ll] =>
      destruct (refine_auxspec_safe E 21 a b cc dd ee ff gg hh ii jj kk ll HE HDe Lpq Lpr Hh) as (c5 & v5 & ns5 & -> & Hc5 & Hs5); [lia|] end. cbn [bind]. pose proof (seg_length _ _ _ _ Hs5).
  unfold check. destruct (Z.eqb_spec c5 SUCCESS) as [S5|N5].
  2:{ destruct (E_SUB_nz c5 Hc5 N5) as (c' & -> & ? & ?). cbn [bind]. eexists _, _. split; [reflexivity|]. apply sub_fail; cbn; rewrite ?Eo, ?Ea, ?Eaux; auto. }
  rewrite ?Eo; cbn [t_M set_taux]; rewrite ?EM. destruct (pfilter_safe o (t_M t) v5) as (c6 & M6 & v6 & -> & Hc6 & HM6 & Hk6 & H6); [lia|]. cbn [bind].
  assert (Hs6 : seg 0 (t_M t) aux v6) by (eapply seg_trans; [exact Hs5|]; now apply seg_kept).
  destruct (Z.eqb_spec c6 SUCCESS) as [S6|N6].
  2:{ destruct (E_SUB_nz c6 Hc6 N6) as (c' & -> & ? & ?). cbn [bind]. eexists _, _. split; [reflexivity|]. apply sub_fail; cbn; rewrite ?Eo, ?Ea, ?Eaux; auto. }
  destruct (H6 S6) as [HP6 _]. eexists _, _. split; [reflexivity|]. constructor; cbn; rewrite ?Eo, ?Ea, ?Eaux; auto.
  - codes.
  - intros _ [|]; [discriminate|auto].
  - intros _ l El. injection El as <-. exact HP6.
Qed.

(** ** The four localization methods *)
Definition room_of (o : popts) (K : nat) : nat := match p_loc o with PL_NEWTON => K * p_points o | _ => K end.
Lemma check_post {S} code (st : S) k (P : Z -> S -> Prop) : ok_code code -> (forall c, ok_code c -> c <> SUCCESS -> P c st) ->
  (code = SUCCESS -> exists c s, k = Ret (c, s) /\ P c s) -> exists c s, check code st k = Ret (c, s) /\ P c s.
Proof.
  intros Hc HF HS. unfold check. destruct (Z.eqb_spec code SUCCESS) as [E|N]; [auto|].
  destruct (E_SUB_nz code Hc N) as (c & -> & H1 & H2). cbn [bind]. eexists _, _. split; [reflexivity|]. auto.
Qed.
Lemma locate_safe E k D q T kappa t : penv_ok E -> (1 <= k)%nat -> D = (2 ^ k)%nat -> length q = D -> (fst T < snd T)%R ->
  (Z.of_nat (D * nse_upsampling_factor (p_disc (t_o t))) <= 2 ^ 63)%Z -> (Z.of_nat (p_Dsub (t_o t)) <= 2 ^ 63)%Z ->
  (forall l, t_main t = Some l -> (room_of (t_o t) (t_K t) <= length l)%nat) -> (forall l, t_aux t = Some l -> (t_M t <= length l)%nat) ->
  exists c t', nsep_locate E D q T kappa t = Ret (c, t') /\
    sub_post false 0 (room_of (t_o t) (t_K t)) 0 (t_M t) (fine ((snd T - fst T) / INR D) (t_o t)) t c t'.
Proof.
  intros HE Hk HDk Lq HT Hsz Hds Hmain Haux. assert (HD : (2 <= D)%nat) by (rewrite HDk; apply (Nat.pow_le_mono_r 2 1 k); lia).
  unfold nsep_locate. set (h := ((snd T - fst T) / INR D)%R). assert (Hh : (0 < h)%R) by (apply Rdiv_lt_0_compat; [lra|apply lt_0_INR; lia]).
  unfold room_of in *. set (P := fine h (t_o t)) in *.
  assert (HC : forall b nK c t1, sub_post b 0 nK 0 (t_M t) P t c t1 -> exists c' t', check c t1 (Ret (SUCCESS, t1)) = Ret (c', t') /\ sub_post false 0 nK 0 (t_M t) P t c' t').
  { intros b nK c t1 H. apply check_post; [apply (sb_code _ _ _ _ _ _ _ _ _ H)| |].
    - intros c0 H0 H1. destruct H. now apply sub_fail.
    - intros Hc. eexists _, _. split; [reflexivity|]. subst c. destruct H. constructor; auto. intros Hs [Hb|Hb]; [discriminate|auto]. }
  destruct (p_loc (t_o t)) eqn:El.
  - destruct (subsample_safe E false k D q T kappa t HE Hk HDk Lq HT Hsz Hds Hmain Haux) as (c & t1 & -> & _ & H). cbn [bind]. now apply HC in H.
  - destruct (newton_safe E D q T kappa t HE HD Lq HT Hmain Haux) as (c & t1 & -> & H). cbn [bind]. now apply HC in H.
  - destruct (gridsearch_safe E 0 0 D q T kappa t HE HD Lq HT Hsz Hmain Haux) as (c & t1 & -> & H). cbn [bind]. now apply HC in H.
  - cbv zeta. match goal with |- exists c t', bind ?m0 _ = _ /\ _ => assert (HM : exists c t1, m0 = Ret (c, t1) /\ sub_post true 0 (t_K t) 0 (t_M t) P t c t1 /\
      (c = SUCCESS -> Z.eqb kappa 1 = false -> t_K t1 = O)) end.
    { destruct (Z.eqb kappa 1).
      - destruct (subsample_safe E true k D q T kappa t HE Hk HDk Lq HT Hsz Hds Hmain Haux) as (c & t1 & -> & _ & H). eexists _, _. split; [reflexivity|]. split; [exact H|discriminate].
      - set (t0 := set_counts (set_tmain t None) 0 (t_M t)).
        destruct (subsample_safe E true k D q T kappa t0 HE Hk HDk Lq HT Hsz Hds) as (c & t1 & -> & _ & H); [discriminate|exact Haux|]. cbn [bind]. eexists _, _. split; [reflexivity|].
        destruct H as [H1 H2 H3 H4 H5 H6 H7 H8]. cbn in H3, H4, H5. assert (HK0 : c = SUCCESS -> (t_K t1 <= 0)%nat) by (intros Hs; apply H5; auto). split.
        + constructor; cbn; auto.
          * apply seg_opt_refl.
          * intros Hs _. specialize (HK0 Hs). lia.
          * intros Hs l _ i z Hi. specialize (HK0 Hs). lia.
        + intros Hs _. specialize (HK0 Hs). cbn. lia. }
    destruct HM as (c & t1 & -> & H & HK0). cbn [bind]. destruct H as [H1 H2 H3 H4 H5 H6 H7 H8].
    apply check_post; [exact H1| |].
    { intros c0 Hc0 Hn0. apply sub_fail; auto. }
    intros Hs. specialize (H5 Hs (or_introl eq_refl)). specialize (H6 Hs). specialize (H7 Hs). specialize (H8 Hs).
    destruct (Nat.ltb_spec (t_K t) (t_K t1)); [lia|]. destruct (Nat.ltb_spec (t_M t) (t_M t1)); [lia|]. cbn [orb].
    set (t2 := set_counts t1 (t_K t - t_K t1) (t_M t - t_M t1)).
    assert (Ho : box_only (t_o t) (t_o t2)) by exact H2. destruct (box_only_fields _ _ Ho) as (_ & Hd & _).
    destruct (gridsearch_safe E (t_K t1) (t_M t1) D q T kappa t2 HE HD Lq HT) as (c2 & t3 & -> & G).
    { now rewrite Hd. }
    { cbn. intros l El'. rewrite El' in H3. destruct (t_main t) as [l0|]; [|contradiction]. cbn in H3. rewrite (seg_length _ _ _ _ H3). specialize (Hmain l0 eq_refl). lia. }
    { cbn. intros l El'. rewrite El' in H4. destruct (t_aux t) as [l0|]; [|contradiction]. cbn in H4. rewrite (seg_length _ _ _ _ H4). specialize (Haux l0 eq_refl). lia. }
    cbn [bind]. destruct G as [G1 G2 G3 G4 G5 G6 G7 G8]. cbn [t2 set_counts t_o t_main t_aux t_K t_M] in *.
    assert (Gm : seg_opt 0 (t_K t) (t_main t) (t_main t3)) by (eapply seg_opt_trans; [exact H3|]; eapply seg_opt_mono; [| |exact G3]; lia).
    assert (Ga : seg_opt 0 (t_M t) (t_aux t) (t_aux t3)) by (eapply seg_opt_trans; [exact H4|]; eapply seg_opt_mono; [| |exact G4]; lia).
    assert (Go : box_only (t_o t) (t_o t3)) by (eapply box_only_trans; eassumption).
    apply check_post; [exact G1| |].
    { intros c0 Hc0 Hn0. apply sub_fail; auto. }
    intros Gs. specialize (G5 Gs). specialize (G6 Gs). specialize (G7 Gs). specialize (G8 Gs). eexists _, _. split; [reflexivity|].
    constructor; cbn; auto; try lia.
    + codes.
    + intros _ [|Hn]; [discriminate|]. assert (Hn' : t_main t1 <> None) by (intros Hc'; apply Hn; now apply (seg_opt_some _ _ _ _ H3)). specialize (G5 (or_intror Hn')). lia.
    + intros _ l El'. rewrite El' in G3. destruct (t_main t1) as [l1|] eqn:E1; [|contradiction]. cbn in G3. apply all_in_app.
      * eapply all_in_seg; [exact G3|lia|]. apply H7. reflexivity.
      * specialize (G7 l El'). eapply all_in_impl; [|exact G7]. intros z Hz. exact (proj1 (fine_box_only h _ _ z H2) Hz).
    + intros _ l El'. rewrite El' in G4. destruct (t_aux t1) as [l1|] eqn:E1; [|contradiction]. cbn in G4. apply all_in_app.
      * eapply all_in_seg; [exact G4|lia|]. apply H8. reflexivity.
      * specialize (G8 l El'). eapply all_in_impl; [|exact G8]. intros z Hz. exact (proj1 (fine_box_only h _ _ z H2) Hz).
  - eexists _, _. split; [reflexivity|]. apply sub_fail; auto using box_only_refl, seg_opt_refl; [codes|discriminate].
Qed.
