(** * fnft_manakovv: bound states and fnft_manakovv_base (C52, C73, C74, C76) *)
From Coq Require Import Reals Lra.
From Coquelicot Require Import Coquelicot.
From Verif Require Import Loop MiscSpec MiscProof MiscProps MiscMetricProps PolyFmultProof DiscProps DiscPreProps NsevSpec NsevProps
  NsevSafe NsevSafe2 NsevSafe3 NsevSafe4 NsevSafe5 NsevDisc NsevDisc2 ManvSpec ManvProps ManvSafe.
Local Open Scope C_scope.

(** ** Filtering *)
Lemma uhp_valid : negb (xle (x0 upper_half_plane) (x1 upper_half_plane)) || negb (xle (x2 upper_half_plane) (x3 upper_half_plane)) = false.
Proof. reflexivity. Qed.
Lemma uhp_keep v : box_keep upper_half_plane v = true <-> (0 <= snd v)%R.
Proof. unfold box_keep, upper_half_plane. cbn. destruct (Rle_dec 0 (snd v)); cbn; intuition discriminate. Qed.

Lemma mfilter_safe K vals o : (K <= length vals)%nat ->
  exists K' v, manakovv_filter K vals o = Ret (SUCCESS, (K', v)) /\ (K' <= K)%nat /\ kept K vals v /\
    (m_filt o <> MF_NONE -> distinct_in_upper_half_plane K' v).
Proof.
  intros HK. unfold manakovv_filter.
  assert (H : exists K' v, (f <- cfilter K vals upper_half_plane ;; let '(code, K, buffer) := f in
      check code (K, buffer) (m <- cmerge K buffer ;; let '(code, K, buffer) := m in
      check code (K, buffer) (Ret (SUCCESS, (K, buffer))))) = Ret (SUCCESS, (K', v)) /\ (K' <= K)%nat /\ kept K vals v /\ distinct_in_upper_half_plane K' v).
  2:{ destruct H as (K' & v & H1 & H2 & H3 & H4). destruct (m_filt o); try (exists K', v; auto; fail).
      exists K, vals. split; [reflexivity|]. split; [lia|]. split; [apply kept_refl|congruence]. }
  destruct (cfilter_safe K vals upper_half_plane HK) as (c & K1 & v1 & E1 & Hc & HK1 & Hk1 & Hs). 
  assert (c = SUCCESS) as ->.
  { unfold cfilter in E1. rewrite uhp_valid in E1. inv_bind E1. destruct x as [[a b] d]. now injection E1. }
  rewrite E1. cbn [bind]. unfold check. change (Z.eqb SUCCESS SUCCESS) with true. cbn iota.
  destruct (Hs eq_refl) as (tl & Ev & EK). unfold cmerge. destruct K1 as [|K1].
  - cbn. exists O, v1. split; [reflexivity|]. split; [lia|]. split; [exact Hk1|]. split; [lia|]. intros i j a b _ Ha. destruct i; discriminate.
  - assert (Hl : (0 < S K1 <= length v1)%nat) by (rewrite (kept_length _ _ _ Hk1); lia).
    destruct (misc_merge_spec cnear (S K1) v1 Hl) as (m & v2 & E2 & Hm & L2 & S2 & _ & Hsub & Hsep & _).
    rewrite E2. cbn [bind]. change (Z.eqb SUCCESS SUCCESS) with true. cbn iota. exists m, v2. split; [reflexivity|]. split; [lia|].
    assert (Hk2 : kept K v1 v2) by (eapply kept_mono; [|apply kept_skipn; [exact L2|exact S2]]; lia). split; [eapply kept_trans; eassumption|].
    split.
    + intros i Hi. assert (Hin : In (nth i v2 0) (firstn m v2)).
      { replace (nth i v2 0) with (nth i (firstn m v2) 0); [apply nth_In; rewrite firstn_length; lia|].
        rewrite <- (firstn_skipn m v2) at 2. rewrite app_nth1; [reflexivity|]. rewrite firstn_length. lia. }
      rewrite Ev, EK in Hsub. rewrite firstn_app, firstn_all, Nat.sub_diag in Hsub. cbn [firstn] in Hsub. rewrite app_nil_r in Hsub.
      apply (subseq_In _ _ _ Hsub) in Hin. apply filter_In in Hin. now apply uhp_keep.
    + intros i j a b Hij Ha Hb. specialize (Hsep i j a b Hij Ha Hb). unfold cnear in Hsep. destruct (Rlt_dec (Cmod (a - b)) (sqrt EPS)); [discriminate|]. now apply Rnot_lt_le.
Qed.

Lemma copy_prefix n (src dst : list C) l : (n <= length src)%nat -> (n <= length dst)%nat -> copy n 0 src dst = Ret l -> forall i, (i < n)%nat -> nth_error l i = nth_error src i.
Proof.
  intros Hs Hd H. unfold copy in H.
  destruct (for_inv (fun j l => length l = length dst /\ forall i, (i < j)%nat -> nth_error l i = nth_error src i)
    (fun i dst => x <- aget src i;; aset dst (0 + i) x) n 0%nat dst) as (l' & El & Ll & Hl).
  - split; [reflexivity|lia].
  - intros j k Hj [Lk Hk]. rewrite (aget_nth src (RtoC 0) j) by lia. cbn [bind]. rewrite (aset_upd k (0 + j)) by lia. eexists. split; [reflexivity|]. split; [now rewrite upd_length|].
    intros i Hi. destruct (Nat.eq_dec i j) as [->|Nij].
    + rewrite (nth_error_nth' src (RtoC 0)) by lia. rewrite (nth_error_nth' _ (RtoC 0)) by (rewrite upd_length; lia). rewrite nth_upd by lia. rewrite Nat.eqb_refl. reflexivity.
    + rewrite nth_error_upd_other by lia. apply Hk. lia.
  - rewrite El in H. injection H as <-. exact Hl.
Qed.
Lemma duhp_prefix K n (v l : list C) : (n <= K)%nat -> (K <= length v)%nat -> (n <= length l)%nat -> (forall i, (i < n)%nat -> nth_error l i = nth_error v i) ->
  distinct_in_upper_half_plane K v -> distinct_in_upper_half_plane n l.
Proof.
  intros Hn HK Hl He [H1 H2]. split.
  - intros i Hi. specialize (He i Hi). rewrite !(nth_error_nth' _ (RtoC 0)) in He by lia. injection He as ->. apply H1. lia.
  - assert (Hf : forall k x, nth_error (firstn n l) k = Some x -> nth_error (firstn K v) k = Some x).
    { intros k x Hx. assert (Hk : (k < n)%nat) by (assert (Hne : nth_error (firstn n l) k <> None) by congruence; apply nth_error_Some in Hne; rewrite firstn_length in Hne; lia).
      specialize (He k Hk). rewrite <- (firstn_skipn n l), <- (firstn_skipn K v) in He. rewrite !nth_error_app1 in He by (rewrite firstn_length; lia). congruence. }
    intros i j a b Hij Ha Hb. apply (H2 i j a b Hij); auto.
Qed.

Lemma mboundstates_safe E s deg tm eps_t K bs o : menv_ok E -> (K <= length bs)%nat -> (forall t, tm = Some t -> (9 * (deg + 1) <= length t)%nat) ->
  exists c K' bs', manakovv_compute_boundstates E s deg tm eps_t K bs o = Ret (c, (K', bs')) /\ ok_code c /\ (K' <= K)%nat /\ kept K bs bs'
    /\ (c = SUCCESS -> m_filt o <> MF_NONE -> distinct_in_upper_half_plane K' bs')
    /\ (mnever_fails E -> tm <> None -> man_degree (m_disc o) <> O -> c = SUCCESS).
Proof.
  intros HE HK Ht. unfold manakovv_compute_boundstates. cbv zeta. destruct tm as [t|].
  2:{ cbn. eexists _, _, _. split; [reflexivity|]. split; [codes|]. split; [lia|]. split; [apply kept_refl|]. split; [discriminate|congruence]. }
  specialize (Ht t eq_refl). set (own := (deg <=? K)%nat). set (buffer := if own then bs else skipn (deg + 1) t).
  assert (Hown : own = true -> (deg <= K)%nat) by (apply Nat.leb_le).
  assert (Lb : (deg <= length buffer)%nat) by (unfold buffer; destruct own eqn:Eo; [specialize (Hown eq_refl); lia|rewrite skipn_length; lia]).
  assert (Kb : forall b, kept deg buffer b -> kept K bs (if own then b else bs)).
  { intros b Hb. unfold buffer in Hb. destruct own eqn:Eo; [|apply kept_refl]. eapply kept_mono; [|exact Hb]. auto. }
  assert (Hif : forall a b c : list C, (if own then a else if own then b else c) = if own then a else c) by (intros; destruct own; reflexivity).
  destruct (km_roots E HE s deg (firstn (deg + 1) t) buffer) as (c1 & b1 & E1 & Hc1 & Hk1); [rewrite firstn_length; lia|exact Lb|].
  rewrite E1. cbn [bind]. unfold check. destruct (Z.eqb_spec c1 SUCCESS) as [_|N1].
  2:{ rewrite E_SUB_ok by exact Hc1. cbn [bind]. eexists _, _, _. split; [reflexivity|]. split; [now apply ok_neg|]. split; [lia|]. split; [now apply Kb|].
      split; [intros Hz; now apply abs_nonzero in Hz|]. intros HN. apply (nf_roots E HN) in E1. contradiction. }
  destruct (man_z2l_safe deg eps_t b1 (m_disc o)) as (c2 & b2 & E2 & Hc2 & Hk2 & S2); [rewrite (kept_length _ _ _ Hk1); exact Lb|].
  rewrite E2. cbn [bind]. pose proof (kept_trans _ _ _ _ Hk1 Hk2) as Hk12.
  destruct (Z.eqb_spec c2 SUCCESS) as [_|N2].
  2:{ rewrite E_SUB_ok by exact Hc2. cbn [bind]. eexists _, _, _. split; [reflexivity|]. split; [now apply ok_neg|]. split; [lia|]. split; [rewrite Hif; now apply Kb|].
      split; [intros Hz; now apply abs_nonzero in Hz|]. intros _ _ Hd. now apply S2 in Hd. }
  assert (L2 : (deg <= length b2)%nat) by (rewrite (kept_length _ _ _ Hk12); exact Lb).
  destruct (mfilter_safe deg b2 o L2) as (K3 & b3 & E3 & HK3 & Hk3 & G3). rewrite E3. cbn [bind Z.eqb SUCCESS negb].
  pose proof (kept_trans _ _ _ _ Hk12 Hk3) as Hk. pose proof (Kb _ Hk) as Hkb.
  destruct own eqn:Eo.
  - eexists _, _, _. split; [reflexivity|]. split; [codes|]. specialize (Hown eq_refl). split; [lia|]. auto.
  - set (K4 := if (K <? K3)%nat then K else K3). assert (HK4 : (K4 <= K3)%nat /\ (K4 <= K)%nat) by (unfold K4; destruct (Nat.ltb_spec K K3); lia).
    pose proof (kept_length _ _ _ Hk3) as L3. destruct (copy_kept K4 0 b3 bs K) as (l & El & Kl); [lia|lia|lia|]. rewrite El. cbn [bind].
    eexists _, _, _. split; [reflexivity|]. split; [codes|]. split; [lia|]. split; [exact Kl|]. split; [|auto]. intros _ Hf.
    pose proof (kept_length _ _ _ Kl). eapply (duhp_prefix K3 K4 b3); [lia|lia|lia| |auto]. eapply copy_prefix; [| |exact El]; lia.
Qed.

(** ** Contained *)
Lemma mcontained_refl M o u : mcontained M o u u.
Proof. constructor; try apply kept_opt_refl; [reflexivity|]. split; [lia|tauto]. Qed.
Lemma mcontained_trans M o u u' u'' : mcontained M o u u' -> mcontained M o u' u'' -> mcontained M o u u''.
Proof.
  intros [A1 A2 A3 [A4 A5]] [B1 B2 B3 [B4 B5]]. constructor.
  - eapply kept_opt_trans; [|exact A1|exact B1]. lia.
  - eapply kept_opt_trans; [|exact A2|exact B2]. lia.
  - congruence.
  - split; [lia|]. rewrite B5. exact A5.
Qed.
Lemma mcontained_room M o u u' : mcontained M o u u' -> mroom M o u -> mroom M o u'.
Proof.
  intros [A1 A2 A3 [A4 A5]] [B1 B2]. unfold cap in *. constructor.
  - intros l Hl. rewrite Hl in A1. destruct (u_cs u) as [l0|]; [|contradiction]. cbn in A1. rewrite (kept_length _ _ _ A1). now apply B1.
  - intros l K Hl HK. rewrite Hl, HK in *. destruct (u_bs u) as [l0|]; [|contradiction]. cbn in A2. rewrite (kept_length _ _ _ A2).
    destruct (u_K u) as [K0|]; [|destruct A5 as [_ A5]; now discriminate A5]. specialize (B2 l0 K0 eq_refl eq_refl). lia.
Qed.
Lemma mcontained_cs_some M o u u' : mcontained M o u u' -> (u_cs u' <> None <-> u_cs u <> None).
Proof. intros [A _ _ _]. destruct (u_cs u), (u_cs u'); cbn in A; try contradiction; split; congruence. Qed.
Lemma mcontained_bs_some M o u u' : mcontained M o u u' -> (u_bs u' <> None <-> u_bs u <> None).
Proof. intros [_ A _ _]. destruct (u_bs u), (u_bs u'); cbn in A; try contradiction; split; congruence. Qed.
Lemma mcontained_K_some M o u u' : mcontained M o u u' -> (u_K u' <> None <-> u_K u <> None).
Proof. intros [_ _ _ [_ A]]. rewrite A. tauto. Qed.
Lemma mcontained_opts M o o' u u' : m_cs o' = m_cs o -> mcontained M o u u' -> mcontained M o' u u'.
Proof. intros Hc [A1 A2 A3 A4]. constructor; rewrite ?Hc; auto. Qed.
Lemma mroom_opts M o o' u : m_cs o' = m_cs o -> mroom M o u -> mroom M o' u.
Proof. intros Hc [A1 A2]. constructor; rewrite ?Hc; auto. Qed.

Lemma mnumel_ok D d : (1 <= D)%nat -> (Z.of_nat D <= 2 ^ 63)%Z -> exists n, man_fscatter_numel D d = Ret n /\
  (man_degree d = O -> n = O) /\ (man_degree d <> O -> n <> O /\ (9 * (man_degree d * D + 1) <= n)%nat).
Proof.
  intros H1 H2. unfold man_fscatter_numel. destruct (Nat.eqb_spec (man_degree d) 0) as [E|N].
  - exists O. split; [reflexivity|]. split; [auto|congruence].
  - unfold fmult_numel. destruct (np2_ok D H1 H2) as (k & -> & Hk & _). cbn [bind]. eexists. split; [reflexivity|].
    split; [congruence|]. intros _. clear - Hk N H1. set (d0 := man_degree d) in *. split; nia.
Qed.

(** ** fnft_manakovv_base *)
(** what is known about the outputs of a successful call *)
Definition mbs_good (o : mopts) (u : outs) : Prop :=
  m_filt o <> MF_NONE -> forall l K, u_bs u = Some l -> u_K u = Some K -> distinct_in_upper_half_plane K l.
Definition mcs_good (M : nat) (o : mopts) (u : outs) : Prop := m_cs o = CS_BOTH -> forall l, u_cs u = Some l -> rho_is_b_over_a M l.
Lemma rho_M0 l : rho_is_b_over_a 0 l.
Proof. intros i Hi. lia. Qed.

Lemma mbase_safe E s D Dg q1 q2 T M XI kappa o u : menv_ok E -> man_known (m_disc o) ->
  D = (Dg * man_upsampling_factor (m_disc o))%nat -> (2 <= Dg)%nat -> (Z.of_nat D <= 2 ^ 63)%Z ->
  length q1 = D -> length q2 = D -> (fst T < snd T)%R ->
  (u_cs u <> None -> M <> 1%nat) -> (u_bs u <> None -> u_K u <> None) -> mroom M o u ->
  exists c u', fnft_manakovv_base E s D q1 q2 T M XI kappa o u = Ret (c, u') /\ ok_code c /\ mcontained M o u u'
    /\ (kappa <> 1%Z \/ u_bs u = None -> u_bs u' = u_bs u /\ u_K u' = u_K u)
    /\ (c = SUCCESS -> kappa = 1%Z -> mbs_good o u') /\ (c = SUCCESS -> mcs_good M o u')
    /\ (mnever_fails E -> (u_cs u <> None -> proper_interval XI) -> kappa = 1%Z \/ kappa = (-1)%Z -> (u_cs u <> None -> (0 < M)%nat -> m_cs o = CS_AB) ->
        (kappa = 1%Z -> u_bs u <> None -> man_degree (m_disc o) <> O) -> c = SUCCESS).
Proof.
  intros HE Hd HD Hg Hsz Lq Lr HT HM HKp HR. unfold fnft_manakovv_base. cbv zeta.
  pose proof (proj1 (mups _) Hd) as Hu. assert (HD2 : (2 <= D)%nat) by nia.
  set (OK := mnever_fails E -> (u_cs u <> None -> proper_interval XI) -> kappa = 1%Z \/ kappa = (-1)%Z -> (u_cs u <> None -> (0 < M)%nat -> m_cs o = CS_AB) ->
        (kappa = 1%Z -> u_bs u <> None -> man_degree (m_disc o) <> O) -> False).
  set (G := fun x : out (Z * outs) => exists c u', x = Ret (c, u') /\ ok_code c /\ mcontained M o u u' /\ (kappa <> 1%Z \/ u_bs u = None -> u_bs u' = u_bs u /\ u_K u' = u_K u)
    /\ (c = SUCCESS -> kappa = 1%Z -> mbs_good o u') /\ (c = SUCCESS -> mcs_good M o u')
    /\ (mnever_fails E -> (u_cs u <> None -> proper_interval XI) -> kappa = 1%Z \/ kappa = (-1)%Z -> (u_cs u <> None -> (0 < M)%nat -> m_cs o = CS_AB) ->
        (kappa = 1%Z -> u_bs u <> None -> man_degree (m_disc o) <> O) -> c = SUCCESS)).
  match goal with |- exists c u', ?x = _ /\ _ => change (G x) end.
  assert (Hfail : forall c0 u0, ok_code c0 -> c0 <> SUCCESS -> mcontained M o u u0 -> (kappa <> 1%Z \/ u_bs u = None -> u_bs u0 = u_bs u /\ u_K u0 = u_K u) -> OK -> G (Ret (c0, u0))).
  { intros c0 u0 H0 H1 H2 H3 H4. exists c0, u0. split; [reflexivity|]. split; [exact H0|]. split; [exact H2|]. split; [exact H3|].
    split; [congruence|]. split; [congruence|]. intros a1 a2 a3 a4 a5. exfalso. exact (H4 a1 a2 a3 a4 a5). }
  destruct (args_bad D (Some q1) (Some T) XI kappa u) eqn:Ea.
  { apply Hfail; [codes|discriminate|apply mcontained_refl|auto|]. intros _ a2 a3 _ _. apply not_false_iff_true in Ea. apply Ea. apply args_bad_false.
    split; [exact HD2|]. split; [discriminate|]. split; [|auto]. exists (fst T), (snd T). destruct T; auto. }
  apply args_bad_false in Ea. destruct Ea as (_ & _ & _ & HXI & _).
  destruct (Nat.eqb_spec (man_upsampling_factor (m_disc o)) 0) as [Hu0|_]; [lia|].
  assert (ED : (D / man_upsampling_factor (m_disc o) = Dg)%nat) by (rewrite HD; apply Nat.div_mul; lia).
  rewrite ED, step_ok by exact Hg. cbn [bind]. set (eps_t := ((snd T - fst T) / INR (Dg - 1))%R).
  assert (He : (0 < eps_t)%R) by (apply step_pos; [lra|exact Hg]).
  destruct (mnumel_ok D (m_disc o)) as (n & En & Hn0 & Hn1); [lia|exact Hsz|]. rewrite En. cbn [bind].
  destruct (negb (Nat.eqb n 0) && negb (me_alloc E s 8)) eqn:Eal.
  { apply Hfail; [codes|discriminate|apply mcontained_refl|auto|]. intros HN _ _ _ _. rewrite (nf_alloc E HN) in Eal. rewrite andb_false_r in Eal. discriminate. }
  assert (HT0 : exists c deg tm W, (if negb (Nat.eqb n 0)
        then x <- me_fscatter E s D q1 q2 kappa eps_t (me_junk E 8 n) (m_norm o) (m_disc o) ;;
             let '(code, deg, tm, W) := x in
             Ret (code, deg, Some tm, if m_norm o then W else 0%Z)
        else Ret (SUCCESS, O, None, 0%Z)) = Ret (c, deg, tm, W) /\ ok_code c
      /\ (tm = None -> deg = O /\ W = 0%Z) /\ (c = SUCCESS -> forall t, tm = Some t -> (9 * (deg + 1) <= length t)%nat)
      /\ (man_degree (m_disc o) <> O <-> tm <> None) /\ (mnever_fails E -> c = SUCCESS)).
  { destruct (Nat.eqb_spec n 0) as [E0|N0]; cbn [negb].
    - eexists _, _, _, _. split; [reflexivity|]. split; [codes|]. split; [auto|]. split; [discriminate|]. split; [|auto].
      split; [|congruence]. intros Hz. destruct (Hn1 Hz). congruence.
    - assert (Hz : man_degree (m_disc o) <> O) by (intros Hz; now apply N0, Hn0).
      destruct (km_fscatter E HE s D q1 q2 kappa eps_t (me_junk E 8 n) (m_norm o) (m_disc o) HD2 Lq Lr He) as (c & deg & tm & W & Ef & Hc & Lt & Hdeg); [now rewrite (km_junk E HE)|exact Hz|].
      rewrite Ef. cbn [bind]. eexists _, _, _, _. split; [reflexivity|]. split; [exact Hc|]. split; [discriminate|]. split; [|split; [split; [discriminate|auto]|]].
      + intros Hs t Et. injection Et as <-. rewrite (Hdeg Hs), Lt, (km_junk E HE). apply Hn1, Hz.
      + intros HN. eapply (nf_fscatter E HN). exact Ef. }
  destruct HT0 as (c & deg & tm & W & -> & Hc & Htm & Htm2 & Htm3 & HNF). cbn [bind].
  unfold check. destruct (Z.eqb_spec c SUCCESS) as [Sc|Nc].
  2:{ rewrite E_SUB_ok by exact Hc. cbn [bind]. apply Hfail; [now apply ok_neg|now apply abs_nonzero|apply mcontained_refl|auto|]. intros HN _ _ _ _. auto. }
  specialize (Htm2 Sc).
  assert (HC : exists c1 u1, (match u_cs u with
       | Some cs => if (0 <? M)%nat
                    then x <- manakovv_compute_contspec E s deg W tm q1 q2 T D XI M cs kappa o ;; Ret (fst x, set_cs u (Some (snd x)))
                    else Ret (SUCCESS, u)
       | None => Ret (SUCCESS, u)
       end) = Ret (c1, u1) /\ ok_code c1 /\ mcontained M o u u1 /\ u_bs u1 = u_bs u /\ u_K u1 = u_K u
       /\ (c1 = SUCCESS -> mcs_good M o u1) /\ (mnever_fails E -> (u_cs u <> None -> (0 < M)%nat -> m_cs o = CS_AB) -> c1 = SUCCESS)).
  { destruct (u_cs u) as [cs|] eqn:Ecs.
    - destruct (Nat.ltb_spec 0 M).
      + destruct (mcontspec_safe E s deg W tm q1 q2 T D Dg XI M cs kappa o) as (c1 & cs1 & -> & Hc1 & K1 & G1 & N1); auto.
        { specialize (HM ltac:(discriminate)). lia. } { destruct (HXI ltac:(discriminate)) as (a & b & -> & _). discriminate. } { now apply Htm3. } { now apply (rm_cs _ _ _ HR). }
        cbn [bind fst snd]. eexists _, _. split; [reflexivity|]. split; [exact Hc1|]. split; [|split; [reflexivity|split; [reflexivity|split]]].
        * constructor; cbn; try apply kept_opt_refl; try reflexivity. { rewrite Ecs. exact K1. } split; [unfold cap; cbn; lia|tauto].
        * intros Hs Hb l Hl. cbn in Hl. injection Hl as <-. now apply G1.
        * intros HN Hab. apply N1; [exact HN|]. apply Hab; [discriminate|lia].
      + eexists _, _. split; [reflexivity|]. split; [codes|]. split; [apply mcontained_refl|]. split; [reflexivity|]. split; [reflexivity|]. split; [|reflexivity].
        intros _ _ l _. replace M with O by lia. apply rho_M0.
    - eexists _, _. split; [reflexivity|]. split; [codes|]. split; [apply mcontained_refl|]. split; [reflexivity|]. split; [reflexivity|]. split; [|reflexivity].
      intros _ _ l Hl. congruence. }
  destruct HC as (c1 & u1 & -> & Hc1 & C1 & Eb & EK & Gc & HNC). cbn [bind].
  destruct (Z.eqb_spec c1 SUCCESS) as [Sc1|].
  2:{ rewrite E_SUB_ok by exact Hc1. cbn [bind]. apply Hfail; [now apply ok_neg|now apply abs_nonzero|exact C1|auto|]. intros HN _ _ Hab _. auto. }
  rewrite Eb.
  assert (HZ : kappa <> 1%Z \/ u_bs u = None -> G (Ret (SUCCESS, u1))).
  { intros Hno. eexists _, _. split; [reflexivity|]. split; [codes|]. split; [exact C1|]. split; [auto|]. split; [|split; [auto|reflexivity]].
    intros _ Hk Hf l K Hl _. destruct Hno; [contradiction|congruence]. }
  destruct (u_bs u) as [bs|] eqn:Ebs; [|apply HZ; auto].
  destruct (Z.eqb_spec kappa 1) as [Hk|Hk]; [|apply HZ; auto]. clear HZ. rewrite EK.
  assert (HK0 : exists K, u_K u = Some K) by (destruct (u_K u) as [K|]; [now exists K|exfalso; now apply HKp]).
  destruct HK0 as (K & EK0). rewrite EK0. cbn [deref bind].
  assert (HKb : (K <= length bs)%nat) by (eapply (rm_bs _ _ _ HR); eassumption).
  destruct (mboundstates_safe E s deg tm eps_t K bs o HE HKb Htm2) as (c2 & K2 & bs2 & -> & Hc2 & HK2 & Kb2 & Gb & HNb).
  cbn [bind]. set (u2 := set_K (set_bs u1 (Some bs2)) (Some K2)).
  assert (C2 : mcontained M o u u2).
  { eapply mcontained_trans; [exact C1|]. constructor; cbn; try apply kept_opt_refl; try reflexivity.
    - rewrite Eb. cbn. unfold cap. rewrite EK, EK0. exact Kb2.
    - unfold cap. cbn. rewrite EK, EK0. split; [lia|split; discriminate]. }
  destruct (Z.eqb_spec c2 SUCCESS) as [Sc2|Nc2].
  2:{ rewrite E_SUB_ok by exact Hc2. cbn [bind]. apply Hfail; [now apply ok_neg|now apply abs_nonzero|exact C2|intros [H|H]; [contradiction|discriminate]|].
      intros HN _ _ _ Hdeg. apply Nc2, HNb; [exact HN| |]; [apply Htm3|]; (apply Hdeg; [exact Hk|first [discriminate|rewrite Ebs; discriminate]]). }
  eexists _, _. split; [reflexivity|]. split; [codes|]. split; [exact C2|]. split; [intros [H|H]; [contradiction|first [discriminate|rewrite Ebs in H; discriminate]]|]. split; [|split; [|reflexivity]].
  - intros _ _ Hf l K0 Hl HK0. cbn in Hl, HK0. injection Hl as <-. injection HK0 as <-. auto.
  - intros _ Hb l Hl. apply (Gc Sc1 Hb). exact Hl.
Qed.
