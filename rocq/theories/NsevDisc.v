(** * The discrete spectrum that fnft_nsev returns: inside the box, without duplicates, Newton iterates (C46, C60) *)
From Coq Require Import Reals Lra.
From Coquelicot Require Import Coquelicot.
From Verif Require Import Loop CExp MiscSpec MiscProof DiscProps DiscPreProps NsevSpec NsevProps NsevSafe NsevSafe2 NsevSafe3 NsevEnv NsevRefuted NsevNewton.
Local Open Scope C_scope.

(** the box that belongs to the option bound_state_filtering; [FULL]: see nsev_box *)
Definition box_of (E : env) (s D : nat) (q : list C) (T : R * R) (eps_t : R) (o : opts) (bb : xbox) : Prop :=
  nsev_box E s D q T eps_t o = Ret (SUCCESS, bb).
Definition inside (bb : xbox) (v : C) : Prop :=
  xle (x0 bb) (Fin (fst v)) = true /\ xle (Fin (fst v)) (x1 bb) = true /\ xle (x2 bb) (Fin (snd v)) = true /\ xle (Fin (snd v)) (x3 bb) = true.
Lemma box_keep_spec bb v : box_keep bb v = true <-> inside bb v.
Proof.
  unfold box_keep, inside. destruct (xle (x0 bb) _), (xle _ (x1 bb)), (xle (x2 bb) _), (xle _ (x3 bb)); cbn; intuition discriminate.
Qed.
Definition apart (l : list C) : Prop := forall i j a b, (i < j)%nat -> nth_error l i = Some a -> nth_error l j = Some b -> (sqrt EPS <= Cmod (a - b)%C)%R.

Lemma filter_result K vals bb o K' v : (K <= length vals)%nat -> nsev_filter K vals bb o = Ret (SUCCESS, (K', v)) ->
  bound_state_filtering o <> BF_NONE ->
  subseq (firstn K' v) (filter (box_keep bb) (firstn K vals)) /\ apart (firstn K' v).
Proof.
  intros HK H Hf. unfold nsev_filter in H.
  assert (H0 : (f <- cfilter K vals bb ;; let '(code, K, buffer) := f in
      check code (K, buffer) (m <- cmerge K buffer ;; let '(code, K, buffer) := m in
      check code (K, buffer) (Ret (SUCCESS, (K, buffer))))) = Ret (SUCCESS, (K', v))) by (destruct (bound_state_filtering o); congruence).
  clear H. destruct (cfilter_safe K vals bb HK) as (c & K1 & v1 & E1 & Hc & HK1 & Hk1 & Hs). rewrite E1 in H0. cbn [bind] in H0.
  apply check_Ret in H0. destruct H0 as [[Hc0 H0]|(Hc0 & _ & _ & Hcode)].
  2:{ exfalso. cbn in Hcode. symmetry in Hcode. now apply abs_nonzero in Hcode. }
  destruct (Hs Hc0) as (tl & Ev & EK). unfold cmerge in H0. destruct K1 as [|K1].
  - cbn in H0. injection H0 as <- <-. cbn. split; [constructor|]. intros i j a b _ Ha. destruct i; discriminate.
  - assert (Hl : (0 < S K1 <= length v1)%nat) by (rewrite (kept_length _ _ _ Hk1); lia).
    destruct (misc_merge_spec cnear (S K1) v1 Hl) as (m & v2 & E2 & Hm & _ & _ & _ & Hsub & Hsep & _).
    rewrite E2 in H0. cbn [bind] in H0. unfold check in H0. cbn [Z.eqb SUCCESS] in H0. change (Z.eqb SUCCESS SUCCESS) with true in H0. cbn iota in H0.
    injection H0 as <- <-. split.
    + rewrite Ev, EK in Hsub. rewrite firstn_app, firstn_all, Nat.sub_diag in Hsub. cbn [firstn] in Hsub. rewrite app_nil_r in Hsub. exact Hsub.
    + intros i j a b Hij Ha Hb. specialize (Hsep i j a b Hij Ha Hb). unfold cnear in Hsep. destruct (Rlt_dec (Cmod (a - b)) (sqrt EPS)); [discriminate|]. now apply Rnot_lt_le.
Qed.
Lemma subseq_In {A} (l1 l2 : list A) x : subseq l1 l2 -> In x l1 -> In x l2.
Proof. induction 1 as [l|y l1 l2 H IH|y l1 l2 H IH]; cbn; [tauto| |]; intros Hx; [destruct Hx; auto|auto]. Qed.

Lemma filter_inside K vals bb o K' v i : (K <= length vals)%nat -> nsev_filter K vals bb o = Ret (SUCCESS, (K', v)) ->
  bound_state_filtering o <> BF_NONE -> (i < K')%nat -> inside bb (nth i v 0) /\ In (nth i v 0) (firstn K vals).
Proof.
  intros HK H Hf Hi. destruct (filter_safe K vals bb o HK) as (c & K2 & v2 & E2 & _ & HK2 & Hk2). rewrite H in E2. injection E2 as <- <- <-.
  destruct (filter_result K vals bb o K' v HK H Hf) as [Hs _].
  assert (Hin : In (nth i v 0) (firstn K' v)).
  { replace (nth i v 0) with (nth i (firstn K' v) 0); [apply nth_In; rewrite firstn_length, (kept_length _ _ _ Hk2); lia|].
    rewrite <- (firstn_skipn K' v) at 2. rewrite app_nth1; [reflexivity|]. rewrite firstn_length, (kept_length _ _ _ Hk2); lia. }
  apply (subseq_In _ _ _ Hs) in Hin. apply filter_In in Hin. destruct Hin as [Hin Hb]. split; [now apply box_keep_spec|exact Hin].
Qed.

(** a successful computation of the bound states: everything that remains is in the box, and no two are close *)
Lemma boundstates_result E s D Dg q r deg tm T eps_t K bs o K' bs' : env_ok E -> known_disc (discretization o) ->
  D = (Dg * nse_upsampling_factor (discretization o))%nat -> (2 <= Dg)%nat -> length q = D -> length r = D -> (fst T < snd T)%R ->
  (K <= length bs)%nat -> (bound_state_localization o = BL_FAST_EIGENVALUE -> exists t, tm = Some t /\ (4 * (deg + 1) <= length t)%nat) ->
  nsev_compute_boundstates E s D q r deg tm T eps_t K bs o = Ret (SUCCESS, (K', bs')) ->
  bound_state_filtering o <> BF_NONE -> exists bb, box_of E s D q T eps_t o bb /\
  (forall i, (i < K')%nat -> inside bb (nth i bs' 0)) /\ apart (firstn K' bs').
Proof.
  intros HE Hd HD Hg Lq Lr HT HK Hfast H Hf. unfold nsev_compute_boundstates in H. pose proof (known_ups _ Hd) as Hu.
  assert (HD2 : (2 <= D)%nat) by nia.
  destruct (Nat.eqb_spec (nse_upsampling_factor (discretization o)) 0); [contradiction|].
  destruct (box_safe E s D Dg q T eps_t o Hd HD Lq) as (c & bb & Eb & Hc). rewrite Eb in H. cbn [bind] in H.
  destruct (Z.eqb_spec c SUCCESS) as [Sc|Nc]; cbn [negb] in H; [|injection H as -> _ _; congruence].
  rewrite Sc in Eb. exists bb. split; [exact Eb|].
  assert (Hcheck : forall (A : Type) code (st : A) k r, code <> SUCCESS -> check code st k = Ret (SUCCESS, r) -> False).
  { intros A code st k r0 Hn Hr. apply check_Ret in Hr. destruct Hr as [[? _]|(_ & _ & _ & Hcode)]; [contradiction|]. cbn in Hcode. symmetry in Hcode. now apply abs_nonzero in Hcode. }
  destruct (bound_state_localization o).
  - destruct (Hfast eq_refl) as (t & -> & Lt). cbn [deref bind] in H.
    set (buffer := if (deg <=? K)%nat then bs else skipn (deg + 1) t) in *.
    assert (Lb : (deg <= length buffer)%nat) by (unfold buffer; destruct (Nat.leb_spec deg K); [lia|rewrite skipn_length; lia]).
    destruct (k_roots E HE s deg (firstn (deg + 1) t) buffer) as (c1 & b1 & E1 & Hc1 & Hk1); [rewrite firstn_length; lia|exact Lb|].
    rewrite E1 in H. cbn [bind] in H. destruct (Z.eq_dec c1 SUCCESS) as [->|N1]; [|exfalso; eapply Hcheck; eassumption].
    unfold check at 1 in H. change (Z.eqb SUCCESS SUCCESS) with true in H. cbn iota in H.
    destruct (z2l_safe deg eps_t b1 (discretization o)) as (c2 & b2 & E2 & Hc2 & Hk2); [rewrite (kept_length _ _ _ Hk1); exact Lb|].
    rewrite E2 in H. cbn [bind] in H. destruct (Z.eq_dec c2 SUCCESS) as [->|N2]; [|exfalso; eapply Hcheck; eassumption].
    unfold check at 1 in H. change (Z.eqb SUCCESS SUCCESS) with true in H. cbn iota in H.
    assert (L2 : (deg <= length b2)%nat) by (rewrite (kept_length _ _ _ Hk2), (kept_length _ _ _ Hk1); exact Lb).
    destruct (filter_safe deg b2 bb o L2) as (c3 & K3 & b3 & E3 & Hc3 & HK3 & Hk3). rewrite E3 in H. cbn [bind] in H.
    destruct (Z.eqb_spec c3 SUCCESS) as [->|N3]; cbn [negb] in H; [|injection H as -> _ _; congruence].
    destruct (filter_result deg b2 bb o K3 b3 L2 E3 Hf) as [_ Hap].
    assert (Hin : forall i, (i < K3)%nat -> inside bb (nth i b3 0)) by (intros i Hi; apply (filter_inside deg b2 bb o K3 b3 i L2 E3 Hf Hi)).
    destruct (deg <=? K)%nat; [injection H as <- <-; auto|].
    set (K4 := if (K <? K3)%nat then K else K3) in *. assert (HK4 : (K4 <= K3)%nat /\ (K4 <= K)%nat) by (unfold K4; destruct (Nat.ltb_spec K K3); lia).
    pose proof (kept_length _ _ _ Hk3) as L3.
    inv_bind H. injection H as <- <-.
    assert (Hcp : forall i, (i < K4)%nat -> nth_error x i = nth_error b3 i).
    { unfold copy in Hx. destruct (for_inv (fun j l => length l = length bs /\ forall i, (i < j)%nat -> nth_error l i = nth_error b3 i)
        (fun i dst => x <- aget b3 i;; aset dst (0 + i) x) K4 0%nat bs) as (l & El & Ll & Hl).
      - split; [reflexivity|lia].
      - intros j l Hj [Ll Hl]. rewrite (aget_nth b3 (RtoC 0) j) by lia. cbn [bind]. rewrite (aset_upd l (0 + j)) by lia. eexists. split; [reflexivity|]. split; [now rewrite upd_length|].
        intros i Hi. destruct (Nat.eq_dec i j) as [->|Nij].
        + rewrite (nth_error_nth' b3 (RtoC 0)) by lia. rewrite (nth_error_nth' _ (RtoC 0)) by (rewrite upd_length; lia). rewrite nth_upd by lia. rewrite Nat.eqb_refl. reflexivity.
        + rewrite nth_error_upd_other by lia. apply Hl. lia.
      - rewrite El in Hx. injection Hx as <-. exact Hl. }
    assert (Lx : (K4 <= length x)%nat).
    { destruct (Nat.eq_dec K4 0) as [->|Nz]; [lia|]. assert (Hlt : nth_error x (K4 - 1) <> None) by (rewrite Hcp by lia; apply nth_error_Some; lia).
      apply nth_error_Some in Hlt. lia. }
    split.
    + intros i Hi. rewrite (nth_error_nth x i (x := nth i b3 0)); [apply Hin; lia|]. rewrite Hcp by exact Hi. apply nth_error_nth'. lia.
    + intros i j a b Hij Ha Hb.
      assert (Hfn : forall k y, nth_error (firstn K4 x) k = Some y -> (k < K4)%nat /\ nth_error (firstn K3 b3) k = Some y).
      { intros k y Hy. assert (Hk : (k < K4)%nat) by (assert (Hn : nth_error (firstn K4 x) k <> None) by congruence; apply nth_error_Some in Hn; rewrite firstn_length in Hn; lia).
        split; [exact Hk|]. rewrite <- (firstn_skipn K3 b3) in Hcp. specialize (Hcp k Hk). rewrite nth_error_app1 in Hcp by (rewrite firstn_length; lia).
        rewrite <- Hcp. rewrite <- (firstn_skipn K4 x). rewrite nth_error_app1 by (rewrite firstn_length; lia). exact Hy. }
      apply (Hap i j a b Hij); now apply Hfn.
  - destruct (newton_safe E s D q r T K bs (base_method (discretization o)) (niter o) (tol o) bb (normalization_flag o) HE HD2 Lq Lr HT HK) as (c1 & b1 & E1 & Hc1 & Hk1).
    rewrite E1 in H. cbn [bind] in H. destruct (Z.eq_dec c1 SUCCESS) as [->|N1]; [|exfalso; eapply Hcheck; eassumption].
    unfold check at 1 in H. change (Z.eqb SUCCESS SUCCESS) with true in H. cbn iota in H.
    assert (L1 : (K <= length b1)%nat) by (rewrite (kept_length _ _ _ Hk1); exact HK).
    destruct (filter_safe K b1 bb o L1) as (c3 & K3 & b3 & E3 & Hc3 & HK3 & Hk3). rewrite E3 in H. cbn [bind] in H.
    destruct (Z.eqb_spec c3 SUCCESS) as [->|N3]; cbn [negb] in H; [|injection H as -> _ _; congruence].
    injection H as <- <-. split; [intros i Hi; apply (filter_inside K b1 bb o K3 b3 i L1 E3 Hf Hi)|]. apply (filter_result K b1 bb o K3 b3 L1 E3 Hf).
  - discriminate.
  - discriminate.
Qed.
