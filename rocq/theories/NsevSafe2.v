(** * fnft_nsev stays inside the arrays of the caller (C45): proofs, part 2; the Newton loop (C46) *)
From Coq Require Import Reals Lra.
From Coquelicot Require Import Coquelicot.
From Verif Require Import Loop MiscSpec MiscProof MiscProps MiscMetricProps PolyFmultProof DiscProps NsevSpec NsevProps NsevSafe.
Local Open Scope C_scope.

(** ** Norming constants and residues *)
Lemma residue_loop_safe n K off ap Ws : length ap = K -> (forall w, Ws = Some w -> length w = K) -> (off + K <= n)%nat ->
  forall cnt i nc, (i + cnt <= K)%nat -> (off + K <= length nc)%nat ->
  exists c nc', residue_loop cnt i off ap Ws nc = Ret (c, nc') /\ ok_code c /\ kept n nc nc'.
Proof.
  intros La Lw Hn. induction cnt as [|k IH]; intros i nc Hi Hnc; cbn [residue_loop]; [done_ok|].
  ag; [lia|]. destruct (ceq x 0); [done_ok|]. ag; [lia|]. ase n; [lia|lia|].
  destruct Ws as [w|]; cbn [bind].
  - specialize (Lw w eq_refl). ag; [lia|]. ag; [lia|]. ase n; [lia|lia|].
    destruct (IH (S i) l0) as (c & nc' & -> & Hc & Hk); [lia|lia|]. exists c, nc'. split; [reflexivity|]. split; [exact Hc|].
    repeat (eapply kept_trans; [eassumption|]). apply kept_refl.
  - destruct (IH (S i) l) as (c & nc' & -> & Hc & Hk); [lia|lia|]. exists c, nc'. split; [reflexivity|]. split; [exact Hc|].
    repeat (eapply kept_trans; [eassumption|]). apply kept_refl.
Qed.

Lemma normconsts_safe E s D q r T K bs nc o : env_ok E -> (2 <= D)%nat -> length q = D -> length r = D -> (fst T < snd T)%R ->
  (1 <= K <= length bs)%nat -> (ds_values (discspec_type o) * K <= length nc)%nat ->
  exists c nc', nsev_compute_normconsts E s D q r T K bs nc o = Ret (c, nc') /\ ok_code c /\ kept (ds_values (discspec_type o) * K) nc nc'.
Proof.
  intros HE HD Lq Lr HT HK Hnc. unfold nsev_compute_normconsts.
  set (n := (ds_values (discspec_type o) * K)%nat) in *.
  assert (HKn : (K <= n)%nat) by (unfold n; destruct (discspec_type o); cbn; lia).
  destruct (e_alloc E s 5); cbn [negb]; [|done_ok].
  destruct (normalization_flag o && negb (e_alloc E s 6)); [done_ok|].
  destruct (Nat.eqb _ 0); [done_ok|].
  destruct (k_sbs E HE s D q r T K (firstn K bs) (normalization_flag o) (base_method (discretization o)) false HD Lq Lr HT) as
    (c & a & ap & b & Ws & -> & Hc & La & Lap & Lb & LW); [lia|rewrite firstn_length; lia|].
  specialize (Lb eq_refl). cbn [bind].
  destruct (copy_kept K 0 b nc n) as (nc1 & -> & K1); [lia|lia|lia|]. cbn [bind]. pose proof (kept_length _ _ _ K1).
  apply (check_safe (kept n nc)); [exact Hc|exact K1|]. intros _.
  assert (Hw : forall w, (if normalization_flag o then Some Ws else None) = Some w -> length w = K).
  { intros w Ew. destruct (normalization_flag o); [|discriminate]. injection Ew as <-. auto. }
  destruct (discspec_type o) eqn:Eds; cbn [ds_values] in *.
  - eexists _, _. split; [reflexivity|]. split; [codes|exact K1].
  - destruct (residue_loop_safe n K 0 ap (if normalization_flag o then Some Ws else None) Lap Hw ltac:(lia) K 0 nc1) as (c2 & nc2 & -> & Hc2 & K2); [lia|lia|].
    eexists _, _. split; [reflexivity|]. split; [exact Hc2|]. eapply kept_trans; eassumption.
  - destruct (copy_kept K K nc1 nc1 n) as (nc3 & -> & K3); [lia|lia|lia|]. cbn [bind]. pose proof (kept_length _ _ _ K3).
    destruct (residue_loop_safe n K K ap (if normalization_flag o then Some Ws else None) Lap Hw ltac:(lia) K 0 nc3) as (c2 & nc2 & -> & Hc2 & K2); [lia|lia|].
    eexists _, _. split; [reflexivity|]. split; [exact Hc2|]. repeat (eapply kept_trans; [eassumption|]). apply kept_refl.
  - eexists _, _. split; [reflexivity|]. split; [codes|exact K1].
Qed.

(** ** Newton: the loop ends, after at most (niter - iter + 1) / 2 calls *)
Lemma newton_loop_safe E s D q r T d nit tl bb norm : env_ok E -> (2 <= D)%nat -> length q = D -> length r = D -> (fst T < snd T)%R ->
  forall fuel iter lam, (nit - iter < fuel)%nat ->
  exists c lam' calls, newton_loop E fuel iter s D q r T d nit tl bb norm lam = Ret (c, lam', calls) /\ ok_code c
    /\ (2 * calls <= nit - iter + 1)%nat.
Proof.
  intros HE HD Lq Lr HT. induction fuel as [|fuel IH]; intros iter lam Hf; [lia|]; cbn [newton_loop].
  destruct (Nat.ltb_spec iter nit) as [Hi|Hi]; cbn [negb].
  2:{ exists SUCCESS, lam, O. split; [reflexivity|]. split; [codes|lia]. }
  destruct (k_sbs E HE s D q r T 1 [lam] norm d true HD Lq Lr HT) as (c & a & ap & b & Ws & -> & Hc & La & Lap & _ & _); [lia|reflexivity|].
  cbn [bind]. destruct (Z.eqb_spec c SUCCESS) as [_|N]; cbn [negb].
  2:{ rewrite E_SUB_ok by exact Hc. cbn [bind]. rewrite E_SUB_ok by now apply ok_neg. cbn [bind].
      eexists _, _, _. split; [reflexivity|]. split; [now apply ok_neg, ok_neg|lia]. }
  ag; [lia|]. ag; [lia|]. 
  assert (H1 : forall (c0 : Z) (l : C), ok_code c0 -> exists (c : Z) (lam' : C) (calls : nat), Ret (c0, l, 1%nat) = Ret (c, lam', calls) /\ ok_code c /\ (2 * calls <= nit - iter + 1)%nat).
  { intros c0 l H0. exists c0, l, 1%nat. split; [reflexivity|]. split; [exact H0|lia]. }
  destruct (ceq x 0); [apply H1; codes|]. destruct (ceq _ 0); [apply H1; codes|].
  destruct (left_box _ _); [apply H1; codes|]. destruct (_ || _); [apply H1; codes|].
  match goal with |- context [newton_loop E fuel ?it s D q r T d nit tl bb norm ?l] => destruct (IH it l) as (c1 & l1 & n1 & -> & Hc1 & Hn1) end; [lia|].
  cbn [bind]. eexists _, _, _. split; [reflexivity|]. split; [exact Hc1|lia].
Qed.

Lemma newton_all_safe E s D q r T d nit tl bb norm n : env_ok E -> (2 <= D)%nat -> length q = D -> length r = D -> (fst T < snd T)%R ->
  forall cnt i bs, (i + cnt <= n)%nat -> (n <= length bs)%nat ->
  exists c bs', newton_all E cnt i s D q r T d nit tl bb norm bs = Ret (c, bs') /\ ok_code c /\ kept n bs bs'.
Proof.
  intros HE HD Lq Lr HT. induction cnt as [|k IH]; intros i bs Hi Hn; cbn [newton_all]; [done_ok|].
  ag; [lia|]. destruct (newton_loop_safe E s D q r T d nit tl bb norm HE HD Lq Lr HT (S nit) 0 x) as (c & l & calls & -> & Hc & _); [lia|].
  cbn [bind]. ase n; [lia|lia|]. destruct (Z.eqb c SUCCESS); cbn [negb].
  - destruct (IH (S i) l0) as (c1 & b1 & -> & Hc1 & K1); [lia|lia|]. exists c1, b1. split; [reflexivity|]. split; [exact Hc1|]. eapply kept_trans; eassumption.
  - eexists _, _. split; [reflexivity|]. split; [exact Hc|assumption].
Qed.

Lemma newton_safe E s D q r T K bs d nit tl bb norm : env_ok E -> (2 <= D)%nat -> length q = D -> length r = D -> (fst T < snd T)%R ->
  (K <= length bs)%nat ->
  exists c bs', nsev_refine_newton E s D q r T K bs d nit tl bb norm = Ret (c, bs') /\ ok_code c /\ kept K bs bs'.
Proof.
  intros HE HD Lq Lr HT HK. unfold nsev_refine_newton. destruct (Nat.eqb K 0); [done_ok|]. destruct (Nat.eqb nit 0); [done_ok|].
  destruct (_ || _); [done_ok|]. apply newton_all_safe; auto.
Qed.

(** ** Bounding box, filter, merge *)
Lemma l2norm_ret n (l : list C) a b : length l = n -> exists v, misc_l2norm2 n l a b = Ret v.
Proof. intros <-. rewrite misc_l2norm2_rectangle_rule. eexists. reflexivity. Qed.

Lemma box_safe E s D Dg q T eps_t o : known_disc (discretization o) ->
  D = (Dg * nse_upsampling_factor (discretization o))%nat -> length q = D ->
  exists c bb, nsev_box E s D q T eps_t o = Ret (c, bb) /\ ok_code c.
Proof.
  intros Hd HD Lq. unfold nsev_box. cbv zeta. pose proof (known_ups _ Hd) as Hu.
  assert (ED : (D / nse_upsampling_factor (discretization o) = Dg)%nat) by (rewrite HD; apply Nat.div_mul; lia).
  destruct (bound_state_filtering o).
  - eexists _, _. split; [reflexivity|codes].
  - eexists _, _. split; [reflexivity|codes].
  - assert (H1 : forall (k : xreal -> out (Z * xbox)), (forall im, exists c bb, k im = Ret (c, bb) /\ ok_code c) ->
      exists c bb, (im <- im_bound D q T eps_t ;; k im) = Ret (c, bb) /\ ok_code c).
    { intros k Hk. unfold im_bound. destruct (l2norm_ret D q (fst T - eps_t / 2) (snd T + eps_t / 2) Lq) as (v & ->). cbn [bind]. apply Hk. }
    assert (H2 : nse_upsampling_factor (discretization o) = 3%nat -> forall (k : xreal -> out (Z * xbox)), (forall im, exists c bb, k im = Ret (c, bb) /\ ok_code c) ->
      exists c bb, (qt <- for_ Dg 0 (fun i acc => x <- aget q (3 * i) ;; Ret (acc ++ [x])) [] ;; im <- im_bound Dg qt T eps_t ;; k im) = Ret (c, bb) /\ ok_code c).
    { intros H3 k Hk. destruct (for_inv (fun i (l : list C) => length l = i) (fun i acc => x <- aget q (3 * i) ;; Ret (acc ++ [x])) Dg 0 [] eq_refl) as (qt & -> & Lqt).
      { intros i l Hi Hl. ag; [lia|]. eexists. split; [reflexivity|]. rewrite app_length. cbn. lia. }
      cbn [bind]. unfold im_bound. destruct (l2norm_ret Dg qt (fst T - eps_t / 2) (snd T + eps_t / 2) Lqt) as (v & ->). cbn [bind]. apply Hk. }
    rewrite ED.
    destruct (discretization o); try (apply H1; intros im; eexists _, _; split; [reflexivity|codes]);
    (destruct (e_alloc E s 7); cbn [negb]; [apply H2; [reflexivity|intros im; eexists _, _; split; [reflexivity|codes]]|eexists _, _; split; [reflexivity|codes]]).
  - destruct (_ || _); eexists _, _; (split; [reflexivity|codes]).
  - eexists _, _. split; [reflexivity|codes].
Qed.

Lemma nth_error_skip {A} (l : list A) n i : nth_error (skipn n l) i = nth_error l (n + i).
Proof. revert l. induction n as [|n IH]; intros [|a l]; cbn; auto. destruct i; reflexivity. Qed.
Lemma kept_skipn {A} n (l l' : list A) : length l' = length l -> skipn n l' = skipn n l -> kept n l l'.
Proof.
  intros HL HS. split; [exact HL|]. intros i Hi. replace i with (n + (i - n))%nat by lia. rewrite <- !nth_error_skip. now rewrite HS.
Qed.

Lemma cfilter_safe K vals bb : (K <= length vals)%nat ->
  exists c K' v, cfilter K vals bb = Ret (c, K', v) /\ ok_code c /\ (K' <= K)%nat /\ kept K vals v
    /\ (c = SUCCESS -> exists tl, v = filter (box_keep bb) (firstn K vals) ++ tl /\ K' = length (filter (box_keep bb) (firstn K vals))).
Proof.
  intros HK. unfold cfilter. destruct (_ || _).
  - eexists _, _, _. split; [reflexivity|]. split; [codes|]. split; [lia|]. split; [apply kept_refl|discriminate].
  - destruct (filter_loop_none (box_keep bb) (firstn K vals) [] [] (skipn K vals) 0 0 eq_refl eq_refl) as (mid & HL & HF).
    cbn [app length] in HL, HF. rewrite firstn_skipn, firstn_length_le in HF by exact HK. rewrite HF. cbn [bind].
    rewrite firstn_length_le in HL by exact HK.
    eexists _, _, _. split; [reflexivity|]. split; [codes|]. split; [lia|]. split.
    + apply kept_skipn.
      * rewrite !app_length, skipn_length. lia.
      * rewrite app_assoc, skipn_app, skipn_all2 by (rewrite app_length; lia). rewrite app_length. replace (K - _)%nat with O by lia. reflexivity.
    + intros _. eexists. split; [reflexivity|]. reflexivity.
Qed.

Lemma cmerge_safe K vals : (K <= length vals)%nat ->
  exists K' v, cmerge K vals = Ret (SUCCESS, K', v) /\ (K' <= K)%nat /\ kept K vals v.
Proof.
  intros HK. unfold cmerge. destruct K as [|K].
  - cbn. eexists _, _. split; [reflexivity|]. split; [lia|apply kept_refl].
  - destruct (misc_merge_spec cnear (S K) vals) as (m & v & E & Hm & Lv & Sv & _); [lia|]. rewrite E. cbn [bind].
    eexists _, _. split; [reflexivity|]. split; [lia|]. now apply kept_skipn.
Qed.

Lemma filter_safe K vals bb o : (K <= length vals)%nat ->
  exists c K' v, nsev_filter K vals bb o = Ret (c, (K', v)) /\ ok_code c /\ (K' <= K)%nat /\ kept K vals v.
Proof.
  intros HK. unfold nsev_filter.
  assert (H : exists c K' v, (f <- cfilter K vals bb ;; let '(code, K, buffer) := f in
      check code (K, buffer) (m <- cmerge K buffer ;; let '(code, K, buffer) := m in
      check code (K, buffer) (Ret (SUCCESS, (K, buffer))))) = Ret (c, (K', v)) /\ ok_code c /\ (K' <= K)%nat /\ kept K vals v).
  { destruct (cfilter_safe K vals bb HK) as (c & K1 & v1 & -> & Hc & HK1 & Hk1 & _). cbn [bind].
    pose proof (kept_length _ _ _ Hk1).
    destruct (check_safe (fun x : nat * list C => (fst x <= K)%nat /\ kept K vals (snd x)) c (K1, v1)
      (m <- cmerge K1 v1 ;; let '(code, K, buffer) := m in check code (K, buffer) (Ret (SUCCESS, (K, buffer))))) as (c2 & [K2 v2] & E2 & Hc2 & H2).
    - exact Hc.
    - cbn. auto.
    - intros _. destruct (cmerge_safe K1 v1) as (K3 & v3 & -> & HK3 & Hk3); [lia|]. cbn [bind]. unfold check. cbn [Z.eqb SUCCESS].
      eexists _, (_, _). split; [reflexivity|]. split; [codes|]. cbn. split; [lia|]. eapply kept_trans; [exact Hk1|]. eapply kept_mono; [|exact Hk3]. lia.
    - exists c2, K2, v2. split; [exact E2|]. split; [exact Hc2|exact H2]. }
  destruct (bound_state_filtering o); try exact H.
  eexists _, _, _. split; [reflexivity|]. split; [codes|]. split; [lia|apply kept_refl].
Qed.

(** ** Bound states *)
Lemma boundstates_safe E s D Dg q r deg tm T eps_t K_in bs o : env_ok E -> known_disc (discretization o) ->
  D = (Dg * nse_upsampling_factor (discretization o))%nat -> (2 <= Dg)%nat -> length q = D -> length r = D -> (fst T < snd T)%R ->
  (K_in <= length bs)%nat ->
  (bound_state_localization o = BL_FAST_EIGENVALUE -> exists t, tm = Some t /\ (4 * (deg + 1) <= length t)%nat) ->
  exists c K bs', nsev_compute_boundstates E s D q r deg tm T eps_t K_in bs o = Ret (c, (K, bs')) /\ ok_code c
    /\ (K <= K_in)%nat /\ kept K_in bs bs'.
Proof.
  intros HE Hd HD Hg Lq Lr HT HK Htm. unfold nsev_compute_boundstates.
  pose proof (known_ups _ Hd) as Hu. destruct (Nat.eqb_spec (nse_upsampling_factor (discretization o)) 0); [lia|].
  assert (HD2 : (2 <= D)%nat) by nia.
  assert (Hfail : forall c0 b0, ok_code c0 -> kept K_in bs b0 -> exists c K bs', Ret (c0, (K_in, b0)) = Ret (c, (K, bs')) /\ ok_code c /\ (K <= K_in)%nat /\ kept K_in bs bs').
  { intros c0 b0 H0 H1. exists c0, K_in, b0. auto. }
  destruct (box_safe E s D Dg q T eps_t o Hd HD Lq) as (c1 & bb & -> & Hc1). cbn [bind].
  destruct (Z.eqb c1 SUCCESS); cbn [negb]; [|apply Hfail; [exact Hc1|apply kept_refl]].
  destruct (bound_state_localization o).
  - destruct (Htm eq_refl) as (t & -> & Lt). cbn [deref bind].
    destruct (Nat.leb_spec deg K_in) as [Ho|Ho]; cbn [Nat.leb].
    + destruct (k_roots E HE s deg (firstn (deg + 1) t) bs) as (c2 & b2 & -> & Hc2 & K2); [rewrite firstn_length; lia|lia|]. cbn [bind].
      assert (K2' : kept K_in bs b2) by (eapply kept_mono; [|exact K2]; lia).
      unfold check. destruct (Z.eqb_spec c2 SUCCESS). 2:{ rewrite E_SUB_ok by exact Hc2. cbn [bind]. apply Hfail; [now apply ok_neg|exact K2']. }
      pose proof (kept_length _ _ _ K2).
      destruct (z2l_safe deg eps_t b2 (discretization o)) as (c3 & b3 & -> & Hc3 & K3); [lia|]. cbn [bind].
      assert (K3' : kept K_in bs b3) by (eapply kept_trans; [exact K2'|]; eapply kept_mono; [|exact K3]; lia).
      destruct (Z.eqb_spec c3 SUCCESS). 2:{ rewrite E_SUB_ok by exact Hc3. cbn [bind]. apply Hfail; [now apply ok_neg|exact K3']. }
      pose proof (kept_length _ _ _ K3).
      destruct (filter_safe deg b3 bb o) as (c4 & K4 & b4 & -> & Hc4 & HK4 & Kk4); [lia|]. cbn [bind].
      assert (K4' : kept K_in bs b4) by (eapply kept_trans; [exact K3'|]; eapply kept_mono; [|exact Kk4]; lia).
      destruct (Z.eqb c4 SUCCESS); cbn [negb]; [|apply Hfail; assumption].
      eexists _, _, _. split; [reflexivity|]. split; [codes|]. split; [lia|exact K4'].
    + destruct (k_roots E HE s deg (firstn (deg + 1) t) (skipn (deg + 1) t)) as (c2 & b2 & -> & Hc2 & K2); [rewrite firstn_length; lia|rewrite skipn_length; lia|]. cbn [bind].
      unfold check. destruct (Z.eqb_spec c2 SUCCESS). 2:{ rewrite E_SUB_ok by exact Hc2. cbn [bind]. apply Hfail; [now apply ok_neg|apply kept_refl]. }
      pose proof (kept_length _ _ _ K2) as L2. rewrite skipn_length in L2.
      destruct (z2l_safe deg eps_t b2 (discretization o)) as (c3 & b3 & -> & Hc3 & K3); [lia|]. cbn [bind].
      destruct (Z.eqb_spec c3 SUCCESS). 2:{ rewrite E_SUB_ok by exact Hc3. cbn [bind]. apply Hfail; [now apply ok_neg|apply kept_refl]. }
      pose proof (kept_length _ _ _ K3).
      destruct (filter_safe deg b3 bb o) as (c4 & K4 & b4 & -> & Hc4 & HK4 & Kk4); [lia|]. cbn [bind].
      destruct (Z.eqb c4 SUCCESS); cbn [negb]; [|apply Hfail; [exact Hc4|apply kept_refl]].
      pose proof (kept_length _ _ _ Kk4).
      set (K := if (K_in <? K4)%nat then K_in else K4). assert (HK5 : (K <= K_in /\ K <= K4)%nat) by (unfold K; destruct (Nat.ltb_spec K_in K4); lia).
      destruct (copy_kept K 0 b4 bs K_in) as (b5 & -> & K5); [lia|lia|lia|]. cbn [bind].
      eexists _, _, _. split; [reflexivity|]. split; [codes|]. split; [lia|exact K5].
  - destruct (newton_safe E s D q r T K_in bs (base_method (discretization o)) (niter o) (tol o) bb (normalization_flag o) HE HD2 Lq Lr HT HK) as (c2 & b2 & -> & Hc2 & K2).
    cbn [bind]. unfold check. destruct (Z.eqb_spec c2 SUCCESS). 2:{ rewrite E_SUB_ok by exact Hc2. cbn [bind]. apply Hfail; [now apply ok_neg|exact K2]. }
    pose proof (kept_length _ _ _ K2).
    destruct (filter_safe K_in b2 bb o) as (c4 & K4 & b4 & -> & Hc4 & HK4 & Kk4); [lia|]. cbn [bind].
    assert (K4' : kept K_in bs b4) by (eapply kept_trans; eassumption).
    destruct (Z.eqb c4 SUCCESS); cbn [negb]; [|apply Hfail; assumption].
    eexists _, _, _. split; [reflexivity|]. split; [codes|]. split; [lia|exact K4'].
  - apply Hfail; [codes|apply kept_refl].
  - apply Hfail; [codes|apply kept_refl].
Qed.
