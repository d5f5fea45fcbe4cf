(** * fnft_manakovv stays inside the arrays of the caller and succeeds if nothing fails (C52, C73): the parts *)
From Coq Require Import Reals Lra.
From Coquelicot Require Import Coquelicot.
From Verif Require Import Loop MiscSpec MiscProof MiscProps MiscMetricProps PolyFmultProof DiscProps DiscPreProps NsevSpec NsevProps
  NsevSafe NsevSafe2 NsevSafe3 NsevSafe4 NsevSafe5 NsevDisc NsevDisc2 ManvSpec ManvProps.
Local Open Scope C_scope.

(** ** Transforms, phase factors *)
Lemma fill_kept n (f : nat -> out C) (vals : list C) : (n <= length vals)%nat -> (forall i, (i < n)%nat -> exists x, f i = Ret x) ->
  exists v, fill n 0 f vals = Ret v /\ kept n vals v.
Proof.
  intros H Hf. destruct (fill_ok (fun i => match f i with Ret x => x | UB => RtoC 0 end) (RtoC 0) n 0 f vals) as (v & Ev & Lv & Nv).
  { lia. } { intros i Hi. destruct (Hf i ltac:(lia)) as (x & ->). reflexivity. }
  exists v. split; [exact Ev|]. split; [exact Lv|].
  intros i Hi. destruct (Nat.lt_ge_cases i (length vals)) as [Hl|Hl].
  - rewrite !(nth_error_nth' _ (RtoC 0)) by lia. f_equal. rewrite Nv. cbn [Nat.leb Nat.add andb].
    destruct (Nat.ltb_spec i n); [lia|reflexivity].
  - assert (H1 : nth_error v i = None) by (apply nth_error_None; lia).
    assert (H2 : nth_error vals i = None) by (apply nth_error_None; lia). congruence.
Qed.
Lemma man_l2z_safe n eps_t vals d : (n <= length vals)%nat ->
  exists c v, man_lambda_to_z n eps_t vals d = Ret (c, v) /\ ok_code c /\ kept n vals v /\ (man_degree d <> O -> c = SUCCESS).
Proof.
  intros H. unfold man_lambda_to_z. cbv zeta.
  destruct d; cbn [man_degree man_upsampling_factor Nat.eqb];
  try (eexists _, _; split; [reflexivity|]; split; [apply ok_small; lia|]; split; [apply kept_refl|congruence]);
  (match goal with |- context [fill n 0 ?f vals] => destruct (fill_kept n f vals H) as (v & -> & Hv) end;
   [intros i Hi; ag; [lia|]; eauto|cbn [bind]; eexists _, _; split; [reflexivity|]; split; [apply ok_small; lia|]; split; [exact Hv|reflexivity]]).
Qed.
Lemma man_z2l_safe n eps_t vals d : (n <= length vals)%nat ->
  exists c v, man_z_to_lambda n eps_t vals d = Ret (c, v) /\ ok_code c /\ kept n vals v /\ (man_degree d <> O -> c = SUCCESS).
Proof.
  intros H. unfold man_z_to_lambda. cbv zeta.
  destruct d; cbn [man_degree man_upsampling_factor Nat.eqb];
  try (eexists _, _; split; [reflexivity|]; split; [apply ok_small; lia|]; split; [apply kept_refl|congruence]);
  (match goal with |- context [fill n 0 ?f vals] => destruct (fill_kept n f vals H) as (v & -> & Hv) end;
   [intros i Hi; ag; [lia|]; eauto|cbn [bind]; eexists _, _; split; [reflexivity|]; split; [apply ok_small; lia|]; split; [exact Hv|reflexivity]]).
Qed.

(** the phase factors are numbers, and that of rho is the difference of those of b and a *)
Lemma mphases eps_t D T0 T1 d : man_known d -> exists pr pa pb, phase (man_phase_factor_rho eps_t T1 d) = Ret (SUCCESS, pr)
  /\ phase (man_phase_factor_a eps_t D T0 T1 d) = Ret (SUCCESS, pa) /\ phase (man_phase_factor_b eps_t D T0 T1 d) = Ret (SUCCESS, pb) /\ pr = (pb - pa)%R.
Proof. intros Hd. destruct (man_phase_factors_consistent d eps_t T0 T1 D Hd) as (r & a & b & -> & -> & -> & E). exists r, a, b. auto. Qed.

(** ** The continuous spectrum *)
Lemma nth_upd_same (l : list C) i x : (i < length l)%nat -> nth i (upd l i x) (RtoC 0) = x.
Proof. intros H. rewrite nth_upd by exact H. now rewrite Nat.eqb_refl. Qed.
Lemma nth_upd_other (l : list C) i j x : (i < length l)%nat -> j <> i -> nth j (upd l i x) (RtoC 0) = nth j l (RtoC 0).
Proof. intros H N. rewrite nth_upd by exact H. destruct (Nat.eqb_spec j i); [contradiction|reflexivity]. Qed.
Ltac agn := match goal with |- context [@aget C ?l ?i] => rewrite (aget_nth l (RtoC 0) i); [cbn [bind]|] end.
Ltac asu := match goal with |- context [@aset C ?l ?i ?v] => rewrite (aset_upd l i v); [cbn [bind]|] end.
Lemma kept_upd (l : list C) n i x : (i < n)%nat -> kept n l (upd l i x).
Proof. intros H. split; [apply upd_length|]. intros j Hj. apply nth_error_upd_other. lia. Qed.

Lemma mrho_loop_spec H11 H21 H31 xi ph M : length H11 = M -> length H21 = M -> length H31 = M -> length xi = M ->
  forall cnt i result, (i + cnt = M)%nat -> (2 * M <= length result)%nat ->
  exists c res, mrho_loop cnt i M H11 H21 H31 xi ph result = Ret (c, res) /\ ok_code c /\ kept (2 * M) result res
    /\ (forall j, (j < i)%nat -> nth j res 0 = nth j result 0 /\ nth (M + j) res 0 = nth (M + j) result 0)
    /\ (c = SUCCESS -> forall j, (i <= j < M)%nat -> nth j H11 0 <> 0 /\
         nth j res 0 = nth j H21 0 * Cexp (Ci * nth j xi 0 * RtoC ph) / nth j H11 0 /\
         nth (M + j) res 0 = nth j H31 0 * Cexp (Ci * nth j xi 0 * RtoC ph) / nth j H11 0).
Proof.
  intros L1 L2 L3 L4. induction cnt as [|k IH]; intros i result Hi Hr; cbn [mrho_loop].
  - eexists _, _. split; [reflexivity|]. split; [codes|]. split; [apply kept_refl|]. split; [auto|]. intros _ j Hj. lia.
  - agn; [|lia]. destruct (ceq (nth i H11 (RtoC 0)) 0) eqn:Ec.
    { eexists _, _. split; [reflexivity|]. split; [codes|]. split; [apply kept_refl|]. split; [auto|]. discriminate. }
    do 2 (agn; [|lia]). asu; [|lia]. agn; [|lia]. asu; [|rewrite upd_length; lia].
    set (r1 := upd result i _). set (r2 := upd r1 (M + i) _). assert (Lr1 : length r1 = length result) by apply upd_length. assert (Lr2 : length r2 = length result) by (unfold r2; now rewrite upd_length).
    destruct (IH (S i) r2) as (c & res & -> & Hc & Hk & Hold & Hnew); [lia|lia|].
    exists c, res. split; [reflexivity|]. split; [exact Hc|]. split; [|split].
    + eapply kept_trans; [|exact Hk]. eapply kept_trans; [apply (kept_upd result (2 * M) i); lia|]. apply kept_upd. lia.
    + intros j Hj. destruct (Hold j ltac:(lia)) as [-> ->]. unfold r2, r1. rewrite !nth_upd_other by (rewrite ?upd_length; lia). auto.
    + intros Hs j Hj. destruct (Nat.eq_dec j i) as [->|N]; [|apply Hnew; [exact Hs|lia]].
      destruct (Hold i ltac:(lia)) as [-> ->]. split.
      * intros E0. unfold ceq in Ec. rewrite E0 in Ec. destruct (Ceq_dec 0 0); [discriminate|congruence].
      * unfold r2. rewrite nth_upd_same by lia. rewrite nth_upd_other by lia. unfold r1. rewrite nth_upd_same by lia. split; reflexivity.
Qed.

Lemma mab_loop_spec H11 H21 H31 xi sc pa pb M off result : length H11 = M -> length H21 = M -> length H31 = M -> length xi = M ->
  (off + 3 * M <= length result)%nat ->
  exists res, mab_loop M off H11 H21 H31 xi sc pa pb result = Ret res /\ kept (off + 3 * M) result res
    /\ (forall j, (j < off)%nat -> nth j res 0 = nth j result 0)
    /\ forall j, (j < M)%nat -> nth (off + j) res 0 = nth j H11 0 * RtoC sc * Cexp (Ci * nth j xi 0 * RtoC pa)
         /\ nth (off + M + j) res 0 = nth j H21 0 * RtoC sc * Cexp (Ci * nth j xi 0 * RtoC pb)
         /\ nth (off + 2 * M + j) res 0 = nth j H31 0 * RtoC sc * Cexp (Ci * nth j xi 0 * RtoC pb).
Proof.
  intros L1 L2 L3 L4 Hr. unfold mab_loop.
  set (P := fun i (l : list C) => kept (off + 3 * M) result l /\ (forall j, (j < off)%nat -> nth j l 0 = nth j result 0)
    /\ forall j, (j < i)%nat -> nth (off + j) l 0 = nth j H11 0 * RtoC sc * Cexp (Ci * nth j xi 0 * RtoC pa)
         /\ nth (off + M + j) l 0 = nth j H21 0 * RtoC sc * Cexp (Ci * nth j xi 0 * RtoC pb)
         /\ nth (off + 2 * M + j) l 0 = nth j H31 0 * RtoC sc * Cexp (Ci * nth j xi 0 * RtoC pb)).
  match goal with |- context [for_ M 0 ?f result] => destruct (for_inv P f M 0%nat result) as (l & El & Hl) end.
  - split; [apply kept_refl|]. split; [auto|]. lia.
  - intros i l Hi (Hk & Ho & Hn). pose proof (kept_length _ _ _ Hk) as Ll. do 4 (agn; [|lia]).
    asu; [|lia]. asu; [|rewrite upd_length; lia]. rewrite aset_upd by (rewrite !upd_length; lia).
    eexists. split; [reflexivity|]. split; [|split].
    + do 3 (eapply kept_trans; [|apply kept_upd; lia]). exact Hk.
    + intros j Hj. rewrite !nth_upd_other by (rewrite ?upd_length; lia). now apply Ho.
    + intros j Hj. destruct (Nat.eq_dec j i) as [->|N].
      * rewrite (nth_upd_other _ (off + 2 * M + i) (off + i)) by (rewrite ?upd_length; lia). rewrite (nth_upd_other _ (off + M + i) (off + i)) by (rewrite ?upd_length; lia).
        rewrite nth_upd_same by lia. rewrite (nth_upd_other _ (off + 2 * M + i) (off + M + i)) by (rewrite ?upd_length; lia).
        rewrite nth_upd_same by (rewrite upd_length; lia). rewrite nth_upd_same by (rewrite !upd_length; lia). auto.
      * rewrite !nth_upd_other by (rewrite ?upd_length; lia). apply Hn. lia.
  - exists l. split; [exact El|]. exact Hl.
Qed.

(** c says how the call ended; if nothing can fail it is success *)
Lemma mcontspec_values_safe E s deg W tm q1 q2 eps_t eps_xi D M XI0 xi kappa o : menv_ok E -> 
  (2 <= D)%nat -> length q1 = D -> length q2 = D -> (0 < eps_t)%R -> (1 <= M)%nat -> length xi = M ->
  (tm = None -> deg = O /\ W = 0%Z) -> (forall t, tm = Some t -> (9 * (deg + 1) <= length t)%nat) -> (tm <> None -> man_degree (m_disc o) <> O) ->
  exists c H11 H21 H31, mcontspec_values E s deg W tm q1 q2 eps_t eps_xi D M XI0 xi kappa o = Ret (c, (H11, H21, H31))
    /\ ok_code c /\ (c = SUCCESS -> length H11 = M /\ length H21 = M /\ length H31 = M) /\ (mnever_fails E -> c = SUCCESS).
Proof.
  intros HE HD Lq Lr He HM Lx Htm Htm2 Htm3. unfold mcontspec_values. cbv zeta.
  destruct (Nat.eqb deg 0 && _ && Z.eqb W 0) eqn:Eb.
  - destruct (me_alloc E s 2) eqn:Ea; cbn [negb]. 2:{ eexists _, _, _, _. split; [reflexivity|]. split; [codes|]. split; [discriminate|]. intros HN. rewrite (nf_alloc E HN) in Ea. discriminate. }
    destruct (km_smat E HE s D q1 q2 eps_t M xi kappa (m_disc o) HD Lq Lr He HM Lx) as (c & sc & Es & Hc & Lsc). rewrite Es.
    cbn [bind]. unfold check. destruct (Z.eqb_spec c SUCCESS) as [->|N].
    + match goal with |- context [for_ M 0 ?f ([], [], [])] => destruct (for_inv (fun i (H : list C * list C * list C) => length (fst (fst H)) = i /\ length (snd (fst H)) = i /\ length (snd H) = i) f M 0%nat ([], [], [])) as (((H11 & H21) & H31) & El & Hl) end.
      { auto. }
      { intros i [[h g] g'] Hi (Hh & Hg & Hg'). cbn [fst snd] in *. do 3 (ag; [lia|]).
        eexists; split; [reflexivity|]; cbn [fst snd]; rewrite !app_length; cbn [length]; lia. }
      rewrite El. cbn [bind]. exists SUCCESS, H11, H21, H31. split; [reflexivity|]. split; [codes|]. split; [intros _; exact Hl|reflexivity].
    + rewrite E_SUB_ok by exact Hc. cbn [bind]. eexists _, _, _, _. split; [reflexivity|]. split; [now apply ok_neg|]. split.
      * intros Hz. now apply abs_nonzero in Hz.
      * intros HN. apply (nf_smat E HN) in Es. contradiction.
  - assert (Ht : exists t, tm = Some t).
    { destruct tm as [t|]; [now exists t|]. destruct (Htm eq_refl) as [-> ->]. discriminate. }
    destruct Ht as (t & ->). specialize (Htm2 t eq_refl). specialize (Htm3 ltac:(discriminate)).
    assert (Hfail : forall c, ok_code c -> c <> SUCCESS -> (mnever_fails E -> c = SUCCESS) -> exists c0 H11 H21 H31, (c <- E_SUBROUTINE c ;; Ret (c, ([], [], []) : list C * list C * list C)) = Ret (c0, (H11, H21, H31))
       /\ ok_code c0 /\ (c0 = SUCCESS -> length H11 = M /\ length H21 = M /\ length H31 = M) /\ (mnever_fails E -> c0 = SUCCESS)).
    { intros c Hc N HN. rewrite E_SUB_ok by exact Hc. cbn [bind]. eexists _, _, _, _. split; [reflexivity|]. split; [now apply ok_neg|].
      split; [|intros H0; exfalso; auto]. intros Hz. now apply abs_nonzero in Hz. }
    destruct (man_l2z_safe 1 eps_t [RtoC eps_xi] (m_disc o)) as (c1 & v1 & -> & Hc1 & K1 & S1); [cbn; lia|]. cbn [bind].
    unfold check. destruct (Z.eqb_spec c1 SUCCESS) as [_|N]; [|apply Hfail; auto].
    destruct (man_l2z_safe 1 eps_t [RtoC (- XI0)] (m_disc o)) as (c2 & v2 & -> & Hc2 & K2 & S2); [cbn; lia|]. cbn [bind].
    destruct (Z.eqb_spec c2 SUCCESS) as [_|N]; [|apply Hfail; auto].
    pose proof (kept_length _ _ _ K1). pose proof (kept_length _ _ _ K2). cbn [length] in *.
    ag; [lia|]. ag; [lia|]. cbn [deref bind].
    match goal with |- context [me_chirpz E s deg ?p ?A ?V M] => destruct (km_chirpz E HE s deg p A V M) as (c3 & H11 & E3 & Hc3 & L3); [rewrite firstn_length; lia|exact HM|] end.
    rewrite E3. cbn [bind]. destruct (Z.eqb_spec c3 SUCCESS) as [S3|N]; [|apply Hfail; auto; intros HN; eapply (nf_chirpz E HN); exact E3].
    match goal with |- context [me_chirpz E s deg ?p ?A ?V M] => destruct (km_chirpz E HE s deg p A V M) as (c4 & H21 & E4 & Hc4 & L4); [rewrite firstn_length, skipn_length; lia|exact HM|] end.
    rewrite E4. cbn [bind]. destruct (Z.eqb_spec c4 SUCCESS) as [S4|N]; [|apply Hfail; auto; intros HN; eapply (nf_chirpz E HN); exact E4].
    match goal with |- context [me_chirpz E s deg ?p ?A ?V M] => destruct (km_chirpz E HE s deg p A V M) as (c5 & H31 & E5 & Hc5 & L5); [rewrite firstn_length, skipn_length; lia|exact HM|] end.
    rewrite E5. cbn [bind]. destruct (Z.eqb_spec c5 SUCCESS) as [S5|N]; [|apply Hfail; auto; intros HN; eapply (nf_chirpz E HN); exact E5].
    exists SUCCESS, H11, H21, H31. split; [reflexivity|]. split; [codes|]. auto.
Qed.

Lemma rho_from_ab (h g x : C) (s pa pb pr : R) : (0 < s)%R -> h <> 0 -> pr = (pb - pa)%R ->
  h * RtoC s * Cexp (Ci * x * RtoC pa) <> 0 /\
  g * Cexp (Ci * x * RtoC pr) / h = (g * RtoC s * Cexp (Ci * x * RtoC pb)) / (h * RtoC s * Cexp (Ci * x * RtoC pa)).
Proof.
  intros Hs Hh ->. assert (Hs0 : RtoC s <> 0) by (intros E; apply RtoC_inj in E; lra).
  pose proof (Cexp_neq0 (Ci * x * RtoC pa)) as He. split.
  - apply Cmult_neq_0; [now apply Cmult_neq_0|exact He].
  - replace (Ci * x * RtoC (pb - pa)) with (Ci * x * RtoC pb - Ci * x * RtoC pa) by (rewrite RtoC_minus; ring).
    unfold Cminus. rewrite Cexp_plus, Cexp_opp. field. auto.
Qed.

Lemma mcontspec_safe E s deg W tm q1 q2 T D Dg XI M result kappa o : menv_ok E -> man_known (m_disc o) ->
  D = (Dg * man_upsampling_factor (m_disc o))%nat -> (2 <= Dg)%nat -> length q1 = D -> length q2 = D -> (fst T < snd T)%R ->
  (2 <= M)%nat -> XI <> None ->
  (tm = None -> deg = O /\ W = 0%Z) -> (forall t, tm = Some t -> (9 * (deg + 1) <= length t)%nat) -> (tm <> None -> man_degree (m_disc o) <> O) ->
  (mcs_values (m_cs o) * M <= length result)%nat ->
  exists c res, manakovv_compute_contspec E s deg W tm q1 q2 T D XI M result kappa o = Ret (c, res) /\ ok_code c
    /\ kept (mcs_values (m_cs o) * M) result res /\ (c = SUCCESS -> m_cs o = CS_BOTH -> rho_is_b_over_a M res)
    /\ (mnever_fails E -> m_cs o = CS_AB -> c = SUCCESS).
Proof.
  intros HE Hd HDg Hg Lq Lr HT HM HXI Htm Htm2 Htm3 Hr. unfold manakovv_compute_contspec. cbv zeta.
  pose proof (proj1 (mups _) Hd) as Hu. destruct (Nat.eqb_spec (man_upsampling_factor (m_disc o)) 0); [lia|].
  assert (ED : (D / man_upsampling_factor (m_disc o) = Dg)%nat) by (rewrite HDg; apply Nat.div_mul; lia).
  rewrite ED, step_ok by exact Hg. cbn [bind]. destruct XI as [[xa xb]|]; [|congruence]. cbn [deref bind fst snd].
  assert (Hfail : forall c, ok_code c -> c <> SUCCESS -> (mnever_fails E -> c = SUCCESS) -> exists c0 res, Ret (c, result) = Ret (c0, res) /\ ok_code c0 /\
    kept (mcs_values (m_cs o) * M) result res /\ (c0 = SUCCESS -> m_cs o = CS_BOTH -> rho_is_b_over_a M res) /\ (mnever_fails E -> m_cs o = CS_AB -> c0 = SUCCESS)).
  { intros c Hc N HN. exists c, result. split; [reflexivity|]. split; [exact Hc|]. split; [apply kept_refl|]. split; [congruence|auto]. }
  rewrite step_ok by exact HM. cbn [bind].
  destruct (me_alloc E s 0) eqn:Ea0; cbn [negb]; [|apply Hfail; [codes|discriminate|intros HN; rewrite (nf_alloc E HN) in Ea0; discriminate]].
  destruct (me_alloc E s 1) eqn:Ea1; cbn [negb]; [|apply Hfail; [codes|discriminate|intros HN; rewrite (nf_alloc E HN) in Ea1; discriminate]].
  match goal with |- context [mcontspec_values E s deg W tm q1 q2 ?a ?b D M ?x ?xi kappa o] =>
    destruct (mcontspec_values_safe E s deg W tm q1 q2 a b D M x xi kappa o HE) as (c & H11 & H21 & H31 & -> & Hc & L & HN) end; auto.
  { nia. } { apply step_pos; lra || exact Hg. } { lia. } { now rewrite map_length, seq_length. }
  cbn [bind]. destruct (Z.eqb_spec c SUCCESS) as [Sc|N]; cbn [negb]; [|now apply Hfail].
  destruct (L Sc) as (L1 & L2 & L3).
  set (xi := map _ (seq 0 M)) in *. assert (Lx : length xi = M) by (unfold xi; now rewrite map_length, seq_length).
  set (eps_t := ((snd T - fst T) / INR (Dg - 1))%R) in *.
  destruct (mphases eps_t Dg (fst T) (snd T) (m_disc o) Hd) as (pr & pa & pb & -> & -> & -> & Epr). cbn [bind fst snd].
  unfold check. change (Z.eqb SUCCESS SUCCESS) with true. cbn iota.
  assert (Hsc : (0 < powerRZ 2 W)%R) by (apply powerRZ_lt; lra).
  destruct (m_cs o); cbn [mcs_values] in *.
  - destruct (mrho_loop_spec H11 H21 H31 xi pr M L1 L2 L3 Lx M 0 result) as (c1 & r1 & -> & Hc1 & K1 & _); [lia|lia|].
    exists c1, r1. split; [reflexivity|]. split; [exact Hc1|]. split; [exact K1|]. split; discriminate.
  - destruct (mab_loop_spec H11 H21 H31 xi (powerRZ 2 W) pa pb M 0 result L1 L2 L3 Lx) as (r1 & -> & K1 & _); [lia|]. cbn [bind].
    exists SUCCESS, r1. split; [reflexivity|]. split; [codes|]. split; [exact K1|]. split; [discriminate|auto].
  - destruct (mrho_loop_spec H11 H21 H31 xi pr M L1 L2 L3 Lx M 0 result) as (c1 & r1 & -> & Hc1 & K1 & _ & V1); [lia|lia|]. cbn [bind].
    assert (K1' : kept (5 * M) result r1) by (eapply kept_mono; [|exact K1]; lia).
    destruct (Z.eqb_spec c1 SUCCESS) as [->|N1]; cbn [negb]. 2:{ eexists _, _. split; [reflexivity|]. split; [exact Hc1|]. split; [exact K1'|]. split; [congruence|discriminate]. }
    specialize (V1 eq_refl). pose proof (kept_length _ _ _ K1).
    destruct (mab_loop_spec H11 H21 H31 xi (powerRZ 2 W) pa pb M (2 * M) r1 L1 L2 L3 Lx) as (r2 & -> & K2 & Old & V2); [lia|]. cbn [bind].
    exists SUCCESS, r2. split; [reflexivity|]. split; [codes|]. split; [eapply kept_trans; [exact K1'|]; eapply kept_mono; [|exact K2]; lia|]. split; [|discriminate].
    intros _ _ i Hi. destruct (V1 i ltac:(lia)) as (Hh & R1 & R2). destruct (V2 i Hi) as (A & B1 & B2). unfold block.
    replace (0 * M + i)%nat with i by lia. replace (1 * M + i)%nat with (M + i)%nat by lia. replace (3 * M + i)%nat with (2 * M + M + i)%nat by lia. replace (4 * M + i)%nat with (2 * M + 2 * M + i)%nat by lia.
    rewrite A, B1, B2, !Old by lia. rewrite R1, R2.
    destruct (rho_from_ab (nth i H11 0) (nth i H21 0) (nth i xi 0) _ _ _ _ Hsc Hh Epr) as [G1 ->].
    destruct (rho_from_ab (nth i H11 0) (nth i H31 0) (nth i xi 0) _ _ _ _ Hsc Hh Epr) as [_ ->]. auto.
  - exists EC_INVALID_ARGUMENT, result. split; [reflexivity|]. split; [codes|]. split; [apply kept_refl|]. split; discriminate.
Qed.
