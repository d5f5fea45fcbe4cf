(** * fnft_nsep, SUBSAMPLE_AND_REFINE and NEWTON end to end (C96): the two localization routines *)
From Coq Require Import Reals Lra Lia List ZArith QArith Qreals.
From Coquelicot Require Import Coquelicot.
From Verif Require Import Base Loop Mem Fields ErrModel CExp CField CConj CDeriv DiscTables DiscModel DiscProps DiscPreProps DiscPreNse PolySpec MatSpec FscatterSpec FscatterModel FscatterProof FscatterProps
  ScatterSpec ScatterModel MatExp ScatterProof ScatterLoop ScatterRun ScatterProps ScatterMatProps ScatterNse PolyFmultProof NsevSpec NsevModel NsevProps NsevSafe NsevSafe2 NsevSafe3 NftSpec NsevFast NsevLib NsevCs NsevCsTop NsepModel NsepSpec NsepNewton NsepSafe NsepSafe2 NsepSafe3 NsepTop.
From Verif Require Import NsepFloq NsepGrid NsepGridTop NsevNc.
From Verif Require Import NsepSub NsepSub2.
Import ListNotations.
Local Close Scope Q_scope.
Local Open Scope C_scope.

(** the method used for the refinement *)
Definition refine_disc (d : akns_disc) : akns_disc := if Nat.eqb (akns_upsampling_factor d) 2 then A_CF4_2 else A_BO.
(** approximate solution of trace M = rhs, of M12 = 0 *)
Definition trace_near (S : C -> mat2) (len bound rhs : R) (lam : C) : Prop :=
  (Cmod (a11 (S lam) + a22 (S lam) - RtoC rhs)%C * exp (- (snd lam * len)) <= bound)%R.

Ltac step_ok H := match type of H with (if negb (Z.eqb ?c SUCCESS) then _ else _) = _ =>
  destruct (Z.eqb_spec c SUCCESS) as [->|?N]; cbn [negb] in H;
  [|exfalso; inv_bind H; injection H; intros; subst; match goal with X : E_SUBROUTINE _ = Ret SUCCESS |- _ => apply E_SUB_not in X; [now apply X|assumption] end] end.

Section Sub.
Variable L : lib.
Hypothesis HL : lib_ok L.
Variable G : nat -> nat -> list C -> nat -> xreal * xreal -> list C -> out (Z * nat * list C).
Variable delta : R.
Hypothesis HG : eigen_ok L delta.
Let E := plib_env L G.
Variables (D : nat) (T : R * R) (kappa : Z) (t : pst) (d : akns_disc) (q : list C) (pp ps : pre_out) (Dsub0 ns m : nat).
Hypothesis HT : (fst T < snd T)%R.
Hypothesis Hkap : kappa = 1%Z \/ kappa = (-1)%Z.
Hypothesis Hd : nse_to_akns (p_disc (t_o t)) = Some d.
Hypothesis Hf : is_fast d.
Let ups := akns_upsampling_factor d.
Let h := ((snd T - fst T) / INR D)%R.
Let hs := (INR ns * h)%R.
Let N := (m * ups)%nat.
Hypothesis Hm2 : (2 <= m)%nat.
Hypothesis Hns : (1 <= ns)%nat.
Hypothesis Hprod : (m * ns = D)%nat.
Hypothesis Heven : exists j, m = (2 * j)%nat.
Hypothesis HN : (Z.of_nat N <= 2147483647)%Z.
Hypothesis Hpre : nse_preprocess (l_junk L) (l_junkR L) D (Some q) h kappa D (p_disc (t_o t)) = Ret (inr pp).
Hypothesis Hch : choose_Dsub D (p_Dsub (t_o t)) = Ret Dsub0.
Hypothesis Hpres : nse_preprocess (l_junk L) (l_junkR L) D (Some q) h kappa Dsub0 (p_disc (t_o t)) = Ret (inr ps).
Hypothesis HDs : po_Dsub ps = m.
Hypothesis Hfirst : po_first ps = O.
Hypothesis Hlast : po_last ps = ((m - 1) * ns)%nat.
Hypothesis Lq : length (po_q ps) = N.
Hypothesis Lr : length (po_r ps) = N.
Hypothesis Hr : forall i, (i < N)%nat -> nthC (po_r ps) i = - RtoC (IZR kappa) * Cconj (nthC (po_q ps) i).
Hypothesis Hmod : d = A_2SPLIT2_MODAL -> kappa = (-1)%Z -> forall i, (i < N)%nat -> (Rabs (step_size d hs) * Cmod (nthC (po_q ps) i) < 1)%R.
Hypothesis Hx : forall j, (j < N)%nat -> fast_exact d (step_size d hs) (nthC (po_q ps) j) (nthC (po_r ps) j).
Let S lam := scattering d (weights d) hs (nthC (po_q ps)) (nthC (po_r ps)) N lam.
Let len := (snd T - fst T)%R.
Let len12 := (snd T - fst T + (if half_shifted d then step_size d hs else 0))%R.
Let o := update_box hs (map_coeff (p_disc (t_o t))) (t_o t).
Let rd := (if Nat.eqb ups 2 then N_CF4_2 else N_BO).
Let De := (D * ups)%nat.

Lemma hs_pos : (0 < h /\ 0 < hs)%R.
Proof.
  assert (0 < h)%R by (apply Rdiv_lt_0_compat; [lra|apply lt_0_INR; nia]). split; [assumption|]. apply Rmult_lt_0_compat; [apply lt_0_INR; lia|assumption].
Qed.
Lemma sub_ups : ups = 1%nat \/ ups = 2%nat.
Proof. unfold ups. clear - Hf Hd. destruct (p_disc (t_o t)); try discriminate Hd; injection Hd as <-; cbn; auto; exfalso; revert Hf; unfold is_fast; intuition discriminate. Qed.
Lemma Nhs : (INR N * step_size d hs = len)%R.
Proof.
  unfold N, step_size, hs, h, len. fold ups. rewrite <- Hprod, !mult_INR. assert (Hu := sub_ups). field. repeat split; apply not_0_INR; lia.
Qed.
Lemma Cmod_Xs lam : Cmod (Cexp (Ci * lam * RtoC (INR N * step_size d hs))) = exp (- (snd lam * len)).
Proof. rewrite Cmod_Cexp, Nhs. f_equal. destruct lam as [x y]. cbn. ring. Qed.

Definition main_refined (W : Z) (lam : C) : Prop :=
  exists nval z, (nval < p_points (t_o t))%nat /\ trace_near S len (delta * powerRZ 2 W) (spine_rhs (t_o t) nval) z /\
    refined (mF L G De (po_q pp) (po_r pp) h kappa rd (p_norm (t_o t)) (spine_rhs (t_o t) nval)) (mF' L G De (po_q pp) (po_r pp) h kappa rd (p_norm (t_o t)) (spine_rhs (t_o t) nval))
      (refine_tol (t_o t)) (p_box o) (p_max_evals (t_o t)) z lam.
Definition aux_refined (W : Z) (lam : C) : Prop :=
  exists z, aux_point S len12 (delta * powerRZ 2 W) z /\
    iterated (xF L G De (po_q pp) (po_r pp) h kappa rd (p_norm (t_o t))) (xF' L G De (po_q pp) (po_r pp) h kappa rd (p_norm (t_o t))) (refine_tol (t_o t)) (p_box o) (p_max_evals (t_o t)) z lam.

Lemma o_fields : p_disc o = p_disc (t_o t) /\ p_norm o = p_norm (t_o t) /\ p_points o = p_points (t_o t) /\ refine_tol o = refine_tol (t_o t) /\ p_max_evals o = p_max_evals (t_o t) /\
  (forall n, spine_rhs o n = spine_rhs (t_o t) n).
Proof. unfold o, update_box. destruct (p_filt (t_o t)); repeat split. Qed.

Lemma subsample_inv skip t' :
  (forall l, t_main t = Some l -> (t_K t <= length l)%nat) -> (forall l, t_aux t = Some l -> (t_M t <= length l)%nat) ->
  nsep_subsample E skip D q T kappa t = Ret (SUCCESS, t') ->
  exists W : Z, (p_norm (t_o t) = false -> W = 0%Z) /\
    (forall l, t_main t' = Some l -> (t_K t' <= length l)%nat /\ all_in (main_refined W) 0 (t_K t') l) /\
    (forall l, t_aux t' = Some l -> (t_M t' <= length l)%nat /\ (eigen_total L -> all_in (aux_refined W) 0 (t_M t') l)).
Proof.
  intros Hmain Haux. unfold nsep_subsample. cbv zeta. destruct hs_pos as [Hh Hhs]. pose proof sub_ups as Hu12. assert (Hu : ups <> O) by lia.
  assert (Eu : nse_upsampling_factor (p_disc (t_o t)) = ups) by (unfold nse_upsampling_factor, via; now rewrite Hd). rewrite Eu.
  assert (Erd : (if Nat.eqb ups 2 then N_CF4_2 else if Nat.eqb ups 1 then N_BO else N_2SPLIT2_MODAL) = rd) by (unfold rd; destruct Hu12 as [-> | ->]; reflexivity). rewrite Erd. clear Erd.
  destruct (Nat.eqb_spec ups 0); [contradiction|]. fold h. cbn [E plib_env pe_pre]. rewrite Hpre. cbn [bind]. rewrite Hch. cbn [bind]. rewrite Hpres. cbn [bind]. rewrite HDs.
  destruct (Nat.eqb_spec m 0); [lia|].
  assert (Hdiv : (D / m = ns)%nat) by (rewrite <- Hprod, Nat.mul_comm; apply Nat.div_mul; lia). rewrite Hdiv, Hfirst, Hlast.
  assert (Hl : ((m - 1) * ns + ns = D)%nat) by nia. rewrite Hl, !Nat.eqb_refl. cbn [negb orb]. fold N De hs.
  pose proof (degree_pos d Hf) as Nd. assert (HN2 : (2 <= N)%nat) by (unfold N; nia).
  unfold nse_fscatter_numel, nse_degree, via. rewrite Hd. destruct (Nat.eqb_spec (akns_degree d) 0); [contradiction|].
  destruct (poly_fmult_numel_value 4 (akns_degree d) N ltac:(lia) ltac:(lia)) as (k & Ek & Hk2 & _). match type of Ek with ?l = _ => change (fmult_numel 4 (akns_degree d) N) with l end. rewrite Ek. cbn [bind].
  set (numel := (4 * (akns_degree d + 1) * 2 ^ k)%nat) in *.
  destruct (Nat.eqb_spec numel 0) as [E0|_]; [pose proof (Nat.pow_nonzero 2 k); unfold numel in E0; nia|]. cbn [negb E plib_env pe_alloc pe_fscatter pe_junk].
  destruct (nfscatter_entries (l_expo L) (l_0 L) (l_1 L) (l_2 L) (l_p L) (lk_0 L HL) (lk_1 L HL) (lk_2 L HL) (lk_p L HL) (p_norm (t_o t)) N (po_q ps) (po_r ps) (l_junk L 0 numel) hs (p_disc (t_o t)) d numel Hd Hf HN2 HN Hhs)
    as (tm & W & -> & Lt & L4 & HW & Hent); try lia; try exact Hx.
  { unfold akns_fscatter_numel. destruct (Nat.eqb_spec (akns_degree d) 0); [contradiction|exact Ek]. }
  { rewrite (lk_junk L HL). lia. }
  cbn [bind or_nil]. unfold check. change (Z.eqb SUCCESS SUCCESS) with true. cbv iota.
  set (W' := if p_norm (t_o t) then W else 0%Z). assert (EW : W' = W) by (unfold W'; destruct (p_norm (t_o t)); [reflexivity|symmetry; now apply HW]). rewrite EW. clear W' EW.
  set (deg := (N * akns_degree d)%nat) in *.
  assert (Edeg : exists j, (deg = 2 * j)%nat /\ (deg / 2 = j)%nat).
  { destruct Heven as (j & Ej). exists (j * ups * akns_degree d)%nat. assert (X : (deg = 2 * (j * ups * akns_degree d))%nat) by (unfold deg, N; rewrite Ej; ring). split; [exact X|]. rewrite X, Nat.mul_comm. apply Nat.div_mul. lia. }
  destruct Edeg as (mm & Edeg & Em). assert (Hdeg1 : (1 <= deg)%nat) by (unfold deg; nia).
  fold o. destruct o_fields as (Eo1 & Eo2 & Eo3 & Eo4 & Eo5 & Eo6). set (tol := xscale _ _). clearbody tol.
  cbn [t_main set_to t_aux t_K t_M].
  set (roots := skipn (3 * (deg + 1)) tm). assert (Lro : (deg <= length roots)%nat) by (unfold roots; rewrite skipn_length; lia).
  assert (Hs0 : hs <> 0%R) by lra.
  assert (V11 : forall lam, RtoC (powerRZ 2 W) * peval (K := CF) (firstn (deg + 1) tm) (zmap d hs lam) = Cexp (Ci * lam * RtoC (INR N * step_size d hs)) * a11 (S lam)).
  { intros lam. specialize (Hent lam 0%nat 0%nat ltac:(lia) ltac:(lia)). cbn [Nat.mul Nat.add skipn entry] in Hent. rewrite (proj1 (shifted_diag _ _ _ _)) in Hent. exact Hent. }
  assert (V12 : forall lam, RtoC (powerRZ 2 W) * peval (K := CF) (firstn (deg + 1) (skipn (deg + 1) tm)) (zmap d hs lam)
     = Cexp (Ci * lam * RtoC (INR N * step_size d hs)) * ((if half_shifted d then Cexp (Ci * lam * RtoC (step_size d hs)) else RtoC 1) * a12 (S lam))).
  { intros lam. specialize (Hent lam 0%nat 1%nat ltac:(lia) ltac:(lia)). cbn [Nat.mul Nat.add entry] in Hent. rewrite Nat.add_0_r in Hent. rewrite (proj2 (proj2 (shifted_diag _ _ _ _))) in Hent. exact Hent. }
  intros H. exists W. split; [exact HW|].
  (* main spectrum *)
  inv_bind H. destruct x as [c1 [[K main] roots']].
  assert (HM : c1 = SUCCESS -> length roots' = length roots /\ (forall l, main = Some l -> (K <= length l)%nat /\ all_in (main_refined W) 0 K l)).
  { intros ->. destruct (t_main t) as [l0|] eqn:Emain; [|injection Hx0 as <- <- <-; split; [reflexivity|discriminate]].
    specialize (Hmain l0 eq_refl). destruct (trace_poly_value deg tm ltac:(lia)) as (p0 & Ep & L0 & V0). rewrite Ep in Hx0. cbn [bind] in Hx0.
    rewrite Em in Hx0. rewrite (aget_nth p0 (RtoC 0)) in Hx0 by lia. cbn [bind] in Hx0. inv_bind Hx0. destruct x as [c2 [[K2 l2] r2]]. injection Hx0 as -> <- <- <-.
    set (tr := fun i => nth i tm 0 + Cconj (nth (deg - i) tm 0)).
    assert (Et : nth mm p0 0 = tr mm) by (apply V0; lia). rewrite Et in Hx1. fold E in Hx1. rewrite Eo3 in Hx1.
    eapply (spine_loop_inv L G delta HG De (po_q pp) (po_r pp) h deg mm tr W hs kappa rd skip tol o (t_K t) d (fun nval => trace_near S len (delta * powerRZ 2 W) (spine_rhs o nval))) in Hx1; try assumption; try lia.
    - destruct Hx1 as (A1 & A2 & A3 & A4). split; [exact A4|]. intros l El. injection El as <-. split; [lia|]. eapply all_in_impl; [|exact A1].
      intros lam (nval & z & B1 & B2 & B3). exists nval, z. rewrite <- (Eo6 nval), <- Eo2, <- Eo3, <- Eo4, <- Eo5. auto.
    - now rewrite Eo1.
    - intros nval p lam Lp Vp Hp. unfold trace_near. rewrite <- Cmod_Xs. eapply close_scaled; [|exact Hp].
      rewrite (trace_value (IZR kappa) d hs (nthC (po_q ps)) (nthC (po_r ps)) N) with (tm := tm) (c := - RtoC (spine_rhs o nval)) (m := mm); auto; try lia.
      + destruct Hkap as [-> | ->]; [now left|now right].
      + intros E1 E2. apply Hmod; [exact E1|]. now apply eq_IZR.
      + intros i Hi. rewrite Vp by exact Hi. unfold tr. fold deg. destruct (Nat.eqb i mm); [|ring]. rewrite RtoC_mult. ring.
    - intros i Hi _. apply V0; exact Hi.
    - intros i z Hi. lia. }
  destruct (Z.eqb_spec c1 SUCCESS) as [->|N1]; cbn [negb] in H; [|injection H as -> _; contradiction].
  destruct (HM eq_refl) as [Lr' HPm]. clear HM Hx0.
  cbn [t_aux set_tmain set_to t_M t_K t_main t_o] in H.
  (* auxiliary spectrum *)
  inv_bind H. destruct x as [c2 [M aux]]. cbn [set_taux set_counts t_o t_K t_main t_M t_aux] in H.
  destruct (Z.eqb_spec c2 SUCCESS) as [->|N2]; cbn [negb] in H; [|injection H as -> _; contradiction]. injection H as <-. cbn [t_main t_K t_aux t_M set_counts set_taux set_tmain set_to t_o]. split; [exact HPm|].
  destruct (t_aux t) as [l0|] eqn:Eaux; [|injection Hx0 as <- <-; discriminate].
  specialize (Haux l0 eq_refl). intros l El. subst aux.
  inv_bind Hx0. destruct x as [c v].
  unfold E in Hx1. cbn [plib_env pe_roots] in Hx1.
  match type of Hx1 with l_roots L deg ?p ?b = _ => destruct (HG deg p b c v Hdeg1) as [Lv Vv]; [rewrite firstn_length, skipn_length; lia|lia|exact Hx1|] end.
  inv_bind Hx0. destruct x as [c3 v3]. destruct (z2l_inv deg hs v _ d c3 v3 Hd Nd Hu ltac:(lia) Hs0 Hx2) as (-> & L3 & V3). change (negb (SUCCESS =? SUCCESS)%Z) with false in Hx0. cbv iota in Hx0.
  inv_bind Hx0. destruct x as [[c4 M4] v4]. step_ok Hx0. apply pfilter_inv in Hx3; [|lia]. destruct Hx3 as (HM4 & L4' & P4).
  inv_bind Hx0. destruct x as [[c5 v5] ns5]. step_ok Hx0. fold E in Hx3. apply (refine_auxspec_inv L G) in Hx3; [|lia]. destruct Hx3 as [S5 V5]. apply seg_length in S5.
  inv_bind Hx0. destruct x as [[c6 M6] v6]. step_ok Hx0. apply pfilter_inv in Hx3; [|lia]. destruct Hx3 as (HM6 & L6 & P6).
  inv_bind Hx0. destruct x as [[c7 M7] v7]. step_ok Hx0. apply pfilter_real_inv in Hx3; [|lia]. destruct Hx3 as (HM7 & L7 & P7).
  set (M' := if (t_M t <? M7)%nat then t_M t else M7) in Hx0. assert (HM : (M' <= t_M t)%nat /\ (M' <= M7)%nat) by (unfold M'; destruct (Nat.ltb_spec (t_M t) M7); lia).
  destruct (copy_all_in (fun _ => True) M' 0 v7 l0) as (l1 & E1 & Hs1 & _); [lia|lia|now intros i z|].
  rewrite E1 in Hx0. cbn [bind] in Hx0. injection Hx0 as <- <-. apply seg_length in Hs1. split; [lia|]. intros Htot. specialize (Vv (Htot _ _ _ _ _ Hx1)).
  assert (Good : forall lam, (Cmod (peval (K := CF) (firstn (deg + 1) (skipn (deg + 1) tm)) (zmap d hs lam)) <= delta)%R -> aux_point S len12 (delta * powerRZ 2 W) lam).
  { intros lam Hl'. unfold aux_point. pose proof (close_scaled delta W _ _ _ (V12 lam) Hl') as HC. rewrite Cmod_Xs, Cmod_mult in HC.
    replace (exp (- (snd lam * len12))) with ((Cmod (if half_shifted d then Cexp (Ci * lam * RtoC (step_size d hs))%C else RtoC 1)) * exp (- (snd lam * len)))%R.
    - rewrite <- Rmult_assoc. rewrite (Rmult_comm (Cmod (a12 (S lam)))). exact HC.
    - unfold len12. fold len. destruct (half_shifted d).
      + rewrite Cmod_Cexp, <- exp_plus. f_equal. destruct lam as [x y]. cbn. ring.
      + rewrite Cmod_1, Rmult_1_l. f_equal. ring. }
  assert (HA : all_in (aux_refined W) 0 M' v7).
  { apply (all_in_le _ _ M7); [lia|]. apply P7, P6. apply all_in_nth; [lia|]. intros i Hi. exists (nth i v4 0). rewrite Eo2, Eo4, Eo5 in V5. split; [|apply V5; lia].
    apply (all_in_nth (aux_point S len12 (delta * powerRZ 2 W)) 0 M4 v4); [lia| |lia]. apply P4. apply all_in_nth; [lia|]. intros j Hj. destruct (Vv j ltac:(lia)) as [Nz Hz]. rewrite <- (V3 j) in Hz by (assumption || lia).
    apply Good. exact Hz. }
  destruct (copy_all_in (aux_refined W) M' 0 v7 l0) as (l2 & E2 & _ & HA2); [lia|lia|exact HA|]. rewrite E1 in E2. injection E2 as <-. exact HA2.
Qed.
End Sub.

(** ** NEWTON: the guesses of the caller *)
Section Newt.
Variable L : lib.
Variable G : nat -> nat -> list C -> nat -> xreal * xreal -> list C -> out (Z * nat * list C).
Let E := plib_env L G.

Lemma newton_blocks_inv De q r h K kappa o : forall cnt nval main main', ((nval + cnt) * K <= length main)%nat ->
  newton_blocks E cnt nval De q r h K kappa o main = Ret (SUCCESS, main') ->
  seg (nval * K) (cnt * K) main main' /\ forall v j, (nval <= v < nval + cnt)%nat -> (j < K)%nat ->
    refined (mF L G De q r h kappa (p_disc o) (p_norm o) (spine_rhs o v)) (mF' L G De q r h kappa (p_disc o) (p_norm o) (spine_rhs o v)) (refine_tol o) (p_box o) (p_max_evals o) (nth (v * K + j) main 0) (nth (v * K + j) main' 0).
Proof.
  induction cnt as [|k IH]; intros nval main main' HK H; cbn [newton_blocks] in H.
  - injection H as <-. split; [apply seg_refl|intros; lia].
  - inv_bind H. destruct x as [[c m1] ns]. step_ok H. apply (refine_mainspec_inv L G) in Hx; [|nia]. destruct Hx as [S1 V1]. pose proof (seg_length _ _ _ _ S1) as L1.
    apply IH in H; [|lia]. destruct H as [S2 V2].
    assert (NE : forall i, (i < length main)%nat -> nth_error main' i = nth_error m1 i -> nth i main' 0 = nth i m1 0).
    { intros i Hi H1. rewrite (nth_error_nth' m1 (RtoC 0)) in H1 by lia. now apply nth_error_nth. }
    split.
    + eapply seg_trans; [eapply seg_mono; [| |exact S1]; nia|eapply seg_mono; [| |exact S2]; nia].
    + intros v j Hv Hj. destruct (Nat.eq_dec v nval) as [->|Nv].
      * rewrite NE; [apply V1; lia|nia|]. destruct S2 as [_ S2]. apply S2. nia.
      * assert (X : nth (v * K + j) m1 0 = nth (v * K + j) main 0).
        { destruct S1 as [_ S1]. specialize (S1 (v * K + j)%nat ltac:(nia)). rewrite (nth_error_nth' main (RtoC 0)) in S1 by nia. now apply nth_error_nth. }
        rewrite <- X. apply V2; [lia|exact Hj].
Qed.

Variables (D : nat) (T : R * R) (kappa : Z) (t : pst) (q : list C) (pp : pre_out).
Let h := ((snd T - fst T) / INR D)%R.
Let ups := nse_upsampling_factor (p_disc (t_o t)).
Hypothesis Hpre : nse_preprocess (l_junk L) (l_junkR L) D (Some q) h kappa D (p_disc (t_o t)) = Ret (inr pp).
Let o := update_box h (map_coeff (p_disc (t_o t))) (t_o t).
Let De := (D * ups)%nat.

Definition guess_refined (l0 : list C) (lam : C) : Prop :=
  exists v j, (v < p_points (t_o t))%nat /\ (j < t_K t)%nat /\
    refined (mF L G De (po_q pp) (po_r pp) h kappa (p_disc (t_o t)) (p_norm (t_o t)) (spine_rhs (t_o t) v)) (mF' L G De (po_q pp) (po_r pp) h kappa (p_disc (t_o t)) (p_norm (t_o t)) (spine_rhs (t_o t) v))
      (refine_tol (t_o t)) (p_box o) (p_max_evals (t_o t)) (nth (v * t_K t + j) l0 0) lam.
Definition guess_iterated (l0 : list C) (lam : C) : Prop :=
  exists j, (j < t_M t)%nat /\
    iterated (xF L G De (po_q pp) (po_r pp) h kappa (p_disc (t_o t)) (p_norm (t_o t))) (xF' L G De (po_q pp) (po_r pp) h kappa (p_disc (t_o t)) (p_norm (t_o t)))
      (refine_tol (t_o t)) (p_box o) (p_max_evals (t_o t)) (nth j l0 0) lam.

Lemma newton_inv t' :
  (forall l, t_main t = Some l -> (t_K t * p_points (t_o t) <= length l)%nat) -> (forall l, t_aux t = Some l -> (t_M t <= length l)%nat) ->
  nsep_newton E D q T kappa t = Ret (SUCCESS, t') ->
  (forall l, t_main t' = Some l -> exists l0, t_main t = Some l0 /\ (t_K t' <= length l)%nat /\ all_in (guess_refined l0) 0 (t_K t') l) /\
  (forall l, t_aux t' = Some l -> exists l0, t_aux t = Some l0 /\ (t_M t' <= length l)%nat /\ all_in (guess_iterated l0) 0 (t_M t') l).
Proof.
  intros Hmain Haux. unfold nsep_newton. cbv zeta. fold ups. destruct (Nat.eqb ups 0); [discriminate|]. fold h. cbn [E plib_env pe_pre]. rewrite Hpre. cbn [bind].
  destruct (negb _); [discriminate|]. fold o De. intros H.
  assert (EO : p_disc o = p_disc (t_o t) /\ p_norm o = p_norm (t_o t) /\ p_points o = p_points (t_o t) /\ refine_tol o = refine_tol (t_o t) /\ p_max_evals o = p_max_evals (t_o t) /\
    (forall n, spine_rhs o n = spine_rhs (t_o t) n)) by (unfold o, update_box; destruct (p_filt (t_o t)); repeat split).
  destruct EO as (Eo1 & Eo2 & Eo3 & Eo4 & Eo5 & Eo6).
  inv_bind H. destruct x as [c1 t1]. destruct (Z.eqb_spec c1 SUCCESS) as [->|N1]; cbn [negb] in H; [|injection H as -> _; contradiction].
  assert (HM : t_aux t1 = t_aux t /\ t_M t1 = t_M t /\ forall l, t_main t1 = Some l -> exists l0, t_main t = Some l0 /\ (t_K t1 <= length l)%nat /\ all_in (guess_refined l0) 0 (t_K t1) l).
  { cbn [t_main set_to] in Hx. destruct (t_main t) as [l0|] eqn:Em; [|injection Hx as <-; cbn; rewrite Em; repeat split; discriminate].
    specialize (Hmain l0 eq_refl). cbn [t_K set_to] in Hx. inv_bind Hx. destruct x as [c2 m2]. destruct (Z.eqb_spec c2 SUCCESS) as [->|N2]; cbn [negb] in Hx; [|injection Hx as -> _; contradiction].
    fold E in Hx0. apply newton_blocks_inv in Hx0; [|rewrite Eo3; lia]. destruct Hx0 as [S1 V1]. rewrite Eo3 in *. pose proof (seg_length _ _ _ _ S1) as L1.
    inv_bind Hx. destruct x as [[c3 K3] m3]. unfold check in Hx. cbn [t_K set_tmain set_to] in Hx0.
    destruct (Z.eqb_spec c3 SUCCESS) as [->|N3]; [|exfalso; inv_bind Hx; injection Hx as -> _; apply E_SUB_not in Hx1; [now apply Hx1|assumption]].
    injection Hx as <-. cbn [t_aux t_M t_main t_K set_counts set_tmain set_to t_o]. split; [reflexivity|]. split; [reflexivity|].
    intros l El. injection El as <-. exists l0. split; [reflexivity|]. apply pfilter_inv in Hx0; [|lia]. destruct Hx0 as (HK3 & L3 & P3). split; [lia|]. apply P3. apply all_in_nth; [lia|].
    intros i Hi. cbn [Nat.add] in Hi. assert (NK : t_K t <> O) by (intros X; rewrite X in Hi; lia).
    pose proof (Nat.div_mod i (t_K t) NK) as DM. pose proof (Nat.mod_upper_bound i (t_K t) NK) as MB.
    assert (HV : (i / t_K t < p_points (t_o t))%nat) by (apply Nat.div_lt_upper_bound; [exact NK|lia]).
    exists (i / t_K t)%nat, (i mod t_K t)%nat. split; [exact HV|]. split; [exact MB|].
    specialize (V1 (i / t_K t)%nat (i mod t_K t)%nat (conj (Nat.le_0_l _) HV) MB). rewrite Eo1, Eo2, Eo4, Eo5, Eo6 in V1. assert (Ei : (i / t_K t * t_K t + i mod t_K t)%nat = i) by (rewrite DM at 3; rewrite (Nat.mul_comm (t_K t)); reflexivity). rewrite Ei in V1. rewrite Ei. exact V1. }
  destruct HM as (Ha & HMM & HPm). rewrite Ha in H. destruct (t_aux t) as [a0|] eqn:Ea.
  2:{ injection H as <-. split; [exact HPm|]. rewrite Ha. discriminate. }
  specialize (Haux a0 eq_refl). inv_bind H. destruct x as [[c2 a1] ns]. unfold check in H.
  destruct (Z.eqb_spec c2 SUCCESS) as [->|N2]; [|exfalso; inv_bind H; injection H as -> _; apply E_SUB_not in Hx1; [now apply Hx1|assumption]].
  fold E in Hx0. rewrite HMM in Hx0. apply (refine_auxspec_inv L G) in Hx0; [|lia]. destruct Hx0 as [S1 V1]. apply seg_length in S1.
  inv_bind H. destruct x as [[c3 M3] a3]. destruct (Z.eqb_spec c3 SUCCESS) as [->|N3]; [|exfalso; inv_bind H; injection H as -> _; apply E_SUB_not in Hx1; [now apply Hx1|assumption]].
  injection H as <-. cbn [t_aux t_M t_main t_K set_counts set_taux set_tmain set_to t_o] in *. split; [exact HPm|]. intros l El. injection El as <-. exists a0. split; [reflexivity|].
  rewrite HMM in Hx0. apply pfilter_inv in Hx0; [|lia]. destruct Hx0 as (HK3 & L3 & P3). split; [lia|]. apply P3. apply all_in_nth; [lia|].
  intros i Hi. exists i. split; [lia|]. specialize (V1 i ltac:(lia)). rewrite Eo2, Eo4, Eo5 in V1. exact V1.
Qed.
End Newt.

