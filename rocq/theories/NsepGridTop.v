(** * fnft_nsep with grid search: the returned points solve trace M = -+2 and M12 = 0 (C95) *)
From Coq Require Import Reals Lra Lia List ZArith QArith Qreals.
From Coquelicot Require Import Coquelicot.
From Verif Require Import Base Loop Mem Fields ErrModel CExp CField CConj DiscTables DiscModel DiscProps DiscPreProps DiscPreNse PolySpec MatSpec FscatterSpec FscatterModel FscatterProof FscatterProps
  ScatterSpec MatExp ScatterStep ScatterModel ScatterRun ScatterProps ScatterMatProps ScatterNse PolyFmultProof NsevSpec NsevModel NsevSafe NsevProps NftSpec NsevFast NsevLib NsevCsTop NsevEnergy KdvFast NsepModel NsepSpec NsepSafe NsepSafe2 NsepTop.
From Verif Require Import NsepFloq NsepGrid.
Import ListNotations.
Local Close Scope Q_scope.
Local Open Scope C_scope.

(** the signal with the quasi-period's phase removed: q(t_i) exp(2 i L t_i), t_i = T0 + i h *)
Definition demodulated (D : nat) (T : R * R) (shift : R) (q : list C) : list C :=
  map (fun i => nth i q 0 * Cexp (RtoC 2 * Ci * RtoC shift * RtoC (fst T + (snd T - fst T) / INR D * INR i))) (seq 0 D).

Lemma demod_loop D T shift (q : list C) : length q = D ->
  for_ D 0 (fun i l => x <- aget q i ;; Ret (l ++ [x * Cexp (RtoC 2 * Ci * RtoC shift * RtoC (fst T + (snd T - fst T) / INR D * INR i))])) [] = Ret (demodulated D T shift q).
Proof.
  intros Lq. unfold demodulated.
  match goal with |- for_ D 0 ?f [] = _ => destruct (for_inv (fun i (l : list C) => l = map (fun i => nth i q 0 * Cexp (RtoC 2 * Ci * RtoC shift * RtoC (fst T + (snd T - fst T) / INR D * INR i))) (seq 0 i)) f D 0 []) as (l & E & H) end.
  - reflexivity.
  - intros i l Hi ->. rewrite (aget_nth q (RtoC 0)) by lia. cbn [bind]. eexists. split; [reflexivity|]. rewrite seq_S, map_app. reflexivity.
  - rewrite E. f_equal. exact H.
Qed.

Section Top.
Variable L : lib.
Hypothesis HL : lib_ok L.
Variable G : nat -> nat -> list C -> nat -> xreal * xreal -> list C -> out (Z * nat * list C).
Variable delta : R.
Hypothesis HG : finder_ok G delta.

(** the preprocessed signal satisfies r = - kappa conj q *)
Lemma pre_conj D q eps kappa nd d p : nse_to_akns nd = Some d -> is_fast d -> length q = D -> (2 <= D)%nat -> (0 < eps)%R -> kappa = 1%Z \/ kappa = (-1)%Z ->
  ((3 <= D)%nat \/ akns_upsampling_factor d = 1%nat) -> nse_preprocess (l_junk L) (l_junkR L) D (Some q) eps kappa D nd = Ret (inr p) ->
  forall i, (i < D * akns_upsampling_factor d)%nat -> nthC (po_r p) i = - RtoC (IZR kappa) * Cconj (nthC (po_q p) i).
Proof.
  intros Hd Hf Lq HD He Vk H3 Ep. destruct (pre_exists L HL D q eps kappa nd d Hd Lq He HD H3) as (p' & Ep' & _ & _ & _ & Hpl). rewrite Ep in Ep'. injection Ep' as <-.
  destruct (Nat.eq_dec (akns_upsampling_factor d) 1) as [U|U].
  - destruct (Hpl U) as [-> ->]. intros i Hi. unfold nthC. rewrite nth_indep with (d' := nse_r_from_q kappa 0) by (rewrite map_length; rewrite U in Hi; lia).
    rewrite map_nth. unfold nse_r_from_q. destruct Vk as [-> | ->]; cbn [Z.eqb Pos.eqb]; apply Ceq; cbn; ring.
  - destruct (nse_preprocess_conjugate (l_junk L) (l_junkR L) (lk_junk L HL) (lk_junkR L HL) D D q eps Lq He kappa nd) as (ns & p' & E' & Gr & L1 & L2 & Hc); try assumption; try lia.
    { intros E. rewrite E in Hd. discriminate. }
    { intros E. rewrite E in Hd. injection Hd as <-. destruct Hf as [Hf|Hf]; [discriminate|now apply Hf]. }
    { intros E. rewrite E in Hd. injection Hd as <-. destruct Hf as [Hf|Hf]; [discriminate|now apply Hf]. }
    rewrite Ep in E'. injection E' as <-. destruct Gr as (_ & _ & _ & _ & _ & Gr). destruct (Gr eq_refl) as [_ GD]. rewrite GD in L1.
    assert (Eu : nse_upsampling_factor nd = akns_upsampling_factor d) by (unfold nse_upsampling_factor, via; now rewrite Hd). rewrite Eu in L1.
    intros i Hi. unfold nthC. apply Hc. lia.
Qed.

(** C95.  Grid search with a root finder whose points are zeros up to delta: every point lam of the main spectrum satisfies
   |trace M(lam - shift) -+ 2| exp(- Im lam (T1 - T0)) <= delta 2^W, every point of the auxiliary spectrum |M12(lam - shift)|
   exp(- Im lam ..) <= delta 2^W, where M is the discrete monodromy matrix of the demodulated signal and W the exponent with which
   the polynomials have been normalised (0 without normalisation) *)
Theorem nsep_gridsearch_solves_floquet D q T phase_shift kappa user dflt w d :
  let o := match user with Some o => o | None => dflt end in
  nsep_safe_call D (Some q) (Some T) false kappa o w -> p_loc o = PL_GRIDSEARCH ->
  nse_to_akns (p_disc o) = Some d -> is_fast d -> ((3 <= D)%nat \/ akns_upsampling_factor d = 1%nat) ->
  (Z.of_nat (D * akns_upsampling_factor d) <= 2147483647)%Z ->
  let h := ((snd T - fst T) / INR D)%R in
  let shift := (- phase_shift / (2 * (snd T - fst T)))%R in
  exists p, nse_preprocess (l_junk L) (l_junkR L) D (Some (demodulated D T shift q)) h kappa D (p_disc o) = Ret (inr p) /\
  (akns_upsampling_factor d = 1%nat -> po_q p = demodulated D T shift q /\ po_r p = map (nse_r_from_q kappa) (demodulated D T shift q)) /\
  let n := (D * akns_upsampling_factor d)%nat in
  let M lam := scattering d (weights d) h (nthC (po_q p)) (nthC (po_r p)) n lam in
  ((forall j, (j < n)%nat -> fast_exact d (step_size d h) (nthC (po_q p) j) (nthC (po_r p) j)) ->
   (d = A_2SPLIT2_MODAL -> kappa = (-1)%Z -> forall i, (i < n)%nat -> (h * Cmod (nthC (po_q p) i) < 1)%R) ->
   (forall w' user' dflt', fnft_nsep (plib_env L G) D (Some q) (Some T) phase_shift false kappa user dflt w = Ret (SUCCESS, w', user', dflt') ->
   exists W : Z, (p_norm o = false -> W = 0%Z) /\
     (forall l, w_main w' = Some l -> forall i, (i < pcap w')%nat -> main_point M (snd T - fst T) (delta * powerRZ 2 W) (nth i l 0 - RtoC shift)) /\
     (forall l, w_aux w' = Some l -> forall i, (i < acap w')%nat ->
        aux_point M (snd T - fst T + (if half_shifted d then step_size d h else 0)) (delta * powerRZ 2 W) (nth i l 0 - RtoC shift))) /\
   (finder_total G -> p_filt o = PF_NONE ->
     exists w' user' dflt', fnft_nsep (plib_env L G) D (Some q) (Some T) phase_shift false kappa user dflt w = Ret (SUCCESS, w', user', dflt'))).
Proof.
  intros o HS Hloc Hd Hf H3 H31 h shift. pose proof (sp_valid _ _ _ _ _ _ _ HS) as HV. destruct HS as [V Lq Hsz _ Room]. destruct V as [VD _ VT Vk VK VM Vs Vf]. specialize (Lq q eq_refl).
  destruct VT as (t0 & t1 & ET & HT). injection ET as ->.
  set (qp := demodulated D (t0, t1) shift q). assert (Lqp : length qp = D) by (unfold qp, demodulated; now rewrite map_length, seq_length).
  assert (HD2 : (2 <= D)%nat) by (destruct VD as (k & Hk & ->); apply (Nat.pow_le_mono_r 2 1 k); lia).
  assert (Hh : (0 < h)%R) by (apply Rdiv_lt_0_compat; [cbn [fst snd]; lra|apply lt_0_INR; lia]).
  destruct (pre_exists L HL D qp h kappa _ d Hd Lqp Hh HD2 H3) as (p & Ep & _ & L1 & L2 & Hpl).
  exists p. split; [exact Ep|]. split; [exact Hpl|]. intros n M Hx Hm.
  assert (Hr := pre_conj D qp h kappa _ d p Hd Hf Lqp HD2 Hh Vk H3 Ep).
  assert (Nu : akns_upsampling_factor d <> O) by (apply ups_pos; destruct (p_disc o); try discriminate Hd; injection Hd as <-; repeat split; discriminate).
  destruct (w_K w) as [K|] eqn:EK; [|contradiction]. destruct (w_M w) as [MM|] eqn:EM; [|contradiction].
  set (t := {| t_o := shift_box o (- shift); t_K := K; t_main := w_main w; t_M := MM; t_aux := w_aux w |}).
  assert (Eo : p_disc (t_o t) = p_disc o /\ p_norm (t_o t) = p_norm o /\ p_loc (t_o t) = p_loc o /\ p_filt (t_o t) = p_filt o).
  { unfold t, shift_box. cbn [t_o]. destruct (p_filt o) eqn:Ef; auto. }
  destruct Eo as (Eod & Eon & Eol & Eof). destruct Room as [R1 R2]. unfold main_size, pcap, acap in R1, R2. rewrite Hloc, EK in R1. rewrite EM in R2.
  destruct (gridsearch_points L HL G delta HG D (t0, t1) kappa t d qp p HT VD Vk) with (offK := 0%nat) (offM := 0%nat) as (c & t' & EG & HP & Tot); try assumption; try (rewrite Eod; assumption).
  { intros E1 E2 i Hi. unfold step_size. rewrite E1. cbn [akns_upsampling_factor]. cbn [INR]. rewrite Rdiv_1. rewrite Rabs_pos_eq by (apply Rlt_le; exact Hh). apply Hm; assumption. }
  assert (Run : nsep_run (plib_env L G) D (Some q) (Some (t0, t1)) phase_shift false kappa o w =
    (x <- check c t' (Ret (SUCCESS, t')) ;; let '(code, t) := x in
     if negb (Z.eqb code SUCCESS) then Ret (code, (t_o t, to_outs t)) else
     main <- shift_points (t_K t) shift (t_main t) ;;
     aux <- shift_points (t_M t) shift (t_aux t) ;;
     Ret (SUCCESS, (shift_box (t_o t) shift, to_outs (set_taux (set_tmain t main) aux))))).
  { unfold nsep_run. cbv zeta. rewrite (proj2 (proj1 (nsep_check_valid D (Some q) (Some (t0, t1)) false kappa o w)) HV).
    change (negb (SUCCESS =? SUCCESS)%Z) with false. cbv iota. cbn [deref bind]. rewrite EK, EM. cbn [deref bind plib_env pe_alloc negb].
    assert (ES : lam_shift (t0, t1) phase_shift = shift) by (unfold lam_shift, shift; cbn [fst snd]; field; lra). rewrite ES.
    rewrite (demod_loop D (t0, t1) shift q Lq). cbn [bind]. fold qp. fold t. unfold nsep_locate. rewrite Eol, Hloc. fold (plib_env L G). rewrite EG. cbn [bind]. reflexivity. }
  split.
  - intros w' user' dflt' H.
    assert (HR : exists o', nsep_run (plib_env L G) D (Some q) (Some (t0, t1)) phase_shift false kappa o w = Ret (SUCCESS, (o', w'))).
    { unfold fnft_nsep in H. subst o. destruct user as [o|]; inv_bind H; destruct x as [code [o1 u1]]; injection H as -> -> _ _; eauto. }
    destruct HR as (o' & HR). clear H. rewrite Run in HR. inv_bind HR. destruct x as [c1 t2].
    apply check_Ret in Hx0. destruct Hx0 as [(-> & HX)|(Hne & _ & _ & Hcode)].
    2:{ exfalso. cbn [fst] in Hcode. destruct (Z.eqb_spec c1 SUCCESS) as [E1|N1]; cbn [negb] in HR.
        - rewrite E1 in Hcode. symmetry in Hcode. now apply abs_nonzero in Hcode.
        - injection HR as HR _ _. contradiction. }
    injection HX as <- <-. change (negb (SUCCESS =? SUCCESS)%Z) with false in HR. cbv iota in HR.
    destruct (HP eq_refl) as (W & HW & HPm & HPa). clear HP.
    destruct (shift_points_safe (t_K t') shift (t_main t')) as (main & Emain & Hsm & Hvm). { intros v Ev. now destruct (HPm v Ev) as (_ & ? & _). }
    destruct (shift_points_safe (t_M t') shift (t_aux t')) as (aux & Eaux & Hsa & Hva). { intros v Ev. now destruct (HPa v Ev) as (? & _). }
    rewrite Emain in HR. cbn [bind] in HR. rewrite Eaux in HR. cbn [bind] in HR. injection HR as _ <-.
    exists W. rewrite <- Eon. split; [exact HW|]. split; intros l El i Hi; cbn in El, Hi.
    + assert (HA := Hvm _ (fun v Ev => proj2 (proj2 (HPm v Ev))) l El). rewrite El in Hsm. destruct (t_main t') as [l0|]; [|destruct Hsm].
      destruct (HPm l0 eq_refl) as (_ & Ll & _). pose proof (seg_length _ _ _ _ Hsm). apply (HA i (nth i l 0)); [lia|]. apply nth_error_nth'. lia.
    + assert (HA := Hva _ (fun v Ev => proj2 (HPa v Ev)) l El). rewrite El in Hsa. destruct (t_aux t') as [l0|]; [|destruct Hsa].
      destruct (HPa l0 eq_refl) as (Ll & _). pose proof (seg_length _ _ _ _ Hsa). apply (HA i (nth i l 0)); [lia|]. apply nth_error_nth'. lia.
  - intros Ht Hn. rewrite <- Eof in Hn. rewrite (Tot Ht Hn) in *. destruct (HP eq_refl) as (W & HW & HPm & HPa).
    destruct (shift_points_safe (t_K t') shift (t_main t')) as (main & Emain & _). { intros v Ev. now destruct (HPm v Ev) as (_ & ? & _). }
    destruct (shift_points_safe (t_M t') shift (t_aux t')) as (aux & Eaux & _). { intros v Ev. now destruct (HPa v Ev) as (? & _). }
    unfold check in Run. change (SUCCESS =? SUCCESS)%Z with true in Run. cbn [bind negb] in Run. change (SUCCESS =? SUCCESS)%Z with true in Run. cbn [negb] in Run. rewrite Emain in Run. cbn [bind] in Run. rewrite Eaux in Run. cbn [bind] in Run.
    unfold fnft_nsep. subst o. destruct user as [o|]; rewrite Run; cbn [bind]; eexists _, _, _; reflexivity.
Qed.
End Top.
