(** * C103: the spectrum of the reversed signal *)
From Coq Require Import Reals Lra List Lia.
From Coquelicot Require Import Coquelicot.
From Verif Require Import Loop CExp CConj CMean CField DiscTables DiscModel FscatterSpec FscatterProof ScatterSpec ScatterRun MatExp ScatterMatProps
  NsevModel NsevSpec NftSpec NsevLib NsevCsTop NsevEnergy StepNft KdvEnergy.
From Verif Require Import Symm Symm2 SymmTop.
From Verif Require Import TimeRev.
Import ListNotations.
Local Open Scope C_scope.

Lemma modal_positive kappa (h : R) (x : C) : kappa = 1%Z \/ kappa = (-1)%Z -> (0 < h)%R -> (kappa = (-1)%Z -> (h * Cmod x < 1)%R) ->
  exists v : R, (0 < v)%R /\ 1 - RtoC h * x * (RtoC h * nse_r_from_q kappa x) = RtoC v.
Proof.
  intros Hk He Hmod. assert (Exx : x * Cconj x = RtoC (Cmod x * Cmod x)) by (apply Ceq; cbn; rewrite ?Cmod_sq; ring).
  pose proof (Cmod_ge_0 x) as Px. destruct Hk as [->| ->]; [change (nse_r_from_q 1 x) with (- Cconj x)|change (nse_r_from_q (-1) x) with (Cconj x)].
  - exists (1 + h * Cmod x * (h * Cmod x))%R. split; [nra|]. transitivity (1 + RtoC h * RtoC h * (x * Cconj x)); [ring|]. rewrite Exx, !RtoC_plus, !RtoC_mult. ring.
  - specialize (Hmod eq_refl). exists (1 - h * Cmod x * (h * Cmod x))%R.
    split; [assert (0 <= h * Cmod x)%R by (apply Rmult_le_pos; lra); clear - Hmod H; nra|]. transitivity (1 - RtoC h * RtoC h * (x * Cconj x)); [ring|]. rewrite Exx, !RtoC_minus, !RtoC_mult. ring.
Qed.
Lemma star_modal kappa (h : R) (x : C) : kappa = 1%Z \/ kappa = (-1)%Z -> (0 < h)%R -> (kappa = (-1)%Z -> (h * Cmod x < 1)%R) ->
  star (sgn kappa) (modal h x (nse_r_from_q kappa x)) = modal h x (nse_r_from_q kappa x).
Proof.
  intros Hk He Hmod. destruct (modal_positive kappa h x Hk He Hmod) as (v & Hv & Ev). unfold modal. rewrite Ev.
  assert (N : Csqrt (RtoC v) <> 0). { intros E. pose proof (Csqrt_sq (RtoC v)) as K. rewrite E in K. assert (RtoC v = 0) as K2 by (rewrite <- K; ring). apply RtoC_inj in K2. lra. }
  destruct (sgn_facts kappa) as (S1 & S2 & S3). rewrite S3.
  assert (Ek : Cconj (1 / Csqrt (RtoC v)) = 1 / Csqrt (RtoC v)) by (unfold Cdiv; rewrite Cmult_conj, Cconj_inv, Csqrt_positive, (Cconj_R 1) by assumption; reflexivity).
  set (k := 1 / Csqrt (RtoC v)) in *. set (c := sgn kappa) in *.
  assert (Hx : forall x : C, c * (c * x) = x) by (intros; transitivity (c * c * x0); [ring|rewrite S1; ring]).
  apply mat2_eq; cbn [a11 a12 a21 a22 mscal star]; rewrite !Cmult_conj, Ek, ?Cmult_conj, ?Cconj_R, ?S2, ?Cconj_conj; try reflexivity.
  - transitivity (k * (RtoC h * (c * (c * x)))); [ring|now rewrite Hx].
  - ring.
Qed.

Section Rev.
Variable L : lib.
Hypothesis HL : lib_ok L.

Lemma nth_rev (q : list C) j : (j < length q)%nat -> nthC (rev q) j = nthC q (length q - 1 - j).
Proof. intros Hj. unfold nthC. rewrite rev_nth by exact Hj. f_equal. lia. Qed.

(** C103.  The reversed signal q(-t) on the reversed interval has conj a(-xi) and b(-xi) as its spectrum *)
Theorem nsev_time_reversal : forall D q T M XI kappa user dflt u cs d,
  let o := match user with Some o => o | None => dflt end in
  cs_call D q T M XI kappa o u cs d -> reversible d ->
  (d = A_2SPLIT2_MODAL -> kappa = (-1)%Z -> forall j, (j < D)%nat -> (spacing T D * Cmod (nth j q 0) < 1)%R) ->
  related o M kappa u (succeeds L D q T M XI kappa user dflt u)
    (succeeds L D (rev q) (- snd T, - fst T)%R M (- snd XI, - fst XI)%R kappa user dflt u)
    (fun a1 b1 a2 b2 => forall i, (i < M)%nat -> a2 i = Cconj (a1 (M - 1 - i)%nat) /\ b2 i = b1 (M - 1 - i)%nat).
Proof.
  intros D q T M XI kappa user dflt u cs d o Hc Hrev Hmod. set (XI' := (- snd XI, - fst XI)%R). set (T' := (- snd T, - fst T)%R).
  assert (Egr : forall i, (i < M)%nat -> grid_point XI' M i = (- grid_point XI M (M - 1 - i))%R).
  { intros i Hi. pose proof (cc_M _ _ _ _ _ _ _ _ _ _ Hc) as HM. unfold grid_point, spacing, XI'. cbn [fst snd]. rewrite (minus_INR (M - 1) i) by lia.
    assert (INR (M - 1) <> 0)%R by (apply not_0_INR; lia). field. assumption. }
  assert (Esp : spacing T' D = spacing T D) by (unfold spacing, T'; cbn [fst snd]; f_equal; ring).
  assert (G : forall lam, flip (Sof d T D q kappa lam) = Sof d T' D (rev q) kappa (- lam) /\
    (scattering_exact d (weights d) (spacing T D) (nthC q) (nthC (map (nse_r_from_q kappa) q)) D lam ->
     scattering_exact d (weights d) (spacing T' D) (nthC (rev q)) (nthC (map (nse_r_from_q kappa) (rev q))) D (- lam))).
  { intros lam. destruct Hc as [_ Lq _ _ _ _ _ _ Hu _ _]. unfold Sof. rewrite Esp. apply flip_scattering; [exact Hu|exact Hrev|].
    intros j Hj. rewrite <- Lq in *. rewrite map_rev, !nth_rev by (rewrite ?map_length; exact Hj). now rewrite map_length. }
  assert (St : forall l : R, a22 (Sof d T D q kappa (RtoC l)) = Cconj (a11 (Sof d T D q kappa (RtoC l)))).
  { intros l. destruct Hc as [V Lq _ _ _ _ _ _ Hu _ _]. destruct (sgn_facts kappa) as (S1 & S2 & S3).
    assert (He : (0 < spacing T D)%R) by (destruct V as [V1 _ (t0 & t1 & E & Ht) _ _ _ _ _]; injection E as ->; apply spacing_pos; assumption).
    assert (E : star (sgn kappa) (Sof d T D q kappa (RtoC l)) = Sof d T D q kappa (RtoC l)).
    { unfold Sof. apply co_scattering; [exact Hu|now apply star_morph|now apply star_dets| |].
      - intros j Hj. apply star_cov; [exact S1|exact S2|]. rewrite nth_r by now rewrite Lq. apply S3.
      - intros Em j Hj. rewrite nth_r by now rewrite Lq. apply star_modal; [apply V|exact He|]. intros Ek. exact (Hmod Em Ek j Hj). }
    apply (f_equal a22) in E. cbn [a22 star] in E. now symmetry. }
  assert (Ei : Cconj Ci = - Ci) by (apply Ceq; cbn; ring).
  assert (Ha : forall l : R, nft_a_of (Sof d T' D (rev q) kappa (RtoC (- l))) T' (spacing T' D) (RtoC (- l)) = Cconj (nft_a_of (Sof d T D q kappa (RtoC l)) T (spacing T D) (RtoC l))).
  { intros l. pose proof (proj1 (G (RtoC l))) as E. rewrite <- RtoC_opp in E. rewrite <- E, Esp. unfold nft_a_of, T'. cbn [a11 flip fst snd]. rewrite St.
    rewrite !Cmult_conj, <- !Cexp_conj, !Cmult_conj, Cconj_opp, Ei, !Cconj_R. rewrite <- !Cmult_assoc. f_equal. rewrite <- !Cexp_plus. f_equal.
    rewrite ?RtoC_opp, ?RtoC_minus, ?RtoC_plus, ?RtoC_opp. ring. }
  assert (Hb : forall l : R, nft_b_of (Sof d T' D (rev q) kappa (RtoC (- l))) T' (spacing T' D) (RtoC (- l)) = nft_b_of (Sof d T D q kappa (RtoC l)) T (spacing T D) (RtoC l)).
  { intros l. pose proof (proj1 (G (RtoC l))) as E. rewrite <- RtoC_opp in E. rewrite <- E, Esp. unfold nft_b_of, T'. cbn [a21 flip fst snd].
    rewrite <- !Cmult_assoc. f_equal. rewrite <- !Cexp_plus. f_equal. rewrite ?RtoC_opp, ?RtoC_minus, ?RtoC_plus, ?RtoC_opp. ring. }
  eapply (call_pair L HL); [exact Hc| | |].
  - destruct Hc as [V Lq HM Ecs Lcs Hct Hr Hd Hu Hint Hx]. constructor; try assumption.
    + destruct V as [V1 V2 V3 V4 V5 V6 V7 V8]. constructor; try assumption; [discriminate| |].
      * destruct V3 as (t0 & t1 & E & Ht). injection E as ->. exists (- t1)%R, (- t0)%R. split; [reflexivity|lra].
      * intros N. destruct (V4 N) as (t0 & t1 & E & Ht). injection E as ->. exists (- t1)%R, (- t0)%R. split; [reflexivity|lra].
    + now rewrite rev_length.
    + intros i Hi. rewrite Egr by exact Hi. rewrite RtoC_opp. apply (proj2 (G _)), Hx. lia.
  - intros i Hi. rewrite Egr by exact Hi. split; [apply Ha|apply Hb].
  - intros i Hi. exists (M - 1 - i)%nat. split; [lia|]. cbv beta. rewrite Egr, Ha by exact Hi. intros N E. apply N. now apply Cconj_0.
Qed.
End Rev.
