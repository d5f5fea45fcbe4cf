(** * C100, continued: translation in time and in frequency *)
From Coq Require Import Reals Lra.
From Coquelicot Require Import Coquelicot.
From Verif Require Import Loop CExp CConj CMean CField DiscTables DiscModel FscatterSpec FscatterProof ScatterSpec ScatterRun MatExp ScatterMatProps
  NsevModel NsevSpec NftSpec NsevLib NsevCsTop NsevEnergy KdvEnergy.
From Verif Require Import Symm Symm2 SymmTop.
Local Open Scope C_scope.

Section Sym.
Variable L : lib.
Hypothesis HL : lib_ok L.

(** ** Translation in time, for every method: moving the time window by tau leaves a unchanged and multiplies b by
   exp(-2 i xi tau) *)
Theorem nsev_time_shift D q T M XI kappa user dflt u cs d (tau : R) :
  let o := match user with Some o => o | None => dflt end in
  nsev_valid D (Some q) (Some T) (Some XI) kappa o u -> length q = D -> (2 <= M)%nat ->
  u_cs u = Some cs -> (cs_values (contspec_type o) * M <= length cs)%nat -> contspec_type o <> CS_bad ->
  richardson_extrapolation_flag o <> 1%nat ->
  nse_to_akns (discretization o) = Some d -> ((3 <= D)%nat \/ akns_upsampling_factor d = 1%nat) ->
  (Z.of_nat (D * akns_upsampling_factor d) <= 2147483647)%Z ->
  exists p, nse_preprocess (l_junk L) (l_junkR L) D (Some q) (spacing T D) kappa D (discretization o) = Ret (inr p) /\
  (akns_upsampling_factor d = 1%nat -> po_q p = q /\ po_r p = map (nse_r_from_q kappa) q) /\
  ((forall i, (i < M)%nat -> scattering_exact d (weights d) (spacing T D) (nthC (po_q p)) (nthC (po_r p)) (D * akns_upsampling_factor d) (RtoC (grid_point XI M i))) ->
   related o M kappa u (succeeds L D q T M XI kappa user dflt u) (succeeds L D q (fst T + tau, snd T + tau)%R M XI kappa user dflt u)
    (fun a1 b1 a2 b2 => forall i, (i < M)%nat -> a2 i = a1 i /\ b2 i = Cexp (- (2) * Ci * RtoC (grid_point XI M i) * RtoC tau) * b1 i)).
Proof.
  intros o V Lq HM Ecs Lcs Hct Hr Hd H3 H31. set (T' := (fst T + tau, snd T + tau)%R).
  assert (Esp : spacing T' D = spacing T D) by (unfold spacing, T'; cbn [fst snd]; f_equal; ring).
  assert (V' : nsev_valid D (Some q) (Some T') (Some XI) kappa o u).
  { destruct V as [V1 V2 V3 V4 V5 V6 V7 V8]. constructor; try assumption.
    destruct V3 as (t0 & t1 & E & Ht). injection E as ->. exists (t0 + tau)%R, (t1 + tau)%R. split; [reflexivity|lra]. }
  destruct (nsev_contspec_is_discrete_nft L HL D q T M XI kappa user dflt u cs d V Lq HM Ecs Lcs Hct Hr Hd H3 H31) as (p & Ep & Hp & H).
  destruct (nsev_contspec_is_discrete_nft L HL D q T' M XI kappa user dflt u cs d V' Lq HM Ecs Lcs Hct Hr Hd H3 H31) as (p' & Ep' & _ & H').
  fold o in Ep, Ep', H, H'. exists p. split; [exact Ep|]. split; [exact Hp|]. intros Hx. rewrite Esp in Ep', H'. rewrite Ep in Ep'. injection Ep' as <-.
  cbv zeta in H, H'. specialize (H Hx). specialize (H' Hx). destruct H as [H1 _]. destruct H' as [H1' H2'].
  set (S := fun i => scattering d (weights d) (spacing T D) (nthC (po_q p)) (nthC (po_r p)) (D * akns_upsampling_factor d) (RtoC (grid_point XI M i))) in *.
  set (xi := fun i => RtoC (grid_point XI M i)) in *.
  assert (Ea : forall i, nft_a_of (S i) T' (spacing T D) (xi i) = nft_a_of (S i) T (spacing T D) (xi i)).
  { intros i. unfold nft_a_of, T'. cbn [fst snd]. rewrite <- !Cmult_assoc, <- !Cexp_plus. f_equal. f_equal. unfold Rminus. rewrite !RtoC_plus. ring. }
  assert (Eb : forall i, nft_b_of (S i) T' (spacing T D) (xi i) = Cexp (- (2) * Ci * xi i * RtoC tau) * nft_b_of (S i) T (spacing T D) (xi i)).
  { intros i. unfold nft_b_of, T'. cbn [fst snd]. rewrite (Cmult_comm (Cexp (- (2) * Ci * xi i * RtoC tau))). rewrite <- !Cmult_assoc, <- !Cexp_plus. f_equal. f_equal. unfold Rminus. rewrite !RtoC_plus. ring. }
  split.
  - intros u1 u2 (x1 & y1 & R1) (x2 & y2 & R2). destruct (H1 u1 x1 y1 R1) as (cs1 & F1 & G1 & _). destruct (H1' u2 x2 y2 R2) as (cs2 & F2 & G2 & _).
    exists cs1, cs2, (fun i => nft_a_of (S i) T (spacing T D) (xi i)), (fun i => nft_b_of (S i) T (spacing T D) (xi i)),
      (fun i => nft_a_of (S i) T' (spacing T D) (xi i)), (fun i => nft_b_of (S i) T' (spacing T D) (xi i)).
    do 4 (split; [assumption|]). intros i Hi. split; [apply Ea|apply Eb].
  - intros N (u1 & x1 & y1 & R1). destruct (H1 u1 x1 y1 R1) as (cs1 & F1 & G1 & _). destruct (H2' N) as (u2 & x2 & y2 & R2).
    + destruct (spectrum_nz _ _ _ _ _ G1) as [E|E]; [left; exact E|right]. intros i Hi. specialize (E i Hi). cbv beta in E.
      change (nft_a_of (S i) T' (spacing T D) (xi i) <> 0). now rewrite Ea.
    + exists u2, x2, y2. exact R2.
Qed.

(** ** Translation in frequency, for the two methods whose steps put the sample in the middle: the samples times
   exp(-2 i omega t_j) have the spectrum of the signal at frequencies increased by omega *)
Definition modulated (omega : R) (T : R * R) (D : nat) (q : list C) : list C :=
  map (fun j => Cexp (- (2) * Ci * RtoC omega * RtoC (grid_point T D j)) * nthC q j) (seq 0 D).
Lemma nth_modulated omega T D q j : (j < D)%nat -> nthC (modulated omega T D q) j = Cexp (- (2) * Ci * RtoC omega * RtoC (grid_point T D j)) * nthC q j.
Proof.
  intros Hj. unfold modulated. set (f := fun j => Cexp (- (2) * Ci * RtoC omega * RtoC (grid_point T D j)) * nthC q j). unfold nthC at 1.
  rewrite (nth_indep _ _ (f 0%nat)) by (rewrite map_length, seq_length; exact Hj). rewrite map_nth, seq_nth by exact Hj. reflexivity.
Qed.
(** diag(e^(-i omega t), e^(i omega t)) *)
Definition U (omega t : R) : mat2 := expA (RtoC omega) t.
Lemma mid_step d (h omega t : R) (q r lam : C) : d = A_2SPLIT2A \/ d = A_2SPLIT2_MODAL ->
  let c := Cexp (- (2) * Ci * RtoC omega * RtoC t) in
  fast_step d h (c * q) (/ c * r) (lam + RtoC omega) = mmul (U omega (t + h / 2)) (mmul (fast_step d h q r lam) (U omega (- (t - h / 2)))).
Proof.
  intros Hd c. assert (Nc : c <> 0) by apply Cexp_neq0.
  assert (EA : forall x : R, expA (lam + RtoC omega) x = mmul (U omega x) (expA lam x) /\ expA (lam + RtoC omega) x = mmul (expA lam x) (U omega x)).
  { intros x. split; unfold U, expA; apply mat2_eq; cbn [a11 a12 a21 a22 mmul];
      rewrite ?(Cmult_0_l), ?Cmult_0_r, ?Cplus_0_l, ?Cplus_0_r, <- ?Cexp_plus; try reflexivity; f_equal; ring. }
  assert (EU : forall x y : R, mmul (U omega x) (U omega y) = U omega (x + y)).
  { intros x y. unfold U, expA; apply mat2_eq; cbn [a11 a12 a21 a22 mmul];
      rewrite ?(Cmult_0_l), ?Cmult_0_r, ?Cplus_0_l, ?Cplus_0_r, <- ?Cexp_plus; try reflexivity; f_equal; rewrite RtoC_plus; ring. }
  assert (ET : forall X, twist c X = mmul (U omega t) (mmul X (U omega (- t)))).
  { intros X. unfold U, expA, twist.
    assert (E1 : Cexp (- Ci * RtoC omega * RtoC t) * Cexp (- Ci * RtoC omega * RtoC (- t)) = 1) by (rewrite <- Cexp_plus, RtoC_opp; rewrite <- Cexp_0; f_equal; ring).
    assert (E2 : Cexp (Ci * RtoC omega * RtoC t) * Cexp (Ci * RtoC omega * RtoC (- t)) = 1) by (rewrite <- Cexp_plus, RtoC_opp; rewrite <- Cexp_0; f_equal; ring).
    assert (E3 : Cexp (- Ci * RtoC omega * RtoC t) * Cexp (Ci * RtoC omega * RtoC (- t)) = c) by (rewrite <- Cexp_plus, RtoC_opp; unfold c; f_equal; ring).
    assert (E4 : Cexp (Ci * RtoC omega * RtoC t) * Cexp (- Ci * RtoC omega * RtoC (- t)) = / c).
    { rewrite <- Cexp_plus, RtoC_opp. transitivity (Cexp (Ci * RtoC omega * RtoC t + - Ci * RtoC omega * - RtoC t) * c * / c); [field; exact Nc|]. unfold c at 1. rewrite <- Cexp_plus.
      replace (Ci * RtoC omega * RtoC t + - Ci * RtoC omega * - RtoC t + - (2) * Ci * RtoC omega * RtoC t) with (RtoC 0) by ring. rewrite Cexp_0. ring. }
    apply mat2_eq; cbn [a11 a12 a21 a22 mmul].
    - transitivity (a11 X * (Cexp (- Ci * RtoC omega * RtoC t) * Cexp (- Ci * RtoC omega * RtoC (- t)))); [rewrite E1; ring|ring].
    - rewrite <- E3. ring.
    - rewrite <- E4. ring.
    - transitivity (a22 X * (Cexp (Ci * RtoC omega * RtoC t) * Cexp (Ci * RtoC omega * RtoC (- t)))); [rewrite E2; ring|ring]. }
  assert (G : forall X, mmul (expA (lam + RtoC omega) (h / 2)) (mmul (twist c X) (expA (lam + RtoC omega) (h / 2))) =
    mmul (U omega (t + h / 2)) (mmul (mmul (expA lam (h / 2)) (mmul X (expA lam (h / 2)))) (U omega (- (t - h / 2))))).
  { intros X. rewrite (proj2 (EA (h / 2)%R)) at 2. rewrite ET. rewrite (proj1 (EA (h / 2)%R)) at 1.
    replace (t + h / 2)%R with (h / 2 + t)%R by ring. replace (- (t - h / 2))%R with (- t + h / 2)%R by ring. rewrite <- !EU.
    assert (CA : forall x y, mmul (expA lam x) (U omega y) = mmul (U omega y) (expA lam x)).
    { intros x y. unfold U, expA; apply mat2_eq; cbn [a11 a12 a21 a22 mmul]; ring. }
    rewrite !mmul_assoc. rewrite <- (mmul_assoc (U omega (h / 2)) (expA lam (h / 2)) (U omega t)), CA, mmul_assoc.
    rewrite <- (mmul_assoc _ (U omega (- t)) (expA lam (h / 2))), <- CA, mmul_assoc. reflexivity. }
  destruct Hd as [-> | ->]; cbn [fast_step].
  - rewrite <- G. do 2 f_equal. symmetry. rewrite !expB_mexp, (mo_exp _ (twist_morph c Nc)). f_equal.
    apply (co_B _ _ 0 _ _ _ 0 _ _ (twist_cov c (RtoC h) 0 q r Nc)).
  - rewrite <- G. do 2 f_equal. unfold modal.
    replace (1 - RtoC h * (c * q) * (RtoC h * (/ c * r))) with (1 - RtoC h * q * (RtoC h * r)) by (field; exact Nc).
    apply mat2_eq; cbn [a11 a12 a21 a22 mscal twist]; ring.
Qed.
Lemma U_mul omega x y : mmul (U omega x) (U omega y) = U omega (x + y).
Proof.
  unfold U, expA; apply mat2_eq; cbn [a11 a12 a21 a22 mmul];
    rewrite ?(Cmult_0_l), ?Cmult_0_r, ?Cplus_0_l, ?Cplus_0_r, <- ?Cexp_plus; try reflexivity; f_equal; rewrite RtoC_plus; ring.
Qed.
Lemma U_0 omega x y : (x + y = 0)%R -> mmul (U omega x) (U omega y) = mone.
Proof. intros E. rewrite U_mul, E. unfold U, expA. rewrite !Cmult_0_r, Cexp_0. reflexivity. Qed.
Lemma mid_product d (h omega t0 : R) (q r : nat -> C) (lam : C) n : d = A_2SPLIT2A \/ d = A_2SPLIT2_MODAL ->
  let c j := Cexp (- (2) * Ci * RtoC omega * RtoC (t0 + h * INR j)) in
  descending n (fun j => fast_step d h (c j * q j) (/ c j * r j) (lam + RtoC omega)) =
  mmul (U omega (t0 + h * INR n - h / 2)) (mmul (descending n (fun j => fast_step d h (q j) (r j) lam)) (U omega (- (t0 - h / 2)))).
Proof.
  intros Hd c. induction n as [|n IH]; cbn [descending].
  - cbn [INR]. rewrite mmul_one_l, U_0; [reflexivity|ring].
  - rewrite IH. unfold c at 1 2. rewrite (mid_step d h omega (t0 + h * INR n) (q n) (r n) lam Hd).
    rewrite S_INR. replace (t0 + h * (INR n + 1) - h / 2)%R with (t0 + h * INR n + h / 2)%R by field.
    set (A := U omega (t0 + h * INR n + h / 2)). set (E := fast_step d h (q n) (r n) lam). set (P := descending n _). set (Z := U omega (- (t0 - h / 2))).
    rewrite !mmul_assoc. rewrite <- (mmul_assoc (mmul A E) (U omega (- (t0 + h * INR n - h / 2))) _). rewrite U_0 by ring. now rewrite mmul_one_r.
Qed.

Theorem nsev_modulation D q T M XI kappa user dflt u cs d (omega : R) :
  let o := match user with Some o => o | None => dflt end in
  cs_call D q T M XI kappa o u cs d -> d = A_2SPLIT2A \/ d = A_2SPLIT2_MODAL ->
  related o M kappa u (succeeds L D q T M XI kappa user dflt u)
    (succeeds L D (modulated omega T D q) T M (fst XI + omega, snd XI + omega)%R kappa user dflt u)
    (fun a1 b1 a2 b2 => forall i, (i < M)%nat -> a2 i = a1 i /\ b2 i = b1 i).
Proof.
  intros o Hc Hd. set (XI' := (fst XI + omega, snd XI + omega)%R). set (q' := modulated omega T D q).
  assert (Egr : forall i, grid_point XI' M i = (grid_point XI M i + omega)%R) by (intros; unfold grid_point, spacing, XI'; cbn [fst snd]; unfold Rdiv; ring).
  assert (Lq' : length q' = D) by (unfold q', modulated; now rewrite map_length, seq_length).
  pose (c := fun j => Cexp (- (2) * Ci * RtoC omega * RtoC (fst T + spacing T D * INR j))).
  assert (Nc : forall j, c j <> 0) by (intros; apply Cexp_neq0).
  assert (Ic : forall j, Cconj (c j) = / c j).
  { intros j. assert (Cmod (c j) = 1%R) as E1; [|symmetry; now apply unit_nz]. unfold c.
    replace (- (2) * Ci * RtoC omega * RtoC (fst T + spacing T D * INR j)) with ((0, - 2 * omega * (fst T + spacing T D * INR j))%R : C) by (apply Ceq; cbn; ring).
    rewrite Cmod_Cexp. cbn [fst]. apply exp_0. }
  pose proof (cc_len _ _ _ _ _ _ _ _ _ _ Hc) as Lq.
  assert (Er : forall j, (j < D)%nat -> nthC q' j = c j * nthC q j /\ nthC (map (nse_r_from_q kappa) q') j = / c j * nthC (map (nse_r_from_q kappa) q) j).
  { intros j Hj. rewrite !nth_r by (rewrite ?Lq, ?Lq'; exact Hj). assert (EM : nthC q' j = c j * nthC q j) by exact (nth_modulated omega T D q j Hj). rewrite EM. split; [reflexivity|].
    rewrite <- Ic. unfold nse_r_from_q. destruct (kappa =? 1)%Z; rewrite Cmult_conj; ring. }
  assert (U1 : akns_upsampling_factor d = 1%nat) by (destruct Hd as [E | E]; rewrite E; reflexivity).
  assert (Dg : exists m, akns_degree d = S m) by (destruct Hd as [E | E]; rewrite E; eexists; reflexivity). destruct Dg as [m Dg].
  assert (E1 : forall x : R, (x / INR 1 = x)%R) by (intros; cbn; field).
  assert (Dext : forall n (F G : nat -> mat2), (forall j, (j < n)%nat -> F j = G j) -> descending n F = descending n G).
  { induction n as [|n IH]; intros F G E; cbn [descending]; [reflexivity|]. rewrite E, (IH F G) by auto. reflexivity. }
  assert (G : forall lam, Sof d T D q' kappa (lam + RtoC omega) = mmul (U omega (snd T + spacing T D / 2)) (mmul (Sof d T D q kappa lam) (U omega (- (fst T - spacing T D / 2)))) /\
    (scattering_exact d (weights d) (spacing T D) (nthC q) (nthC (map (nse_r_from_q kappa) q)) D lam ->
     scattering_exact d (weights d) (spacing T D) (nthC q') (nthC (map (nse_r_from_q kappa) q')) D (lam + RtoC omega))).
  { intros lam. unfold Sof, scattering, scattering_exact. rewrite Dg, U1, E1. split.
    - transitivity (descending D (fun j => fast_step d (spacing T D) (c j * nthC q j) (/ c j * nthC (map (nse_r_from_q kappa) q) j) (lam + RtoC omega))).
      + apply Dext. intros j Hj. now destruct (Er j Hj) as [-> ->].
      + unfold c. rewrite (mid_product d (spacing T D) omega (fst T) (nthC q) (nthC (map (nse_r_from_q kappa) q)) lam D Hd).
        f_equal. f_equal. destruct Hc as [[V1 _ _ _ _ _ _ _] _ _ _ _ _ _ _ _ _ _].
        assert (ED : (snd T = fst T + spacing T D * (INR D - 1))%R).
        { unfold spacing. rewrite minus_INR by lia. cbn [INR]. field. assert (2 <= INR D)%R by (apply (le_INR 2); exact V1). lra. }
        rewrite ED. field.
    - intros X j Hj. destruct (Er j Hj) as [-> ->].
      apply (co_exact d (twist (c j)) (spacing T D) (spacing T D) lam (nthC q j) (nthC (map (nse_r_from_q kappa) q) j) lam);
        [apply twist_morph, Nc|apply twist_dets, Nc|apply twist_cov, Nc|apply X, Hj]. }
  assert (Ha : forall lam, nft_a_of (Sof d T D q' kappa (lam + RtoC omega)) T (spacing T D) (lam + RtoC omega) = nft_a_of (Sof d T D q kappa lam) T (spacing T D) lam).
  { intros lam. rewrite (proj1 (G lam)). unfold nft_a_of, U, expA. cbn [a11 a12 a21 a22 mmul].
    set (x := a11 _). set (tl := (fst T - _)%R). set (tr := (snd T + _)%R).
    rewrite !Cmult_0_l, !Cmult_0_r, !Cplus_0_r.
    transitivity (x * (Cexp (- Ci * RtoC omega * RtoC tr) * Cexp (- Ci * RtoC omega * RtoC (- tl)) * Cexp (- Ci * (lam + RtoC omega) * RtoC tl) * Cexp (Ci * (lam + RtoC omega) * RtoC tr))); [ring|].
    rewrite <- !Cmult_assoc, <- !Cexp_plus. do 2 f_equal. rewrite RtoC_opp. ring. }
  assert (Hb : forall lam, nft_b_of (Sof d T D q' kappa (lam + RtoC omega)) T (spacing T D) (lam + RtoC omega) = nft_b_of (Sof d T D q kappa lam) T (spacing T D) lam).
  { intros lam. rewrite (proj1 (G lam)). unfold nft_b_of, U, expA. cbn [a11 a12 a21 a22 mmul].
    set (x := a21 (Sof _ _ _ _ _ _)). set (tl := (fst T - _)%R). set (tr := (snd T + _)%R).
    rewrite !Cmult_0_l, !Cmult_0_r, !Cplus_0_r, !Cplus_0_l.
    transitivity (x * (Cexp (Ci * RtoC omega * RtoC tr) * Cexp (- Ci * RtoC omega * RtoC (- tl)) * Cexp (- Ci * (lam + RtoC omega) * RtoC tl) * Cexp (- Ci * (lam + RtoC omega) * RtoC tr))); [ring|].
    rewrite <- !Cmult_assoc, <- !Cexp_plus. do 2 f_equal. rewrite RtoC_opp. ring. }
  eapply call_pair; [exact HL|exact Hc| | |].
  - destruct Hc as [V _ HM Ecs Lcs Hct Hr Hdd Hu Hint Hx]. constructor; try assumption.
    + destruct V as [V1 V2 V3 V4 V5 V6 V7 V8]. constructor; try assumption; [discriminate|].
      intros N. destruct (V4 N) as (t0 & t1 & E & Ht). injection E as ->. exists (t0 + omega)%R, (t1 + omega)%R. split; [reflexivity|lra].
    + intros i Hi. rewrite Egr, RtoC_plus. apply (proj2 (G _)), Hx, Hi.
  - intros i Hi. rewrite Egr, RtoC_plus. split; [apply Ha|apply Hb].
  - intros i Hi. exists i. split; [exact Hi|]. cbv beta. now rewrite Egr, RtoC_plus, Ha.
Qed.
End Sym.
