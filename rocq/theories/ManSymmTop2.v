(** * C105: fnft_manakovv on signals with a constant polarisation computes the spectrum of fnft_nsev; time shift *)
From Coq Require Import Reals Lra List Lia ZArith QArith.
From Coquelicot Require Import Coquelicot.
From Verif Require Import Base Loop CExp CConj CDeriv CMean DiscTables DiscModel FscatterSpec FscatterProof ScatterSpec ScatterRun MatExp ScatterMatProps NftSpec KdvEnergy
  ManFscSpec ManFscModel ManFscProof ManFscAlg ManFscSample ManScatSpec ManScatTop ManNft NsevModel NsevSpec ManvSpec ManvModel NsevLib NsevCsTop ManCs ManCsTop SymmTop ZeroPad.
From Verif Require Import ManSymm ManSymmTop.
Import ListNotations.
Local Open Scope C_scope.

(** ** Block matrices: the 2x2 problem in the first two components *)
Definition blk (X : mat2) (e : C) : mat3 := M3 (a11 X) (a12 X) 0 (a21 X) (a22 X) 0 0 0 e.
Definition emb (X : mat2) (Y : mat3) : Prop := exists e, Y = blk X e.
Ltac m3c := cbn [m3mul m3add m3scal m3one m3zero blk a11 a12 a21 a22 mmul madd mscal mone mzero c11 c12 c13 c21 c22 c23 c31 c32 c33].
Lemma emb_mul X Y X' Y' : emb X X' -> emb Y Y' -> emb (mmul X Y) (m3mul X' Y').
Proof. intros [e ->] [f ->]. exists (e * f). apply mat3_eq; m3c; ring. Qed.
Lemma emb_add X Y X' Y' : emb X X' -> emb Y Y' -> emb (madd X Y) (m3add X' Y').
Proof. intros [e ->] [f ->]. exists (e + f). apply mat3_eq; m3c; ring. Qed.
Lemma emb_scal k X X' : emb X X' -> emb (mscal k X) (m3scal k X').
Proof. intros [e ->]. exists (k * e). apply mat3_eq; m3c; ring. Qed.
Lemma emb_one : emb mone m3one. Proof. exists (RtoC 1). reflexivity. Qed.
Lemma emb_zero : emb mzero m3zero. Proof. exists (RtoC 0). reflexivity. Qed.
Lemma emb_A lam t : emb (expA lam t) (expA3 lam t).
Proof. eexists. unfold expA3, expA, blk. cbn [a11 a12 a21 a22]. reflexivity. Qed.
Lemma r_of kappa q : (kappa = 1 \/ kappa = -1)%Z -> nse_r_from_q kappa q = - RtoC (IZR kappa) * Cconj q.
Proof. intros [-> | ->]; unfold nse_r_from_q; cbn [Z.eqb Pos.eqb]; [|replace (IZR (-1)) with (- (1))%R by (cbn; lra); rewrite RtoC_opp]; cbn; ring. Qed.
Lemma emb_B kappa q t : (kappa = 1 \/ kappa = -1)%Z -> emb (expB q (nse_r_from_q kappa q) t) (expNLS3 kappa q 0 t).
Proof.
  intros Hk. rewrite (r_of kappa q Hk). unfold expNLS3, expB3, expB. set (r := - RtoC (IZR kappa) * Cconj q). assert (C0 : Cconj 0 = 0) by (apply Ceq; cbn; ring).
  rewrite C0, !Cmult_0_r, Cplus_0_r. set (mu := Csqrt (q * r)). assert (Em : mu * mu = q * r) by apply Csqrt_sq. exists (RtoC 1).
  unfold expB3_at, expB_at. destruct (Ceq_dec mu 0) as [E|N].
  - rewrite E, Cmult_0_l in *. rewrite Ccosh_0. unfold Bmat3. apply mat3_eq; m3c; try ring.
    + transitivity (1 + t * t / 2 * (q * r)); [ring|]. rewrite <- Em. ring.
    + transitivity (1 + t * t / 2 * (q * r)); [ring|]. rewrite <- Em. ring.
  - unfold Bmat3. apply mat3_eq; m3c; try ring.
    + transitivity (1 + (Ccosh (mu * t) - 1) / (mu * mu) * (q * r)); [ring|]. rewrite <- Em. field. exact N.
    + transitivity (1 + (Ccosh (mu * t) - 1) / (mu * mu) * (q * r)); [ring|]. rewrite <- Em. field. exact N.
Qed.
Lemma emb_word EA EB FA FB : (forall a, emb (EA a) (FA a)) -> (forall a, emb (EB a) (FB a)) -> forall w, emb (word_val EA EB w) (word_val3 FA FB w).
Proof. intros HA HB w. induction w as [|[[|] a] w IH]; cbn [word_val word_val3 fold_right fst snd]; [apply emb_one| |]; apply emb_mul; auto. Qed.
Lemma emb_scheme EA EB FA FB : (forall a, emb (EA a) (FA a)) -> (forall a, emb (EB a) (FB a)) -> forall s, emb (scheme_val EA EB s) (scheme_val3 FA FB s).
Proof. intros HA HB s. induction s as [|[c w] s IH]; cbn [scheme_val scheme_val3 fold_right fst snd]; [apply emb_zero|]. apply emb_add; [apply emb_scal; now apply emb_word|exact IH]. Qed.
Lemma emb_descending n M M' : (forall j, (j < n)%nat -> emb (M j) (M' j)) -> emb (descending n M) (descending3 n M').
Proof. induction n as [|n IH]; intros E; cbn [descending descending3]; [apply emb_one|]. apply emb_mul; auto. Qed.
(** the fundamental solution *)
Lemma blk_fundamental lam kappa q : (kappa = 1 \/ kappa = -1)%Z ->
  fundamental3 (manakov_P lam kappa q 0) (fun t => blk (mexp (mscal t (akns_A lam q (nse_r_from_q kappa q)))) (Cexp (Ci * lam * t))).
Proof.
  intros Hk. rewrite (r_of kappa q Hk). set (r := - RtoC (IZR kappa) * Cconj q). set (A := akns_A lam q r). assert (HA : traceless A) by (unfold traceless, A, akns_A; cbn [a11 a22]; ring).
  destruct (mexp_fundamental A HA) as [H0 HV]. assert (C0 : Cconj 0 = 0) by (apply Ceq; cbn; ring).
  assert (EP : manakov_P lam kappa q 0 = blk A (Ci * lam)) by (unfold manakov_P, blk, A, akns_A; cbn [a11 a12 a21 a22]; rewrite C0; apply mat3_eq; cbn [c11 c12 c13 c21 c22 c23 c31 c32 c33]; try reflexivity; ring).
  split; [cbv beta; rewrite H0, Cmult_0_r, Cexp_0; reflexivity|]. intros t i j Hi Hj. rewrite EP. destruct (HV t) as (D1 & D2 & D3 & D4).
  assert (G : forall a : C, Cderive (fun t => Cexp (a * t)) t (a * Cexp (a * t))).
  { intros a. assert (Dl : Cderive (fun t : C => a * t) t a) by (eapply Cderive_eq; [apply Cderive_scal, Cderive_id|]; ring).
    eapply Cderive_eq; [exact (Cderive_comp Cexp _ t _ _ (Cderive_exp _) Dl)|]. cbv beta. ring. }
  destruct i as [|[|[|i]]]; try lia; destruct j as [|[|[|j]]]; try lia; cbn [entry3]; m3c;
    (eapply Cderive_eq; [first [apply (Cderive_const 0) | exact D1 | exact D2 | exact D3 | exact D4 | apply (G (Ci * lam))]|]); cbn [a11 a12 a21 a22 mmul]; ring.
Qed.

(** ** The methods that fnft_nsev and fnft_manakovv have in common *)
Definition same_method (d : man_disc) (n : nse_disc) : Prop :=
  match d with
  | M_2SPLIT3A => n = N_2SPLIT3A | M_2SPLIT3B => n = N_2SPLIT3B | M_2SPLIT4A => n = N_2SPLIT4A | M_2SPLIT4B => n = N_2SPLIT4B
  | M_2SPLIT6B => n = N_2SPLIT6B | M_BO => n = N_BO | _ => False
  end.
Lemma emb_splitting kappa q h deg s lam : (kappa = 1 \/ kappa = -1)%Z ->
  emb (splitting lam q (nse_r_from_q kappa q) h deg s) (splitting3 lam kappa q 0 (h / INR 1) h (deg, s)).
Proof.
  intros Hk. assert (E1 : (h / INR 1 = h)%R) by (cbn; field). rewrite E1. unfold splitting, splitting3. cbn [fst snd]. apply emb_scheme; intros a; [apply emb_A|now apply emb_B].
Qed.
Lemma embedded_scattering d n0 a (h : R) (q r : nat -> C) n kappa lam : same_method d n0 -> nse_to_akns n0 = Some a -> (kappa = 1 \/ kappa = -1)%Z ->
  (forall j, (j < n)%nat -> r j = nse_r_from_q kappa (q j)) ->
  exists e, man_scattering d kappa h q (fun _ => 0) n lam (blk (scattering a (weights a) h q r n lam) e).
Proof.
  intros Hs Ha Hk Hr. assert (U : akns_upsampling_factor a = 1%nat) by (destruct d; cbn [same_method] in Hs; try contradiction; subst n0; injection Ha as <-; reflexivity).
  rewrite scattering_steps by exact U.
  assert (Fast : forall us, man_scheme_of d = Some us -> is_ftes d = false -> man_upsampling_factor d = 1%nat -> (forall j, (j < n)%nat -> one_step a h (q j) (r j) lam = splitting lam (q j) (r j) h (fst us) (snd us)) ->
    exists e, man_scattering d kappa h q (fun _ => 0) n lam (blk (descending n (fun j => one_step a h (q j) (r j) lam)) e)).
  { intros us Eu Ef Eup Hst. assert (K : emb (descending n (fun j => one_step a h (q j) (r j) lam)) (descending3 n (fun j => man_step d kappa h (with_neighbours d n q j) (with_neighbours d n (fun _ => 0) j) us lam))).
    { apply emb_descending. intros j Hj. rewrite (Hst j Hj), (Hr j Hj). unfold with_neighbours, man_step. rewrite Ef, Eup. destruct us as [u s]. cbn [fst snd]. now apply emb_splitting. }
    destruct K as [e K]. exists e. unfold man_scattering. rewrite Eu. symmetry. exact K. }
  destruct d; cbn [same_method] in Hs; try contradiction; subst n0; injection Ha as <-; try (eapply Fast; [reflexivity|reflexivity|reflexivity|intros j Hj; reflexivity]).
  assert (K : emb (descending n (fun j => one_step A_BO h (q j) (r j) lam)) (descending3 n (fun j => blk (mexp (mscal (RtoC h) (akns_A lam (q j) (nse_r_from_q kappa (q j))))) (Cexp (Ci * lam * RtoC h))))).
  { apply emb_descending. intros j Hj. rewrite (Hr j Hj). eexists. reflexivity. }
  destruct K as [e K]. exists e. unfold man_scattering. cbn [man_scheme_of]. exists (fun j t => blk (mexp (mscal t (akns_A lam (q j) (nse_r_from_q kappa (q j))))) (Cexp (Ci * lam * t))).
  split; [|symmetry; exact K]. intros j Hj. cbn [step_lam]. now apply blk_fundamental.
Qed.

Section Pol.
Variable L : lib.
Hypothesis HL : lib_ok L.
Definition polar (c1 c2 : C) : mat2 := M2 c1 (- Cconj c2) c2 (Cconj c1).
Lemma polar_unitary c1 c2 : c1 * Cconj c1 + c2 * Cconj c2 = 1 -> unitary (polar c1 c2).
Proof.
  intros E. unfold unitary, polar, dagger. apply mat2_eq; cbn [a11 a12 a21 a22 mmul mone]; rewrite ?Cconj_opp, ?Cconj_conj; try ring.
  - transitivity (c1 * Cconj c1 + c2 * Cconj c2); [ring|exact E].
  - transitivity (c1 * Cconj c1 + c2 * Cconj c2); [ring|exact E].
Qed.
(** the signal (c1 q, c2 q), |c1|^2 + |c2|^2 = 1: a is the one of the scalar equation, b1 = conj c1 b, b2 = conj c2 b *)
Theorem manakovv_polarised_is_nsev D q c1 c2 T M XI kappa muser mdflt mu mcs user dflt u cs d :
  let mo := match muser with Some o => o | None => mdflt end in
  let o := match user with Some o => o | None => dflt end in
  mcs_call D (map (Cmult c1) q) (map (Cmult c2) q) T M XI kappa mo mu mcs -> cs_call D q T M XI kappa o u cs d ->
  same_method (m_disc mo) (discretization o) -> c1 * Cconj c1 + c2 * Cconj c2 = 1 ->
  (forall u1 u2, msucceeds L D (map (Cmult c1) q) (map (Cmult c2) q) T M XI kappa muser mdflt mu u1 -> succeeds L D q T M XI kappa user dflt u u2 ->
     exists cs1 cs2 a b, u_cs u1 = Some cs1 /\ u_cs u2 = Some cs2 /\
       mspectrum_is (m_cs mo) M a (fun i => Cconj c1 * b i) (fun i => Cconj c2 * b i) cs1 /\ spectrum_is (contspec_type o) M a b cs2) /\
  (u_bs mu = None \/ kappa = (-1)%Z -> m_cs mo = CS_AB \/ contspec_type o <> CS_AB ->
   (exists u2, succeeds L D q T M XI kappa user dflt u u2) ->
   exists u1, msucceeds L D (map (Cmult c1) q) (map (Cmult c2) q) T M XI kappa muser mdflt mu u1).
Proof.
  intros mo o Hm Hc Hs Ec. pose proof (cc_len _ _ _ _ _ _ _ _ _ _ Hc) as Lq. pose proof (cc_disc _ _ _ _ _ _ _ _ _ _ Hc) as Hd.
  assert (Hk : (kappa = 1 \/ kappa = -1)%Z) by (destruct (mc_valid _ _ _ _ _ _ _ _ _ _ Hm); assumption). pose proof (polar_unitary c1 c2 Ec) as HU.
  assert (HS : exists E : nat -> C, forall i, (i < M)%nat -> man_scattering (m_disc mo) kappa (spacing T D) (nthC (map (Cmult c1) q)) (nthC (map (Cmult c2) q)) D (RtoC (grid_point XI M i))
     (rot3 (polar c1 c2) (blk (Sof d T D q kappa (RtoC (grid_point XI M i))) (E i)))).
  { destruct (ScatterLoop.finite_choice (RtoC 0) (fun i e => man_scattering (m_disc mo) kappa (spacing T D) (nthC (map (Cmult c1) q)) (nthC (map (Cmult c2) q)) D (RtoC (grid_point XI M i))
     (rot3 (polar c1 c2) (blk (Sof d T D q kappa (RtoC (grid_point XI M i))) e))) M) as [E HE]; [|exists E; exact HE].
    intros i Hi. destruct (embedded_scattering (m_disc mo) (discretization o) d (spacing T D) (nthC q) (nthC (map (nse_r_from_q kappa) q)) D kappa (RtoC (grid_point XI M i)) Hs Hd Hk) as [e He].
    { intros j Hj. apply nth_r. lia. }
    exists e. apply (rot_scattering _ HU _ _ _ (nthC q) (fun _ => 0)); [|exact He]. intros k Hk'. rewrite !nth_map by lia. unfold rotated1, rotated2, polar. cbn [a11 a12 a21 a22]. split; ring. }
  destruct HS as [E HS].
  destruct (proj2 (mcall_spectrum L HL D _ _ T M XI kappa muser mdflt mu mcs Hm) (fun i => rot3 (polar c1 c2) (blk (Sof d T D q kappa (RtoC (grid_point XI M i))) (E i))) HS) as [R1 X1].
  destruct (call_spectrum L HL D q T M XI kappa user dflt u cs d Hc) as [R2 _]. fold o in R2. fold mo in R1, X1.
  assert (Eed : man_edges (m_disc mo) T (spacing T D) = (fst T - spacing T D / 2, snd T + spacing T D / 2)%R) by (clear - Hs; destruct (m_disc mo); try contradiction; reflexivity).
  rewrite Eed in R1, X1.
  assert (Ha : forall i, mnft_a (rot3 (polar c1 c2) (blk (Sof d T D q kappa (RtoC (grid_point XI M i))) (E i))) (fst T - spacing T D / 2, snd T + spacing T D / 2)%R (RtoC (grid_point XI M i))
     = nft_a_of (Sof d T D q kappa (RtoC (grid_point XI M i))) T (spacing T D) (RtoC (grid_point XI M i))).
  { intros i. unfold mnft_a, nft_a_of, rot3, rot_l, rot_r, blk. cbn [m3mul c11 c12 c13 c21 c22 c23 c31 c32 c33 fst snd]. ring. }
  assert (Hb1 : forall i, mnft_b1 (rot3 (polar c1 c2) (blk (Sof d T D q kappa (RtoC (grid_point XI M i))) (E i))) (fst T - spacing T D / 2, snd T + spacing T D / 2)%R (RtoC (grid_point XI M i))
     = Cconj c1 * nft_b_of (Sof d T D q kappa (RtoC (grid_point XI M i))) T (spacing T D) (RtoC (grid_point XI M i))).
  { intros i. unfold mnft_b1, nft_b_of, rot3, rot_l, rot_r, blk, polar. cbn [m3mul c11 c12 c13 c21 c22 c23 c31 c32 c33 fst snd a11 a12 a21 a22]. ring. }
  assert (Hb2 : forall i, mnft_b2 (rot3 (polar c1 c2) (blk (Sof d T D q kappa (RtoC (grid_point XI M i))) (E i))) (fst T - spacing T D / 2, snd T + spacing T D / 2)%R (RtoC (grid_point XI M i))
     = Cconj c2 * nft_b_of (Sof d T D q kappa (RtoC (grid_point XI M i))) T (spacing T D) (RtoC (grid_point XI M i))).
  { intros i. unfold mnft_b2, nft_b_of, rot3, rot_l, rot_r, blk, polar. cbn [m3mul c11 c12 c13 c21 c22 c23 c31 c32 c33 fst snd a11 a12 a21 a22]. ring. }
  split.
  - intros u1 u2 G1 G2. destruct (R1 u1 G1) as (cs1 & F1 & S1). destruct (R2 u2 G2) as (cs2 & F2 & S2).
    exists cs1, cs2. do 2 eexists. split; [exact F1|]. split; [exact F2|]. split; [|exact S2].
    unfold mspectrum_is in *. destruct (m_cs mo); try exact S1.
    + intros i Hi. specialize (S1 i Hi). cbv beta. rewrite Ha, Hb1, Hb2 in S1. exact S1.
    + intros i Hi. specialize (S1 i Hi). cbv beta. rewrite Ha, Hb1, Hb2 in S1. exact S1.
    + destruct S1 as [S1 S1']. split; intros i Hi; [specialize (S1 i Hi)|specialize (S1' i Hi)]; cbv beta; rewrite Ha, Hb1, Hb2 in *; assumption.
  - intros N A (u2 & G2). apply X1; [exact N|]. destruct A as [A|A]; [left; exact A|right]. destruct (R2 u2 G2) as (cs2 & F2 & S2).
    destruct (spectrum_nz _ _ _ _ _ S2) as [B|B]; [contradiction|]. intros i Hi. rewrite Ha. exact (B i Hi).
Qed.

(** ** Moving the time window by tau leaves a unchanged and multiplies b1 and b2 by exp(-2 i xi tau), for every discretisation *)
Theorem manakovv_time_shift D q1 q2 T M XI kappa user dflt u cs (tau : R) :
  let o := match user with Some o => o | None => dflt end in
  manv_valid D (Some q1) (Some q2) (Some T) (Some XI) kappa o u -> length q1 = D -> length q2 = D -> (2 <= M)%nat ->
  u_cs u = Some cs -> (mcs_values (m_cs o) * M <= length cs)%nat -> m_cs o <> CS_bad ->
  m_rich o <> 1%nat -> m_disc o <> M_FTES4_4B ->
  ((3 <= D)%nat \/ man_upsampling_factor (m_disc o) = 1%nat) -> (Z.of_nat (D * man_upsampling_factor (m_disc o)) <= 2147483647)%Z ->
  let d := m_disc o in let n := (D * man_upsampling_factor d)%nat in
  exists p, man_preprocess (l_junk L) (l_junkR L) D (Some q1) (Some q2) (spacing T D) D d = Ret (inr p) /\
  (man_upsampling_factor d = 1%nat -> po_q p = q1 /\ po_r p = q2) /\
  ((forall i, (i < M)%nat -> man_scat_exact d kappa (spacing T D) (nthC (po_q p)) (nthC (po_r p)) n (RtoC (grid_point XI M i))) ->
   mrelated o M kappa u (msucceeds L D q1 q2 T M XI kappa user dflt u) (msucceeds L D q1 q2 (fst T + tau, snd T + tau)%R M XI kappa user dflt u)
    (fun a b1 b2 a' b1' b2' => forall i, (i < M)%nat -> a' i = a i /\
       b1' i = Cexp (- (2) * Ci * RtoC (grid_point XI M i) * RtoC tau) * b1 i /\ b2' i = Cexp (- (2) * Ci * RtoC (grid_point XI M i) * RtoC tau) * b2 i)).
Proof.
  intros o V L1 L2 HM Ecs Lcs Hct Hr HB H3 H31 d n. set (T' := (fst T + tau, snd T + tau)%R).
  assert (Esp : spacing T' D = spacing T D) by (unfold spacing, T'; cbn [fst snd]; f_equal; ring).
  assert (V' : manv_valid D (Some q1) (Some q2) (Some T') (Some XI) kappa o u).
  { destruct V as [V1 V2 V3 V4 V5 V6 V7 V8 V9]. constructor; try assumption.
    destruct V4 as (t0 & t1 & E & Ht). injection E as ->. exists (t0 + tau)%R, (t1 + tau)%R. split; [reflexivity|lra]. }
  destruct (manakovv_contspec_is_discrete_nft L HL D q1 q2 T M XI kappa user dflt u cs V L1 L2 HM Ecs Lcs Hct Hr HB H3 H31) as (p & Ep & Hp & H).
  destruct (manakovv_contspec_is_discrete_nft L HL D q1 q2 T' M XI kappa user dflt u cs V' L1 L2 HM Ecs Lcs Hct Hr HB H3 H31) as (p' & Ep' & _ & H').
  fold o in Ep, Ep', H, H', Hp. fold d n in Ep, Ep', H, H', Hp. exists p. split; [exact Ep|]. split; [exact Hp|]. intros Hx. rewrite Esp in Ep', H'. rewrite Ep in Ep'. injection Ep' as <-.
  destruct (H Hx) as (S & HS & H1 & _). destruct (H' Hx) as (S' & HS' & H1' & H2').
  assert (ES : forall i, (i < M)%nat -> S' i = S i) by (intros i Hi; apply (proj2 (HS i Hi)), HS', Hi).
  set (e := man_edges d T (spacing T D)) in *. set (e' := man_edges d T' (spacing T D)) in *.
  assert (Ee : fst e' = (fst e + tau)%R /\ snd e' = (snd e + tau)%R).
  { unfold e, e', man_edges, T'. destruct (man_upsampling_factor d) as [|[|[|?]]]; cbn [fst snd]; split; ring. }
  destruct Ee as [Ee1 Ee2]. assert (E2 : RtoC 2 = 1 + 1) by (apply Ceq; cbn; ring). set (xi := fun i => RtoC (grid_point XI M i)) in *.
  assert (Ea : forall i, (i < M)%nat -> mnft_a (S' i) e' (xi i) = mnft_a (S i) e (xi i)).
  { intros i Hi. rewrite ES by exact Hi. unfold mnft_a. rewrite Ee1, Ee2. rewrite <- !Cmult_assoc, <- !Cexp_plus. f_equal. f_equal. rewrite ?E2, !RtoC_plus. ring. }
  assert (Eb1 : forall i, (i < M)%nat -> mnft_b1 (S' i) e' (xi i) = Cexp (- (2) * Ci * xi i * RtoC tau) * mnft_b1 (S i) e (xi i)).
  { intros i Hi. rewrite ES by exact Hi. unfold mnft_b1. rewrite Ee1, Ee2. rewrite (Cmult_comm (Cexp (- (2) * Ci * xi i * RtoC tau))). rewrite <- !Cmult_assoc, <- !Cexp_plus. f_equal. f_equal. rewrite ?E2, !RtoC_plus. ring. }
  assert (Eb2 : forall i, (i < M)%nat -> mnft_b2 (S' i) e' (xi i) = Cexp (- (2) * Ci * xi i * RtoC tau) * mnft_b2 (S i) e (xi i)).
  { intros i Hi. rewrite ES by exact Hi. unfold mnft_b2. rewrite Ee1, Ee2. rewrite (Cmult_comm (Cexp (- (2) * Ci * xi i * RtoC tau))). rewrite <- !Cmult_assoc, <- !Cexp_plus. f_equal. f_equal. rewrite ?E2, !RtoC_plus. ring. }
  split.
  - intros u1 u2 (x1 & y1 & R1) (x2 & y2 & R2). destruct (H1 u1 x1 y1 R1) as (cs1 & F1 & G1 & _). destruct (H1' u2 x2 y2 R2) as (cs2 & F2 & G2 & _).
    exists cs1, cs2. do 6 eexists. split; [exact F1|]. split; [exact F2|]. split; [exact G1|]. split; [exact G2|]. intros i Hi. cbv beta. split; [now apply Ea|]. split; [now apply Eb1|now apply Eb2].
  - intros N (u1 & x1 & y1 & R1). destruct (H1 u1 x1 y1 R1) as (cs1 & F1 & G1 & _). destruct (H2' N) as (u2 & x2 & y2 & R2).
    + destruct (mspectrum_nz _ _ _ _ _ _ G1) as [E|E]; [left; exact E|right]. intros i Hi. specialize (E i Hi). cbv beta in E.
      change (mnft_a (S' i) e' (xi i) <> 0). rewrite Ea by exact Hi. exact E.
    + exists u2, x2, y2. exact R2.
Qed.
End Pol.
