(** * C105: rotations of the polarisation and time shift for fnft_manakovv *)
From Coq Require Import Reals Lra List Lia ZArith.
From Coquelicot Require Import Coquelicot.
From Verif Require Import Base Loop CExp CConj CDeriv CMean DiscTables DiscModel FscatterSpec FscatterProof ScatterSpec ScatterRun MatExp ScatterMatProps NftSpec KdvEnergy
  ManFscSpec ManFscModel ManFscProof ManFscAlg ManFscSample ManScatSpec ManScatTop ManNft NsevModel NsevSpec ManvSpec ManvModel NsevLib NsevCsTop ManCs ManCsTop SymmTop.
From Verif Require Import ManSymm.
Import ListNotations.
Local Open Scope C_scope.

Section MSym.
Variable L : lib.
Hypothesis HL : lib_ok L.

(** a call for the continuous spectrum to which C93 applies, for a method that works on the given samples: the samples
   (q1_j, q2_j), j < D, on T, the frequencies are M points on XI *)
Record mcs_call (D : nat) (q1 q2 : list C) (T : R * R) (M : nat) (XI : R * R) (kappa : Z) (o : mopts) (u : outs) (cs : list C) : Prop := {
  mc_valid : manv_valid D (Some q1) (Some q2) (Some T) (Some XI) kappa o u;
  mc_len1 : length q1 = D; mc_len2 : length q2 = D;
  mc_M : (2 <= M)%nat;
  mc_cs : u_cs u = Some cs;
  mc_room : (mcs_values (m_cs o) * M <= length cs)%nat;
  mc_type : m_cs o <> CS_bad;
  mc_rich : m_rich o <> 1%nat;
  mc_4B : m_disc o <> M_FTES4_4B;
  mc_up : man_upsampling_factor (m_disc o) = 1%nat;
  mc_int : (Z.of_nat D <= 2147483647)%Z;
  mc_exact : forall i, (i < M)%nat -> man_scat_exact (m_disc o) kappa (spacing T D) (nthC q1) (nthC q2) D (RtoC (grid_point XI M i)) }.
Definition msucceeds (D : nat) (q1 q2 : list C) (T : R * R) (M : nat) (XI : R * R) (kappa : Z) (user : option mopts) (dflt : mopts) (u u' : outs) : Prop :=
  exists user' dflt', fnft_manakovv (mlib_env L) D (Some q1) (Some q2) (Some T) M (Some XI) kappa user dflt u = Ret (SUCCESS, u', user', dflt').
(** the two calls return spectra (a, b1, b2) that are related by rel, and the second succeeds if the first does and no bound states are computed *)
Definition mrelated (o : mopts) (M : nat) (kappa : Z) (u : outs) (run1 run2 : outs -> Prop)
    (rel : (nat -> C) -> (nat -> C) -> (nat -> C) -> (nat -> C) -> (nat -> C) -> (nat -> C) -> Prop) : Prop :=
  (forall u1 u2, run1 u1 -> run2 u2 -> exists cs1 cs2 a b1 b2 a' b1' b2', u_cs u1 = Some cs1 /\ u_cs u2 = Some cs2 /\
     mspectrum_is (m_cs o) M a b1 b2 cs1 /\ mspectrum_is (m_cs o) M a' b1' b2' cs2 /\ rel a b1 b2 a' b1' b2') /\
  (u_bs u = None \/ kappa = (-1)%Z -> (exists u1, run1 u1) -> exists u2, run2 u2).

(** the values of a call: S i is the scattering matrix at the i-th frequency *)
Definition mscat_at D q1 q2 T M XI kappa (o : mopts) (S : nat -> mat3) : Prop :=
  forall i, (i < M)%nat -> man_scattering (m_disc o) kappa (spacing T D) (nthC q1) (nthC q2) D (RtoC (grid_point XI M i)) (S i).
Lemma mcall_spectrum D q1 q2 T M XI kappa user dflt u cs :
  let o := match user with Some o => o | None => dflt end in
  mcs_call D q1 q2 T M XI kappa o u cs ->
  let xi i := RtoC (grid_point XI M i) in
  let e := man_edges (m_disc o) T (spacing T D) in
  (exists S, mscat_at D q1 q2 T M XI kappa o S) /\
  forall S, mscat_at D q1 q2 T M XI kappa o S ->
  let a i := mnft_a (S i) e (xi i) in let b1 i := mnft_b1 (S i) e (xi i) in let b2 i := mnft_b2 (S i) e (xi i) in
  (forall u', msucceeds D q1 q2 T M XI kappa user dflt u u' -> exists cs', u_cs u' = Some cs' /\ mspectrum_is (m_cs o) M a b1 b2 cs') /\
  (u_bs u = None \/ kappa = (-1)%Z -> (m_cs o = CS_AB \/ forall i, (i < M)%nat -> a i <> 0) -> exists u', msucceeds D q1 q2 T M XI kappa user dflt u u').
Proof.
  intros o Hc xi e. destruct Hc as [V L1 L2 HM Ecs Lcs Hct Hr HB Hu Hint Hx].
  destruct (manakovv_contspec_is_discrete_nft L HL D q1 q2 T M XI kappa user dflt u cs V L1 L2 HM Ecs Lcs Hct Hr HB (or_intror Hu)) as (p & _ & Hp & H).
  { fold o. rewrite Hu, Nat.mul_1_r. exact Hint. }
  fold o in H, Hp. destruct (Hp Hu) as [E1 E2]. rewrite E1, E2, Hu, Nat.mul_1_r in H. destruct (H Hx) as (S & HS & R1 & R2). split.
  - exists S. intros i Hi. apply HS, Hi.
  - intros S' HS' a b1 b2. assert (ES : forall i, (i < M)%nat -> S' i = S i) by (intros i Hi; apply (proj2 (HS i Hi)), HS', Hi). split.
    + intros u' (user' & dflt' & E). destruct (R1 u' user' dflt' E) as (cs' & F1 & F2 & _). exists cs'. split; [exact F1|].
      unfold mspectrum_is in *. destruct (m_cs o); try exact F2.
      * intros i Hi. specialize (F2 i Hi). unfold a, b1, b2. rewrite ES by exact Hi. exact F2.
      * intros i Hi. specialize (F2 i Hi). unfold a, b1, b2. rewrite ES by exact Hi. exact F2.
      * destruct F2 as [F2 F3]. split; intros i Hi; [specialize (F2 i Hi)|specialize (F3 i Hi)]; unfold a, b1, b2; rewrite ES by exact Hi; assumption.
    + intros N A. destruct (R2 N) as (u' & user' & dflt' & E).
      * destruct A as [A|A]; [left; exact A|right]. intros i Hi. specialize (A i Hi). unfold a in A. rewrite ES in A by exact Hi. exact A.
      * exists u', user', dflt'. exact E.
Qed.
Lemma mspectrum_nz t M a b1 b2 l : mspectrum_is t M a b1 b2 l -> t = CS_AB \/ forall j, (j < M)%nat -> a j <> 0.
Proof. unfold mspectrum_is. destruct t; intros F; first [contradiction|left; reflexivity|right; intros j Hj; apply (F j Hj)|right; intros j Hj; apply (proj1 F j Hj)]. Qed.
Lemma mcall_pair D q1 q2 T XI D' q1' q2' T' XI' M kappa user dflt u cs S S' (rel : (nat -> C) -> (nat -> C) -> (nat -> C) -> (nat -> C) -> (nat -> C) -> (nat -> C) -> Prop) :
  let o := match user with Some o => o | None => dflt end in
  mcs_call D q1 q2 T M XI kappa o u cs -> mcs_call D' q1' q2' T' M XI' kappa o u cs ->
  mscat_at D q1 q2 T M XI kappa o S -> mscat_at D' q1' q2' T' M XI' kappa o S' ->
  let e := man_edges (m_disc o) T (spacing T D) in let e' := man_edges (m_disc o) T' (spacing T' D') in
  let x i := RtoC (grid_point XI M i) in let x' i := RtoC (grid_point XI' M i) in
  rel (fun i => mnft_a (S i) e (x i)) (fun i => mnft_b1 (S i) e (x i)) (fun i => mnft_b2 (S i) e (x i))
      (fun i => mnft_a (S' i) e' (x' i)) (fun i => mnft_b1 (S' i) e' (x' i)) (fun i => mnft_b2 (S' i) e' (x' i)) ->
  (forall i, (i < M)%nat -> exists j, (j < M)%nat /\ (mnft_a (S j) e (x j) <> 0 -> mnft_a (S' i) e' (x' i) <> 0)) ->
  mrelated o M kappa u (msucceeds D q1 q2 T M XI kappa user dflt u) (msucceeds D' q1' q2' T' M XI' kappa user dflt u) rel.
Proof.
  intros o H1 H2 HS HS' e e' x x' Hrel Ha.
  destruct (proj2 (mcall_spectrum D q1 q2 T M XI kappa user dflt u cs H1) S HS) as [S1 _].
  destruct (proj2 (mcall_spectrum D' q1' q2' T' M XI' kappa user dflt u cs H2) S' HS') as [S2 X2]. split.
  - intros u1 u2 R1 R2. destruct (S1 u1 R1) as (cs1 & E1 & F1). destruct (S2 u2 R2) as (cs2 & E2 & F2).
    exists cs1, cs2. do 6 eexists. split; [exact E1|]. split; [exact E2|]. split; [exact F1|]. split; [exact F2|exact Hrel].
  - intros N (u1 & R1). apply X2; [exact N|]. destruct (S1 u1 R1) as (cs1 & E1 & F1).
    destruct (mspectrum_nz _ _ _ _ _ _ F1) as [G|G]; [left; exact G|right]. intros i Hi. destruct (Ha i Hi) as (j & Hj & K). apply K, G, Hj.
Qed.
Lemma mvalid_change D q1 q2 T XI kappa o u q1' q2' T' XI' : manv_valid D (Some q1) (Some q2) (Some T) (Some XI) kappa o u ->
  (fst T' < snd T')%R -> (fst XI' < snd XI')%R -> manv_valid D (Some q1') (Some q2') (Some T') (Some XI') kappa o u.
Proof.
  intros [V1 V2 V3 V4 V5 V6 V7 V8 V9] H2 H3. constructor; try assumption; try discriminate.
  - exists (fst T'), (snd T'). split; [now destruct T'|exact H2].
  - intros _. exists (fst XI'), (snd XI'). split; [now destruct XI'|exact H3].
Qed.
Lemma mc_order D q1 q2 T M XI kappa o u cs : mcs_call D q1 q2 T M XI kappa o u cs -> (fst T < snd T)%R /\ (fst XI < snd XI)%R.
Proof.
  intros Hc. destruct (mc_valid _ _ _ _ _ _ _ _ _ _ Hc) as [_ _ _ V4 V5 _ _ _ _]. destruct V4 as (t0 & t1 & E & Ht). injection E as ->.
  destruct V5 as (x0 & x1 & E & Hx); [rewrite (mc_cs _ _ _ _ _ _ _ _ _ _ Hc); discriminate|]. injection E as ->. now split.
Qed.

(** ** Rotation of the polarisation: the samples U (q1, q2), U unitary, have the same a; (b1, b2) is multiplied by conj U *)
Definition pairs1 (U : mat2) (q1 q2 : list C) : list C := map (fun p => rotated1 U (fst p) (snd p)) (combine q1 q2).
Definition pairs2 (U : mat2) (q1 q2 : list C) : list C := map (fun p => rotated2 U (fst p) (snd p)) (combine q1 q2).
Lemma nth_pairs (f : C * C -> C) D q1 q2 j : length q1 = D -> length q2 = D -> (j < D)%nat -> nthC (map f (combine q1 q2)) j = f (nthC q1 j, nthC q2 j).
Proof.
  intros L1 L2 Hj. unfold nthC. rewrite (nth_indep _ _ (f (RtoC 0, RtoC 0))) by (rewrite map_length, combine_length; lia).
  rewrite map_nth. f_equal. apply combine_nth. congruence.
Qed.
Theorem manakovv_rotation D q1 q2 T M XI kappa user dflt u cs U :
  let o := match user with Some o => o | None => dflt end in
  mcs_call D q1 q2 T M XI kappa o u cs -> unitary U ->
  (forall i, (i < M)%nat -> man_scat_exact (m_disc o) kappa (spacing T D) (nthC (pairs1 U q1 q2)) (nthC (pairs2 U q1 q2)) D (RtoC (grid_point XI M i))) ->
  mrelated o M kappa u (msucceeds D q1 q2 T M XI kappa user dflt u) (msucceeds D (pairs1 U q1 q2) (pairs2 U q1 q2) T M XI kappa user dflt u)
    (fun a b1 b2 a' b1' b2' => forall i, (i < M)%nat -> a' i = a i /\
      b1' i = Cconj (a11 U) * b1 i + Cconj (a12 U) * b2 i /\ b2' i = Cconj (a21 U) * b1 i + Cconj (a22 U) * b2 i).
Proof.
  intros o Hc HU Hx'. destruct (proj1 (mcall_spectrum D q1 q2 T M XI kappa user dflt u cs Hc)) as (S & HS). fold o in HS.
  pose proof (mc_len1 _ _ _ _ _ _ _ _ _ _ Hc) as L1. pose proof (mc_len2 _ _ _ _ _ _ _ _ _ _ Hc) as L2.
  assert (HS' : mscat_at D (pairs1 U q1 q2) (pairs2 U q1 q2) T M XI kappa o (fun i => rot3 U (S i))).
  { intros i Hi. apply (rot_scattering U HU _ _ _ (nthC q1) (nthC q2)); [|apply HS, Hi]. intros k Hk. unfold pairs1, pairs2. now rewrite !(nth_pairs _ D) by assumption. }
  eapply mcall_pair; [exact Hc| |exact HS|exact HS'| |].
  - destruct (mc_order _ _ _ _ _ _ _ _ _ _ Hc) as [O1 O2]. destruct Hc as [V _ _ HM Ecs Lcs Hct Hr HB Hu Hint Hx]. constructor; try assumption.
    + exact (mvalid_change _ _ _ _ _ _ _ _ _ _ _ _ V O1 O2).
    + unfold pairs1. rewrite map_length, combine_length. lia.
    + unfold pairs2. rewrite map_length, combine_length. lia.
  - intros i Hi. unfold mnft_a, mnft_b1, mnft_b2, rot3. cbn [m3mul rot_l rot_r c11 c12 c13 c21 c22 c23 c31 c32 c33]. split; [|split]; ring.
  - intros i Hi. exists i. split; [exact Hi|]. unfold mnft_a, rot3. cbn [m3mul rot_l rot_r c11 c12 c13 c21 c22 c23 c31 c32 c33]. intros N E. apply N. rewrite <- E. ring.
Qed.
End MSym.
