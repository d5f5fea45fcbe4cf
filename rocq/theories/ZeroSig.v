(** * C107: the zero signal has the trivial continuous spectrum, for fnft_nsev, fnft_kdvv and fnft_manakovv *)
From Coq Require Import Reals Lra List Lia ZArith.
From Coquelicot Require Import Coquelicot.
From Verif Require Import Base Loop ErrModel CExp CConj DiscTables DiscModel FscatterSpec FscatterProof ScatterSpec ScatterModel ScatterRun MatExp NftSpec
  NsevModel NsevSpec NsevLib NsevCsTop NsevEnergy NsevCsEx SymmTop ZeroPad.
From Verif Require KdvFast KdvCsTop KdvEnergy KdvSymm KdvSymm2 KdvvEnv KdvSymmEx.
From Verif Require Import ManScatTop ManFscSpec ManFscProof ManScatSpec ManNft ManvSpec ManvModel ManCs ManCsTop ManCsEx ManSymmTop ManSymmEx ManPad.
Import ListNotations.
Local Open Scope C_scope.

Definition zeros (D : nat) : list C := repeat (RtoC 0) D.
Lemma nth_zeros D j : nthC (zeros D) j = 0.
Proof. unfold nthC, zeros. apply nth_repeat. Qed.
Lemma free_phase (T : R * R) D lam : (2 <= D)%nat ->
  Cexp (- Ci * lam * RtoC (INR D * spacing T D)) * Cexp (- Ci * lam * RtoC (fst T - spacing T D / 2)) * Cexp (Ci * lam * RtoC (snd T + spacing T D / 2)) = 1.
Proof.
  intros HD. assert (P1 : (2 <= INR D)%R) by (apply (le_INR 2); exact HD).
  assert (E : (INR D * spacing T D = snd T + spacing T D / 2 - (fst T - spacing T D / 2))%R) by (unfold spacing; rewrite minus_INR by lia; cbn [INR]; field; lra).
  rewrite E. generalize (snd T + spacing T D / 2)%R (fst T - spacing T D / 2)%R. intros x y. rewrite <- !Cexp_plus, <- Cexp_0. f_equal. unfold Rminus. rewrite RtoC_plus, RtoC_opp. ring.
Qed.
Lemma free_ab (T : R * R) D lam : (2 <= D)%nat -> nft_a_of (expA lam (INR D * spacing T D)) T (spacing T D) lam = 1 /\ nft_b_of (expA lam (INR D * spacing T D)) T (spacing T D) lam = 0.
Proof. intros HD. unfold nft_a_of, nft_b_of, expA. cbn [a11 a21]. split; [now apply free_phase|ring]. Qed.
Definition free_values (t : cstype) (M : nat) (l : list C) : Prop := spectrum_is t M (fun _ => 1) (fun _ => 0) l.
Lemma spectrum_change t M a b a' b' l : (forall i, (i < M)%nat -> a i = a' i /\ b i = b' i) -> spectrum_is t M a b l -> spectrum_is t M a' b' l.
Proof. intros E. unfold spectrum_is. destruct t; auto; intros H i Hi; destruct (E i Hi) as [<- <-]; apply H, Hi. Qed.
Lemma one_nz : RtoC 1 <> 0. Proof. intros E. apply RtoC_inj in E. lra. Qed.

Section Zero.
Variable L : lib.
Hypothesis HL : lib_ok L.
(** fnft_nsev: a = 1, b = 0, rho = 0/1 at all frequencies; the call succeeds if no bound states are computed *)
Theorem nsev_zero_signal D T M XI kappa user dflt u cs d :
  let o := match user with Some o => o | None => dflt end in
  cs_call D (zeros D) T M XI kappa o u cs d -> d <> A_2SPLIT7A -> d <> A_2SPLIT7B ->
  (forall u', succeeds L D (zeros D) T M XI kappa user dflt u u' -> exists cs', u_cs u' = Some cs' /\ free_values (contspec_type o) M cs') /\
  (no_bound_states kappa u -> exists u', succeeds L D (zeros D) T M XI kappa user dflt u u').
Proof.
  intros o Hc N1 N2. pose proof (cc_up _ _ _ _ _ _ _ _ _ _ Hc) as Hu.
  assert (V1 : (2 <= D)%nat) by (destruct Hc as [V _ _ _ _ _ _ _ _ _ _]; apply V).
  assert (R0 : nse_r_from_q kappa 0 = 0) by (unfold nse_r_from_q; destruct (kappa =? 1)%Z; rewrite Cconj_R; ring).
  assert (ES : forall lam, Sof d T D (zeros D) kappa lam = expA lam (INR D * spacing T D)).
  { intros lam. unfold Sof. rewrite scattering_steps by exact Hu. apply (steps_zero d); try assumption. intros j Hj.
    rewrite nth_r by (unfold zeros; rewrite repeat_length; exact Hj). now rewrite nth_zeros, R0. }
  destruct (call_spectrum L HL D (zeros D) T M XI kappa user dflt u cs d Hc) as [H1 H2]. fold o in H1, H2. split.
  - intros u' Hs. destruct (H1 u' Hs) as (cs' & E & F). exists cs'. split; [exact E|]. eapply spectrum_change; [|exact F]. intros i Hi. cbv beta. rewrite ES. now apply free_ab.
  - intros N. apply (H2 N). right. intros i Hi. cbv beta. rewrite ES, (proj1 (free_ab T D _ V1)). apply one_nz.
Qed.
(** fnft_kdvv with the methods BO and BO_VANILLA *)
Theorem kdvv_zero_signal (tiny : R) (below : R -> R) D T M XI user dflt u cs v :
  let o := match user with Some o => o | None => dflt end in
  KdvSymm.kcs_call D (zeros D) T M XI o u cs A_BO v ->
  (forall u', KdvSymm.ksucceeds L tiny below D (zeros D) T M XI user dflt u u' -> exists cs', u_cs u' = Some cs' /\ free_values (KdvvModel.k_cs o) M cs') /\
  (u_bs u = None \/ u_K u = Some O -> exists u', KdvSymm.ksucceeds L tiny below D (zeros D) T M XI user dflt u u').
Proof.
  intros o Hc. pose proof (KdvSymm.grid_nz _ _ _ _ _ _ _ _ _ _ Hc) as Hnz.
  pose proof (KdvvSpec.vk_D _ _ _ _ _ _ _ (KdvSymm.kc_valid _ _ _ _ _ _ _ _ _ _ Hc)) as V1.
  assert (ES : forall i, (i < M)%nat -> KdvSymm.KSof A_BO v T D (zeros D) (RtoC (grid_point XI M i)) = expA (RtoC (grid_point XI M i)) (INR D * spacing T D)).
  { intros i Hi. pose proof (Hnz i Hi) as Nl. unfold KdvSymm.KSof, KdvFast.kdv_S. rewrite !scattering_steps by reflexivity. apply KdvSymm2.based_zero_steps; [exact Nl|]. intros j Hj.
    assert (E := nth_zeros D j). assert (E2 : nthC (repeat (- (1)) D) j = - (1)) by now apply KdvSymm.nth_m1. destruct v; cbn [negb]; now rewrite ?E, ?E2. }
  destruct (KdvSymm.kcall_spectrum L tiny below HL D (zeros D) T M XI user dflt u cs A_BO v Hc) as [H1 H2]. fold o in H1, H2. split.
  - intros u' Hs. destruct (H1 u' Hs) as (cs' & E & F). exists cs'. split; [exact E|]. eapply spectrum_change; [|exact F]. intros i Hi. cbv beta. rewrite ES by exact Hi. now apply free_ab.
  - intros N. apply (H2 N). right. intros i Hi. cbv beta. rewrite ES, (proj1 (free_ab T D _ V1)) by exact Hi. apply one_nz.
Qed.
(** fnft_manakovv: a = 1, b1 = b2 = 0 *)
Theorem manakovv_zero_signal D T M XI kappa user dflt u cs :
  let o := match user with Some o => o | None => dflt end in
  mcs_call D (zeros D) (zeros D) T M XI kappa o u cs -> paddable (m_disc o) ->
  (forall u', msucceeds L D (zeros D) (zeros D) T M XI kappa user dflt u u' -> exists cs', u_cs u' = Some cs' /\ mspectrum_is (m_cs o) M (fun _ => 1) (fun _ => 0) (fun _ => 0) cs') /\
  (u_bs u = None \/ kappa = (-1)%Z -> exists u', msucceeds L D (zeros D) (zeros D) T M XI kappa user dflt u u').
Proof.
  intros o Hc Hp. assert (V1 : (2 <= D)%nat) by (destruct Hc as [V _ _ _ _ _ _ _ _ _ _ _]; apply V).
  assert (HS : mscat_at D (zeros D) (zeros D) T M XI kappa o (fun i => expA3 (RtoC (grid_point XI M i)) (INR D * spacing T D))).
  { intros i Hi. set (lam := RtoC (grid_point XI M i)). set (h := spacing T D). unfold man_scattering. destruct (paddable_cases _ Hp) as [E | ((us & Eu) & Ef & Up)].
    - rewrite E. cbn [man_scheme_of step_lam]. exists (fun _ => diagA lam). split; [intros j Hj; rewrite nth_zeros; apply diagA_fundamental|].
      symmetry. apply zero_product. intros j Hj. reflexivity.
    - rewrite Eu. symmetry. apply zero_product. intros j Hj. unfold with_neighbours. rewrite Ef, nth_zeros. now apply man_step_zero. }
  destruct (proj2 (mcall_spectrum L HL D _ _ T M XI kappa user dflt u cs Hc) _ HS) as [H1 H2]. fold o in H1, H2.
  assert (Ee : man_edges (m_disc o) T (spacing T D) = (fst T - spacing T D / 2, snd T + spacing T D / 2)%R).
  { destruct (paddable_cases _ Hp) as [-> | (_ & _ & E)]; unfold man_edges; [reflexivity|now rewrite E]. }
  assert (Hab : forall lam, mnft_a (expA3 lam (INR D * spacing T D)) (man_edges (m_disc o) T (spacing T D)) lam = 1 /\
    mnft_b1 (expA3 lam (INR D * spacing T D)) (man_edges (m_disc o) T (spacing T D)) lam = 0 /\ mnft_b2 (expA3 lam (INR D * spacing T D)) (man_edges (m_disc o) T (spacing T D)) lam = 0).
  { intros lam. rewrite Ee. unfold mnft_a, mnft_b1, mnft_b2, expA3. cbn [c11 c21 c31 fst snd]. split; [now apply free_phase|split; ring]. }
  split.
  - intros u' Hs. destruct (H1 u' Hs) as (cs' & E & F). exists cs'. split; [exact E|]. unfold mspectrum_is in *.
    assert (G : forall i, mnft_a (expA3 (RtoC (grid_point XI M i)) (INR D * spacing T D)) (man_edges (m_disc o) T (spacing T D)) (RtoC (grid_point XI M i)) = 1) by (intros; apply Hab).
    assert (G1 : forall i, mnft_b1 (expA3 (RtoC (grid_point XI M i)) (INR D * spacing T D)) (man_edges (m_disc o) T (spacing T D)) (RtoC (grid_point XI M i)) = 0) by (intros; apply Hab).
    assert (G2 : forall i, mnft_b2 (expA3 (RtoC (grid_point XI M i)) (INR D * spacing T D)) (man_edges (m_disc o) T (spacing T D)) (RtoC (grid_point XI M i)) = 0) by (intros; apply Hab).
    destruct (m_cs o); try exact F.
    + intros i Hi. specialize (F i Hi). cbv beta in F. rewrite G, G1, G2 in F. exact F.
    + intros i Hi. specialize (F i Hi). cbv beta in F. rewrite G, G1, G2 in F. exact F.
    + destruct F as [F F']. split; intros i Hi; [specialize (F i Hi)|specialize (F' i Hi)]; cbv beta in F, F'; rewrite G, G1, G2 in *; assumption.
  - intros N. apply (H2 N). right. intros i Hi. cbv beta. rewrite (proj1 (Hab _)). apply one_nz.
Qed.
End Zero.

(** ** Concrete calls: two zero samples, 2SPLIT2_MODAL and the Manakov method 2SPLIT4B *)
Lemma modal_zero_call : cs_call 2 (zeros 2) (0, 1)%R 2 XI2 (-1) (cs_opts CS_BOTH N_2SPLIT2_MODAL) u2 (repeat (RtoC 0) 7) A_2SPLIT2_MODAL.
Proof.
  constructor; try reflexivity; try (cbn; lia); try discriminate; try (cbn; discriminate).
  - pose proof (valid2 CS_BOTH N_2SPLIT2_MODAL (-1) ltac:(discriminate) ltac:(auto)) as [V1 V2 V3 V4 V5 V6 V7 V8]. constructor; try assumption. discriminate.
  - intros i Hi. unfold scattering_exact. cbn [akns_degree]. intros j Hj. cbn [fast_exact]. rewrite nth_zeros, !Cmult_0_r.
    intros E. apply (f_equal fst) in E. cbn in E. lra.
Qed.
Lemma split_zero_call : mcs_call 2 (zeros 2) (zeros 2) (0, 1)%R 2 XI2 (-1) (mcs_opts CS_BOTH M_2SPLIT4B) um (repeat (RtoC 0) 11).
Proof.
  constructor; try reflexivity; try (cbn; lia); try discriminate; try (cbn; discriminate).
  - apply mvalid2; [discriminate|auto].
  - intros i Hi. cbn [mcs_opts m_disc]. unfold man_scat_exact. cbn [man_scheme_of]. intros j Hj. unfold with_neighbours. cbn [ManFscModel.is_ftes]. rewrite nth_zeros.
    split; [intros u s a _ _; left; now split|discriminate].
Qed.
Theorem zero_signal_example : exists u' cs' um' csm',
  succeeds L7 2 (zeros 2) (0, 1)%R 2 XI2 (-1) None (cs_opts CS_BOTH N_2SPLIT2_MODAL) u2 u' /\ u_cs u' = Some cs' /\ nth 3 cs' 0 = 1 /\ nth 5 cs' 0 = 0 /\
  msucceeds L7 2 (zeros 2) (zeros 2) (0, 1)%R 2 XI2 (-1) None (mcs_opts CS_BOTH M_2SPLIT4B) um um' /\ u_cs um' = Some csm' /\ nth 5 csm' 0 = 1 /\ nth 9 csm' 0 = 0.
Proof.
  destruct (nsev_zero_signal L7 L7_ok 2 (0, 1)%R 2 XI2 (-1) None (cs_opts CS_BOTH N_2SPLIT2_MODAL) u2 _ _ modal_zero_call ltac:(discriminate) ltac:(discriminate)) as [H1 H2].
  destruct (manakovv_zero_signal L7 L7_ok 2 (0, 1)%R 2 XI2 (-1) None (mcs_opts CS_BOTH M_2SPLIT4B) um _ split_zero_call ltac:(unfold paddable; cbn; auto 10)) as [H3 H4].
  destruct (H2 (or_intror eq_refl)) as [u' R1]. destruct (H1 u' R1) as (cs' & E1 & F1). destruct (H4 (or_intror eq_refl)) as [um' R2]. destruct (H3 um' R2) as (csm' & E2 & F2).
  exists u', cs', um', csm'. split; [exact R1|]. split; [exact E1|].
  assert (H : (1 < 2)%nat) by lia. destruct (F1 1%nat H) as (_ & _ & A & B). cbn [Nat.mul Nat.add] in A, B.
  split; [exact A|]. split; [exact B|]. split; [exact R2|]. split; [exact E2|].
  destruct F2 as [_ F2]. destruct (F2 1%nat H) as (A2 & B2 & C2). cbn [Nat.mul Nat.add] in *. split; assumption.
Qed.

(** fnft_kdvv with BO, two zero samples on [0, 1], the frequencies 1, 2 *)
Lemma kdvv_zero_call : KdvSymm.kcs_call 2 (zeros 2) (0, 1)%R 2 XI2 KdvSymmEx.ob u2 (repeat (RtoC 0) 7) A_BO false.
Proof.
  pose proof KdvSymmEx.bo_kcs_call as Hb. destruct Hb as [V Rd HM Ecs Lcs Hct Hr Hd Hv Hu Hint _]. constructor; try assumption.
  - destruct V as [W1 W2 W3 W4 W5 W6 W7 W8 W9]. constructor; try assumption; try discriminate.
    intros l i x E Hi Eex. injection E as <-. cbn in Hi. destruct i as [|[|i]]; [| |lia]; cbn in Eex; injection Eex as <-; reflexivity.
  - destruct Rd as [R1 R2 R3]. constructor; try assumption. intros l E. injection E as <-. reflexivity.
  - intros i Hi. unfold KdvFast.kdv_exact, scattering_exact. cbn [akns_degree]. intros j Hj. split; [|exact I].
    rewrite (proj1 spacing2), grid2. right.
    assert (E1 : nthC (zeros 2) j = RtoC 0) by apply nth_zeros. assert (E2 : nthC (repeat (- (1)) 2) j = RtoC (-1)).
    { cbn in Hj. destruct j as [|[|j]]; [| |lia]; apply Ceq; cbn; ring. }
    cbv beta iota delta [step_core X_BO]. unfold X_BO. rewrite ?E1, ?E2.
    replace (mdet _) with (RtoC ((1 + INR i) * (1 + INR i))%R).
    + rewrite Cmod_R. pose proof (pos_INR i). pose proof (Rmult_le_pos _ _ H H). rewrite Rabs_pos_eq; lra.
    + cbn. apply Ceq; cbn; ring.
Qed.
Theorem kdvv_zero_signal_example : exists u' cs',
  KdvSymm.ksucceeds L7 0 (fun x => x) 2 (zeros 2) (0, 1)%R 2 XI2 (Some KdvSymmEx.ob) KdvvEnv.kplain u2 u' /\ u_cs u' = Some cs' /\ nth 3 cs' 0 = 1 /\ nth 5 cs' 0 = 0.
Proof.
  destruct (kdvv_zero_signal L7 L7_ok 0 (fun x => x) 2 (0, 1)%R 2 XI2 (Some KdvSymmEx.ob) KdvvEnv.kplain u2 _ _ kdvv_zero_call) as [H1 H2].
  destruct (H2 (or_introl eq_refl)) as [u' R1]. destruct (H1 u' R1) as (cs' & E1 & F1). exists u', cs'. split; [exact R1|]. split; [exact E1|].
  assert (H : (1 < 2)%nat) by lia. destruct (F1 1%nat H) as (_ & A & B & B2). cbn [Nat.mul Nat.add] in A, B, B2.
  split; [exact B|exact B2].
Qed.
