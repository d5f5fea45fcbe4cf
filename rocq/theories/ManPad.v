(** * C106, continued: zero samples before and after the signal *)
From Coq Require Import Reals Lra List Lia ZArith QArith Qreals.
From Coquelicot Require Import Coquelicot.
From Verif Require Import Base Loop CExp CConj CDeriv CMean DiscTables DiscModel FscatterSpec FscatterProof ScatterSpec ScatterRun MatExp NftSpec
  ManFscSpec ManFscModel ManFscProof ManFscAlg ManFscSample ManScatSpec ManScatProof ManScatTop ManNft NsevModel NsevSpec ManvSpec ManvModel NsevLib NsevCsTop ManCs ManCsTop SymmTop ZeroPad ManSymm ManSymmTop.
Import ListNotations.
Local Close Scope Q_scope.
Local Open Scope C_scope.
Ltac m3s := cbn [m3mul m3add m3scal m3one m3zero c11 c12 c13 c21 c22 c23 c31 c32 c33].

Lemma descending3_add a b M : descending3 (a + b) M = m3mul (descending3 b (fun j => M (a + j)%nat)) (descending3 a M).
Proof.
  induction b as [|b IH]; cbn [descending3].
  - rewrite Nat.add_0_r. apply mat3_eq; m3s; ring.
  - rewrite Nat.add_succ_r. cbn [descending3]. rewrite IH. apply mat3_eq; m3s; ring.
Qed.
Lemma descending3_eq n M M' : (forall j, (j < n)%nat -> M j = M' j) -> descending3 n M = descending3 n M'.
Proof. induction n as [|n IH]; intros E; cbn [descending3]; [reflexivity|]. rewrite E, IH by auto. reflexivity. Qed.
Lemma expA3_mul lam x y : m3mul (expA3 lam x) (expA3 lam y) = expA3 lam (x + y).
Proof.
  unfold expA3; apply mat3_eq; m3s; rewrite ?Cmult_0_l, ?Cmult_0_r, ?Cplus_0_l, ?Cplus_0_r, <- ?Cexp_plus; try reflexivity; f_equal; rewrite RtoC_plus; ring.
Qed.
Lemma expA3_0 lam : expA3 lam 0 = m3one.
Proof. unfold expA3. rewrite !Cmult_0_r, Cexp_0. reflexivity. Qed.
Lemma word3_zero lam kappa (h : R) w : word_val3 (fun a => expA3 lam (Q2R a * h)) (fun a => expNLS3 kappa 0 0 (RtoC (Q2R a * h))) w = expA3 lam (Q2R (a_total w) * h).
Proof.
  induction w as [|[[|] a] w IH]; cbn [word_val3 a_total fold_right fst snd].
  - unfold Q2R. cbn. rewrite Rmult_0_l, Rmult_0_l. now rewrite expA3_0.
  - fold (word_val3 (fun a => expA3 lam (Q2R a * h)) (fun a => expNLS3 kappa 0 0 (RtoC (Q2R a * h))) w). rewrite IH, expA3_mul. fold (a_total w). rewrite Q2R_plus. f_equal. ring.
  - fold (word_val3 (fun a => expA3 lam (Q2R a * h)) (fun a => expNLS3 kappa 0 0 (RtoC (Q2R a * h))) w). rewrite IH, expNLS3_zero. apply m3mul_one_l.
Qed.
Lemma splitting3_zero lam kappa (h : R) u s : (u <> 0)%nat -> consistent u s = true -> splitting3 lam kappa 0 0 h h (u, s) = expA3 lam h.
Proof.
  intros Nd H. apply andb_prop in H. destruct H as [H1 H2]. apply Qeq_bool_eq in H1. rewrite forallb_forall in H2. unfold splitting3, scheme_val3. cbn [fst snd].
  assert (Q0 : Q2R 0 = 0%R) by (unfold Q2R; cbn; ring). assert (Q1 : Q2R 1 = 1%R) by (unfold Q2R; cbn; field).
  assert (G : forall s', (forall t, In t s' -> In t s) -> fold_right (fun t M => m3add (m3scal (RtoC (Q2R (fst t))) (word_val3 (fun a => expA3 lam (Q2R a * (h / INR u))) (fun a => expNLS3 kappa 0 0 (RtoC (Q2R a * (h / INR u)))) (snd t))) M) m3zero s'
    = m3scal (RtoC (Q2R (fold_right (fun t x => Qplus (fst t) x) 0%Q s'))) (expA3 lam h)).
  { induction s' as [|t s' IH]; intros Hin; cbn [fold_right].
    - rewrite Q0. generalize (expA3 lam h). intros X. apply mat3_eq; m3s; ring.
    - rewrite IH by (intros; apply Hin; now right). rewrite word3_zero, Q2R_plus, RtoC_plus.
      assert (Et : (Q2R (a_total (snd t)) * (h / INR u) = h)%R).
      { pose proof (H2 t (Hin t (or_introl eq_refl))) as E. apply Qeq_bool_eq in E. rewrite (Qeq_eqR _ _ E). unfold Q2R, inject_Z. cbn [Qnum Qden].
        rewrite Rinv_1, Rmult_1_r, <- INR_IZR_INZ. field. apply not_0_INR. exact Nd. }
      rewrite Et. generalize (expA3 lam h). intros X. apply mat3_eq; m3s; ring. }
  rewrite G by auto. rewrite (Qeq_eqR _ _ H1), Q1. generalize (expA3 lam h). intros X. apply mat3_eq; m3s; ring.
Qed.
(** the matrix of a zero sample: fast methods without FTES factors *)
Lemma man_step_zero d kappa (h : R) us lam : man_scheme_of d = Some us -> is_ftes d = false -> man_upsampling_factor d = 1%nat -> man_step d kappa h (RtoC 0, RtoC 0, RtoC 0) (RtoC 0, RtoC 0, RtoC 0) us lam = expA3 lam h.
Proof.
  intros Eu Ef Up. unfold man_step. rewrite Ef, Up. assert (E1 : (h / INR 1 = h)%R) by (cbn; field). rewrite E1.
  destruct d; try discriminate Eu; try discriminate Ef; try discriminate Up; injection Eu as <-; (apply splitting3_zero; [discriminate|vm_compute; reflexivity]).
Qed.
(** ... and BO: the fundamental solution for the zero sample *)
Definition diagA (lam t : C) : mat3 := M3 (Cexp (- Ci * lam * t)) 0 0 0 (Cexp (Ci * lam * t)) 0 0 0 (Cexp (Ci * lam * t)).
Lemma P_zero lam kappa : manakov_P lam kappa 0 0 = M3 (- Ci * lam) 0 0 0 (Ci * lam) 0 0 0 (Ci * lam).
Proof. assert (C0 : Cconj 0 = 0) by (apply Ceq; cbn; ring). unfold manakov_P. rewrite C0. apply mat3_eq; m3s; ring. Qed.
Lemma diagA_fundamental lam kappa : fundamental3 (manakov_P lam kappa 0 0) (diagA lam).
Proof.
  rewrite P_zero. split; [unfold diagA; rewrite !Cmult_0_r, Cexp_0; reflexivity|]. intros t i j Hi Hj.
  assert (G : forall a : C, Cderive (fun t => Cexp (a * t)) t (a * Cexp (a * t))).
  { intros a. assert (Dl : Cderive (fun t : C => a * t) t a) by (eapply Cderive_eq; [apply Cderive_scal, Cderive_id|]; ring).
    eapply Cderive_eq; [exact (Cderive_comp Cexp _ t _ _ (Cderive_exp _) Dl)|]. cbv beta. ring. }
  destruct i as [|[|[|i]]]; try lia; destruct j as [|[|[|j]]]; try lia; cbn [entry3]; unfold diagA; m3s;
    (eapply Cderive_eq; [first [apply (Cderive_const 0) | apply (G (- Ci * lam)) | apply (G (Ci * lam))]|]); ring.
Qed.
Definition paddable (d : man_disc) : Prop := d = M_2SPLIT3A \/ d = M_2SPLIT3B \/ d = M_2SPLIT4A \/ d = M_2SPLIT4B \/ d = M_2SPLIT6B \/ d = M_BO.
Lemma paddable_cases d : paddable d -> d = M_BO \/ (exists us, man_scheme_of d = Some us) /\ is_ftes d = false /\ man_upsampling_factor d = 1%nat.
Proof. intros H. unfold paddable in H. repeat (destruct H as [H|H]; [right; subst d; split; [eexists; reflexivity|split; reflexivity]|]). now left. Qed.
Lemma zero_product lam (h : R) n M : (forall j, (j < n)%nat -> M j = expA3 lam h) -> descending3 n M = expA3 lam (INR n * h).
Proof.
  induction n as [|n IH]; intros E; cbn [descending3].
  - cbn [INR]. now rewrite Rmult_0_l, expA3_0.
  - rewrite E, IH by auto. rewrite expA3_mul. f_equal. rewrite S_INR. ring.
Qed.
Lemma padded_scattering d kappa (h : R) (q1 q2 q1' q2' : nat -> C) m n D lam S : paddable d ->
  (forall j, (j < m + (D + n))%nat -> ((j < m)%nat \/ (m + D <= j)%nat -> q1' j = 0 /\ q2' j = 0) /\ ((m <= j)%nat -> (j < m + D)%nat -> q1' j = q1 (j - m)%nat /\ q2' j = q2 (j - m)%nat)) ->
  man_scattering d kappa h q1 q2 D lam S -> man_scattering d kappa h q1' q2' (m + (D + n)) lam (m3mul (expA3 lam (INR n * h)) (m3mul S (expA3 lam (INR m * h)))).
Proof.
  intros Hd Eq HS.
  assert (G : forall M M' : nat -> mat3, (forall j, (j < m)%nat -> M' j = expA3 lam h) -> (forall j, (j < n)%nat -> M' (m + (D + j))%nat = expA3 lam h) -> (forall j, (j < D)%nat -> M' (m + j)%nat = M j) ->
    m3mul (expA3 lam (INR n * h)) (m3mul (descending3 D M) (expA3 lam (INR m * h))) = descending3 (m + (D + n)) M').
  { intros M M' H1 H2 H3. rewrite !descending3_add. rewrite (zero_product lam h m _ H1), (zero_product lam h n _ H2), (descending3_eq D _ M H3). apply mat3_eq; m3s; ring. }
  destruct (paddable_cases d Hd) as [-> | ((us & Eu) & Ef & Up)].
  - unfold man_scattering in *. cbn [man_scheme_of] in *. destruct HS as (U & HU & ->). cbn [step_lam] in *.
    exists (fun j => if ((m <=? j) && (j <? m + D))%nat then U (j - m)%nat else diagA lam).
    assert (Bt : forall j, (m <= j)%nat -> (j < m + D)%nat -> ((m <=? j) && (j <? m + D))%nat = true) by (intros j A B; apply andb_true_intro; split; [now apply Nat.leb_le|now apply Nat.ltb_lt]).
    assert (Bf : forall j, (j < m)%nat \/ (m + D <= j)%nat -> ((m <=? j) && (j <? m + D))%nat = false).
    { intros j A. apply Bool.andb_false_iff. destruct A as [A|A]; [left; apply Nat.leb_gt; exact A|right; apply Nat.ltb_ge; exact A]. }
    assert (EA : diagA lam (RtoC h) = expA3 lam h) by reflexivity. split.
    + intros j Hj. destruct (Eq j Hj) as [Ez Es]. destruct (Nat.lt_ge_cases j m) as [A|A]; [|destruct (Nat.lt_ge_cases j (m + D)) as [B|B]].
      * rewrite (Bf j (or_introl A)). destruct (Ez (or_introl A)) as [-> ->]. apply diagA_fundamental.
      * rewrite (Bt j A B). destruct (Es A B) as [-> ->]. apply HU. lia.
      * rewrite (Bf j (or_intror B)). destruct (Ez (or_intror B)) as [-> ->]. apply diagA_fundamental.
    + apply G; intros j Hj.
      * rewrite Bf by now left. exact EA.
      * rewrite Bf by (right; lia). exact EA.
      * rewrite Bt by lia. do 2 f_equal. lia.
  - assert (NB : forall (p : nat -> C) k j, with_neighbours d k p j = (p j, p j, p j)) by (intros; unfold with_neighbours; now rewrite Ef).
    unfold man_scattering in *. rewrite Eu in *. subst S. apply G; intros j Hj; rewrite !NB.
    + destruct (Eq j) as [Ez _]; [lia|]. destruct (Ez (or_introl Hj)) as [-> ->]. now apply man_step_zero.
    + destruct (Eq (m + (D + j))%nat) as [Ez _]; [lia|]. destruct Ez as [-> ->]; [right; lia|]. now apply man_step_zero.
    + destruct (Eq (m + j)%nat) as [_ Es]; [lia|]. destruct Es as [-> ->]; [lia|lia|]. replace (m + j - m)%nat with j by lia. reflexivity.
Qed.
Lemma padded_exact d kappa (h : R) (q1 q2 q1' q2' : nat -> C) m n D lam : paddable d ->
  (forall j, (j < m + (D + n))%nat -> ((j < m)%nat \/ (m + D <= j)%nat -> q1' j = 0 /\ q2' j = 0) /\ ((m <= j)%nat -> (j < m + D)%nat -> q1' j = q1 (j - m)%nat /\ q2' j = q2 (j - m)%nat)) ->
  man_scat_exact d kappa h q1 q2 D lam -> man_scat_exact d kappa h q1' q2' (m + (D + n)) lam.
Proof.
  intros Hd Eq HX. destruct (paddable_cases d Hd) as [-> | ((us & Eu) & Ef & Up)]; unfold man_scat_exact in *.
  - cbn [man_scheme_of] in *. intros j Hj. destruct (Eq j Hj) as [Ez Es]. destruct (Nat.lt_ge_cases j m) as [A|A]; [|destruct (Nat.lt_ge_cases j (m + D)) as [B|B]].
    + left. apply Ez. now left.
    + destruct (Es A B) as [-> ->]. apply HX. lia.
    + left. apply Ez. now right.
  - rewrite Eu in *. intros j Hj. specialize (HX (j - m)%nat). unfold with_neighbours in *. rewrite Ef in *. destruct (Eq j Hj) as [Ez Es].
    assert (Z0 : man_exact d kappa h (RtoC 0, RtoC 0, RtoC 0) (RtoC 0, RtoC 0, RtoC 0)) by (split; [intros u s a _ _; left; now split|rewrite Ef; discriminate]).
    destruct (Nat.lt_ge_cases j m) as [A|A]; [|destruct (Nat.lt_ge_cases j (m + D)) as [B|B]].
    + destruct (Ez (or_introl A)) as [-> ->]. exact Z0.
    + destruct (Es A B) as [-> ->]. apply HX. lia.
    + destruct (Ez (or_intror B)) as [-> ->]. exact Z0.
Qed.

Section Top.
Variable L : lib.
Hypothesis HL : lib_ok L.
(** m zero samples before the signal and n after it, on the time window extended accordingly, change neither a nor b1 nor b2 *)
Theorem manakovv_zero_padding D q1 q2 T M XI kappa user dflt u cs m n :
  let o := match user with Some o => o | None => dflt end in
  mcs_call D q1 q2 T M XI kappa o u cs -> paddable (m_disc o) -> (Z.of_nat (m + (D + n)) <= 2147483647)%Z ->
  mrelated o M kappa u (msucceeds L D q1 q2 T M XI kappa user dflt u)
    (msucceeds L (m + (D + n)) (zero_padded m n q1) (zero_padded m n q2) (fst T - INR m * spacing T D, snd T + INR n * spacing T D)%R M XI kappa user dflt u)
    (fun a b1 b2 a' b1' b2' => forall i, (i < M)%nat -> a' i = a i /\ b1' i = b1 i /\ b2' i = b2 i).
Proof.
  intros o Hc Hp HZ. set (h := spacing T D) in *. set (T' := (fst T - INR m * h, snd T + INR n * h)%R).
  destruct (proj1 (mcall_spectrum L HL D q1 q2 T M XI kappa user dflt u cs Hc)) as (S & HS). fold o in HS.
  pose proof (mc_len1 _ _ _ _ _ _ _ _ _ _ Hc) as L1. pose proof (mc_len2 _ _ _ _ _ _ _ _ _ _ Hc) as L2.
  destruct (mc_order _ _ _ _ _ _ _ _ _ _ Hc) as [O1 O2].
  assert (V1 : (2 <= D)%nat) by (destruct Hc as [V _ _ _ _ _ _ _ _ _ _ _]; apply V).
  assert (He : (0 < h)%R) by (apply spacing_pos; assumption).
  assert (Esp : spacing T' (m + (D + n)) = h).
  { assert (P1 : (2 <= INR D)%R) by (apply (le_INR 2); exact V1). pose proof (pos_INR m). pose proof (pos_INR n).
    assert (ET : (snd T - fst T = h * (INR D - 1))%R) by (unfold h, spacing; rewrite minus_INR by lia; cbn [INR]; field; lra).
    unfold spacing, T'. cbn [fst snd]. replace (snd T + INR n * h - (fst T - INR m * h))%R with (snd T - fst T + (INR n + INR m) * h)%R by ring. rewrite ET.
    replace (INR (m + (D + n) - 1)) with (INR m + INR D + INR n - 1)%R; [field; lra|]. rewrite minus_INR by lia. rewrite !plus_INR. cbn [INR]. ring. }
  assert (Eq : forall j, (j < m + (D + n))%nat -> ((j < m)%nat \/ (m + D <= j)%nat -> nthC (zero_padded m n q1) j = 0 /\ nthC (zero_padded m n q2) j = 0) /\
    ((m <= j)%nat -> (j < m + D)%nat -> nthC (zero_padded m n q1) j = nthC q1 (j - m) /\ nthC (zero_padded m n q2) j = nthC q2 (j - m))).
  { intros j Hj. rewrite !nth_padded, L1, L2. split; intros A.
    - replace ((m <=? j) && (j <? m + D))%nat with false; [split; reflexivity|]. symmetry. apply Bool.andb_false_iff.
      destruct A as [A|A]; [left; apply Nat.leb_gt; exact A|right; apply Nat.ltb_ge; exact A].
    - intros B. replace ((m <=? j) && (j <? m + D))%nat with true; [split; reflexivity|symmetry; apply andb_true_intro; split; [now apply Nat.leb_le|now apply Nat.ltb_lt]]. }
  set (S' := fun i => m3mul (expA3 (RtoC (grid_point XI M i)) (INR n * h)) (m3mul (S i) (expA3 (RtoC (grid_point XI M i)) (INR m * h)))).
  assert (HS' : mscat_at (m + (D + n)) (zero_padded m n q1) (zero_padded m n q2) T' M XI kappa o S').
  { intros i Hi. rewrite Esp. apply (padded_scattering _ _ _ (nthC q1) (nthC q2)); [exact Hp|exact Eq|apply HS, Hi]. }
  assert (Ee : forall N, man_edges (m_disc o) T h = (fst T - h / 2, snd T + h / 2)%R /\ man_edges (m_disc o) T' N = (fst T' - N / 2, snd T' + N / 2)%R).
  { intros N. clear - Hp. destruct (paddable_cases _ Hp) as [-> | (_ & _ & E)]; unfold man_edges; [now split|rewrite E; now split]. }
  assert (Hab : forall i, mnft_a (S' i) (man_edges (m_disc o) T' h) (RtoC (grid_point XI M i)) = mnft_a (S i) (man_edges (m_disc o) T h) (RtoC (grid_point XI M i)) /\
    mnft_b1 (S' i) (man_edges (m_disc o) T' h) (RtoC (grid_point XI M i)) = mnft_b1 (S i) (man_edges (m_disc o) T h) (RtoC (grid_point XI M i)) /\
    mnft_b2 (S' i) (man_edges (m_disc o) T' h) (RtoC (grid_point XI M i)) = mnft_b2 (S i) (man_edges (m_disc o) T h) (RtoC (grid_point XI M i))).
  { intros i. destruct (Ee h) as [-> ->]. set (lam := RtoC (grid_point XI M i)). unfold mnft_a, mnft_b1, mnft_b2, S', expA3, T'. fold lam. m3s. cbn [fst snd].
    rewrite !Cmult_0_l, !Cmult_0_r, !Cplus_0_r, !Cplus_0_l.
    split; [|split];
      (match goal with |- ?e1 * (?x * ?e2) * ?e3 * ?e4 = _ => transitivity (x * (e1 * e2 * e3 * e4)); [ring|] end;
       rewrite <- !Cmult_assoc, <- !Cexp_plus; do 2 f_equal; unfold Rminus; rewrite !RtoC_plus, !RtoC_opp, !RtoC_mult; ring). }
  eapply (mcall_pair L HL); [exact Hc| |exact HS|exact HS'| |].
  - destruct Hc as [V _ _ HM Ecs Lcs Hct Hr HB Hu Hint Hx]. constructor; try assumption.
    + destruct V as [V1' V2 V3 V4 V5 V6 V7 V8 V9]. constructor; try assumption; try discriminate; [lia|].
      exists (fst T')%R, (snd T')%R. split; [reflexivity|]. unfold T'. cbn [fst snd].
      pose proof (Rmult_le_pos _ _ (pos_INR m) (Rlt_le _ _ He)). pose proof (Rmult_le_pos _ _ (pos_INR n) (Rlt_le _ _ He)). lra.
    + unfold zero_padded. rewrite !app_length, !repeat_length. lia.
    + unfold zero_padded. rewrite !app_length, !repeat_length. lia.
    + intros i Hi. rewrite Esp. apply (padded_exact _ _ _ (nthC q1) (nthC q2) _ _ m n D); [exact Hp|exact Eq|exact (Hx i Hi)].
  - cbv beta. intros i Hi. fold o. rewrite Esp. fold h. apply Hab.
  - intros i Hi. exists i. split; [exact Hi|]. cbv beta. fold o. rewrite Esp. fold h. now rewrite (proj1 (Hab i)).
Qed.
End Top.
