(** * Energy conservation of the discrete Manakov transform on the real axis: C94 *)
From Coq Require Import Reals Lra Lia List ZArith QArith Qreals.
From Coquelicot Require Import Coquelicot.
From Verif Require Import Base Loop Mem Fields ErrModel CExp CField CConj CDeriv CMean DiscTables DiscModel DiscProps DiscPreProps DiscPreNse FscatterSpec FscatterProof
  ScatterRun ScatterLoop ManFscSpec ManFscModel ManFscProof ManFscSample NsevModel NsevSpec NsevProps ManScatSpec ManScatModel ManScatProof ManScatProps ManScatTop ManvModel ManvSpec
  NftSpec NsevLib NsevCsTop NsevEnergy.
From Verif Require Import ManNft ManCs ManCsTop.
Import ListNotations.
Local Close Scope Q_scope.
Local Open Scope C_scope.

(** the methods whose step matrix is a product of exponentials with real weights *)
Definition man_lossless (d : man_disc) : Prop := d = M_BO \/ d = M_CF4_2 \/ d = M_FTES4_suzuki.

Lemma isometric_expA3 kappa (xi t : R) : isometric kappa (expA3 (RtoC xi) t).
Proof.
  assert (P : forall s : R, Cconj (Cexp (Ci * RtoC xi * RtoC s)) * Cexp (Ci * RtoC xi * RtoC s) = 1).
  { intros s. rewrite <- (unit_exp xi s). now replace (RtoC s * RtoC xi * Ci) with (Ci * RtoC xi * RtoC s) by ring. }
  assert (Q : Cconj (Cexp (- Ci * RtoC xi * RtoC t)) * Cexp (- Ci * RtoC xi * RtoC t) = 1).
  { replace (- Ci * RtoC xi * RtoC t) with (Ci * RtoC xi * RtoC (- t)) by (rewrite RtoC_opp; ring). apply P. }
  specialize (P t). unfold isometric, expA3, m3adj, J3. m3cbn. rewrite !Cconj_R.
  set (x := Cexp (- Ci * RtoC xi * RtoC t)) in *. set (y := Cexp (Ci * RtoC xi * RtoC t)) in *.
  apply mat3_eq; m3cbn; rewrite ?Cconj_R; try ring.
  - transitivity (Cconj x * x); [ring|exact Q].
  - transitivity (RtoC (IZR kappa) * (Cconj y * y)); [ring|]. rewrite P. ring.
  - transitivity (RtoC (IZR kappa) * (Cconj y * y)); [ring|]. rewrite P. ring.
Qed.

Lemma isometric_I_sB_kB2 kappa (q1 q2 s k : C) : (kappa = 1 \/ kappa = -1)%Z ->
  let r1 := - RtoC (IZR kappa) * Cconj q1 in let r2 := - RtoC (IZR kappa) * Cconj q2 in
  Cconj s = s -> Cconj k = k -> s * s = 2 * k + k * k * (q1 * r1 + q2 * r2) ->
  isometric kappa (m3add m3one (m3add (m3scal s (Bmat3 q1 q2 r1 r2)) (m3scal k (m3mul (Bmat3 q1 q2 r1 r2) (Bmat3 q1 q2 r1 r2))))).
Proof.
  intros Hk r1 r2 Hs Hkk H.
  assert (Cr : forall q : C, Cconj (- RtoC (IZR kappa) * Cconj q) = - RtoC (IZR kappa) * q).
  { intros q. rewrite Cmult_conj, Cconj_opp, Cconj_R, Cconj_conj. reflexivity. }
  assert (C0 : Cconj 0 = 0) by apply Cconj_R. assert (C1 : Cconj 1 = 1) by apply Cconj_R.
  unfold isometric, m3adj, J3, Bmat3. subst r1 r2. m3cbn.
  repeat rewrite ?Cplus_conj, ?Cmult_conj, ?Cconj_opp, ?Cconj_conj, ?Cconj_R, ?C0, ?C1, ?Hs, ?Hkk.
  set (p1 := Cconj q1) in *. set (p2 := Cconj q2) in *.
  assert (D : exists z, z = s * s - (2 * k + k * k * (q1 * (- RtoC (IZR kappa) * p1) + q2 * (- RtoC (IZR kappa) * p2))) /\ z = 0) by (eexists; split; [reflexivity|rewrite H; ring]).
  destruct D as (z & Ez & Z0).
  destruct Hk as [-> | ->].
  - change (IZR 1) with 1%R in *. apply mat3_eq; m3cbn; try ring.
    + transitivity (1 + z * (q1 * p1 + q2 * p2)); [rewrite Ez; ring|rewrite Z0; ring].
    + transitivity (1 + z * (p1 * q1)); [rewrite Ez; ring|rewrite Z0; ring].
    + transitivity (0 + z * (p1 * q2)); [rewrite Ez; ring|rewrite Z0; ring].
    + transitivity (0 + z * (p2 * q1)); [rewrite Ez; ring|rewrite Z0; ring].
    + transitivity (1 + z * (p2 * q2)); [rewrite Ez; ring|rewrite Z0; ring].
  - change (RtoC (IZR (-1))) with (RtoC (-1)) in *. assert (M1 : RtoC (-1) = - (1 : C)) by (apply Ceq; cbn; lra).
    rewrite M1 in *. apply mat3_eq; m3cbn; try ring.
    + transitivity (1 - z * (q1 * p1 + q2 * p2)); [rewrite Ez; ring|rewrite Z0; ring].
    + transitivity (- (1) + z * (p1 * q1)); [rewrite Ez; ring|rewrite Z0; ring].
    + transitivity (0 + z * (p1 * q2)); [rewrite Ez; ring|rewrite Z0; ring].
    + transitivity (0 + z * (p2 * q1)); [rewrite Ez; ring|rewrite Z0; ring].
    + transitivity (- (1) + z * (p2 * q2)); [rewrite Ez; ring|rewrite Z0; ring].
Qed.

Lemma isometric_expNLS3 kappa (q1 q2 : C) (t : R) : (kappa = 1 \/ kappa = -1)%Z -> isometric kappa (expNLS3 kappa q1 q2 (RtoC t)).
Proof.
  intros Hk. unfold expNLS3, expB3, expB3_at. cbv zeta.
  set (m := q1 * (- RtoC (IZR kappa) * Cconj q1) + q2 * (- RtoC (IZR kappa) * Cconj q2)).
  assert (Hm : Csqrt m * Csqrt m = m) by apply Csqrt_sqr.
  assert (Hr : exists r : R, m = RtoC r).
  { exists (fst m). apply Ceq; [reflexivity|]. unfold m. cbn. ring. }
  destruct Hr as (r & Er). set (mu := Csqrt m) in *.
  assert (Hc : Cconj mu = mu \/ Cconj mu = - mu) by (apply (conj_sign mu r); now rewrite Hm, Er).
  apply isometric_I_sB_kB2; [exact Hk| | |].
  - destruct (Ceq_dec mu 0) as [E|N]; [apply Cconj_R|]. rewrite Cconj_div by exact N. rewrite Cconj_sinh, Cmult_conj, Cconj_R.
    destruct Hc as [-> | ->]; [reflexivity|]. replace (- mu * RtoC t) with (- (mu * RtoC t)) by ring. rewrite Csinh_opp. field. exact N.
  - destruct (Ceq_dec mu 0) as [E|N].
    + replace (RtoC t * RtoC t / 2) with (RtoC (t * t / 2)); [apply Cconj_R|]. rewrite RtoC_div by lra. now rewrite RtoC_mult.
    + assert (N2 : mu * mu <> 0) by (now apply Cmult_neq_0). rewrite Cconj_div by exact N2. unfold Cminus. rewrite Cplus_conj, Cconj_opp, Cconj_R, Cconj_cosh, !Cmult_conj, Cconj_R.
      destruct Hc as [-> | ->]; [reflexivity|]. replace (- mu * RtoC t) with (- (mu * RtoC t)) by ring. rewrite Ccosh_opp. field. exact N.
  - fold m. rewrite <- Hm. destruct (Ceq_dec mu 0) as [E|N].
    + rewrite E. field.
    + pose proof (Ccosh_sinh (mu * RtoC t)) as Hcs. set (c := Ccosh (mu * RtoC t)) in *. set (s := Csinh (mu * RtoC t)) in *.
      transitivity ((c * c - 1) / (mu * mu)); [|field; exact N]. transitivity ((s * s) / (mu * mu)); [field; exact N|]. f_equal. rewrite <- Hcs. ring.
Qed.

Lemma isometric_descending kappa n M : (forall j, (j < n)%nat -> isometric kappa (M j)) -> isometric kappa (descending3 n M).
Proof. induction n as [|n IH]; intros H; [apply isometric_one|]. cbn [descending3]. apply isometric_mul; [apply H; lia|apply IH; intros j Hj; apply H; lia]. Qed.
Lemma isometric_word kappa EA EB w : (forall a, isometric kappa (EA a)) -> (forall a, isometric kappa (EB a)) -> isometric kappa (word_val3 EA EB w).
Proof.
  intros HA HB. unfold word_val3. induction w as [|f w IH]; [apply isometric_one|]. cbn [fold_right]. apply isometric_mul; [|exact IH]. destruct (fst f); auto.
Qed.
Lemma isometric_suzuki kappa (q1 q2 : C) (xi hA hB : R) : (kappa = 1 \/ kappa = -1)%Z ->
  isometric kappa (splitting3 (RtoC xi) kappa q1 q2 hA hB (48%nat, [(1%Q, suzuki)])).
Proof.
  intros Hk. unfold splitting3, scheme_val3. cbn [fold_right fst snd].
  set (W := word_val3 _ _ _). assert (E : m3add (m3scal (RtoC (Q2R 1)) W) m3zero = W).
  { replace (Q2R 1) with 1%R by (unfold Q2R; cbn; field). m3ring. }
  rewrite E. apply isometric_word; intros a; [apply isometric_expA3|now apply isometric_expNLS3].
Qed.

(** the scattering matrix of these methods preserves diag(1, kappa, kappa) on the real axis *)
Theorem man_scattering_isometric d kappa (eps : R) (q1 q2 : nat -> C) n (xi : R) S : man_lossless d -> (kappa = 1 \/ kappa = -1)%Z ->
  man_scat_exact d kappa eps q1 q2 n (RtoC xi) -> man_scattering d kappa eps q1 q2 n (RtoC xi) S -> isometric kappa S.
Proof.
  intros Hd Hk Hx HS.
  assert (Slow : man_scheme_of d = None -> snd (step_lam d (RtoC xi)) = 0%R -> isometric kappa S).
  { intros E Hs. unfold man_scattering in HS. rewrite E in HS. destruct HS as (U & HU & ->). pose proof (exact_regular d kappa eps q1 q2 n _ E Hx) as HR.
    apply isometric_descending. intros j Hj. destruct (HR j Hj) as [R1 R2].
    destruct (manakov_step_is_solution (q1 j) (q2 j) (step_lam d (RtoC xi)) (RtoC eps) kappa R1) as (V & EV & _ & Hu & _). rewrite R2 in Hu.
    rewrite <- (Hu (U j)) by (now apply HU).
    assert (El : step_lam d (RtoC xi) = RtoC (fst (step_lam d (RtoC xi)))) by (apply Ceq; [reflexivity|exact Hs]).
    rewrite El in R1, EV. exact (step_isometric (q1 j) (q2 j) _ eps kappa V Hk R1 EV). }
  destruct Hd as [-> |[-> | ->]].
  - apply Slow; reflexivity.
  - apply Slow; [reflexivity|]. cbn. field.
  - cbn [man_scattering man_scheme_of] in HS. rewrite HS. apply isometric_descending. intros j Hj. unfold with_neighbours. cbn [is_ftes man_step].
    apply isometric_mul; [now apply isometric_expNLS3|]. apply isometric_mul; [now apply isometric_suzuki|now apply isometric_expNLS3].
Qed.

Lemma mnft_mod S e (xi : R) : Cmod (mnft_a S e (RtoC xi)) = Cmod (c11 S) /\ Cmod (mnft_b1 S e (RtoC xi)) = Cmod (c21 S) /\ Cmod (mnft_b2 S e (RtoC xi)) = Cmod (c31 S).
Proof.
  assert (P : forall t : R, Cmod (Cexp (Ci * RtoC xi * RtoC t)) = 1%R /\ Cmod (Cexp (- Ci * RtoC xi * RtoC t)) = 1%R).
  { intros t. split; [apply unit_phase|]. replace (- Ci * RtoC xi * RtoC t) with (Ci * RtoC xi * RtoC (- t)) by (rewrite RtoC_opp; ring). apply unit_phase. }
  unfold mnft_a, mnft_b1, mnft_b2. rewrite !Cmod_mult. rewrite !(proj1 (P _)), !(proj2 (P _)). repeat split; ring.
Qed.

(** what the array says: |a|^2 + kappa (|b1|^2 + |b2|^2) = 1, for rho = b/a: |a|^2 (1 + kappa (|rho1|^2 + |rho2|^2)) = 1 *)
Definition mconserved (kappa : Z) (t : cstype) (M : nat) (l : list C) : Prop := forall i, (i < M)%nat ->
  let x j := (Cmod (nth (j * M + i) l 0) ^ 2)%R in
  match t with
  | CS_REFLECTION_COEFFICIENT => (0 < 1 + IZR kappa * (x 0%nat + x 1%nat))%R
  | CS_AB => (x 0%nat + IZR kappa * (x 1%nat + x 2%nat) = 1)%R
  | CS_BOTH => (x 2%nat + IZR kappa * (x 3%nat + x 4%nat) = 1 /\ x 2%nat * (1 + IZR kappa * (x 0%nat + x 1%nat)) = 1)%R
  | CS_bad => False
  end.

(** C94.  For BO, CF4_2 and FTES4_suzuki, whenever fnft_manakovv succeeds, |a|^2 + kappa (|b1|^2 + |b2|^2) = 1 holds for the values in the
   array contspec (in particular |rho1|^2 + |rho2|^2 < 1 in the defocusing case), and in the defocusing case the call always succeeds *)
Theorem manakovv_energy_conserved L D q1 q2 T M XI kappa user dflt o cs u : lib_ok L ->
  (match user with Some o => o | None => dflt end) = o ->
  manv_valid D (Some q1) (Some q2) (Some T) (Some XI) kappa o u -> length q1 = D -> length q2 = D -> (2 <= M)%nat ->
  u_cs u = Some cs -> (mcs_values (m_cs o) * M <= length cs)%nat -> m_cs o <> CS_bad ->
  m_rich o <> 1%nat -> man_lossless (m_disc o) ->
  ((3 <= D)%nat \/ man_upsampling_factor (m_disc o) = 1%nat) -> (Z.of_nat (D * man_upsampling_factor (m_disc o)) <= 2147483647)%Z ->
  exists p, man_preprocess (l_junk L) (l_junkR L) D (Some q1) (Some q2) (spacing T D) D (m_disc o) = Ret (inr p) /\
  ((forall i, (i < M)%nat -> man_scat_exact (m_disc o) kappa (spacing T D) (nthC (po_q p)) (nthC (po_r p)) (D * man_upsampling_factor (m_disc o)) (RtoC (grid_point XI M i))) ->
  (forall u' user' dflt', fnft_manakovv (mlib_env L) D (Some q1) (Some q2) (Some T) M (Some XI) kappa user dflt u = Ret (SUCCESS, u', user', dflt') ->
     exists cs', u_cs u' = Some cs' /\ mconserved kappa (m_cs o) M cs') /\
  (kappa = (-1)%Z -> exists u' user' dflt', fnft_manakovv (mlib_env L) D (Some q1) (Some q2) (Some T) M (Some XI) kappa user dflt u = Ret (SUCCESS, u', user', dflt'))).
Proof.
  intros HL Eo V L1 L2 HM Ecs Lcs Hct Hr Hl H3 H31.
  destruct (manakovv_contspec_is_discrete_nft L HL D q1 q2 T M XI kappa user dflt u cs) as (p & Ep & Hpl & Hmain); try (rewrite Eo); try assumption.
  { destruct Hl as [E|[E|E]]; rewrite E; discriminate. }
  rewrite Eo in Ep, Hmain. exists p. split; [exact Ep|]. intros Hx. specialize (Hmain Hx). cbv zeta in Hmain. destruct Hmain as (S & HS & Hm1 & Hm2).
  pose proof (vm_kappa _ _ _ _ _ _ _ _ V) as Vk.
  set (e := man_edges (m_disc o) T (spacing T D)) in *.
  assert (Hlaw : forall i, (i < M)%nat -> let xi := RtoC (grid_point XI M i) in
     (Cmod (mnft_a (S i) e xi) ^ 2 + IZR kappa * (Cmod (mnft_b1 (S i) e xi) ^ 2 + Cmod (mnft_b2 (S i) e xi) ^ 2) = 1)%R).
  { intros i Hi. cbv zeta. destruct (mnft_mod (S i) e (grid_point XI M i)) as (-> & -> & ->). cbn [pow]. rewrite !Rmult_1_r.
    apply isometric_first_column. eapply man_scattering_isometric; [exact Hl|exact Vk|apply (Hx i Hi)|apply (HS i Hi)]. }
  cbv zeta in Hlaw. split.
  - intros u' user' dflt' H. destruct (Hm1 u' user' dflt' H) as (cs' & Ecs' & Hs & _). exists cs'. split; [exact Ecs'|]. intros i Hi. specialize (Hlaw i Hi).
    set (a := mnft_a _ _ _) in *. set (b1 := mnft_b1 _ _ _) in *. set (b2 := mnft_b2 _ _ _) in *. cbv zeta.
    assert (Hnz : a <> 0 -> (0 < Cmod a ^ 2)%R) by (intros Na; apply pow_lt; now apply Cmod_gt_0).
    assert (Hrho : a <> 0 -> (Cmod a ^ 2 * (1 + IZR kappa * (Cmod (b1 / a)%C ^ 2 + Cmod (b2 / a)%C ^ 2)) = 1)%R).
    { intros Na. rewrite !Cmod_div by exact Na. etransitivity; [|exact Hlaw]. field. intros E. apply Cmod_eq_0 in E. contradiction. }
    unfold mspectrum_is in Hs. destruct (m_cs o); try (now apply Hct); rewrite ?Nat.mul_0_l, ?Nat.mul_1_l, ?Nat.add_0_l.
    + destruct (Hs i Hi) as (Na & -> & ->). specialize (Hrho Na). specialize (Hnz Na). apply (Rmult_lt_reg_l (Cmod a ^ 2)); [exact Hnz|]. rewrite Rmult_0_r. fold a b1 b2. rewrite Hrho. lra.
    + destruct (Hs i Hi) as (E1 & E2 & E3). rewrite Nat.add_0_l in E1, E2, E3. rewrite E1, E2, E3. exact Hlaw.
    + destruct Hs as [Hs1 Hs2]. destruct (Hs1 i Hi) as (Na & -> & ->). destruct (Hs2 i Hi) as (E1 & E2 & E3).
      replace (2 * M + M + i)%nat with (3 * M + i)%nat in E2 by lia. replace (2 * M + 2 * M + i)%nat with (4 * M + i)%nat in E3 by lia.
      rewrite E1, E2, E3. split; [exact Hlaw|]. exact (Hrho Na).
  - intros Ek. apply Hm2; [right; exact Ek|]. right. intros i Hi E. specialize (Hlaw i Hi). rewrite E, Cmod_0, Ek in Hlaw.
    set (y := Cmod _) in Hlaw. set (z := Cmod _) in Hlaw. pose proof (pow2_ge_0 y). pose proof (pow2_ge_0 z). lra.
Qed.
Print Assumptions manakovv_energy_conserved.
