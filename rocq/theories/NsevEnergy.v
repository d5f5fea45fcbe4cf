(** * Conservation law for the continuous spectrum returned by fnft_nsev (C88) *)
From Coq Require Import Reals Lra QArith Qreals.
From Coquelicot Require Import Coquelicot.
From Verif Require Import Loop CExp CField CConj DiscTables DiscModel DiscPreProps DiscPreNse FscatterSpec FscatterProof FscatterProps ScatterSpec MatExp ScatterStep ScatterModel ScatterRun ScatterProps ScatterMatProps ScatterNse
  NsevSpec NftSpec NsevFast NsevLib NsevCsTop.
Local Open Scope C_scope.

(** the methods whose step is a product of exponentials (or, for the modal one, a rotation) with real weights *)
Definition lossless (d : akns_disc) : Prop := symmetric_method d \/ d = A_2SPLIT1A \/ d = A_2SPLIT1B \/ d = A_2SPLIT2A \/ d = A_2SPLIT2B \/ d = A_2SPLIT2_MODAL.

Lemma mexp_real X (x : R) : mdet X = RtoC x -> exists c s : R, mexp X = madd (mscal (RtoC c) mone) (mscal (RtoC s) X).
Proof.
  intros H. destruct (root_exists X) as (k & Hk). rewrite (mexp_root k X Hk). unfold mexp_at.
  assert (Hc : Cconj k = k \/ Cconj k = - k).
  { apply sqr_eq. rewrite <- Cmult_conj, Hk, H, Cconj_opp, Cconj_R. reflexivity. }
  exists (fst (Ccosh k)), (fst (if Ceq_dec k 0 then RtoC 1 else Csinh k / k)). rewrite <- !conj_real; [reflexivity| |].
  - destruct (Ceq_dec k 0) as [|N]; [apply Cconj_R|]. rewrite Cconj_div, Cconj_sinh by exact N. destruct Hc as [-> | ->]; [reflexivity|]. rewrite Csinh_opp. field. exact N.
  - rewrite Cconj_cosh. destruct Hc as [-> | ->]; [reflexivity|apply Ccosh_opp].
Qed.
Lemma approx_exp_refl X : approx_exp X (mexp X).
Proof.
  split; [reflexivity|]. split; [|intros x; apply mexp_real]. unfold within. assert (E0 : forall z : C, z - z = 0) by (intros; ring). rewrite !E0, Cmod_0.
  assert (H : forall z : C, (0 <= 4 / 10000000000000000000000000000000000 * Cmod z)%R) by (intros z; apply Rmult_le_pos; [lra|apply Cmod_ge_0]). repeat split; apply H.
Qed.
Lemma expB_mexp q r t : expB q r t = mexp (mscal t (offd q r)).
Proof.
  assert (Hk : Csqrt (q * r) * Csqrt (q * r) = - mdet (offd q r)) by (rewrite Csqrt_sq; unfold mdet, offd; cbn [a11 a12 a21 a22]; ring).
  rewrite (mexp_line _ _ t Hk). unfold expB, expB_at. set (k := Csqrt (q * r)).
  destruct (Ceq_dec k 0) as [E|N]; apply mat2_eq; unfold madd, mscal, mone, offd; cbn [a11 a12 a21 a22]; try ring.
  - rewrite E, Cmult_0_l, Ccosh_0. ring.
  - rewrite E, Cmult_0_l, Ccosh_0. ring.
Qed.

Section Sym.
Variable kap : R.
Hypothesis Hkap : kap = 1%R \/ kap = (-1)%R.
Let k : C := RtoC kap.
Definition special (M : mat2) : Prop := unitary_like k M /\ mdet M = 1.
Lemma sp_mul M N : special M -> special N -> special (mmul M N).
Proof. intros [A B] [A2 B2]. split; [now apply ul_mmul|]. rewrite mdet_mul, B, B2. ring. Qed.
Lemma sp_one : special mone.
Proof. split; [apply ul_one|]. unfold mdet, mone. cbn [a11 a12 a21 a22]. ring. Qed.
Lemma sp_descending n M : (forall i, (i < n)%nat -> special (M i)) -> special (descending n M).
Proof. induction n as [|n IH]; intros H; cbn [descending]; [apply sp_one|]. apply sp_mul; [apply H; lia|apply IH; intros i Hi; apply H; lia]. Qed.
Lemma sp_expA (xi t : R) : special (expA (RtoC xi) t).
Proof.
  unfold special, unitary_like, expA, mdet. cbn [a11 a12 a21 a22]. split; [split|].
  - rewrite <- Cexp_conj. f_equal. rewrite !Cmult_conj, Cconj_opp, !Cconj_R. replace (Cconj Ci) with (- Ci) by (apply Ceq; cbn; ring). ring.
  - rewrite Cconj_R. ring.
  - rewrite <- Cexp_plus. replace (_ + _) with (RtoC 0) by ring. rewrite Cexp_0. ring.
Qed.
Lemma sp_expB q r (t : R) : r = - k * Cconj q -> special (expB q r (RtoC t)).
Proof.
  intros H. rewrite expB_mexp. split; [|apply mexp_det, traceless_mscal; unfold traceless, offd; cbn; ring].
  eapply lie_exp; [|apply approx_exp_refl]. apply lie_scal; [apply Cconj_R|]. now apply lie_offd.
Qed.
Lemma sp_modal q r (h : R) : r = - k * Cconj q -> (kap = (-1)%R -> (Rabs h * Cmod q < 1)%R) -> special (modal h q r).
Proof.
  intros Hr Hm. unfold modal. set (Q := RtoC h * q). set (y := (1 + kap * (Cmod Q * Cmod Q))%R).
  assert (ER : RtoC h * r = - k * Cconj Q) by (unfold Q; rewrite Hr, Cmult_conj, Cconj_R; ring). rewrite ER.
  assert (Ey : 1 - Q * (- k * Cconj Q) = RtoC y). { unfold y. rewrite Cmod_sq. unfold k. apply Ceq; cbn; ring. }
  assert (Py : (0 < y)%R).
  { unfold y. pose proof (Cmod_ge_0 Q). destruct Hkap as [-> |E].
    - pose proof (Rmult_le_pos _ _ H H). lra.
    - rewrite E. assert (HQ : (Cmod Q < 1)%R) by (unfold Q; rewrite Cmod_mult, Cmod_R; now apply Hm). assert (Cmod Q * Cmod Q < 1)%R; [|lra].
      apply Rle_lt_trans with (Cmod Q * 1)%R; [apply Rmult_le_compat_l; lra|lra]. }
  rewrite Ey. set (s := Csqrt (RtoC y)). assert (Es : s * s = RtoC y) by apply Csqrt_sq.
  assert (Ns : s <> 0). { intros E. rewrite E, Cmult_0_l in Es. apply RtoC_inj in Es. lra. }
  assert (Cs : Cconj s = s).
  { destruct (sqr_eq (Cconj s) s) as [E|E]; [rewrite <- Cmult_conj, Es; apply Cconj_R|exact E|]. exfalso.
    assert (E2 : RtoC y = - (s * Cconj s)) by (rewrite E, <- Es; ring). apply (f_equal fst) in E2. cbn in E2.
    pose proof (Rle_0_sqr (fst s)) as P1. pose proof (Rle_0_sqr (snd s)) as P2. unfold Rsqr in P1, P2. lra. }
  assert (Cc : Cconj (1 / s) = 1 / s) by (rewrite Cconj_div, Cconj_R, Cs by exact Ns; reflexivity).
  unfold special, unitary_like, mdet, mscal. cbn [a11 a12 a21 a22]. split; [split|].
  - rewrite Cmult_1_r. now symmetry.
  - rewrite !Cmult_conj, Cc, Cconj_opp, Cconj_conj. replace (Cconj k) with k by (symmetry; apply Cconj_R).
    assert (kk : k * k = 1) by (unfold k; rewrite <- RtoC_mult; f_equal; destruct Hkap as [-> | ->]; ring).
    transitivity (1 / s * Q * (k * k)); [rewrite kk; ring|unfold Cdiv; ring].
  - transitivity ((1 - Q * (- k * Cconj Q)) / (s * s)); [field; exact Ns|]. rewrite Ey, Es. field. intros E. apply RtoC_inj in E. lra.
Qed.
Lemma sp_word EA EB w : (forall c, special (EA c)) -> (forall c, special (EB c)) -> special (word_val EA EB w).
Proof. intros HA HB. induction w as [|f w IH]; cbn; [apply sp_one|]. apply sp_mul; [destruct (fst f); auto|exact IH]. Qed.
Lemma scheme_one EA EB w : scheme_val EA EB [(1%Q, w)] = word_val EA EB w.
Proof. cbn [scheme_val fold_right fst snd]. replace (Q2R 1) with 1%R by (unfold Q2R; cbn; field). set (M := word_val EA EB w). mring. Qed.

Lemma scattering_lossless d (eps : R) (q r : nat -> C) n (xi : R) : lossless d -> multiple3 d n ->
  (forall i, (i < n)%nat -> r i = - k * Cconj (q i)) ->
  (d = A_2SPLIT2_MODAL -> kap = (-1)%R -> forall i, (i < n)%nat -> (Rabs eps * Cmod (q i) < 1)%R) ->
  special (scattering d (weights d) eps q r n (RtoC xi)).
Proof.
  intros Hd H3 Hr Hm. unfold scattering.
  assert (Fast : forall s, scheme_of d = Some s -> d <> A_2SPLIT2A -> d <> A_2SPLIT2_MODAL -> (exists w, s = [(1%Q, w)]) -> forall j, (j < n)%nat -> forall h, special (fast_step d h (q j) (r j) (RtoC xi))).
  { intros s Es N1 N2 (w & ->) j Hj h. replace (fast_step d h (q j) (r j) (RtoC xi)) with (splitting (RtoC xi) (q j) (r j) h (akns_degree d) [(1%Q, w)]).
    - unfold splitting. rewrite scheme_one. apply sp_word; intros c; [apply sp_expA|apply sp_expB; now apply Hr].
    - unfold fast_step. rewrite Es. destruct d; try reflexivity; congruence. }
  destruct Hd as [Hs|[->|[->|[->|[->| ->]]]]].
  - assert (E : akns_degree d = O) by (destruct Hs as [->|[->|[->|[->| ->]]]]; reflexivity). rewrite E. apply sp_descending. intros j Hj. split; [|apply slow_step_det].
    apply (symmetric_step kap Hkap d eps xi q r n j); try assumption. unfold approx_step, slow_step.
    destruct (step_outer d (RtoC eps) q r j) as [[X Y]|] eqn:EO; cbn [sandwich].
    + exists (mexp (step_core d (weights d) (RtoC eps) q r j (RtoC xi))), (mexp X), (mexp Y). split; [apply approx_exp_refl|]. split; [apply approx_exp_refl|]. split; [apply approx_exp_refl|reflexivity].
    + exists (mexp (step_core d (weights d) (RtoC eps) q r j (RtoC xi))), mone, mone. split; [apply approx_exp_refl|reflexivity].
  - cbn [akns_degree]. apply sp_descending. intros j Hj. eapply Fast; try reflexivity; try discriminate; eauto.
  - cbn [akns_degree]. apply sp_descending. intros j Hj. eapply Fast; try reflexivity; try discriminate; eauto.
  - cbn [akns_degree]. apply sp_descending. intros j Hj. cbn [fast_step]. apply sp_mul; [apply sp_expA|apply sp_mul; [apply sp_expB; now apply Hr|apply sp_expA]].
  - cbn [akns_degree]. apply sp_descending. intros j Hj. eapply Fast; try reflexivity; try discriminate; eauto.
  - cbn [akns_degree]. apply sp_descending. intros j Hj. cbn [fast_step akns_upsampling_factor INR]. apply sp_mul; [apply sp_expA|apply sp_mul; [|apply sp_expA]].
    apply sp_modal; [now apply Hr|]. intros Ek. replace (eps / 1)%R with eps by field. now apply Hm.
Qed.
End Sym.

Lemma unit_phase (x y : R) : Cmod (Cexp (Ci * RtoC x * RtoC y)) = 1%R.
Proof. rewrite Cmod_Cexp. replace (fst (Ci * RtoC x * RtoC y)) with 0%R by (cbn; ring). apply exp_0. Qed.
Lemma nft_mod S T eps (xi : R) : Cmod (nft_a_of S T eps (RtoC xi)) = Cmod (a11 S) /\ Cmod (nft_b_of S T eps (RtoC xi)) = Cmod (a21 S).
Proof.
  assert (P : forall t : R, Cmod (Cexp (Ci * RtoC xi * RtoC t)) = 1%R /\ Cmod (Cexp (- Ci * RtoC xi * RtoC t)) = 1%R).
  { intros t. split; [apply unit_phase|]. replace (- Ci * RtoC xi * RtoC t) with (Ci * RtoC xi * RtoC (- t)) by (rewrite RtoC_opp; ring). apply unit_phase. }
  unfold nft_a_of, nft_b_of. cbv zeta. rewrite !Cmod_mult. rewrite !(proj1 (P _)), !(proj2 (P _)). split; ring.
Qed.

(** what the array says about a, b: a^2 + kappa b^2 = 1 wherever both are given; rho = b/a satisfies (1 + kappa |rho|^2) |a|^2 = 1 *)
Definition conserved (kappa : Z) (t : cstype) (M : nat) (l : list C) : Prop := forall i, (i < M)%nat ->
  let x j := (Cmod (nth (j * M + i) l 0) ^ 2)%R in
  match t with
  | CS_REFLECTION_COEFFICIENT => (0 < 1 + IZR kappa * x 0%nat)%R
  | CS_AB => (x 0%nat + IZR kappa * x 1%nat = 1)%R
  | CS_BOTH => (x 1%nat + IZR kappa * x 2%nat = 1 /\ x 1%nat * (1 + IZR kappa * x 0%nat) = 1)%R
  | CS_bad => False
  end.

(** C88.  For the methods above, whenever fnft_nsev succeeds, |a|^2 + kappa |b|^2 = 1 holds for the values in the array contspec
   (in particular |b/a| < 1 in the defocusing case), and in the defocusing case the call always succeeds *)
Theorem nsev_energy_conserved L D q T M XI kappa user dflt o cs u d : lib_ok L ->
  (match user with Some o => o | None => dflt end) = o ->
  nsev_valid D (Some q) (Some T) (Some XI) kappa o u -> length q = D -> (2 <= M)%nat ->
  u_cs u = Some cs -> (cs_values (contspec_type o) * M <= length cs)%nat -> contspec_type o <> CS_bad ->
  richardson_extrapolation_flag o <> 1%nat ->
  nse_to_akns (discretization o) = Some d -> lossless d -> ((3 <= D)%nat \/ akns_upsampling_factor d = 1%nat) ->
  (Z.of_nat (D * akns_upsampling_factor d) <= 2147483647)%Z ->
  (d = A_2SPLIT2_MODAL -> kappa = (-1)%Z -> forall j, (j < D)%nat -> (spacing T D * Cmod (nth j q 0) < 1)%R) ->
  exists p, nse_preprocess (l_junk L) (l_junkR L) D (Some q) (spacing T D) kappa D (discretization o) = Ret (inr p) /\
  ((forall i, (i < M)%nat -> scattering_exact d (weights d) (spacing T D) (nthC (po_q p)) (nthC (po_r p)) (D * akns_upsampling_factor d) (RtoC (grid_point XI M i))) ->
  (forall u' user' dflt', fnft_nsev (lib_env L) D (Some q) (Some T) M (Some XI) kappa user dflt u = Ret (SUCCESS, u', user', dflt') ->
     exists cs', u_cs u' = Some cs' /\ conserved kappa (contspec_type o) M cs') /\
  (kappa = (-1)%Z -> exists u' user' dflt', fnft_nsev (lib_env L) D (Some q) (Some T) M (Some XI) kappa user dflt u = Ret (SUCCESS, u', user', dflt'))).
Proof.
  intros HL Eo V Lq HM Ecs Lcs Hct Hr Hd Hl H3 H31 Hm.
  destruct (nsev_contspec_is_discrete_nft L HL D q T M XI kappa user dflt u cs d) as (p & Ep & Hpl & Hmain); try (rewrite Eo); try assumption.
  rewrite Eo in Ep, Hmain. exists p. split; [exact Ep|]. intros Hx. specialize (Hmain Hx). cbv zeta in Hmain. destruct Hmain as [Hm1 Hm2].
  destruct V as [VD _ VT _ Vk _ Vd _]. destruct VT as (t0 & t1 & ET & HT). injection ET as ->.
  assert (He : (0 < spacing (t0, t1) D)%R) by (apply spacing_pos; [exact HT|exact VD]). set (eps := spacing (t0, t1) D) in *.
  set (n := (D * akns_upsampling_factor d)%nat) in *.
  assert (Hkap : IZR kappa = 1%R \/ IZR kappa = (-1)%R) by (destruct Vk as [-> | ->]; [left|right]; reflexivity).
  assert (Hsym : forall i, (i < n)%nat -> nthC (po_r p) i = - RtoC (IZR kappa) * Cconj (nthC (po_q p) i)).
  { destruct (Nat.eq_dec (akns_upsampling_factor d) 1) as [U|U].
    - destruct (Hpl U) as [-> ->]. intros i Hi. unfold nthC. rewrite nth_indep with (d' := nse_r_from_q kappa 0) by (rewrite map_length; unfold n in Hi; rewrite U in Hi; lia).
      rewrite map_nth. unfold nse_r_from_q. destruct Vk as [-> | ->]; cbn [Z.eqb Pos.eqb]; apply Ceq; cbn; ring.
    - destruct (nse_preprocess_conjugate (l_junk L) (l_junkR L) (lk_junk L HL) (lk_junkR L HL) D D q eps Lq He kappa (discretization o)) as (ns & p' & E' & G & L1 & L2 & Hc); try assumption; try lia.
      { intros E. rewrite E in Hd. injection Hd as <-. destruct Hl as [[?|[?|[?|[?|?]]]]|[?|[?|[?|[?|?]]]]]; discriminate. }
      { intros E. rewrite E in Hd. injection Hd as <-. destruct Hl as [[?|[?|[?|[?|?]]]]|[?|[?|[?|[?|?]]]]]; discriminate. }
      rewrite Ep in E'. injection E' as <-. destruct G as (_ & _ & _ & _ & _ & G). destruct (G eq_refl) as [_ GD]. rewrite GD in L1.
      assert (Eu : nse_upsampling_factor (discretization o) = akns_upsampling_factor d) by (unfold nse_upsampling_factor, via; now rewrite Hd). rewrite Eu in L1.
      intros i Hi. unfold nthC. apply Hc. unfold n in Hi. lia. }
  assert (Hm3 : multiple3 d n) by (unfold multiple3, n; destruct d; try exact I; cbn [akns_upsampling_factor]; apply Nat.mod_mul; lia).
  assert (Hlaw : forall i, (i < M)%nat -> let S := scattering d (weights d) eps (nthC (po_q p)) (nthC (po_r p)) n (RtoC (grid_point XI M i)) in
     (Cmod (nft_a_of S (t0, t1) eps (RtoC (grid_point XI M i))) ^ 2 + IZR kappa * Cmod (nft_b_of S (t0, t1) eps (RtoC (grid_point XI M i))) ^ 2 = 1)%R).
  { intros i Hi S. destruct (nft_mod S (t0, t1) eps (grid_point XI M i)) as [-> ->].
    destruct (scattering_lossless (IZR kappa) Hkap d eps (nthC (po_q p)) (nthC (po_r p)) n (grid_point XI M i) Hl Hm3 Hsym) as [U1 U2].
    - intros Ed Ek j Hj. rewrite (Rabs_pos_eq eps) by lra. assert (U : akns_upsampling_factor d = 1%nat) by (now rewrite Ed). destruct (Hpl U) as [-> _]. apply Hm; [exact Ed| |unfold n in Hj; rewrite U in Hj; lia].
      apply eq_IZR. exact Ek.
    - fold S in U1, U2. rewrite (ul_det (IZR kappa) S U1) in U2. apply RtoC_inj in U2. exact U2. }
  cbv zeta in Hlaw.
  assert (Hnz : forall i, (i < M)%nat -> let a := nft_a_of (scattering d (weights d) eps (nthC (po_q p)) (nthC (po_r p)) n (RtoC (grid_point XI M i))) (t0, t1) eps (RtoC (grid_point XI M i)) in a <> 0 -> (0 < Cmod a ^ 2)%R).
  { intros i Hi a Na. apply pow_lt. now apply Cmod_gt_0. }
  cbv zeta in Hnz. split.
  - intros u' user' dflt' H. destruct (Hm1 u' user' dflt' H) as (cs' & Ecs' & Hs & _). exists cs'. split; [exact Ecs'|]. intros i Hi. specialize (Hlaw i Hi). specialize (Hnz i Hi).
    set (a := nft_a_of _ _ _ _) in *. set (b := nft_b_of _ _ _ _) in *. cbv zeta.
    assert (Hrho : a <> 0 -> (Cmod a ^ 2 * (1 + IZR kappa * Cmod (b / a)%C ^ 2) = 1)%R).
    { intros Na. rewrite Cmod_div by exact Na. etransitivity; [|exact Hlaw]. field. intros E. apply Cmod_eq_0 in E. contradiction. }
    unfold spectrum_is in Hs. destruct (contspec_type o); try (now apply Hct); specialize (Hs i Hi); rewrite ?Nat.mul_0_l, ?Nat.mul_1_l, ?Nat.add_0_l.
    + destruct Hs as [Na ->]. specialize (Hrho Na). specialize (Hnz Na). fold a b in Hrho |- *. apply (Rmult_lt_reg_l (Cmod a ^ 2)); [exact Hnz|]. rewrite Rmult_0_r. fold a b. rewrite Hrho. lra.
    + destruct Hs as [-> ->]. exact Hlaw.
    + destruct Hs as (Na & -> & -> & ->). split; [exact Hlaw|]. exact (Hrho Na).
  - intros Ek. apply Hm2; [right; exact Ek|]. right. intros i Hi E. specialize (Hlaw i Hi). rewrite E, Cmod_0, Ek in Hlaw.
    set (y := Cmod _) in Hlaw. pose proof (pow2_ge_0 y). lra.
Qed.
Print Assumptions nsev_energy_conserved.
