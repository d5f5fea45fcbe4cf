(** * fnft_nsev_inverse for a reflection coefficient *)
From Coq Require Import Reals ZArith List Lia Lra.
From Coquelicot Require Import Coquelicot.
From Verif Require Import Base Mem Loop Series Fields CField CConj Dft FftUse MatSpec PolySpec ErrModel CExp KissModel KissProof DiscTables DiscProps NsevModel NsevSafe NsevSpec FscatterSpec FinvModel FinvAlg FinvMult FinvRun FinvTop FinvProof FinvProps InvModel InvGrid InvArgs InvTop InvCsSpec InvPeel InvCsAlg InvPeelTop InvCs InvCsTm.
Import ListNotations.
Local Open Scope C_scope.

(** nse_finvscatter of FinvModel is called, with some contents of uninitialised memory *)
Definition runs_finvscatter (E : ienv) : Prop := exists junkm junk0 junk1 junk2,
  (forall a n, length (junkm a n) = n) /\ (forall n, length (junk0 n : list C) = n) /\ (forall n, length (junk1 n : list C) = n) /\ (forall n, length (junk2 n : list C) = n) /\
  forall deg tm q eps_t kappa d, ie_finv E deg tm q eps_t kappa d =
    (x <- nse_finvscatter junkm junk0 junk1 junk2 deg (Some tm) (Some q) eps_t kappa d ;;
     let '(code, q', _) := x in Ret (code, match q' with Some q' => q' | None => q end)).
(** no allocation and no plan fails; memory has the requested size *)
Definition well (E : ienv) : Prop := plenty E /\ (forall s n, length (ie_junk E s n) = n) /\ (forall s, ie_plan E s = SUCCESS).

Lemma disc_of_degree s : nse_degree (disc_of s) = 1%nat. Proof. destruct s; reflexivity. Qed.
Lemma phase_rho s eps_t T1 : nse_phase_factor_rho eps_t T1 (disc_of s) = POk (Some (- 2 * T1)%R).
Proof.
  destruct s; cbn [disc_of]; unfold nse_phase_factor_rho; cbn; unfold with_bc; cbn; f_equal; f_equal; field.
Qed.
Lemma phase_b s eps_t D T0 T1 : nse_phase_factor_b eps_t D T0 T1 (disc_of s) = POk (Some (- eps_t * INR D - T1 - T0 + eps_t)%R).
Proof.
  destruct s; cbn [disc_of]; unfold nse_phase_factor_b; cbn; unfold with_bc; cbn; f_equal; f_equal; field.
Qed.

Section Grid.
Variables (s : scheme) (D m : nat) (T XI0 XI : R * R).
Hypothesis HD : (2 <= D)%nat.
Hypothesis Hm : (1 <= m)%nat.
Hypothesis HT : (fst T < snd T)%R.
Hypothesis HXI : fnft_nsev_inverse_XI D (Some T) (2 * m) (Some XI0) (disc_of s) = Ret (SUCCESS, Some XI).
Let M := (2 * m)%nat.
Let eps_t := ((snd T - fst T) / INR (D - 1))%R.
(** z = e^(2 i xi eps_t) at the frequency number n *)
Definition node (n : nat) : C := Cexp (2 * Ci * RtoC (grid_point XI M n) * RtoC eps_t).
Lemma node_unity k : (k < M)%nat -> node (fft_index m k) = unity_root M k.
Proof.
  intros Hk. assert (Ak : exists a, nse_to_akns (disc_of s) = Some a /\ akns_degree a = 1%nat /\ akns_upsampling_factor a = 1%nat) by (destruct s; cbn; eexists; repeat split; reflexivity).
  destruct Ak as (a & Ea & Da & Ua).
  destruct (inverse_XI_grid D m T (disc_of s) a HD HT Hm Ea ltac:(rewrite Da; discriminate) ltac:(rewrite Ua; discriminate) XI0) as (XI' & E & _ & _ & G1 & G2).
  rewrite HXI in E. injection E as <-. fold M eps_t in G1, G2. rewrite Da, Ua in G1, G2.
  assert (Z : forall n, z_of eps_t (INR 1 * INR 1) (grid_point XI M n) = node n).
  { intros n. unfold z_of, node. f_equal. change (INR 1) with 1%R. rewrite Rmult_1_r. field. }
  unfold fft_index. destruct (Nat.leb_spec k m).
  - rewrite <- Z. apply G1. exact H.
  - rewrite <- Z. apply G2. unfold M in Hk. split; [exact H|exact Hk].
Qed.
Lemma interpolates_unity P vs : interpolates P M node vs <-> length P = M /\ forall k, (k < M)%nat -> polyval P (unity_root M k) = vs (fft_index m k).
Proof.
  split; intros [L H]; (split; [exact L|]).
  - intros k Hk. rewrite <- node_unity by exact Hk. apply H. apply (fft_index_lt D m A_2SPLIT2A HD Hm ltac:(discriminate) ltac:(discriminate)). exact Hk.
  - intros n Hn. destruct (fft_pos_ok m n Hm Hn) as [H1 H2]. rewrite <- H2 at 1. rewrite node_unity by exact H1. rewrite H by exact H1. now rewrite H2.
Qed.
Lemma interpolates_unique P Q vs : interpolates P M node vs -> interpolates Q M node vs -> P = Q.
Proof.
  rewrite !interpolates_unity. intros [LP HP] [LQ HQ]. apply unity_unique; [congruence|]. rewrite LP. intros k Hk. rewrite HP, HQ by exact Hk. reflexivity.
Qed.
End Grid.

Section Top.
Variables (E : ienv) (s : scheme) (p m : nat) (T XI0 XI : R * R) (cs q : list C) (kappa : Z) (o : iopts).
Let D := (2 ^ p)%nat.
Let M := (2 * m)%nat.
Let eps_t := ((snd T - fst T) / INR (D - 1))%R.
Hypothesis HE : well E.
Hypothesis HF : runs_finvscatter E.
Hypothesis Hp : (1 <= p)%nat.
Hypothesis HM : (D <= M)%nat.
Hypothesis HT : (fst T < snd T)%R.
Hypothesis HXI : fnft_nsev_inverse_XI D (Some T) M (Some XI0) (disc_of s) = Ret (SUCCESS, Some XI).
Hypothesis Hk : kappa = 1%Z \/ kappa = (-1)%Z.
Hypothesis Hd : i_disc o = disc_of s.
Hypothesis Lc : length cs = M.
Hypothesis Lq : (D <= length q)%nat.
Let run := fnft_nsev_inverse E M (Some cs) (Some XI) 0 None None D (Some q) (Some T) kappa (Some o).

Let HD : (2 <= D)%nat. Proof. unfold D. change 2%nat with (2 ^ 1)%nat at 1. apply Nat.pow_le_mono_r; lia. Qed.
Let Hm : (1 <= m)%nat. Proof. unfold M in HM. lia. Qed.
Let He : (0 < eps_t)%R. Proof. unfold eps_t. apply Rdiv_lt_0_compat; [lra|]. apply lt_0_INR. lia. Qed.
Lemma cs_accepted : accepted M (Some cs) (Some XI) 0 None None D (Some q) (Some T) kappa o.
Proof.
  constructor; try (intros; congruence); try (left; congruence); try (intros; exfalso; lia).
  - intros _. split; [exists m; reflexivity|exact HM].
  - exists p. now split.
  - exists (fst T), (snd T). split; [now destruct T|exact HT].
  - destruct Hk as [->| ->]; [now left|right; now split].
  - rewrite Hd. destruct s; cbn; auto.
Qed.
Lemma cs_run : run = (x <- invert_contspec E M cs (Some XI) 0 None D q T kappa o ;; let '(code, (cs, q)) := x in Ret (code, (Some cs, Some q))).
Proof.
  unfold run. rewrite inverse_accepted; [|intros l Hl; discriminate|exact cs_accepted]. destruct (invert_contspec E M cs (Some XI) 0 None D q T kappa o) as [[code [cs' q']]|]; [|reflexivity]. cbn [bind].
  destruct (Z.eqb code SUCCESS) eqn:Ec; cbn [negb Nat.ltb Nat.leb]; [|reflexivity]. apply Z.eqb_eq in Ec. now subst code.
Qed.
Section Refl.
Hypothesis Ho : i_cs o = IC_REFLECTION_COEFFICIENT.
Hypothesis Hmeth : i_meth o = IM_DEFAULT \/ i_meth o = IM_REFL_COEFF.
(** the given reflection coefficient times e^(2 i xi T_1) *)
Let target (n : nat) : C := nth n cs (RtoC 0) * Cexp (2 * Ci * RtoC (grid_point XI M n) * RtoC (snd T)).

Lemma refl_tm : exists cs' tm P, interpolates P M (node D m T XI) target /\ length tm = (4 * (D + 1))%nat /\ nth D tm (RtoC 0) = 1 /\
  (forall z, tm11 tm D z = 1) /\ agree D (tm21 tm D) (polyval P) /\
  invert_contspec E M cs (Some XI) 0 None D q T kappa o = (x <- ie_finv E D tm q eps_t kappa (disc_of s) ;; let '(code, q) := x in check code (cs', q) (Ret (SUCCESS, (cs', q)))).
Proof.
  destruct HE as (HA & HJ & HP). 
  destruct (b_coefficients_ok E m D T XI o cs (- 2 * snd T) HA HJ HP Hm HD Lc (or_introl Ho)) with (s := 10%nat) as (cs' & b & Eb & Lc' & Lb & _ & Nb).
  { unfold cs_phase. rewrite Ho, Hd. fold eps_t. apply phase_rho. }
  fold M in Eb, Lc', Lb, Nb.
  destruct (tm_refl_loops D M b kappa (ie_junk E 0 (4 * (D + 1)))) as (tm & Et & Lt & N1 & T11 & T21); [lia|exact HM|exact Lb|apply HJ|].
  exists cs', tm, (map (low_entry M) b). split.
  { apply (interpolates_unity s D m T XI0 XI HD Hm HT HXI). fold M. split; [now rewrite map_length|]. intros k Hk'. rewrite Nb by exact Hk'. unfold unphased, target. fold M. f_equal. f_equal.
    rewrite RtoC_mult. ring. }
  split; [exact Lt|]. split; [exact N1|]. split; [exact T11|]. split; [exact T21|].
  unfold invert_contspec. rewrite Hd, disc_of_degree, Nat.mul_1_r. destruct (Nat.eqb_spec D 0); [lia|]. rewrite HA. cbn [negb]. cbn [deref bind]. rewrite Ho. cbn [bind Nat.eqb].
  assert (R : tm_refl_coeff E M cs XI D T D (ie_junk E 0 (4 * (D + 1))) kappa o = Ret (SUCCESS, (cs', tm))).
  { unfold tm_refl_coeff. rewrite Eb. cbn [bind]. change (Z.eqb SUCCESS SUCCESS) with true. cbn [negb]. cbv zeta. revert Et.
    destruct (for_ (i0_of D M) 0 _ _) as [t1|]; cbn [bind]; [|discriminate]. destruct (for_ (D + 1 - i0_of D M) _ _ _) as [t2|]; cbn [bind]; [|discriminate].
    destruct (aset t2 D 1) as [t3|]; cbn [bind]; [|discriminate]. intros ->. cbn [bind]. reflexivity. }
  assert (St : step (snd T - fst T) D = Ret eps_t). { unfold step. destruct (Nat.leb_spec D 1); [lia|reflexivity]. }
  unfold tm_from_reflection_coefficient. destruct Hmeth as [->| ->]; rewrite R; cbn [bind]; unfold check at 1; change (Z.eqb SUCCESS SUCCESS) with true; cbv iota; cbn [bind]; unfold check at 1; change (Z.eqb SUCCESS SUCCESS) with true; cbv iota; cbn [bind]; change (Z.eqb SUCCESS SUCCESS) with true; cbn [negb]; rewrite St; reflexivity.
Qed.

(** nse_finvscatter for a matrix whose first column agrees with (1, P) *)
Lemma finv_env deg tm eps kap d code q' tm' (junkm : arr -> nat -> list C) (junk0 junk1 junk2 : nat -> list C) :
  (forall deg tm q eps_t kappa d, ie_finv E deg tm q eps_t kappa d =
    (x <- nse_finvscatter junkm junk0 junk1 junk2 deg (Some tm) (Some q) eps_t kappa d ;;
     let '(code, q', _) := x in Ret (code, match q' with Some q' => q' | None => q end))) ->
  nse_finvscatter junkm junk0 junk1 junk2 deg (Some tm) (Some q) eps kap d = Ret (code, Some q', tm') -> ie_finv E deg tm q eps kap d = Ret (code, q').
Proof. intros H F. rewrite H, F. reflexivity. Qed.

(** If the samples qv reproduce the given reflection coefficient, they are returned *)
Theorem nsev_inverse_refl_recovers (qv : nat -> C) (P : list C) : exact_scheme s kappa ->
  (forall n, (n < D)%nat -> in_range s (IZR kappa) eps_t (qv n)) ->
  interpolates P M (fun n => Cexp (2 * Ci * RtoC (grid_point XI M n) * RtoC eps_t)) target ->
  same_reflection s (IZR kappa) eps_t qv D (fun _ => 1) (polyval P) ->
  exists cs' q', run = Ret (SUCCESS, (Some cs', Some q')) /\ holds_samples D qv q q'.
Proof.
  intros Hs Hr HPi HR. destruct refl_tm as (cs' & tm & P' & HP' & Lt & N1 & T11 & T21 & Er).
  assert (P' = P) by (apply (interpolates_unique s D m T XI0 XI HD Hm HT HXI P' P target); [exact HP'|exact HPi]). subst P'.
  destruct HF as (junkm & junk0 & junk1 & junk2 & Hjm & Hj0 & Hj1 & Hj2 & HFi).
  destruct (nse_finvscatter_recovers junkm junk0 junk1 junk2 Hjm Hj0 Hj1 Hj2 s kappa p eps_t qv tm q Hs Hp He Lq ltac:(fold D; lia)) as (q' & Eq & Sq).
  - fold D. rewrite N1. apply C1n0.
  - exact Hr.
  - fold D. apply (same_reflection_cong s (IZR kappa) eps_t qv D (fun _ => 1) (polyval P)); [|apply agree_sym; exact T21|exact HR].
    apply (agree_ext D (fun _ => 1) _ (fun _ => 1) _); [reflexivity|intros z; symmetry; apply T11|apply agree_refl].
  - exists cs', q'. split; [|exact Sq]. fold D in Eq. rewrite cs_run, Er. rewrite (finv_env D tm eps_t kappa (disc_of s) SUCCESS q' _ junkm junk0 junk1 junk2 HFi Eq). reflexivity.
Qed.
(** Focusing case: the call succeeds for any reflection coefficient, and the output reproduces it *)
Theorem nsev_inverse_refl_focusing : kappa = 1%Z ->
  exists cs' q' P, run = Ret (SUCCESS, (Some cs', Some q')) /\
  interpolates P M (fun n => Cexp (2 * Ci * RtoC (grid_point XI M n) * RtoC eps_t)) target /\
  (forall n, (n < D)%nat -> in_range s 1 eps_t (nth n q' (RtoC 0))) /\
  same_reflection s 1 eps_t (fun n => nth n q' (RtoC 0)) D (fun _ => 1) (polyval P) /\
  length q' = length q /\ (forall n, (D <= n)%nat -> nth n q' (RtoC 0) = nth n q (RtoC 0)).
Proof.
  intros Hkap. destruct refl_tm as (cs' & tm & P & HPi & Lt & N1 & T11 & T21 & Er). rewrite Hkap in Er.
  destruct HF as (junkm & junk0 & junk1 & junk2 & Hjm & Hj0 & Hj1 & Hj2 & HFi).
  destruct (nse_finvscatter_focusing junkm junk0 junk1 junk2 Hjm Hj0 Hj1 Hj2 s p eps_t tm q Hp He Lq ltac:(fold D; lia)) as (qv & q' & Hr & HR & Eq & Sq).
  { fold D. rewrite N1. apply C1n0. }
  fold D in Hr, HR, Eq, Sq. exists cs', q', P.
  assert (Nq : forall n, (n < D)%nat -> nth n q' (RtoC 0) = qv n). { intros n Hn. rewrite (proj2 Sq). destruct (Nat.ltb_spec n D); [reflexivity|lia]. }
  split. { rewrite cs_run, Hkap, Er. rewrite (finv_env D tm eps_t 1 (disc_of s) SUCCESS q' _ junkm junk0 junk1 junk2 HFi Eq). reflexivity. }
  split; [exact HPi|]. split; [intros n Hn; rewrite Nq by exact Hn; now apply Hr|]. split; [|split; [exact (proj1 Sq)|]].
  - assert (A := same_reflection_cong s 1 eps_t qv D (tm11 tm D) (tm21 tm D) (fun _ => 1) (polyval P)). cbv beta in A.
    assert (B : same_reflection s 1 eps_t qv D (fun _ => 1) (polyval P)).
    { apply A; [|exact T21|exact HR]. apply (agree_ext D (fun _ => 1) _ (fun _ => 1) _); [intros z; symmetry; apply T11|reflexivity|apply agree_refl]. }
    destruct B as (ys & B). exists ys. intros z. rewrite <- B. rewrite !(transfer_ext' s 1 eps_t (fun n => nth n q' (RtoC 0)) qv D z Nq). reflexivity.
  - intros n Hn. rewrite (proj2 Sq). destruct (Nat.ltb_spec n D); [lia|reflexivity].
Qed.
End Refl.
End Top.
