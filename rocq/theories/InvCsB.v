(** * fnft_nsev_inverse for b(xi) and B(tau) *)
From Coq Require Import Reals ZArith List Lia Lra.
From Coquelicot Require Import Coquelicot.
From Verif Require Import Base Mem Loop Series Fields CField CConj Dft FftUse MatSpec PolySpec ErrModel CExp KissModel KissProof DiscTables DiscProps NsevModel NsevSafe NsevSpec FscatterSpec FinvModel FinvAlg FinvMult FinvRun FinvTop FinvProof FinvProps InvModel InvGrid InvArgs InvTop InvCsSpec InvPeel InvCsAlg InvPeelTop InvCs InvCsTm InvCsTop.
Import ListNotations.
Local Open Scope C_scope.

(** values of the reversed list *)
Lemma polyval_rev_seq (f : nat -> C) z n : forall a, polyval (rev (map f (seq a n))) z = fold_right Cplus 0 (map (fun k => f k * cpow z (a + n - 1 - k)) (seq a n)).
Proof.
  induction n as [|n IH]; intros a; [reflexivity|]. cbn [seq map rev fold_right]. rewrite polyval_app, IH, rev_length, map_length, seq_length. rewrite polyval_cons, polyval_nil.
  replace (a + S n - 1 - a)%nat with n by lia. rewrite Cplus_comm. f_equal; [ring|]. f_equal. apply map_ext_in. intros k Hk. apply in_seq in Hk. f_equal. f_equal. lia.
Qed.
Lemma cpow_exp w k : cpow (Cexp w) k = Cexp (RtoC (INR k) * w).
Proof.
  induction k as [|k IH]; [cbn [cpow INR]; rewrite Cmult_0_l, Cexp_0; reflexivity|]. cbn [cpow]. rewrite IH, <- Cexp_plus. f_equal. rewrite S_INR, RtoC_plus. ring.
Qed.
Lemma fold_scal (w : C) (f : nat -> C) l : w * fold_right Cplus 0 (map f l) = fold_right Cplus 0 (map (fun k => w * f k) l).
Proof. induction l as [|x l IH]; cbn [map fold_right]; [ring|]. rewrite <- IH. ring. Qed.

(** ** loops of transfer_matrix_from_b_of_xi *)
Definition filled2 (deg M : nat) (b : list C) (i : nat) (tm : list C) : Prop := length tm = (4 * (deg + 1))%nat /\
  forall j, (j < i)%nat -> (j <= deg)%nat -> nth (2 * (deg + 1) + j) tm (RtoC 0) = if (i0_of deg M <=? j)%nat then low_entry M (nth (deg - j) b (RtoC 0)) else RtoC 0.
Lemma set2 deg (tm : list C) i a2 a3 : length tm = (4 * (deg + 1))%nat -> (i <= deg)%nat ->
  exists tm', (tm <- aset tm (1 * (deg + 1) + i) a2 ;; aset tm (2 * (deg + 1) + i) a3) = Ret tm' /\ length tm' = (4 * (deg + 1))%nat /\
  forall k, nth k tm' (RtoC 0) = if Nat.eqb k (2 * (deg + 1) + i) then a3 else if Nat.eqb k (1 * (deg + 1) + i) then a2 else nth k tm (RtoC 0).
Proof.
  intros L Hi. rewrite aset_upd by lia. cbn [bind]. rewrite aset_upd by (rewrite upd_length; lia). eexists. split; [reflexivity|]. split; [now rewrite !upd_length|].
  intros k. rewrite !nth_upd by (rewrite ?upd_length; lia). reflexivity.
Qed.
Lemma set2_filled deg M b (tm tm' : list C) i a2 a3 : (i <= deg)%nat -> filled2 deg M b i tm -> length tm' = (4 * (deg + 1))%nat ->
  (forall k, nth k tm' (RtoC 0) = if Nat.eqb k (2 * (deg + 1) + i) then a3 else if Nat.eqb k (1 * (deg + 1) + i) then a2 else nth k tm (RtoC 0)) ->
  a3 = (if (i0_of deg M <=? i)%nat then low_entry M (nth (deg - i) b (RtoC 0)) else RtoC 0) -> filled2 deg M b (S i) tm'.
Proof.
  intros Hi [L F] L' N E3. split; [exact L'|]. intros j Hj Hjd. rewrite !N.
  destruct (Nat.eqb_spec (2 * (deg + 1) + j) (1 * (deg + 1) + i)); [lia|].
  destruct (Nat.eqb_spec j i) as [->|Ne].
  - rewrite Nat.eqb_refl. exact E3.
  - destruct (Nat.eqb_spec (2 * (deg + 1) + j) (2 * (deg + 1) + i)); [lia|]. apply F; lia.
Qed.
Lemma b_of_xi_loops deg M (b : list C) kappa (tm : list C) : (1 <= deg)%nat -> (deg <= M)%nat -> length b = M -> length tm = (4 * (deg + 1))%nat ->
  exists tm', (tm <- for_ (i0_of deg M) 0 (fun i tm => tm <- aset tm (1 * (deg + 1) + i) (RtoC 0) ;; aset tm (2 * (deg + 1) + i) (RtoC 0)) tm ;;
  for_ (deg + 1 - i0_of deg M) (i0_of deg M) (fun i tm =>
    u <- aget b (M - 1 + i - deg) ;; tm <- aset tm (1 * (deg + 1) + i) (up_entry kappa M u) ;;
    l <- aget b (deg - i) ;; aset tm (2 * (deg + 1) + i) (low_entry M l)) tm) = Ret tm' /\ filled2 deg M b (deg + 1) tm'.
Proof.
  intros Hd HM Lb Lt. set (i0 := i0_of deg M).
  assert (Hi0 := i0_le deg M Hd). fold i0 in Hi0.
  destruct (for_inv (filled2 deg M b) (fun i (tm : list C) => tm <- aset tm (1 * (deg + 1) + i) (RtoC 0) ;; aset tm (2 * (deg + 1) + i) (RtoC 0)) i0 0 tm) as (t1 & E1 & F1).
  { split; [exact Lt|]. intros j Hj. lia. }
  { intros i st Hi Fi. destruct (set2 deg st i 0 0 (proj1 Fi)) as (st' & Es & Ls & Ns); [lia|]. exists st'. split; [exact Es|].
    apply (set2_filled deg M b st st' i 0 0 ltac:(lia) Fi Ls Ns). fold i0. destruct (Nat.leb_spec i0 i); [lia|reflexivity]. }
  rewrite E1. cbn [bind]. cbn [Nat.add] in F1.
  destruct (for_inv (filled2 deg M b) (fun i (tm : list C) =>
    u <- aget b (M - 1 + i - deg) ;; tm <- aset tm (1 * (deg + 1) + i) (up_entry kappa M u) ;;
    l <- aget b (deg - i) ;; aset tm (2 * (deg + 1) + i) (low_entry M l)) (deg + 1 - i0) i0 t1) as (t2 & E2 & F2); [exact F1| |].
  { intros i st Hi Fi. destruct (i0_idx deg M Hd HM i) as [I1 I2]; [fold i0; lia|lia|].
    destruct (set2 deg st i (up_entry kappa M (nth (M - 1 + i - deg) b (RtoC 0))) (low_entry M (nth (deg - i) b (RtoC 0))) (proj1 Fi)) as (st' & Es & Ls & Ns); [lia|]. exists st'. split.
    - rewrite <- Es. rewrite (aget_nth b (RtoC 0)) by lia. cbn [bind]. destruct (aset st _ _) as [s2|]; [|reflexivity]. cbn [bind].
      rewrite (aget_nth b (RtoC 0)) by lia. reflexivity.
    - apply (set2_filled deg M b st st' i _ _ ltac:(lia) Fi Ls Ns). fold i0. destruct (Nat.leb_spec i0 i); [reflexivity|lia]. }
  exists t2. split; [exact E2|]. replace (i0 + (deg + 1 - i0))%nat with (deg + 1)%nat in F2 by lia. exact F2.
Qed.
(** the lowest deg+1 coefficients of P, highest first, padded by zero *)
Definition top_coeffs (deg : nat) (P : list C) : list C := rev (firstn (deg + 1) (P ++ [RtoC 0])).
Lemma nth_top deg (P : list C) i : (deg <= length P)%nat -> (i <= deg)%nat -> nth i (top_coeffs deg P) (RtoC 0) = nth (deg - i) P (RtoC 0).
Proof.
  intros L Hi. unfold top_coeffs. assert (Lf : length (firstn (deg + 1) (P ++ [RtoC 0])) = (deg + 1)%nat) by (rewrite firstn_length, app_length; cbn; lia).
  rewrite rev_nth by lia. rewrite Lf. replace (deg + 1 - S i)%nat with (deg - i)%nat by lia.
  transitivity (nth (deg - i) (P ++ [RtoC 0]) (RtoC 0)).
  - rewrite <- (firstn_skipn (deg + 1) (P ++ [RtoC 0])) at 2. rewrite app_nth1 by lia. reflexivity.
  - destruct (Nat.lt_ge_cases (deg - i) (length P)); [now rewrite app_nth1 by lia|]. rewrite app_nth2 by lia. rewrite (nth_overflow P) by lia. destruct (deg - i - length P)%nat as [|[|?]]; reflexivity.
Qed.
Lemma length_top deg (P : list C) : (deg <= length P)%nat -> length (top_coeffs deg P) = (deg + 1)%nat.
Proof. intros H. unfold top_coeffs. rewrite rev_length, firstn_length, app_length. cbn. lia. Qed.
Lemma filled2_rd deg M b tm : (1 <= deg)%nat -> (deg <= M)%nat -> length b = M -> filled2 deg M b (deg + 1) tm ->
  rd tm (2 * (deg + 1)) (deg + 1) = Ret (top_coeffs deg (map (low_entry M) b)).
Proof.
  intros Hd HM Lb [L F]. destruct (rd_ok tm (2 * (deg + 1)) (deg + 1) (RtoC 0)) as (v & Ev & Lv & Nv); [lia|]. rewrite Ev. f_equal.
  assert (Lm : (deg <= length (map (low_entry M) b))%nat) by (rewrite map_length; lia).
  apply (nth_ext _ _ (RtoC 0) (RtoC 0)); [rewrite length_top by exact Lm; exact Lv|]. rewrite Lv. intros i Hi. rewrite Nv, F by lia. rewrite nth_top by (try exact Lm; lia).
  unfold i0_of. destruct (Nat.leb_spec deg (M - 1)).
  - destruct (Nat.leb_spec 0 i); [|lia]. now rewrite nth_map_low by lia.
  - destruct (Nat.leb_spec (deg - (M - 1)) i); [now rewrite nth_map_low by lia|]. rewrite nth_overflow by (rewrite map_length; lia). reflexivity.
Qed.

Section Top.
Variables (E : ienv) (s : scheme) (p m : nat) (T : R * R) (XI : option (R * R)) (cs q : list C) (kappa : Z) (o : iopts).
Let D := (2 ^ p)%nat.
Let M := (2 * m)%nat.
Let eps_t := ((snd T - fst T) / INR (D - 1))%R.
Hypothesis HE : well E.
Hypothesis HF : runs_finvscatter E.
Hypothesis Hp : (1 <= p)%nat.
Hypothesis HM : (D <= M)%nat.
Hypothesis HT : (fst T < snd T)%R.
Hypothesis Hk : kappa = 1%Z \/ kappa = (-1)%Z.
Hypothesis Hd : i_disc o = disc_of s.
Hypothesis Lc : length cs = M.
Hypothesis Lq : (D <= length q)%nat.
Hypothesis HX : XI <> None \/ i_cs o = IC_B_OF_TAU.
Let run := fnft_nsev_inverse E M (Some cs) XI 0 None None D (Some q) (Some T) kappa (Some o).
Let HD : (2 <= D)%nat. Proof. unfold D. change 2%nat with (2 ^ 1)%nat at 1. apply Nat.pow_le_mono_r; lia. Qed.
Let Hm : (1 <= m)%nat. Proof. unfold M in HM. lia. Qed.
Let He : (0 < eps_t)%R. Proof. unfold eps_t. apply Rdiv_lt_0_compat; [lra|]. apply lt_0_INR. lia. Qed.
Let St : step (snd T - fst T) D = Ret eps_t.
Proof. unfold step. destruct (Nat.leb_spec D 1); [lia|reflexivity]. Qed.
Lemma csb_accepted : accepted M (Some cs) XI 0 None None D (Some q) (Some T) kappa o.
Proof.
  constructor; try (intros; congruence); try (left; congruence); try (intros; exfalso; lia).
  - intros _. split; [exists m; reflexivity|exact HM].
  - intros _ N. destruct HX as [H|H]; [exact H|contradiction].
  - exists p. now split.
  - exists (fst T), (snd T). split; [now destruct T|exact HT].
  - destruct Hk as [->| ->]; [now left|right; now split].
  - rewrite Hd. destruct s; cbn; auto.
Qed.
Lemma csb_run : run = (x <- invert_contspec E M cs XI 0 None D q T kappa o ;; let '(code, (cs, q)) := x in Ret (code, (Some cs, Some q))).
Proof.
  unfold run. rewrite inverse_accepted; [|intros l Hl; discriminate|exact csb_accepted]. destruct (invert_contspec E M cs XI 0 None D q T kappa o) as [[code [cs' q']]|]; [|reflexivity]. cbn [bind].
  destruct (Z.eqb code SUCCESS) eqn:Ec; cbn [negb Nat.ltb Nat.leb]; [|reflexivity]. apply Z.eqb_eq in Ec. now subst code.
Qed.

(** ** what follows from the first column of the transfer matrix *)
Section Column.
Variables (cs' tm : list C) (f11 f21 : C -> C).
Hypothesis Lt : length tm = (4 * (D + 1))%nat.
Hypothesis N0 : nth D tm (RtoC 0) <> 0.
Hypothesis T11 : agree D (tm11 tm D) f11.
Hypothesis T21 : agree D (tm21 tm D) f21.
Hypothesis Er : invert_contspec E M cs XI 0 None D q T kappa o = (x <- ie_finv E D tm q eps_t kappa (disc_of s) ;; let '(code, q) := x in check code (cs', q) (Ret (SUCCESS, (cs', q)))).
Lemma column_recovers (qv : nat -> C) : exact_scheme s kappa -> (forall n, (n < D)%nat -> in_range s (IZR kappa) eps_t (qv n)) ->
  same_reflection s (IZR kappa) eps_t qv D f11 f21 ->
  exists cs' q', run = Ret (SUCCESS, (Some cs', Some q')) /\ holds_samples D qv q q'.
Proof.
  intros Hs Hr HR. destruct HF as (junkm & junk0 & junk1 & junk2 & Hjm & Hj0 & Hj1 & Hj2 & HFi).
  destruct (nse_finvscatter_recovers junkm junk0 junk1 junk2 Hjm Hj0 Hj1 Hj2 s kappa p eps_t qv tm q Hs Hp He Lq ltac:(fold D; lia)) as (q' & Eq & Sq).
  - exact N0.
  - exact Hr.
  - fold D. apply (same_reflection_cong s (IZR kappa) eps_t qv D f11 f21); [now apply agree_sym|now apply agree_sym|exact HR].
  - exists cs', q'. split; [|exact Sq]. fold D in Eq. rewrite csb_run, Er. rewrite HFi, Eq. reflexivity.
Qed.
Lemma column_focusing : kappa = 1%Z -> exists cs' q', run = Ret (SUCCESS, (Some cs', Some q')) /\
  (forall n, (n < D)%nat -> in_range s 1 eps_t (nth n q' (RtoC 0))) /\
  same_reflection s 1 eps_t (fun n => nth n q' (RtoC 0)) D f11 f21 /\
  length q' = length q /\ (forall n, (D <= n)%nat -> nth n q' (RtoC 0) = nth n q (RtoC 0)).
Proof.
  intros Hkap. rewrite Hkap in Er. destruct HF as (junkm & junk0 & junk1 & junk2 & Hjm & Hj0 & Hj1 & Hj2 & HFi).
  destruct (nse_finvscatter_focusing junkm junk0 junk1 junk2 Hjm Hj0 Hj1 Hj2 s p eps_t tm q Hp He Lq ltac:(fold D; lia) N0) as (qv & q' & Hr & HR & Eq & Sq).
  fold D in Hr, HR, Eq, Sq. exists cs', q'.
  assert (Nq : forall n, (n < D)%nat -> nth n q' (RtoC 0) = qv n). { intros n Hn. rewrite (proj2 Sq). destruct (Nat.ltb_spec n D); [reflexivity|lia]. }
  split. { rewrite csb_run, Hkap, Er. rewrite HFi, Eq. reflexivity. }
  split; [intros n Hn; rewrite Nq by exact Hn; now apply Hr|]. split; [|split; [exact (proj1 Sq)|]].
  - destruct (same_reflection_cong s 1 eps_t qv D (tm11 tm D) (tm21 tm D) f11 f21 T11 T21 HR) as (ys & B). exists ys. intros z. rewrite <- B.
    rewrite !(transfer_ext' s 1 eps_t (fun n => nth n q' (RtoC 0)) qv D z Nq). reflexivity.
  - intros n Hn. rewrite (proj2 Sq). destruct (Nat.ltb_spec n D); [lia|reflexivity].
Qed.
End Column.

(** ** b(xi) *)
Section Bxi.
Variables (XI0 X : R * R).
Hypothesis EX : XI = Some X.
Hypothesis HXI : fnft_nsev_inverse_XI D (Some T) M (Some XI0) (disc_of s) = Ret (SUCCESS, Some X).
Hypothesis Ho : i_cs o = IC_B_OF_XI.
(** the given values of b times e^(2 i xi T_1) *)
Let target (n : nat) : C := nth n cs (RtoC 0) * Cexp (2 * Ci * RtoC (grid_point X M n) * RtoC (snd T)).
Lemma b_phase : cs_phase eps_t D T o = POk (Some (-2 * snd T)%R).
Proof.
  unfold cs_phase. rewrite Ho, Hd, phase_b. f_equal. f_equal. unfold eps_t. assert (INR (D - 1) <> 0%R) by (apply not_0_INR; lia).
  replace (INR D) with (INR (D - 1) + 1)%R; [field; assumption|]. rewrite minus_INR by lia. cbn [INR]. ring.
Qed.
Lemma bxi_tm : exists P, interpolates P M (node D m T X) target /\
  forall a, ie_specfact E 1 D (top_coeffs D P) (i_os o) kappa = Ret (SUCCESS, a) -> length a = (D + 1)%nat ->
  exists cs' tm, length tm = (4 * (D + 1))%nat /\ nth D tm (RtoC 0) = nth D a (RtoC 0) /\ agree D (tm11 tm D) (polyval (rev a)) /\ agree D (tm21 tm D) (polyval P) /\
  invert_contspec E M cs XI 0 None D q T kappa o = (x <- ie_finv E D tm q eps_t kappa (disc_of s) ;; let '(code, q) := x in check code (cs', q) (Ret (SUCCESS, (cs', q)))).
Proof.
  destruct HE as (HA & HJ & HP).
  destruct (b_coefficients_ok E m D T X o cs (- 2 * snd T) HA HJ HP Hm HD Lc (or_intror Ho) b_phase 30) as (cs' & b & Eb & Lc' & Lb & _ & Nb).
  fold M in Eb, Lc', Lb, Nb.
  destruct (b_of_xi_loops D M b kappa (ie_junk E 0 (4 * (D + 1)))) as (tm & Et & F); [lia|exact HM|exact Lb|apply HJ|].
  assert (Ltm := proj1 F). assert (Erd := filled2_rd D M b tm ltac:(lia) HM Lb F).
  exists (map (low_entry M) b). split.
  { apply (interpolates_unity s D m T XI0 X HD Hm HT HXI). fold M. split; [now rewrite map_length|]. intros k Hk'. rewrite Nb by exact Hk'. unfold unphased, target. fold M. f_equal. f_equal.
    rewrite RtoC_mult. ring. }
  intros a Ea La.
  destruct (wr_ok tm 0 a (RtoC 0)) as (t1 & E1 & L1 & N1); [lia|].
  set (inv22 := fun (_ : nat) (t : list C) => length t = (4 * (D + 1))%nat /\ forall k, (k < 3 * (D + 1))%nat -> nth k t (RtoC 0) = nth k t1 (RtoC 0)).
  destruct (for_inv inv22 (fun i (tm : list C) => x <- aget tm (D - i) ;; aset tm (3 * (D + 1) + i) x) (D + 1) 0 t1) as (t2 & E2 & L2 & N2).
  { split; [lia|]. reflexivity. }
  { intros i st Hi [Ls Ns]. rewrite (aget_nth st (RtoC 0)) by lia. cbn [bind]. rewrite aset_upd by lia. eexists. split; [reflexivity|]. split; [now rewrite upd_length|].
    intros k Hk'. rewrite nth_upd by lia. destruct (Nat.eqb_spec k (3 * (D + 1) + i)); [lia|]. now apply Ns. }
  assert (G : forall k, (k < 3 * (D + 1))%nat -> nth k t2 (RtoC 0) = if (k <? D + 1)%nat then nth k a (RtoC 0) else nth k tm (RtoC 0)).
  { intros k Hk'. rewrite N2, N1 by exact Hk'. rewrite La. destruct (Nat.leb_spec 0 k); [|lia]. cbn [andb]. rewrite Nat.sub_0_r. reflexivity. }
  exists cs', t2. split; [exact L2|]. split. { rewrite G by lia. destruct (Nat.ltb_spec D (D + 1)); [reflexivity|lia]. }
  split; [|split].
  - apply (agree_ext D (polyval (rev a)) _ (polyval (rev a)) _); [|reflexivity|apply agree_refl]. intros z. rewrite tm11_polyval by lia. f_equal.
    apply (nth_ext _ _ (RtoC 0) (RtoC 0)); [unfold col11; rewrite map_length, seq_length, rev_length; lia|]. rewrite rev_length. intros l Hl. unfold col11. rewrite nth_col by lia.
    rewrite rev_nth by exact Hl. rewrite La. rewrite G by lia. destruct (Nat.ltb_spec (D - l) (D + 1)); [|lia]. f_equal. lia.
  - apply (agree_ext D (polyval (col21 t2 D)) _ (polyval (map (low_entry M) b)) _); [intros z; symmetry; apply tm21_polyval; lia|reflexivity|]. apply agree_polyval. intros l Hl.
    unfold col21. rewrite nth_col by lia. rewrite G by lia. destruct (Nat.ltb_spec (2 * (D + 1) + (D - l)) (D + 1)); [lia|]. rewrite (proj2 F) by lia. replace (D - (D - l))%nat with l by lia.
    rewrite nth_map_low by lia. unfold i0_of. destruct (Nat.leb_spec D (M - 1)); [destruct (Nat.leb_spec 0 (D - l)); [reflexivity|lia]|].
    destruct (Nat.leb_spec (D - (M - 1)) (D - l)); [reflexivity|lia].
  - unfold invert_contspec. rewrite Hd, disc_of_degree, Nat.mul_1_r. destruct (Nat.eqb_spec D 0); [lia|]. rewrite HA. cbn [negb]. rewrite EX. cbn [deref bind]. rewrite Ho. cbn [bind].
    assert (R : tm_from_b_of_xi E M cs X D T D (ie_junk E 0 (4 * (D + 1))) kappa o = Ret (SUCCESS, (cs', t2))).
    { unfold tm_from_b_of_xi. rewrite Eb. cbn [bind]. change (Z.eqb SUCCESS SUCCESS) with true. cbn [negb]. cbv zeta. revert Et.
      destruct (for_ (i0_of D M) 0 _ _) as [u1|]; cbn [bind]; [|discriminate]. intros ->. cbn [bind]. rewrite Erd. cbn [bind]. rewrite Ea. cbn [bind]. unfold check. change (Z.eqb SUCCESS SUCCESS) with true. cbv iota.
      rewrite E1. cbn [bind]. rewrite E2. reflexivity. }
    rewrite R. cbn [bind]. unfold check at 1. change (Z.eqb SUCCESS SUCCESS) with true. cbv iota. cbn [bind]. change (Z.eqb SUCCESS SUCCESS) with true. cbn [negb]. rewrite St. reflexivity.
Qed.
(** with the factor a that poly_specfact returns, the output has the reflection coefficient b/a *)
Theorem nsev_inverse_b_focusing : kappa = 1%Z -> exists P,
  interpolates P M (fun n => Cexp (2 * Ci * RtoC (grid_point X M n) * RtoC eps_t)) target /\
  forall a, ie_specfact E 1 D (top_coeffs D P) (i_os o) 1 = Ret (SUCCESS, a) -> length a = (D + 1)%nat -> nth D a (RtoC 0) <> 0 ->
  exists cs' q', run = Ret (SUCCESS, (Some cs', Some q')) /\
  (forall n, (n < D)%nat -> in_range s 1 eps_t (nth n q' (RtoC 0))) /\
  same_reflection s 1 eps_t (fun n => nth n q' (RtoC 0)) D (polyval (rev a)) (polyval P) /\
  length q' = length q /\ (forall n, (D <= n)%nat -> nth n q' (RtoC 0) = nth n q (RtoC 0)).
Proof.
  intros Hkap. destruct bxi_tm as (P & HP & G). exists P. split; [exact HP|]. intros a Ea La Na. rewrite Hkap in G. destruct (G a Ea La) as (cs' & tm & Lt & N & T11 & T21 & Er).
  rewrite <- Hkap in Er. apply (column_focusing cs' tm (polyval (rev a)) (polyval P)); try assumption. now rewrite N.
Qed.
Theorem nsev_inverse_b_recovers : exact_scheme s kappa -> exists P,
  interpolates P M (fun n => Cexp (2 * Ci * RtoC (grid_point X M n) * RtoC eps_t)) target /\
  forall a, ie_specfact E 1 D (top_coeffs D P) (i_os o) kappa = Ret (SUCCESS, a) -> length a = (D + 1)%nat -> nth D a (RtoC 0) <> 0 ->
  forall qv : nat -> C, (forall n, (n < D)%nat -> in_range s (IZR kappa) eps_t (qv n)) -> same_reflection s (IZR kappa) eps_t qv D (polyval (rev a)) (polyval P) ->
  exists cs' q', run = Ret (SUCCESS, (Some cs', Some q')) /\ holds_samples D qv q q'.
Proof.
  intros Hs. destruct bxi_tm as (P & HP & G). exists P. split; [exact HP|]. intros a Ea La Na qv Hr HR. destruct (G a Ea La) as (cs' & tm & Lt & N & T11 & T21 & Er).
  apply (column_recovers cs' tm (polyval (rev a)) (polyval P)); try assumption. now rewrite N.
Qed.
End Bxi.

(** ** B(tau) *)
Section Btau.
Hypothesis Ho : i_cs o = IC_B_OF_TAU.
Hypothesis Hmeth : i_meth o = IM_DEFAULT.
Hypothesis HMD : M = D.
Hypothesis Hsym : fst T = (- snd T)%R.
(** the given values of B times the step 2 eps_t, half of it at the ends *)
Let tau : list C := map (fun i => RtoC (trapezoid_weight D eps_t i) * nth i cs (RtoC 0)) (seq 0 D).
Lemma length_tau : length tau = D. Proof. unfold tau. now rewrite map_length, seq_length. Qed.
Lemma nth_tau i : (i < D)%nat -> nth i tau (RtoC 0) = RtoC (trapezoid_weight D eps_t i) * nth i cs (RtoC 0).
Proof. intros H. unfold tau. now rewrite nth_col by exact H. Qed.
(** the polynomial with these coefficients is the Fourier integral of B, up to the phase e^(2 i xi T_1) *)
Theorem tau_trapezoid xi : polyval (rev tau) (Cexp (2 * Ci * RtoC xi * RtoC eps_t)) =
  Cexp (2 * Ci * RtoC xi * RtoC (snd T)) * fourier_trapezoid D eps_t (fun n => fst T + INR n * eps_t)%R (fun n => nth n cs (RtoC 0)) xi.
Proof.
  unfold tau, fourier_trapezoid. rewrite polyval_rev_seq, fold_scal. f_equal. apply map_ext_in. intros k Hk'. apply in_seq in Hk'. rewrite cpow_exp.
  transitivity (RtoC (trapezoid_weight D eps_t k) * nth k cs (RtoC 0) * (Cexp (2 * Ci * RtoC xi * RtoC (snd T)) * Cexp (- Ci * RtoC xi * RtoC (2 * (fst T + INR k * eps_t))))); [|ring]. f_equal.
  rewrite <- Cexp_plus. f_equal. cbn [Nat.add]. rewrite !minus_INR by lia. assert (N : INR (D - 1) <> 0%R) by (apply not_0_INR; lia).
  assert (Et : ((INR D - INR 1) * eps_t = snd T - fst T)%R) by (rewrite <- minus_INR by lia; unfold eps_t; field; exact N).
  assert (Q : (snd T = fst T + (INR D - INR 1) * eps_t)%R) by lra. rewrite Q. rewrite !RtoC_mult, !RtoC_plus, !RtoC_minus, !RtoC_mult, !RtoC_minus. ring.
Qed.
Lemma tau_tm a : ie_specfact E 2 (D - 1) tau (i_os o) kappa = Ret (SUCCESS, a) -> length a = D ->
  exists tm, length tm = (4 * (D + 1))%nat /\ nth D tm (RtoC 0) = nth (D - 1) a (RtoC 0) /\ agree D (tm11 tm D) (polyval (rev a)) /\ agree D (tm21 tm D) (polyval (rev tau)) /\
  invert_contspec E M cs XI 0 None D q T kappa o = (x <- ie_finv E D tm q eps_t kappa (disc_of s) ;; let '(code, q) := x in check code (cs, q) (Ret (SUCCESS, (cs, q)))).
Proof.
  intros Ea La. destruct HE as (HA & HJ & HP). set (t0 := ie_junk E 0 (4 * (D + 1))). assert (L0 : length t0 = (4 * (D + 1))%nat) by apply HJ.
  assert (LcD : length cs = D) by (rewrite Lc; exact HMD).
  set (ob := (2 * (D + 1) + 1)%nat).
  (* B *)
  destruct (for_inv (fun i (t : list C) => length t = (4 * (D + 1))%nat /\ forall k, (k < i)%nat -> nth (ob + k) t (RtoC 0) = 2 * RtoC eps_t * nth k cs (RtoC 0))
    (fun i (tm : list C) => c <- aget cs i ;; z <- cdivr (2 * RtoC eps_t * c) (INR 1) ;; aset tm (ob + i) z) D 0 t0) as (t1 & E1 & L1 & N1).
  { split; [exact L0|]. intros k Hk'. lia. }
  { intros i st Hi [Ls Ns]. rewrite (aget_nth cs (RtoC 0)) by lia. cbn [bind]. unfold cdivr. change (INR 1) with 1%R. destruct (Req_EM_T 1 0) as [F|_]; [lra|]. cbn [bind].
    rewrite aset_upd by (unfold ob; lia). eexists. split; [reflexivity|]. split; [now rewrite upd_length|]. intros k Hk'. rewrite nth_upd by (unfold ob; lia).
    destruct (Nat.eqb_spec (ob + k) (ob + i)) as [Ek|Nk]; [|apply Ns; lia]. replace k with i by lia. field. }
  cbn [Nat.add] in N1.
  set (t2 := upd t1 (ob + 0) (nth (ob + 0) t1 (RtoC 0) * RtoC (1 / 2))). set (t3 := upd t2 (ob + (D - 1)) (nth (ob + (D - 1)) t2 (RtoC 0) * RtoC (1 / 2))).
  assert (L2 : length t2 = (4 * (D + 1))%nat) by (unfold t2; now rewrite upd_length). assert (L3 : length t3 = (4 * (D + 1))%nat) by (unfold t3; now rewrite upd_length).
  assert (N3 : forall k, (k < D)%nat -> nth (ob + k) t3 (RtoC 0) = nth k tau (RtoC 0)).
  { intros k Hk'. rewrite nth_tau by exact Hk'. unfold trapezoid_weight. unfold t3. rewrite nth_upd by (unfold ob; lia). unfold t2. rewrite !nth_upd by (unfold ob; lia).
    destruct (Nat.eqb_spec (ob + (D - 1)) (ob + 0)); [lia|]. destruct (Nat.eqb_spec (ob + k) (ob + (D - 1))), (Nat.eqb_spec (ob + k) (ob + 0)), (Nat.eqb_spec k 0), (Nat.eqb_spec k (D - 1)); try lia; cbn [orb].
    - replace (D - 1)%nat with k by lia. rewrite N1 by lia. rewrite RtoC_div by lra. field.
    - replace 0%nat with k by lia. rewrite N1 by lia. rewrite RtoC_div by lra. field.
    - rewrite N1 by lia. rewrite RtoC_mult. reflexivity. }
  assert (Erd : rd t3 ob D = Ret tau).
  { destruct (rd_ok t3 ob D (RtoC 0)) as (v & Ev & Lv & Nv); [unfold ob; lia|]. rewrite Ev. f_equal. apply (nth_ext _ _ (RtoC 0) (RtoC 0)); [rewrite length_tau; exact Lv|]. rewrite Lv. intros i Hi. rewrite Nv by exact Hi. now apply N3. }
  destruct (wr_ok t3 1 a (RtoC 0)) as (t4 & E4 & L4 & N4); [lia|]. rewrite L3 in L4. rewrite La in N4.
  set (keep := fun (_ : nat) (t : list C) => length t = (4 * (D + 1))%nat /\ forall k, (k < D + 1)%nat \/ (2 * (D + 1) <= k < 3 * (D + 1))%nat -> nth k t (RtoC 0) = nth k t4 (RtoC 0)).
  destruct (for_inv keep (fun i (tm : list C) => y <- aget tm (ob + (D - 1 - i)) ;; tm <- aset tm (1 * (D + 1) + i) (- RtoC (IZR kappa) * Cconj y) ;;
    y <- aget tm (1 + (D - 1 - i)) ;; aset tm (3 * (D + 1) + i) y) D 0 t4) as (t5 & E5 & L5 & N5).
  { split; [exact L4|]. reflexivity. }
  { intros i st Hi [Ls Ns]. rewrite (aget_nth st (RtoC 0)) by (unfold ob; lia). cbn [bind]. rewrite aset_upd by lia. cbn [bind]. rewrite (aget_nth _ (RtoC 0)) by (rewrite upd_length; lia). cbn [bind].
    rewrite aset_upd by (rewrite upd_length; lia). eexists. split; [reflexivity|]. split; [now rewrite !upd_length|]. intros k Hk'. rewrite nth_upd by (rewrite upd_length; lia).
    destruct (Nat.eqb_spec k (3 * (D + 1) + i)); [lia|]. rewrite nth_upd by lia. destruct (Nat.eqb_spec k (1 * (D + 1) + i)); [lia|]. apply Ns. exact Hk'. }
  set (tf := upd (upd (upd (upd t5 0 (RtoC 0)) (2 * (D + 1) - 1) (RtoC 0)) (2 * (D + 1)) (RtoC 0)) (4 * (D + 1) - 1) (RtoC 0)).
  assert (Lf : length tf = (4 * (D + 1))%nat) by (unfold tf; now rewrite !upd_length).
  assert (Nf : forall k, nth k tf (RtoC 0) = if Nat.eqb k (4 * (D + 1) - 1) then 0 else if Nat.eqb k (2 * (D + 1)) then 0 else if Nat.eqb k (2 * (D + 1) - 1) then 0 else if Nat.eqb k 0 then 0 else nth k t5 (RtoC 0)).
  { intros k. unfold tf. rewrite !nth_upd by (rewrite ?upd_length; lia). reflexivity. }
  assert (F11 : forall i, (i < D)%nat -> nth (1 + i) tf (RtoC 0) = nth i a (RtoC 0)).
  { intros i Hi. rewrite Nf. destruct (Nat.eqb_spec (1 + i) (4 * (D + 1) - 1)); [lia|]. destruct (Nat.eqb_spec (1 + i) (2 * (D + 1))); [lia|]. destruct (Nat.eqb_spec (1 + i) (2 * (D + 1) - 1)); [lia|].
    destruct (Nat.eqb_spec (1 + i) 0); [lia|]. rewrite N5 by lia. rewrite N4. destruct (Nat.leb_spec 1 (1 + i)); [|lia]. destruct (Nat.ltb_spec (1 + i) (1 + D)); [|lia]. cbn [andb]. f_equal. lia. }
  assert (F21 : forall i, (i < D)%nat -> nth (ob + i) tf (RtoC 0) = nth i tau (RtoC 0)).
  { intros i Hi. rewrite Nf. unfold ob. destruct (Nat.eqb_spec (2 * (D + 1) + 1 + i) (4 * (D + 1) - 1)); [lia|]. destruct (Nat.eqb_spec (2 * (D + 1) + 1 + i) (2 * (D + 1))); [lia|]. destruct (Nat.eqb_spec (2 * (D + 1) + 1 + i) (2 * (D + 1) - 1)); [lia|].
    destruct (Nat.eqb_spec (2 * (D + 1) + 1 + i) 0); [lia|]. rewrite N5 by lia. rewrite N4. destruct (Nat.ltb_spec (2 * (D + 1) + 1 + i) (1 + D)); [lia|]. rewrite Bool.andb_false_r. now apply N3. }
  exists tf. split; [exact Lf|]. split. { replace D with (1 + (D - 1))%nat at 1 by lia. apply F11. lia. }
  split; [|split].
  - apply (agree_ext D (polyval (col11 tf D)) _ (polyval (rev a)) _); [intros z; symmetry; apply tm11_polyval; lia|reflexivity|]. apply agree_polyval. intros l Hl.
    unfold col11. rewrite nth_col by lia. rewrite rev_nth by lia. rewrite La. replace (D - l)%nat with (1 + (D - S l))%nat by lia. apply F11. lia.
  - apply (agree_ext D (polyval (col21 tf D)) _ (polyval (rev tau)) _); [intros z; symmetry; apply tm21_polyval; lia|reflexivity|]. apply agree_polyval. intros l Hl.
    unfold col21. rewrite nth_col by lia. rewrite rev_nth by (rewrite length_tau; lia). rewrite length_tau. replace (2 * (D + 1) + (D - l))%nat with (ob + (D - S l))%nat by (unfold ob; lia). apply F21. lia.
  - unfold invert_contspec. rewrite Hd, disc_of_degree, Nat.mul_1_r. destruct (Nat.eqb_spec D 0); [lia|]. rewrite HA. cbn [negb]. rewrite Ho.
    assert (R : tm_from_B_of_tau E M cs D T D t0 kappa o = Ret (SUCCESS, (cs, tf))).
    { unfold tm_from_B_of_tau. rewrite HMD, Nat.eqb_refl. cbn [negb]. destruct (Req_EM_T (fst T) (- snd T)); [|contradiction]. rewrite Hmeth, St. cbn [bind]. rewrite Hd, disc_of_degree. cbv zeta. fold ob. rewrite E1. cbn [bind].
      rewrite (aget_nth t1 (RtoC 0)) by (unfold ob; lia). cbn [bind]. rewrite aset_upd by (unfold ob; lia). cbn [bind]. fold t2. rewrite (aget_nth t2 (RtoC 0)) by (unfold ob; lia). cbn [bind]. rewrite aset_upd by (unfold ob; lia). cbn [bind]. fold t3.
      rewrite Erd. cbn [bind]. rewrite Ea. cbn [bind]. unfold check. change (Z.eqb SUCCESS SUCCESS) with true. cbv iota. rewrite E4. cbn [bind]. rewrite E5. cbn [bind].
      rewrite aset_upd by lia. cbn [bind]. rewrite aset_upd by (rewrite ?upd_length; lia). cbn [bind]. rewrite aset_upd by (rewrite ?upd_length; lia). cbn [bind]. rewrite aset_upd by (rewrite ?upd_length; lia). reflexivity. }
    fold t0. rewrite R. cbn [bind]. unfold check at 1. change (Z.eqb SUCCESS SUCCESS) with true. cbv iota. cbn [bind]. change (Z.eqb SUCCESS SUCCESS) with true. cbn [negb]. rewrite St. reflexivity.
Qed.
Theorem nsev_inverse_tau_focusing a : kappa = 1%Z ->
  ie_specfact E 2 (D - 1) tau (i_os o) 1 = Ret (SUCCESS, a) -> length a = D -> nth (D - 1) a (RtoC 0) <> 0 ->
  exists cs' q', run = Ret (SUCCESS, (Some cs', Some q')) /\
  (forall n, (n < D)%nat -> in_range s 1 eps_t (nth n q' (RtoC 0))) /\
  same_reflection s 1 eps_t (fun n => nth n q' (RtoC 0)) D (polyval (rev a)) (polyval (rev tau)) /\
  length q' = length q /\ (forall n, (D <= n)%nat -> nth n q' (RtoC 0) = nth n q (RtoC 0)).
Proof.
  intros Hkap Ea La Na. rewrite <- Hkap in Ea. destruct (tau_tm a Ea La) as (tm & Lt & N & T11 & T21 & Er).
  apply (column_focusing cs tm (polyval (rev a)) (polyval (rev tau))); try assumption. now rewrite N.
Qed.
Theorem nsev_inverse_tau_recovers a (qv : nat -> C) : exact_scheme s kappa ->
  ie_specfact E 2 (D - 1) tau (i_os o) kappa = Ret (SUCCESS, a) -> length a = D -> nth (D - 1) a (RtoC 0) <> 0 ->
  (forall n, (n < D)%nat -> in_range s (IZR kappa) eps_t (qv n)) -> same_reflection s (IZR kappa) eps_t qv D (polyval (rev a)) (polyval (rev tau)) ->
  exists cs' q', run = Ret (SUCCESS, (Some cs', Some q')) /\ holds_samples D qv q q'.
Proof.
  intros Hs Ea La Na Hr HR. destruct (tau_tm a Ea La) as (tm & Lt & N & T11 & T21 & Er).
  apply (column_recovers cs tm (polyval (rev a)) (polyval (rev tau))); try assumption. now rewrite N.
Qed.
End Btau.
End Top.
