(** * Correctness of the KissFFT model: butterflies, recursion *)
From Coq Require Import Reals Lra.
From Coquelicot Require Import Coquelicot.
From Verif Require Import Base Fields Dft KissModel KissSizeProof.

Local Notation CF := Fields.CF.

(** ** the roots of unity *)
Definition cis (t : R) : C := (cos t, sin t).

Lemma cis_add a b : cis (a + b) = Cmult (cis a) (cis b).
Proof. unfold cis, Cmult; simpl. rewrite cos_plus, sin_plus. f_equal; ring. Qed.

Lemma cis_pow t k : fpow (K := CF) (cis t) k = cis (INR k * t).
Proof.
  induction k as [|k IH].
  - cbn [fpow]. unfold cis. simpl INR. rewrite Rmult_0_l, cos_0, sin_0. reflexivity.
  - cbn [fpow]. rewrite IH. change (@fmul CF) with Cmult. rewrite <- cis_add. f_equal.
    rewrite S_INR. ring.
Qed.

Lemma cis_conj t : Cconj (cis t) = cis (- t).
Proof. unfold cis, Cconj; simpl. now rewrite cos_neg, sin_neg. Qed.

(** sign of the exponent: -1 for the forward, +1 for the inverse transform *)
Definition dsgn (inv : bool) : R := if inv then 1%R else (-1)%R.
Definition wroot (inv : bool) (n : nat) : C := cis (dsgn inv * (2 * PI / INR n)).

Lemma wroot_pow inv n i : n <> 0%nat ->
  fpow (K := CF) (wroot inv n) i
  = cis (let ph := (-2 * PI * INR i / INR n)%R in if inv then (ph * -1)%R else ph).
Proof.
  intros Hn. unfold wroot. rewrite cis_pow. f_equal.
  assert (INR n <> 0%R) by (apply not_0_INR; exact Hn).
  destruct inv; simpl; field; assumption.
Qed.

Lemma twiddles_nth inv n i : (i < n)%nat ->
  aget (twiddles inv n) i = Ret (fpow (K := CF) (wroot inv n) i).
Proof.
  intros Hi. unfold twiddles. rewrite (aget_nth _ (RtoC 0)) by (now rewrite tabulate_length).
  rewrite nth_tabulate by exact Hi. f_equal. rewrite wroot_pow by lia. reflexivity.
Qed.

Lemma cis_2PI_int (k : nat) : cis (INR k * (2 * PI)) = RtoC 1.
Proof.
  unfold cis. replace (INR k * (2 * PI))%R with (0 + 2 * INR k * PI)%R by ring.
  rewrite cos_period, sin_period, cos_0, sin_0. reflexivity.
Qed.

Lemma wroot_order inv n : n <> 0%nat -> fpow (K := CF) (wroot inv n) n = RtoC 1.
Proof.
  intros Hn. unfold wroot. rewrite cis_pow.
  assert (INR n <> 0%R) by (apply not_0_INR; exact Hn).
  replace (INR n * (dsgn inv * (2 * PI / INR n)))%R with (dsgn inv * (INR 1 * (2 * PI)))%R
    by (simpl INR; field; assumption).
  destruct inv; unfold dsgn.
  - rewrite Rmult_1_l. apply cis_2PI_int.
  - replace (-1 * (INR 1 * (2 * PI)))%R with (- (INR 1 * (2 * PI)))%R by ring.
    rewrite <- cis_conj, cis_2PI_int. unfold Cconj; simpl. unfold RtoC. f_equal. lra.
Qed.

Lemma wroot_sub inv p k : p <> 0%nat -> k <> 0%nat ->
  fpow (K := CF) (wroot inv (k * p)) k = wroot inv p.
Proof.
  intros Hp Hk. unfold wroot. rewrite cis_pow. f_equal. rewrite mult_INR.
  field. split; apply not_0_INR; assumption.
Qed.

(** exact order *)
Lemma cis_one_range t : (0 < t < 2 * PI)%R -> cis t <> RtoC 1.
Proof.
  intros Ht E. unfold cis, RtoC in E. injection E as Hc Hs.
  assert (Hh : (0 < t / 2 < PI)%R) by lra.
  assert (Hsin : (0 < sin (t / 2))%R) by (apply sin_gt_0; lra).
  assert (Hc2 : (cos t = 1 - 2 * sin (t/2) * sin (t/2))%R).
  { replace t with (2 * (t / 2))%R at 1 by field. rewrite cos_2a_sin. ring. }
  nra.
Qed.

Lemma fofnat_C n : fofnat (K := CF) n = RtoC (INR n).
Proof.
  induction n as [|n IH]; [reflexivity|].
  cbn [fofnat]. rewrite IH, S_INR. cf_norm. now rewrite RtoC_plus.
Qed.

Lemma wroot_proot inv n : n <> 0%nat -> proot (K := CF) (wroot inv n) n.
Proof.
  intros Hn.
  assert (HnR : (0 < INR n)%R) by (apply lt_0_INR; lia).
  split; [lia|]. split; [now apply wroot_order|]. split.
  - intros k Hk E. unfold wroot in E. rewrite cis_pow in E.
    assert (HkR : (0 < INR k)%R) by (apply lt_0_INR; lia).
    assert (Hkn : (INR k < INR n)%R) by (apply lt_INR; lia).
    assert (Hr : (0 < INR k * (2 * PI / INR n) < 2 * PI)%R).
    { pose proof PI_RGT_0. assert (0 < 2 * PI / INR n)%R by (apply Rdiv_lt_0_compat; lra).
      split; [nra|]. apply Rlt_le_trans with (INR n * (2 * PI / INR n))%R; [nra|].
      right. field. lra. }
    destruct inv; unfold dsgn in E.
    + apply (cis_one_range _ Hr). etransitivity; [|exact E]. f_equal. ring.
    + apply (cis_one_range _ Hr).
      replace (INR k * (-1 * (2 * PI / INR n)))%R with (- (INR k * (2 * PI / INR n)))%R in E by ring.
      rewrite <- cis_conj in E. apply (f_equal Cconj) in E. 
      change (Cconj (RtoC 1)) with (RtoC 1, - 0)%R in E || idtac.
      etransitivity; [|etransitivity; [exact E|]].
      * unfold Cconj; simpl. unfold cis. now rewrite Ropp_involutive.
      * unfold Cconj, RtoC; simpl. f_equal. ring.
  - rewrite fofnat_C. intros E. injection E as E. lra.
Qed.

Lemma wroot_conj inv n : wroot (negb inv) n = Cconj (wroot inv n).
Proof. unfold wroot. rewrite cis_conj. f_equal. destruct inv; simpl; ring. Qed.

Lemma cis_mul_conj t : Cmult (cis t) (cis (-t)) = RtoC 1.
Proof. rewrite <- cis_add. replace (t + - t)%R with 0%R by ring. unfold cis. now rewrite cos_0, sin_0. Qed.

Lemma wroot_inv inv n : wroot (negb inv) n = Cinv (wroot inv n).
Proof.
  rewrite wroot_conj. unfold wroot. rewrite cis_conj.
  set (t := (dsgn inv * (2 * PI / INR n))%R).
  pose proof (cis_mul_conj t) as E.
  assert (Hn : cis t <> RtoC 0).
  { intros H. rewrite H, Cmult_0_l in E. injection E as E. lra. }
  apply (fmul_cancel_l (K := CF) (cis t)); [exact Hn|].
  change (@fmul CF) with Cmult. rewrite E. symmetry. now apply Cinv_r.
Qed.

(** ** Butterflies *)
Section Bfly.
Variables (inv : bool) (N fstride p m : nat).
Hypothesis Hp : p <> 0%nat.
Hypothesis Hm : m <> 0%nat.
Hypothesis HN : N = (fstride * (p * m))%nat.
Hypothesis Hf : fstride <> 0%nat.
Let w := wroot inv N.
Let W := fpow (K := CF) w fstride.
Let tw := twiddles inv N.

Definition bfly_ok (body : nat -> list C -> out (list C)) : Prop :=
  forall u F, (u < m)%nat -> length F = (p * m)%nat ->
  exists F', body u F = Ret F' /\ length F' = (p * m)%nat /\
    forall i, (i < p * m)%nat ->
      nth i F' (RtoC 0) = if (i mod m =? u)%nat
        then fsum (K := CF) p (fun j => Cmult (nth (u + j * m) F (RtoC 0)) (fpow (K := CF) W (j * i)))
        else nth i F (RtoC 0).

Lemma bfly_loop_spec body : bfly_ok body -> forall fuel u F0 F,
  (u + fuel = m)%nat -> length F = (p * m)%nat ->
  (forall i, (i < p * m)%nat -> nth i F (RtoC 0) = if (i mod m <? u)%nat
        then fsum (K := CF) p (fun j => Cmult (nth (i mod m + j * m) F0 (RtoC 0)) (fpow (K := CF) W (j * i)))
        else nth i F0 (RtoC 0)) ->
  exists F', bfly_loop body fuel u F = Ret F' /\ length F' = (p * m)%nat /\
    forall i, (i < p * m)%nat -> nth i F' (RtoC 0) =
      fsum (K := CF) p (fun j => Cmult (nth (i mod m + j * m) F0 (RtoC 0)) (fpow (K := CF) W (j * i))).
Proof.
  intros Hbody. induction fuel as [|fuel IH]; intros u F0 F Hu HL HF.
  - exists F. split; [reflexivity|]. split; [exact HL|]. intros i Hi. rewrite (HF i Hi).
    pose proof (Nat.mod_upper_bound i m Hm).
    destruct (Nat.ltb_spec (i mod m) u); [reflexivity|lia].
  - cbn [bfly_loop]. destruct (Hbody u F ltac:(lia) HL) as (F1 & E1 & L1 & H1).
    rewrite E1. cbn [bind]. apply (IH (S u) F0 F1); [lia|exact L1|].
    intros i Hi. rewrite (H1 i Hi).
    destruct (Nat.eqb_spec (i mod m) u) as [Eu|Nu].
    + destruct (Nat.ltb_spec (i mod m) (S u)); [|lia].
      apply (fsum_ext (K := CF)). intros j Hj. rewrite Eu. f_equal.
      assert (Hj2 : (u + j * m < p * m)%nat) by nia.
      rewrite (HF _ Hj2). rewrite Nat.mod_add by exact Hm. rewrite Nat.mod_small by lia.
      destruct (Nat.ltb_spec u u); [lia|reflexivity].
    + rewrite (HF i Hi). destruct (Nat.ltb_spec (i mod m) u), (Nat.ltb_spec (i mod m) (S u)); try reflexivity; lia.
Qed.

Lemma tw_get k : (k < N)%nat -> aget tw k = Ret (fpow (K := CF) w k).
Proof. apply twiddles_nth. Qed.

Lemma tw_get_u u j : (u < m)%nat -> (j < p)%nat ->
  (u * (fstride * j) < N)%nat /\ fpow (K := CF) w (u * (fstride * j)) = fpow (K := CF) (fpow (K := CF) W u) j.
Proof.
  intros Hu Hj. split.
  - rewrite HN. assert (u * j < p * m)%nat by nia. 
    replace (u * (fstride * j))%nat with (fstride * (u * j))%nat by lia.
    apply Nat.mul_lt_mono_pos_l; lia.
  - unfold W. rewrite <- !fpow_pow. f_equal. lia.
Qed.

(** the p-th root *)
Let om := fpow (K := CF) W m.
Lemma om_is : om = wroot inv p.
Proof.
  unfold om, W, w. rewrite <- fpow_pow. rewrite HN.
  replace (fstride * (p * m))%nat with ((fstride * m) * p)%nat by lia.
  apply wroot_sub; nia.
Qed.

Lemma W_idx u q j : fpow (K := CF) W (j * (u + q * m))
  = Cmult (fpow (K := CF) (fpow (K := CF) W u) j) (fpow (K := CF) om (j * q)).
Proof.
  unfold om. rewrite <- !fpow_pow. change Cmult with (@fmul CF). rewrite <- fpow_add. f_equal. lia.
Qed.

(** reduce [bfly_ok] at index i to the p values q *)
Lemma idx_cases u i : (u < m)%nat -> (i < p * m)%nat -> (i mod m = u)%nat ->
  exists q, (q < p)%nat /\ i = (u + q * m)%nat.
Proof.
  intros Hu Hi E. exists (i / m)%nat. split.
  - apply Nat.div_lt_upper_bound; lia.
  - pose proof (Nat.div_mod i m Hm). lia.
Qed.
End Bfly.

(** shape facts of the small roots *)
Lemma wroot2 inv : wroot inv 2 = RtoC (-1).
Proof.
  unfold wroot, cis. simpl INR.
  replace (dsgn inv * (2 * PI / (1 + 1)))%R with (dsgn inv * PI)%R by field.
  destruct inv; unfold dsgn.
  - rewrite Rmult_1_l, cos_PI, sin_PI. reflexivity.
  - replace (-1 * PI)%R with (- PI)%R by ring. rewrite cos_neg, sin_neg, cos_PI, sin_PI.
    unfold RtoC. f_equal. ring.
Qed.
Lemma wroot4 inv : wroot inv 4 = (0, dsgn inv)%R.
Proof.
  unfold wroot, cis. simpl INR.
  replace (dsgn inv * (2 * PI / (1 + 1 + 1 + 1)))%R with (dsgn inv * (PI / 2))%R by field.
  destruct inv; unfold dsgn.
  - rewrite Rmult_1_l, cos_PI2, sin_PI2. reflexivity.
  - replace (-1 * (PI / 2))%R with (- (PI / 2))%R by ring. rewrite cos_neg, sin_neg, cos_PI2, sin_PI2.
    f_equal; ring.
Qed.
Lemma wroot_abs inv n : (fst (wroot inv n) * fst (wroot inv n) + snd (wroot inv n) * snd (wroot inv n) = 1)%R.
Proof. unfold wroot, cis; simpl. pose proof (sin2_cos2 (dsgn inv * (2 * PI / INR n))) as H. unfold Rsqr in H. lra. Qed.
Lemma wroot3_re inv : fst (wroot inv 3) = (- (1/2))%R.
Proof.
  unfold wroot, cis; cbn [fst]. replace (INR 3) with 3%R by (simpl; ring).
  assert (E : cos (2 * PI / 3) = (- (1/2))%R).
  { replace (2 * PI / 3)%R with (2 * (PI / 3))%R by field. rewrite cos_2a_cos, cos_PI3. field. }
  destruct inv; unfold dsgn.
  - now rewrite Rmult_1_l.
  - replace (-1 * (2 * PI / 3))%R with (- (2 * PI / 3))%R by ring. now rewrite cos_neg.
Qed.
(** w^(n-k) is the conjugate of w^k *)
Lemma wroot_conj_pow inv n k : n <> 0%nat -> (k <= n)%nat ->
  fpow (K := CF) (wroot inv n) (n - k) = Cconj (fpow (K := CF) (wroot inv n) k).
Proof.
  intros Hn Hk. unfold wroot. rewrite !cis_pow, cis_conj, minus_INR by exact Hk.
  assert (INR n <> 0%R) by (apply not_0_INR; exact Hn).
  replace ((INR n - INR k) * (dsgn inv * (2 * PI / INR n)))%R
    with (INR n * (dsgn inv * (2 * PI / INR n)) + - (INR k * (dsgn inv * (2 * PI / INR n))))%R by (field; assumption).
  rewrite cis_add. rewrite <- cis_pow. change (cis (dsgn inv * (2 * PI / INR n))) with (wroot inv n).
  rewrite wroot_order by exact Hn. now rewrite Cmult_1_l.
Qed.
