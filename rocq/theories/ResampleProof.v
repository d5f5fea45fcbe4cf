(** * Proofs about misc_resample *)
From Coq Require Import Reals Lra.
From Coquelicot Require Import Coquelicot.
From Verif Require Import ResampleModel.
Local Open Scope C_scope.

(** frequency of bin k and phase factor for a shift by delta *)
Definition freq_of (D : nat) (eps_t : R) (k : nat) : R :=
  (if (k <? D / 2)%nat then INR k / (INR D * eps_t) else (INR k - INR D) / (INR D * eps_t))%R.
Definition phase (D : nat) (eps_t delta : R) (k : nat) : C := cis (2 * PI * delta * freq_of D eps_t k)%R.

Lemma Cexp_cis (t : R) : Cexp (2 * Ci * RtoC PI * RtoC t) = cis (2 * PI * t)%R.
Proof.
  unfold Cexp, cis. simpl.
  match goal with |- (exp ?a * cos ?b, exp ?c * sin ?e)%R = _ => 
    replace a with 0%R by ring; replace c with 0%R by ring; replace b with (2 * PI * t)%R by ring end.
  rewrite exp_0. f_equal; ring.
Qed.

(** multiply the spectrum by phi *)
Definition rs (D : nat) (phi : nat -> C) (x : nat -> C) (j : nat) : C :=
  dft (K := CF) (wroot true D) D (fun k => Cmult (dft (K := CF) (wroot false D) D x k) (phi k)) j / RtoC (INR D).

Lemma rs_dft D phi x k : (k < D)%nat ->
  dft (K := CF) (wroot false D) D (rs D phi x) k = Cmult (dft (K := CF) (wroot false D) D x k) (phi k).
Proof.
  intros Hk. unfold rs.
  pose proof (dft_inversion' (K := CF) (wroot false D) D (fun k => Cmult (dft (K := CF) (wroot false D) D x k) (phi k)) k
    (fft_nodes D ltac:(lia)) Hk) as E.
  change (@finv CF) with Cinv in E. rewrite <- (wroot_inv false) in E. cbn [negb] in E.
  apply (fmul_cancel_l (K := CF) (fofnat (K := CF) D)).
  { destruct (fft_nodes D ltac:(lia)) as (_ & _ & _ & H). exact H. }
  rewrite <- E. unfold dft at 1. rewrite <- (fsum_scal (K := CF)).
  unfold dft at 3. apply (fsum_ext (K := CF)). intros j Hj. rewrite fofnat_C.
  set (X := dft _ _ _ _). set (Y := fpow _ _). cf_norm.
  field. apply INR_C_neq0. lia.
Qed.

Lemma rs_comp D phi1 phi2 x j : rs D phi2 (rs D phi1 x) j = rs D (fun k => phi1 k * phi2 k) x j.
Proof.
  unfold rs at 1. unfold rs at 2. f_equal. apply (dft_ext (K := CF)). intros k Hk.
  rewrite rs_dft by exact Hk. cf_ring.
Qed.
Lemma rs_ext D phi1 phi2 x y j : (forall k, (k < D)%nat -> phi1 k = phi2 k) -> (forall k, (k < D)%nat -> x k = y k) ->
  rs D phi1 x j = rs D phi2 y j.
Proof.
  intros H1 H2. unfold rs. f_equal. apply (dft_ext (K := CF)). intros k Hk. rewrite H1 by exact Hk. f_equal.
  apply (dft_ext (K := CF)). exact H2.
Qed.

Lemma rs_one D x j : (j < D)%nat -> rs D (fun _ => 1) x j = x j.
Proof.
  intros Hj. unfold rs.
  assert (E : dft (K := CF) (wroot true D) D (fun k => Cmult (dft (K := CF) (wroot false D) D x k) 1) j = RtoC (INR D) * x j).
  { etransitivity; [apply (dft_ext (K := CF)); intros k Hk; apply Cmult_1_r|].
    change true with (negb false). rewrite (wroot_inv false).
    rewrite (dft_inversion (K := CF)) by (try apply fft_nodes; lia). now rewrite fofnat_C. }
  rewrite E. field. apply INR_C_neq0. lia.
Qed.

Lemma cis_0 : cis 0 = 1. Proof. unfold cis. now rewrite cos_0, sin_0. Qed.
Lemma phase_0 D eps_t k : phase D eps_t 0 k = 1.
Proof. unfold phase. rewrite Rmult_0_r, Rmult_0_l. apply cis_0. Qed.
Lemma phase_add D eps_t a b k : phase D eps_t a k * phase D eps_t b k = phase D eps_t (a + b) k.
Proof. unfold phase. rewrite <- cis_add. f_equal. ring. Qed.
Lemma phase_step D eps_t k : D <> 0%nat -> eps_t <> 0%R -> phase D eps_t eps_t k = fpow (K := CF) (wroot true D) k.
Proof.
  intros HD He. unfold wroot, dsgn. rewrite cis_pow. unfold phase, freq_of.
  assert (HDR : INR D <> 0%R) by (now apply not_0_INR).
  destruct (Nat.ltb_spec k (D / 2)).
  - f_equal. field. auto.
  - replace (2 * PI * eps_t * ((INR k - INR D) / (INR D * eps_t)))%R
      with (INR k * (1 * (2 * PI / INR D)) + - (INR 1 * (2 * PI)))%R by (simpl INR; field; auto).
    rewrite cis_add, <- cis_conj, cis_2PI_int. unfold Cconj; simpl. rewrite Ropp_0.
    change (1, 0)%R with (RtoC 1). ring.
Qed.

Lemma rs_shift D x j : (j < D)%nat -> rs D (fun k => fpow (K := CF) (wroot true D) k) x j = x ((j + 1) mod D)%nat.
Proof.
  intros Hj. assert (HD : D <> 0%nat) by lia.
  rewrite <- (rs_one D x ((j + 1) mod D)) by (apply Nat.mod_upper_bound; exact HD).
  unfold rs. f_equal. apply (fsum_ext (K := CF)). intros k Hk.
  assert (E : fpow (K := CF) (wroot true D) (k * ((j + 1) mod D)) = Cmult (fpow (K := CF) (wroot true D) k) (fpow (K := CF) (wroot true D) (k * j))).
  { rewrite (fpow_mod (K := CF) (wroot true D) D (k * ((j + 1) mod D))) by (try lia; apply wroot_order; lia).
    rewrite Nat.mul_mod_idemp_r by lia.
    rewrite <- (fpow_mod (K := CF)) by (try lia; apply wroot_order; lia).
    replace (k * (j + 1))%nat with (k + k * j)%nat by lia. apply (fpow_add (K := CF)). }
  rewrite E. cf_norm. ring.
Qed.

(** Parseval *)
Lemma fsum_conj n (f : nat -> C) : Cconj (fsum (K := CF) n f) = fsum (K := CF) n (fun i => Cconj (f i)).
Proof.
  induction n as [|n IH]; simpl.
  - apply Ceq; simpl; ring.
  - rewrite Cplus_conj. now rewrite IH.
Qed.
Lemma fpow_conj (w : C) n : Cconj (fpow (K := CF) w n) = fpow (K := CF) (Cconj w) n.
Proof.
  induction n as [|n IH]; simpl.
  - apply Ceq; simpl; ring.
  - rewrite Cmult_conj. now rewrite IH.
Qed.
Lemma dft_conj D x k : Cconj (dft (K := CF) (wroot false D) D x k) = dft (K := CF) (wroot true D) D (fun j => Cconj (x j)) k.
Proof.
  unfold dft. rewrite fsum_conj. apply (fsum_ext (K := CF)). intros j Hj. change (@fmul CF) with Cmult.
  rewrite Cmult_conj, fpow_conj. change true with (negb false). now rewrite wroot_conj.
Qed.
Lemma fsum_RtoC n (f : nat -> R) : RtoC (fsum (K := RF) n f) = fsum (K := CF) n (fun i => RtoC (f i)).
Proof. induction n as [|n IH]; simpl; [reflexivity|]. now rewrite RtoC_plus, IH. Qed.
Lemma Cmod2_conj (z : C) : RtoC (Cmod z * Cmod z)%R = z * Cconj z.
Proof. rewrite Cmod_sq. apply Ceq; simpl; ring. Qed.

Definition energy (n : nat) (x : nat -> C) : R := fsum (K := RF) n (fun j => (Cmod (x j) * Cmod (x j))%R).

Theorem parseval D x : (1 <= D)%nat -> energy D (dft (K := CF) (wroot false D) D x) = (INR D * energy D x)%R.
Proof.
  intros HD. apply RtoC_inj. rewrite RtoC_mult. unfold energy. rewrite !fsum_RtoC.
  rewrite (fsum_ext (K := CF) D _ (fun k => Cmult (dft (K := CF) (wroot false D) D x k)
      (dft (K := CF) (wroot true D) D (fun j => Cconj (x j)) k))).
  2:{ intros k Hk. rewrite Cmod2_conj. now rewrite dft_conj. }
  transitivity (fsum (K := CF) D (fun k => fsum (K := CF) D (fun l =>
     Cmult (dft (K := CF) (wroot false D) D x k) (Cmult (Cconj (x l)) (fpow (K := CF) (wroot true D) (l * k)))))).
  { apply (fsum_ext (K := CF)). intros k Hk. unfold dft at 2. symmetry. apply (fsum_scal (K := CF)). }
  rewrite (fsum_swap (K := CF)). rewrite <- fofnat_C, <- (fsum_scal (K := CF)).
  apply (fsum_ext (K := CF)). intros l Hl.
  transitivity (Cmult (Cconj (x l)) (dft (K := CF) (wroot true D) D (dft (K := CF) (wroot false D) D x) l)).
  { unfold dft at 2. rewrite <- (fsum_scal (K := CF)). apply (fsum_ext (K := CF)). intros k Hk.
    rewrite (Nat.mul_comm l k). cf_norm. ring. }
  change true with (negb false). rewrite (wroot_inv false).
  rewrite (dft_inversion (K := CF)) by (try apply fft_nodes; lia). rewrite Cmod2_conj. cf_norm. ring.
Qed.

Lemma Cmod_cis t : Cmod (cis t) = 1%R.
Proof.
  unfold cis, Cmod; simpl. pose proof (sin2_cos2 t) as H. unfold Rsqr in H.
  replace (cos t * (cos t * 1) + sin t * (sin t * 1))%R with 1%R by lra. apply sqrt_1.
Qed.

Lemma rs_energy D phi x : (1 <= D)%nat -> (forall k, (k < D)%nat -> Cmod (phi k) = 1%R) -> energy D (rs D phi x) = energy D x.
Proof.
  intros HD Hphi. assert (HDR : INR D <> 0%R) by (apply not_0_INR; lia).
  apply Rmult_eq_reg_l with (INR D); [|exact HDR].
  rewrite <- !parseval by exact HD. unfold energy. apply (fsum_ext (K := RF)). intros k Hk.
  rewrite rs_dft, Cmod_mult, (Hphi k Hk), Rmult_1_r by exact Hk. reflexivity.
Qed.

(** the program computes rs *)
Lemma misc_resample_rs junk junkR D eps_t q delta q_new :
  (forall k n, length (junk k n) = n) -> (forall n, length (junkR n) = n) ->
  (2 < D)%nat -> eps_t <> 0%R -> (D <= length q)%nat -> (D <= length q_new)%nat ->
  exists q', misc_resample junk junkR D eps_t (Some q) delta (Some q_new) = Ret (0%Z, Some q')
    /\ length q' = length q_new
    /\ (forall j, (j < D)%nat -> nth j q' 0 = rs D (phase D eps_t delta) (fun i => nth i q 0) j)
    /\ (forall j, (D <= j)%nat -> nth j q' 0 = nth j q_new 0).
Proof.
  intros Hj HjR HD He Lq Ln. unfold misc_resample.
  destruct (Nat.leb_spec D 2) as [|_]; [lia|]. destruct (Req_EM_T eps_t 0) as [|_]; [contradiction|].
  destruct (fill_ok (fun i => nth i q 0) (RtoC 0) D 0 (fun i => aget q i) (junk 0%nat D)) as (b0 & E0 & L0 & N0).
  { rewrite Hj. lia. } { intros i Hi. apply aget_nth. lia. }
  rewrite E0. cbn [bind]. rewrite Hj in L0.
  destruct (fft_exec_spec false D b0 (junk 1%nat D) (fun i => nth i q 0)) as (b1 & E1 & L1 & N1); try lia.
  { rewrite Hj. lia. }
  { intros k Hk. rewrite N0. cbn [Nat.leb andb Nat.add]. destruct (Nat.ltb_spec k D); [reflexivity|lia]. }
  rewrite E1. cbn [bind]. rewrite Hj in L1.
  assert (Hd2 : (D / 2 <= D)%nat) by (apply Nat.div_le_upper_bound; lia).
  destruct (fill_ok (fun i => INR i / (INR D * eps_t))%R 0%R (D / 2) 0 (fun i => Ret (INR i / (INR D * eps_t))%R) (junkR D)) as (f1 & F1 & LF1 & NF1).
  { rewrite HjR. lia. } { reflexivity. }
  rewrite F1. cbn [bind]. rewrite HjR in LF1.
  destruct (fill_ok (fun i => (INR i - INR D) / (INR D * eps_t))%R 0%R (D - D / 2) (D / 2) (fun i => Ret ((INR i - INR D) / (INR D * eps_t))%R) f1) as (f2 & F2 & LF2 & NF2).
  { lia. } { reflexivity. }
  rewrite F2. cbn [bind].
  destruct (fill_ok (fun i => nth i b1 0 * phase D eps_t delta i) (RtoC 0) D 0 (fun i => b <- aget b1 i ;; f <- aget f2 i ;;
     Ret (b * Cexp (2 * Ci * RtoC PI * RtoC delta * RtoC f))) b1) as (b2 & E2 & L2 & N2).
  { lia. }
  { intros i Hi. rewrite (aget_nth b1 0) by lia. rewrite (aget_nth f2 0%R) by lia. cbn [bind]. do 2 f_equal.
    rewrite <- Cmult_assoc, <- RtoC_mult, Cexp_cis. unfold phase. f_equal. rewrite NF2, NF1. unfold freq_of.
    destruct (Nat.leb_spec (D / 2) i); cbn [andb].
    - destruct (Nat.ltb_spec i (D / 2 + (D - D / 2))); [|lia]. destruct (Nat.ltb_spec i (D / 2)); [lia|]. ring.
    - cbn [Nat.leb andb Nat.add]. destruct (Nat.ltb_spec i (D / 2)); [|lia]. ring. }
  rewrite E2. cbn [bind].
  destruct (fft_exec_spec true D b2 b0 (fun k => Cmult (dft (K := CF) (wroot false D) D (fun i => nth i q 0) k) (phase D eps_t delta k))) as (b3 & E3 & L3 & N3); try lia.
  { intros k Hk. rewrite N2. cbn [Nat.leb andb Nat.add]. destruct (Nat.ltb_spec k D); [|lia]. now rewrite N1. }
  rewrite E3. cbn [bind].
  destruct (fill_ok (fun i => nth i b3 0 / RtoC (INR D)) (RtoC 0) D 0 (fun i => b <- aget b3 i ;; Ret (b / RtoC (INR D))) q_new) as (r & Er & Lr & Nr).
  { lia. } { intros i Hi. now rewrite (aget_nth b3 0) by lia. }
  rewrite Er. cbn [bind]. exists r. split; [reflexivity|]. split; [exact Lr|]. split; intros j Hlt; rewrite Nr; cbn [Nat.leb andb Nat.add].
  - destruct (Nat.ltb_spec j D); [|lia]. rewrite (N3 j Hlt). reflexivity.
  - destruct (Nat.ltb_spec j D); [lia|reflexivity].
Qed.
