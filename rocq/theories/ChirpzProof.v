(** * Correctness of poly_chirpz *)
From Coq Require Import Reals Lra.
From Coquelicot Require Import Coquelicot.
From Verif Require Import ChirpzModel PolySpec.

Section Conv.
Context {K : cfield}.
Add Field KF : (cfield_th K).
Local Open Scope cf_scope.
(** the inner sum of a cyclic convolution has one non-zero term *)
Lemma cconv_single n (x y : nat -> K) l : (l < n)%nat ->
  cconv n x y l = fsum n (fun i => x i * y ((l + n - i) mod n)%nat).
Proof.
  intros Hl. unfold cconv. apply fsum_ext. intros i Hi.
  rewrite (fsum_single n ((l + n - i) mod n)%nat).
  - assert (E : Nat.eqb ((i + (l + n - i) mod n) mod n) l = true).
    { apply Nat.eqb_eq. rewrite Nat.add_mod_idemp_r by lia. replace (i + (l + n - i))%nat with (l + 1 * n)%nat by lia.
      rewrite Nat.mod_add by lia. now apply Nat.mod_small. }
    now rewrite E.
  - apply Nat.mod_upper_bound. lia.
  - intros j Hj Hne. destruct (Nat.eqb_spec ((i + j) mod n) l) as [E|E]; [|reflexivity].
    exfalso. apply Hne. destruct (Nat.lt_ge_cases (i + j) n) as [H|H].
    + rewrite Nat.mod_small in E by exact H. subst l. replace (i + j + n - i)%nat with (j + 1 * n)%nat by lia.
      rewrite Nat.mod_add by lia. symmetry. now apply Nat.mod_small.
    + replace (i + j)%nat with ((i + j - n) + 1 * n)%nat in E by lia. rewrite Nat.mod_add in E by lia.
      rewrite Nat.mod_small in E by lia. subst l. replace (i + j - n + n - i)%nat with j by lia.
      symmetry. now apply Nat.mod_small.
Qed.
End Conv.

Notation "x ^^ n" := (fpow (K := CF) x n : C) (at level 30, right associativity) : C_scope.
Local Open Scope C_scope.

Lemma Cpow_real_neq0 (w : C) t : Cpow_real w t <> 0. Proof. apply Cexp_neq0. Qed.
Lemma Cpow_real_opp (w : C) t : Cpow_real w (- t) = / Cpow_real w t.
Proof. unfold Cpow_real. rewrite RtoC_opp, <- Cexp_opp. f_equal. ring. Qed.
Lemma Cpow_real_nat (w : C) t n : Cpow_real w (t * INR n) = Cpow_real w t ^^ n.
Proof.
  induction n as [|n IH].
  - simpl INR. rewrite Rmult_0_r. apply Cpow_real_0.
  - rewrite S_INR, Rmult_plus_distr_l, Rmult_1_r, Cpow_real_plus, IH. simpl. apply Cmult_comm.
Qed.
Definition chirp (W : C) : C := Cpow_real W (/ 2).
Lemma chirp_sq (W : C) : W <> 0 -> chirp W ^^ 2 = W.
Proof.
  intros H. unfold chirp. rewrite <- Cpow_real_nat. simpl INR. replace (/ 2 * (1 + 1))%R with 1%R by lra.
  now apply Cpow_real_1.
Qed.
Lemma chirp_pow (W : C) n : Cpow_real W (/ 2 * INR n * INR n) = chirp W ^^ (n * n).
Proof. unfold chirp. rewrite <- Cpow_real_nat, mult_INR. f_equal. ring. Qed.
Lemma chirp_pow_neg (W : C) n : Cpow_real W (- / 2 * INR n * INR n) = / (chirp W ^^ (n * n)).
Proof. rewrite <- chirp_pow, <- Cpow_real_opp. f_equal. ring. Qed.
Lemma pow_neg1 (A : C) n : A <> 0 -> Cpow_real A (-1 * INR n) = / (A ^^ n).
Proof.
  intros H. replace (-1 * INR n)%R with (- (1 * INR n))%R by ring. rewrite Cpow_real_opp, Cpow_real_nat.
  now rewrite Cpow_real_1.
Qed.

(** g^(i^2) g^-((i-n)^2) g^(n^2) = (g^2)^(i n) *)
Lemma chirp_id (g : C) i n d : g <> 0 -> (d * d + 2 * i * n = i * i + n * n)%nat ->
  g ^^ (i * i) * / (g ^^ (d * d)) * g ^^ (n * n) = (g ^^ 2) ^^ (i * n).
Proof.
  intros Hg E. assert (Hd : g ^^ (d * d) <> 0) by (now apply (fpow_neq0 (K := CF))).
  rewrite <- (fpow_pow (K := CF)).
  assert (EE : g ^^ (i * i) * g ^^ (n * n) = g ^^ (d * d) * g ^^ (2 * (i * n))).
  { rewrite <- !(fpow_add (K := CF)). f_equal. lia. }
  replace (g ^^ (i * i) * / g ^^ (d * d) * g ^^ (n * n)) with (/ g ^^ (d * d) * (g ^^ (i * i) * g ^^ (n * n))) by ring.
  rewrite EE, Cmult_assoc, Cinv_l by exact Hd. ring.
Qed.

Section Chirpz.
Variables (deg M L : nat) (A W : C) (p : list C).
Hypothesis HA : A <> 0.
Hypothesis HW : W <> 0.
Hypothesis HM : (1 <= M)%nat.
Hypothesis HL : (deg + M <= L)%nat.
Hypothesis Hp : length p = (deg + 1)%nat.

Definition yn (n : nat) : C := if (n <? deg + 1)%nat then nth (deg - n) p (RtoC 0) * / (A ^^ n) * chirp W ^^ (n * n) else 0.
Definition vn (n : nat) : C :=
  if (n <? M)%nat then / (chirp W ^^ (n * n))
  else if (n <? L - deg)%nat then 0 else / (chirp W ^^ ((L - n) * (L - n))).

Lemma chirp_conv n : (n < M)%nat ->
  chirp W ^^ (n * n) * cconv (K := CF) L yn vn n = peval (K := CF) p (/ (A * / (W ^^ n))).
Proof.
  intros Hn. rewrite cconv_single by lia.
  assert (Hg : chirp W <> 0) by apply Cpow_real_neq0.
  unfold peval. change (@length (car CF) p) with (@length C p). rewrite Hp.
  replace L with ((deg + 1) + (L - (deg + 1)))%nat at 1 by lia.
  rewrite (fsum_split (K := CF)).
  rewrite (fsum_zero' (K := CF) (L - (deg + 1))).
  2:{ intros i Hi. unfold yn. destruct (Nat.ltb_spec (deg + 1 + i) (deg + 1)); [lia|]. cf_ring. }
  rewrite (fsum_rev (K := CF) (deg + 1) (fun i => fmul (c := CF) (nth i p (@f0 CF)) _)).
  transitivity (chirp W ^^ (n * n) * fsum (K := CF) (deg + 1) (fun i => yn i * vn ((n + L - i) mod L)%nat)).
  { f_equal. cf_ring. }
  rewrite <- (fsum_scal (K := CF)). apply (fsum_ext (K := CF)). intros i Hi.
  replace (deg + 1 - 1 - i)%nat with (deg - i)%nat by lia.
  replace (deg + 1 - 1 - (deg - i))%nat with i by lia.
  assert (HWn : W ^^ n <> 0) by (now apply (fpow_neq0 (K := CF))).
  assert (HAi : A ^^ i <> 0) by (now apply (fpow_neq0 (K := CF))).
  assert (E1 : fpow (K := CF) (/ (A * / W ^^ n)) i = / (A ^^ i) * W ^^ (i * n)).
  { replace (/ (A * / W ^^ n)) with (/ A * W ^^ n) by (field; auto).
    rewrite (fpow_mul_base (K := CF)). change Cinv with (@finv CF). rewrite finv_fpow by exact HA.
    rewrite <- (fpow_pow (K := CF)). rewrite (Nat.mul_comm n i). reflexivity. }
  rewrite E1. unfold yn. destruct (Nat.ltb_spec i (deg + 1)); [|lia].
  assert (Ev : exists d, (d * d + 2 * i * n = i * i + n * n)%nat /\ vn ((n + L - i) mod L) = / (chirp W ^^ (d * d))).
  { destruct (Nat.le_gt_cases i n) as [Hin|Hin].
    - replace (n + L - i)%nat with ((n - i) + 1 * L)%nat by lia. rewrite Nat.mod_add, Nat.mod_small by lia.
      exists (n - i)%nat. split; [nia|]. unfold vn. destruct (Nat.ltb_spec (n - i) M); [reflexivity|lia].
    - rewrite Nat.mod_small by lia. exists (i - n)%nat. split; [nia|]. unfold vn.
      destruct (Nat.ltb_spec (n + L - i) M); [lia|]. destruct (Nat.ltb_spec (n + L - i) (L - deg)); [lia|].
      replace (L - (n + L - i))%nat with (i - n)%nat by lia. reflexivity. }
  destruct Ev as (d & Hd & ->).
  pose proof (chirp_id (chirp W) i n d Hg Hd) as E2. rewrite (chirp_sq W HW) in E2.
  cf_norm. rewrite <- E2. ring.
Qed.
End Chirpz.

Theorem poly_chirpz_spec junk deg p (A W : C) M result :
  (forall k n, length (junk k n) = n) -> A <> 0 -> W <> 0 -> (1 <= M)%nat ->
  length p = (deg + 1)%nat -> (M <= length result)%nat ->
  exists result', poly_chirpz junk deg (Some p) A W M (Some result) = Ret (0%Z, Some result')
    /\ length result' = length result
    /\ (forall n, (n < M)%nat -> nth n result' 0 = peval (K := CF) p (/ (A * / (W ^^ n))))
    /\ (forall n, (M <= n)%nat -> nth n result' 0 = nth n result 0).
Proof.
  intros Hj HA HW HM Hp Hr. unfold poly_chirpz.
  destruct (Nat.eqb_spec M 0) as [|_]; [lia|].
  destruct (next_fft_length_least (deg + 1 + M - 1) ltac:(lia)) as (L & EL & HL & _).
  rewrite EL. cbn [opt bind].
  destruct (fill_ok (fun n => nth (deg - n) p 0 * Cpow_real A (-1 * INR n) * Cpow_real W (/ 2 * INR n * INR n)) (RtoC 0)
    (deg + 1) 0 (fun n => c <- aget p (deg - n) ;;
     Ret (c * Cpow_real A (-1 * INR n) * Cpow_real W (/ 2 * INR n * INR n))) (junk 2%nat L)) as (b1 & E1 & L1 & N1).
  { rewrite Hj. lia. }
  { intros i Hi. rewrite (aget_nth p 0) by lia. reflexivity. }
  rewrite E1. cbn [bind].
  destruct (fill_ok (fun n => RtoC 0) (RtoC 0) (L - (deg + 1)) (deg + 1) (fun n => Ret (RtoC 0)) b1) as (b2 & E2 & L2 & N2).
  { rewrite L1, Hj. lia. }
  { reflexivity. }
  rewrite E2. cbn [bind].
  destruct (fft_exec_spec false L b2 (junk 0%nat L) (yn deg A W p)) as (Y & EY & LY & NY).
  { lia. } { rewrite L2, L1, Hj. lia. } { rewrite Hj. lia. }
  { intros k Hk. rewrite N2, N1. unfold yn.
    destruct (Nat.leb_spec (deg + 1) k) as [H1|H1]; cbn [andb].
    - destruct (Nat.ltb_spec k (deg + 1 + (L - (deg + 1)))); [|lia]. destruct (Nat.ltb_spec k (deg + 1)); [lia|reflexivity].
    - cbn [Nat.leb andb Nat.add]. destruct (Nat.ltb_spec k (0 + (deg + 1))); [|lia]. destruct (Nat.ltb_spec k (deg + 1)); [|lia].
      rewrite chirp_pow, (pow_neg1 A k HA). reflexivity. }
  rewrite EY. cbn [bind].
  destruct (fill_ok (fun n => Cpow_real W (- / 2 * INR n * INR n)) (RtoC 0) M 0
    (fun n => Ret (Cpow_real W (- / 2 * INR n * INR n))) b2) as (b3 & E3 & L3 & N3).
  { rewrite L2, L1, Hj. lia. } { reflexivity. }
  rewrite E3. cbn [bind].
  destruct (fill_ok (fun n => RtoC 0) (RtoC 0) (L - (deg + 1) + 1 - M) M (fun n => Ret (RtoC 0)) b3) as (b4 & E4 & L4 & N4).
  { rewrite L3, L2, L1, Hj. lia. } { reflexivity. }
  rewrite E4. cbn [bind].
  destruct (fill_ok (fun n => Cpow_real W (- / 2 * INR (L - n) * INR (L - n))) (RtoC 0)
    (L - (L - (deg + 1) + 1)) (L - (deg + 1) + 1) (fun n => Ret (Cpow_real W (- / 2 * INR (L - n) * INR (L - n)))) b4) as (b5 & E5 & L5 & N5).
  { rewrite L4, L3, L2, L1, Hj. lia. } { reflexivity. }
  rewrite E5. cbn [bind].
  assert (Lb5 : length b5 = L) by (rewrite L5, L4, L3, L2, L1; apply Hj).
  destruct (fft_exec_spec false L b5 (junk 1%nat L) (vn deg M L W)) as (V & EV & LV & NV).
  { lia. } { lia. } { rewrite Hj. lia. }
  { intros k Hk. rewrite N5, N4, N3. unfold vn.
    destruct (Nat.leb_spec (L - (deg + 1) + 1) k) as [H1|H1]; cbn [andb].
    - destruct (Nat.ltb_spec k (L - (deg + 1) + 1 + (L - (L - (deg + 1) + 1)))); [|lia].
      destruct (Nat.ltb_spec k M); [lia|]. destruct (Nat.ltb_spec k (L - deg)); [lia|]. apply chirp_pow_neg.
    - destruct (Nat.leb_spec M k) as [H2|H2]; cbn [andb].
      + destruct (Nat.ltb_spec k (M + (L - (deg + 1) + 1 - M))); [|lia]. destruct (Nat.ltb_spec k M); [lia|].
        destruct (Nat.ltb_spec k (L - deg)); [reflexivity|lia].
      + cbn [Nat.leb Nat.add]. destruct (Nat.ltb_spec k (0 + M)); [|lia]. destruct (Nat.ltb_spec k M); [|lia]. apply chirp_pow_neg. }
  rewrite EV. cbn [bind].
  rewrite Hj in LY, LV.
  destruct (fill_ok (fun n => nth n V (RtoC 0) * nth n Y (RtoC 0)) (RtoC 0) L 0
    (fun n => v <- aget V n ;; y <- aget Y n ;; Ret (v * y)) b5) as (b6 & E6 & L6 & N6).
  { lia. }
  { intros i Hi. rewrite (aget_nth V 0) by (rewrite LV; lia). rewrite (aget_nth Y 0) by (rewrite LY; lia). reflexivity. }
  rewrite E6. cbn [bind].
  destruct (fft_exec_spec true L b6 V
     (fun k => fmul (c := CF) (dft (K := CF) (wroot false L) L (yn deg A W p) k) (dft (K := CF) (wroot false L) L (vn deg M L W) k)))
     as (V2 & EV2 & LV2 & NV2).
  { lia. } { lia. } { lia. }
  { intros k Hk. rewrite N6. cbn [Nat.leb andb Nat.add].
    destruct (Nat.ltb_spec k L); [|lia]. rewrite (NY k Hk), (NV k Hk). apply Cmult_comm. }
  rewrite EV2. cbn [bind].
  destruct (fill_ok (fun n => Cpow_real W (/ 2 * INR n * INR n) * nth n V2 0 / RtoC (INR L)) (RtoC 0) M 0
    (fun n => v <- aget V2 n ;; Ret (Cpow_real W (/ 2 * INR n * INR n) * v / RtoC (INR L))) result) as (r & Er & Lr & Nr).
  { lia. }
  { intros i Hi. rewrite (aget_nth V2 0) by (rewrite LV2, LV; lia). reflexivity. }
  rewrite Er. cbn [bind]. exists r. split; [reflexivity|]. split; [exact Lr|]. split.
  - intros n Hn. rewrite Nr. cbn [Nat.leb andb Nat.add]. destruct (Nat.ltb_spec n M); [|lia].
    rewrite <- (chirp_conv deg M L A W p HA HW HM ltac:(lia) Hp n Hn).
    rewrite chirp_pow. rewrite (NV2 n ltac:(lia)).
    rewrite (wroot_inv false), (dft_convolution (K := CF)) by (try apply fft_nodes; lia).
    rewrite fofnat_C. cf_norm. field. apply INR_C_neq0. lia.
  - intros n Hn. rewrite Nr. cbn [Nat.leb andb Nat.add]. destruct (Nat.ltb_spec n M); [lia|reflexivity].
Qed.
