(** * The spectral factorisation: theorems *)
From Coq Require Import Reals Lra.
From Coquelicot Require Import Coquelicot.
From Verif Require Export SpecfactProof.
Local Open Scope C_scope.
Local Notation "x ^^ n" := (fpow (K := CF) x n) (at level 30, right associativity).

(** invalid arguments: error 2, nothing written *)
Theorem poly_specfact_invalid junk deg poly result os kappa :
  deg = 0%nat \/ poly = None \/ result = None \/ os = 0%nat ->
  poly_specfact junk deg poly result os kappa = Ret (2%Z, result).
Proof.
  intros H. unfold poly_specfact. destruct (Nat.eqb_spec deg 0); [reflexivity|]. destruct poly as [poly|]; [|reflexivity].
  destruct result as [result|]; [|reflexivity]. destruct (Nat.eqb_spec os 0); [reflexivity|].
  destruct H as [?|[?|[?|?]]]; try contradiction; discriminate.
Qed.
Theorem poly_specfact_bad_kappa junk deg (poly result : list C) os kappa :
  (forall k n, length (junk k n) = n) -> length poly = (deg + 1)%nat -> (kappa <> 0 /\ kappa <> -1 /\ kappa <> 1)%Z ->
  poly_specfact junk deg (Some poly) (Some result) os kappa = Ret (2%Z, Some result).
Proof.
  intros Hj Lp (K0 & K1 & K2). unfold poly_specfact. destruct (Nat.eqb_spec deg 0); [reflexivity|]. destruct (Nat.eqb_spec os 0); [reflexivity|].
  destruct (next_fft_length_least ((deg + 1) * os) ltac:(nia)) as (M & EM & HM & _). rewrite EM. cbn [opt bind].
  assert (HMd : (deg + 1 <= M)%nat) by nia.
  destruct (fill_ok (fun i => nth i poly 0) 0 (deg + 1) 0 (fun i => aget poly i) (junk 0%nat M)) as (b1 & E1 & L1 & N1); [rewrite Hj; lia| |].
  { intros i Hi. apply aget_nth. lia. }
  rewrite E1. cbn [bind].
  destruct (fill_ok (fun _ => RtoC 0) 0 (M - (deg + 1)) (deg + 1) (fun _ => Ret (RtoC 0)) b1) as (b2 & E2 & L2 & N2); [rewrite L1, Hj; lia|reflexivity|].
  rewrite E2. cbn [bind].
  destruct (fft_exec_spec false M b2 (junk 1%nat M) (fun i => nth i b2 0)) as (b3 & E3 & L3 & N3);
    [lia|rewrite L2, L1, Hj; lia|rewrite Hj; lia|reflexivity|].
  rewrite E3. cbn [bind]. unfold specfact_x. destruct kappa as [|[q|q|]|[q|q|]]; try reflexivity; contradiction.
Qed.

(** ** When is the code's Hilbert transform real? *)
Section Real.
Variables (M : nat) (x : nat -> R).
Hypothesis HM : (2 <= M)%nat.
Let HM0 : M <> 0%nat. Proof. lia. Qed.
Local Notation X := (rdft M x).
Local Notation Y k := (rdft M x k * code_multiplier M k).
Lemma Cconj_fsum' n (f : nat -> C) : Cconj (fsum (K := CF) n f) = fsum (K := CF) n (fun i => Cconj (f i)).
Proof. induction n as [|n IH]; [apply Cconj_R|]. cbn [fsum]. change (@fadd CF) with Cplus. now rewrite Cplus_conj, IH. Qed.
Lemma rdft_mirror k : (k <= M)%nat -> Cconj (X k) = X (M - k)%nat.
Proof.
  intros Hk. unfold rdft. rewrite Cconj_fsum'. apply (fsum_ext (K := CF)). intros l Hl.
  rewrite Cmult_conj, Cconj_R, Cconj_conj, (Nat.mul_comm l (M - k)), (node_mirror M k l HM0 Hk), Cconj_conj, (Nat.mul_comm k l). reflexivity.
Qed.
Definition dev (k : nat) : C := if (k =? 0)%nat then 0 else Y k - Cconj (Y (M - k)%nat).
Lemma dev_sum l : fsum (K := CF) M (fun k => dev k * node M (k * l)) = code_hilbert M x l - Cconj (code_hilbert M x l).
Proof.
  unfold code_hilbert. rewrite Cconj_fsum'. destruct M as [|m] eqn:EM; [lia|]. rewrite <- EM in *.
  assert (S1 : forall f : nat -> C, fsum (K := CF) M f = f 0%nat + fsum (K := CF) m (fun i => f (S i))) by (intros f; rewrite EM; apply (fsum_S_l (K := CF))).
  rewrite !S1. cbv beta. rewrite (Nat.mul_0_l l).
  assert (Z : code_multiplier M 0 = 0) by reflexivity. rewrite Z. change (dev 0) with (RtoC 0).
  replace (Cconj (X 0%nat * 0 * node M 0)) with (RtoC 0) by (rewrite !Cmult_conj, Cconj_R; ring).
  assert (R : fsum (K := CF) m (fun i => Cconj (X (S i) * code_multiplier M (S i) * node M (S i * l)))
    = fsum (K := CF) m (fun i => Cconj (Y (M - S i)%nat) * node M (S i * l))).
  { rewrite (fsum_rev (K := CF)). apply (fsum_ext (K := CF)). intros i Hi.
    replace (S (m - 1 - i))%nat with (M - S i)%nat by lia. rewrite (Cmult_conj (X (M - S i)%nat * _)). f_equal.
    rewrite node_mirror by lia. apply Cconj_conj. }
  rewrite R.
  transitivity (fsum (K := CF) m (fun i => X (S i) * code_multiplier M (S i) * node M (S i * l)) - fsum (K := CF) m (fun i => Cconj (Y (M - S i)%nat) * node M (S i * l))).
  2: { change (@eq (car CF)) with (@eq C). ring. }
  transitivity (fsum (K := CF) m (fun i => (X (S i) * code_multiplier M (S i) * node M (S i * l)) - Cconj (Y (M - S i)%nat) * node M (S i * l))).
  - etransitivity; [rewrite Cmult_0_l, Cplus_0_l; reflexivity|]. apply (fsum_ext (K := CF)). intros i Hi. unfold dev. cbn [Nat.eqb]. change (@eq (car CF)) with (@eq C). ring.
  - apply (fsum_sub (K := CF)).
Qed.
Lemma hilbert_real_dev : (forall l, (l < M)%nat -> snd (code_hilbert M x l) = 0%R) <-> (forall k, (k < M)%nat -> dev k = 0).
Proof.
  split.
  - intros H k Hk.
    pose proof (dft_inversion' (K := CF) (wroot false M) M dev k (fft_nodes M ltac:(lia)) Hk) as Inv.
    change (@finv CF) with Cinv in Inv. rewrite <- (wroot_inv false) in Inv. cbn [negb] in Inv.
    assert (Z : dft (K := CF) (wroot false M) M (dft (K := CF) (wroot true M) M dev) k = RtoC 0).
    { unfold dft at 1. apply (fsum_zero' (K := CF)). intros l Hl.
      assert (Q : dft (K := CF) (wroot true M) M dev l = RtoC 0).
      { transitivity (fsum (K := CF) M (fun k => dev k * node M (k * l))).
        - apply (fsum_ext (K := CF)). intros j _. now rewrite node_pow.
        - rewrite dev_sum. apply Ceq; cbn; [ring|]. rewrite (H l Hl). ring. }
      rewrite Q. apply Cmult_0_l. }
    rewrite Z, fofnat_C in Inv. change (@fmul CF) with Cmult in Inv.
    destruct (Ceq_dec (dev k) 0) as [E|N]; [exact E|]. exfalso. symmetry in Inv. revert Inv. apply Cmult_neq_0; [now apply INR_C_neq0|exact N].
  - intros H l Hl. pose proof (dev_sum l) as E. rewrite (fsum_zero' (K := CF)) in E.
    + apply (f_equal snd) in E. cbn in E. lra.
    + intros k Hk. rewrite (H k Hk). apply Cmult_0_l.
Qed.
Lemma dev_mirror k : (0 < k < M)%nat -> dev (M - k) = - Cconj (dev k).
Proof.
  intros Hk. unfold dev. destruct (Nat.eqb_spec (M - k) 0); [lia|]. destruct (Nat.eqb_spec k 0); [lia|].
  replace (M - (M - k))%nat with k by lia. rewrite Cconj_minus, Cconj_conj. ring.
Qed.
Let im : C := Ci / RtoC (INR M).
Lemma im_neq0 : im <> 0.
Proof. unfold im. pose proof (INR_C_neq0 M HM0) as N. intros E. apply Ci_neq0. apply (f_equal (fun z => z * RtoC (INR M))) in E. rewrite Cmult_0_l in E. rewrite <- E. field. exact N. Qed.
Lemma im_conj : Cconj im = - im.
Proof. unfold im. rewrite Cconj_div by (now apply INR_C_neq0). rewrite Cconj_R. replace (Cconj Ci) with (- Ci) by (apply Ceq; cbn; ring). unfold Cdiv. ring. Qed.
Lemma mult_hi k : (M / 2 <= k)%nat -> (1 <= k)%nat -> code_multiplier M k = im.
Proof. intros H H1. unfold code_multiplier. destruct (Nat.eqb_spec k 0); [lia|]. destruct (Nat.ltb_spec k (M / 2 - 1)); [lia|]. destruct (Nat.eqb_spec k (M / 2 - 1)); [lia|reflexivity]. Qed.
Lemma dev_low k : (1 <= k <= M / 2)%nat -> dev k = X k * (if (k <? M / 2 - 1)%nat then 0 else if (k =? M / 2 - 1)%nat then im else im + im).
Proof.
  intros Hk. pose proof (Nat.div_mod M 2 ltac:(lia)) as DM. pose proof (Nat.mod_upper_bound M 2 ltac:(lia)) as UB2.
  unfold dev. destruct (Nat.eqb_spec k 0); [lia|]. rewrite Cmult_conj, rdft_mirror by lia. replace (M - (M - k))%nat with k by lia.
  rewrite (mult_hi (M - k)) by lia. rewrite im_conj.
  unfold code_multiplier. destruct (Nat.eqb_spec k 0); [lia|]. destruct (Nat.ltb_spec k (M / 2 - 1)).
  - unfold im, Cdiv. ring.
  - destruct (Nat.eqb_spec k (M / 2 - 1)); unfold im, Cdiv; ring.
Qed.
Lemma two_im : im + im <> 0. Proof. replace (im + im) with (RtoC 2 * im) by (apply Ceq; cbn; ring). apply Cmult_neq_0; [|exact im_neq0]. intros E. injection E. lra. Qed.
(** The transform of a real sequence is real iff two of its bins vanish *)
Theorem specfact_hilbert_real_iff :
  (forall l, (l < M)%nat -> snd (code_hilbert M x l) = 0%R)
  <-> rdft M x (M / 2) = 0 /\ ((4 <= M)%nat -> rdft M x (M / 2 - 1) = 0).
Proof.
  pose proof (Nat.div_mod M 2 ltac:(lia)) as DM. pose proof (Nat.mod_upper_bound M 2 ltac:(lia)) as UB2.
  rewrite hilbert_real_dev. split.
  - intros H. split.
    + specialize (H (M / 2)%nat ltac:(lia)). rewrite dev_low in H by lia.
      destruct (Nat.ltb_spec (M / 2) (M / 2 - 1)); [lia|]. destruct (Nat.eqb_spec (M / 2) (M / 2 - 1)); [lia|].
      destruct (Ceq_dec (X (M / 2)%nat) 0) as [E|N]; [exact E|]. exfalso. revert H. apply Cmult_neq_0; [exact N|exact two_im].
    + intros H4. specialize (H (M / 2 - 1)%nat ltac:(lia)). rewrite dev_low in H by lia.
      rewrite Nat.ltb_irrefl, Nat.eqb_refl in H.
      destruct (Ceq_dec (X (M / 2 - 1)%nat) 0) as [E|N]; [exact E|]. exfalso. revert H. apply Cmult_neq_0; [exact N|exact im_neq0].
  - intros (H1 & H2).
    assert (Low : forall k, (1 <= k <= M / 2)%nat -> dev k = 0).
    { intros k Hk. rewrite dev_low by exact Hk. destruct (Nat.ltb_spec k (M / 2 - 1)); [ring|].
      destruct (Nat.eqb_spec k (M / 2 - 1)) as [->|N].
      - rewrite H2 by lia. ring.
      - replace k with (M / 2)%nat by lia. rewrite H1. ring. }
    intros k Hk. destruct (Nat.eq_dec k 0) as [->|N0]; [reflexivity|]. destruct (Nat.le_gt_cases k (M / 2)); [apply Low; lia|].
    replace k with (M - (M - k))%nat by lia. rewrite dev_mirror by lia. rewrite Low by lia. rewrite Cconj_R. ring.
Qed.
End Real.
