(** * Fast inverse scattering: from evaluations to coefficients, transposition, reversal *)
From Coq Require Import Reals ZArith List Lia Lra.
From Coquelicot Require Import Coquelicot.
From Verif Require Import Base Mem Loop Series Fields CField CConj Dft FftUse MatSpec PolySpec ErrModel CExp KissModel KissProof PolyFmultModel PolyFmultTree DiscTables FscatterModel FscatterSpec FscatterProof PolyFmultProps FinvModel FinvAlg FinvMult FinvRun FinvTop BoundExact.
Import ListNotations.
Local Open Scope C_scope.

Lemma leval_idC n (p p' : nat -> C) : (forall z, leval (K := CF) n p z = leval (K := CF) n p' z) -> forall l, (l <= n)%nat -> p l = p' l.
Proof. apply (leval_id (K := CF) (wroot false (S n))). apply fft_nodes. lia. Qed.
Lemma desc_ext n (A B : nat -> mat2) : (forall k, (k < n)%nat -> A k = B k) -> descending n A = descending n B.
Proof. intros H. induction n as [|n IH]; cbn; [reflexivity|]. rewrite H, IH by (intros; try apply H; lia). reflexivity. Qed.

(** coefficients from evaluations *)
Lemma low_from_eval (tm : list C) deg (c Q R : nat -> C) (w : C) i j : (i < 2)%nat -> (j < 2)%nat -> w <> 0 ->
  (4 * (deg + 1) <= length tm)%nat ->
  (forall z, w * peval (K := CF) (coeffs (K := CF) tm ((i * 2 + j) * (deg + 1)) (deg + 1)) z = entry (descending deg (sample_mat c Q R z)) i j) ->
  forall l, (l <= deg)%nat -> low tm 0 (deg + 1) deg i j l = / w * Mdesc (K := CF) (M c Q R) 0 deg i j l.
Proof.
  intros Hi Hj Hw Ltm H. apply (leval_idC deg). intros z.
  rewrite leval_low by (destruct i as [|[|i]], j as [|[|j]]; lia). cbn [Nat.add].
  transitivity (/ w * leval (K := CF) deg (Mdesc (K := CF) (M c Q R) 0 deg i j) z).
  - rewrite Mdesc_entry by assumption. rewrite <- H.
    set (p := peval (K := CF) (coeffs (K := CF) tm ((i * 2 + j) * (deg + 1)) (deg + 1)) z). change (@eq (car CF)) with (@eq C). change (car CF) with C in p. field. exact Hw.
  - symmetry. apply (leval_scal (K := CF) deg (/ w)).
Qed.

(** the transposed product *)
Definition mtr (X : mat2) : mat2 := M2 (a11 X) (a21 X) (a12 X) (a22 X).
Lemma mtr_mul X Y : mtr (mmul X Y) = mmul (mtr Y) (mtr X).
Proof. apply mat2_eq; unfold mtr, mmul; cbn [a11 a12 a21 a22]; ring. Qed.
Lemma desc_front n (A : nat -> mat2) : descending (S n) A = mmul (descending n (fun k => A (S k))) (A 0%nat).
Proof.
  induction n as [|n IH].
  - cbn [descending]. now rewrite mmul_one_l, mmul_one_r.
  - change (descending (S (S n)) A) with (mmul (A (S n)) (descending (S n) A)). rewrite IH, mmul_assoc. reflexivity.
Qed.
Lemma desc_tr n (A : nat -> mat2) : mtr (descending n A) = descending n (fun k => mtr (A (n - 1 - k)%nat)).
Proof.
  revert A. induction n as [|n IH]; intros A; [reflexivity|].
  rewrite (desc_front n A), mtr_mul, IH. cbn [descending]. f_equal.
  - do 2 f_equal. lia.
  - apply desc_ext. intros k Hk. do 2 f_equal. lia.
Qed.
Lemma desc_conj n (A B : nat -> mat2) (X : mat2) : (forall k, (k < n)%nat -> mmul X (B k) = mmul (A k) X) ->
  mmul X (descending n B) = mmul (descending n A) X.
Proof.
  intros H. induction n as [|n IH]; cbn [descending]; [now rewrite mmul_one_l, mmul_one_r|].
  rewrite mmul_assoc, H by lia. rewrite <- mmul_assoc, IH by (intros; apply H; lia). now rewrite mmul_assoc.
Qed.
Definition rv (n : nat) (f : nat -> C) : nat -> C := fun k => f (n - 1 - k)%nat.
Lemma sample_tr n c Q R z :
  entry (descending n (sample_mat c Q R z)) 0 0 = entry (descending n (sample_mat (rv n c) (rv n R) (rv n Q) z)) 0 0 /\
  entry (descending n (sample_mat c Q R z)) 0 1 = z * entry (descending n (sample_mat (rv n c) (rv n R) (rv n Q) z)) 1 0.
Proof.
  pose proof (desc_conj n (fun k => mtr (sample_mat c Q R z (n - 1 - k)%nat)) (sample_mat (rv n c) (rv n R) (rv n Q) z) (M2 1 0 0 z)) as H.
  rewrite <- (desc_tr n (sample_mat c Q R z)) in H.
  assert (E : mmul (M2 1 0 0 z) (descending n (sample_mat (rv n c) (rv n R) (rv n Q) z)) = mmul (mtr (descending n (sample_mat c Q R z))) (M2 1 0 0 z)).
  { apply H. intros k Hk. apply mat2_eq; unfold sample_mat, rv, mtr, mmul, mscal; cbn [a11 a12 a21 a22]; ring. }
  clear H. destruct (descending n (sample_mat c Q R z)) as [x11 x12 x21 x22]. destruct (descending n _) as [y11 y12 y21 y22].
  unfold mmul, mtr in E. cbn [a11 a12 a21 a22] in E.
  pose proof (f_equal a11 E) as E1. pose proof (f_equal a21 E) as E2. cbn [a11 a12 a21 a22] in E1, E2. cbn [entry a11 a12 a21 a22]. split.
  - transitivity (x11 * 1 + x21 * 0); [ring|]. rewrite <- E1. ring.
  - transitivity (x12 * 1 + x22 * 0); [ring|]. rewrite <- E2. ring.
Qed.

Lemma transpose_ok deg (tm : list C) : (4 * (deg + 1) <= length tm)%nat ->
  exists tm1, transpose_tm deg tm = Ret tm1 /\ length tm1 = length tm /\
    forall y, nth y tm1 (RtoC 0) = if andb (2 * (deg + 1) <=? y)%nat (y <? 3 * (deg + 1))%nat
      then (if (y =? 2 * (deg + 1))%nat then 0 else nth (y - (deg + 2)) tm (RtoC 0)) else nth y tm (RtoC 0).
Proof.
  intros L. unfold transpose_tm. rewrite aset_upd by lia. cbn [bind].
  match goal with |- context [for_ ?n ?lo ?b ?s] =>
    destruct (for_inv (fun i t => length t = length tm /\ forall y, nth y t (RtoC 0) =
      if andb (2 * (deg + 1) <=? y)%nat (y <? 2 * (deg + 1) + 1 + i)%nat
      then (if (y =? 2 * (deg + 1))%nat then 0 else nth (y - (deg + 2)) tm (RtoC 0)) else nth y tm (RtoC 0)) b n lo s) as (t & E & P) end.
  - split; [apply upd_length|]. intros y. rewrite nth_upd by lia.
    destruct (Nat.eqb_spec y (2 * (deg + 1))) as [->|N].
    + destruct (Nat.leb_spec (2 * (deg + 1)) (2 * (deg + 1))); [|lia]. destruct (Nat.ltb_spec (2 * (deg + 1)) (2 * (deg + 1) + 1 + 0)); [reflexivity|lia].
    + destruct (Nat.leb_spec (2 * (deg + 1)) y), (Nat.ltb_spec y (2 * (deg + 1) + 1 + 0)); cbn [andb]; try reflexivity; lia.
  - intros i t Hi (Lt & Nt). rewrite (aget_nth t (RtoC 0)) by lia. cbn [bind]. rewrite aset_upd by lia.
    eexists. split; [reflexivity|]. split; [rewrite upd_length; exact Lt|]. intros y. rewrite nth_upd by lia. rewrite !Nt.
    destruct (Nat.eqb_spec y (2 * (deg + 1) + 1 + i)) as [->|N].
    + destruct (Nat.leb_spec (2 * (deg + 1)) (deg + 1 + i)), (Nat.ltb_spec (deg + 1 + i) (2 * (deg + 1) + 1 + i)); try lia; cbn [andb].
      destruct (Nat.leb_spec (2 * (deg + 1)) (2 * (deg + 1) + 1 + i)), (Nat.ltb_spec (2 * (deg + 1) + 1 + i) (2 * (deg + 1) + 1 + S i)); try lia; cbn [andb].
      destruct (Nat.eqb_spec (2 * (deg + 1) + 1 + i) (2 * (deg + 1))); [lia|]. f_equal. lia.
    + destruct (Nat.leb_spec (2 * (deg + 1)) y), (Nat.ltb_spec y (2 * (deg + 1) + 1 + i)), (Nat.ltb_spec y (2 * (deg + 1) + 1 + S i)); cbn [andb]; try reflexivity; lia.
  - destruct P as (Lt & Nt). exists t. split; [exact E|]. split; [exact Lt|]. intros y. rewrite Nt.
    replace (2 * (deg + 1) + 1 + (0 + deg))%nat with (3 * (deg + 1))%nat by lia. reflexivity.
Qed.

Lemma reverse_ok D (q : list C) : (D <= length q)%nat ->
  exists q1, reverse_q D q = Ret q1 /\ length q1 = length q /\ forall n, nth n q1 (RtoC 0) = if (n <? D)%nat then nth (D - 1 - n) q (RtoC 0) else nth n q (RtoC 0).
Proof.
  intros L. unfold reverse_q. pose proof (Nat.div_mod D 2 ltac:(lia)) as Hd. pose proof (Nat.mod_upper_bound D 2 ltac:(lia)) as Hm.
  match goal with |- context [for_ ?n ?lo ?b ?s] =>
    destruct (for_inv (fun i t => length t = length q /\ forall y, nth y t (RtoC 0) =
      if andb (y <? D)%nat (orb (y <? i)%nat (D - 1 - y <? i)%nat) then nth (D - 1 - y) q (RtoC 0) else nth y q (RtoC 0)) b n lo s) as (t & E & P) end.
  - split; [reflexivity|]. intros y. destruct (Nat.ltb_spec y D), (Nat.ltb_spec y 0), (Nat.ltb_spec (D - 1 - y) 0); cbn [andb orb]; try reflexivity; lia.
  - intros i t Hi (Lt & Nt). rewrite (aget_nth t (RtoC 0)) by lia. cbn [bind]. rewrite (aget_nth t (RtoC 0)) by lia. cbn [bind].
    rewrite aset_upd by lia. cbn [bind]. rewrite aset_upd by (rewrite upd_length; lia).
    eexists. split; [reflexivity|]. split; [rewrite !upd_length; exact Lt|]. intros y. rewrite !nth_upd by (rewrite ?upd_length; lia). rewrite !Nt.
    destruct (Nat.eqb_spec y (D - 1 - i)) as [->|N1]; [|destruct (Nat.eqb_spec y i) as [->|N2]].
    + destruct (Nat.ltb_spec (D - 1 - i) D), (Nat.ltb_spec (D - 1 - i) (S i)), (Nat.ltb_spec (D - 1 - (D - 1 - i)) (S i)), (Nat.ltb_spec i D), (Nat.ltb_spec i i), (Nat.ltb_spec (D - 1 - i) i); cbn [andb orb]; try lia; f_equal; lia.
    + destruct (Nat.ltb_spec (D - 1 - i) D), (Nat.ltb_spec i (S i)), (Nat.ltb_spec i D), (Nat.ltb_spec (D - 1 - i) i), (Nat.ltb_spec (D - 1 - (D - 1 - i)) i); cbn [andb orb]; try lia; f_equal; lia.
    + destruct (Nat.ltb_spec y D), (Nat.ltb_spec y i), (Nat.ltb_spec y (S i)), (Nat.ltb_spec (D - 1 - y) i), (Nat.ltb_spec (D - 1 - y) (S i)); cbn [andb orb]; try reflexivity; lia.
  - destruct P as (Lt & Nt). exists t. split; [exact E|]. split; [exact Lt|]. intros y. rewrite Nt.
    destruct (Nat.ltb_spec y D), (Nat.ltb_spec y (0 + D / 2)), (Nat.ltb_spec (D - 1 - y) (0 + D / 2)); cbn [andb orb]; try reflexivity; try lia.
    f_equal. lia.
Qed.

(** the column after the transposition *)
Lemma low_transposed (tm tm1 : list C) deg (c Q R : nat -> C) (w : C) : w <> 0 -> (4 * (deg + 1) <= length tm)%nat ->
  transpose_tm deg tm = Ret tm1 ->
  (forall z j, (j < 2)%nat -> w * peval (K := CF) (coeffs (K := CF) tm (j * (deg + 1)) (deg + 1)) z = entry (descending deg (sample_mat c Q R z)) 0 j) ->
  forall a l, (a < 2)%nat -> (l < deg)%nat ->
    low tm1 0 (deg + 1) deg a 0 l = / w * Mdesc (K := CF) (M (rv deg c) (rv deg R) (rv deg Q)) 0 deg a 0%nat l.
Proof.
  intros Hw L E H a l Ha Hl. destruct (transpose_ok deg tm L) as (t & E' & L1 & N1). rewrite E in E'. injection E' as <-.
  destruct a as [|[|a]]; [| |lia].
  - transitivity (low tm 0 (deg + 1) deg 0 0 l).
    { unfold low. destruct (Nat.leb_spec l deg); [|lia]. rewrite N1. destruct (Nat.leb_spec (2 * (deg + 1)) (0 + (0 * 2 + 0) * (deg + 1) + (deg - l))); [lia|]. reflexivity. }
    apply (low_from_eval tm deg (rv deg c) (rv deg R) (rv deg Q) w 0 0); [lia|lia|exact Hw|exact L| |lia].
    intros z. rewrite <- (proj1 (sample_tr deg c Q R z)). exact (H z 0%nat ltac:(lia)).
  - transitivity (low tm 0 (deg + 1) deg 0 1 (S l)).
    { unfold low. destruct (Nat.leb_spec l deg); [|lia]. destruct (Nat.leb_spec (S l) deg); [|lia]. rewrite N1.
      destruct (Nat.leb_spec (2 * (deg + 1)) (0 + (1 * 2 + 0) * (deg + 1) + (deg - l))); [|lia].
      destruct (Nat.ltb_spec (0 + (1 * 2 + 0) * (deg + 1) + (deg - l)) (3 * (deg + 1))); [|lia]. cbn [andb].
      destruct (Nat.eqb_spec (0 + (1 * 2 + 0) * (deg + 1) + (deg - l)) (2 * (deg + 1))); [lia|]. f_equal. lia. }
    set (T := Mdesc (K := CF) (M (rv deg c) (rv deg R) (rv deg Q)) 0 deg).
    pose proof (leval_idC (S deg) (low tm 0 (deg + 1) deg 0 1) (fun l => match l with O => RtoC 0 | S l' => / w * T 1%nat 0%nat l' end)) as HI.
    apply (HI) with (l := S l); [|lia]. clear HI. intros z.
    transitivity (leval (K := CF) deg (low tm 0 (deg + 1) deg 0 1) z).
    { assert (E0 : low tm 0 (deg + 1) deg 0 1 (S deg) = 0) by (unfold low; destruct (Nat.leb_spec (S deg) deg); [lia|reflexivity]).
      unfold leval. match goal with |- fsum (S ?m) ?f = ?y => change (fadd (c := CF) (fsum (K := CF) m f) (f m) = y) end. cbv beta. rewrite E0.
      set (y := fsum (K := CF) (S deg) _). change (@eq (car CF)) with (@eq C). change (car CF) with C in y. cbn [CF fadd fmul f0 car]. ring. }
    rewrite leval_low by lia. cbn [Nat.add Nat.mul]. rewrite Nat.add_0_r.
    transitivity (/ w * (w * peval (K := CF) (coeffs (K := CF) tm (deg + 1) (deg + 1)) z)).
    { set (p := peval (K := CF) _ z). change (@eq (car CF)) with (@eq C). change (car CF) with C in p. field. exact Hw. }
    pose proof (H z 1%nat ltac:(lia)) as H1. rewrite Nat.mul_1_l in H1. rewrite H1. rewrite (proj2 (sample_tr deg c Q R z)).
    rewrite <- Mdesc_entry by lia. fold T. unfold leval. rewrite (fsum_S_l (K := CF) (S deg)).
    transitivity (fadd (c := CF) (f0 (c := CF)) (fmul (c := CF) (fmul (c := CF) (/ w) z) (fsum (K := CF) (S deg) (fun l0 => fmul (c := CF) (T 1%nat 0%nat l0) (fpow (K := CF) z l0))))).
    { cbn [CF fadd fmul f0 car]. ring. }
    rewrite <- (fsum_scal (K := CF)). f_equal; [cbn [CF fadd fmul f0 car fpow f1]; ring|].
    apply fsum_ext. intros k _. change (@eq (car CF)) with (@eq C). cbn [fpow CF fadd fmul f0 car]. ring.
Qed.
