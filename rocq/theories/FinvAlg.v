(** * Inverse of a product of sample matrices, as power series in z (lowest coefficient first) *)
From Coq Require Import Reals List Lia.
From Coquelicot Require Import Coquelicot.
From Verif Require Import Base Mem Series Fields CField MatSpec.
Import ListNotations.

Section Alg.
Context {K : cfield}.
Add Field KF : (cfield_th K).
Local Open Scope cf_scope.
Local Notation smat := (nat -> nat -> nat -> K).

Lemma smul_comm_ext (p p' q q' : nat -> K) l : (forall i, p i = p' i) -> (forall i, q i = q' i) -> smul p q l = smul p' q' l.
Proof. intros. apply smul_ext; auto. Qed.

(** c z^n times the identity *)
Definition zI (c : K) (n : nat) : smat := fun i j l => if Nat.eqb i j then (if Nat.eqb l n then c else 0) else 0.

Lemma smul_mono c n (q : nat -> K) l : smul (fun l => if Nat.eqb l n then c else 0) q l = if (l <? n)%nat then 0 else c * q (l - n)%nat.
Proof.
  unfold smul. destruct (Nat.ltb_spec l n) as [H|H].
  - apply fsum_zero'. intros i Hi. destruct (Nat.eqb_spec i n); [lia|ring].
  - rewrite (fsum_single (S l) n); [|lia|].
    + rewrite Nat.eqb_refl. reflexivity.
    + intros i Hi Hne. destruct (Nat.eqb_spec i n); [lia|ring].
Qed.
Lemma smul_zero_l (q : nat -> K) l : smul (fun _ => 0) q l = 0.
Proof. apply fsum_zero'. intros. ring. Qed.
Lemma smul_zero_r (q : nat -> K) l : smul q (fun _ => 0) l = 0.
Proof. apply fsum_zero'. intros. ring. Qed.

Lemma zI_l c n (V : smat) : forall i j l, (i < 2)%nat ->
  smmul 2 (zI c n) V i j l = if (l <? n)%nat then 0 else c * V i j (l - n)%nat.
Proof.
  intros i j l Hi. unfold smmul. cbn [fsum].
  destruct i as [|[|i]]; [| |lia]; unfold zI; cbn [Nat.eqb]; rewrite smul_mono, smul_zero_l; ring.
Qed.
Lemma zI_r c n (V : smat) : forall i j l, (j < 2)%nat ->
  smmul 2 V (zI c n) i j l = if (l <? n)%nat then 0 else c * V i j (l - n)%nat.
Proof.
  intros i j l Hj. unfold smmul. cbn [fsum].
  destruct j as [|[|j]]; [| |lia]; unfold zI; cbn [Nat.eqb]; rewrite smul_zero_r, smul_comm, smul_mono; ring.
Qed.
Lemma zI_comm c n V : smeq 2 (smmul 2 (zI c n) V) (smmul 2 V (zI c n)).
Proof. intros i j l Hi Hj. now rewrite zI_l, zI_r. Qed.
Lemma zI_mul c n c' n' : smeq 2 (smmul 2 (zI c n) (zI c' n')) (zI (c * c') (n + n')).
Proof.
  intros i j l Hi Hj. rewrite zI_l by assumption. unfold zI. destruct (Nat.eqb i j); destruct (Nat.ltb_spec l n); try ring;
  destruct (Nat.eqb_spec l (n + n')); destruct (Nat.eqb_spec (l - n) n'); try lia; ring.
Qed.

(** one sample: c [[1, Q z],[R, z]] and s [[z, -Q z],[-R, 1]] *)
Definition Msamp (c Q R : K) : smat := fun i j l =>
  match i, j, l with
  | 0%nat, 0%nat, 0%nat => c | 0%nat, 1%nat, 1%nat => c * Q | 1%nat, 0%nat, 0%nat => c * R | 1%nat, 1%nat, 1%nat => c | _, _, _ => 0 end.
Definition Minv (s Q R : K) : smat := fun i j l =>
  match i, j, l with
  | 0%nat, 0%nat, 1%nat => s | 0%nat, 1%nat, 1%nat => - s * Q | 1%nat, 0%nat, 0%nat => - s * R | 1%nat, 1%nat, 0%nat => s | _, _, _ => 0 end.

Lemma smul_deg1 (p q : nat -> K) l : (forall i, (1 < i)%nat -> p i = 0) -> (forall i, (1 < i)%nat -> q i = 0) ->
  smul p q l = match l with 0%nat => p 0%nat * q 0%nat | 1%nat => p 0%nat * q 1%nat + p 1%nat * q 0%nat | 2%nat => p 1%nat * q 1%nat | _ => 0 end.
Proof.
  intros Hp Hq. destruct l as [|[|[|l]]].
  - unfold smul. cbn [fsum Nat.sub]. ring.
  - unfold smul. cbn [fsum Nat.sub]. ring.
  - unfold smul. cbn [fsum Nat.sub]. rewrite (Hp 2%nat), (Hq 2%nat) by lia. ring.
  - apply (smul_support 1 1); auto. lia.
Qed.
Lemma Minv_Msamp s c Q R : smeq 2 (smmul 2 (Minv s Q R) (Msamp c Q R)) (zI (s * c * (1 - Q * R)) 1).
Proof.
  assert (HM : forall i j l, (1 < l)%nat -> Msamp c Q R i j l = 0) by (intros [|[|i]] [|[|j]] [|[|l]] H; try lia; reflexivity).
  assert (HI : forall i j l, (1 < l)%nat -> Minv s Q R i j l = 0) by (intros [|[|i]] [|[|j]] [|[|l]] H; try lia; reflexivity).
  intros i j l Hi Hj. unfold smmul. cbn [fsum]. rewrite !smul_deg1 by auto.
  destruct i as [|[|i]]; [| |lia]; (destruct j as [|[|j]]; [| |lia]); destruct l as [|[|[|l]]]; unfold zI; cbn [Nat.eqb Minv Msamp]; ring.
Qed.

(** product of the samples lo, ..., lo+n-1, the last one leftmost *)
Fixpoint Mdesc (M : nat -> smat) (lo n : nat) : smat :=
  match n with O => smone | S k => smmul 2 (M (lo + k)%nat) (Mdesc M lo k) end.
Lemma smmul_one_l A : smeq 2 (smmul 2 (smone (K := K)) A) A.
Proof.
  intros i j l Hi Hj. transitivity (smmul 2 (zI 1 0) A i j l).
  - unfold smmul. cbn [fsum]. f_equal; [f_equal|]; apply smul_comm_ext; intros a; try reflexivity; unfold smone, zI; destruct i as [|[|i]]; try lia; cbn [Nat.eqb]; destruct a; reflexivity.
  - rewrite zI_l by exact Hi. destruct (Nat.ltb_spec l 0); [lia|]. rewrite Nat.sub_0_r. ring.
Qed.
Lemma Mdesc_split M lo m n : smeq 2 (Mdesc M lo (m + n)) (smmul 2 (Mdesc M (lo + m) n) (Mdesc M lo m)).
Proof.
  induction n as [|n IH].
  - rewrite Nat.add_0_r. apply smeq_sym. exact (smmul_one_l _).
  - rewrite Nat.add_succ_r. cbn [Mdesc]. apply smeq_trans with (smmul 2 (M (lo + (m + n))%nat) (smmul 2 (Mdesc M (lo + m) n) (Mdesc M lo m))).
    + apply smmul_ext; [apply smeq_refl|exact IH].
    + replace (lo + (m + n))%nat with (lo + m + n)%nat by lia. apply smeq_sym, smmul_assoc.
Qed.
Lemma Mdesc_ext M M' lo n : (forall k, (lo <= k < lo + n)%nat -> smeq 2 (M k) (M' k)) -> smeq 2 (Mdesc M lo n) (Mdesc M' lo n).
Proof.
  intros H. induction n as [|n IH]; [apply smeq_refl|]. cbn [Mdesc]. apply smmul_ext; [apply H; lia|apply IH; intros k Hk; apply H; lia].
Qed.

(** X is, up to a non-zero constant, z^n times the inverse of M *)
Definition invof (n : nat) (X M : smat) : Prop := exists c : K, c <> 0 /\ smeq 2 (smmul 2 X M) (zI c n).
Lemma fmul_neq0 (a b : K) : a <> 0 -> b <> 0 -> a * b <> 0.
Proof. intros Ha Hb E. apply Hb. apply (fmul_cancel_l a); [exact Ha|]. rewrite E. ring. Qed.
Lemma invof_mul n n' (X1 X2 M1 M2 : smat) : invof n X1 M1 -> invof n' X2 M2 -> invof (n + n') (smmul 2 X1 X2) (smmul 2 M2 M1).
Proof.
  intros (c & Hc & H1) (c' & Hc' & H2). exists (c' * c). split; [now apply fmul_neq0|].
  apply smeq_trans with (smmul 2 X1 (smmul 2 X2 (smmul 2 M2 M1))); [apply smmul_assoc|].
  apply smeq_trans with (smmul 2 X1 (smmul 2 (zI c' n') M1)).
  { apply smmul_ext; [apply smeq_refl|]. apply smeq_trans with (smmul 2 (smmul 2 X2 M2) M1); [apply smeq_sym, smmul_assoc|].
    apply smmul_ext; [exact H2|apply smeq_refl]. }
  apply smeq_trans with (smmul 2 (smmul 2 X1 (zI c' n')) M1); [apply smeq_sym, smmul_assoc|].
  apply smeq_trans with (smmul 2 (smmul 2 (zI c' n') X1) M1); [apply smmul_ext; [apply smeq_sym, zI_comm|apply smeq_refl]|].
  apply smeq_trans with (smmul 2 (zI c' n') (smmul 2 X1 M1)); [apply smmul_assoc|].
  apply smeq_trans with (smmul 2 (zI c' n') (zI c n)); [apply smmul_ext; [apply smeq_refl|exact H1]|].
  rewrite (Nat.add_comm n n'). apply zI_mul.
Qed.
Lemma invof_ext n (X X' M M' : smat) : smeq 2 X X' -> smeq 2 M M' -> invof n X M -> invof n X' M'.
Proof.
  intros HX HM (c & Hc & H). exists c. split; [exact Hc|]. apply smeq_trans with (smmul 2 X M); [|exact H].
  apply smmul_ext; now apply smeq_sym.
Qed.

(** truncation: the coefficients below n of a product depend on those of the factors only *)
Lemma smmul_trunc n (A A' B B' : smat) i j l : (l < n)%nat -> 
  (forall k l, (k < 2)%nat -> (l < n)%nat -> A i k l = A' i k l) -> (forall k l, (k < 2)%nat -> (l < n)%nat -> B k j l = B' k j l) ->
  smmul 2 A B i j l = smmul 2 A' B' i j l.
Proof. intros Hl HA HB. unfold smmul. apply fsum_ext. intros k Hk. apply smul_ext; intros a Ha; [apply HA|apply HB]; lia. Qed.

(** the constant coefficient of the upper entry of the first column *)
Section Samples.
Variables (c Q R : nat -> K).
Let M := fun k => Msamp (c k) (Q k) (R k).
Hypothesis Hc : forall k, c k <> 0.
Lemma Mdesc_col0 lo n (Y : smat) : Y 0%nat 0%nat 0%nat <> 0 -> smmul 2 (Mdesc M lo n) Y 0%nat 0%nat 0%nat <> 0.
Proof.
  intros HY. induction n as [|n IH].
  - cbn [Mdesc]. rewrite (smmul_one_l Y) by lia. exact HY.
  - cbn [Mdesc]. rewrite (smmul_assoc 2 (M (lo + n)%nat) (Mdesc M lo n) Y 0%nat 0%nat 0%nat) by lia.
    set (Z := smmul 2 (Mdesc M lo n) Y) in *. unfold smmul. cbn [fsum]. unfold smul at 1 2. cbn [fsum Nat.sub]. unfold M, Msamp.
    intros E. apply (fmul_neq0 (c (lo + n)%nat) (Z 0%nat 0%nat 0%nat)); [apply Hc|exact IH|]. rewrite <- E. ring.
Qed.
(** the quotient R_n is visible in the constant coefficients of the first column *)
Lemma Msamp_ratio k (Y : smat) : Y 0%nat 0%nat 0%nat <> 0 ->
  let T := smmul 2 (M k) Y in T 0%nat 0%nat 0%nat <> 0 /\ T 1%nat 0%nat 0%nat / T 0%nat 0%nat 0%nat = R k.
Proof.
  intros HY. cbv zeta. unfold smmul. cbn [fsum]. unfold smul. cbn [fsum Nat.sub]. unfold M, Msamp.
  assert (N : c k * Y 0%nat 0%nat 0%nat <> 0) by (apply fmul_neq0; [apply Hc|exact HY]).
  split; [intros E; apply N; rewrite <- E; ring|]. field. repeat split; first [exact HY|apply Hc|idtac].
Qed.
End Samples.
End Alg.
