(** * Polynomials with the highest coefficient first, as power series in 1/z
   p(z) = z^deg * sum_k p_k z^(-k), so the product of coefficient sequences is
   the Cauchy product, independent of the degrees. *)
From Verif Require Export Base MatSpec.

Section Series.
Context {K : cfield}.
Add Field KF : (cfield_th K).
Local Open Scope cf_scope.

(** Cauchy product *)
Definition smul (p q : nat -> K) (l : nat) : K := fsum (S l) (fun i => p i * q (l - i)%nat).

Lemma fsum_triangle n (F : nat -> nat -> K) :
  fsum n (fun l => fsum (S l) (fun i => F i (l - i)%nat)) = fsum n (fun i => fsum (n - i) (F i)).
Proof.
  induction n as [|n IH]; [reflexivity|].
  change (fsum (S n) (fun l => fsum (S l) (fun i => F i (l - i)%nat)))
    with (fsum n (fun l => fsum (S l) (fun i => F i (l - i)%nat)) + fsum (S n) (fun i => F i (n - i)%nat)).
  rewrite IH.
  rewrite (fsum_ext (S n) (fun i => fsum (S n - i) (F i)) (fun i => fsum (n - i) (F i) + F i (n - i)%nat)).
  2:{ intros i Hi. replace (S n - i)%nat with (S (n - i)) by lia. reflexivity. }
  rewrite fsum_add. f_equal.
  change (fsum (S n) (fun i => fsum (n - i) (F i))) with (fsum n (fun i => fsum (n - i) (F i)) + fsum (n - n) (F n)).
  rewrite Nat.sub_diag. cbn [fsum]. ring.
Qed.

Lemma smul_ext p p' q q' l : (forall i, (i <= l)%nat -> p i = p' i) -> (forall i, (i <= l)%nat -> q i = q' i) ->
  smul p q l = smul p' q' l.
Proof.
  intros Hp Hq. unfold smul. apply fsum_ext. intros i Hi. rewrite Hp, Hq by lia. reflexivity.
Qed.

Lemma smul_comm (p q : nat -> K) l : smul p q l = smul q p l.
Proof.
  unfold smul. rewrite fsum_rev. apply fsum_ext. intros i Hi.
  replace (S l - 1 - i)%nat with (l - i)%nat by lia.
  replace (l - (l - i))%nat with i by lia. ring.
Qed.

Lemma smul_assoc p q r l : smul (smul p q) r l = smul p (smul q r) l.
Proof.
  unfold smul.
  rewrite (fsum_ext (S l) _ (fun i => fsum (S i) (fun a => p a * q (i - a)%nat * r (l - a - (i - a))%nat))).
  2:{ intros i Hi. rewrite <- fsum_scal_r. apply fsum_ext. intros a Ha.
      replace (l - a - (i - a))%nat with (l - i)%nat by lia. reflexivity. }
  rewrite (fsum_triangle (S l) (fun a b => p a * q b * r (l - a - b)%nat)).
  apply fsum_ext. intros a Ha. replace (S l - a)%nat with (S (l - a)) by lia.
  rewrite <- fsum_scal. apply fsum_ext. intros b Hb. ring.
Qed.

Definition sone (l : nat) : K := match l with O => 1 | _ => 0 end.
Lemma smul_one_r p l : smul p sone l = p l.
Proof.
  unfold smul. rewrite (fsum_single (S l) l).
  - rewrite Nat.sub_diag. cbn [sone]. ring.
  - lia.
  - intros i Hi Hne. destruct (l - i)%nat eqn:E; [lia|]. cbn [sone]. ring.
Qed.

Lemma smul_fsum_l m (f : nat -> nat -> K) q l :
  smul (fun k => fsum m (fun a => f a k)) q l = fsum m (fun a => smul (f a) q l).
Proof.
  unfold smul. rewrite <- fsum_swap. apply fsum_ext. intros i Hi. now rewrite <- fsum_scal_r.
Qed.
Lemma smul_fsum_r m (f : nat -> nat -> K) p l :
  smul p (fun k => fsum m (fun a => f a k)) l = fsum m (fun a => smul p (f a) l).
Proof.
  unfold smul. rewrite <- fsum_swap. apply fsum_ext. intros i Hi. now rewrite <- fsum_scal.
Qed.
Lemma smul_scal_l c p q l : smul (fun k => c * p k) q l = c * smul p q l.
Proof. unfold smul. rewrite <- fsum_scal. apply fsum_ext. intros i Hi. ring. Qed.
Lemma smul_scal_r c p q l : smul p (fun k => c * q k) l = c * smul p q l.
Proof. unfold smul. rewrite <- fsum_scal. apply fsum_ext. intros i Hi. ring. Qed.

(** support *)
Lemma smul_support a b p q : (forall i, (a < i)%nat -> p i = 0) -> (forall i, (b < i)%nat -> q i = 0) ->
  forall l, (a + b < l)%nat -> smul p q l = 0.
Proof.
  intros Hp Hq l Hl. apply fsum_zero'. intros i Hi.
  destruct (Nat.lt_ge_cases a i); [rewrite Hp by lia; ring|rewrite Hq by lia; ring].
Qed.

(** evaluation: z^deg * series at 1/z *)
Definition seval (deg : nat) (p : nat -> K) (z : K) : K :=
  fsum (S deg) (fun k => p k * z ^ (deg - k)).

Lemma seval_smul a b p q z : (forall i, (a < i)%nat -> p i = 0) -> (forall i, (b < i)%nat -> q i = 0) ->
  seval (a + b) (smul p q) z = seval a p z * seval b q z.
Proof.
  intros Hp Hq. unfold seval, smul.
  rewrite (fsum_ext (S (a + b)) _ (fun l => fsum (S l) (fun i => p i * q (l - i)%nat * z ^ (a + b - (i + (l - i)))))).
  2:{ intros l Hl. rewrite <- fsum_scal_r. apply fsum_ext. intros i Hi.
      replace (i + (l - i))%nat with l by lia. reflexivity. }
  rewrite (fsum_triangle (S (a + b)) (fun i j => p i * q j * z ^ (a + b - (i + j)))).
  replace (S (a + b)) with (S a + b)%nat at 1 by lia. rewrite fsum_split.
  rewrite (fsum_zero' b).
  2:{ intros i Hi. apply fsum_zero'. intros j Hj. rewrite Hp by lia. ring. }
  rewrite <- fsum_scal_r. 
  transitivity (fsum (S a) (fun i => fsum (S (a + b) - i) (fun j => p i * q j * z ^ (a + b - (i + j)))));
    [ring|].
  apply fsum_ext. intros i Hi. rewrite <- fsum_scal.
  replace (S (a + b) - i)%nat with (S b + (a - i))%nat by lia. rewrite fsum_split.
  rewrite (fsum_zero' (a - i)). 2:{ intros j Hj. rewrite Hq by lia. ring. }
  transitivity (fsum (S b) (fun j => p i * q j * z ^ (a + b - (i + j)))); [ring|].
  apply fsum_ext. intros j Hj. replace (a + b - (i + j))%nat with ((a - i) + (b - j))%nat by lia.
  rewrite fpow_add. ring.
Qed.

(** ** matrices (i,j < m) of series, and of numbers *)
Definition smat := nat -> nat -> nat -> K.
Definition smmul (m : nat) (A B : smat) : smat :=
  fun i j l => fsum m (fun k => smul (A i k) (B k j) l).
Definition smone : smat := fun i j l => if Nat.eqb i j then sone l else 0.

(** pointwise equality on the index range *)
Definition smeq (m : nat) (A B : smat) : Prop :=
  forall i j l, (i < m)%nat -> (j < m)%nat -> A i j l = B i j l.

Lemma smeq_refl m A : smeq m A A. Proof. intros i j l _ _. reflexivity. Qed.
Lemma smeq_sym m A B : smeq m A B -> smeq m B A. Proof. intros H i j l Hi Hj. symmetry. now apply H. Qed.
Lemma smeq_trans m A B C : smeq m A B -> smeq m B C -> smeq m A C.
Proof. intros H1 H2 i j l Hi Hj. rewrite H1 by assumption. now apply H2. Qed.

Lemma smmul_ext m A A' B B' : smeq m A A' -> smeq m B B' -> smeq m (smmul m A B) (smmul m A' B').
Proof.
  intros HA HB i j l Hi Hj. unfold smmul. apply fsum_ext. intros k Hk.
  apply smul_ext; intros a Ha; [now apply HA|now apply HB].
Qed.

Lemma smmul_assoc m A B C : smeq m (smmul m (smmul m A B) C) (smmul m A (smmul m B C)).
Proof.
  intros i j l Hi Hj. unfold smmul.
  rewrite (fsum_ext m _ (fun k => fsum m (fun k' => smul (smul (A i k') (B k' k)) (C k j) l))).
  2:{ intros k Hk. apply smul_fsum_l. }
  rewrite (fsum_ext m (fun k => smul (A i k) _ l)
     (fun k => fsum m (fun k' => smul (A i k) (smul (B k k') (C k' j)) l))).
  2:{ intros k Hk. apply smul_fsum_r. }
  rewrite fsum_swap. apply fsum_ext. intros k Hk. apply fsum_ext. intros k' Hk'. apply smul_assoc.
Qed.

Lemma smmul_one_r m A : smeq m (smmul m A smone) A.
Proof.
  intros i j l Hi Hj. unfold smmul, smone. rewrite (fsum_single m j).
  - rewrite Nat.eqb_refl. apply smul_one_r.
  - exact Hj.
  - intros k Hk Hne. destruct (Nat.eqb_spec k j); [contradiction|].
    unfold smul. apply fsum_zero'. intros; ring.
Qed.

(** ordered product A_0 A_1 ... A_(n-1) *)
Fixpoint smprod (m n : nat) (A : nat -> smat) : smat :=
  match n with O => smone | S n' => smmul m (smprod m n' A) (A n') end.

Definition smscal (c : K) (A : smat) : smat := fun i j l => c * A i j l.

Lemma smmul_scal m c c' A B : smeq m (smmul m (smscal c A) (smscal c' B)) (smscal (c * c') (smmul m A B)).
Proof.
  intros i j l Hi Hj. unfold smmul, smscal. rewrite <- fsum_scal. apply fsum_ext. intros k Hk.
  rewrite smul_scal_l, smul_scal_r. ring.
Qed.

Lemma smscal_ext m c A B : smeq m A B -> smeq m (smscal c A) (smscal c B).
Proof. intros H i j l Hi Hj. unfold smscal. now rewrite H. Qed.


(** pairing up: if c_s A'_s = A_2s A_(2s+1) then (prod c) prod A' = prod A *)
Lemma smprod_pairs m n A A' c :
  (forall s, (s < n)%nat -> smeq m (smscal (c s) (A' s)) (smmul m (A (2 * s)%nat) (A (2 * s + 1)%nat))) ->
  smeq m (smscal (cprod n c) (smprod m n A')) (smprod m (2 * n) A).
Proof.
  induction n as [|n IH]; intros H.
  - intros i j l Hi Hj. unfold smscal. cbn. ring.
  - replace (2 * S n)%nat with (S (S (2 * n))) by lia. cbn [smprod cprod].
    apply smeq_trans with (smmul m (smscal (cprod n c) (smprod m n A')) (smscal (c n) (A' n))).
    { apply smeq_sym, smmul_scal. }
    apply smeq_trans with (smmul m (smprod m (2 * n) A) (smmul m (A (2 * n)%nat) (A (2 * n + 1)%nat))).
    { apply smmul_ext; [apply IH; intros s Hs; apply H; lia|apply H; lia]. }
    apply smeq_trans with (smmul m (smmul m (smprod m (2 * n) A) (A (2 * n)%nat)) (A (2 * n + 1)%nat)).
    { apply smeq_sym, smmul_assoc. }
    replace (2 * n + 1)%nat with (S (2 * n)) by lia. apply smeq_refl.
Qed.

Lemma smprod_ext m n A B : (forall t, (t < n)%nat -> smeq m (A t) (B t)) -> smeq m (smprod m n A) (smprod m n B).
Proof.
  induction n as [|n IH]; intros H; [apply smeq_refl|]. cbn [smprod].
  apply smmul_ext; [apply IH; intros; apply H; lia|apply H; lia].
Qed.

Lemma smprod_pad m n e A : (forall t, (n <= t)%nat -> smeq m (A t) smone) ->
  smeq m (smprod m (n + e) A) (smprod m n A).
Proof.
  intros H. induction e as [|e IH]; [rewrite Nat.add_0_r; apply smeq_refl|].
  rewrite Nat.add_succ_r. cbn [smprod].
  apply smeq_trans with (smmul m (smprod m (n + e) A) smone).
  { apply smmul_ext; [apply smeq_refl|apply H; lia]. }
  apply smeq_trans with (smprod m (n + e) A); [apply smmul_one_r|exact IH].
Qed.

Definition ssupp (m deg : nat) (A : smat) : Prop :=
  forall i j l, (i < m)%nat -> (j < m)%nat -> (deg < l)%nat -> A i j l = 0.

Lemma smmul_supp m a b A B : ssupp m a A -> ssupp m b B -> ssupp m (a + b) (smmul m A B).
Proof.
  intros HA HB i j l Hi Hj Hl. apply fsum_zero'. intros k Hk.
  apply (smul_support a b); [intros; now apply HA|intros; now apply HB|exact Hl].
Qed.

Lemma smone_supp m a : ssupp m a smone.
Proof. intros i j l Hi Hj Hl. unfold smone. destruct (Nat.eqb i j); [|reflexivity]. destruct l; [lia|reflexivity]. Qed.

Lemma smprod_supp m n deg A : (forall t, (t < n)%nat -> ssupp m deg (A t)) -> ssupp m (n * deg) (smprod m n A).
Proof.
  induction n as [|n IH]; intros H; [apply smone_supp|]. cbn [smprod].
  replace (S n * deg)%nat with (n * deg + deg)%nat by lia.
  apply smmul_supp; [apply IH; intros; apply H; lia|apply H; lia].
Qed.

(** number matrices *)

Definition smeval (deg : nat) (A : smat) (z : K) : nmat := fun i j => seval deg (A i j) z.

Lemma smeval_mul m a b A B z i j : ssupp m a A -> ssupp m b B -> (i < m)%nat -> (j < m)%nat ->
  smeval (a + b) (smmul m A B) z i j = nmmul m (smeval a A z) (smeval b B z) i j.
Proof.
  intros HA HB Hi Hj. unfold smeval, nmmul. unfold seval at 1, smmul.
  rewrite (fsum_ext (S (a + b)) _ (fun l => fsum m (fun k => smul (A i k) (B k j) l * z ^ (a + b - l)))).
  2:{ intros l Hl. now rewrite <- fsum_scal_r. }
  rewrite fsum_swap. apply fsum_ext. intros k Hk.
  apply (seval_smul a b (A i k) (B k j) z); intros; [now apply HA|now apply HB].
Qed.

Lemma smeval_prod m n deg A z : (forall t, (t < n)%nat -> ssupp m deg (A t)) ->
  forall i j, (i < m)%nat -> (j < m)%nat ->
  smeval (n * deg) (smprod m n A) z i j = nmprod m n (fun t => smeval deg (A t) z) i j.
Proof.
  induction n as [|n IH]; intros H i j Hi Hj.
  - cbn [smprod nmprod Nat.mul]. unfold smeval, seval, smone, nmone. cbn [fsum Nat.sub fpow].
    destruct (Nat.eqb i j); cbn [sone]; ring.
  - cbn [smprod nmprod]. replace (S n * deg)%nat with (n * deg + deg)%nat by lia.
    rewrite (smeval_mul m); [|apply smprod_supp; intros; apply H; lia|apply H; lia|exact Hi|exact Hj].
    unfold nmmul. apply fsum_ext. intros k Hk. f_equal. apply IH; [intros; apply H; lia|exact Hi|exact Hk].
Qed.

(** integer powers *)

Lemma finv_neq0 (x : K) : x <> 0 -> / x <> 0.
Proof. intros Hx E. apply (f1_neq_f0 (K:=K)). rewrite <- (finv_l x Hx), E. ring. Qed.

Lemma zpow_succ (x : K) a : x <> 0 -> zpow x (a + 1) = zpow x a * x.
Proof.
  intros Hx. destruct a as [|p|p].
  - change (0 + 1)%Z with 1%Z. cbn [zpow]. change (Pos.to_nat 1) with 1%nat. rewrite fpow_1. ring.
  - replace (Zpos p + 1)%Z with (Zpos (p + 1)) by lia. cbn [zpow].
    rewrite Pos2Nat.inj_add, fpow_add. f_equal. change (Pos.to_nat 1) with 1%nat. apply fpow_1.
  - destruct (Pos.eq_dec p 1) as [->|Hne].
    + change (Zneg 1 + 1)%Z with 0%Z. cbn [zpow]. change (Pos.to_nat 1) with 1%nat. rewrite fpow_1.
      symmetry. now apply finv_l.
    + replace (Zneg p + 1)%Z with (Zneg (p - 1)) by lia. cbn [zpow].
      replace (Pos.to_nat p) with (S (Pos.to_nat (p - 1))) by lia. cbn [fpow].
      transitivity (((/ x) * x) * (/ x) ^ Pos.to_nat (p - 1)); [rewrite finv_l by exact Hx; ring|ring].
Qed.
Lemma zpow_add (x : K) a b : x <> 0 -> zpow x (a + b) = zpow x a * zpow x b.
Proof.
  intros Hx. revert b. apply (Z.peano_ind (fun b => zpow x (a + b) = zpow x a * zpow x b)).
  - rewrite Z.add_0_r. cbn. ring.
  - intros b IH. unfold Z.succ. rewrite Z.add_assoc, !zpow_succ by exact Hx. rewrite IH. ring.
  - intros b IH. apply (fmul_cancel_l x); [exact Hx|].
    transitivity (zpow x (a + Z.pred b) * x); [ring|]. rewrite <- zpow_succ by exact Hx.
    replace (a + Z.pred b + 1)%Z with (a + b)%Z by lia. rewrite IH.
    transitivity (zpow x a * (zpow x (Z.pred b) * x)); [|ring].
    rewrite <- zpow_succ by exact Hx. do 2 f_equal. lia.
Qed.
Lemma zpow_neg (x : K) a : x <> 0 -> zpow x a * zpow x (- a) = 1.
Proof. intros Hx. rewrite <- zpow_add by exact Hx. now rewrite Z.add_opp_diag_r. Qed.
End Series.
