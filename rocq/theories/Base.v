(** * Base: outcomes, checked arrays, fields

   Vocabulary shared by all model files.  Nothing in this file models a
   particular C function; it fixes how C memory and C numbers are read. *)
From Coq Require Export List Arith ZArith Lia Bool.
From Coq Require Export Ring Field.
Export ListNotations.

(** ** Outcomes: undefined behaviour is a distinct result. *)
Inductive out (A : Type) : Type :=
| Ret (a : A)     (* the C code returns normally *)
| UB.             (* undefined behaviour: out-of-bounds access, read of an
                     indeterminate value, ... *)
Arguments Ret {A} a.
Arguments UB {A}.

Definition bind {A B} (x : out A) (f : A -> out B) : out B :=
  match x with Ret a => f a | UB => UB end.
Notation "x <- e ;; f" := (bind e (fun x => f))
  (at level 100, e at next level, right associativity).

(** ** Checked arrays. [aget a i] is the C expression [a[i]] for an array
   object of [length a] elements, [aset a i x] is [a[i] = x]. *)
Fixpoint aget {A} (l : list A) (i : nat) : out A :=
  match l, i with
  | [], _ => UB
  | x :: _, O => Ret x
  | _ :: l', S i' => aget l' i'
  end.

Fixpoint aset {A} (l : list A) (i : nat) (x : A) : out (list A) :=
  match l, i with
  | [], _ => UB
  | _ :: l', O => Ret (x :: l')
  | y :: l', S i' => r <- aset l' i' x ;; Ret (y :: r)
  end.

Lemma aget_app_r {A} (l1 l2 : list A) i :
  length l1 <= i -> aget (l1 ++ l2) i = aget l2 (i - length l1).
Proof.
  revert i; induction l1 as [|a l1 IH]; intros i Hi; simpl in *.
  - f_equal; lia.
  - destruct i as [|i]; [lia|]. simpl. apply IH; lia.
Qed.

Lemma aget_app_l {A} (l1 l2 : list A) i :
  i < length l1 -> aget (l1 ++ l2) i = aget l1 i.
Proof.
  revert i; induction l1 as [|a l1 IH]; intros i Hi; simpl in *; [lia|].
  destruct i as [|i]; [reflexivity|]. simpl. apply IH; lia.
Qed.

Lemma aget_middle {A} (l1 : list A) x l2 i :
  i = length l1 -> aget (l1 ++ x :: l2) i = Ret x.
Proof. intros ->. rewrite aget_app_r by lia. now rewrite Nat.sub_diag. Qed.

Lemma aset_middle {A} (l1 : list A) y x l2 i :
  i = length l1 -> aset (l1 ++ y :: l2) i x = Ret (l1 ++ x :: l2).
Proof.
  intros ->. induction l1 as [|a l1 IH]; simpl; [reflexivity|].
  rewrite IH. reflexivity.
Qed.

Lemma aget_nth {A} (l : list A) d i :
  i < length l -> aget l i = Ret (nth i l d).
Proof.
  revert i; induction l as [|a l IH]; intros i Hi; simpl in *; [lia|].
  destruct i as [|i]; [reflexivity|]. apply IH; lia.
Qed.

Lemma aget_UB {A} (l : list A) i : length l <= i -> aget l i = UB.
Proof.
  revert i; induction l as [|a l IH]; intros i Hi; simpl in *; [reflexivity|].
  destruct i as [|i]; [lia|]. apply IH; lia.
Qed.

Lemma aget_Ret_lt {A} (l : list A) i x : aget l i = Ret x -> i < length l.
Proof.
  intros H. destruct (Nat.lt_ge_cases i (length l)) as [Hl|Hl]; [exact Hl|].
  now rewrite aget_UB in H.
Qed.

Fixpoint upd {A} (l : list A) (i : nat) (x : A) : list A :=
  match l, i with
  | [], _ => []
  | _ :: l', O => x :: l'
  | y :: l', S i' => y :: upd l' i' x
  end.

Lemma aset_upd {A} (l : list A) i x :
  i < length l -> aset l i x = Ret (upd l i x).
Proof.
  revert i; induction l as [|a l IH]; intros i Hi; simpl in *; [lia|].
  destruct i as [|i]; [reflexivity|]. now rewrite IH by lia.
Qed.

Lemma upd_length {A} (l : list A) i x : length (upd l i x) = length l.
Proof.
  revert i; induction l as [|a l IH]; intros [|i]; simpl; auto.
Qed.

Lemma nth_upd {A} (l : list A) i j x d :
  i < length l -> nth j (upd l i x) d = if Nat.eqb j i then x else nth j l d.
Proof.
  revert i j; induction l as [|a l IH]; intros i j Hi; simpl in *; [lia|].
  destruct i as [|i], j as [|j]; simpl; auto. apply IH; lia.
Qed.

Lemma aset_UB {A} (l : list A) i x : length l <= i -> aset l i x = UB.
Proof.
  revert i; induction l as [|a l IH]; intros i Hi; simpl in *; [reflexivity|].
  destruct i as [|i]; [lia|]. now rewrite IH by lia.
Qed.

(** Extensionality of lists through [nth]. *)
Lemma list_eq_nth {A} (l1 l2 : list A) d :
  length l1 = length l2 ->
  (forall i, i < length l1 -> nth i l1 d = nth i l2 d) -> l1 = l2.
Proof.
  revert l2; induction l1 as [|a l1 IH]; intros [|b l2] HL H; simpl in *;
    try discriminate; [reflexivity|].
  f_equal.
  - exact (H 0 ltac:(lia)).
  - apply IH; [lia|]. intros i Hi. exact (H (S i) ltac:(lia)).
Qed.

(** [tabulate n f = [f 0; ...; f (n-1)]] *)
Definition tabulate {A} (n : nat) (f : nat -> A) : list A := map f (seq 0 n).

Lemma tabulate_length {A} n (f : nat -> A) : length (tabulate n f) = n.
Proof. unfold tabulate. now rewrite map_length, seq_length. Qed.

Lemma nth_tabulate {A} n (f : nat -> A) d i :
  i < n -> nth i (tabulate n f) d = f i.
Proof.
  intros Hi. unfold tabulate.
  rewrite nth_indep with (d' := f 0) by (now rewrite map_length, seq_length).
  rewrite map_nth. now rewrite seq_nth.
Qed.

Lemma tabulate_ext {A} n (f g : nat -> A) :
  (forall i, i < n -> f i = g i) -> tabulate n f = tabulate n g.
Proof.
  intros H. unfold tabulate. apply map_ext_in. intros i Hi.
  apply H. apply in_seq in Hi. lia.
Qed.

Lemma nth_overflow_def {A} (l : list A) d i : length l <= i -> nth i l d = d.
Proof. intros. now apply nth_overflow. Qed.

(** ** Fields: the exact-arithmetic reading of [double] and [double complex]. *)
Record cfield : Type := {
  car :> Type;
  f0 : car; f1 : car;
  fadd : car -> car -> car;
  fmul : car -> car -> car;
  fsub : car -> car -> car;
  fopp : car -> car;
  fdiv : car -> car -> car;
  finv : car -> car;
  cfield_th : field_theory f0 f1 fadd fmul fsub fopp fdiv finv eq }.

Arguments f0 {_}. Arguments f1 {_}.
Arguments fadd {_} _ _. Arguments fmul {_} _ _. Arguments fsub {_} _ _.
Arguments fopp {_} _. Arguments fdiv {_} _ _. Arguments finv {_} _.

Declare Scope cf_scope.
Delimit Scope cf_scope with cf.
Notation "0" := f0 : cf_scope.
Notation "1" := f1 : cf_scope.
Notation "x + y" := (fadd x y) : cf_scope.
Notation "x * y" := (fmul x y) : cf_scope.
Notation "x - y" := (fsub x y) : cf_scope.
Notation "- x" := (fopp x) : cf_scope.
Notation "x / y" := (fdiv x y) : cf_scope.
Notation "/ x" := (finv x) : cf_scope.

(** powers and finite sums (specification vocabulary) *)
Fixpoint fpow {K : cfield} (x : K) (n : nat) : K :=
  match n with O => f1 | S n' => fmul x (fpow x n') end.
Notation "x ^ n" := (fpow x n) : cf_scope.

Fixpoint fsum {K : cfield} (n : nat) (f : nat -> K) : K :=
  match n with O => f0 | S n' => fadd (fsum n' f) (f n') end.

(** natural numbers in the field *)
Fixpoint fofnat {K : cfield} (n : nat) : K :=
  match n with O => f0 | S n' => fadd (fofnat n') f1 end.

Section FieldLemmas.
Context {K : cfield}.
Add Field KF : (cfield_th K).
Local Open Scope cf_scope.

Lemma fpow_0 (x : K) : x ^ 0 = 1. Proof. reflexivity. Qed.
Lemma fpow_S (x : K) n : x ^ (S n) = x * x ^ n. Proof. reflexivity. Qed.
Lemma fpow_1 (x : K) : x ^ 1%nat = x. Proof. simpl; ring. Qed.
Lemma fpow_add (x : K) n m : x ^ (n + m) = x ^ n * x ^ m.
Proof. induction n as [|n IH]; simpl; [ring|]. rewrite IH; ring. Qed.
Lemma fpow_mul_base (x y : K) n : (x * y) ^ n = x ^ n * y ^ n.
Proof. induction n as [|n IH]; simpl; [ring|]. rewrite IH; ring. Qed.
Lemma fpow_one n : (1 : K) ^ n = 1.
Proof. induction n as [|n IH]; simpl; [ring|]. rewrite IH; ring. Qed.
Lemma fpow_pow (x : K) n m : x ^ (n * m) = (x ^ n) ^ m.
Proof.
  induction m as [|m IH]; simpl.
  - now rewrite Nat.mul_0_r.
  - rewrite Nat.mul_succ_r, Nat.add_comm, fpow_add, IH. reflexivity.
Qed.
Lemma fpow_zero n : (0 < n)%nat -> (0 : K) ^ n = 0.
Proof. destruct n as [|n]; [lia|]. intros _; simpl; ring. Qed.

Lemma f1_neq_f0 : (1 : K) <> 0.
Proof. exact (F_1_neq_0 (cfield_th K)). Qed.

Lemma finv_l (x : K) : x <> 0 -> / x * x = 1.
Proof. exact (Finv_l (cfield_th K) x). Qed.
Lemma fdiv_def (x y : K) : x / y = x * / y.
Proof. exact (Fdiv_def (cfield_th K) x y). Qed.

Lemma fmul_eq0 (x y : K) : x <> 0 -> x * y = 0 -> y = 0.
Proof.
  intros Hx H. transitivity ((/ x * x) * y); [rewrite finv_l by exact Hx; ring|].
  transitivity (/ x * (x * y)); [ring|]. rewrite H; ring.
Qed.
Lemma fmul_neq0 (x y : K) : x <> 0 -> y <> 0 -> x * y <> 0.
Proof. intros Hx Hy H. exact (Hy (fmul_eq0 x y Hx H)). Qed.
Lemma fmul_cancel_l (x y z : K) : x <> 0 -> x * y = x * z -> y = z.
Proof.
  intros Hx H.
  assert (E : x * (y - z) = 0) by (transitivity (x * y - x * z); [ring|rewrite H; ring]).
  apply fmul_eq0 in E; [|exact Hx].
  transitivity ((y - z) + z); [ring|]. rewrite E; ring.
Qed.
Lemma fpow_neq0 (x : K) n : x <> 0 -> x ^ n <> 0.
Proof.
  intros Hx; induction n as [|n IH]; simpl; [apply f1_neq_f0|].
  now apply fmul_neq0.
Qed.

Lemma fsum_ext n (f g : nat -> K) :
  (forall i, (i < n)%nat -> f i = g i) -> fsum n f = fsum n g.
Proof.
  induction n as [|n IH]; intros H; simpl; [reflexivity|].
  rewrite IH, H; auto.
Qed.
Lemma fsum_add n (f g : nat -> K) :
  fsum n (fun i => f i + g i) = fsum n f + fsum n g.
Proof. induction n as [|n IH]; simpl; [ring|]. rewrite IH; ring. Qed.
Lemma fsum_sub n (f g : nat -> K) :
  fsum n (fun i => f i - g i) = fsum n f - fsum n g.
Proof. induction n as [|n IH]; simpl; [ring|]. rewrite IH; ring. Qed.
Lemma fsum_scal n c (f : nat -> K) : fsum n (fun i => c * f i) = c * fsum n f.
Proof. induction n as [|n IH]; simpl; [ring|]. rewrite IH; ring. Qed.
Lemma fsum_scal_r n c (f : nat -> K) : fsum n (fun i => f i * c) = fsum n f * c.
Proof. induction n as [|n IH]; simpl; [ring|]. rewrite IH; ring. Qed.
Lemma fsum_zero n : fsum n (fun _ => 0 : K) = 0.
Proof. induction n as [|n IH]; simpl; [ring|]. rewrite IH; ring. Qed.
Lemma fsum_zero' n (f : nat -> K) : (forall i, (i < n)%nat -> f i = 0) -> fsum n f = 0.
Proof. intros H. rewrite (fsum_ext n f (fun _ => 0) H). apply fsum_zero. Qed.
Lemma fsum_swap n m (f : nat -> nat -> K) :
  fsum n (fun i => fsum m (fun j => f i j)) = fsum m (fun j => fsum n (fun i => f i j)).
Proof.
  induction n as [|n IH]; simpl.
  - now rewrite fsum_zero.
  - rewrite IH, <- fsum_add. reflexivity.
Qed.
Lemma fsum_split n m (f : nat -> K) :
  fsum (n + m) f = fsum n f + fsum m (fun i => f (n + i)%nat).
Proof.
  induction m as [|m IH]; simpl.
  - rewrite Nat.add_0_r; ring.
  - rewrite Nat.add_succ_r; simpl. rewrite IH; ring.
Qed.
Lemma fsum_S_l n (f : nat -> K) : fsum (S n) f = f 0%nat + fsum n (fun i => f (S i)).
Proof.
  change (S n) with (1 + n)%nat. rewrite fsum_split. simpl. ring.
Qed.
(* Sum over i < n*m grouped as i = a*m + b *)
Lemma fsum_mul n m (f : nat -> K) :
  fsum (n * m) f = fsum n (fun a => fsum m (fun b => f (a * m + b)%nat)).
Proof.
  induction n as [|n IH]; simpl; [reflexivity|].
  rewrite Nat.add_comm, fsum_split, IH. f_equal.
Qed.
Lemma fsum_single n k (f : nat -> K) :
  (k < n)%nat -> (forall i, (i < n)%nat -> i <> k -> f i = 0) -> fsum n f = f k.
Proof.
  intros Hk H. induction n as [|n IH]; [lia|]. simpl.
  destruct (Nat.eq_dec k n) as [->|Hne].
  - rewrite fsum_zero'; [ring|]. intros i Hi. apply H; lia.
  - rewrite IH; [|lia|intros; apply H; lia]. rewrite (H n) by lia. ring.
Qed.
Lemma fsum_rev n (f : nat -> K) : fsum n f = fsum n (fun i => f (n - 1 - i)%nat).
Proof.
  induction n as [|n IH]; [reflexivity|].
  rewrite (fsum_S_l n (fun i => f (S n - 1 - i)%nat)).
  replace (S n - 1 - 0)%nat with n by lia.
  rewrite (fsum_ext n (fun i => f (S n - 1 - S i)%nat) (fun i => f (n - 1 - i)%nat)).
  2:{ intros i Hi. f_equal; lia. }
  rewrite <- IH. simpl. ring.
Qed.

Lemma fofnat_add n m : fofnat (n + m) = fofnat n + fofnat m :> K.
Proof. induction n as [|n IH]; simpl; [ring|]. rewrite IH; ring. Qed.
Lemma fofnat_mul n m : fofnat (n * m) = fofnat n * fofnat m :> K.
Proof. induction n as [|n IH]; simpl; [ring|]. rewrite fofnat_add, IH; ring. Qed.
Lemma fsum_const n (c : K) : fsum n (fun _ => c) = fofnat n * c.
Proof. induction n as [|n IH]; simpl; [ring|]. rewrite IH; ring. Qed.

(* geometric sum *)
Lemma fsum_geom (x : K) n : (x - 1) * fsum n (fun i => x ^ i) = x ^ n - 1.
Proof.
  induction n as [|n IH]; simpl; [ring|].
  transitivity ((x - 1) * fsum n (fun i => x ^ i) + (x - 1) * x ^ n); [ring|].
  rewrite IH; ring.
Qed.
End FieldLemmas.
