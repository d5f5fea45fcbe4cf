(** * Block reads and writes (memcpy/memmove/memset and vector loops) *)
From Verif Require Export Base.

(** [rd a off n] reads a[off..off+n-1]; [wr a off v] writes v to a[off..];
   both are UB when the range is not inside the array object. *)
Definition rd {A} (a : list A) (off n : nat) : out (list A) :=
  if off + n <=? length a then Ret (firstn n (skipn off a)) else UB.
Definition wr {A} (a : list A) (off : nat) (v : list A) : out (list A) :=
  if off + length v <=? length a then Ret (firstn off a ++ v ++ skipn (off + length v) a) else UB.

(** pointwise combination of two equally long blocks *)
Fixpoint zipw {A B C} (f : A -> B -> C) (x : list A) (y : list B) : list C :=
  match x, y with a :: x', b :: y' => f a b :: zipw f x' y' | _, _ => [] end.

Lemma zipw_length {A B C} (f : A -> B -> C) x y : length (zipw f x y) = Nat.min (length x) (length y).
Proof. revert y; induction x as [|a x IH]; intros [|b y]; simpl; auto. Qed.

Lemma nth_zipw {A B C} (f : A -> B -> C) x y i da db dc :
  i < length x -> i < length y -> nth i (zipw f x y) dc = f (nth i x da) (nth i y db).
Proof.
  revert y i; induction x as [|a x IH]; intros [|b y] [|i] Hx Hy; simpl in *; try lia; auto.
  apply IH; lia.
Qed.

Lemma nth_firstn {A} (l : list A) n i d : i < n -> nth i (firstn n l) d = nth i l d.
Proof.
  revert l i; induction n as [|n IH]; intros [|a l] [|i] H; simpl; try lia; auto. apply IH; lia.
Qed.
Lemma nth_skipn' {A} (l : list A) n i d : nth i (skipn n l) d = nth (n + i) l d.
Proof.
  revert l i; induction n as [|n IH]; intros [|a l] i; simpl; auto. now destruct i.
Qed.

Lemma rd_ok {A} (a : list A) off n d : off + n <= length a ->
  exists v, rd a off n = Ret v /\ length v = n /\ forall i, i < n -> nth i v d = nth (off + i) a d.
Proof.
  intros H. unfold rd. rewrite (proj2 (Nat.leb_le _ _) H). eexists. split; [reflexivity|].
  split; [rewrite firstn_length, skipn_length; lia|].
  intros i Hi. rewrite nth_firstn by exact Hi. apply nth_skipn'.
Qed.

(** [rd] as a tabulate *)
Lemma rd_tab {A} (a : list A) off n d : off + n <= length a ->
  rd a off n = Ret (tabulate n (fun i => nth (off + i) a d)).
Proof.
  intros H. destruct (rd_ok a off n d H) as (v & -> & L & E). f_equal.
  apply (list_eq_nth _ _ d); [now rewrite tabulate_length|].
  intros i Hi. rewrite L in Hi. rewrite nth_tabulate by exact Hi. now apply E.
Qed.

Lemma wr_ok {A} (a : list A) off v d : off + length v <= length a ->
  exists a', wr a off v = Ret a' /\ length a' = length a /\
    forall i, nth i a' d = if (off <=? i) && (i <? off + length v) then nth (i - off) v d else nth i a d.
Proof.
  intros H. unfold wr. rewrite (proj2 (Nat.leb_le _ _) H). eexists. split; [reflexivity|].
  split.
  - rewrite !app_length, firstn_length, skipn_length. lia.
  - intros i. destruct (Nat.leb_spec off i) as [H1|H1]; cbn [andb].
    + rewrite app_nth2 by (rewrite firstn_length; lia). rewrite firstn_length, Nat.min_l by lia.
      destruct (Nat.ltb_spec i (off + length v)).
      * rewrite app_nth1 by lia. reflexivity.
      * rewrite app_nth2 by lia. rewrite nth_skipn'. f_equal. lia.
    + rewrite app_nth1 by (rewrite firstn_length; lia). apply nth_firstn; lia.
Qed.

Lemma tabulate_cons {A} n (f : nat -> A) : tabulate (S n) f = f 0 :: tabulate n (fun i => f (S i)).
Proof. unfold tabulate. cbn [seq map]. now rewrite <- seq_shift, map_map. Qed.
