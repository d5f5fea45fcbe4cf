(** * Specification vocabulary for the discrete helpers (independent of the model's loops) *)
From Verif Require Import Base MiscModel.

(** x <= y as IEEE numbers (false if one of them is NaN) *)
Definition le (x y : real) : Prop := SFleb x y = true.
Definition lt (x y : real) : Prop := SFltb x y = true.
Definition is_nan (x : real) : Prop := x = S754_nan.
Definition has_nan (z : cplx) : Prop := is_nan (fst z) \/ is_nan (snd z).

(** z lies in the closed box / strictly inside it *)
Definition in_box (b : box) (z : cplx) : Prop :=
  le (b0 b) (fst z) /\ le (fst z) (b1 b) /\ le (b2 b) (snd z) /\ le (snd z) (b3 b).
Definition strictly_in_box (b : box) (z : cplx) : Prop :=
  lt (b0 b) (fst z) /\ lt (fst z) (b1 b) /\ lt (b2 b) (snd z) /\ lt (snd z) (b3 b).
Definition valid_box (b : box) : Prop := le (b0 b) (b1 b) /\ le (b2 b) (b3 b).

(** [selects P l l']: l' is what remains of l when exactly the elements
   satisfying P are kept, in order. *)
Inductive selects {A} (P : A -> Prop) : list A -> list A -> Prop :=
| sel_nil : selects P [] []
| sel_keep x l l' : P x -> selects P l l' -> selects P (x :: l) (x :: l')
| sel_drop x l l' : ~ P x -> selects P l l' -> selects P (x :: l) l'.

Lemma selects_filter {A} (P : A -> Prop) (f : A -> bool) l :
  (forall x, f x = true <-> P x) -> selects P l (filter f l).
Proof.
  intros H. induction l as [|x l IH]; simpl; [constructor|].
  destruct (f x) eqn:E.
  - apply sel_keep; [now apply H|exact IH].
  - apply sel_drop; [|exact IH]. rewrite <- H. congruence.
Qed.

(** [selects] is a function of the input: there is only one possible result *)
Lemma selects_unique {A} (P : A -> Prop) l l1 l2 :
  selects P l l1 -> selects P l l2 -> l1 = l2.
Proof.
  intros H. revert l2. induction H; intros l2 H2; inversion H2; subst; try easy.
  - f_equal. auto.
  - auto.
Qed.

Lemma filter_keep_iff b z : filter_keep b z = true <-> in_box b z.
Proof.
  unfold filter_keep, in_box, le, r_ge, r_le, creal, cimag.
  destruct (SFleb (b0 b) (fst z)); simpl; [|easy].
  destruct (SFleb (fst z) (b1 b)); simpl; [|easy].
  destruct (SFleb (b2 b) (snd z)); simpl; [|easy].
  destruct (SFleb (snd z) (b3 b)); simpl; easy.
Qed.

Lemma filter_inv_keep_iff b z : filter_inv_keep b z = true <-> ~ strictly_in_box b z.
Proof.
  unfold filter_inv_keep, strictly_in_box, lt, r_gt, r_lt, creal, cimag.
  destruct (SFltb (b0 b) (fst z)); destruct (SFltb (fst z) (b1 b));
  destruct (SFltb (b2 b) (snd z)); destruct (SFltb (snd z) (b3 b)); simpl; intuition congruence.
Qed.

Lemma SFleb_nan_l x : SFleb S754_nan x = false. Proof. destruct x; reflexivity. Qed.
Lemma SFleb_nan_r x : SFleb x S754_nan = false. Proof. destruct x; reflexivity. Qed.
Lemma SFltb_nan_l x : SFltb S754_nan x = false. Proof. destruct x; reflexivity. Qed.
Lemma SFltb_nan_r x : SFltb x S754_nan = false. Proof. destruct x; reflexivity. Qed.

Lemma filter_args_ok_iff n vals re bo :
  filter_args_ok {| fs_N := n; fs_vals := vals; fs_re := re |} bo = true <->
  n <> None /\ vals <> None /\ exists b, bo = Some b /\ valid_box b.
Proof.
  unfold filter_args_ok, valid_box, le, r_le; simpl.
  destruct n as [n|]; [|split; [easy|intros [? _]; congruence]].
  destruct vals as [vals|]; [|split; [easy|intros (_ & ? & _); congruence]].
  destruct bo as [b|]; [|split; [easy|intros (_ & _ & ? & ? & _); congruence]].
  destruct (SFleb (b0 b) (b1 b)) eqn:E1; destruct (SFleb (b2 b) (b3 b)) eqn:E2; simpl;
    split; try easy; try (intros _; split; [easy|split; [easy|]]; exists b; auto);
    intros (_ & _ & b' & [= <-] & ? & ?); congruence.
Qed.
