(** * Fill loops: [for (n=lo; n<lo+cnt; n++) a[n] = f(n);] *)
From Verif Require Export Base.

Fixpoint fill {A} (cnt lo : nat) (f : nat -> out A) (a : list A) : out (list A) :=
  match cnt with
  | O => Ret a
  | S k => x <- f lo ;; a' <- aset a lo x ;; fill k (S lo) f a'
  end.

Lemma fill_ok {A} (g : nat -> A) d cnt : forall lo f a, lo + cnt <= length a ->
  (forall i, lo <= i < lo + cnt -> f i = Ret (g i)) ->
  exists a', fill cnt lo f a = Ret a' /\ length a' = length a /\
    forall i, nth i a' d = if (lo <=? i) && (i <? lo + cnt) then g i else nth i a d.
Proof.
  induction cnt as [|k IH]; intros lo f a L H.
  - exists a. split; [reflexivity|]. split; [reflexivity|]. intros i.
    destruct (Nat.leb_spec lo i); cbn [andb]; [|reflexivity]. destruct (Nat.ltb_spec i (lo + 0)); [lia|reflexivity].
  - cbn [fill]. rewrite H by lia. cbn [bind]. rewrite aset_upd by lia. cbn [bind].
    destruct (IH (S lo) f (upd a lo (g lo))) as (a' & E & L' & N').
    { rewrite upd_length. lia. }
    { intros i Hi. apply H. lia. }
    exists a'. split; [exact E|]. split; [rewrite L'; apply upd_length|]. intros i. rewrite N', nth_upd by lia.
    destruct (Nat.leb_spec (S lo) i), (Nat.leb_spec lo i); cbn [andb]; try lia.
    + replace (S lo + k) with (lo + S k) by lia. destruct (Nat.ltb_spec i (lo + S k)); [reflexivity|].
      destruct (Nat.eqb_spec i lo); [lia|reflexivity].
    + destruct (Nat.eqb_spec i lo); [|lia]. subst i. destruct (Nat.ltb_spec lo (lo + S k)); [reflexivity|lia].
    + destruct (Nat.eqb_spec i lo); [lia|]. reflexivity.
Qed.

(** [for (i=lo; i<lo+cnt; i++) body]: the state after the loop *)
Fixpoint for_ {S : Type} (cnt lo : nat) (body : nat -> S -> out S) (st : S) : out S :=
  match cnt with
  | O => Ret st
  | Datatypes.S k => st' <- body lo st ;; for_ k (Datatypes.S lo) body st'
  end.

Lemma for_inv {S : Type} (P : nat -> S -> Prop) body cnt : forall lo st, P lo st ->
  (forall i st, lo <= i < lo + cnt -> P i st -> exists st', body i st = Ret st' /\ P (Datatypes.S i) st') ->
  exists st', for_ cnt lo body st = Ret st' /\ P (lo + cnt) st'.
Proof.
  induction cnt as [|k IH]; intros lo st H0 Hs.
  - exists st. split; [reflexivity|]. now rewrite Nat.add_0_r.
  - cbn [for_]. destruct (Hs lo st ltac:(lia) H0) as (st1 & E & H1). rewrite E. cbn [bind].
    destruct (IH (Datatypes.S lo) st1 H1) as (st2 & E2 & H2).
    { intros i st' Hi. apply Hs. lia. }
    exists st2. split; [exact E2|]. now replace (lo + Datatypes.S k) with (Datatypes.S lo + k) by lia.
Qed.
