(** * Proofs about error codes and the message hook *)
From Verif Require Import Base ErrModel.
Local Open Scope Z_scope.

(** Specification: all return codes raised in a call tree. *)
Fixpoint leaf_codes (c : call) : list Z :=
  match c with
  | Leaf ec => [ec]
  | Calls subs => (fix go l := match l with [] => [] | s :: l' => leaf_codes s ++ go l' end) subs
  end.

(** first non-zero code raised, in execution order *)
Definition first_error (l : list Z) : option Z := find (fun e => negb (e =? 0)) l.

Definition is_leaf (c : call) : bool := match c with Leaf _ => true | _ => false end.

Section CallInd.
  Variable P : call -> Prop.
  Hypothesis HL : forall ec, P (Leaf ec).
  Hypothesis HC : forall l, Forall P l -> P (Calls l).
  Fixpoint call_ind' (c : call) : P c :=
    match c with
    | Leaf ec => HL ec
    | Calls l => HC l ((fix go l : Forall P l :=
        match l with [] => Forall_nil P | s :: l' => Forall_cons s (call_ind' s) (go l') end) l)
    end.
End CallInd.

Lemma find_app {A} (f : A -> bool) l1 l2 :
  find f (l1 ++ l2) = match find f l1 with Some x => Some x | None => find f l2 end.
Proof. induction l1 as [|a l IH]; simpl; [reflexivity|]. destruct (f a); auto. Qed.

Lemma run_spec c :
  Forall (fun e => -100 <= e <= 100) (leaf_codes c) ->
  run c = Ret (match first_error (leaf_codes c) with
               | None => 0
               | Some e => if is_leaf c then e else - Z.abs e
               end).
Proof.
  induction c as [ec|l IH] using call_ind'; intros HF.
  - simpl. unfold first_error. simpl.
    destruct (Z.eqb_spec ec 0) as [->|H]; reflexivity.
  - cbn [is_leaf run]. cbn [leaf_codes] in *.
    induction l as [|s l IHl]; [reflexivity|].
    inversion IH as [|? ? Hs Hl]; subst.
    apply Forall_app in HF. destruct HF as [HF1 HF2].
    rewrite (Hs HF1). unfold bind, first_error in *. rewrite find_app.
    destruct (find (fun e => negb (e =? 0)) (leaf_codes s)) as [e|] eqn:E.
    + apply find_some in E. destruct E as [Hin Hne].
      rewrite Forall_forall in HF1. specialize (HF1 _ Hin).
      apply negb_true_iff, Z.eqb_neq in Hne.
      assert (Hnz : (if is_leaf s then e else - Z.abs e) =? SUCCESS = false).
      { apply Z.eqb_neq. unfold SUCCESS. destruct (is_leaf s); lia. }
      rewrite Hnz. unfold E_SUBROUTINE, INT_MIN.
      replace ((if is_leaf s then e else - Z.abs e) =? -2147483648) with false.
      2:{ symmetry; apply Z.eqb_neq. destruct (is_leaf s); lia. }
      f_equal. destruct (is_leaf s); lia.
    + replace (0 =? SUCCESS) with true by reflexivity.
      apply IHl; assumption.
Qed.

(** the hook register *)
Fixpoint last_set (t : nat) (h : list (nat * hook_op)) (cur : hook) : hook :=
  match h with
  | [] => cur
  | (t', SetPrintf p) :: h' => last_set t h' (if Nat.eqb t' t then p else cur)
  | _ :: h' => last_set t h' cur
  end.

Lemma hook_run_spec h : forall s t, hook_run s h t = last_set t h (s t).
Proof.
  induction h as [|[t' o] h IH]; intros s t; [reflexivity|].
  unfold hook_run in *. cbn [fold_left fst snd]. rewrite IH.
  destruct o; cbn [hook_step fst last_set]; try reflexivity.
  rewrite (Nat.eqb_sym t t'). destruct (Nat.eqb t' t); reflexivity.
Qed.
