(** * Complex differentiability (Coquelicot's [is_derive] over the absolute ring C) *)
From Coq Require Import Reals Lra.
From Coquelicot Require Import Coquelicot.
Local Open Scope C_scope.

(** f has complex derivative l at x *)
Definition Cderive (f : C -> C) (x l : C) : Prop :=
  @is_derive C_AbsRing (AbsRing_NormedModule C_AbsRing) f x l.

Lemma Cderive_ext f g x l : (forall t, f t = g t) -> Cderive f x l -> Cderive g x l.
Proof. intros H. apply is_derive_ext. exact H. Qed.
Lemma Cderive_eq f x l l' : Cderive f x l -> l = l' -> Cderive f x l'.
Proof. intros H <-. exact H. Qed.
Lemma Cderive_const c x : Cderive (fun _ => c) x 0.
Proof. apply (is_derive_const (K := C_AbsRing) (V := AbsRing_NormedModule C_AbsRing) c x). Qed.
Lemma Cderive_id x : Cderive (fun z => z) x 1.
Proof. apply (is_derive_id (K := C_AbsRing) x). Qed.
Lemma Cderive_plus f g x a b :
  Cderive f x a -> Cderive g x b -> Cderive (fun z => f z + g z) x (a + b).
Proof. apply (is_derive_plus (K := C_AbsRing) (V := AbsRing_NormedModule C_AbsRing)). Qed.
Lemma Cderive_mult f g x a b :
  Cderive f x a -> Cderive g x b -> Cderive (fun z => f z * g z) x (a * g x + f x * b).
Proof. intros Hf Hg. apply (is_derive_mult (K := C_AbsRing) f g x a b Hf Hg). apply Cmult_comm. Qed.
Lemma Cderive_scal c f x a : Cderive f x a -> Cderive (fun z => c * f z) x (c * a).
Proof.
  intros H. eapply Cderive_eq; [apply Cderive_mult; [apply Cderive_const|exact H]|]. cbv beta. ring.
Qed.
Lemma Cderive_opp f x a : Cderive f x a -> Cderive (fun z => - f z) x (- a).
Proof.
  intros H. eapply Cderive_eq.
  - eapply Cderive_ext; [|apply (Cderive_scal (- (1)) f x a H)]. intros t. simpl. ring.
  - ring.
Qed.
Lemma Cderive_minus f g x a b :
  Cderive f x a -> Cderive g x b -> Cderive (fun z => f z - g z) x (a - b).
Proof. intros Hf Hg. apply Cderive_plus; [exact Hf|now apply Cderive_opp]. Qed.
Lemma Cderive_comp f g x a b :
  Cderive f (g x) a -> Cderive g x b -> Cderive (fun z => f (g z)) x (b * a).
Proof.
  intros Hf Hg. exact (is_derive_comp (K := C_AbsRing) (V := AbsRing_NormedModule C_AbsRing) f g x a b Hf Hg).
Qed.

(** epsilon-delta form *)
Lemma Cderive_eps (f : C -> C) (x l : C) :
  (forall eps : posreal, exists delta : posreal, forall z : C,
     (Cmod (z - x)%C < delta)%R -> (Cmod (f z - f x - (z - x) * l)%C <= eps * Cmod (z - x)%C)%R) ->
  Cderive f x l.
Proof.
  intros H. split.
  - apply (is_linear_scal_l (K := C_AbsRing) (V := AbsRing_NormedModule C_AbsRing)).
  - intros y Hy.
    assert (Ey : x = y).
    { apply (is_filter_lim_locally_unique (V := AbsRing_NormedModule C_AbsRing)). exact Hy. }
    subst y. intros eps. destruct (H eps) as [delta Hd]. exists delta. intros z Hz. apply Hd.
    exact Hz.
Qed.
Global Opaque Cderive.
