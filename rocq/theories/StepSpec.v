(** * The exact NFT of a staircase signal (C87)
   The interpretation of D samples on T that makes the Boffetta-Osborne method exact: sample number j is the value of the
   signal on the whole interval of length eps around t_j.  Self-contained apart from 2x2 matrices and grids. *)
From Coq Require Import Reals List.
From Coquelicot Require Import Coquelicot.
From Verif Require Import CExp InvSpec NftSpec.
Local Open Scope C_scope.

(** left end of the interval of sample j; edge D is the right end of the signal *)
Definition edge (T : R * R) (D j : nat) : R := (fst T - spacing T D / 2 + INR j * spacing T D)%R.
Definition on_edge (T : R * R) (D : nat) (t : R) : Prop := exists j, (j <= D)%nat /\ t = edge T D j.
(** u is the staircase with values q_0, ..., q_(D-1), zero outside; its values at the jumps do not matter *)
Definition staircase (T : R * R) (D : nat) (q : nat -> C) (u : R -> C) : Prop :=
  (forall t, (t < edge T D 0 \/ edge T D D < t)%R -> u t = 0) /\
  forall j t, (j < D)%nat -> (edge T D j < t < edge T D (S j))%R -> u t = q j.

(** v is a solution of v' = [-i lam, u; w, i lam] v: continuous, and differentiable except at the jumps *)
Definition tcont (f : R -> C) (t : R) : Prop := continuous (fun x => fst (f x)) t /\ continuous (fun x => snd (f x)) t.
Definition akns_solution (jump : R -> Prop) (lam : C) (u w : R -> C) (v : R -> C * C) : Prop :=
  (forall t, tcont (fun x => fst (v x)) t /\ tcont (fun x => snd (v x)) t) /\
  forall t, ~ jump t ->
    tderive (fun x => fst (v x)) t (- Ci * lam * fst (v t) + u t * snd (v t)) /\
    tderive (fun x => snd (v x)) t (w t * fst (v t) + Ci * lam * snd (v t)).
(** the wave (e^(-i lam t), 0) comes in from the left ... *)
Definition enters (tl : R) (lam : C) (v : R -> C * C) : Prop := forall t, (t <= tl)%R -> v t = (Cexp (- Ci * lam * RtoC t), RtoC 0).
(** ... and (a e^(-i lam t), b e^(i lam t)) leaves *)
Definition leaves (tr : R) (lam a b : C) (v : R -> C * C) : Prop :=
  forall t, (tr <= t)%R -> v t = (a * Cexp (- Ci * lam * RtoC t), b * Cexp (Ci * lam * RtoC t)).
(** a and b are the NFT of the pair (u, w) at lam, for signals that vanish outside (tl, tr): there is a solution that
   enters from the left, and every such solution leaves with a and b *)
Definition nft_ab (jump : R -> Prop) (tl tr : R) (u w : R -> C) (lam a b : C) : Prop :=
  (exists v, akns_solution jump lam u w v /\ enters tl lam v) /\
  forall v, akns_solution jump lam u w v -> enters tl lam v -> leaves tr lam a b v.
