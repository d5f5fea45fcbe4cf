(** * Specification vocabulary: products, matrix products, integer powers *)
From Verif Require Export Base PolySpec.
Section MatSpec.
Context {K : cfield}.
Local Open Scope cf_scope.
(** c_0 c_1 ... c_(n-1) *)
Fixpoint cprod (n : nat) (c : nat -> K) : K := match n with O => 1 | S n' => cprod n' c * c n' end.
(** m x m matrices *)
Definition nmat := nat -> nat -> K.
Definition nmmul (m : nat) (A B : nmat) : nmat := fun i j => fsum m (fun k => A i k * B k j).
Definition nmone : nmat := fun i j => if Nat.eqb i j then 1 else 0.
(** A_0 A_1 ... A_(n-1) *)
Fixpoint nmprod (m n : nat) (A : nat -> nmat) : nmat :=
  match n with O => nmone | S n' => nmmul m (nmprod m n' A) (A n') end.
(** x^a for an integer a *)
Definition zpow (x : K) (a : Z) : K :=
  match a with Z0 => 1 | Zpos p => x ^ (Pos.to_nat p) | Zneg p => (/ x) ^ (Pos.to_nat p) end.
(** the n coefficients starting at index off of an array *)
Definition coeffs (a : list K) (off n : nat) : list K := firstn n (skipn off a).
End MatSpec.
