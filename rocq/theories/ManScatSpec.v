(** * Specification of slow scattering for the Manakov system v' = P v, P = [-i lambda, q1, q2; -kappa q1*, i lambda, 0; -kappa q2*, 0, i lambda]
   Self-contained apart from the 3x3 matrices of ManFscSpec; nothing here refers to the model of the code. *)
From Coq Require Import Reals List ZArith.
From Coquelicot Require Import Coquelicot.
From Verif Require Import CExp CDeriv FscatterSpec ManFscSpec.
Import ListNotations.
Local Open Scope C_scope.

Definition manakov_P (lam : C) (kappa : Z) (q1 q2 : C) : mat3 :=
  M3 (- Ci * lam) q1 q2
     (- RtoC (IZR kappa) * Cconj q1) (Ci * lam) 0
     (- RtoC (IZR kappa) * Cconj q2) 0 (Ci * lam).

(** U is the fundamental solution of U' = P U, U(0) = I: U(t) = exp(t P) *)
Definition M3derive (F : C -> mat3) (x : C) (L : mat3) : Prop :=
  forall i j, (i < 3)%nat -> (j < 3)%nat -> Cderive (fun z => entry3 (F z) i j) x (entry3 L i j).
Definition fundamental3 (P : mat3) (U : C -> mat3) : Prop := U 0 = m3one /\ forall t, M3derive U t (m3mul P (U t)).

(** determinant, conjugate transpose, diagonal matrix diag(1, kappa, kappa) *)
Definition m3det (X : mat3) : C :=
  c11 X * (c22 X * c33 X - c23 X * c32 X) - c12 X * (c21 X * c33 X - c23 X * c31 X) + c13 X * (c21 X * c32 X - c22 X * c31 X).
Definition m3adj (X : mat3) : mat3 :=
  M3 (Cconj (c11 X)) (Cconj (c21 X)) (Cconj (c31 X)) (Cconj (c12 X)) (Cconj (c22 X)) (Cconj (c32 X)) (Cconj (c13 X)) (Cconj (c23 X)) (Cconj (c33 X)).
Definition J3 (kappa : Z) : mat3 := M3 1 0 0 0 (RtoC (IZR kappa)) 0 0 0 (RtoC (IZR kappa)).

(** a sample vanishes in the sense of the code: both absolute values are below the machine precision 2^-52 *)
Definition tiny (q1 q2 : C) : Prop := (Cmod q1 < 1 / 4503599627370496)%R /\ (Cmod q2 < 1 / 4503599627370496)%R.
(** storage of a 3x3 matrix by rows *)
Definition l9 (X : mat3) : list C := [c11 X; c12 X; c13 X; c21 X; c22 X; c23 X; c31 X; c32 X; c33 X].
