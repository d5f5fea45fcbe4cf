(** * Specification for the inversion of a continuous spectrum
   Self-contained: nothing here refers to the model of the code. *)
From Coq Require Import Reals ZArith List.
From Coquelicot Require Import Coquelicot.
From Verif Require Import CExp FscatterSpec.
Import ListNotations.
Local Open Scope C_scope.

(** the polynomial with the coefficients cs, lowest first *)
Definition polyval (cs : list C) (z : C) : C := fold_right (fun c s => c + z * s) 0 cs.
(** two functions agree up to the order n at z = 0: their difference is a polynomial whose first n coefficients vanish *)
Definition agree (n : nat) (f g : C -> C) : Prop := exists ys, forall z, f z - g z = polyval (repeat (RtoC 0) n ++ ys) z.

(** The two discretizations.  One sample q of step h, z = e^(2 i lambda h):
   2SPLIT2A: exp(h [0, q; r, 0]) diag(1, z), 2SPLIT2_MODAL: [1, h q; h r, 1] diag(1, z) / sqrt(1 - h^2 q r), r = -kappa conj q *)
Inductive scheme := Split2A | Modal.
Definition sample (s : scheme) (kappa h : R) (q z : C) : mat2 :=
  let r := - RtoC kappa * Cconj q in
  match s with
  | Split2A => mmul (expB q r (RtoC h)) (M2 1 0 0 z)
  | Modal => mscal (1 / Csqrt (1 - RtoC h * q * (RtoC h * r))) (mmul (M2 1 (RtoC h * q) (RtoC h * r) 1) (M2 1 0 0 z))
  end.
(** the transfer matrix of the samples q 0, ..., q (D-1) *)
Fixpoint transfer (s : scheme) (kappa h : R) (q : nat -> C) (D : nat) (z : C) : mat2 :=
  match D with O => mone | S n => mmul (sample s kappa h (q n) z) (transfer s kappa h q n z) end.
(** the reflection coefficient t21/t11 of the samples and the quotient f21/f11 have the same first D Taylor coefficients at z = 0 *)
Definition same_reflection (s : scheme) (kappa h : R) (q : nat -> C) (D : nat) (f11 f21 : C -> C) : Prop :=
  agree D (fun z => a11 (transfer s kappa h q D z) * f21 z) (fun z => a21 (transfer s kappa h q D z) * f11 z).
(** the samples are in the range of the scheme *)
Definition in_range (s : scheme) (kappa h : R) (q : C) : Prop :=
  match s with Split2A => (h * Cmod q < PI / 2)%R | Modal => (1 + kappa * (h * Cmod q) ^ 2 <> 0)%R end.
(** the polynomial with the coefficients cs has the values vs at the M points zs *)
Definition interpolates (cs : list C) (M : nat) (zs vs : nat -> C) : Prop :=
  length cs = M /\ forall n, (n < M)%nat -> polyval cs (zs n) = vs n.
(** trapezoidal rule for the integral of B(tau) e^(-i xi tau) over the grid tau_n = 2 t_n of step 2 h *)
Definition trapezoid_weight (D : nat) (h : R) (n : nat) : R := if orb (Nat.eqb n 0) (Nat.eqb n (D - 1)) then h else (2 * h)%R.
Definition fourier_trapezoid (D : nat) (h : R) (t : nat -> R) (B : nat -> C) (xi : R) : C :=
  fold_right Cplus 0 (map (fun n => RtoC (trapezoid_weight D h n) * B n * Cexp (- Ci * RtoC xi * RtoC (2 * t n))) (seq 0 D)).
