(** * Specification of the exponential splittings for the Manakov equation
   Self-contained: 3x3 complex matrices, the exponentials of A = diag(-i lambda, i lambda, i lambda) and
   B = [0 q1 q2; r1 0 0; r2 0 0], and the splittings as weighted sums of products of exponentials (the words are
   those of FscatterSpec).  Nothing here refers to the model of the code. *)
From Coq Require Import Reals List QArith Qreals.
From Coquelicot Require Import Coquelicot.
From Verif Require Import CExp DiscTables FscatterSpec.
Import ListNotations.
Local Open Scope C_scope.

(** ** 3x3 matrices *)
Record mat3 := M3 { c11 : C; c12 : C; c13 : C; c21 : C; c22 : C; c23 : C; c31 : C; c32 : C; c33 : C }.
Definition m3one : mat3 := M3 1 0 0 0 1 0 0 0 1.
Definition m3zero : mat3 := M3 0 0 0 0 0 0 0 0 0.
Definition m3mul (X Y : mat3) : mat3 :=
  M3 (c11 X * c11 Y + c12 X * c21 Y + c13 X * c31 Y) (c11 X * c12 Y + c12 X * c22 Y + c13 X * c32 Y) (c11 X * c13 Y + c12 X * c23 Y + c13 X * c33 Y)
     (c21 X * c11 Y + c22 X * c21 Y + c23 X * c31 Y) (c21 X * c12 Y + c22 X * c22 Y + c23 X * c32 Y) (c21 X * c13 Y + c22 X * c23 Y + c23 X * c33 Y)
     (c31 X * c11 Y + c32 X * c21 Y + c33 X * c31 Y) (c31 X * c12 Y + c32 X * c22 Y + c33 X * c32 Y) (c31 X * c13 Y + c32 X * c23 Y + c33 X * c33 Y).
Definition m3add (X Y : mat3) : mat3 :=
  M3 (c11 X + c11 Y) (c12 X + c12 Y) (c13 X + c13 Y) (c21 X + c21 Y) (c22 X + c22 Y) (c23 X + c23 Y) (c31 X + c31 Y) (c32 X + c32 Y) (c33 X + c33 Y).
Definition m3scal (k : C) (X : mat3) : mat3 :=
  M3 (k * c11 X) (k * c12 X) (k * c13 X) (k * c21 X) (k * c22 X) (k * c23 X) (k * c31 X) (k * c32 X) (k * c33 X).
Definition entry3 (X : mat3) (i j : nat) : C :=
  match i, j with
  | 0%nat, 0%nat => c11 X | 0%nat, 1%nat => c12 X | 0%nat, _ => c13 X
  | 1%nat, 0%nat => c21 X | 1%nat, 1%nat => c22 X | 1%nat, _ => c23 X
  | _, 0%nat => c31 X | _, 1%nat => c32 X | _, _ => c33 X
  end.

(** ** Matrix exponentials.
   exp(t A), A = diag(-i lambda, i lambda, i lambda) *)
Definition expA3 (lam : C) (t : R) : mat3 :=
  M3 (Cexp (- Ci * lam * RtoC t)) 0 0 0 (Cexp (Ci * lam * RtoC t)) 0 0 0 (Cexp (Ci * lam * RtoC t)).
(** B = [0 q1 q2; r1 0 0; r2 0 0]; B^3 = (q1 r1 + q2 r2) B *)
Definition Bmat3 (q1 q2 r1 r2 : C) : mat3 := M3 0 q1 q2 r1 0 0 r2 0 0.
(** exp(t B) = I + sinh(mu t)/mu B + (cosh(mu t)-1)/mu^2 B^2 with mu^2 = q1 r1 + q2 r2;
   I + t B + t^2/2 B^2 if mu = 0.  (ManFscProps shows that it solves U' = B U, U(0) = I.) *)
Definition expB3_at (mu q1 q2 r1 r2 t : C) : mat3 :=
  let B := Bmat3 q1 q2 r1 r2 in
  let s := if Ceq_dec mu 0 then t else Csinh (mu * t) / mu in
  let k := if Ceq_dec mu 0 then t * t / 2 else (Ccosh (mu * t) - 1) / (mu * mu) in
  m3add m3one (m3add (m3scal s B) (m3scal k (m3mul B B))).
Definition expB3 (q1 q2 r1 r2 t : C) : mat3 := expB3_at (Csqrt (q1 * r1 + q2 * r2)) q1 q2 r1 r2 t.
(** the exponential for r = -kappa conj(q) *)
Definition expNLS3 (kappa : Z) (q1 q2 : C) (t : C) : mat3 :=
  expB3 q1 q2 (- RtoC (IZR kappa) * Cconj q1) (- RtoC (IZR kappa) * Cconj q2) t.

(** ** Splitting schemes.  man_scheme_of d = (u, s): the letters of s are in units of h/u. *)
Local Open Scope Q_scope.
Definition suzuki : word :=
  [(LB, 7); (LA, 16); (LB, 18); (LA, -(16)); (LB, -(1)); (LA, 48); (LB, -(1)); (LA, -(16)); (LB, 18); (LA, 16); (LB, 7)].
Definition man_scheme_of (d : man_disc) : option (nat * scheme) :=
  match d with
  | M_2SPLIT3A => Some (3%nat, [(9#8, nonsym 2 1); (-1#8, nonsym 1 3)])
  | M_2SPLIT3B => Some (3%nat, swap_scheme [(9#8, nonsym 2 1); (-1#8, nonsym 1 3)])
  | M_2SPLIT4A | M_4SPLIT4A | M_FTES4_4A => Some (4%nat, [(4#3, strang 2 2); (-1#3, strang 1 4)])
  | M_2SPLIT4B | M_4SPLIT4B => Some (2%nat, swap_scheme [(4#3, strang 2 1); (-1#3, strang 1 2)])
  | M_2SPLIT6B | M_4SPLIT6B => Some (6%nat, swap_scheme [(81#40, strang 3 2); (-16#15, strang 2 3); (1#24, strang 1 6)])
  | M_FTES4_suzuki => Some (48%nat, [(1, suzuki)])
  | _ => None
  end.
Local Close Scope Q_scope.
Definition word_val3 (EA EB : Q -> mat3) (w : word) : mat3 :=
  fold_right (fun f M => m3mul (match fst f with LA => EA (snd f) | LB => EB (snd f) end) M) m3one w.
Definition scheme_val3 (EA EB : Q -> mat3) (s : scheme) : mat3 :=
  fold_right (fun t M => m3add (m3scal (RtoC (Q2R (fst t))) (word_val3 EA EB (snd t))) M) m3zero s.
(** the splitting approximation of exp(hA A + hB B) *)
Definition splitting3 (lam : C) (kappa : Z) (q1 q2 : C) (hA hB : R) (us : nat * scheme) : mat3 :=
  scheme_val3 (fun a => expA3 lam (Q2R a * (hA / INR (fst us)))) (fun a => expNLS3 kappa q1 q2 (RtoC (Q2R a * (hB / INR (fst us))))) (snd us).

(** ** The two factors of the fourth-order methods FTES4: with the samples a, b, c at t-h, t, t+h,
   exp(h^2 B'/12 + h^3 B''/48) S exp(-h^2 B'/12 + h^3 B''/48), B' and B'' replaced by central differences *)
Definition d1 (a c : C) : C := (c - a) / 2.
Definition d2 (a b c : C) : C := c - 2 * b + a.
Definition ftes_left (kappa : Z) (a1 b1 e1 a2 b2 e2 : C) (h : R) : mat3 :=
  expNLS3 kappa (d1 a1 e1 / 12 + d2 a1 b1 e1 / 48) (d1 a2 e2 / 12 + d2 a2 b2 e2 / 48) (RtoC h).
Definition ftes_right (kappa : Z) (a1 b1 e1 a2 b2 e2 : C) (h : R) : mat3 :=
  expNLS3 kappa (- d1 a1 e1 / 12 + d2 a1 b1 e1 / 48) (- d1 a2 e2 / 12 + d2 a2 b2 e2 / 48) (RtoC h).

(** ** Products of matrices: M_(n-1) ... M_1 M_0 *)
Fixpoint descending3 (n : nat) (M : nat -> mat3) : mat3 :=
  match n with O => m3one | S k => m3mul (M k) (descending3 k M) end.
