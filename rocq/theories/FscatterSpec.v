(** * Specification of the exponential splittings
   Self-contained: 2x2 complex matrices, the exponentials of A = diag(-i lambda, i lambda) and
   B = [0 q; r 0], and the splitting schemes as weighted sums of products of exponentials.  Nothing here
   refers to the model of the code. *)
From Coq Require Import Reals List QArith Qreals.
From Coquelicot Require Import Coquelicot.
From Verif Require Import CExp DiscTables.
Import ListNotations.
Local Open Scope C_scope.

(** ** 2x2 matrices *)
Record mat2 := M2 { a11 : C; a12 : C; a21 : C; a22 : C }.
Definition mone : mat2 := M2 1 0 0 1.
Definition mzero : mat2 := M2 0 0 0 0.
Definition mmul (X Y : mat2) : mat2 :=
  M2 (a11 X * a11 Y + a12 X * a21 Y) (a11 X * a12 Y + a12 X * a22 Y)
     (a21 X * a11 Y + a22 X * a21 Y) (a21 X * a12 Y + a22 X * a22 Y).
Definition madd (X Y : mat2) : mat2 := M2 (a11 X + a11 Y) (a12 X + a12 Y) (a21 X + a21 Y) (a22 X + a22 Y).
Definition mscal (c : C) (X : mat2) : mat2 := M2 (c * a11 X) (c * a12 X) (c * a21 X) (c * a22 X).
Definition mdet (X : mat2) : C := a11 X * a22 X - a12 X * a21 X.

(** ** Matrix exponentials.
   exp(t A), A = diag(-i lambda, i lambda) *)
Definition expA (lam : C) (t : R) : mat2 := M2 (Cexp (- Ci * lam * RtoC t)) 0 0 (Cexp (Ci * lam * RtoC t)).
(** exp(t B), B = [0 q; r 0]: with mu^2 = q r,
   cosh(mu t) I + sinh(mu t)/mu B;  I + t B if q r = 0.  (FscatterProps shows that it solves U' = B U, U(0) = I.) *)
Definition expB_at (mu q r t : C) : mat2 :=
  let s := if Ceq_dec mu 0 then t else Csinh (mu * t) / mu in
  M2 (Ccosh (mu * t)) (q * s) (r * s) (Ccosh (mu * t)).
Definition expB (q r : C) (t : C) : mat2 := expB_at (Csqrt (q * r)) q r t.

(** ** Splitting schemes: a list of weights with words of exponentials.
   (LA, n) stands for exp(n/deg * h A), (LB, n) for exp(n/deg * h B). *)
Inductive letter := LA | LB.
Definition word := list (letter * Q).
Definition scheme := list (Q * word).
Definition flip (l : letter) := match l with LA => LB | LB => LA end.
Definition swap_word (w : word) : word := map (fun f => (flip (fst f), snd f)) w.
Definition swap_scheme (s : scheme) : scheme := map (fun t => (fst t, swap_word (snd t))) s.
(** A_u/2 (B_u A_u)^(k-1) B_u A_u/2 : k symmetric (Strang) steps *)
Fixpoint strang_tail (k : nat) (u : Q) : word :=
  match k with
  | O => [] | S O => [(LB, u); (LA, Qred (u / 2))] | S k' => (LB, u) :: (LA, u) :: strang_tail k' u
  end.
Definition strang (k : nat) (u : Q) : word := (LA, Qred (u / 2)) :: strang_tail k u.
(** A_u (B_2u A_2u)^(k-1) B_u : the non-symmetric variant *)
Fixpoint nonsym_tail (k : nat) (u : Q) : word :=
  match k with O => [(LB, u)] | S k' => (LB, Qred (2 * u)) :: (LA, Qred (2 * u)) :: nonsym_tail k' u end.
Definition nonsym (k : nat) (u : Q) : word := (LA, u) :: nonsym_tail (k - 1) u.

Local Open Scope Q_scope.
(** the weights and words; units of h/deg.  2SPLIT2A is computed in a transformed basis in which it is 2SPLIT1B. *)
Definition scheme_of (d : akns_disc) : option scheme :=
  match d with
  | A_2SPLIT1A => Some [(1, [(LA, 1); (LB, 1)])]
  | A_2SPLIT1B | A_2SPLIT2A => Some [(1, [(LB, 1); (LA, 1)])]
  | A_2SPLIT2B => Some [(1, swap_word (strang 1 1))]
  | A_2SPLIT2S => Some [(1#2, [(LA, 1); (LB, 1)]); (1#2, [(LB, 1); (LA, 1)])]
  | A_2SPLIT3A => Some [(9#8, nonsym 2 1); (-1#8, nonsym 1 3)]
  | A_2SPLIT3B => Some (swap_scheme [(9#8, nonsym 2 1); (-1#8, nonsym 1 3)])
  | A_2SPLIT3S => Some [(2#3, strang 1 2); (2#3, swap_word (strang 1 2));
                        (-1#6, [(LA, 2); (LB, 2)]); (-1#6, [(LB, 2); (LA, 2)])]
  | A_2SPLIT4A | A_4SPLIT4A => Some [(4#3, strang 2 2); (-1#3, strang 1 4)]
  | A_2SPLIT4B | A_4SPLIT4B => Some (swap_scheme [(4#3, strang 2 1); (-1#3, strang 1 2)])
  | A_2SPLIT5A => Some [(625#384, nonsym 3 3); (-81#128, nonsym 2 5); (1#192, nonsym 1 15)]
  | A_2SPLIT5B => Some (swap_scheme [(625#384, nonsym 3 3); (-81#128, nonsym 2 5); (1#192, nonsym 1 15)])
  | A_2SPLIT6A => Some [(81#40, strang 3 4); (-16#15, strang 2 6); (1#24, strang 1 12)]
  | A_2SPLIT6B => Some (swap_scheme [(81#40, strang 3 2); (-16#15, strang 2 3); (1#24, strang 1 6)])
  (* 2874587633249303/2^50 is the double nearest to 117649/46080 *)
  | A_2SPLIT7A => Some [(2874587633249303#1125899906842624, nonsym 4 15); (-15625#9216, nonsym 3 21);
                        (729#5120, nonsym 2 35); (-1#9216, nonsym 1 105)]
  | A_2SPLIT7B => Some (swap_scheme [(2874587633249303#1125899906842624, nonsym 4 15); (-15625#9216, nonsym 3 21);
                        (729#5120, nonsym 2 35); (-1#9216, nonsym 1 105)])
  | A_2SPLIT8A => Some [(1024#315, strang 4 6); (-729#280, strang 3 8); (16#45, strang 2 12); (-1#360, strang 1 24)]
  | A_2SPLIT8B => Some (swap_scheme [(1024#315, strang 4 3); (-729#280, strang 3 4); (16#45, strang 2 6); (-1#360, strang 1 12)])
  | _ => None
  end.
Local Close Scope Q_scope.

(** value of a scheme, given the exponentials *)
Definition word_val (EA EB : Q -> mat2) (w : word) : mat2 :=
  fold_right (fun f M => mmul (match fst f with LA => EA (snd f) | LB => EB (snd f) end) M) mone w.
Definition scheme_val (EA EB : Q -> mat2) (s : scheme) : mat2 :=
  fold_right (fun t M => madd (mscal (RtoC (Q2R (fst t))) (word_val EA EB (snd t))) M) mzero s.
(** the splitting approximation of exp(h(A+B)) *)
Definition splitting (lam q r : C) (h : R) (deg : nat) (s : scheme) : mat2 :=
  scheme_val (fun a => expA lam (Q2R a * (h / INR deg))) (fun a => expB q r (RtoC (Q2R a * (h / INR deg)))) s.

(** ** Order of a scheme, in the algebra of formal power series in two non-commuting letters.
   A series assigns a coefficient to every word. *)
Definition series := list letter -> Q.
(** all ways to cut a word in two *)
Fixpoint cuts {X} (w : list X) : list (list X * list X) :=
  match w with [] => [([], [])] | x :: t => ([], w) :: map (fun c => (x :: fst c, snd c)) (cuts t) end.
Definition qsum (l : list Q) : Q := fold_right Qplus 0%Q l.
Definition ser_mul (f g : series) : series := fun w => qsum (map (fun c => Qmult (f (fst c)) (g (snd c))) (cuts w)).
Definition letter_eqb (x y : letter) := match x, y with LA, LA | LB, LB => true | _, _ => false end.
(** exp(c X) = sum_n c^n/n! X^n *)
Definition ser_exp (x : letter) (c : Q) : series := fun w =>
  if forallb (letter_eqb x) w then Qdiv (Qpower c (Z.of_nat (length w))) (inject_Z (Z.of_nat (fact (length w)))) else 0%Q.
(** exp(A+B): every word of length n has the coefficient 1/n! *)
Definition ser_exp_sum : series := fun w => Qinv (inject_Z (Z.of_nat (fact (length w)))).
Definition ser_one : series := fun w => match w with [] => 1%Q | _ => 0%Q end.
Definition word_ser (deg : nat) (w : word) : series :=
  fold_right (fun f g => ser_mul (ser_exp (fst f) (Qdiv (snd f) (inject_Z (Z.of_nat deg)))) g) ser_one w.
Definition scheme_ser (deg : nat) (s : scheme) : series := fun w =>
  qsum (map (fun t => Qmult (fst t) (word_ser deg (snd t) w)) s).
(** the scheme agrees with exp(A+B) in all terms of degree at most p, i.e. the local error is O(h^(p+1)) *)
Definition has_order (deg : nat) (s : scheme) (p : nat) : Prop :=
  forall w : list letter, (length w <= p)%nat -> Qeq (scheme_ser deg s w) (ser_exp_sum w).

(** ** Products of matrices: M_(n-1) ... M_1 M_0, entries *)
Fixpoint descending (n : nat) (M : nat -> mat2) : mat2 :=
  match n with O => mone | S k => mmul (M k) (descending k M) end.
Definition entry (X : mat2) (i j : nat) : C :=
  match i, j with 0%nat, 0%nat => a11 X | 0%nat, _ => a12 X | _, 0%nat => a21 X | _, _ => a22 X end.
