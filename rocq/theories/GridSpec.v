(** * Specification vocabulary for the grid searches *)
From Coq Require Import Reals.
From Coquelicot Require Import Coquelicot.
From Verif Require Export Base Fields CExp PolySpec.
Local Open Scope C_scope.

(** e^(i phi) *)
Definition eitheta (phi : R) : C := (cos phi, sin phi).
(** The angle of grid point j of M points on the arc [phi0, phi1] *)
Definition angle (phi0 phi1 : R) (M j : nat) : R := (phi0 + INR j * ((phi1 - phi0) / INR (M - 1)))%R.

(** ** Para-hermitian polynomials: p_(deg-k) = conj p_k, deg even *)
Definition paraherm (p : list C) : Prop :=
  forall k, (k < length p)%nat -> nth (length p - 1 - k) p 0 = Cconj (nth k p 0).
(** the real function that belongs to such a polynomial: e^(-i phi deg/2) p(e^(i phi)) *)
Definition phase_free (p : list C) (phi : R) : C :=
  peval (K := CF) p (eitheta phi) * eitheta (- (INR ((length p - 1) / 2) * phi)).
(** strictly increasing lists *)
Fixpoint increasing (l : list nat) : Prop :=
  match l with
  | [] => True
  | i :: l' => (match l' with [] => True | j :: _ => (i < j)%nat end) /\ increasing l'
  end.

(** ** The general search: three rings *)
(** where the polynomial is evaluated: ring k = 0, 1, 2, grid point j *)
Definition ring_point (phi0 phi1 : R) (M k j : nat) : C :=
  RtoC (/ (1 + (INR k - 1) * ((phi1 - phi0) / INR (M - 1)))) * eitheta (angle phi0 phi1 M j).
(** where the least squares fit places that value *)
Definition fit_point (phi0 phi1 : R) (M k j : nat) : C :=
  RtoC (1 - (INR k - 1) * ((phi1 - phi0) / INR (M - 1))) * eitheta (angle phi0 phi1 M j).
(** the centre is the smallest in modulus of the 3x3 block of values around it *)
Definition local_min (p : list C) (phi0 phi1 : R) (M i : nat) : Prop :=
  forall k j, (k <= 2)%nat -> (i - 1 <= j <= i + 1)%nat ->
    (Cmod (peval (K := CF) p (eitheta (angle phi0 phi1 M i))) <= Cmod (peval (K := CF) p (ring_point phi0 phi1 M k j)))%R.
(** the points used by the fit around grid point i: all nine, the centre contributing zero;
   for i = 1 the code also leaves out its left neighbour on the unit circle *)
Definition fit_set (i : nat) : list (nat * nat) :=
  filter (fun jk => negb ((fst jk =? 0)%nat && (snd jk =? 1)%nat)) (list_prod (seq (i - 1) 3) (seq 0 3)).
Definition csum {A} (l : list A) (f : A -> C) : C := fold_right (fun a s => f a + s) (RtoC 0) l.
Definition rsum {A} (l : list A) (f : A -> R) : R := fold_right (fun a s => (f a + s)%R) 0%R l.
(** slope c minimising sum |y_jk - y_0 - c (z_jk - z_0)|^2 *)
Definition ls_slope (p : list C) (phi0 phi1 : R) (M i : nat) : C :=
  let z0 := eitheta (angle phi0 phi1 M i) in
  let y0 : C := peval (K := CF) p z0 in
  csum (fit_set i) (fun jk => Cconj (fit_point phi0 phi1 M (snd jk) (fst jk) - z0)
                              * (peval (K := CF) p (ring_point phi0 phi1 M (snd jk) (fst jk)) - y0))
  / RtoC (rsum (fit_set i) (fun jk => (Cmod (fit_point phi0 phi1 M (snd jk) (fst jk) - z0)%C) ^ 2)%R).
(** one step of Newton's method with that slope; the centre itself if slope and value vanish *)
Definition estimate (p : list C) (phi0 phi1 : R) (M i : nat) (z : C) : Prop :=
  let z0 := eitheta (angle phi0 phi1 M i) in
  let y0 : C := peval (K := CF) p z0 in
  let c := ls_slope p phi0 phi1 M i in
  (c <> 0 /\ z = z0 - y0 / c) \/ (c = 0 /\ y0 = 0 /\ z = z0).
