(** * Specification vocabulary for the spectral factorisation *)
From Coq Require Import Reals.
From Coquelicot Require Import Coquelicot.
From Verif Require Export Base Fields CExp PolySpec.
Local Open Scope C_scope.

(** l-th node of M on the unit circle: e^(2 pi i l / M) *)
Definition node (M l : nat) : C := (cos (2 * PI * INR l / INR M), sin (2 * PI * INR l / INR M)).
(** modulus that the spectral factor has to have where the given polynomial has modulus a:
   a, sqrt(1+a^2) or sqrt(1-a^2) for kappa = 0, -1, +1 *)
Definition target (kappa : Z) (a : R) : R :=
  (if (kappa =? 0)%Z then a else if (kappa =? -1)%Z then sqrt (1 + a * a) else sqrt (1 - a * a))%R.
(** the problem is well posed at a node *)
Definition well_posed (kappa : Z) (a : R) : Prop :=
  (kappa = 0%Z /\ 0 < a)%R \/ (kappa = (-1)%Z /\ 0 <= a)%R \/ (kappa = 1%Z /\ 0 <= a < 1)%R.
(** discrete Fourier transform of M real numbers *)
Definition rdft (M : nat) (x : nat -> R) (k : nat) : C :=
  fsum (K := CF) M (fun l => RtoC (x l) * Cconj (node M (l * k))).
(** the multiplier that the code applies to bin k *)
Definition code_multiplier (M k : nat) : C :=
  if (k =? 0)%nat then 0 else if (k <? M / 2 - 1)%nat then - Ci / RtoC (INR M)
  else if (k =? M / 2 - 1)%nat then 0 else Ci / RtoC (INR M).
(** the code's "Hilbert transform" of x *)
Definition code_hilbert (M : nat) (x : nat -> R) (l : nat) : C :=
  fsum (K := CF) M (fun k => rdft M x k * code_multiplier M k * node M (k * l)).
