(** * The discrete nonlinear Fourier transform for the Manakov equation: specification of C93, C94.
   Self-contained up to the step matrices of ManFscSpec and the equation of ManScatSpec. *)
From Coq Require Import Reals Lra List ZArith.
From Coquelicot Require Import Coquelicot.
From Verif Require Import Base CExp DiscTables FscatterSpec ManFscSpec ManFscModel ManFscSample ManScatSpec ManScatTop NsevModel.
Local Open Scope C_scope.

(** the sample with its neighbours (the first and last sample are repeated) *)
Definition with_neighbours (d : man_disc) (n : nat) (q : nat -> C) (j : nat) : C * C * C :=
  if is_ftes d then ((if Nat.eqb j 0 then q j else q (j - 1)%nat), q j, (if Nat.eqb j (n - 1) then q j else q (j + 1)%nat)) else (q j, q j, q j).

(** S is the scattering matrix at lam: the product of the matrices of the n steps; a step is the splitting of the method
   (fast methods), or the value at eps of the fundamental solution U' = P U, U(0) = I for a constant sample (BO, CF4_2) *)
Definition man_scattering (d : man_disc) (kappa : Z) (eps : R) (q1 q2 : nat -> C) (n : nat) (lam : C) (S : mat3) : Prop :=
  match man_scheme_of d with
  | Some us => S = descending3 n (fun j => man_step d kappa eps (with_neighbours d n q1 j) (with_neighbours d n q2 j) us lam)
  | None => exists U : nat -> C -> mat3, (forall j, (j < n)%nat -> fundamental3 (manakov_P (step_lam d lam) kappa (q1 j) (q2 j)) (U j)) /\
      S = descending3 n (fun j => U j (RtoC eps))
  end.
(** the samples are where the code computes the step exactly: no tiny nonzero samples, no division by zero *)
Definition man_scat_exact (d : man_disc) (kappa : Z) (eps : R) (q1 q2 : nat -> C) (n : nat) (lam : C) : Prop :=
  match man_scheme_of d with
  | Some _ => forall j, (j < n)%nat -> man_exact d kappa eps (with_neighbours d n q1 j) (with_neighbours d n q2 j)
  | None => forall j, (j < n)%nat -> q1 j = 0 /\ q2 j = 0 \/
      ~ tiny (q1 j) (q2 j) /\ step_lam d lam * step_lam d lam + RtoC (IZR kappa) * (q1 j * Cconj (q1 j) + q2 j * Cconj (q2 j)) <> 0
  end.

(** the signal lives on [T0-eps/2, T1+eps/2]; the two-stage methods resample it at points of [T0+j eps, T0+(j+1) eps] *)
Definition man_edges (d : man_disc) (T : R * R) (eps : R) : R * R :=
  match man_upsampling_factor d with
  | 2%nat => (fst T, snd T + eps)%R
  | _ => (fst T - eps / 2, snd T + eps / 2)%R
  end.
(** (e^(-i lam t), 0, 0) enters at the left edge, (a e^(-i lam t), b1 e^(i lam t), b2 e^(i lam t)) leaves at the right edge *)
Definition mnft_a (S : mat3) (e : R * R) (lam : C) : C := c11 S * Cexp (- Ci * lam * RtoC (fst e)) * Cexp (Ci * lam * RtoC (snd e)).
Definition mnft_b1 (S : mat3) (e : R * R) (lam : C) : C := c21 S * Cexp (- Ci * lam * RtoC (fst e)) * Cexp (- Ci * lam * RtoC (snd e)).
Definition mnft_b2 (S : mat3) (e : R * R) (lam : C) : C := c31 S * Cexp (- Ci * lam * RtoC (fst e)) * Cexp (- Ci * lam * RtoC (snd e)).

(** layout of the continuous spectrum: rho1, rho2 and/or a, b1, b2, each on all grid points *)
Definition mspectrum_is (t : cstype) (M : nat) (a b1 b2 : nat -> C) (cs : list C) : Prop :=
  let rho := forall i, (i < M)%nat -> a i <> 0 /\ nth i cs 0 = b1 i / a i /\ nth (M + i) cs 0 = b2 i / a i in
  let ab off := forall i, (i < M)%nat -> nth (off + i) cs 0 = a i /\ nth (off + M + i) cs 0 = b1 i /\ nth (off + 2 * M + i) cs 0 = b2 i in
  match t with
  | CS_REFLECTION_COEFFICIENT => rho
  | CS_AB => ab 0%nat
  | CS_BOTH => rho /\ ab (2 * M)%nat
  | CS_bad => False
  end.
