(** * Specification for the a-coefficient, its derivative and the norming constants of bound states
   Uses only ScatterSpec.v; nothing here refers to the model of the code. *)
From Coq Require Import Reals List.
From Coquelicot Require Import Coquelicot.
From Verif Require Import CExp CDeriv DiscTables FscatterSpec ScatterSpec.
Import ListNotations.
Local Open Scope C_scope.

(** M_n M_(n+1) ... M_(n+k-1) *)
Fixpoint rising (k n : nat) (M : nat -> mat2) : mat2 := match k with O => mone | S k' => mmul (M n) (rising k' (S n) M) end.
(** the solutions for a vanishing potential at time t *)
Definition waves (t : R) (lam : C) : mat2 := M2 (Cexp (- Ci * lam * RtoC t)) 0 0 (Cexp (Ci * lam * RtoC t)).
(** steps per given sample *)
Definition substeps (d : akns_disc) : nat := match d with A_ES4 | A_TES4 => 1%nat | _ => akns_upsampling_factor d end.
(** V approximates the inverse of the i-th step: the exponents with negative sign in the reverse order *)
Definition approx_back d w h q r i lam (V : mat2) : Prop :=
  exists Vc VL VR, approx_exp (mopp (step_core d w h q r i lam)) Vc /\
  match step_outer d h q r i with
  | None => V = Vc
  | Some (L, R) => approx_exp (mopp L) VL /\ approx_exp (mopp R) VR /\ V = mmul VR (mmul Vc VL)
  end.

(** The time interval is [tm, tp].  After n of Dg samples the Jost solutions in the basis of the waves are the first column of
   phi n (started at tm with e^(-i lambda t)) and the second column of psi n (started at tp with e^(i lambda t)) *)
Definition jost_phi d pde vanilla (V : nat -> mat2) (tm : R) (lam : C) (n : nat) : mat2 :=
  mmul (based pde vanilla lam (descending (n * substeps d) V)) (waves tm lam).
Definition jost_psi d pde vanilla (Vb : nat -> mat2) (Dg : nat) (tp : R) (lam : C) (n : nat) : mat2 :=
  mmul (based pde vanilla lam (rising ((Dg - n) * substeps d) (n * substeps d) Vb)) (waves tp lam).
(** for the KdV only the real parts are used *)
Definition part (pde : akns_pde) (x : C) : C := match pde with PDE_KdV => RtoC (fst x) | _ => x end.
Definition ipart (pde : akns_pde) (x : C) : C := match pde with PDE_KdV => Ci * RtoC (snd x) | _ => x end.

Section B.
Variables (pde : akns_pde) (phi psi : nat -> mat2).
Definition f0 n := part pde (a11 (phi n)).
Definition f1 n := part pde (a21 (phi n)).
Definition g0 n := part pde (a12 (psi n)).
Definition g1 n := part pde (a22 (psi n)).
(** the two estimates of b from sample n can be compared *)
Definition usable (n : nat) : Prop := f0 n <> 0 /\ f1 n <> 0 /\ g0 n <> 0 /\ g1 n <> 0 /\
  (pde = PDE_KdV -> (0 < fst (f0 n / g0 n * (f1 n / g1 n))%C)%R).
Definition discrepancy (n : nat) : R := Rabs (1 / 2 * ln (Cmod (f1 n / g1 n / (f0 n / g0 n))%C)).
(** b is the first estimate where the two estimates agree best; unchanged if there is no such sample *)
Definition selected_b (Dg : nat) (b_old b : C) : Prop :=
  (exists n, (n <= Dg)%nat /\ usable n /\ b = f0 n / g0 n /\ forall m, (m <= Dg)%nat -> usable m -> (discrepancy n <= discrepancy m)%R)
  \/ ((forall n, (n <= Dg)%nat -> ~ usable n) /\ b = b_old).
End B.

(** what is returned for one bound state: a, a' times 2^W, and b *)
Definition bound_state_result (d : akns_disc) (pde : akns_pde) (vanilla : bool) (w : list C) (h : C) (q r : nat -> C)
  (Dg : nat) (tm tp : R) (skip_b : bool) (lam a ap : C) (W : Z) (b_old b : C) : Prop :=
  let N := (Dg * substeps d)%nat in
  exists V V' Vb, (forall j, (j < N)%nat -> approx_dstep d w h q r j lam (V j) (V' j) /\ approx_step d w h q r j lam (V j) /\ approx_back d w h q r j lam (Vb j)) /\
    let S := based pde vanilla lam (descending N V) in let S' := dbased pde vanilla lam (descending N V) (propagated N V V') in
    let e := Cexp (Ci * lam * RtoC (tp - tm)) in
    RtoC (powerRZ 2 W) * a = part pde (e * a11 S) /\
    RtoC (powerRZ 2 W) * ap = ipart pde (e * a11 S' + Ci * RtoC (tp - tm) * (e * a11 S)) /\
    if skip_b then b = b_old
    else selected_b pde (jost_phi d pde vanilla V tm lam) (jost_psi d pde vanilla Vb Dg tp lam) Dg b_old b.
