(** * What the discretised NFT of the NSE is (C86-C88)
   Self-contained apart from the 2x2 matrices, splittings and slow steps of FscatterSpec and ScatterSpec; nothing here
   refers to the driver fnft_nsev or to the polynomial arithmetic behind it. *)
From Coq Require Import Reals List QArith Qreals.
From Coquelicot Require Import Coquelicot.
From Verif Require Import CExp DiscTables FscatterSpec ScatterSpec.
Import ListNotations.
Local Open Scope C_scope.

(** ** One step of the fast methods on a sample (q, r) with step size h.
   2SPLIT2_MODAL: the rotation [1 Q; R 1]/sqrt(1 - QR), Q = h q, R = h r, between two half steps of exp(hA) *)
Definition modal (h : R) (q r : C) : mat2 :=
  let Q := RtoC h * q in let R := RtoC h * r in mscal (1 / Csqrt (1 - Q * R)) (M2 1 Q R 1).
(** 2SPLIT2A: exp(hA/2) exp(hB) exp(hA/2).  The others: the splitting schemes of FscatterSpec *)
Definition fast_step (d : akns_disc) (h : R) (q r lam : C) : mat2 :=
  match d with
  | A_2SPLIT2A => mmul (expA lam (h / 2)) (mmul (expB q r (RtoC h)) (expA lam (h / 2)))
  | A_2SPLIT2_MODAL => mmul (expA lam (h / 2)) (mmul (modal h q r) (expA lam (h / 2)))
  | _ => match scheme_of d with Some s => splitting lam q r h (akns_degree d) s | None => mone end
  end.
(** where the code evaluates these steps exactly: the modal rotation exists; the arguments of sinc are 0 or not tiny *)
Definition fast_exact (d : akns_disc) (h : R) (q r : C) : Prop :=
  match d with
  | A_2SPLIT2_MODAL => RtoC h * q * (RtoC h * r) <> 1
  | _ => forall s t f, scheme_of d = Some s -> In t s -> In f (snd t) -> fst f = LB ->
           let x := RtoC (Q2R (snd f) * (h / INR (akns_degree d))) * Csqrt (- q * r) in
           x = 0 \/ (1 / 100000000 <= Cmod x)%R
  end.
Definition is_fast (d : akns_disc) : Prop := d = A_2SPLIT2_MODAL \/ scheme_of d <> None.

(** ** The discrete scattering matrix: the product of the steps over n samples, the samples of a step being
   akns_upsampling_factor d apart in the arrays; eps = distance of the steps.
   [w] = the weights of the commutator-free methods *)
Definition scattering (d : akns_disc) (w : list C) (eps : R) (q r : nat -> C) (n : nat) (lam : C) : mat2 :=
  match akns_degree d with
  | O => descending (slow_steps d n) (fun j => slow_step d w (RtoC eps) q r j lam)
  | _ => descending n (fun j => fast_step d (eps / INR (akns_upsampling_factor d)) (q j) (r j) lam)
  end.
Definition scattering_exact (d : akns_disc) (w : list C) (eps : R) (q r : nat -> C) (n : nat) (lam : C) : Prop :=
  match akns_degree d with
  | O => forall j, (j < slow_steps d n)%nat -> step_exact d w (RtoC eps) q r j lam
  | _ => forall j, (j < n)%nat -> fast_exact d (eps / INR (akns_upsampling_factor d)) (q j) (r j)
  end.

(** ** a and b.  The samples sit in the middle of their intervals, so that the signal lives on [T0-eps/2, T1+eps/2];
   (e^(-i lam t), 0) enters at the left end, (a e^(-i lam t), b e^(i lam t)) leaves at the right end *)
Definition nft_a_of (S : mat2) (T : R * R) (eps : R) (lam : C) : C :=
  let tl := (fst T - eps / 2)%R in let tr := (snd T + eps / 2)%R in
  a11 S * Cexp (- Ci * lam * RtoC tl) * Cexp (Ci * lam * RtoC tr).
Definition nft_b_of (S : mat2) (T : R * R) (eps : R) (lam : C) : C :=
  let tl := (fst T - eps / 2)%R in let tr := (snd T + eps / 2)%R in
  a21 S * Cexp (- Ci * lam * RtoC tl) * Cexp (- Ci * lam * RtoC tr).

(** the grids in time and frequency *)
Definition spacing (I : R * R) (n : nat) : R := ((snd I - fst I) / INR (n - 1))%R.
Definition grid_point (I : R * R) (n i : nat) : R := (fst I + spacing I n * INR i)%R.
