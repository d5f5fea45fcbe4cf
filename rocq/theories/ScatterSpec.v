(** * Specification of slow scattering for the AKNS system v' = A(lambda) v, A = [-i lambda, q; r, i lambda]
   Self-contained apart from the 2x2 matrices of FscatterSpec; nothing here refers to the model of the code. *)
From Coq Require Import Reals List.
From Coquelicot Require Import Coquelicot.
From Verif Require Import CExp CDeriv DiscTables FscatterSpec.
Import ListNotations.
Local Open Scope C_scope.

(** storage of a 2x2 matrix by rows *)
Definition l4 (X : mat2) : list C := [a11 X; a12 X; a21 X; a22 X].
(** the 4x4 matrix [[X, 0], [X', X]] stored by rows *)
Definition d16 (X X' : mat2) : list C :=
  [a11 X; a12 X; RtoC 0; RtoC 0; a21 X; a22 X; RtoC 0; RtoC 0; a11 X'; a12 X'; a11 X; a12 X; a21 X'; a22 X'; a21 X; a22 X].

(** ** Derivatives and exponentials of 2x2 matrices *)
Definition Mderive (F : C -> mat2) (x : C) (L : mat2) : Prop :=
  Cderive (fun z => a11 (F z)) x (a11 L) /\ Cderive (fun z => a12 (F z)) x (a12 L) /\
  Cderive (fun z => a21 (F z)) x (a21 L) /\ Cderive (fun z => a22 (F z)) x (a22 L).
(** U is the fundamental solution of U' = A U, U(0) = I, that is U(t) = exp(t A) *)
Definition fundamental (A : mat2) (U : C -> mat2) : Prop := U 0 = mone /\ forall t, Mderive U t (mmul A (U t)).
Definition traceless (A : mat2) : Prop := a22 A = - a11 A.
(** exp(A) for a traceless matrix A: cosh k I + sinh k/k A with k^2 = -det A, I + A if det A = 0.
   (ScatterProps: for traceless A, t |-> mexp (t A) is the only fundamental solution.) *)
Definition mexp_at (k : C) (A : mat2) : mat2 :=
  let s := if Ceq_dec k 0 then RtoC 1 else Csinh k / k in madd (mscal (Ccosh k) mone) (mscal s A).
Definition mexp (A : mat2) : mat2 := mexp_at (Csqrt (- mdet A)) A.

(** ** One step of the methods *)
Definition akns_A (lam q r : C) : mat2 := M2 (- Ci * lam) q r (Ci * lam).
Definition offd (q r : C) : mat2 := M2 0 q r 0.
Definition mopp (X : mat2) : mat2 := mscal (- (1)) X.
Definition mcomm (X Y : mat2) : mat2 := madd (mmul X Y) (mopp (mmul Y X)).
(** exponents: h A for Boffetta-Osborne and (with h times the weight) for the commutator-free methods;
   ES4: h A + h^3/24 A'' + h^3/12 [A', A]; TES4: the three exponents h^3/48 A'' -+ h^2/12 A' and h A *)
Definition X_BO (h lam q r : C) : mat2 := mscal h (akns_A lam q r).
Definition X_ES4 (h lam q q' q'' r r' r'' : C) : mat2 :=
  madd (mscal h (akns_A lam q r))
    (madd (mscal (h * h * h / 24) (offd q'' r'')) (mscal (h * h * h / 12) (mcomm (offd q' r') (akns_A lam q r)))).
Definition X_TES4 (sgn h q' q'' r' r'' : C) : mat2 :=
  madd (mscal (h * h * h / 48) (offd q'' r'')) (mscal (sgn * (h * h / 12)) (offd q' r')).

(** the i-th step: exp(L) exp(core) exp(R), where only the core depends on lambda and L, R are used by TES4 only.
   (q_3i, q_3i+1, q_3i+2) are the sample and its first two derivatives for ES4 and TES4; w: weights of the commutator-free methods *)
Definition step_core (d : akns_disc) (w : list C) (h : C) (q r : nat -> C) (i : nat) (lam : C) : mat2 :=
  match d with
  | A_ES4 => X_ES4 h lam (q (3*i)%nat) (q (3*i+1)%nat) (q (3*i+2)%nat) (r (3*i)%nat) (r (3*i+1)%nat) (r (3*i+2)%nat)
  | A_TES4 => X_BO h lam (q (3*i)%nat) (r (3*i)%nat)
  | _ => X_BO (nth (i mod length w) w 0 * h) lam (q i) (r i)
  end.
Definition step_outer (d : akns_disc) (h : C) (q r : nat -> C) (i : nat) : option (mat2 * mat2) :=
  match d with
  | A_TES4 => Some (X_TES4 1 h (q (3*i+1)%nat) (q (3*i+2)%nat) (r (3*i+1)%nat) (r (3*i+2)%nat),
                    X_TES4 (- (1)) h (q (3*i+1)%nat) (q (3*i+2)%nat) (r (3*i+1)%nat) (r (3*i+2)%nat))
  | _ => None
  end.
Definition sandwich (o : option (mat2 * mat2)) (f : mat2 -> mat2) (X : mat2) : mat2 :=
  match o with None => X | Some (L, R) => mmul (f L) (mmul X (f R)) end.
Definition slow_step d w h q r i (lam : C) : mat2 := sandwich (step_outer d h q r i) mexp (mexp (step_core d w h q r i lam)).
(** number of steps for D samples *)
Definition slow_steps (d : akns_disc) (D : nat) : nat := match d with A_ES4 | A_TES4 => (D / 3)%nat | _ => D end.
Definition is_slow (d : akns_disc) : Prop :=
  d = A_BO \/ d = A_CF4_2 \/ d = A_CF4_3 \/ d = A_CF5_3 \/ d = A_CF6_4 \/ d = A_ES4 \/ d = A_TES4.

(** ** Change of basis: columns of P = the solutions e^(-i lambda t), e^(i lambda t) in the coordinates of the method.
   NSE: identity.  KdV (q = -1 or r = -1 constant): eigenvectors of A for a vanishing potential, scaled *)
Definition basisP (pde : akns_pde) (vanilla : bool) (lam : C) : mat2 :=
  match pde, vanilla with
  | PDE_KdV, true => M2 (2 * Ci * lam) 0 1 1
  | PDE_KdV, false => M2 1 1 0 (- (2) * Ci * lam)
  | _, _ => mone
  end.
(** inverse of a 2x2 matrix *)
Definition minv (X : mat2) : mat2 := mscal (/ mdet X) (M2 (a22 X) (- a12 X) (- a21 X) (a11 X)).
(** the scattering matrix *)
Definition slow_S (d : akns_disc) (pde : akns_pde) (vanilla : bool) (w : list C) (h : C) (q r : nat -> C) (n : nat) (lam : C) : mat2 :=
  mmul (minv (basisP pde vanilla lam)) (mmul (descending n (fun i => slow_step d w h q r i lam)) (basisP pde vanilla lam)).

(** the sinc routine of the code is exact for this exponent: |k| >= 1e-8 or k = 0, where k^2 = -det X *)
Definition sinc_exact (X : mat2) : Prop := mdet X = 0 \/ (1 / 10000000000000000 <= Cmod (mdet X))%R.
(** |k| >= 1 *)
Definition dsinc_exact (X : mat2) : Prop := (1 <= Cmod (mdet X))%R.

(** ** What the code computes for exp(X) and for the derivative of exp(X(lambda)) with respect to lambda.
   entrywise |V - W| <= b |X| *)
Definition within (b : R) (X V W : mat2) : Prop :=
  (Cmod (a11 V - a11 W)%C <= b * Cmod (a11 X) /\ Cmod (a12 V - a12 W)%C <= b * Cmod (a12 X) /\
   Cmod (a21 V - a21 W)%C <= b * Cmod (a21 X) /\ Cmod (a22 V - a22 W)%C <= b * Cmod (a22 X))%R.
(** V is exp(X), exactly or with an error of at most 4e-34 |X| in each entry; V = c I + s X with real c, s if det X is real *)
Definition approx_exp (X V : mat2) : Prop :=
  (sinc_exact X -> V = mexp X) /\ within (4 / 10000000000000000000000000000000000) X V (mexp X) /\
  (forall x : R, mdet X = RtoC x -> exists c s : R, V = madd (mscal (RtoC c) mone) (mscal (RtoC s) X)).
(** V is the derivative at lam of exp(X(lambda)): exactly if |k| >= 1, and up to 2e-18 |dk^2/2| |X| if |k| >= 1e-8 *)
Definition approx_dexp (X : C -> mat2) (lam : C) (V : mat2) : Prop :=
  exists E, Mderive (fun z => mexp (X z)) lam E /\ (dsinc_exact (X lam) -> V = E) /\
    forall dl, Cderive (fun z => mdet (X z)) lam dl -> within (1 / 1000000000000000000 * Cmod dl) (X lam) V E.
(** the effect of errors E_j of the derivative of the factors M_j on the derivative of M_(n-1)...M_0:
   sum_j M_(n-1)...M_(j+1) E_j M_(j-1)...M_0 *)
Fixpoint propagated (n : nat) (M E : nat -> mat2) : mat2 :=
  match n with O => mzero | S k => madd (mmul (M k) (propagated k M E)) (mmul (E k) (descending k M)) end.

(** all exponents of a step are in the range in which the sinc routine is exact *)
Definition step_exact d w h q r i lam : Prop :=
  sinc_exact (step_core d w h q r i lam) /\
  match step_outer d h q r i with None => True | Some (L, R) => sinc_exact L /\ sinc_exact R end.
(** V is an approximation of the i-th step in the sense of approx_exp for each factor *)
Definition approx_step d w h q r i lam (V : mat2) : Prop :=
  exists Vc VL VR, approx_exp (step_core d w h q r i lam) Vc /\
  match step_outer d h q r i with
  | None => V = Vc
  | Some (L, R) => approx_exp L VL /\ approx_exp R VR /\ V = mmul VL (mmul Vc VR)
  end.
(** the matrices of step i: V approximates the step; with V' as derivative if the core exponent is not degenerate *)
Definition approx_dstep d w h q r i lam (V V' : mat2) : Prop :=
  exists Vc Vc' VL VR, approx_exp (step_core d w h q r i lam) Vc /\ approx_dexp (step_core d w h q r i) lam Vc' /\
  match step_outer d h q r i with
  | None => V = Vc /\ V' = Vc'
  | Some (L, R) => approx_exp L VL /\ approx_exp R VR /\ V = mmul VL (mmul Vc VR) /\ V' = mmul VL (mmul Vc' VR)
  end.
(** the exponent that depends on lambda is not (nearly) nilpotent: |k| >= 1e-8 *)
Definition core_ok d w h q r i lam : Prop := (1 / 10000000000000000 <= Cmod (mdet (step_core d w h q r i lam)))%R.

(** P^-1 M P and its derivative if M' is the one of M *)
Definition based (pde : akns_pde) (vanilla : bool) (lam : C) (M : mat2) : mat2 := mmul (minv (basisP pde vanilla lam)) (mmul M (basisP pde vanilla lam)).
Definition dbasisP (pde : akns_pde) (vanilla : bool) : mat2 :=
  match pde, vanilla with
  | PDE_KdV, true => M2 (2 * Ci) 0 0 0
  | PDE_KdV, false => M2 0 0 0 (- (2) * Ci)
  | _, _ => mzero
  end.
Definition dminvP (pde : akns_pde) (vanilla : bool) (l : C) : mat2 := mopp (mmul (minv (basisP pde vanilla l)) (mmul (dbasisP pde vanilla) (minv (basisP pde vanilla l)))).
Definition dbased (pde : akns_pde) (vanilla : bool) (lam : C) (M M' : mat2) : mat2 :=
  madd (mmul (dminvP pde vanilla lam) (mmul M (basisP pde vanilla lam)))
    (mmul (minv (basisP pde vanilla lam)) (madd (mmul M' (basisP pde vanilla lam)) (mmul M (dbasisP pde vanilla)))).
