(** * Specification for the inverse NFT: the Zakharov-Shabat problem, its Darboux transform, solitons
   Self-contained: nothing here refers to the model of the code. *)
From Coq Require Import Reals List.
From Coquelicot Require Import Coquelicot.
From Verif Require Import CExp FscatterSpec.
Import ListNotations.
Local Open Scope C_scope.

(** ** Derivatives and limits of complex valued functions of a real variable *)
Definition tderive (f : R -> C) (t : R) (l : C) : Prop :=
  is_derive (fun x => fst (f x)) t (fst l) /\ is_derive (fun x => snd (f x)) t (snd l).
Definition tlim (f : R -> C) (p : Rbar) (l : C) : Prop :=
  is_lim (fun x => fst (f x)) p (fst l) /\ is_lim (fun x => snd (f x)) p (snd l).

(** ** The (focusing) Zakharov-Shabat problem: v' = [-i l, q; -conj q, i l] v *)
Definition zs_solution (l : C) (q : R -> C) (v : R -> C * C) : Prop := forall t,
  tderive (fun x => fst (v x)) t (- Ci * l * fst (v t) + q t * snd (v t)) /\
  tderive (fun x => snd (v x)) t (- Cconj (q t) * fst (v t) + Ci * l * snd (v t)).

(** The Jost solution from the left: e^(i l t) v -> (1, 0) for t -> -oo; from the right: e^(-i l t) v -> (0, 1) for t -> +oo *)
Definition jost_left (l : C) (q : R -> C) (v : R -> C * C) : Prop := zs_solution l q v /\
  tlim (fun t => Cexp (Ci * l * RtoC t) * fst (v t)) m_infty 1 /\ tlim (fun t => Cexp (Ci * l * RtoC t) * snd (v t)) m_infty 0.
Definition jost_right (l : C) (q : R -> C) (v : R -> C * C) : Prop := zs_solution l q v /\
  tlim (fun t => Cexp (- Ci * l * RtoC t) * fst (v t)) p_infty 0 /\ tlim (fun t => Cexp (- Ci * l * RtoC t) * snd (v t)) p_infty 1.
(** The scattering data of q at l: a(l) is the limit of e^(i l t) phi_1 for t -> +oo, phi the Jost solution from the left;
   b(l) is the limit of e^(-i l t) phi_2 (for real l) *)
Definition nft_a (q : R -> C) (l a : C) : Prop := exists phi, jost_left l q phi /\ tlim (fun t => Cexp (Ci * l * RtoC t) * fst (phi t)) p_infty a.
Definition nft_b (q : R -> C) (l : R) (b : C) : Prop := exists phi, jost_left (RtoC l) q phi /\
  tlim (fun t => Cexp (- Ci * RtoC l * RtoC t) * snd (phi t)) p_infty b.
(** l is a bound state with norming constant b: the Jost solutions are proportional, phi = b psi *)
Definition norming_constant (q : R -> C) (l b : C) : Prop := exists phi psi, jost_left l q phi /\ jost_right l q psi /\
  forall t, fst (phi t) = b * fst (psi t) /\ snd (phi t) = b * snd (psi t).

(** ** Darboux transform.  [v] is a solution for l (at one time t); S has the eigenvectors v and (-conj v2, conj v1)
   for the eigenvalues l and conj l. *)
Definition mv (A : mat2) (v : C * C) : C * C := (a11 A * fst v + a12 A * snd v, a21 A * fst v + a22 A * snd v).
Definition vzero : C * C := (RtoC 0, RtoC 0).
Definition vscal (c : C) (v : C * C) : C * C := (c * fst v, c * snd v).
Definition vorth (v : C * C) : C * C := (- Cconj (snd v), Cconj (fst v)).
Definition norm2 (v : C * C) : C := fst v * Cconj (fst v) + snd v * Cconj (snd v).
Definition darboux_S (l : C) (v : C * C) : mat2 :=
  M2 ((l * (fst v * Cconj (fst v)) + Cconj l * (snd v * Cconj (snd v))) / norm2 v) ((l - Cconj l) * (fst v * Cconj (snd v)) / norm2 v)
     ((l - Cconj l) * (snd v * Cconj (fst v)) / norm2 v) ((l * (snd v * Cconj (snd v)) + Cconj l * (fst v * Cconj (fst v))) / norm2 v).
(** l I - S *)
Definition shifted (l : C) (S : mat2) : mat2 := M2 (l - a11 S) (- a12 S) (- a21 S) (l - a22 S).
(** One transform: solutions w for l become (l - S) w, the potential q becomes q - 2 i S_12.
   The state is the product of the matrices so far, as a function of l, and the potential. *)
Definition dstep (st : (C -> mat2) * C) (x : C * (C * C)) : (C -> mat2) * C :=
  let S := darboux_S (fst x) (mv (fst st (fst x)) (snd x)) in (fun l => mmul (shifted l S) (fst st l), snd st - 2 * Ci * a12 S).
Definition darboux (vs : list (C * (C * C))) (q : C) : (C -> mat2) * C := fold_left dstep vs (fun _ => mone, q).

(** ** Multi-soliton: Darboux transform of q = 0 with the solutions phi - b psi = (e^(-i l t), - b e^(i l t)); [ds] lists bound states
   and norming constants *)
Definition free_vec (t : R) (x : C * C) : C * C := (Cexp (- Ci * fst x * RtoC t), - snd x * Cexp (Ci * fst x * RtoC t)).
Definition soliton (ds : list (C * C)) (t : R) : C := snd (darboux (map (fun x => (fst x, free_vec t x)) ds) 0).
(** the one-soliton in closed form: l = xi + i eta *)
Definition sech (x : R) : R := (2 / (exp x + exp (- x)))%R.
Definition one_soliton (l b : C) (t : R) : C :=
  - RtoC (2 * snd l)%R * (Cconj b / RtoC (Cmod b)) * Cexp (- (2) * Ci * RtoC (fst l * t)) * RtoC (sech (2 * snd l * t - ln (Cmod b))).
(** prod_k (l - l_k) / (l - conj l_k) *)
Definition blaschke (ls : list C) (l : C) : C := fold_right (fun k p => (l - k) / (l - Cconj k) * p) 1 ls.
(** u has no continuous spectrum (b = 0 on the real line), the bound states bs (the zeros of a in the upper half plane), and the norming
   constants bc *)
Definition reflectionless (u : R -> C) (bs bc : list C) : Prop :=
  (forall l, (0 <= snd l)%R -> nft_a u l (blaschke bs l)) /\ (forall xi, nft_b u xi 0) /\
  forall i, (i < length bs)%nat -> norming_constant u (nth i bs (RtoC 0)) (nth i bc (RtoC 0)).
(** n-th of D equidistant points of an interval *)
Definition sample_time (T : R * R) (D n : nat) : R := (fst T + INR n * (snd T - fst T) / INR (D - 1))%R.
