(** * Specification: value and formal derivative of a polynomial
   Coefficients are stored with the highest power first, as everywhere in FNFT. *)
From Verif Require Export Base.
Section PolySpec.
Context {K : cfield}.
Local Open Scope cf_scope.
(** p(z) = sum_{i<=deg} p_i z^(deg-i), deg = length p - 1 *)
Definition peval (p : list K) (z : K) : K :=
  fsum (length p) (fun i => nth i p 0 * z ^ (length p - 1 - i)).
(** p'(z) = sum_{i<deg} (deg-i) p_i z^(deg-i-1) *)
Definition pderiv (p : list K) (z : K) : K :=
  fsum (length p - 1) (fun i => fofnat (length p - 1 - i) * nth i p 0 * z ^ (length p - 2 - i)).
End PolySpec.
