(** * ring and field over C that understand integer constants *)
From Coq Require Import Reals ZArith Field.
From Coquelicot Require Import Coquelicot.
Local Open Scope C_scope.
Lemma CZ_morph : ring_morph (RtoC 0) (RtoC 1) Cplus Cmult Cminus Copp (@eq C) 0%Z 1%Z Z.add Z.mul Z.sub Z.opp Z.eqb (fun z => RtoC (IZR z)).
Proof.
  constructor; try reflexivity; intros.
  - now rewrite plus_IZR, RtoC_plus.
  - now rewrite minus_IZR, RtoC_minus.
  - now rewrite mult_IZR, RtoC_mult.
  - now rewrite opp_IZR, RtoC_opp.
  - apply Z.eqb_eq in H. now subst.
Qed.
Lemma CZ_complete x y : RtoC (IZR x) = RtoC (IZR y) -> Z.eqb x y = true.
Proof. intros H. apply Z.eqb_eq. apply eq_IZR. now apply RtoC_inj. Qed.
Ltac isPcst t := match t with xH => constr:(true) | xO ?p => isPcst p | xI ?p => isPcst p | _ => constr:(false) end.
Ltac isZcst t := match t with Z0 => constr:(true) | Zpos ?p => isPcst p | Zneg ?p => isPcst p | _ => constr:(false) end.
Ltac Ccst t := match t with
  | RtoC (IZR ?z) => match isZcst z with true => z | _ => constr:(InitialRing.NotConstant) end
  | _ => constr:(InitialRing.NotConstant) end.
Add Field CcF : C_field_theory (morphism CZ_morph, completeness CZ_complete, constants [Ccst]).
