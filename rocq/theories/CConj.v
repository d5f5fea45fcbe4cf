(** * Complex conjugation *)
From Coq Require Import Reals.
From Coquelicot Require Import Coquelicot.
From Verif Require Import CExp CField.
Local Open Scope C_scope.

Lemma Cconj_R (x : R) : Cconj (RtoC x) = RtoC x. Proof. apply Ceq; cbn; ring. Qed.
Lemma Cconj_conj (x : C) : Cconj (Cconj x) = x. Proof. apply Ceq; cbn; ring. Qed.
Lemma Cconj_opp (x : C) : Cconj (- x) = - Cconj x. Proof. apply Ceq; cbn; ring. Qed.
Lemma Cconj_minus (x y : C) : Cconj (x - y) = Cconj x - Cconj y. Proof. unfold Cminus. now rewrite Cplus_conj, Cconj_opp. Qed.
Lemma Cconj_0 (x : C) : Cconj x = 0 -> x = 0.
Proof. intros H. rewrite <- (Cconj_conj x), H. apply Ceq; cbn; ring. Qed.
Lemma Cconj_inv (x : C) : x <> 0 -> Cconj (/ x) = / Cconj x.
Proof.
  intros N. assert (N' : Cconj x <> 0) by (intros E; apply N; now apply Cconj_0).
  rewrite <- (Cmult_1_l (/ Cconj x)), <- (Cinv_l (Cconj x) N') at 1.
  rewrite <- (Cmult_1_r (Cconj (/ x))), <- (Cinv_r (Cconj x) N'), Cmult_assoc, <- Cmult_conj, Cinv_l by exact N.
  replace (Cconj 1) with (RtoC 1) by (apply Ceq; cbn; ring). ring_simplify. field. exact N'.
Qed.
Lemma Cconj_div (x y : C) : y <> 0 -> Cconj (x / y) = Cconj x / Cconj y.
Proof. intros N. unfold Cdiv. now rewrite Cmult_conj, Cconj_inv. Qed.
Lemma Cconj_cosh x : Cconj (Ccosh x) = Ccosh (Cconj x).
Proof. unfold Ccosh. rewrite Cconj_div by exact C2_neq0. rewrite Cplus_conj, <- !Cexp_conj, Cconj_opp, Cconj_R. reflexivity. Qed.
Lemma Cconj_sinh x : Cconj (Csinh x) = Csinh (Cconj x).
Proof. unfold Csinh. rewrite Cconj_div by exact C2_neq0. rewrite Cconj_minus, <- !Cexp_conj, Cconj_opp, Cconj_R. reflexivity. Qed.
