(** * The tables of fnft__manakov_fscatter.c are the splitting schemes: polynomial identities *)
From Coq Require Import Reals List QArith Qreals ZArith.
From Coquelicot Require Import Coquelicot.
From Verif Require Import CField CExp DiscTables FscatterSpec FscatterAlg ManFscSpec ManFscTab.
Import ListNotations.
Local Open Scope C_scope.

Definition hmat3 (z : C) (ls : list (list C)) : mat3 :=
  let h k := hor z (nth k ls []) in
  M3 (h 0%nat) (h 1%nat) (h 2%nat) (h 3%nat) (h 4%nat) (h 5%nat) (h 6%nat) (h 7%nat) (h 8%nat).
(** exp(a A) up to a factor: diag(1,z^n,z^n), diag(z^-n,1,1) if n < 0 *)
Definition diag3 (z : C) (n : Z) : mat3 :=
  let a := zp z (Z.to_nat (- n)) in let b := zp z (Z.to_nat n) in M3 a 0 0 0 b 0 0 0 b.
Definition rowsc (z : C) (n : Z) (M : mat3) : mat3 :=
  let a := zp z (Z.to_nat (- n)) in let b := zp z (Z.to_nat n) in
  M3 (a * c11 M) (a * c12 M) (a * c13 M) (b * c21 M) (b * c22 M) (b * c23 M) (b * c31 M) (b * c32 M) (b * c33 M).
Lemma diag3_mul z n M : m3mul (diag3 z n) M = rowsc z n M.
Proof. unfold m3mul, diag3, rowsc. cbn [c11 c12 c13 c21 c22 c23 c31 c32 c33]. f_equal; ring. Qed.
Lemma m3mul_one_r M : m3mul M m3one = M.
Proof. destruct M as [x1 x2 x3 x4 x5 x6 x7 x8 x9]. unfold m3mul, m3one. cbn [c11 c12 c13 c21 c22 c23 c31 c32 c33]. f_equal; ring. Qed.
(** A_n in units of h/u is z^(2n); for the Suzuki splitting (units of h/48, z = exp(i lambda h/3)) it is z^(n/8) *)
Definition EA2 (z : C) (a : Q) : mat3 := diag3 z (2 * Qnum a).
Definition EAs (z : C) (a : Q) : mat3 := diag3 z (Qnum a / 8).

Lemma M3_eq a b c d e f g h i a' b' c' d' e' f' g' h' i' :
  a = a' -> b = b' -> c = c' -> d = d' -> e = e' -> f = f' -> g = g' -> h = h' -> i = i' ->
  M3 a b c d e f g h i = M3 a' b' c' d' e' f' g' h' i'.
Proof. intros. subst. reflexivity. Qed.
Ltac malg :=
  match goal with |- _ = scheme_val3 ?A ?B ?s => let s' := eval vm_compute in s in change s with s' end;
  unfold scheme_val3, word_val3; cbn [fold_right fst snd];
  rewrite !m3mul_one_r; unfold EA2, EAs; cbn [Qnum];
  rewrite ?diag3_mul, ?RtoC_Q.
Ltac mcbv := cbv beta iota zeta delta [hmat3 hor nth fold_left rowsc diag3 Z.to_nat Z.opp Z.mul Pos.mul Pos.add Pos.succ
    Z.div Z.div_eucl Z.pos_div_eucl Z.leb Z.ltb Z.compare Pos.compare Pos.compare_cont Z.add Z.sub Z.pos_sub Pos.pred_double Z.double Z.succ_double Z.pred_double
    Pos.to_nat Pos.iter_op Nat.add zp m3mul m3add m3scal m3one m3zero c11 c12 c13 c21 c22 c23 c31 c32 c33].
Section Alg.
Variables (z : C) (EB : Q -> mat3).
Lemma malg_2SPLIT3A u sch : EB 2 = m3mul (EB 1) (EB 1) -> man_scheme_of M_2SPLIT3A = Some (u, sch) ->
  hmat3 z (mstep_2SPLIT3A (EB 1) (EB 3)) = scheme_val3 (EA2 z) EB sch.
Proof.
  intros H2 H; injection H as <- <-. malg. unfold mstep_2SPLIT3A. rewrite H2.
  destruct (EB 1) as [x11 x12 x13 x21 x22 x23 x31 x32 x33].
  destruct (EB 3) as [y11 y12 y13 y21 y22 y23 y31 y32 y33].
  mcbv. apply M3_eq; field.
Qed.
Lemma malg_2SPLIT3B u sch : man_scheme_of M_2SPLIT3B = Some (u, sch) ->
  hmat3 z (mstep_2SPLIT3B (EB 1) (EB 2) (EB 3)) = scheme_val3 (EA2 z) EB sch.
Proof.
  intros H; injection H as <- <-. malg. unfold mstep_2SPLIT3B.
  destruct (EB 1) as [x11 x12 x13 x21 x22 x23 x31 x32 x33].
  destruct (EB 2) as [y11 y12 y13 y21 y22 y23 y31 y32 y33].
  destruct (EB 3) as [v11 v12 v13 v21 v22 v23 v31 v32 v33].
  mcbv. apply M3_eq; field.
Qed.
Lemma malg_2SPLIT4A u sch : man_scheme_of M_2SPLIT4A = Some (u, sch) ->
  hmat3 z (mstep_2SPLIT4A (EB 2) (EB 4)) = scheme_val3 (EA2 z) EB sch.
Proof.
  intros H; injection H as <- <-. malg. unfold mstep_2SPLIT4A.
  destruct (EB 2) as [x11 x12 x13 x21 x22 x23 x31 x32 x33].
  destruct (EB 4) as [y11 y12 y13 y21 y22 y23 y31 y32 y33].
  mcbv. apply M3_eq; field.
Qed.
Lemma malg_2SPLIT4B u sch : man_scheme_of M_2SPLIT4B = Some (u, sch) ->
  hmat3 z (mstep_2SPLIT4B (EB 1) (EB (1#2))) = scheme_val3 (EA2 z) EB sch.
Proof.
  intros H; injection H as <- <-. malg. unfold mstep_2SPLIT4B.
  destruct (EB 1) as [x11 x12 x13 x21 x22 x23 x31 x32 x33].
  destruct (EB (1#2)) as [y11 y12 y13 y21 y22 y23 y31 y32 y33].
  mcbv. apply M3_eq; field.
Qed.
Lemma malg_2SPLIT6B u sch : man_scheme_of M_2SPLIT6B = Some (u, sch) ->
  hmat3 z (mstep_2SPLIT6B (EB 3) (EB 2) (EB (3#2)) (EB 1)) = scheme_val3 (EA2 z) EB sch.
Proof.
  intros H; injection H as <- <-. malg. unfold mstep_2SPLIT6B.
  destruct (EB 3) as [x11 x12 x13 x21 x22 x23 x31 x32 x33].
  destruct (EB 2) as [y11 y12 y13 y21 y22 y23 y31 y32 y33].
  destruct (EB (3#2)) as [v11 v12 v13 v21 v22 v23 v31 v32 v33].
  destruct (EB 1) as [w11 w12 w13 w21 w22 w23 w31 w32 w33].
  mcbv. apply M3_eq; field.
Qed.
End Alg.
Lemma malg_FTES4_4A z (EB : Q -> mat3) E1 E2 u sch : man_scheme_of M_FTES4_4A = Some (u, sch) ->
  hmat3 z (mstep_FTES4_4A (EB 2%Q) (EB 4%Q) E1 E2) = m3mul E1 (m3mul (scheme_val3 (EA2 z) EB sch) E2).
Proof.
  intros H. rewrite <- (malg_2SPLIT4A z EB u sch H). clear. unfold mstep_2SPLIT4A, mstep_FTES4_4A.
  destruct (EB 2%Q) as [x11 x12 x13 x21 x22 x23 x31 x32 x33]. destruct (EB 4%Q) as [y11 y12 y13 y21 y22 y23 y31 y32 y33]. destruct E1 as [v11 v12 v13 v21 v22 v23 v31 v32 v33]. destruct E2 as [w11 w12 w13 w21 w22 w23 w31 w32 w33].
  mcbv. apply M3_eq; field.
Qed.
Lemma malg_FTES4_suzuki z (EB : Q -> mat3) u sch : man_scheme_of M_FTES4_suzuki = Some (u, sch) ->
  hmat3 z (mstep_FTES4_suzuki (EB 7%Q) (EB 18%Q) (EB (-(1))%Q)) = scheme_val3 (EAs z) EB sch.
Proof.
  intros H; injection H as <- <-. malg. unfold mstep_FTES4_suzuki. change (- (1))%Q with (-1#1)%Q.
  destruct (EB 7%Q) as [x11 x12 x13 x21 x22 x23 x31 x32 x33]. destruct (EB 18%Q) as [y11 y12 y13 y21 y22 y23 y31 y32 y33]. destruct (EB (-1#1)) as [v11 v12 v13 v21 v22 v23 v31 v32 v33].
  mcbv. apply M3_eq; field.
Qed.
