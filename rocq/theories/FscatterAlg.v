(** * The tables of fnft__akns_fscatter.c are the splitting schemes: polynomial identities *)
From Coq Require Import Reals List QArith Qreals ZArith.
From Coquelicot Require Import Coquelicot.
From Verif Require Import CField CExp DiscTables FscatterTab FscatterSpec.
Import ListNotations.
Local Open Scope C_scope.

Definition hor (z : C) (l : list C) : C := fold_left (fun acc c => acc * z + c) l (RtoC 0).
Definition hmat (z : C) (ls : list C * list C * list C * list C) : mat2 :=
  let '(l11, l12, l21, l22) := ls in M2 (hor z l11) (hor z l12) (hor z l21) (hor z l22).
Fixpoint zp (z : C) (n : nat) : C := match n with O => 1 | S n => z * zp z n end.
Definition diagz (z : C) (a : Q) : mat2 := M2 1 0 0 (zp z (Z.to_nat (Qnum a))).
Definition bmat (e : R -> m3) (a : Q) : mat2 := M2 (m0 (e (Q2R a))) (m1 (e (Q2R a))) (m2 (e (Q2R a))) (m0 (e (Q2R a))).

Lemma Q2R_int n : Q2R (n # 1) = IZR n. Proof. unfold Q2R. simpl. field. Qed.
Lemma RtoC_Q n d : RtoC (Q2R (n # d)) = RtoC (IZR n) / RtoC (IZR (Zpos d)).
Proof. unfold Q2R. cbn [Qnum Qden]. rewrite RtoC_mult, RtoC_inv; [reflexivity|]. apply IZR_neq. discriminate. Qed.

Ltac qnorm :=
  repeat match goal with
  | |- context [RtoC (Q2R (?n # ?d))] => rewrite (RtoC_Q n d)
  end;
  repeat match goal with
  | |- context [Q2R (?n # 1)] => rewrite (Q2R_int n)
  end;
  change (Q2R (1 # 2)) with (1 / 2)%R; change (Q2R (3 # 2)) with (3 / 2)%R.
Ltac alg e q r c s :=
  unfold scheme_val, word_val, bmat, diagz, swap_scheme, swap_word, strang, nonsym;
  cbn [fold_right map fst snd flip strang_tail nonsym_tail Nat.sub];
  change (Qred (1 / 2)) with (1#2)%Q; change (Qred (2 / 2)) with (1#1)%Q; change (Qred (3 / 2)) with (3#2)%Q; change (Qred (4 / 2)) with (2#1)%Q;
  change (Qred (6 / 2)) with (3#1)%Q; change (Qred (8 / 2)) with (4#1)%Q;  change (Qred (12 / 2)) with (6#1)%Q;  change (Qred (24 / 2)) with (12#1)%Q;
  change (Qred (2 * 1)) with (2#1)%Q; change (Qred (2 * 3)) with (6#1)%Q; change (Qred (2 * 5)) with (10#1)%Q;
  change (Qred (2 * 15)) with (30#1)%Q; change (Qred (2 * 21)) with (42#1)%Q; change (Qred (2 * 35)) with (70#1)%Q;
  qnorm; cbv beta iota zeta delta [hmat hor fold_left Qnum Z.to_nat Pos.to_nat Pos.iter_op Nat.add zp mmul madd mscal mone mzero a11 a12 a21 a22].

Section Alg.
Variables (q r z : C) (c s : R -> C).
Let e (a : R) : m3 := mk3 (c a) (q * s a) (r * s a).
Lemma alg_2SPLIT1A sch : scheme_of A_2SPLIT1A = Some sch -> hmat z (step_2SPLIT1A e) = scheme_val (diagz z) (bmat e) sch.
Proof. intros H; injection H as <-. unfold step_2SPLIT1A. alg e q r c s. unfold e. cbv beta iota delta [m0 m1 m2]. apply f_equal4; field. Qed.
Lemma alg_2SPLIT1B sch : scheme_of A_2SPLIT1B = Some sch -> hmat z (step_2SPLIT1B e) = scheme_val (diagz z) (bmat e) sch.
Proof. intros H; injection H as <-. unfold step_2SPLIT1B. alg e q r c s. unfold e. cbv beta iota delta [m0 m1 m2]. apply f_equal4; field. Qed.
Lemma alg_2SPLIT2B sch : scheme_of A_2SPLIT2B = Some sch -> hmat z (step_2SPLIT2B e) = scheme_val (diagz z) (bmat e) sch.
Proof. intros H; injection H as <-. unfold step_2SPLIT2B. alg e q r c s. unfold e. cbv beta iota delta [m0 m1 m2]. apply f_equal4; field. Qed.
Lemma alg_2SPLIT2S sch : scheme_of A_2SPLIT2S = Some sch -> hmat z (step_2SPLIT2S e) = scheme_val (diagz z) (bmat e) sch.
Proof. intros H; injection H as <-. unfold step_2SPLIT2S. alg e q r c s. unfold e. cbv beta iota delta [m0 m1 m2]. apply f_equal4; field. Qed.
Lemma alg_2SPLIT3A sch : scheme_of A_2SPLIT3A = Some sch -> hmat z (step_2SPLIT3A e) = scheme_val (diagz z) (bmat e) sch.
Proof. intros H; injection H as <-. unfold step_2SPLIT3A. alg e q r c s. unfold e. cbv beta iota delta [m0 m1 m2]. apply f_equal4; field. Qed.
Lemma alg_2SPLIT3B sch : scheme_of A_2SPLIT3B = Some sch -> hmat z (step_2SPLIT3B e) = scheme_val (diagz z) (bmat e) sch.
Proof. intros H; injection H as <-. unfold step_2SPLIT3B. alg e q r c s. unfold e. cbv beta iota delta [m0 m1 m2]. apply f_equal4; field. Qed.
Lemma alg_2SPLIT3S sch : scheme_of A_2SPLIT3S = Some sch -> hmat z (step_2SPLIT3S e) = scheme_val (diagz z) (bmat e) sch.
Proof. intros H; injection H as <-. unfold step_2SPLIT3S. alg e q r c s. unfold e. cbv beta iota delta [m0 m1 m2]. apply f_equal4; field. Qed.
Lemma alg_2SPLIT4A sch : scheme_of A_2SPLIT4A = Some sch -> hmat z (step_2SPLIT4A e) = scheme_val (diagz z) (bmat e) sch.
Proof. intros H; injection H as <-. unfold step_2SPLIT4A. alg e q r c s. unfold e. cbv beta iota delta [m0 m1 m2]. apply f_equal4; field. Qed.
Lemma alg_2SPLIT4B sch : scheme_of A_2SPLIT4B = Some sch -> hmat z (step_2SPLIT4B e) = scheme_val (diagz z) (bmat e) sch.
Proof. intros H; injection H as <-. unfold step_2SPLIT4B. alg e q r c s. unfold e. cbv beta iota delta [m0 m1 m2]. apply f_equal4; field. Qed.
Lemma alg_2SPLIT5A sch : scheme_of A_2SPLIT5A = Some sch -> hmat z (step_2SPLIT5A e) = scheme_val (diagz z) (bmat e) sch.
Proof. intros H; injection H as <-. unfold step_2SPLIT5A. alg e q r c s. unfold e. cbv beta iota delta [m0 m1 m2]. apply f_equal4; field. Qed.
Lemma alg_2SPLIT5B sch : scheme_of A_2SPLIT5B = Some sch -> hmat z (step_2SPLIT5B e) = scheme_val (diagz z) (bmat e) sch.
Proof. intros H; injection H as <-. unfold step_2SPLIT5B. alg e q r c s. unfold e. cbv beta iota delta [m0 m1 m2]. apply f_equal4; field. Qed.
Lemma alg_2SPLIT6A sch : scheme_of A_2SPLIT6A = Some sch -> hmat z (step_2SPLIT6A e) = scheme_val (diagz z) (bmat e) sch.
Proof. intros H; injection H as <-. unfold step_2SPLIT6A. alg e q r c s. unfold e. cbv beta iota delta [m0 m1 m2]. apply f_equal4; field. Qed.
Lemma alg_2SPLIT6B sch : scheme_of A_2SPLIT6B = Some sch -> hmat z (step_2SPLIT6B e) = scheme_val (diagz z) (bmat e) sch.
Proof. intros H; injection H as <-. unfold step_2SPLIT6B. alg e q r c s. unfold e. cbv beta iota delta [m0 m1 m2]. apply f_equal4; field. Qed.
Lemma alg_2SPLIT8B sch : scheme_of A_2SPLIT8B = Some sch -> hmat z (step_2SPLIT8B e) = scheme_val (diagz z) (bmat e) sch.
Proof. intros H; injection H as <-. unfold step_2SPLIT8B. alg e q r c s. unfold e. cbv beta iota delta [m0 m1 m2]. apply f_equal4; field. Qed.
Lemma alg_2SPLIT8A sch : scheme_of A_2SPLIT8A = Some sch -> hmat z (step_2SPLIT8A e) = scheme_val (diagz z) (bmat e) sch.
Proof. intros H; injection H as <-. unfold step_2SPLIT8A. alg e q r c s. unfold e. cbv beta iota delta [m0 m1 m2]. apply f_equal4; field. Qed.
Lemma alg_2SPLIT7A sch : scheme_of A_2SPLIT7A = Some sch -> hmat z (step_2SPLIT7A e) = scheme_val (diagz z) (bmat e) sch.
Proof. intros H; injection H as <-. unfold step_2SPLIT7A. alg e q r c s. unfold e. cbv beta iota delta [m0 m1 m2]. apply f_equal4; field. Qed.
Lemma alg_2SPLIT7B sch : scheme_of A_2SPLIT7B = Some sch -> hmat z (step_2SPLIT7B e) = scheme_val (diagz z) (bmat e) sch.
Proof. intros H; injection H as <-. unfold step_2SPLIT7B. alg e q r c s. unfold e. cbv beta iota delta [m0 m1 m2]. apply f_equal4; field. Qed.
End Alg.
