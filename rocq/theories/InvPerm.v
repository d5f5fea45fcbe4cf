(** * The multi-soliton does not depend on the order of the bound states; the one-soliton in closed form *)
From Coq Require Import Reals List Lra Lia Permutation.
From Coquelicot Require Import Coquelicot.
From Verif Require Import CExp CField CConj FscatterSpec FscatterProof InvSpec InvDarboux InvSoliton.
Import ListNotations.
Local Open Scope C_scope.

Definition mplus (A B : mat2) : mat2 := M2 (a11 A + a11 B) (a12 A + a12 B) (a21 A + a21 B) (a22 A + a22 B).
Ltac cjs := repeat first [rewrite Cplus_conj | rewrite Cmult_conj | rewrite Cconj_opp | rewrite Cconj_minus | rewrite Cconj_conj].
(** a matrix that maps w and vorth w to 0 is 0 *)
Lemma mat_zero X w : w <> vzero -> mv X w = vzero -> mv X (vorth w) = vzero -> X = mzero.
Proof.
  intros H E1 E2. assert (N := norm2_neq0 w H). destruct w as [x y]. unfold mv, vorth, vzero, norm2 in *. cbn [fst snd] in *.
  apply pair_equal_spec in E1. destruct E1 as [A B]. apply pair_equal_spec in E2. destruct E2 as [A' B'].
  destruct X as [s11 s12 s21 s22]. cbn [a11 a12 a21 a22] in *. set (n := x * Cconj x + y * Cconj y) in *.
  assert (G : forall u : C, u * n = 0 -> u = 0).
  { intros u E. destruct (Ceq_dec u 0) as [|Nu]; [assumption|]. exfalso. exact (Cmult_neq_0 _ _ Nu N E). }
  unfold mzero. f_equal; apply G; unfold n.
  - transitivity ((s11 * x + s12 * y) * Cconj x - (s11 * - Cconj y + s12 * Cconj x) * y); [ring|]. rewrite A, A'. ring.
  - transitivity ((s11 * x + s12 * y) * Cconj y + (s11 * - Cconj y + s12 * Cconj x) * x); [ring|]. rewrite A, A'. ring.
  - transitivity ((s21 * x + s22 * y) * Cconj x - (s21 * - Cconj y + s22 * Cconj x) * y); [ring|]. rewrite B, B'. ring.
  - transitivity ((s21 * x + s22 * y) * Cconj y + (s21 * - Cconj y + s22 * Cconj x) * x); [ring|]. rewrite B, B'. ring.
Qed.
(** S has the form [s1, s2; - conj s2, conj s1] *)
Definition su (S : mat2) : Prop := a22 S = Cconj (a11 S) /\ a21 S = - Cconj (a12 S).
Lemma norm2_conj v : Cconj (norm2 v) = norm2 v.
Proof. unfold norm2. rewrite Cplus_conj, !Cmult_conj, !Cconj_conj. ring. Qed.
Lemma S_su l v : v <> vzero -> su (darboux_S l v).
Proof.
  intros H. assert (N := norm2_neq0 v H). unfold su, darboux_S. cbn [a11 a12 a21 a22]. split.
  - rewrite Cconj_div, norm2_conj by exact N. f_equal. rewrite Cplus_conj, !Cmult_conj, !Cconj_conj. ring.
  - rewrite Cconj_div, norm2_conj by exact N. rewrite !Cmult_conj, Cconj_minus, !Cconj_conj. field. exact N.
Qed.
Lemma shifted_orth l S v : su S -> mv (shifted (Cconj l) S) (vorth v) = vorth (mv (shifted l S) v).
Proof.
  intros [E1 E2]. unfold mv, shifted, vorth. cbn [a11 a12 a21 a22 fst snd]. rewrite E1, E2. f_equal.
  - cjs. ring.
  - cjs. ring.
Qed.
Lemma vorth_orth v : vorth (vorth v) = vscal (- (1)) v.
Proof. unfold vorth, vscal. cbn [fst snd]. rewrite Cconj_opp, !Cconj_conj. f_equal; ring. Qed.
Lemma shifted_kernel_conj l v : v <> vzero -> mv (shifted (Cconj l) (darboux_S l v)) (vorth v) = vzero.
Proof.
  intros H. rewrite shifted_orth by now apply S_su. rewrite shifted_kernel by exact H. unfold vorth, vzero. cbn [fst snd].
  f_equal; apply Ceq; cbn; ring.
Qed.
(** two transforms in either order *)
Section Two.
Variables (l1 l2 : C) (v1 v2 : C * C).
Hypotheses (N1 : v1 <> vzero) (N2 : v2 <> vzero) (P1 : (0 < snd l1)%R) (P2 : (0 < snd l2)%R) (Ne : l1 <> l2).
Let S1 := darboux_S l1 v1.
Let w2 := mv (shifted l2 S1) v2.
Let S2' := darboux_S l2 w2.
Let S2 := darboux_S l2 v2.
Let w1 := mv (shifted l1 S2) v1.
Let S1' := darboux_S l1 w1.
Lemma w2_neq0 : w2 <> vzero.
Proof.
  apply mv_neq0; [|exact N2]. unfold S1. rewrite shifted_det by exact N1. apply Cmult_neq_0.
  - intros E. apply Ne. now apply Csub_0.
  - intros E. apply (f_equal snd) in E. cbn in E. lra.
Qed.
Lemma w1_neq0 : w1 <> vzero.
Proof.
  apply mv_neq0; [|exact N1]. unfold S2. rewrite shifted_det by exact N2. apply Cmult_neq_0.
  - intros E. apply Ne. symmetry. now apply Csub_0.
  - intros E. apply (f_equal snd) in E. cbn in E. lra.
Qed.
(** the difference of the two products at l: l X + Y *)
Let P (l : C) : mat2 := mmul (shifted l S2') (shifted l S1).
Let Q (l : C) : mat2 := mmul (shifted l S1') (shifted l S2).
Let X : mat2 := M2 (a11 S2 + a11 S1' - a11 S1 - a11 S2') (a12 S2 + a12 S1' - a12 S1 - a12 S2')
                   (a21 S2 + a21 S1' - a21 S1 - a21 S2') (a22 S2 + a22 S1' - a22 S1 - a22 S2').
Let Y : mat2 := madd (mmul S2' S1) (mscal (- (1)) (mmul S1' S2)).
Lemma PQ_diff l v : fst (mv (P l) v) - fst (mv (Q l) v) = fst (mv (madd (mscal l X) Y) v) /\ snd (mv (P l) v) - snd (mv (Q l) v) = snd (mv (madd (mscal l X) Y) v).
Proof. unfold P, Q, X, Y, mv, mmul, shifted, madd, mscal. cbn [a11 a12 a21 a22 fst snd]. split; ring. Qed.
Lemma diff_zero l v : mv (P l) v = vzero -> mv (Q l) v = vzero -> mv (madd (mscal l X) Y) v = vzero.
Proof.
  intros E F. destruct (PQ_diff l v) as [A B]. rewrite E, F in A, B. unfold vzero in *. cbn [fst snd] in A, B.
  rewrite (surjective_pairing (mv (madd (mscal l X) Y) v)), <- A, <- B. f_equal; ring.
Qed.
Lemma P_1 : mv (P l1) v1 = vzero. Proof. unfold P. rewrite mv_mmul. unfold S1. rewrite shifted_kernel by exact N1. apply mv_zero. Qed.
Lemma P_1c : mv (P (Cconj l1)) (vorth v1) = vzero. Proof. unfold P. rewrite mv_mmul. unfold S1. rewrite shifted_kernel_conj by exact N1. apply mv_zero. Qed.
Lemma P_2 : mv (P l2) v2 = vzero. Proof. unfold P. rewrite mv_mmul. fold w2. apply shifted_kernel, w2_neq0. Qed.
Lemma P_2c : mv (P (Cconj l2)) (vorth v2) = vzero.
Proof. unfold P. rewrite mv_mmul, shifted_orth by (now apply S_su). fold w2. apply shifted_kernel_conj, w2_neq0. Qed.
Lemma Q_2 : mv (Q l2) v2 = vzero. Proof. unfold Q. rewrite mv_mmul. unfold S2. rewrite shifted_kernel by exact N2. apply mv_zero. Qed.
Lemma Q_2c : mv (Q (Cconj l2)) (vorth v2) = vzero. Proof. unfold Q. rewrite mv_mmul. unfold S2. rewrite shifted_kernel_conj by exact N2. apply mv_zero. Qed.
Lemma Q_1 : mv (Q l1) v1 = vzero. Proof. unfold Q. rewrite mv_mmul. fold w1. apply shifted_kernel, w1_neq0. Qed.
Lemma Q_1c : mv (Q (Cconj l1)) (vorth v1) = vzero.
Proof. unfold Q. rewrite mv_mmul, shifted_orth by (now apply S_su). fold w1. apply shifted_kernel_conj, w1_neq0. Qed.
(** Y = - X S1, since l v1 = S1 v1 *)
Lemma Y_XS : madd (mmul X S1) Y = mzero.
Proof.
  destruct (darboux_S_eigen l1 v1 N1) as [E1 E2]. fold S1 in E1, E2. apply (mat_zero _ v1 N1).
  - assert (H := diff_zero _ _ P_1 Q_1). rewrite <- H. 
    transitivity (let u := mv X (mv S1 v1) in let y := mv Y v1 in (fst u + fst y, snd u + snd y)).
    + unfold mv, madd, mmul. cbn [a11 a12 a21 a22 fst snd]. f_equal; ring.
    + rewrite E1. unfold mv, madd, mscal, vscal. cbn [a11 a12 a21 a22 fst snd]. f_equal; ring.
  - assert (H := diff_zero _ _ P_1c Q_1c). rewrite <- H.
    transitivity (let u := mv X (mv S1 (vorth v1)) in let y := mv Y (vorth v1) in (fst u + fst y, snd u + snd y)).
    + unfold mv, madd, mmul. cbn [a11 a12 a21 a22 fst snd]. f_equal; ring.
    + rewrite E2. unfold mv, madd, mscal, vscal. cbn [a11 a12 a21 a22 fst snd]. f_equal; ring.
Qed.
Lemma X_shift l v : mv (madd (mscal l X) Y) v = mv X (mv (shifted l S1) v).
Proof.
  assert (H := Y_XS). unfold madd, mmul, mzero in H.
  assert (Y11 : a11 Y = - (a11 X * a11 S1 + a12 X * a21 S1)).
  { apply (f_equal a11) in H. cbn [a11] in H. transitivity (a11 X * a11 S1 + a12 X * a21 S1 + a11 Y - (a11 X * a11 S1 + a12 X * a21 S1)); [ring|]. rewrite H. ring. }
  assert (Y12 : a12 Y = - (a11 X * a12 S1 + a12 X * a22 S1)).
  { apply (f_equal a12) in H. cbn [a12] in H. transitivity (a11 X * a12 S1 + a12 X * a22 S1 + a12 Y - (a11 X * a12 S1 + a12 X * a22 S1)); [ring|]. rewrite H. ring. }
  assert (Y21 : a21 Y = - (a21 X * a11 S1 + a22 X * a21 S1)).
  { apply (f_equal a21) in H. cbn [a21] in H. transitivity (a21 X * a11 S1 + a22 X * a21 S1 + a21 Y - (a21 X * a11 S1 + a22 X * a21 S1)); [ring|]. rewrite H. ring. }
  assert (Y22 : a22 Y = - (a21 X * a12 S1 + a22 X * a22 S1)).
  { apply (f_equal a22) in H. cbn [a22] in H. transitivity (a21 X * a12 S1 + a22 X * a22 S1 + a22 Y - (a21 X * a12 S1 + a22 X * a22 S1)); [ring|]. rewrite H. ring. }
  unfold mv, madd, mscal, shifted. cbn [a11 a12 a21 a22 fst snd]. rewrite Y11, Y12, Y21, Y22. f_equal; ring.
Qed.
Lemma X_zero : X = mzero.
Proof.
  apply (mat_zero _ w2 w2_neq0).
  - unfold w2. rewrite <- X_shift. exact (diff_zero _ _ P_2 Q_2).
  - unfold w2. rewrite <- shifted_orth by (now apply S_su). rewrite <- X_shift. exact (diff_zero _ _ P_2c Q_2c).
Qed.
Lemma two_T l : mmul (shifted l S2') (shifted l S1) = mmul (shifted l S1') (shifted l S2).
Proof.
  change (P l = Q l).
  assert (H : forall v, mv (madd (mscal l X) Y) v = vzero). { intros v. rewrite X_shift, X_zero. unfold mv, mzero, vzero. cbn [a11 a12 a21 a22 fst snd]. f_equal; ring. }
  assert (Z : forall v, mv (P l) v = mv (Q l) v).
  { intros v. destruct (PQ_diff l v) as [A B]. rewrite (H v) in A, B. rewrite (surjective_pairing (mv (P l) v)), (surjective_pairing (mv (Q l) v)).
    f_equal; symmetry; apply Csub_0; assumption. }
  assert (Z1 := Z (RtoC 1, RtoC 0)). assert (Z2 := Z (RtoC 0, RtoC 1)). unfold mv in Z1, Z2. cbn [fst snd] in Z1, Z2.
  apply pair_equal_spec in Z1. apply pair_equal_spec in Z2. destruct Z1 as [U1 U2], Z2 as [U3 U4].
  apply mat2_eq.
  - transitivity (a11 (P l) * 1 + a12 (P l) * 0); [ring|]. rewrite U1. ring.
  - transitivity (a11 (P l) * 0 + a12 (P l) * 1); [ring|]. rewrite U3. ring.
  - transitivity (a21 (P l) * 1 + a22 (P l) * 0); [ring|]. rewrite U2. ring.
  - transitivity (a21 (P l) * 0 + a22 (P l) * 1); [ring|]. rewrite U4. ring.
Qed.
Lemma two_q : a12 S1 + a12 S2' = a12 S2 + a12 S1'.
Proof. assert (H := f_equal a12 X_zero). unfold X in H. cbn [a12 mzero] in H. apply (Csub_0 (a12 S2 + a12 S1')). rewrite <- H. ring. Qed.
End Two.

(** ** Equal states, reordering *)
Definition steq (s s' : (C -> mat2) * C) : Prop := (forall l, fst s l = fst s' l) /\ snd s = snd s'.
Lemma steq_refl s : steq s s. Proof. split; auto. Qed.
Lemma steq_trans a b c : steq a b -> steq b c -> steq a c. Proof. intros [A B] [D E]. split; [intros l; now rewrite A|now rewrite B]. Qed.
Lemma dstep_steq s s' x : steq s s' -> steq (dstep s x) (dstep s' x).
Proof. intros [A B]. unfold dstep. split; cbn [fst snd]; [intros l|]; now rewrite !A, ?B. Qed.
Lemma fold_steq xs : forall s s', steq s s' -> steq (fold_left dstep xs s) (fold_left dstep xs s').
Proof. induction xs as [|x xs IH]; intros s s' H; cbn; [exact H|]. apply IH. now apply dstep_steq. Qed.
(** the remaining points can be used *)
Definition usable (s : (C -> mat2) * C) (xs : list (C * (C * C))) : Prop :=
  List.Forall (fun x : C * (C * C) => snd x <> vzero /\ (0 < snd (fst x))%R /\ mdet (fst s (fst x)) <> 0) xs /\ NoDup (map fst xs).
Lemma usable_step s x xs : usable s (x :: xs) -> usable (dstep s x) xs.
Proof.
  intros [A B]. inversion A as [|? ? (V & P & M) A']; subst. cbn [map] in B. inversion B as [|? ? Nin B']; subst. split; [|exact B'].
  rewrite Forall_forall in *. intros y Hy. destruct (A' y Hy) as (V' & P' & M'). repeat split; auto. unfold dstep. cbn [fst]. rewrite mdet_mmul.
  apply Cmult_neq_0; [|exact M']. rewrite shifted_det by (now apply mv_neq0). apply Cmult_neq_0.
  - intros E. apply Csub_0 in E. apply Nin. rewrite E. now apply in_map.
  - intros E. apply (f_equal snd) in E. cbn in E. lra.
Qed.
Lemma usable_perm s xs ys : Permutation xs ys -> usable s xs -> usable s ys.
Proof. intros H [A B]. split; [eapply Permutation_Forall; eauto|]. eapply Permutation_NoDup; [|exact B]. now apply Permutation_map. Qed.
Lemma fold_perm xs ys : Permutation xs ys -> forall s, usable s xs -> steq (fold_left dstep xs s) (fold_left dstep ys s).
Proof.
  induction 1 as [|x xs ys H IH|x y xs|xs ys zs H1 IH1 H2 IH2]; intros s U.
  - apply steq_refl.
  - cbn. apply IH. now apply usable_step.
  - cbn. apply fold_steq. destruct U as [A B]. inversion A as [|? ? (Vy & Py & My) A']; subst. inversion A' as [|? ? (Vx & Px & Mx) _]; subst.
    cbn [map] in B. inversion B as [|? ? Nin _]; subst.
    assert (Ne : fst y <> fst x) by (intros E; apply Nin; rewrite E; now left).
    set (v1 := mv (fst s (fst y)) (snd y)). set (v2 := mv (fst s (fst x)) (snd x)).
    assert (N1 : v1 <> vzero) by now apply mv_neq0. assert (N2 : v2 <> vzero) by now apply mv_neq0.
    assert (HT := two_T (fst y) (fst x) v1 v2 N1 N2 Py Px Ne). assert (HQ := two_q (fst y) (fst x) v1 v2 N1 N2 Py Px Ne).
    unfold dstep. cbn [fst snd]. rewrite !mv_mmul. fold v1 v2. split.
    + intros l. cbn [fst]. rewrite !mmul_assoc. now rewrite HT.
    + cbn [snd]. transitivity (snd s - 2 * Ci * (a12 (darboux_S (fst y) v1) + a12 (darboux_S (fst x) (mv (shifted (fst x) (darboux_S (fst y) v1)) v2)))); [ring|].
      rewrite HQ. ring.
  - eapply steq_trans; [now apply IH1|]. apply IH2. eapply usable_perm; eauto.
Qed.
Theorem soliton_perm ds ds' t : Permutation ds ds' -> sol_valid ds -> soliton ds t = soliton ds' t.
Proof.
  intros H V. unfold soliton, darboux. apply fold_perm; [now apply Permutation_map|]. apply (sol_dvalid _ t) in V. destruct V as [A B]. split; [|exact B].
  eapply List.Forall_impl; [|exact A]. intros x [X Y]. repeat split; auto. cbn [fst]. unfold mdet, mone. cbn. intros E. apply (f_equal fst) in E. cbn in E. lra.
Qed.

(** ** One bound state *)
Theorem one_soliton_form (l b : C) (t : R) : b <> RtoC 0 -> soliton [(l, b)] t = one_soliton l b t.
Proof.
  intros Hb. unfold soliton, darboux. cbn [map fold_left dstep fst snd]. unfold dstep. cbn [fst snd].
  assert (B : (0 < Cmod b)%R) by now apply Cmod_gt_0.
  assert (E0 : mv mone (free_vec t (l, b)) = free_vec t (l, b)). { unfold mv, mone. cbn [a11 a12 a21 a22]. rewrite (surjective_pairing (free_vec t (l, b))) at 5. f_equal; ring. }
  rewrite E0. clear E0.
  set (e := exp (2 * snd l * t)). assert (He : (0 < e)%R) by apply exp_pos.
  assert (Em : exp (- (2 * snd l * t)) = (/ e)%R) by apply exp_Ropp.
  assert (V1 : forall z : C, z * Cconj z = RtoC (Cmod z * Cmod z)). { intros z. rewrite Cmod_sq. apply Ceq; cbn; ring. }
  assert (N : norm2 (free_vec t (l, b)) = RtoC (e + Cmod b * Cmod b * / e)).
  { unfold norm2. rewrite !V1. unfold free_vec. cbn [fst snd]. rewrite Cmod_mult, Cmod_opp, !Cmod_Cexp, <- RtoC_plus. f_equal.
    replace (fst (- Ci * l * RtoC t)) with (snd l * t)%R by (cbn; ring). replace (fst (Ci * l * RtoC t)) with (- (snd l * t))%R by (cbn; ring).
    rewrite <- exp_plus. replace (snd l * t + snd l * t)%R with (2 * snd l * t)%R by ring. fold e. f_equal.
    transitivity (Cmod b * Cmod b * (exp (- (snd l * t)) * exp (- (snd l * t))))%R; [ring|]. rewrite <- exp_plus, <- Em. f_equal. f_equal. ring. }
  assert (W : fst (free_vec t (l, b)) * Cconj (snd (free_vec t (l, b))) = - Cconj b * Cexp (- (2) * Ci * RtoC (fst l * t))).
  { unfold free_vec. cbn [fst snd]. rewrite Cmult_conj, Cconj_opp, <- Cexp_conj. transitivity (- Cconj b * (Cexp (- Ci * l * RtoC t) * Cexp (Cconj (Ci * l * RtoC t)))); [ring|].
    rewrite <- Cexp_plus. f_equal. f_equal. apply Ceq; cbn; ring. }
  unfold darboux_S. cbn [a12]. rewrite W, N. unfold one_soliton, sech.
  assert (Ed : (2 / (exp (2 * snd l * t - ln (Cmod b)) + exp (- (2 * snd l * t - ln (Cmod b)))) = 2 * Cmod b / (e + Cmod b * Cmod b * / e))%R).
  { replace (- (2 * snd l * t - ln (Cmod b)))%R with (- (2 * snd l * t) + ln (Cmod b))%R by ring. unfold Rminus. rewrite !exp_plus, exp_Ropp, exp_ln, Em by exact B. fold e.
    field. repeat split; try lra; nra. }
  rewrite Ed. assert (D : (0 < e + Cmod b * Cmod b * / e)%R). { assert (0 < / e)%R by now apply Rinv_0_lt_compat. nra. }
  assert (L : l - Cconj l = 2 * Ci * RtoC (snd l)) by (apply Ceq; cbn; ring). rewrite L.
  set (x := Cexp (- (2) * Ci * RtoC (fst l * t))). set (d := (e + Cmod b * Cmod b * / e)%R) in *.
  assert (Dn : RtoC d <> 0) by (intros F; apply (f_equal fst) in F; cbn in F; lra). assert (Bn : RtoC (Cmod b) <> 0) by (intros F; apply (f_equal fst) in F; cbn in F; lra).
  unfold Rdiv at 1. rewrite !RtoC_mult, RtoC_inv by lra. field [Ci_sqr]. split; assumption.
Qed.
