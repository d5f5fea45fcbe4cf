(** * The Darboux transform solves the Zakharov-Shabat problem *)
From Coq Require Import Reals List Lra Lia.
From Coquelicot Require Import Coquelicot.
From Verif Require Import CExp CField CConj FscatterSpec FscatterProof InvSpec.
Import ListNotations.
Local Open Scope C_scope.

(** ** Calculus *)
Lemma tderive_ext f g t l : (forall x, f x = g x) -> tderive f t l -> tderive g t l.
Proof. intros H [A B]. split; [eapply is_derive_ext; [|exact A]|eapply is_derive_ext; [|exact B]]; intros x; cbn; now rewrite H. Qed.
Lemma tderive_eq f t l l' : tderive f t l -> l = l' -> tderive f t l'. Proof. now intros H <-. Qed.
Lemma tderive_const c t : tderive (fun _ => c) t 0.
Proof. split; cbn; apply (is_derive_const (K := R_AbsRing) (V := R_NormedModule)). Qed.
Lemma tderive_plus f g t a b : tderive f t a -> tderive g t b -> tderive (fun x => f x + g x) t (a + b).
Proof. intros [A1 A2] [B1 B2]. split; cbn. - exact (is_derive_plus _ _ _ _ _ A1 B1). - exact (is_derive_plus _ _ _ _ _ A2 B2). Qed.
Lemma tderive_opp f t a : tderive f t a -> tderive (fun x => - f x) t (- a).
Proof. intros [A1 A2]. split; cbn. - exact (is_derive_opp _ _ _ A1). - exact (is_derive_opp _ _ _ A2). Qed.
Lemma tderive_minus f g t a b : tderive f t a -> tderive g t b -> tderive (fun x => f x - g x) t (a - b).
Proof. intros A B. apply tderive_plus; [exact A|]. now apply tderive_opp. Qed.
Lemma rder_mult (f g : R -> R) t a b : is_derive f t a -> is_derive g t b -> is_derive (fun x => f x * g x)%R t (a * g t + f t * b)%R.
Proof. intros A B. apply (is_derive_mult f g t a b A B). intros; apply Rmult_comm. Qed.
Lemma tderive_mult f g t a b : tderive f t a -> tderive g t b -> tderive (fun x => f x * g x) t (a * g t + f t * b).
Proof.
  intros [A1 A2] [B1 B2]. split; cbn.
  - assert (H := is_derive_minus _ _ _ _ _ (rder_mult _ _ _ _ _ A1 B1) (rder_mult _ _ _ _ _ A2 B2)).
    match type of H with is_derive ?f ?t ?l => match goal with |- is_derive _ _ ?m => replace m with l; [exact H|] end end.
    unfold minus, plus, opp; cbn. ring.
  - assert (H := is_derive_plus _ _ _ _ _ (rder_mult _ _ _ _ _ A1 B2) (rder_mult _ _ _ _ _ A2 B1)).
    match type of H with is_derive ?f ?t ?l => match goal with |- is_derive _ _ ?m => replace m with l; [exact H|] end end.
    unfold plus; cbn. ring.
Qed.
Lemma tderive_scal c f t a : tderive f t a -> tderive (fun x => c * f x) t (c * a).
Proof. intros A. eapply tderive_eq; [apply tderive_mult; [apply tderive_const|exact A]|]. cbv beta; ring. Qed.
Lemma tderive_conj f t a : tderive f t a -> tderive (fun x => Cconj (f x)) t (Cconj a).
Proof. intros [A1 A2]. split; cbn; [exact A1|]. exact (is_derive_opp _ _ _ A2). Qed.
Lemma sq_pos (z : C) : z <> 0 -> (0 < fst z * fst z + snd z * snd z)%R.
Proof.
  intros H. destruct (Req_dec (fst z) 0) as [E|E]; [destruct (Req_dec (snd z) 0) as [F|F]|]; try nra.
  exfalso. apply H. now apply Ceq.
Qed.
Lemma tderive_inv f t a : tderive f t a -> f t <> 0 -> tderive (fun x => / f x) t (- a / (f t * f t)).
Proof.
  intros [A1 A2] N. assert (P := sq_pos _ N). set (u := f t) in *.
  assert (Dn := is_derive_plus _ _ _ _ _ (rder_mult _ _ _ _ _ A1 A1) (rder_mult _ _ _ _ _ A2 A2)).
  assert (D1 := is_derive_div _ _ _ _ _ A1 Dn ltac:(unfold plus; cbn; fold u; lra)).
  assert (D2 := is_derive_div _ _ _ _ _ (is_derive_opp _ _ _ A2) Dn ltac:(unfold plus; cbn; fold u; lra)).
  assert (E : - a / (u * u) = - a * (Cconj u * Cconj u) * / RtoC ((fst u * fst u + snd u * snd u) * (fst u * fst u + snd u * snd u))).
  { assert (Q : RtoC ((fst u * fst u + snd u * snd u) * (fst u * fst u + snd u * snd u)) = (u * Cconj u) * (u * Cconj u)).
    { apply Ceq; cbn; ring. }
    rewrite Q. field. split; [|exact N]. intros H. apply Cconj_0 in H. contradiction. }
  rewrite E. split.
  - match type of D1 with is_derive ?g ?t ?l => match goal with |- is_derive _ _ ?m => replace m with l end end.
    + eapply is_derive_ext; [|exact D1]. intros x. unfold plus; cbn. unfold Rdiv; f_equal; f_equal; ring.
    + unfold plus; cbn. fold u. field; repeat split; try lra; try nra.
  - match type of D2 with is_derive ?g ?t ?l => match goal with |- is_derive _ _ ?m => replace m with l end end.
    + eapply is_derive_ext; [|exact D2]. intros x. unfold plus, opp; cbn. unfold Rdiv; f_equal; f_equal; ring.
    + unfold plus, opp; cbn. fold u. field; repeat split; try lra; try nra.
Qed.
Lemma tderive_div f g t a b : tderive f t a -> tderive g t b -> g t <> 0 ->
  tderive (fun x => f x / g x) t ((a * g t - f t * b) / (g t * g t)).
Proof. intros A B N. eapply tderive_eq; [apply tderive_mult; [exact A|exact (tderive_inv _ _ _ B N)]|]. cbv beta; field. exact N. Qed.
Lemma tderive_exp (c : C) t : tderive (fun x => Cexp (c * RtoC x)) t (c * Cexp (c * RtoC t)).
Proof.
  destruct c as [c d]. split; cbn.
  - apply (is_derive_ext (fun x => exp (c * x) * cos (d * x))%R).
    { intros x. f_equal; f_equal; ring. }
    auto_derive; [trivial|]. replace (c * t - d * 0)%R with (c * t)%R by ring. replace (c * 0 + d * t)%R with (d * t)%R by ring. ring.
  - apply (is_derive_ext (fun x => exp (c * x) * sin (d * x))%R).
    { intros x. f_equal; f_equal; ring. }
    auto_derive; [trivial|]. replace (c * t - d * 0)%R with (c * t)%R by ring. replace (c * 0 + d * t)%R with (d * t)%R by ring. ring.
Qed.

(** ** One Darboux transform *)
Lemma norm2_neq0 v : v <> vzero -> norm2 v <> 0.
Proof.
  intros H E. apply H. apply (f_equal fst) in E. unfold norm2 in E. cbn in E. destruct v as [[a b] [c d]]. cbn in *.
  assert (Ha : a = 0%R) by nra. assert (Hb : b = 0%R) by nra. assert (Hc : c = 0%R) by nra. assert (Hd : d = 0%R) by nra. now subst.
Qed.
Lemma vorth_neq0 v : v <> vzero -> vorth v <> vzero.
Proof.
  intros H E. apply H. destruct v as [x y]. unfold vorth, vzero in *. cbn [fst snd] in E. apply pair_equal_spec in E. destruct E as [E1 E2].
  apply Cconj_0 in E2. assert (E3 : Cconj y = 0) by (replace (Cconj y) with (- - Cconj y) by ring; rewrite E1; ring).
  apply Cconj_0 in E3. now subst.
Qed.
(** S is the matrix with the stated eigenvectors *)
Theorem darboux_S_eigen l v : v <> vzero -> mv (darboux_S l v) v = vscal l v /\ mv (darboux_S l v) (vorth v) = vscal (Cconj l) (vorth v).
Proof.
  intros H. assert (N := norm2_neq0 v H). destruct v as [x y]. unfold mv, darboux_S, vscal, vorth. cbn [fst snd a11 a12 a21 a22].
  unfold norm2 in *. cbn [fst snd] in *. split; f_equal; field; exact N.
Qed.
(** ... and the only one *)
Theorem darboux_S_unique l v S : v <> vzero -> mv S v = vscal l v -> mv S (vorth v) = vscal (Cconj l) (vorth v) -> S = darboux_S l v.
Proof.
  intros H E1 E2. assert (N := norm2_neq0 v H). destruct v as [x y]. unfold mv, vscal, vorth in *. cbn [fst snd] in *.
  apply pair_equal_spec in E1. destruct E1 as [A B]. apply pair_equal_spec in E2. destruct E2 as [A' B'].
  unfold darboux_S, norm2 in *. cbn [fst snd] in *. destruct S as [s11 s12 s21 s22]. cbn [a11 a12 a21 a22] in *.
  assert (G : forall u w : C, u * (x * Cconj x + y * Cconj y) = w -> u = w / (x * Cconj x + y * Cconj y)) by (intros u w <-; field; exact N).
  f_equal; apply G.
  - transitivity ((s11 * x + s12 * y) * Cconj x - (s11 * - Cconj y + s12 * Cconj x) * y); [ring|]. rewrite A, A'. ring.
  - transitivity ((s11 * x + s12 * y) * Cconj y + (s11 * - Cconj y + s12 * Cconj x) * x); [ring|]. rewrite A, A'. ring.
  - transitivity ((s21 * x + s22 * y) * Cconj x - (s21 * - Cconj y + s22 * Cconj x) * y); [ring|]. rewrite B, B'. ring.
  - transitivity ((s21 * x + s22 * y) * Cconj y + (s21 * - Cconj y + s22 * Cconj x) * x); [ring|]. rewrite B, B'. ring.
Qed.
Lemma darboux_S_scal l (c : C) v : c <> 0 -> v <> vzero -> darboux_S l (vscal c v) = darboux_S l v.
Proof.
  intros Hc H. assert (N := norm2_neq0 v H). assert (Nc : Cconj c <> 0) by (intros E; apply Hc; now apply Cconj_0).
  unfold darboux_S, norm2 in *. destruct v as [x y]. unfold vscal. cbn [fst snd] in *. rewrite !Cmult_conj.
  assert (N' : c * x * (Cconj c * Cconj x) + c * y * (Cconj c * Cconj y) <> 0).
  { replace (c * x * (Cconj c * Cconj x) + c * y * (Cconj c * Cconj y)) with ((c * Cconj c) * (x * Cconj x + y * Cconj y)) by ring.
    apply Cmult_neq_0; [now apply Cmult_neq_0|exact N]. }
  f_equal; field; split; assumption.
Qed.
Lemma shifted_det l m v : v <> vzero -> mdet (shifted l (darboux_S m v)) = (l - m) * (l - Cconj m).
Proof.
  intros H. assert (N := norm2_neq0 v H). destruct v as [x y]. unfold mdet, shifted, darboux_S, norm2 in *. cbn [fst snd a11 a12 a21 a22] in *.
  field. exact N.
Qed.
Lemma mv_neq0 A v : mdet A <> 0 -> v <> vzero -> mv A v <> vzero.
Proof.
  intros HA H E. apply H. destruct A as [a b c d], v as [x y]. unfold mv, mdet, vzero in *. cbn [fst snd a11 a12 a21 a22] in *.
  apply pair_equal_spec in E. destruct E as [E1 E2].
  assert (X : (a * d - b * c) * x = 0).
  { transitivity (d * (a * x + b * y) - b * (c * x + d * y)); [ring|]. rewrite E1, E2. ring. }
  assert (Y : (a * d - b * c) * y = 0).
  { transitivity (a * (c * x + d * y) - c * (a * x + b * y)); [ring|]. rewrite E1, E2. ring. }
  f_equal; [destruct (Ceq_dec x 0) as [|Nx]; [assumption|]; now elim (Cmult_neq_0 _ _ HA Nx)
           |destruct (Ceq_dec y 0) as [|Ny]; [assumption|]; now elim (Cmult_neq_0 _ _ HA Ny)].
Qed.
Lemma mdet_mmul A B : mdet (mmul A B) = mdet A * mdet B.
Proof. unfold mdet, mmul. cbn [a11 a12 a21 a22]. ring. Qed.
Lemma mv_mmul A B v : mv (mmul A B) v = mv A (mv B v).
Proof. unfold mv, mmul. cbn [a11 a12 a21 a22 fst snd]. f_equal; ring. Qed.

Lemma zs_conj l q v : zs_solution l q v -> forall t,
  tderive (fun x => Cconj (fst (v x))) t (Ci * Cconj l * Cconj (fst (v t)) + Cconj (q t) * Cconj (snd (v t))) /\
  tderive (fun x => Cconj (snd (v x))) t (- q t * Cconj (fst (v t)) - Ci * Cconj l * Cconj (snd (v t))).
Proof.
  intros H t. destruct (H t) as [A B]. assert (E : Cconj Ci = - Ci) by (apply Ceq; cbn; ring). split.
  - eapply tderive_eq; [exact (tderive_conj _ _ _ A)|]. rewrite Cplus_conj, !Cmult_conj, Cconj_opp, E. ring.
  - eapply tderive_eq; [exact (tderive_conj _ _ _ B)|]. rewrite Cplus_conj, !Cmult_conj, Cconj_opp, E, Cconj_conj. ring.
Qed.
Theorem darboux_one q m v l w : zs_solution m q v -> (forall t, v t <> vzero) -> zs_solution l q w ->
  zs_solution l (fun t => q t - 2 * Ci * a12 (darboux_S m (v t))) (fun t => mv (shifted l (darboux_S m (v t))) (w t)).
Proof.
  intros Hv Nv Hw t. destruct (Hv t) as [V1 V2]. destruct (zs_conj _ _ _ Hv t) as [K1 K2]. destruct (Hw t) as [W1 W2].
  assert (N := norm2_neq0 _ (Nv t)). 
  assert (E : Cconj (q t - 2 * Ci * a12 (darboux_S m (v t))) = Cconj (q t) - 2 * Ci * a21 (darboux_S m (v t))).
  { unfold darboux_S, norm2 in *. cbn [a12 a21]. destruct (v t) as [x y]. cbn [fst snd] in *.
    assert (N' : Cconj (x * Cconj x + y * Cconj y) <> 0) by (intros F; apply N; now apply Cconj_0).
    rewrite Cconj_minus, !Cmult_conj, Cconj_div by exact N. 
    assert (Ei : Cconj Ci = - Ci) by (apply Ceq; cbn; ring). assert (E2 : Cconj 2 = 2) by (apply Ceq; cbn; ring).
    rewrite !Cmult_conj, !Cplus_conj, !Cmult_conj, !Cconj_minus, !Cconj_conj, Ei, E2 in *. field; exact N. }
  rewrite E. clear E.
  unfold mv, shifted, darboux_S in *. cbn [a11 a12 a21 a22 fst snd]. unfold norm2 in *.
  set (x := fun s => fst (v s)) in *. set (y := fun s => snd (v s)) in *.
  set (xc := fun s => Cconj (fst (v s))) in *. set (yc := fun s => Cconj (snd (v s))) in *.
  set (w1 := fun s => fst (w s)) in *. set (w2 := fun s => snd (w s)) in *.
  change (fst (v t)) with (x t) in *. change (snd (v t)) with (y t) in *. change (Cconj (x t)) with (xc t) in *. change (Cconj (y t)) with (yc t) in *.
  change (fst (w t)) with (w1 t) in *. change (snd (w t)) with (w2 t) in *.
  assert (Dn := tderive_plus _ _ _ _ _ (tderive_mult _ _ _ _ _ V1 K1) (tderive_mult _ _ _ _ _ V2 K2)).
  assert (Dxx := tderive_mult _ _ _ _ _ V1 K1). assert (Dyy := tderive_mult _ _ _ _ _ V2 K2).
  assert (Dxy := tderive_mult _ _ _ _ _ V1 K2). assert (Dyx := tderive_mult _ _ _ _ _ V2 K1).
  assert (D11 := tderive_div _ _ _ _ _ (tderive_plus _ _ _ _ _ (tderive_scal m _ _ _ Dxx) (tderive_scal (Cconj m) _ _ _ Dyy)) Dn N).
  assert (D22 := tderive_div _ _ _ _ _ (tderive_plus _ _ _ _ _ (tderive_scal m _ _ _ Dyy) (tderive_scal (Cconj m) _ _ _ Dxx)) Dn N).
  assert (D12 := tderive_div _ _ _ _ _ (tderive_scal (m - Cconj m) _ _ _ Dxy) Dn N).
  assert (D21 := tderive_div _ _ _ _ _ (tderive_scal (m - Cconj m) _ _ _ Dyx) Dn N).
  cbv beta in *. split.
  - eapply tderive_eq.
    + apply tderive_plus; apply tderive_mult; [apply tderive_minus; [apply tderive_const|exact D11]|exact W1|apply tderive_opp; exact D12|exact W2].
    + unfold x, y, xc, yc, w1, w2 in *; cbv beta in *; generalize N. generalize (Cconj (fst (v t))) (Cconj (snd (v t))) (fst (v t)) (snd (v t)) (fst (w t)) (snd (w t)) (q t) (Cconj (q t)) (Cconj m). clear.
      intros xc yc x y w1 w2 q qc mc N. field [Ci_sqr]. exact N.
  - eapply tderive_eq.
    + apply tderive_plus; apply tderive_mult; [apply tderive_opp; exact D21|exact W1|apply tderive_minus; [apply tderive_const|exact D22]|exact W2].
    + unfold x, y, xc, yc, w1, w2 in *; cbv beta in *; generalize N. generalize (Cconj (fst (v t))) (Cconj (snd (v t))) (fst (v t)) (snd (v t)) (fst (w t)) (snd (w t)) (q t) (Cconj (q t)) (Cconj m). clear.
      intros xc yc x y w1 w2 q qc mc N. field [Ci_sqr]. exact N.
Qed.
