(** * The spectral factorisation: modulus of the computed factor *)
From Coq Require Import Reals Lra.
From Coquelicot Require Import Coquelicot.
From Verif Require Export SpecfactProps.
Local Open Scope C_scope.
Local Notation "x ^^ n" := (fpow (K := CF) x n) (at level 30, right associativity).

Lemma Cmod_exp_real (a : R) (y : C) : snd y = 0%R -> Cmod (Cexp (RtoC a - Ci * y)) = exp a.
Proof. intros H. rewrite Cmod_Cexp. f_equal. cbn. rewrite H. ring. Qed.

(** what the code computes when the transform length is deg+1 (no truncation): the values of the
   factor at the nodes *)
Theorem poly_specfact_interpolates junk deg (poly result : list C) os kappa :
  (forall k n, length (junk k n) = n) -> (1 <= deg)%nat -> length poly = (deg + 1)%nat -> (deg + 1 <= length result)%nat -> (1 <= os)%nat ->
  next_fft_length ((deg + 1) * os) = Some (deg + 1)%nat ->
  (forall l, (l < deg + 1)%nat -> well_posed kappa (Cmod (peval (K := CF) poly (node (deg + 1) l)))) ->
  exists result', poly_specfact junk deg (Some poly) (Some result) os kappa = Ret (0%Z, Some result')
    /\ length result' = length result
    /\ (let x := fun l => ln (target kappa (Cmod (peval (K := CF) poly (node (deg + 1) l)))) in
        forall l, (l < deg + 1)%nat ->
          peval (K := CF) (firstn (deg + 1) result') (node (deg + 1) l) = Cconj (Cexp (RtoC (x l) - Ci * code_hilbert (deg + 1) x l))).
Proof.
  intros Hj Hd Lp Lr Hos EM WP.
  destruct (poly_specfact_spec junk deg poly result os kappa Hj Hd Lp Lr Hos) as (M & EM' & _ & H).
  rewrite EM in EM'. injection EM' as <-. destruct (H WP) as (h & r' & E & Lh & L' & N1 & _ & V).
  exists r'. split; [exact E|]. split; [exact L'|]. intros x l Hl. etransitivity; [|exact (f_equal Cconj (V l Hl))].
  rewrite Cconj_fsum'. unfold peval. assert (LF : length (firstn (deg + 1) r') = (deg + 1)%nat) by (rewrite firstn_length; lia).
  change (@length (car CF)) with (@length C). rewrite LF. rewrite (fsum_rev (K := CF)). apply (fsum_ext (K := CF)). intros j Hjm.
  rewrite nth_firstn by lia. change (@nth (car CF)) with (@nth C). change (@f0 CF) with (RtoC 0). rewrite N1 by lia.
  replace (deg - (deg + 1 - 1 - j))%nat with j by lia. replace (deg + 1 - 1 - (deg + 1 - 1 - j))%nat with j by lia.
  rewrite Cmult_conj, Cconj_conj. rewrite (Nat.mul_comm j l), node_mul by lia. reflexivity.
Qed.
(** the intended property, |factor| = target at all nodes, under the condition of
   [specfact_hilbert_real_iff].  Missing: the condition is an artefact of the wrong bin. *)
Theorem poly_specfact_modulus_partial junk deg (poly result : list C) os kappa :
  (forall k n, length (junk k n) = n) -> (1 <= deg)%nat -> length poly = (deg + 1)%nat -> (deg + 1 <= length result)%nat -> (1 <= os)%nat ->
  next_fft_length ((deg + 1) * os) = Some (deg + 1)%nat ->
  let M := (deg + 1)%nat in let x := fun l => ln (target kappa (Cmod (peval (K := CF) poly (node M l)))) in
  (forall l, (l < M)%nat -> well_posed kappa (Cmod (peval (K := CF) poly (node M l)))) ->
  rdft M x (M / 2) = 0 -> ((4 <= M)%nat -> rdft M x (M / 2 - 1) = 0) ->
  exists result', poly_specfact junk deg (Some poly) (Some result) os kappa = Ret (0%Z, Some result')
    /\ forall l, (l < M)%nat -> Cmod (peval (K := CF) (firstn M result') (node M l)) = target kappa (Cmod (peval (K := CF) poly (node M l))).
Proof.
  intros Hj Hd Lp Lr Hos EM M x WP Z1 Z2.
  destruct (poly_specfact_interpolates junk deg poly result os kappa Hj Hd Lp Lr Hos EM WP) as (r' & E & _ & V).
  exists r'. split; [exact E|]. intros l Hl. unfold M. cbv zeta in V. rewrite (V l Hl), Cmod_conj.
  fold M. fold x. rewrite Cmod_exp_real.
  - unfold x. apply exp_ln. apply target_pos. now apply WP.
  - apply (specfact_hilbert_real_iff M x); [unfold M; lia|auto|exact Hl].
Qed.

(** the intended property is false in general: P(z) = 2z+1, kappa = 0.  On the two nodes 1, -1 the
   factor should have moduli 3 and 1. *)
Definition ex_P : list C := [RtoC 2; RtoC 1].
Lemma ex_P_val z : peval (K := CF) ex_P z = RtoC 2 * z + RtoC 1.
Proof. unfold peval, ex_P. cbn. change (@eq (car CF)) with (@eq C). cf_norm. ring. Qed.
Lemma node20 : node 2 0 = 1. Proof. now apply node_0. Qed.
Lemma node21 : node 2 1 = - (1).
Proof. unfold node. simpl INR. replace (2 * PI * 1 / (1 + 1))%R with PI by field. rewrite cos_PI, sin_PI. apply Ceq; cbn; ring. Qed.
Lemma ex_P0 : Cmod (peval (K := CF) ex_P (node 2 0)) = 3%R.
Proof. rewrite ex_P_val, node20. replace (RtoC 2 * 1 + RtoC 1) with (RtoC 3) by (apply Ceq; cbn; ring). rewrite Cmod_R. apply Rabs_pos_eq. lra. Qed.
Lemma ex_P1 : Cmod (peval (K := CF) ex_P (node 2 1)) = 1%R.
Proof. rewrite ex_P_val, node21. replace (RtoC 2 * - (1) + RtoC 1) with (- RtoC 1) by (apply Ceq; cbn; ring). rewrite Cmod_opp, Cmod_R. apply Rabs_pos_eq. lra. Qed.
Theorem poly_specfact_modulus_refuted junk (result : list C) :
  (forall k n, length (junk k n) = n) -> (2 <= length result)%nat ->
  exists result', poly_specfact junk 1 (Some ex_P) (Some result) 1 0 = Ret (0%Z, Some result')
    /\ Cmod (peval (K := CF) ex_P (node 2 0)) = 3%R
    /\ Cmod (peval (K := CF) (firstn 2 result') (node 2 0)) = (3 * sqrt 3)%R.
Proof.
  intros Hj Lr.
  assert (WP : forall l, (l < 1 + 1)%nat -> well_posed 0 (Cmod (peval (K := CF) ex_P (node (1 + 1) l)))).
  { intros l Hl. left. split; [reflexivity|]. destruct l as [|[|]]; [|change (1 + 1)%nat with 2%nat; rewrite ex_P1; lra|lia].
    change (1 + 1)%nat with 2%nat. rewrite ex_P0. lra. }
  destruct (poly_specfact_interpolates junk 1 ex_P result 1 0 Hj (le_n 1) eq_refl Lr (le_n 1) eq_refl WP) as (r' & E & _ & V).
  exists r'. split; [exact E|]. split; [apply ex_P0|]. change (1 + 1)%nat with 2%nat in V. cbv zeta in V. rewrite (V 0%nat ltac:(lia)), Cmod_conj.
  set (x := fun l => ln (target 0 (Cmod (peval (K := CF) ex_P (node 2 l))))).
  assert (X0 : x 0%nat = ln 3) by (unfold x, target; cbn [Z.eqb]; now rewrite ex_P0).
  assert (X1 : x 1%nat = 0%R) by (unfold x, target; cbn [Z.eqb]; rewrite ex_P1; apply ln_1).
  assert (EY : code_hilbert 2 x 0 = Ci * RtoC (ln 3 / 2)).
  { unfold code_hilbert, rdft. cbn [fsum Nat.mul Nat.add]. rewrite !node20, X0, X1.
    change (code_multiplier 2 0) with (RtoC 0). change (code_multiplier 2 1) with (Ci / RtoC (INR 2)). rewrite Cconj_R.
    replace (RtoC (INR 2)) with (RtoC 2) by (simpl INR; f_equal; ring).
    assert (E2 : forall u v : C, RtoC 0 + (RtoC 0 + RtoC (ln 3) * 1 + RtoC 0 * u) * RtoC 0 * 1 + (RtoC 0 + RtoC (ln 3) * 1 + RtoC 0 * v) * (Ci / RtoC 2) * 1 = Ci * RtoC (ln 3 / 2)).
    { intros u v. rewrite RtoC_div by lra. field. intros Q. injection Q. lra. }
    apply E2. }
  change (Cmod (Cexp (RtoC (x 0%nat) - Ci * code_hilbert 2 x 0)) = (3 * sqrt 3)%R).
  rewrite EY, X0, Cmod_Cexp. cbn.
  match goal with |- exp ?a = _ => replace a with (ln 3 + / 2 * ln 3)%R by (cbn; field) end.
  rewrite exp_plus, exp_ln by lra. f_equal. rewrite <- ln_sqrt by lra. apply exp_ln. apply sqrt_lt_R0. lra.
Qed.
Print Assumptions poly_specfact_spec.
Print Assumptions poly_specfact_invalid.
Print Assumptions poly_specfact_bad_kappa.
Print Assumptions specfact_hilbert_real_iff.
Print Assumptions poly_specfact_interpolates.
Print Assumptions poly_specfact_modulus_partial.
Print Assumptions poly_specfact_modulus_refuted.

(** ** A case in which the conditions hold: a constant-modulus polynomial *)
Example ex_const : exists result', poly_specfact (fun _ n => repeat (RtoC 0) n) 1 (Some [RtoC 2; RtoC 0]) (Some [RtoC 0; RtoC 0]) 1 0 = Ret (0%Z, Some result')
  /\ forall l, (l < 2)%nat -> Cmod (peval (K := CF) (firstn 2 result') (node 2 l)) = 2%R.
Proof.
  assert (V : forall l, Cmod (peval (K := CF) [RtoC 2; RtoC 0] (node 2 l)) = 2%R).
  { intros l. assert (E : peval (K := CF) [RtoC 2; RtoC 0] (node 2 l) = RtoC 2 * node 2 l).
    { unfold peval. cbn. change (@eq (car CF)) with (@eq C). cf_norm. ring. }
    rewrite E, Cmod_mult, node_mod, Cmod_R, Rabs_pos_eq; lra. }
  destruct (poly_specfact_modulus_partial (fun _ n => repeat (RtoC 0) n) 1 [RtoC 2; RtoC 0] [RtoC 0; RtoC 0] 1 0) as (r' & E & H).
  - intros k n. apply repeat_length. - lia. - reflexivity. - cbn. lia. - lia. - reflexivity.
  - intros l _. left. split; [reflexivity|]. change (1 + 1)%nat with 2%nat. rewrite V. lra.
  - change (1 + 1)%nat with 2%nat. change (2 / 2)%nat with 1%nat. unfold rdft. cbn [fsum]. rewrite !V. unfold target. cbn [Z.eqb Nat.mul Nat.add]. rewrite node20, node21.
    rewrite Cconj_opp, !Cconj_R. cf_norm. apply Ceq; cbn; ring.
  - cbn. lia.
  - exists r'. split; [exact E|]. intros l Hl. change (1 + 1)%nat with 2%nat in H. rewrite (H l Hl), V. reflexivity.
Qed.
