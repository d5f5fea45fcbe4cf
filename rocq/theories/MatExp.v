(** * Lemmas about matrix exponentials of traceless 2x2 matrices and their derivatives *)
From Coq Require Import Reals Lra Lia List.
From Coquelicot Require Import Coquelicot.
From Verif Require Import CExp CField CDeriv CMean DiscTables FscatterSpec FscatterProof ScatterSpec.
Import ListNotations.
Local Open Scope C_scope.

Lemma Csqrt_sq (z : C) : Csqrt z * Csqrt z = z.
Proof. apply CExp.Csqrt_sqr. Qed.

Lemma mexp_at_opp k A : mexp_at (- k) A = mexp_at k A.
Proof.
  unfold mexp_at. rewrite Ccosh_opp. destruct (Ceq_dec k 0) as [->|H].
  - replace (- (0)) with (RtoC 0) by ring. destruct (Ceq_dec 0 0); [reflexivity|contradiction].
  - destruct (Ceq_dec (- k) 0) as [E|_]; [exfalso; apply H; replace k with (- - k) by ring; rewrite E; ring|].
    rewrite Csinh_opp. do 2 f_equal. field. exact H.
Qed.
Lemma mexp_root k A : k * k = - mdet A -> mexp A = mexp_at k A.
Proof.
  intros H. unfold mexp. destruct (sqr_eq (Csqrt (- mdet A)) k) as [->| ->]; [rewrite Csqrt_sq; now symmetry|reflexivity|apply mexp_at_opp].
Qed.
Lemma root_exists A : exists k, k * k = - mdet A.
Proof. exists (Csqrt (- mdet A)). apply Csqrt_sq. Qed.

Lemma mat2_eta A : A = M2 (a11 A) (a12 A) (a21 A) (a22 A). Proof. now destruct A. Qed.
Lemma traceless_sq A : traceless A -> mmul A A = mscal (- mdet A) mone.
Proof. intros H. unfold traceless in H. apply mat2_eq; unfold mdet; cbn [a11 a12 a21 a22 mmul mscal mone]; rewrite H; ring. Qed.
Lemma mdet_mscal c A : mdet (mscal c A) = c * c * mdet A.
Proof. unfold mdet. cbn [a11 a12 a21 a22 mscal]. ring. Qed.
Lemma traceless_mscal c A : traceless A -> traceless (mscal c A).
Proof. unfold traceless. cbn [a11 a22 mscal]. intros ->. ring. Qed.

Lemma mexp_det A : traceless A -> mdet (mexp A) = 1.
Proof.
  intros T. destruct (root_exists A) as (k & Hk). rewrite (mexp_root k A Hk). unfold mexp_at.
  assert (Hd : forall c s, mdet (madd (mscal c mone) (mscal s A)) = c * c + s * s * mdet A).
  { intros c s. unfold traceless in T. unfold mdet. cbn [a11 a12 a21 a22 madd mscal mone]. rewrite T. ring. }
  rewrite Hd. replace (mdet A) with (- (k * k)) by (rewrite Hk; ring).
  destruct (Ceq_dec k 0) as [->|N].
  - rewrite Ccosh_0. ring.
  - rewrite <- (Ccosh_sinh k). field. exact N.
Qed.
Lemma mexp_0 A : mexp (mscal 0 A) = mone.
Proof.
  rewrite (mexp_root 0) by (rewrite mdet_mscal; ring). unfold mexp_at. destruct (Ceq_dec 0 0); [|contradiction].
  rewrite Ccosh_0. mring.
Qed.
(** closed form along t A *)
Lemma mexp_line k A t : k * k = - mdet A ->
  mexp (mscal t A) = if Ceq_dec k 0 then madd mone (mscal t A) else madd (mscal (Ccosh (k * t)) mone) (mscal (Csinh (k * t) / k) A).
Proof.
  intros H. rewrite (mexp_root (k * t)).
  2:{ rewrite mdet_mscal. replace (k * t * (k * t)) with (t * t * (k * k)) by ring. rewrite H. ring. }
  unfold mexp_at. destruct (Ceq_dec k 0) as [->|N].
  - rewrite Cmult_0_l. destruct (Ceq_dec 0 0); [|contradiction]. rewrite Ccosh_0. mring.
  - destruct (Ceq_dec (k * t) 0) as [E|E].
    + assert (t = 0). { destruct (Ceq_dec t 0) as [->|Nt]; [reflexivity|]. exfalso. now apply (Cmult_neq_0 k t N Nt). }
      subst t. rewrite Cmult_0_r, Ccosh_0, Csinh_0. unfold Cdiv. mring.
    + f_equal. rewrite mscal_mscal. f_equal. field. split; [intros Ek; now apply N|intros ->; apply E; ring].
Qed.
Lemma mexp_opp A : traceless A -> mmul (mexp (mscal (- (1)) A)) (mexp A) = mone.
Proof.
  intros T. destruct (root_exists A) as (k & Hk). rewrite (mexp_line k A _ Hk).
  replace (mexp A) with (mexp (mscal 1 A)) by now rewrite mscal_one. rewrite (mexp_line k A _ Hk).
  pose proof (traceless_sq A T) as S2. rewrite <- Hk in S2.
  destruct (Ceq_dec k 0) as [E|N].
  - rewrite E in S2. replace (mmul (madd mone (mscal (- (1)) A)) (madd mone (mscal 1 A))) with (madd mone (mscal (- (1)) (mmul A A))) by mring.
    rewrite S2. mring.
  - replace (k * - (1)) with (- (k * 1)) by ring. rewrite Ccosh_opp, Csinh_opp. set (c := Ccosh (k * 1)). set (s := Csinh (k * 1)).
    replace (mmul (madd (mscal c mone) (mscal (- s / k) A)) (madd (mscal c mone) (mscal (s / k) A)))
      with (madd (mscal (c * c) mone) (mscal (- (s * s / (k * k))) (mmul A A))).
    2:{ apply mat2_eq; cbn [a11 a12 a21 a22 mmul madd mscal mone]; field; exact N. }
    rewrite S2. transitivity (mscal (c * c - s * s) mone).
    + apply mat2_eq; cbn [a11 a12 a21 a22 madd mscal mone]; field; exact N.
    + unfold c, s. rewrite Ccosh_sinh. apply mscal_one.
Qed.

(** ** matrix derivatives *)
Lemma Mderive_ext F G x L : (forall t, F t = G t) -> Mderive F x L -> Mderive G x L.
Proof.
  intros H (A & B & C' & D). refine (conj _ (conj _ (conj _ _))); (eapply Cderive_ext; [|eassumption]); intros t; cbv beta; now rewrite H.
Qed.
Lemma Mderive_eq F x L L' : Mderive F x L -> L = L' -> Mderive F x L'. Proof. now intros H <-. Qed.
Lemma Mderive_const K x : Mderive (fun _ => K) x mzero.
Proof. refine (conj _ (conj _ (conj _ _))); apply Cderive_const. Qed.
Lemma Mderive_mul F G x A B : Mderive F x A -> Mderive G x B -> Mderive (fun z => mmul (F z) (G z)) x (madd (mmul A (G x)) (mmul (F x) B)).
Proof.
  intros (F1 & F2 & F3 & F4) (G1 & G2 & G3 & G4).
  refine (conj _ (conj _ (conj _ _))); cbn [a11 a12 a21 a22 mmul madd];
  (eapply Cderive_eq; [apply Cderive_plus; apply Cderive_mult; eassumption|cbv beta; ring]).
Qed.
Lemma Mderive_add F G x A B : Mderive F x A -> Mderive G x B -> Mderive (fun z => madd (F z) (G z)) x (madd A B).
Proof.
  intros (F1 & F2 & F3 & F4) (G1 & G2 & G3 & G4).
  refine (conj _ (conj _ (conj _ _))); cbn [a11 a12 a21 a22 madd]; apply Cderive_plus; assumption.
Qed.
Lemma Mderive_scal f F x a A : Cderive f x a -> Mderive F x A -> Mderive (fun z => mscal (f z) (F z)) x (madd (mscal a (F x)) (mscal (f x) A)).
Proof.
  intros Hf (F1 & F2 & F3 & F4).
  refine (conj _ (conj _ (conj _ _))); cbn [a11 a12 a21 a22 madd mscal]; apply Cderive_mult; assumption.
Qed.

Lemma mexp_fundamental A : traceless A -> fundamental A (fun t => mexp (mscal t A)).
Proof.
  intros T. split; [apply mexp_0|]. intros t. destruct (root_exists A) as (k & Hk).
  pose proof (traceless_sq A T) as S2. rewrite <- Hk in S2.
  apply (Mderive_ext (fun t => if Ceq_dec k 0 then madd mone (mscal t A) else madd (mscal (Ccosh (k * t)) mone) (mscal (Csinh (k * t) / k) A))).
  { intros s. symmetry. now apply mexp_line. }
  rewrite (mexp_line k A t Hk). destruct (Ceq_dec k 0) as [E|N].
  - eapply Mderive_eq; [apply Mderive_add; [apply Mderive_const|apply Mderive_scal; [apply Cderive_id|apply Mderive_const]]|].
    replace (mmul A (madd mone (mscal t A))) with (madd A (mscal t (mmul A A))) by mring. rewrite S2, E. mring.
  - assert (Hl : Cderive (fun z => k * z) t k) by (eapply Cderive_eq; [apply Cderive_scal, Cderive_id|ring]).
    eapply Mderive_eq.
    + apply Mderive_add; (apply Mderive_scal; [|apply Mderive_const]).
      * apply (Cderive_comp Ccosh (fun z => k * z)); [apply Cderive_cosh|exact Hl].
      * apply (Cderive_mult (fun t => Csinh (k * t)) (fun _ => / k)); [apply (Cderive_comp Csinh (fun z => k * z)); [apply Cderive_sinh|exact Hl]|apply Cderive_const].
    + cbv beta. replace (mmul A (madd (mscal (Ccosh (k * t)) mone) (mscal (Csinh (k * t) / k) A)))
        with (madd (mscal (Ccosh (k * t)) A) (mscal (Csinh (k * t) / k) (mmul A A))) by mring.
      rewrite S2. apply mat2_eq; cbn [a11 a12 a21 a22 madd mscal mone mzero]; field; exact N.
Qed.

Lemma Mderive_zero_const F : (forall z, Mderive F z mzero) -> forall z, F z = F 0.
Proof.
  intros H z. apply mat2_eq.
  - apply (Cderive_zero_const (fun z => a11 (F z))). intros y. apply (H y).
  - apply (Cderive_zero_const (fun z => a12 (F z))). intros y. apply (H y).
  - apply (Cderive_zero_const (fun z => a21 (F z))). intros y. apply (H y).
  - apply (Cderive_zero_const (fun z => a22 (F z))). intros y. apply (H y).
Qed.
Lemma Mderive_comp_opp F x L : Mderive F (- x) L -> Mderive (fun z => F (- z)) x (mscal (- (1)) L).
Proof.
  intros (F1 & F2 & F3 & F4).
  assert (Ho : Cderive (fun z => - z) x (- (1))) by (apply Cderive_opp, Cderive_id).
  refine (conj _ (conj _ (conj _ _))); cbn [a11 a12 a21 a22 mscal].
  - exact (Cderive_comp (fun z => a11 (F z)) _ _ _ _ F1 Ho).
  - exact (Cderive_comp (fun z => a12 (F z)) _ _ _ _ F2 Ho).
  - exact (Cderive_comp (fun z => a21 (F z)) _ _ _ _ F3 Ho).
  - exact (Cderive_comp (fun z => a22 (F z)) _ _ _ _ F4 Ho).
Qed.
Lemma mexp_comm A t : traceless A -> mmul A (mexp (mscal t A)) = mmul (mexp (mscal t A)) A.
Proof. intros _. unfold mexp, mexp_at. mring. Qed.

(** uniqueness of the fundamental solution *)
Lemma fundamental_unique A U : traceless A -> fundamental A U -> forall t, U t = mexp (mscal t A).
Proof.
  intros T [U0 HU] t. destruct (mexp_fundamental A T) as [E0 HE].
  assert (K : mmul (mexp (mscal (- t) A)) (U t) = mone).
  { assert (Z : forall z, Mderive (fun z => mmul (mexp (mscal (- z) A)) (U z)) z mzero).
    { intros z. eapply Mderive_eq.
      - apply Mderive_mul; [apply (Mderive_comp_opp (fun z => mexp (mscal z A))), HE|apply HU].
      - cbv beta. rewrite mexp_comm by exact T. mring. }
    rewrite (Mderive_zero_const _ Z t). cbv beta. replace (- (0)) with (RtoC 0) by ring. rewrite E0, U0. mring. }
  assert (K2 : mmul (mexp (mscal t A)) (mexp (mscal (- t) A)) = mone).
  { rewrite <- (mexp_opp (mscal (- t) A)) by now apply traceless_mscal. do 2 f_equal. mring. }
  transitivity (mmul (mmul (mexp (mscal t A)) (mexp (mscal (- t) A))) (U t)); [rewrite K2; mring|].
  rewrite <- mmul_assoc, K. mring.
Qed.

(** ** derivative of mexp along a differentiable curve of traceless matrices *)
(** the square root of w that is closer to rho0 *)
Definition nroot (rho0 w : C) : C := let s := Csqrt w in if Rle_dec 0 (fst (Cconj rho0 * s)) then s else - s.
Lemma nroot_sq rho0 w : nroot rho0 w * nroot rho0 w = w.
Proof. unfold nroot. destruct (Rle_dec _ _); rewrite <- (Csqrt_sq w) at 3; ring. Qed.
Lemma nroot_near rho0 w : (Cmod rho0 <= Cmod (nroot rho0 w + rho0)%C)%R.
Proof.
  assert (H : (0 <= fst (Cconj rho0 * nroot rho0 w)%C)%R).
  { unfold nroot. destruct (Rle_dec _ _) as [L|L]; [exact L|]. cbn in L |- *. lra. }
  set (s := nroot rho0 w) in *. clearbody s.
  assert (Q : (Cmod rho0 * Cmod rho0 <= Cmod (s + rho0)%C * Cmod (s + rho0)%C)%R).
  { rewrite !Cmod_sq. cbn in H |- *. pose proof (Rle_0_sqr (fst s)). pose proof (Rle_0_sqr (snd s)). unfold Rsqr in *. lra. }
  pose proof (Cmod_ge_0 rho0). pose proof (Cmod_ge_0 (s + rho0)%C). nra.
Qed.
Lemma nroot_at (rho0 : C) : rho0 <> 0 -> nroot rho0 (rho0 * rho0) = rho0.
Proof.
  intros N. pose proof (nroot_sq rho0 (rho0 * rho0)) as S. pose proof (nroot_near rho0 (rho0 * rho0)) as B.
  destruct (sqr_eq _ _ S) as [E|E]; [exact E|]. exfalso. rewrite E in B.
  replace (- rho0 + rho0) with (RtoC 0) in B by ring. rewrite Cmod_0 in B.
  assert (0 < Cmod rho0)%R by (apply Cmod_gt_0; exact N). lra.
Qed.
Lemma nroot_derive (rho0 : C) : rho0 <> 0 -> Cderive (nroot rho0) (rho0 * rho0) (/ (2 * rho0)).
Proof.
  intros N. assert (P : (0 < Cmod rho0)%R) by (apply Cmod_gt_0; exact N).
  apply Cderive_eps. intros eps.
  assert (HD : (0 < 2 * eps * (Cmod rho0 * Cmod rho0 * Cmod rho0))%R).
  { pose proof (cond_pos eps). repeat apply Rmult_lt_0_compat; lra. }
  exists (mkposreal _ HD). cbn [pos]. intros w Hw. rewrite nroot_at by exact N.
  pose proof (nroot_sq rho0 w) as S. pose proof (nroot_near rho0 w) as B. set (s := nroot rho0 w) in *. clearbody s.
  assert (Ns : s + rho0 <> 0). { intros E. rewrite E, Cmod_0 in B. lra. }
  set (d := w - rho0 * rho0) in *.
  assert (E1 : s - rho0 = d / (s + rho0)). { unfold d. rewrite <- S. field. exact Ns. }
  assert (E2 : s - rho0 - d * / (2 * rho0) = d * - d / ((s + rho0) * (s + rho0) * (2 * rho0))).
  { replace (s - rho0 - d * / (2 * rho0)) with (d * - (s - rho0) / ((s + rho0) * (2 * rho0))).
    - rewrite E1. field. auto.
    - assert (E3 : d = (s - rho0) * (s + rho0)) by (rewrite E1; field; exact Ns). rewrite E3. field. auto. }
  rewrite E2. rewrite Cmod_div, !Cmod_mult, Cmod_opp, Cmod_R, (Rabs_pos_eq 2) by (try lra; repeat apply Cmult_neq_0; try assumption; exact C2_neq0).
  set (m := Cmod d) in *. set (p := Cmod rho0) in *. set (b := Cmod (s + rho0)) in *.
  assert (m0 : (0 <= m)%R) by apply Cmod_ge_0.
  apply (Rmult_le_reg_r (b * b * (2 * p))); [repeat apply Rmult_lt_0_compat; lra|].
  unfold Rdiv. rewrite Rmult_assoc, Rinv_l, Rmult_1_r by (assert (0 < b * b * (2 * p))%R by (repeat apply Rmult_lt_0_compat; lra); lra).
  apply Rle_trans with (m * (2 * eps * (p * p * p)))%R; [apply Rmult_le_compat_l; lra|].
  replace (eps * m * (b * b * (2 * p)))%R with (m * (2 * eps * (b * b * p)))%R by ring.
  apply Rmult_le_compat_l; [exact m0|]. pose proof (cond_pos eps). apply Rmult_le_compat_l; [lra|].
  apply Rmult_le_compat_r; [lra|]. apply Rmult_le_compat; lra.
Qed.

Lemma Cderive_local (f g : C -> C) (x : C) (rho : R) (l : C) : (0 < rho)%R ->
  (forall z, (Cmod (z - x)%C < rho)%R -> f z = g z) -> Cderive f x l -> Cderive g x l.
Proof.
  intros P H Hf. apply Cderive_eps. intros eps. destruct (Cderive_elim f x l Hf eps (cond_pos eps)) as (d & Hd & B).
  assert (Hm : (0 < Rmin d rho)%R) by (apply Rmin_glb_lt; assumption).
  exists (mkposreal _ Hm). cbn [pos]. intros z Hz.
  pose proof (Rmin_l d rho). pose proof (Rmin_r d rho).
  rewrite <- (H z) by lra. rewrite <- (H x). 2:{ replace (x - x) with (RtoC 0) by ring. rewrite Cmod_0. exact P. }
  apply B. lra.
Qed.

(** derivative of cosh(sqrt w) and sinh(sqrt w)/sqrt w *)
Lemma mexp_derive (M : C -> mat2) (x : C) (M' : mat2) (k : C) : Mderive M x M' -> k * k = - mdet (M x) -> k <> 0 ->
  let D' := a12 M' * a21 (M x) + a12 (M x) * a21 M' - a11 M' * a22 (M x) - a11 (M x) * a22 M' in
  Mderive (fun z => mexp (M z)) x
    (madd (mscal (Csinh k / k * (D' / 2)) mone)
      (madd (mscal ((Ccosh k / (k * k) - Csinh k / (k * k * k)) * (D' / 2)) (M x)) (mscal (Csinh k / k) M'))).
Proof.
  intros HM Hk N D'. pose proof HM as (M1 & M2' & M3 & M4).
  set (w := fun z => - mdet (M z)).
  assert (Hw : Cderive w x D').
  { unfold w, mdet. eapply Cderive_eq; [apply Cderive_opp, Cderive_minus; apply Cderive_mult; eassumption|]. unfold D'. ring. }
  assert (Hr : Cderive (fun z => nroot k (w z)) x (D' * / (2 * k))).
  { apply (Cderive_comp (nroot k) w); [|exact Hw]. unfold w. rewrite <- Hk. now apply nroot_derive. }
  assert (Ex : nroot k (w x) = k) by (unfold w; rewrite <- Hk; now apply nroot_at).
  (* away from zeros of the determinant the formula has no case distinction; near x the root does not vanish *)
  assert (Hs : Cderive (fun z => if Ceq_dec (nroot k (w z)) 0 then RtoC 1 else Csinh (nroot k (w z)) / nroot k (w z)) x
     (D' * / (2 * k) * (Ccosh k / k - Csinh k / (k * k)))).
  { apply (Cderive_comp (fun u => if Ceq_dec u 0 then RtoC 1 else Csinh u / u) (fun z => nroot k (w z))); [|exact Hr].
    rewrite Ex. apply (Cderive_local (fun u => Csinh u / u) _ k (Cmod k)); [apply Cmod_gt_0; exact N| |].
    - intros u Hu. destruct (Ceq_dec u 0) as [->|_]; [|reflexivity]. exfalso.
      replace (0 - k) with (- k) in Hu by ring. rewrite Cmod_opp in Hu. lra.
    - eapply Cderive_eq; [apply (Cderive_mult Csinh (fun u => / u)); [apply Cderive_sinh|now apply Cderive_inv]|].
      field. exact N. }
  apply (Mderive_ext (fun z => mexp_at (nroot k (w z)) (M z))).
  { intros z. symmetry. apply mexp_root. apply nroot_sq. }
  unfold mexp_at. eapply Mderive_eq.
  - apply Mderive_add; apply Mderive_scal; [|apply Mderive_const|exact Hs|exact HM].
    apply (Cderive_comp Ccosh (fun z => nroot k (w z))); [apply Cderive_cosh|exact Hr].
  - cbv beta. rewrite Ex. destruct (Ceq_dec k 0) as [E|_]; [contradiction|].
    apply mat2_eq; cbn [a11 a12 a21 a22 madd mscal mone mzero]; field; exact N.
Qed.
