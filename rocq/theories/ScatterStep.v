(** * Refinement proofs for the slow scattering: the single step *)
From Coq Require Import Reals Lra Lia List ZArith.
From Coquelicot Require Import Coquelicot.
From Verif Require Import Base Loop Mem Fields ErrModel CExp CField CConj CDeriv CMean MiscNumModel MiscNumProps MiscMetricProps MiscSincBound
  DiscTables DiscModel DiscProps FscatterSpec FscatterProof FscatterModel FscatterProps ScatterSpec MatExp ScatterModel.
Import ListNotations.
Local Open Scope C_scope.

Ltac leq := repeat match goal with |- cons _ _ = cons _ _ => apply f_equal2 | |- nil = nil => reflexivity end.
Ltac cring := match goal with |- @eq _ ?a ?b => change (@eq C a b); ring end.
Lemma mm222 X Y : mm 2 2 2 (l4 X) (l4 Y) = Ret (l4 (mmul X Y)).
Proof.
  destruct X as [x1 x2 x3 x4], Y as [y1 y2 y3 y4]. unfold l4. cbn [a11 a12 a21 a22 mmul].
  cbv -[Cplus Cmult RtoC IZR]. f_equal. leq; cring.
Qed.
Lemma mm444 X X' Y Y' : mm 4 4 4 (d16 X X') (d16 Y Y') = Ret (d16 (mmul X Y) (madd (mmul X' Y) (mmul X Y'))).
Proof.
  destruct X as [x1 x2 x3 x4], Y as [y1 y2 y3 y4], X' as [u1 u2 u3 u4], Y' as [v1 v2 v3 v4]. unfold d16. cbn [a11 a12 a21 a22 mmul madd].
  cbv -[Cplus Cmult RtoC IZR]. f_equal. leq; cring.
Qed.
Lemma mm224_top M H H' : mm 2 2 4 (l4 M) (firstn 8 (d16 H H')) = Ret (firstn 8 (d16 (mmul M H) (mmul M H'))).
Proof.
  destruct M as [x1 x2 x3 x4], H as [y1 y2 y3 y4], H' as [z1 z2 z3 z4]. unfold d16, l4. cbn [firstn a11 a12 a21 a22 mmul].
  cbv -[Cplus Cmult RtoC IZR]. f_equal. leq; cring.
Qed.
Lemma mm224_bot M H H' : mm 2 2 4 (l4 M) (skipn 8 (d16 H H')) = Ret (skipn 8 (d16 (mmul M H) (mmul M H'))).
Proof.
  destruct M as [x1 x2 x3 x4], H as [y1 y2 y3 y4], H' as [z1 z2 z3 z4]. unfold d16, l4. cbn [skipn a11 a12 a21 a22 mmul].
  cbv -[Cplus Cmult RtoC IZR]. f_equal. leq; cring.
Qed.

(** ** sinc *)
Definition csinc (k : C) : C := misc_CSINC (Ci * k).
Lemma misc_CSINC_even x : misc_CSINC (- x) = misc_CSINC x.
Proof.
  unfold misc_CSINC. rewrite Cmod_opp. destruct (Rle_dec _ _) as [L|L].
  - assert (Hx : x <> 0) by (intros ->; rewrite Cmod_0 in L; lra).
    rewrite !Csin_sinh. replace (Ci * - x) with (- (Ci * x)) by ring. rewrite Csinh_opp. field. auto using Ci_neq0.
  - rewrite !Ccos_cosh. replace (Ci * (- x / RtoC (sqrt 3))) with (- (Ci * (x / RtoC (sqrt 3)))) by (unfold Cdiv; ring). apply Ccosh_opp.
Qed.
Lemma csinc_even k : csinc (- k) = csinc k.
Proof. unfold csinc. replace (Ci * - k) with (- (Ci * k)) by ring. apply misc_CSINC_even. Qed.
Lemma csinc_0 : csinc 0 = 1.
Proof. unfold csinc. replace (Ci * 0) with (RtoC 0) by ring. apply misc_CSINC_at_zero. Qed.
Lemma sin_sinh_quot (k : C) : k <> 0 -> Csin (Ci * k) / (Ci * k) = Csinh k / k.
Proof.
  intros N. rewrite Csin_sinh. replace (Ci * (Ci * k)) with (- k) by (rewrite Cmult_assoc, Ci_sqr; ring). rewrite Csinh_opp.
  replace (Csinh k / k) with (- Csinh k / (- (1) * k)) by (field; exact N). rewrite <- Ci_sqr. field. auto using Ci_neq0.
Qed.
Lemma csinc_exact (k : C) : (1 / 100000000 <= Cmod k)%R -> csinc k = Csinh k / k.
Proof.
  intros H. unfold csinc, misc_CSINC. rewrite Cmod_iz. destruct (Rle_dec _ _); [|contradiction].
  apply sin_sinh_quot. intros ->. rewrite Cmod_0 in H. lra.
Qed.
Lemma csinc_near (k : C) : k <> 0 -> (Cmod (csinc k - Csinh k / k)%C <= 4 / 10000000000000000000000000000000000)%R.
Proof.
  intros N. destruct (Rle_dec (1 / 100000000) (Cmod k)) as [L|L].
  - rewrite csinc_exact by exact L. replace (Csinh k / k - Csinh k / k) with (RtoC 0) by ring. rewrite Cmod_0. lra.
  - rewrite <- sin_sinh_quot by exact N. apply misc_CSINC_near_zero; [rewrite Cmod_iz; lra|].
    apply Cmult_neq_0; [exact Ci_neq0|exact N].
Qed.

Definition cexp_at (k : C) (X : mat2) : mat2 := madd (mscal (Ccosh k) mone) (mscal (csinc k) X).
Lemma Cmod_root (k w : C) : k * k = w -> (Cmod w = Cmod k * Cmod k)%R.
Proof. intros <-. apply Cmod_mult. Qed.
Lemma root_0 (k : C) : k * k = 0 -> k = 0.
Proof. intros H. destruct (Ceq_dec k 0) as [E|N]; [exact E|]. exfalso. now apply (Cmult_neq_0 k k N N). Qed.
Lemma sinc_exact_root k X : k * k = - mdet X -> sinc_exact X -> k = 0 \/ (1 / 100000000 <= Cmod k)%R.
Proof.
  intros Hk [E|E].
  - left. apply root_0. rewrite Hk, E. ring.
  - right. rewrite <- Cmod_opp, (Cmod_root k _ Hk) in E. pose proof (Cmod_ge_0 k).
    destruct (Rle_dec (1 / 100000000) (Cmod k)) as [L|L]; [exact L|]. exfalso. nra.
Qed.
Lemma csinc_conj k : Cconj (csinc k) = csinc (Cconj k).
Proof.
  unfold csinc. assert (E : Ci * Cconj k = - Cconj (Ci * k)).
  { rewrite Cmult_conj. replace (Cconj Ci) with (- Ci) by (apply Ceq; cbn; ring). ring. }
  rewrite E, misc_CSINC_even. set (x := Ci * k). unfold misc_CSINC. rewrite Cmod_conj.
  assert (EI : Ci * Cconj x = - Cconj (Ci * x)).
  { rewrite Cmult_conj. replace (Cconj Ci) with (- Ci) by (apply Ceq; cbn; ring). ring. }
  destruct (Rle_dec _ _) as [L|L].
  - assert (Hx : x <> 0) by (intros E0; rewrite E0, Cmod_0 in L; lra).
    assert (Hc : Cconj x <> 0) by (intros E0; apply Hx; now apply Cconj_0).
    rewrite Cconj_div by exact Hx. f_equal. rewrite !Csin_sinh, Cconj_div by exact Ci_neq0. rewrite Cconj_sinh, EI, Csinh_opp.
    replace (Cconj Ci) with (- Ci) by (apply Ceq; cbn; ring). field. auto using Ci_neq0.
  - rewrite !Ccos_cosh, Cconj_cosh.
    assert (N3 : RtoC (sqrt 3) <> 0) by (intros Q; apply RtoC_inj in Q; pose proof (sqrt_lt_R0 3 ltac:(lra)); lra).
    replace (Ci * (Cconj x / RtoC (sqrt 3))) with (- Cconj (Ci * (x / RtoC (sqrt 3)))).
    + now rewrite Ccosh_opp.
    + rewrite Cmult_conj, Cconj_div, Cconj_R by exact N3. replace (Cconj Ci) with (- Ci) by (apply Ceq; cbn; ring). ring.
Qed.
Lemma conj_real (z : C) : Cconj z = z -> z = RtoC (fst z).
Proof. destruct z as [x y]. intros H. unfold Cconj in H. cbn [fst snd] in H. injection H as H. apply Ceq; cbn; [reflexivity|lra]. Qed.
Lemma real_root (k : C) (x : R) : k * k = RtoC x -> exists c s : R, Ccosh k = RtoC c /\ csinc k = RtoC s.
Proof.
  intros H. assert (Hc : Cconj k * Cconj k = k * k) by now rewrite <- Cmult_conj, H, Cconj_R.
  exists (fst (Ccosh k)), (fst (csinc k)).
  split; apply conj_real; rewrite ?Cconj_cosh, ?csinc_conj; destruct (sqr_eq _ _ Hc) as [->| ->]; try reflexivity; [apply Ccosh_opp|apply csinc_even].
Qed.
Lemma approx_cexp k X : k * k = - mdet X -> approx_exp X (cexp_at k X).
Proof.
  intros Hk. assert (Ek : mexp X = mexp_at k X) by now apply mexp_root. split; [|split].
  3:{ intros x Hx. destruct (real_root k (- x)) as (c & s & Ec & Es); [rewrite Hk, Hx; now rewrite RtoC_opp|].
      exists c, s. unfold cexp_at. now rewrite Ec, Es. }
  - intros H. rewrite Ek. unfold cexp_at, mexp_at. destruct (sinc_exact_root k X Hk H) as [->|L].
    + rewrite csinc_0. destruct (Ceq_dec 0 0); [reflexivity|contradiction].
    + rewrite csinc_exact by exact L. destruct (Ceq_dec k 0) as [->|_]; [rewrite Cmod_0 in L; lra|reflexivity].
  - rewrite Ek. unfold cexp_at, mexp_at.
    assert (B : (Cmod (csinc k - (if Ceq_dec k 0 then RtoC 1 else Csinh k / k))%C <= 4 / 10000000000000000000000000000000000)%R).
    { destruct (Ceq_dec k 0) as [->|N]; [|now apply csinc_near]. rewrite csinc_0. replace (1 - RtoC 1) with (RtoC 0) by ring. rewrite Cmod_0. lra. }
    set (s := if Ceq_dec k 0 then RtoC 1 else Csinh k / k) in *. set (t := csinc k) in *. set (c := Ccosh k).
    unfold within. cbn [a11 a12 a21 a22 madd mscal mone].
    assert (G : forall u x : C, (Cmod (c * u + t * x - (c * u + s * x))%C <= 4 / 10000000000000000000000000000000000 * Cmod x)%R).
    { intros u x. replace (c * u + t * x - (c * u + s * x)) with ((t - s) * x) by ring. rewrite Cmod_mult.
      apply Rmult_le_compat_r; [apply Cmod_ge_0|exact B]. }
    auto.
Qed.

(** ** derivative of sinc *)
Definition csd (k : C) : C := Ci * misc_CSINC_derivative (Ci * k) / k.
(** the exact value: (d/dk sinh k/k)/k *)
Definition Fd (k : C) : C := (Ccosh k - Csinh k / k) / (k * k).
Lemma sinc_deriv_value (k d : C) : k <> 0 -> Cderive (fun z => Csin z / z) (Ci * k) d -> Ci * d / k = Fd k.
Proof.
  intros N H. assert (N1 : Ci * k <> 0) by (apply Cmult_neq_0; [exact Ci_neq0|exact N]).
  assert (H2 : Cderive (fun z => Csin z / z) (Ci * k) ((Ccos (Ci * k) - Csin (Ci * k) / (Ci * k)) / (Ci * k))).
  { eapply Cderive_eq; [apply (Cderive_mult Csin (fun z => / z)); [apply Cderive_csin|now apply Cderive_inv]|]. cbv beta. field. auto using Ci_neq0. }
  rewrite (Cderive_unique _ _ _ _ H H2). rewrite sin_sinh_quot by exact N.
  rewrite Ccos_cosh. replace (Ci * (Ci * k)) with (- k) by (rewrite Cmult_assoc, Ci_sqr; ring). rewrite Ccosh_opp.
  unfold Fd. field. auto using Ci_neq0.
Qed.
Lemma csd_exact (k : C) : (1 <= Cmod k)%R -> csd k = Fd k.
Proof.
  intros H. unfold csd. apply sinc_deriv_value; [intros ->; rewrite Cmod_0 in H; lra|].
  apply misc_CSINC_derivative_exact. now rewrite Cmod_iz.
Qed.
Lemma pow_le_1 (x : R) n : (0 <= x <= 1 -> x ^ n <= 1)%R.
Proof. intros H. rewrite <- (pow1 n). apply pow_incr. lra. Qed.
Lemma csd_near (k : C) : k <> 0 -> (Cmod (csd k - Fd k)%C <= 2 / 1000000000000000000)%R.
Proof.
  intros N. destruct (Rle_dec 1 (Cmod k)) as [L|L].
  - rewrite csd_exact by exact L. replace (Fd k - Fd k) with (RtoC 0) by ring. rewrite Cmod_0. lra.
  - assert (N1 : Ci * k <> 0) by (apply Cmult_neq_0; [exact Ci_neq0|exact N]).
    destruct (misc_CSINC_derivative_near_zero (Ci * k)) as (d & Hd & B); [rewrite Cmod_iz; lra|exact N1|].
    rewrite <- (sinc_deriv_value k d N Hd). unfold csd.
    replace (Ci * misc_CSINC_derivative (Ci * k) / k - Ci * d / k) with (Ci * (misc_CSINC_derivative (Ci * k) - d) / k) by (field; exact N).
    rewrite Cmod_div, Cmod_iz by exact N. rewrite Cmod_iz in B.
    assert (P : (0 < Cmod k)%R) by (apply Cmod_gt_0; exact N). pose proof (pow_le_1 (Cmod k) 18 ltac:(lra)) as P18.
    apply (Rmult_le_reg_r (Cmod k)); [exact P|]. unfold Rdiv at 1. rewrite Rmult_assoc, Rinv_l, Rmult_1_r by lra.
    eapply Rle_trans; [exact B|]. replace (Cmod k ^ 19)%R with (Cmod k ^ 18 * Cmod k)%R by (cbn [pow]; ring).
    assert (Cmod k ^ 18 * Cmod k <= 1 * Cmod k)%R by (apply Rmult_le_compat_r; lra). lra.
Qed.

(** general form of the derivative block: delta = d/dlambda (k^2)/2; g11, g12, ... are Fd k or csd k *)
Definition dform (delta s g11 g12 g21 g22 : C) (X X' : mat2) : mat2 :=
  M2 (delta * s + delta * g11 * a11 X + s * a11 X') (delta * g12 * a12 X + s * a12 X')
     (delta * g21 * a21 X + s * a21 X') (delta * s + delta * g22 * a22 X + s * a22 X').
Definition gok (k g : C) : Prop := g = Fd k \/ g = csd k.
Lemma approx_dform (X : C -> mat2) (lam : C) (X' : mat2) (k delta g11 g12 g21 g22 : C) :
  Mderive X lam X' -> k * k = - mdet (X lam) -> (1 / 100000000 <= Cmod k)%R ->
  2 * delta = a12 X' * a21 (X lam) + a12 (X lam) * a21 X' - a11 X' * a22 (X lam) - a11 (X lam) * a22 X' ->
  gok k g11 -> gok k g12 -> gok k g21 -> gok k g22 ->
  approx_dexp X lam (dform delta (csinc k) g11 g12 g21 g22 (X lam) X').
Proof.
  intros HX Hk L Hd G1 G2 G3 G4. assert (N : k <> 0) by (intros ->; rewrite Cmod_0 in L; lra).
  exists (dform delta (csinc k) (Fd k) (Fd k) (Fd k) (Fd k) (X lam) X'). split; [|split].
  - eapply Mderive_eq; [apply (mexp_derive X lam X' k HX Hk N)|]. rewrite <- Hd. rewrite csinc_exact by exact L. unfold dform, Fd.
    apply mat2_eq; cbn [a11 a12 a21 a22 madd mscal mone]; field; exact N.
  - intros H1. assert (E : csd k = Fd k).
    { apply csd_exact. unfold dsinc_exact in H1. rewrite <- Cmod_opp, (Cmod_root k _ Hk) in H1. pose proof (Cmod_ge_0 k).
      destruct (Rle_dec 1 (Cmod k)) as [Q|Q]; [exact Q|]. exfalso. nra. }
    assert (GE : forall g, gok k g -> g = Fd k) by (intros g [->| ->]; auto).
    now rewrite (GE _ G1), (GE _ G2), (GE _ G3), (GE _ G4).
  - intros dl Hdl. assert (E : dl = - (2 * delta)).
    { pose proof HX as (A & B & C' & D). assert (H2 : Cderive (fun z => mdet (X z)) lam (- (2 * delta))).
      { unfold mdet. eapply Cderive_eq; [apply Cderive_minus; apply Cderive_mult; eassumption|]. rewrite Hd. ring. }
      exact (Cderive_unique _ _ _ _ Hdl H2). }
    rewrite E, Cmod_opp, Cmod_mult, Cmod_R, Rabs_pos_eq by lra.
    assert (GB : forall g (c x y : C), gok k g ->
      (Cmod (c + delta * g * x + y - (c + delta * Fd k * x + y))%C <= 1 / 1000000000000000000 * (2 * Cmod delta) * Cmod x)%R).
    { intros g c x y G. replace (c + delta * g * x + y - (c + delta * Fd k * x + y)) with ((g - Fd k) * delta * x) by ring.
      rewrite !Cmod_mult. assert (B : (Cmod (g - Fd k)%C <= 2 / 1000000000000000000)%R).
      { destruct G as [->| ->]; [|now apply csd_near]. replace (Fd k - Fd k) with (RtoC 0) by ring. rewrite Cmod_0. lra. }
      apply Rmult_le_compat_r; [apply Cmod_ge_0|].
      apply Rle_trans with (2 / 1000000000000000000 * Cmod delta)%R; [apply Rmult_le_compat_r; [apply Cmod_ge_0|exact B]|lra]. }
    unfold within, dform. cbn [a11 a12 a21 a22]. repeat split.
    + apply GB; exact G1.
    + pose proof (GB g12 0 (a12 (X lam)) (csinc k * a12 X') G2) as Q. rewrite !Cplus_0_l in Q. exact Q.
    + pose proof (GB g21 0 (a21 (X lam)) (csinc k * a21 X') G3) as Q. rewrite !Cplus_0_l in Q. exact Q.
    + apply GB; exact G4.
Qed.
