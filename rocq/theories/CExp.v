(** * Complex exponential, logarithm, square root, trigonometric functions
   (mathematical counterparts of CEXP, CLOG, CSQRT, CPOW, CCOS, CSIN, CCOSH, CSINH) *)
From Coq Require Import Reals Lra Lia.
From Coquelicot Require Import Coquelicot.
From Verif Require Import CDeriv.
Local Open Scope C_scope.

Definition Cexp (z : C) : C := ((exp (fst z) * cos (snd z))%R, (exp (fst z) * sin (snd z))%R).

Lemma Ceq (x y : C) : fst x = fst y -> snd x = snd y -> x = y.
Proof. destruct x, y; simpl; intros -> ->; reflexivity. Qed.

Lemma Cplus_conj (a b : C) : Cconj (a + b) = Cconj a + Cconj b. Proof. apply Ceq; simpl; ring. Qed.
Lemma Cmult_conj (a b : C) : Cconj (a * b) = Cconj a * Cconj b. Proof. apply Ceq; simpl; ring. Qed.

Lemma Cexp_plus a b : Cexp (a + b) = Cexp a * Cexp b.
Proof. apply Ceq; simpl; rewrite exp_plus, ?cos_plus, ?sin_plus; ring. Qed.
Lemma Cexp_0 : Cexp 0 = 1.
Proof. apply Ceq; simpl; rewrite exp_0, ?cos_0, ?sin_0; ring. Qed.
Lemma Cexp_neq0 z : Cexp z <> 0.
Proof.
  intros H. assert (E : Cexp z * Cexp (- z) = 1) by (rewrite <- Cexp_plus, Cplus_opp_r; apply Cexp_0).
  rewrite H, Cmult_0_l in E. injection E. lra.
Qed.
Lemma Cexp_opp z : Cexp (- z) = / Cexp z.
Proof.
  assert (E : Cexp z * Cexp (- z) = 1) by (rewrite <- Cexp_plus, Cplus_opp_r; apply Cexp_0).
  pose proof (Cexp_neq0 z) as H. rewrite <- (Cmult_1_l (Cexp (- z))), <- (Cinv_l (Cexp z) H), <- Cmult_assoc, E. ring.
Qed.
Lemma Cexp_minus a b : Cexp (a - b) = Cexp a / Cexp b.
Proof. unfold Cminus. now rewrite Cexp_plus, Cexp_opp. Qed.
Lemma Cmod_Cexp z : Cmod (Cexp z) = exp (fst z).
Proof.
  unfold Cmod, Cexp; simpl.
  replace (exp (fst z) * cos (snd z) * (exp (fst z) * cos (snd z) * 1) + exp (fst z) * sin (snd z) * (exp (fst z) * sin (snd z) * 1))%R
    with ((exp (fst z))² * ((sin (snd z))² + (cos (snd z))²))%R by (unfold Rsqr; ring).
  rewrite sin2_cos2, Rmult_1_r. apply sqrt_Rsqr. left. apply exp_pos.
Qed.
Lemma Cexp_conj z : Cexp (Cconj z) = Cconj (Cexp z).
Proof. apply Ceq; simpl; rewrite ?cos_neg, ?sin_neg; ring. Qed.
Lemma Cexp_2PI (k : Z) z : Cexp (z + (0, 2 * PI * IZR k)%R) = Cexp z.
Proof.
  assert (Hn : forall n z, Cexp (z + (0, 2 * PI * INR n)%R) = Cexp z).
  { intros n w. unfold Cexp; simpl. rewrite Rplus_0_r.
    replace (2 * PI * INR n)%R with (2 * INR n * PI)%R by ring.
    f_equal; f_equal; [apply cos_period|apply sin_period]. }
  destruct k as [|p|p].
  - f_equal. apply Ceq; simpl; ring.
  - rewrite <- (Hn (Pos.to_nat p) z). do 3 f_equal. rewrite INR_IZR_INZ, positive_nat_Z. reflexivity.
  - rewrite <- (Hn (Pos.to_nat p) (z + (0, 2 * PI * IZR (Zneg p))%R)). f_equal.
    apply Ceq; simpl; [ring|]. rewrite INR_IZR_INZ, positive_nat_Z.
    change (Zneg p) with (- Zpos p)%Z. rewrite opp_IZR. ring.
Qed.

(** x^n *)
Fixpoint Cpown (x : C) (n : nat) : C := match n with O => 1 | S k => x * Cpown x k end.

(** ** argument, logarithm (principal values) *)
Definition Carg (z : C) : R :=
  if Rle_dec 0 (snd z) then acos (fst z / Cmod z) else (- acos (fst z / Cmod z))%R.
Definition Clog (z : C) : C := (ln (Cmod z), Carg z).

Lemma Cmod_sq (z : C) : (Cmod z * Cmod z = fst z * fst z + snd z * snd z)%R.
Proof. unfold Cmod. rewrite sqrt_sqrt; [simpl; ring|]. simpl. nra. Qed.

Lemma re_over_mod (z : C) : z <> 0 -> (-1 <= fst z / Cmod z <= 1)%R.
Proof.
  intros Hz. assert (Hp := Cmod_gt_0 z). apply Hp in Hz. clear Hp.
  pose proof (Cmod_sq z) as Hs.
  assert (-Cmod z <= fst z <= Cmod z)%R by (split; nra).
  split.
  - apply Rmult_le_reg_r with (Cmod z); [exact Hz|]. unfold Rdiv. rewrite Rmult_assoc, Rinv_l by lra. lra.
  - apply Rmult_le_reg_r with (Cmod z); [exact Hz|]. unfold Rdiv. rewrite Rmult_assoc, Rinv_l by lra. lra.
Qed.

Lemma Carg_bound (z : C) : (- PI <= Carg z <= PI)%R.
Proof.
  unfold Carg. pose proof (acos_bound (fst z / Cmod z)). pose proof PI_RGT_0.
  destruct (Rle_dec 0 (snd z)); lra.
Qed.

Lemma sin_acos_mod (z : C) : z <> 0 -> sin (acos (fst z / Cmod z)) = (Rabs (snd z) / Cmod z)%R.
Proof.
  intros Hz. pose proof (re_over_mod z Hz) as Hb. rewrite sin_acos by exact Hb.
  assert (Hp : (0 < Cmod z)%R) by (now apply Cmod_gt_0).
  pose proof (Cmod_sq z) as Hs.
  assert (Ha : (0 <= Rabs (snd z) / Cmod z)%R).
  { apply Rmult_le_pos; [apply Rabs_pos|]. left. now apply Rinv_0_lt_compat. }
  rewrite <- (sqrt_Rsqr _ Ha). f_equal.
  unfold Rsqr.
  replace (Rabs (snd z) / Cmod z * (Rabs (snd z) / Cmod z))%R
     with (Rabs (snd z) * Rabs (snd z) / (Cmod z * Cmod z))%R by (field; lra).
  rewrite <- Rabs_mult, Rabs_pos_eq by nra.
  replace (fst z / Cmod z * (fst z / Cmod z))%R with (fst z * fst z / (Cmod z * Cmod z))%R by (field; lra).
  rewrite Hs. field. rewrite <- Hs. nra.
Qed.

Lemma cos_sin_arg (z : C) : z <> 0 -> cos (Carg z) = (fst z / Cmod z)%R /\ sin (Carg z) = (snd z / Cmod z)%R.
Proof.
  intros Hz. pose proof (re_over_mod z Hz) as Hb. pose proof (sin_acos_mod z Hz) as Hsin.
  unfold Carg. destruct (Rle_dec 0 (snd z)) as [H|H].
  - rewrite cos_acos by exact Hb. split; [reflexivity|]. rewrite Hsin, Rabs_pos_eq by exact H. reflexivity.
  - rewrite cos_neg, sin_neg, cos_acos by exact Hb. split; [reflexivity|].
    rewrite Hsin, Rabs_left by lra. unfold Rdiv. ring.
Qed.

Theorem Cexp_log (z : C) : z <> 0 -> Cexp (Clog z) = z.
Proof.
  intros Hz. assert (Hp : (0 < Cmod z)%R) by (now apply Cmod_gt_0).
  destruct (cos_sin_arg z Hz) as [Hc Hs].
  apply Ceq; simpl; rewrite exp_ln by exact Hp; rewrite ?Hc, ?Hs; field; lra.
Qed.

Theorem Clog_exp (z : C) : (- PI < snd z <= PI)%R -> Clog (Cexp z) = z.
Proof.
  intros Hz. pose proof PI_RGT_0 as HPI. unfold Clog. rewrite Cmod_Cexp, ln_exp.
  apply Ceq; [reflexivity|]. simpl. unfold Carg. rewrite Cmod_Cexp. unfold Cexp; simpl.
  pose proof (exp_pos (fst z)) as He.
  replace (exp (fst z) * cos (snd z) / exp (fst z))%R with (cos (snd z)) by (field; lra).
  destruct (Rle_dec 0 (exp (fst z) * sin (snd z))) as [H|H].
  - assert (Hs : (0 <= sin (snd z))%R) by nra.
    assert (H0 : (0 <= snd z)%R).
    { destruct (Rle_dec 0 (snd z)) as [|Hn]; [assumption|]. exfalso.
      assert (sin (snd z) < 0)%R by (apply sin_lt_0_var; lra). lra. }
    apply acos_cos. lra.
  - assert (Hs : (sin (snd z) < 0)%R) by nra.
    assert (H0 : (snd z < 0)%R).
    { destruct (Rlt_dec (snd z) 0) as [|Hn]; [assumption|]. exfalso.
      assert (0 <= sin (snd z))%R by (apply sin_ge_0; lra). lra. }
    rewrite <- cos_neg, acos_cos by lra. ring.
Qed.

(** ** square root and powers *)
Definition Csqrt (z : C) : C := if Ceq_dec z 0 then 0 else Cexp (/ 2 * Clog z).
Theorem Csqrt_sqr (z : C) : Csqrt z * Csqrt z = z.
Proof.
  unfold Csqrt. destruct (Ceq_dec z 0) as [->|Hz]; [ring|].
  rewrite <- Cexp_plus. rewrite <- (Cexp_log z Hz) at 3. f_equal. apply Ceq; simpl; field.
Qed.

(** CPOW(w, t) with a real exponent t *)
Definition Cpow_real (w : C) (t : R) : C := Cexp (RtoC t * Clog w).
Lemma Cpow_real_plus (w : C) a b : Cpow_real w (a + b) = Cpow_real w a * Cpow_real w b.
Proof. unfold Cpow_real. rewrite <- Cexp_plus. f_equal. rewrite RtoC_plus. ring. Qed.
Lemma Cpow_real_0 (w : C) : Cpow_real w 0 = 1.
Proof. unfold Cpow_real. rewrite Cmult_0_l. apply Cexp_0. Qed.
Lemma Cpow_real_1 (w : C) : w <> 0 -> Cpow_real w 1 = w.
Proof. intros H. unfold Cpow_real. rewrite Cmult_1_l. now apply Cexp_log. Qed.

(** ** derivative of the exponential *)
Lemma deriv_lin (f : R -> R) (l : R) : derivable_pt_lim f 0 l ->
  forall e : R, (0 < e)%R -> exists d : R, (0 < d)%R /\ forall x, (Rabs x < d)%R -> (Rabs (f x - f 0 - l * x) <= e * Rabs x)%R.
Proof.
  intros H e He. destruct (H e He) as [d Hd]. exists d. split; [apply cond_pos|]. intros x Hx.
  destruct (Req_dec x 0) as [->|Hne].
  - rewrite Rmult_0_r, Rminus_0_r, Rminus_eq_0, Rabs_R0. lra.
  - specialize (Hd x Hne Hx). rewrite Rplus_0_l in Hd.
    replace (f x - f 0 - l * x)%R with (((f x - f 0) / x - l) * x)%R by (field; exact Hne).
    rewrite Rabs_mult. apply Rmult_le_compat_r; [apply Rabs_pos|]. lra.
Qed.

Lemma Rabs_le_Cmod_re (z : C) : (Rabs (fst z) <= Cmod z)%R.
Proof. eapply Rle_trans; [|apply Rmax_Cmod]. apply Rmax_l. Qed.
Lemma Rabs_le_Cmod_im (z : C) : (Rabs (snd z) <= Cmod z)%R.
Proof. eapply Rle_trans; [|apply Rmax_Cmod]. apply Rmax_r. Qed.
Lemma Cmod_le_sum (z : C) : (Cmod z <= Rabs (fst z) + Rabs (snd z))%R.
Proof.
  assert (Ez : z = ((fst z, 0%R) + (0%R, snd z))%C) by (apply Ceq; simpl; ring).
  rewrite Ez at 1. eapply Rle_trans; [apply Cmod_triangle|].
  apply Rplus_le_compat; unfold Cmod; simpl.
  - replace (fst z * (fst z * 1) + 0 * (0 * 1))%R with (fst z)² by (unfold Rsqr; ring). rewrite sqrt_Rsqr_abs. lra.
  - replace (0 * (0 * 1) + snd z * (snd z * 1))%R with (snd z)² by (unfold Rsqr; ring). rewrite sqrt_Rsqr_abs. lra.
Qed.

Lemma Cexp_small (e : R) : (0 < e)%R -> exists d : R, (0 < d)%R /\ forall h : C, (Cmod h < d)%R ->
  (Cmod (Cexp h - 1 - h)%C <= e * Cmod h)%R.
Proof.
  intros He0.
  set (e1 := Rmin (e / 9) 1). assert (He1 : (0 < e1 <= 1)%R /\ (9 * e1 <= e)%R).
  { unfold e1. split; [split|].
    - apply Rmin_glb_lt; lra. - apply Rmin_r.
    - pose proof (Rmin_l (e / 9) 1). lra. }
  destruct He1 as [[He1 He1'] He9].
  destruct (deriv_lin exp 1) with (e := e1) as (d1 & Hd1 & H1); [|exact He1|].
  { pose proof (derivable_pt_lim_exp 0) as H. now rewrite exp_0 in H. }
  destruct (deriv_lin cos 0) with (e := e1) as (d2 & Hd2 & H2); [|exact He1|].
  { pose proof (derivable_pt_lim_cos 0) as H. now rewrite sin_0, Ropp_0 in H. }
  destruct (deriv_lin sin 1) with (e := e1) as (d3 & Hd3 & H3); [|exact He1|].
  { pose proof (derivable_pt_lim_sin 0) as H. now rewrite cos_0 in H. }
  exists (Rmin e1 (Rmin d1 (Rmin d2 d3))). split.
  { apply Rmin_glb_lt; [exact He1|]. apply Rmin_glb_lt; [exact Hd1|]. now apply Rmin_glb_lt. }
  clearbody e1.
  intros h Hh.
  assert (Hhe : (Cmod h < e1)%R) by (eapply Rlt_le_trans; [exact Hh|apply Rmin_l]).
  assert (Hh1 : (Cmod h < d1)%R) by (eapply Rlt_le_trans; [exact Hh|]; eapply Rle_trans; [apply Rmin_r|apply Rmin_l]).
  assert (Hh2 : (Cmod h < d2)%R).
  { eapply Rlt_le_trans; [exact Hh|]. eapply Rle_trans; [apply Rmin_r|]. eapply Rle_trans; [apply Rmin_r|apply Rmin_l]. }
  assert (Hh3 : (Cmod h < d3)%R).
  { eapply Rlt_le_trans; [exact Hh|]. eapply Rle_trans; [apply Rmin_r|]. eapply Rle_trans; apply Rmin_r. }
  pose proof (Rabs_le_Cmod_re h) as Hx. pose proof (Rabs_le_Cmod_im h) as Hy.
  pose proof (Cmod_ge_0 h) as Hc0.
  destruct h as [x y]; simpl in Hx, Hy.
  specialize (H1 x ltac:(lra)). specialize (H2 y ltac:(lra)). specialize (H3 y ltac:(lra)).
  rewrite exp_0 in H1. rewrite cos_0 in H2. rewrite sin_0 in H3.
  set (r := Cmod (x, y)) in *.
  remember (exp x - 1 - 1 * x)%R as a eqn:Ea. remember (cos y - 1 - 0 * y)%R as b eqn:Eb.
  remember (sin y - 0 - 1 * y)%R as c eqn:Ec.
  assert (Ex : exp x = (1 + x + a)%R) by lra. assert (Ecos : cos y = (1 + b)%R) by lra. assert (Es : sin y = (y + c)%R) by lra.
  eapply Rle_trans; [apply Cmod_le_sum|]. simpl. rewrite Ex, Ecos, Es.
  replace ((1 + x + a) * (1 + b) + - (1) + - x)%R with (a + b * (1 + x + a))%R by ring.
  replace ((1 + x + a) * (y + c) + - 0 + - y)%R with (c * (1 + x + a) + y * (x + a))%R by ring.
  assert (Ha : (Rabs a <= e1 * r)%R) by nra.
  assert (Hb : (Rabs b <= e1 * r)%R) by nra.
  assert (Hc : (Rabs c <= e1 * r)%R) by nra.
  assert (H1x : (Rabs (1 + x + a) <= 3)%R).
  { eapply Rle_trans; [apply Rabs_triang|]. eapply Rle_trans; [apply Rplus_le_compat_r; apply Rabs_triang|].
    rewrite Rabs_R1. nra. }
  assert (Hxa : (Rabs (x + a) <= 2 * r)%R).
  { eapply Rle_trans; [apply Rabs_triang|]. nra. }
  assert (T1 : (Rabs (a + b * (1 + x + a)) <= 4 * e1 * r)%R).
  { eapply Rle_trans; [apply Rabs_triang|]. rewrite Rabs_mult.
    pose proof (Rabs_pos b). pose proof (Rabs_pos (1 + x + a)). nra. }
  assert (T2 : (Rabs (c * (1 + x + a) + y * (x + a)) <= 5 * e1 * r)%R).
  { eapply Rle_trans; [apply Rabs_triang|]. rewrite !Rabs_mult.
    pose proof (Rabs_pos c). pose proof (Rabs_pos (1 + x + a)). pose proof (Rabs_pos y). pose proof (Rabs_pos (x + a)).
    assert (Rabs c * Rabs (1 + x + a) <= 3 * e1 * r)%R by nra.
    assert (Rabs y * Rabs (x + a) <= r * (2 * r))%R by (apply Rmult_le_compat; lra).
    nra. }
  nra.
Qed.

Theorem Cderive_exp x : Cderive Cexp x (Cexp x).
Proof.
  apply Cderive_eps. intros eps.
  set (M := Cmod (Cexp x)). assert (HM : (0 < M)%R) by (unfold M; rewrite Cmod_Cexp; apply exp_pos).
  destruct (Cexp_small (eps / M)) as (d & Hd & H).
  { apply Rdiv_lt_0_compat; [apply cond_pos|exact HM]. }
  exists (mkposreal d Hd). intros z Hz. simpl in Hz. specialize (H (z - x) Hz).
  assert (E : Cexp z - Cexp x - (z - x) * Cexp x = Cexp x * (Cexp (z - x) - 1 - (z - x))).
  { rewrite Cexp_minus. field. apply Cexp_neq0. }
  rewrite E, Cmod_mult. fold M.
  apply Rmult_le_compat_l with (r := M) in H; [|lra].
  replace (M * (eps / M * Cmod (z - x)%C))%R with (eps * Cmod (z - x)%C)%R in H by (field; lra). exact H.
Qed.

(** ** hyperbolic and trigonometric functions *)
Definition Ccosh (z : C) : C := (Cexp z + Cexp (- z)) / 2.
Definition Csinh (z : C) : C := (Cexp z - Cexp (- z)) / 2.
Definition Ccos (z : C) : C := (Cexp (Ci * z) + Cexp (- (Ci * z))) / 2.
Definition Csin (z : C) : C := (Cexp (Ci * z) - Cexp (- (Ci * z))) / (2 * Ci).

Lemma C2_neq0 : (2 : C) <> 0. Proof. intros H. injection H. lra. Qed.
Lemma C2_eq : (2 : C) = 1 + 1. Proof. apply Ceq; simpl; ring. Qed.
Lemma C11_neq0 : (1 + 1 : C) <> 0. Proof. rewrite <- C2_eq. exact C2_neq0. Qed.
Lemma Ci_neq0 : Ci <> 0. Proof. intros H. injection H. lra. Qed.
Lemma Ci_sqr : Ci * Ci = - (1). Proof. apply Ceq; simpl; ring. Qed.

Lemma Ccosh_sinh z : Ccosh z * Ccosh z - Csinh z * Csinh z = 1.
Proof.
  unfold Ccosh, Csinh. rewrite Cexp_opp. rewrite C2_eq. field. split; [apply Cexp_neq0|exact C11_neq0].
Qed.
Lemma Ccos_cosh z : Ccos z = Ccosh (Ci * z). Proof. reflexivity. Qed.
Lemma Csin_sinh z : Csin z = Csinh (Ci * z) / Ci.
Proof. unfold Csin, Csinh. field. split; [exact C2_neq0|exact Ci_neq0]. Qed.
Lemma Ccosh_opp z : Ccosh (- z) = Ccosh z.
Proof. unfold Ccosh. replace (- - z) with z by ring. now rewrite Cplus_comm. Qed.
Lemma Csinh_opp z : Csinh (- z) = - Csinh z.
Proof. unfold Csinh. replace (- - z) with z by ring. field. exact C2_neq0. Qed.
Lemma Ccosh_0 : Ccosh 0 = 1.
Proof. unfold Ccosh. replace (- (0)) with (RtoC 0) by ring. rewrite Cexp_0, C2_eq. field. exact C11_neq0. Qed.
Lemma Csinh_0 : Csinh 0 = 0.
Proof. unfold Csinh. replace (- (0)) with (RtoC 0) by ring. rewrite Cexp_0, C2_eq. field. exact C11_neq0. Qed.
Lemma Ccosh_plus a b : Ccosh (a + b) = Ccosh a * Ccosh b + Csinh a * Csinh b.
Proof. unfold Ccosh, Csinh. replace (- (a + b)) with (- a + - b) by ring. rewrite !Cexp_plus, C2_eq. field. exact C11_neq0. Qed.
Lemma Csinh_plus a b : Csinh (a + b) = Csinh a * Ccosh b + Ccosh a * Csinh b.
Proof. unfold Ccosh, Csinh. replace (- (a + b)) with (- a + - b) by ring. rewrite !Cexp_plus, C2_eq. field. exact C11_neq0. Qed.

Lemma Cderive_exp_opp x : Cderive (fun z => Cexp (- z)) x (- Cexp (- x)).
Proof.
  eapply Cderive_eq.
  - apply (Cderive_comp Cexp (fun z => - z) x (Cexp (- x)) (- (1))); [apply Cderive_exp|].
    apply Cderive_opp. apply Cderive_id.
  - ring.
Qed.
Theorem Cderive_cosh x : Cderive Ccosh x (Csinh x).
Proof.
  eapply Cderive_ext; [|eapply Cderive_eq; [apply (Cderive_scal (/ 2) (fun z => Cexp z + Cexp (- z)))|]].
  - intros t. unfold Ccosh. field. exact C2_neq0.
  - apply Cderive_plus; [apply Cderive_exp|apply Cderive_exp_opp].
  - unfold Csinh. field. exact C2_neq0.
Qed.
Theorem Cderive_sinh x : Cderive Csinh x (Ccosh x).
Proof.
  eapply Cderive_ext; [|eapply Cderive_eq; [apply (Cderive_scal (/ 2) (fun z => Cexp z - Cexp (- z)))|]].
  - intros t. unfold Csinh. field. exact C2_neq0.
  - apply Cderive_minus; [apply Cderive_exp|apply Cderive_exp_opp].
  - unfold Ccosh. field. exact C2_neq0.
Qed.

Lemma Cinv_Ci : / Ci = - Ci.
Proof. apply Ceq; simpl; field; lra. Qed.
Lemma Csin_sinh' z : Csin z = - Ci * Csinh (Ci * z).
Proof. rewrite Csin_sinh, <- Cinv_Ci. unfold Cdiv. apply Cmult_comm. Qed.
Lemma Cderive_csin x : Cderive Csin x (Ccos x).
Proof.
  eapply Cderive_ext; [|eapply Cderive_eq; [apply (Cderive_scal (- Ci) (fun z => Csinh (Ci * z)))|]].
  - intros t. now rewrite Csin_sinh'.
  - eapply (Cderive_comp Csinh (fun z => Ci * z) x); [apply Cderive_sinh|].
    apply (Cderive_scal Ci (fun z => z)); apply Cderive_id.
  - rewrite Ccos_cosh. transitivity (- (Ci * Ci) * Ccosh (Ci * x)); [ring|]. rewrite Ci_sqr. ring.
Qed.
Lemma Cderive_ccos x : Cderive Ccos x (- Csin x).
Proof.
  eapply Cderive_ext; [|eapply Cderive_eq; [eapply (Cderive_comp Ccosh (fun z => Ci * z) x); [apply Cderive_cosh|]|]].
  - intros t. reflexivity.
  - apply (Cderive_scal Ci (fun z => z)); apply Cderive_id.
  - rewrite Csin_sinh'. ring.
Qed.
Lemma Ccos_sin (z : C) : Ccos z * Ccos z + Csin z * Csin z = 1.
Proof.
  rewrite Ccos_cosh, Csin_sinh'. transitivity (Ccosh (Ci * z) * Ccosh (Ci * z) + Ci * Ci * (Csinh (Ci * z) * Csinh (Ci * z))); [ring|].
  rewrite Ci_sqr. etransitivity; [|apply (Ccosh_sinh (Ci * z))]. ring.
Qed.

Lemma Cderive_inv (x : C) : x <> 0 -> Cderive (fun z => / z) x (- / (x * x)).
Proof.
  intros Hx. apply Cderive_eps. intros eps. assert (He := cond_pos eps).
  assert (HM : (0 < Cmod x)%R) by (now apply Cmod_gt_0).
  set (M := Cmod x) in *.
  assert (Hd : (0 < Rmin (M / 2) (eps * (M * M * M) / 2))%R).
  { apply Rmin_glb_lt; [lra|]. assert (0 < M * M * M)%R by (repeat apply Rmult_lt_0_compat; assumption). nra. }
  exists (mkposreal _ Hd). intros z Hz. simpl in Hz.
  assert (Hz1 : (Cmod (z - x)%C < M / 2)%R) by (eapply Rlt_le_trans; [exact Hz|apply Rmin_l]).
  assert (Hz2 : (Cmod (z - x)%C < eps * (M * M * M) / 2)%R) by (eapply Rlt_le_trans; [exact Hz|apply Rmin_r]).
  assert (Hzm : (M / 2 < Cmod z)%R).
  { assert (M <= Cmod z + Cmod (z - x)%C)%R; [|lra]. unfold M.
    replace x with (z + - (z - x)) at 1 by ring. eapply Rle_trans; [apply Cmod_triangle|]. rewrite Cmod_opp. lra. }
  assert (Hz0 : z <> 0). { intros ->. rewrite Cmod_0 in Hzm. lra. }
  assert (E : / z - / x - (z - x) * - / (x * x) = (z - x) * (z - x) * / (x * x * z)) by (field; auto).
  rewrite E, !Cmod_mult, Cmod_inv, !Cmod_mult by (repeat apply Cmult_neq_0; auto). fold M.
  set (d := Cmod (z - x)%C) in *. assert (0 <= d)%R by apply Cmod_ge_0.
  assert (Hden : (0 < M * M * Cmod z)%R) by (repeat apply Rmult_lt_0_compat; lra).
  rewrite (Rmult_comm eps d), Rmult_assoc. apply Rmult_le_compat_l; [assumption|].
  apply Rmult_le_reg_r with (M * M * Cmod z)%R; [exact Hden|].
  rewrite Rmult_assoc, Rinv_l by lra. nra.
Qed.
