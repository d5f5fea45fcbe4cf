(** * Accuracy of the sinc routines inside their thresholds (C59) *)
From Coq Require Import Reals Lra Lia List.
From Coquelicot Require Import Coquelicot.
From Verif Require Import CExp CField CDeriv CMean MiscNumModel MiscMetricProps.
Local Open Scope C_scope.

Lemma Rsmall4 (x : R) : (0 <= x < 1 / 100000000 -> x ^ 4 <= 1 / 100000000000000000000000000000000)%R.
Proof.
  intros H. apply Rle_trans with ((1 / 100000000) ^ 4)%R; [apply pow_incr; lra|]. apply Req_le. field.
Qed.
Lemma sq3 : (sqrt 3 * sqrt 3 = 3)%R. Proof. apply sqrt_sqrt. lra. Qed.
Lemma sqrt3_pos : (0 < sqrt 3)%R. Proof. apply sqrt_lt_R0. lra. Qed.

(** for |x| < 1e-8 the value cos(x/sqrt 3) differs from sin(x)/x by less than 4e-34 *)
Theorem misc_CSINC_near_zero (x : C) : (Cmod x < 1 / 100000000)%R -> x <> 0 ->
  (Cmod (misc_CSINC x - Csin x / x)%C <= 4 / 10000000000000000000000000000000000)%R.
Proof.
  intros H Hx. unfold misc_CSINC. destruct (Rle_dec (1 / 100000000) (Cmod x)); [lra|].
  pose proof (Cmod_ge_0 x) as H0. pose proof sqrt3_pos as Hs.
  assert (N3 : RtoC (sqrt 3) <> 0) by (intros E; injection E; lra).
  set (y := x / RtoC (sqrt 3)).
  assert (Ey : y * y = x * x / 3).
  { unfold y. replace (x / RtoC (sqrt 3) * (x / RtoC (sqrt 3))) with (x * x / (RtoC (sqrt 3) * RtoC (sqrt 3))) by (field; exact N3).
    rewrite <- RtoC_mult, sq3. reflexivity. }
  assert (Hy2 : (Cmod y ^ 2 = Cmod x ^ 2 / 3)%R).
  { replace (Cmod y ^ 2)%R with (Cmod (y * y)%C) by (rewrite Cmod_mult; ring). rewrite Ey, Cmod_div.
    - rewrite Cmod_mult, Cmod_R, Rabs_pos_eq by lra. field.
    - intros E; injection E; lra. }
  assert (Hy : (Cmod y <= 1)%R).
  { pose proof (Cmod_ge_0 y). destruct (Rle_dec (Cmod y) 1) as [L|L]; [exact L|]. exfalso.
    assert (1 < Cmod y ^ 2)%R by (cbn [pow]; nra). assert (Cmod x ^ 2 <= 1)%R by (cbn [pow]; nra). lra. }
  clearbody y. destruct (sin_cos_taylor 2 y Hy) as [Hc _]. destruct (sin_cos_taylor 2 x ltac:(lra)) as [_ Hsn].
  cbn [cosT sinT Nat.mul Nat.add fact Cpown] in Hc, Hsn.
  assert (Bc : (Cmod (Ccos y - (1 - y * y / 2))%C <= Cmod x ^ 4 / 72)%R).
  { replace (Cmod x ^ 4 / 72)%R with (3 * Cmod y ^ 4 / 24)%R by (replace (Cmod y ^ 4)%R with (Cmod y ^ 2 * Cmod y ^ 2)%R by ring; rewrite Hy2; field).
    eapply Rle_trans; [|eapply Rle_trans; [exact Hc|]].
    - apply Req_le. f_equal. first [generalize (Ccos y)|generalize (Csin x)]; intros w; apply Ceq; cbn; field.
    - apply Req_le. cbn. field. }
  assert (Bs : (Cmod (Csin x - (x - x * x * x / 6))%C <= Cmod x * (Cmod x ^ 4 / 40))%R).
  { eapply Rle_trans; [|eapply Rle_trans; [exact Hsn|]].
    - apply Req_le. f_equal. first [generalize (Ccos y)|generalize (Csin x)]; intros w; apply Ceq; cbn; field.
    - apply Req_le. cbn. field. }
  assert (Bq : (Cmod (Csin x / x - (1 - x * x / 6))%C <= Cmod x ^ 4 / 40)%R).
  { replace (Csin x / x - (1 - x * x / 6)) with ((Csin x - (x - x * x * x / 6)) / x).
    2:{ field. exact Hx. }
    rewrite Cmod_div by exact Hx. assert (0 < Cmod x)%R by (apply Cmod_gt_0; exact Hx).
    apply (Rmult_le_reg_r (Cmod x)); [assumption|]. unfold Rdiv at 1. rewrite Rmult_assoc, Rinv_l by lra. lra. }
  replace (Ccos y - Csin x / x) with ((Ccos y - (1 - y * y / 2)) + - (Csin x / x - (1 - x * x / 6))).
  2:{ rewrite Ey. field. exact Hx. }
  eapply Rle_trans; [apply Cmod_triangle|]. rewrite Cmod_opp. pose proof (Rsmall4 (Cmod x) ltac:(lra)). lra.
Qed.

Lemma fact20 : INR (fact 20) = 2432902008176640000%R.
Proof.
  rewrite !fact_INR_S. change (fact 0) with 1%nat. rewrite !INR_IZR_INZ. rewrite <- !mult_IZR. reflexivity.
Qed.
Lemma fact21 : INR (fact 21) = 51090942171709440000%R.
Proof. rewrite fact_INR_S, fact20. rewrite INR_IZR_INZ, <- mult_IZR. reflexivity. Qed.

Lemma taylor_shift n (x : C) : x * cosT (S n) x - sinT (S n) x = x * x * fold_right Cplus 0 (map (taylor_term x) (seq 0 n)).
Proof.
  induction n as [|n IH].
  - cbn. apply Ceq; cbn; field.
  - change (cosT (S (S n)) x) with (cosT (S n) x + RtoC ((-1) ^ (S n) / INR (fact (2 * S n))) * Cpown x (2 * S n)).
    change (sinT (S (S n)) x) with (sinT (S n) x + RtoC ((-1) ^ (S n) / INR (fact (2 * S n + 1))) * Cpown x (2 * S n + 1)).
    rewrite seq_S, map_app, fold_right_app. cbn [map fold_right].
    assert (Hf : forall a T, fold_right Cplus (a + 0) T = fold_right Cplus 0 T + a).
    { intros a T. induction T as [|t T IHT]; simpl; [ring|]. rewrite IHT. ring. }
    rewrite Hf. rewrite (Cmult_plus_distr_l (x * x)). rewrite <- IH. cbn [Nat.add]. unfold taylor_term.
    replace (2 * S n + 1)%nat with (S (S (2 * n + 1))) by lia. replace (2 * S n)%nat with (S (2 * n + 1)) by lia.
    replace (2 * n + 3)%nat with (S (S (2 * n + 1))) by lia. replace (n + 1)%nat with (S n) by lia.
    rewrite !fact_INR_S. replace (2 * n + 2)%nat with (S (2 * n + 1)) by lia. rewrite (S_INR (S (2 * n + 1))).
    set (f := INR (fact (2 * n + 1))). set (m := INR (S (2 * n + 1))). cbn [Cpown].
    assert (Hf0 : f <> 0%R) by apply INR_fact_neq_0. assert (Hm : m <> 0%R) by (apply not_0_INR; lia).
    assert (Hm1 : (m + 1)%R <> 0%R) by (unfold m; rewrite <- S_INR; apply not_0_INR; lia).
    set (s := ((-1) ^ S n)%R). set (P := Cpown x (2 * n + 1)).
    replace (RtoC (s / (m * f))) with (RtoC (s * m / ((m + 1) * (m * f))) + RtoC (s / ((m + 1) * (m * f)))).
    2:{ rewrite <- RtoC_plus. f_equal. field. auto. }
    ring.
Qed.

(** for |x| < 1 the returned value differs from the derivative of sin(x)/x by less than 2e-18 |x|^19 *)
Theorem misc_CSINC_derivative_near_zero (x : C) : (Cmod x < 1)%R -> x <> 0 ->
  exists d, Cderive (fun z => Csin z / z) x d
    /\ (Cmod (misc_CSINC_derivative x - d)%C <= 2 / 1000000000000000000 * Cmod x ^ 19)%R.
Proof.
  intros H Hx. exists ((x * Ccos x - Csin x) / (x * x)). split.
  { eapply Cderive_eq; [apply (Cderive_mult Csin (fun z => / z) x); [apply Cderive_csin|now apply Cderive_inv]|].
    field. exact Hx. }
  rewrite (misc_CSINC_derivative_taylor x H).
  pose proof (taylor_shift 9 x) as E. set (T := fold_right Cplus 0 (map (taylor_term x) (seq 0 9))) in *.
  assert (E2 : T - (x * Ccos x - Csin x) / (x * x) = (- (x * (Ccos x - cosT 10 x)) + (Csin x - sinT 10 x)) / (x * x)).
  { replace T with ((x * x * T) / (x * x)) by (field; exact Hx). rewrite <- E. field. exact Hx. }
  rewrite E2. assert (Hxx : x * x <> 0) by (apply Cmult_neq_0; exact Hx).
  rewrite Cmod_div by exact Hxx. rewrite Cmod_mult.
  destruct (sin_cos_taylor 10 x ltac:(lra)) as [Hc Hs].
  replace (2 * 10 + 1)%nat with 21%nat in Hs by lia. replace (2 * 10)%nat with 20%nat in Hc by lia.
  rewrite fact20 in Hc. rewrite fact21 in Hs.
  assert (P : (0 < Cmod x)%R) by (apply Cmod_gt_0; exact Hx). set (m := Cmod x) in *.
  apply (Rmult_le_reg_r (m * m)); [apply Rmult_lt_0_compat; exact P|].
  unfold Rdiv at 1. rewrite Rmult_assoc, Rinv_l, Rmult_1_r by nra.
  eapply Rle_trans; [apply Cmod_triangle|]. rewrite Cmod_opp, Cmod_mult. fold m.
  apply Rle_trans with (m * (3 * m ^ 20 / 2432902008176640000) + 3 * m ^ 21 / 51090942171709440000)%R.
  { apply Rplus_le_compat; [apply Rmult_le_compat_l; [lra|exact Hc]|exact Hs]. }
  assert (Pm : (0 <= m ^ 21)%R) by (apply pow_le; lra).
  replace (m * (3 * m ^ 20 / 2432902008176640000))%R with (3 * m ^ 21 / 2432902008176640000)%R by (cbn [pow]; field).
  replace (2 / 1000000000000000000 * m ^ 19 * (m * m))%R with (2 / 1000000000000000000 * m ^ 21)%R by (cbn [pow]; field).
  lra.
Qed.

Print Assumptions misc_CSINC_near_zero.
Print Assumptions misc_CSINC_derivative_near_zero.
