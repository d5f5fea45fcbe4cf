(** * Mean value inequality and Taylor remainders for complex differentiable functions (library lemmas) *)
From Coq Require Import Reals Lra Lia.
From Coquelicot Require Import Coquelicot.
From Verif Require Import CExp CField CDeriv.
Local Open Scope C_scope.

Lemma Cderive_elim (f : C -> C) (x l : C) : Cderive f x l ->
  forall eps : R, (0 < eps)%R -> exists delta : R, (0 < delta)%R /\ forall z : C,
     (Cmod (z - x)%C < delta)%R -> (Cmod (f z - f x - (z - x) * l)%C <= eps * Cmod (z - x)%C)%R.
Proof.
  Local Transparent Cderive.
  intros [_ H] eps He. specialize (H x (fun P HP => HP) (mkposreal eps He)). destruct H as [d Hd].
  exists (pos d). split; [apply cond_pos|]. intros z Hz. apply (Hd z). exact Hz.
Qed.

Lemma Cderive_unique (f : C -> C) (x a b : C) : Cderive f x a -> Cderive f x b -> a = b.
Proof.
  intros Ha Hb. destruct (Ceq_dec a b) as [E|N]; [exact E|]. exfalso.
  assert (P : (0 < Cmod (a - b)%C)%R). { apply Cmod_gt_0. intros E. apply N. replace a with (a - b + b) by ring. rewrite E. ring. }
  destruct (Cderive_elim f x a Ha (Cmod (a - b)%C / 4)) as (da & Pa & Ba); [lra|].
  destruct (Cderive_elim f x b Hb (Cmod (a - b)%C / 4)) as (db & Pb & Bb); [lra|].
  set (t := (Rmin da db / 2)%R). assert (Pt : (0 < t)%R) by (unfold t; pose proof (Rmin_glb_lt da db 0 Pa Pb); lra).
  assert (Ht : (t < da /\ t < db)%R) by (unfold t; pose proof (Rmin_l da db); pose proof (Rmin_r da db); lra).
  specialize (Ba (x + RtoC t)). specialize (Bb (x + RtoC t)). replace (x + RtoC t - x) with (RtoC t) in Ba, Bb by ring.
  rewrite Cmod_R, Rabs_pos_eq in Ba, Bb by lra. specialize (Ba (proj1 Ht)). specialize (Bb (proj2 Ht)).
  set (u := f (x + RtoC t) - f x) in *.
  assert (E : RtoC t * (a - b) = (u - RtoC t * b) + - (u - RtoC t * a)) by ring.
  assert (B : (t * Cmod (a - b)%C <= Cmod (a - b)%C / 4 * t + Cmod (a - b)%C / 4 * t)%R).
  { replace (t * Cmod (a - b)%C)%R with (Cmod (RtoC t * (a - b))%C) by (rewrite Cmod_mult, Cmod_R, Rabs_pos_eq; lra).
    rewrite E. eapply Rle_trans; [apply Cmod_triangle|]. rewrite Cmod_opp. lra. }
  assert (0 < t * Cmod (a - b)%C)%R by (apply Rmult_lt_0_compat; assumption). lra.
Qed.

Lemma Rabs_Re_mult (w z : C) : (Rabs (fst (w * z)%C) <= Cmod w * Cmod z)%R.
Proof. rewrite <- Cmod_mult. apply Rabs_le_Cmod_re. Qed.

(** derivative along the line x + t d *)
Lemma line_derive (f : C -> C) (l w x d : C) (t : R) : Cderive f (x + RtoC t * d) l ->
  derivable_pt_lim (fun s => fst (w * f (x + RtoC s * d))) t (fst (w * (d * l))).
Proof.
  intros H eps He.
  set (M := (Cmod w * Cmod d + 1)%R).
  assert (HM : (0 < M)%R) by (unfold M; pose proof (Cmod_ge_0 w); pose proof (Cmod_ge_0 d); pose proof (Rmult_le_pos _ _ H0 H1); lra).
  destruct (Cderive_elim f _ l H (eps / 2 / M)) as (del & Hd & Hf).
  { apply Rdiv_lt_0_compat; lra. }
  set (N := (Cmod d + 1)%R). assert (HN : (0 < N)%R) by (unfold N; pose proof (Cmod_ge_0 d); lra).
  assert (Hp : (0 < del / N)%R) by (apply Rdiv_lt_0_compat; lra).
  exists (mkposreal _ Hp). intros h Hh Hs. cbn in Hs.
  replace (RtoC (t + h)) with (RtoC t + RtoC h) by (rewrite RtoC_plus; reflexivity).
  specialize (Hf (x + (RtoC t + RtoC h) * d)).
  replace (x + (RtoC t + RtoC h) * d - (x + RtoC t * d)) with (RtoC h * d) in Hf by ring.
  rewrite Cmod_mult, Cmod_R in Hf.
  assert (Hb : (Rabs h * Cmod d < del)%R).
  { apply Rle_lt_trans with (Rabs h * N)%R; [apply Rmult_le_compat_l; [apply Rabs_pos|unfold N; lra]|].
    apply (Rmult_lt_reg_r (/ N)); [now apply Rinv_0_lt_compat|]. rewrite Rmult_assoc, Rinv_r, Rmult_1_r by lra. exact Hs. }
  specialize (Hf Hb).
  set (F1 := f (x + (RtoC t + RtoC h) * d)) in *. set (F0 := f (x + RtoC t * d)) in *.
  assert (E : ((fst (w * F1)%C - fst (w * F0)%C) / h - fst (w * (d * l))%C = fst (w * (F1 - F0 - RtoC h * d * l))%C / h)%R).
  { cbn. field. exact Hh. }
  rewrite E. unfold Rdiv at 1. rewrite Rabs_mult, Rabs_inv.
  pose proof (Rabs_pos_lt h Hh) as Hh0.
  apply (Rmult_lt_reg_r (Rabs h)); [exact Hh0|]. rewrite Rmult_assoc, Rinv_l, Rmult_1_r by lra.
  eapply Rle_lt_trans; [apply Rabs_Re_mult|].
  apply Rle_lt_trans with (Cmod w * (eps / 2 / M * (Rabs h * Cmod d)))%R.
  { apply Rmult_le_compat_l; [apply Cmod_ge_0|exact Hf]. }
  replace (Cmod w * (eps / 2 / M * (Rabs h * Cmod d)))%R with (eps / 2 * Rabs h * ((Cmod w * Cmod d) / M))%R by (field; lra).
  apply Rle_lt_trans with (eps / 2 * Rabs h * 1)%R.
  - apply Rmult_le_compat_l; [apply Rmult_le_pos; lra|].
    apply (Rmult_le_reg_r M); [exact HM|]. unfold Rdiv. rewrite Rmult_assoc, Rinv_l by lra. unfold M. lra.
  - assert (0 < eps * Rabs h)%R by (apply Rmult_lt_0_compat; lra). lra.
Qed.

(** real mean value comparison: phi' <= psi' on [0,1] *)
Lemma compare_derive (phi psi : R -> R) (dphi dpsi : R -> R) :
  (forall t, (0 <= t <= 1)%R -> derivable_pt_lim phi t (dphi t)) ->
  (forall t, (0 <= t <= 1)%R -> derivable_pt_lim psi t (dpsi t)) ->
  (forall t, (0 <= t <= 1)%R -> (dphi t <= dpsi t)%R) -> (phi 1 - phi 0 <= psi 1 - psi 0)%R.
Proof.
  intros H1 H2 H3.
  destruct (MVT_cor2 (fun t => psi t - phi t)%R (fun t => dpsi t - dphi t)%R 0 1 ltac:(lra)) as (c & Hc & Hc1).
  { intros c Hc. apply derivable_pt_lim_minus; auto. }
  pose proof (H3 c ltac:(lra)). lra.
Qed.

Lemma Cmod_conj (z : C) : Cmod (Cconj z) = Cmod z.
Proof. unfold Cmod, Cconj. cbn [fst snd]. f_equal. ring. Qed.
Lemma Cmod2_conj (z : C) : fst (Cconj z * z) = (Cmod z * Cmod z)%R.
Proof. rewrite Cmod_sq. cbn. ring. Qed.

Lemma derivable_pow_lin (c : R) n t : derivable_pt_lim (fun s => c * s ^ S n)%R t (c * (INR (S n) * t ^ n))%R.
Proof. apply derivable_pt_lim_scal. apply (derivable_pt_lim_pow t (S n)). Qed.

(** power growth is integrated *)
Lemma Cmean_pow (F F' : C -> C) (M rho : R) (n : nat) : (0 <= M)%R -> F 0 = 0 ->
  (forall z, (Cmod z <= rho)%R -> Cderive F z (F' z)) ->
  (forall z, (Cmod z <= rho)%R -> (Cmod (F' z) <= M * Cmod z ^ n)%R) ->
  forall z, (Cmod z <= rho)%R -> (Cmod (F z) <= M * Cmod z ^ S n / INR (S n))%R.
Proof.
  intros HM F0 HF HB z Hz.
  assert (Hn : (0 < INR (S n))%R) by (apply lt_0_INR; lia).
  set (w := Cconj (F z)). pose proof (Cmod_ge_0 z) as Hz0.
  assert (Hl : forall t : R, (0 <= t <= 1)%R -> (Cmod (0 + RtoC t * z)%C = t * Cmod z)%R).
  { intros t Ht. rewrite Cplus_0_l, Cmod_mult, Cmod_R, Rabs_pos_eq; lra. }
  assert (Hl' : forall t : R, (0 <= t <= 1)%R -> (Cmod (0 + RtoC t * z)%C <= rho)%R).
  { intros t Ht. rewrite Hl by exact Ht. apply Rle_trans with (1 * Cmod z)%R; [|lra]. apply Rmult_le_compat_r; lra. }
  set (c := (Cmod (F z) * (M * Cmod z ^ S n / INR (S n)))%R).
  assert (H : (fst (w * F (0 + RtoC 1 * z))%C - fst (w * F (0 + RtoC 0 * z))%C <= c * 1 ^ S n - c * 0 ^ S n)%R).
  { apply (compare_derive (fun t => fst (w * F (0 + RtoC t * z))%C) (fun t => c * t ^ S n)%R
      (fun t => fst (w * (z * F' (0 + RtoC t * z)))%C) (fun t => c * (INR (S n) * t ^ n))%R).
    - intros t Ht. apply line_derive, HF, Hl', Ht.
    - intros t Ht. apply derivable_pow_lin.
    - intros t Ht. eapply Rle_trans; [apply Rle_abs|]. eapply Rle_trans; [apply Rabs_Re_mult|].
      unfold w. rewrite Cmod_conj, Cmod_mult. pose proof (HB _ (Hl' t Ht)) as B. rewrite (Hl t Ht) in B.
      unfold c. replace (Cmod (F z) * (M * Cmod z ^ S n / INR (S n)) * (INR (S n) * t ^ n))%R
        with (Cmod (F z) * (Cmod z * (M * (t * Cmod z) ^ n)))%R by (rewrite Rpow_mult_distr; cbn [pow]; field; lra).
      repeat (apply Rmult_le_compat_l; [apply Cmod_ge_0|]). exact B. }
  replace (0 + RtoC 1 * z) with z in H by ring. replace (0 + RtoC 0 * z) with (RtoC 0) in H by ring.
  rewrite F0, pow1, pow_i in H by lia. rewrite Cmult_0_r in H. unfold w in H. rewrite Cmod2_conj in H.
  cbn [fst] in H. change (fst (RtoC 0)) with 0%R in H.
  destruct (Req_dec (Cmod (F z)) 0) as [E|E].
  - rewrite E. apply Rmult_le_pos; [|left; now apply Rinv_0_lt_compat]. apply Rmult_le_pos; [exact HM|apply pow_le; exact Hz0].
  - pose proof (Cmod_ge_0 (F z)). apply (Rmult_le_reg_l (Cmod (F z))); [lra|]. unfold c in H. lra.
Qed.

(** a function with derivative zero everywhere is constant *)
Lemma Cderive_zero_const (f : C -> C) : (forall z, Cderive f z 0) -> forall z, f z = f 0.
Proof.
  intros H z.
  assert (B : (Cmod (f z - f 0)%C <= 0 * Cmod z ^ 1 / INR 1)%R).
  { apply (Cmean_pow (fun z => f z - f 0) (fun _ => 0) 0 (Cmod z) 0); try lra.
    - ring.
    - intros y _. eapply Cderive_eq; [apply Cderive_minus; [apply H|apply Cderive_const]|]. ring.
    - intros y _. rewrite Cmod_0. lra. }
  assert (E : f z - f 0 = 0).
  { apply Cmod_eq_0. pose proof (Cmod_ge_0 (f z - f 0)%C). unfold Rdiv in B. rewrite !Rmult_0_l in B. lra. }
  replace (f z) with (f z - f 0 + f 0) by ring. rewrite E. ring.
Qed.

(** ** sin and cos on the unit disc *)
Lemma Cmod_le_half2 (a b : C) : (Cmod ((a + b) / 2)%C <= (Cmod a + Cmod b) / 2)%R.
Proof.
  rewrite Cmod_div by exact C2_neq0. rewrite Cmod_R, Rabs_pos_eq by lra.
  apply Rmult_le_compat_r; [lra|]. apply Cmod_triangle.
Qed.
Lemma Cmod_Cexp_le (z : C) : (Cmod z <= 1 -> Cmod (Cexp z) <= 3)%R.
Proof.
  intros H. rewrite Cmod_Cexp. pose proof (Rabs_le_Cmod_re z). pose proof (Rle_abs (fst z)).
  apply Rle_trans with (exp 1); [|apply exp_le_3].
  destruct (Req_dec (fst z) 1) as [->|N]; [lra|]. left. apply exp_increasing. lra.
Qed.
Lemma Cmod_iz (z : C) : Cmod (Ci * z) = Cmod z.
Proof. rewrite Cmod_mult. replace (Cmod Ci) with 1%R; [ring|]. unfold Cmod, Ci. cbn. rewrite <- sqrt_1 at 1. f_equal. ring. Qed.
Lemma Ccos_bound (z : C) : (Cmod z <= 1 -> Cmod (Ccos z) <= 3)%R.
Proof.
  intros H. unfold Ccos. eapply Rle_trans; [apply Cmod_le_half2|].
  assert ((Cmod (Cexp (Ci * z)%C) <= 3)%R) by (apply Cmod_Cexp_le; rewrite Cmod_iz; exact H).
  assert ((Cmod (Cexp (- (Ci * z))%C) <= 3)%R) by (apply Cmod_Cexp_le; rewrite Cmod_opp, Cmod_iz; exact H). lra.
Qed.

Lemma Csin_0 : Csin 0 = 0.
Proof. unfold Csin. replace (Ci * 0) with (RtoC 0) by ring. replace (- (0)) with (RtoC 0) by ring. rewrite Cexp_0. unfold Cdiv. ring. Qed.
Lemma Ccos_0 : Ccos 0 = 1.
Proof. unfold Ccos. replace (Ci * 0) with (RtoC 0) by ring. replace (- (0)) with (RtoC 0) by ring. rewrite Cexp_0. apply Ceq; cbn; field. Qed.

(** Taylor polynomials: cosT n = sum_(k<n) (-1)^k z^(2k)/(2k)!, sinT n = sum_(k<n) (-1)^k z^(2k+1)/(2k+1)! *)
Fixpoint cosT (n : nat) (z : C) : C :=
  match n with O => 0 | S k => cosT k z + RtoC ((-1) ^ k / INR (fact (2 * k))) * Cpown z (2 * k) end.
Fixpoint sinT (n : nat) (z : C) : C :=
  match n with O => 0 | S k => sinT k z + RtoC ((-1) ^ k / INR (fact (2 * k + 1))) * Cpown z (2 * k + 1) end.

Lemma Cderive_pown n (x : C) : Cderive (fun z => Cpown z (S n)) x (RtoC (INR (S n)) * Cpown x n).
Proof.
  induction n as [|n IH].
  - eapply Cderive_eq; [apply (Cderive_ext (fun z => z)); [intros; cbn; ring|apply Cderive_id]|]. cbn. ring.
  - eapply Cderive_eq; [apply (Cderive_ext (fun z => z * Cpown z (S n))); [intros; reflexivity|apply Cderive_mult; [apply Cderive_id|exact IH]]|].
    cbv beta. rewrite (S_INR (S n)), RtoC_plus. cbn [Cpown]. ring.
Qed.
Lemma Cderive_sinT n x : Cderive (sinT n) x (cosT n x).
Proof.
  induction n as [|k IH]; [apply (Cderive_const 0)|].
  cbn [sinT cosT]. apply Cderive_plus; [exact IH|].
  replace (2 * k + 1)%nat with (S (2 * k)) by lia.
  eapply Cderive_eq; [apply Cderive_scal, Cderive_pown|].
  rewrite Cmult_assoc. f_equal. rewrite <- RtoC_mult. f_equal. rewrite fact_simpl, mult_INR.
  field. split; [apply INR_fact_neq_0|apply not_0_INR; lia].
Qed.
Lemma Cderive_cosT n x : Cderive (cosT (S n)) x (- sinT n x).
Proof.
  induction n as [|k IH].
  - eapply Cderive_eq; [apply (Cderive_ext (fun _ => 1)); [intros; cbn; apply Ceq; cbn; field|apply Cderive_const]|]. cbn. ring.
  - change (cosT (S (S k))) with (fun z => cosT (S k) z + RtoC ((-1) ^ (S k) / INR (fact (2 * S k))) * Cpown z (2 * S k)).
    replace (2 * S k)%nat with (S (2 * k + 1)) by lia.
    eapply Cderive_eq; [apply Cderive_plus; [exact IH|apply Cderive_scal, Cderive_pown]|].
    cbn [sinT]. rewrite Cmult_assoc, <- RtoC_mult.
    replace (- (sinT k x + RtoC ((-1) ^ k / INR (fact (2 * k + 1))) * Cpown x (2 * k + 1)))
      with (- sinT k x + RtoC (- ((-1) ^ k / INR (fact (2 * k + 1)))) * Cpown x (2 * k + 1)) by (rewrite RtoC_opp; ring).
    do 3 f_equal. rewrite fact_simpl, mult_INR. cbn [pow]. field. split; [apply INR_fact_neq_0|apply not_0_INR; lia].
Qed.
Lemma Cpown_0 n : Cpown 0 (S n) = 0. Proof. cbn. ring. Qed.
Lemma sinT_0 n : sinT n 0 = 0.
Proof. induction n as [|k IH]; [reflexivity|]. cbn [sinT]. rewrite IH. replace (2 * k + 1)%nat with (S (2 * k)) by lia. rewrite Cpown_0. ring. Qed.
Lemma cosT_0 n : cosT (S n) 0 = 1.
Proof.
  induction n as [|k IH]; [cbn; apply Ceq; cbn; field|]. change (cosT (S (S k)) 0) with (cosT (S k) 0 + RtoC ((-1) ^ (S k) / INR (fact (2 * S k))) * Cpown 0 (2 * S k)).
  rewrite IH. replace (2 * S k)%nat with (S (2 * k + 1)) by lia. rewrite Cpown_0. ring.
Qed.

Lemma fact_INR_S n : INR (fact (S n)) = (INR (S n) * INR (fact n))%R.
Proof. now rewrite fact_simpl, mult_INR. Qed.

Theorem sin_cos_taylor n (z : C) : (Cmod z <= 1)%R ->
  (Cmod (Ccos z - cosT n z)%C <= 3 * Cmod z ^ (2 * n) / INR (fact (2 * n)))%R
  /\ (Cmod (Csin z - sinT n z)%C <= 3 * Cmod z ^ (2 * n + 1) / INR (fact (2 * n + 1)))%R.
Proof.
  revert z. induction n as [|k IH].
  - assert (Hc : forall z : C, (Cmod z <= 1)%R -> (Cmod (Ccos z - cosT 0 z)%C <= 3 * Cmod z ^ (2 * 0) / INR (fact (2 * 0)))%R).
    { intros z Hz. cbn [cosT]. replace (Ccos z - 0) with (Ccos z) by ring. cbn. pose proof (Ccos_bound z Hz). lra. }
    intros z Hz. split; [now apply Hc|].
    assert (B : (Cmod (Csin z - 0)%C <= 3 * Cmod z ^ 1 / INR 1)%R); [|cbn in B |- *; lra].
    apply (Cmean_pow (fun z => Csin z - 0) Ccos 3 1 0); try lra.
    + rewrite Csin_0. ring.
    + intros y _. eapply Cderive_eq; [apply Cderive_minus; [apply Cderive_csin|apply Cderive_const]|]. ring.
    + intros y Hy. cbn [pow]. pose proof (Ccos_bound y Hy). lra.
  - assert (Hc : forall z : C, (Cmod z <= 1)%R -> (Cmod (Ccos z - cosT (S k) z)%C <= 3 * Cmod z ^ (2 * S k) / INR (fact (2 * S k)))%R).
    { intros z Hz. replace (2 * S k)%nat with (S (2 * k + 1)) by lia. rewrite fact_INR_S.
      set (f := INR (fact (2 * k + 1))). assert (Hf : (0 < f)%R) by apply INR_fact_lt_0.
      replace (3 * Cmod z ^ S (2 * k + 1) / (INR (S (2 * k + 1)) * f))%R with ((3 / f) * Cmod z ^ S (2 * k + 1) / INR (S (2 * k + 1)))%R
        by (field; split; [lra|apply not_0_INR; lia]).
      apply (Cmean_pow (fun z => Ccos z - cosT (S k) z) (fun z => - (Csin z - sinT k z)) (3 / f) 1 (2 * k + 1)).
      - apply Rlt_le, Rdiv_lt_0_compat; lra.
      - rewrite Ccos_0, cosT_0. ring.
      - intros y _. eapply Cderive_eq; [apply Cderive_minus; [apply Cderive_ccos|apply Cderive_cosT]|]. ring.
      - intros y Hy. rewrite Cmod_opp. replace (3 / f * Cmod y ^ (2 * k + 1))%R with (3 * Cmod y ^ (2 * k + 1) / f)%R by (field; lra).
        apply IH, Hy.
      - exact Hz. }
    intros z Hz. split; [now apply Hc|].
    replace (2 * S k + 1)%nat with (S (2 * S k)) by lia. rewrite fact_INR_S.
    set (f := INR (fact (2 * S k))). assert (Hf : (0 < f)%R) by apply INR_fact_lt_0.
    replace (3 * Cmod z ^ S (2 * S k) / (INR (S (2 * S k)) * f))%R with ((3 / f) * Cmod z ^ S (2 * S k) / INR (S (2 * S k)))%R
      by (field; split; [lra|apply not_0_INR; lia]).
    apply (Cmean_pow (fun z => Csin z - sinT (S k) z) (fun z => Ccos z - cosT (S k) z) (3 / f) 1 (2 * S k)).
    + apply Rlt_le, Rdiv_lt_0_compat; lra.
    + rewrite Csin_0, sinT_0. ring.
    + intros y _. apply Cderive_minus; [apply Cderive_csin|apply Cderive_sinT].
    + intros y Hy. replace (3 / f * Cmod y ^ (2 * S k))%R with (3 * Cmod y ^ (2 * S k) / f)%R by (field; lra). apply Hc, Hy.
    + exact Hz.
Qed.
