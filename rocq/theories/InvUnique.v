(** * The scattering data of a potential are well defined: Jost solutions are unique for Im l >= 0, whatever the potential is *)
From Coq Require Import Reals Lra.
From Coquelicot Require Import Coquelicot.
From Verif Require Import CExp CField CConj InvSpec InvDarboux InvSoliton.
Local Open Scope C_scope.

Definition nrm (v : C * C) : R := (fst (fst v) * fst (fst v) + snd (fst v) * snd (fst v) + (fst (snd v) * fst (snd v) + snd (snd v) * snd (snd v)))%R.
Definition vsub (v w : C * C) : C * C := (fst v - fst w, snd v - snd w).
Lemma nrm_pos v : (0 <= nrm v)%R. Proof. unfold nrm. nra. Qed.
Lemma nrm_zero v w : (nrm (vsub v w) <= 0)%R -> v = w.
Proof.
  destruct v as [[a b] [c d]], w as [[a' b'] [c' d']]. unfold nrm, vsub. cbn. intros H.
  assert (S0 : forall x y : R, (0 <= y)%R -> (x * x + y <= 0)%R -> x = 0%R).
  { intros x y Hy Hx. assert (Q := Rle_0_sqr x). unfold Rsqr in Q. apply Rsqr_eq_0. unfold Rsqr. lra. }
  assert (S1 := fun x : R => Rle_0_sqr x). unfold Rsqr in S1.
  assert (Qa := S1 (a + - a')%R). assert (Qb := S1 (b + - b')%R). assert (Qc := S1 (c + - c')%R). assert (Qd := S1 (d + - d')%R).
  assert (A : (a + - a' = 0)%R) by (apply (S0 _ _ (Rplus_le_le_0_compat _ _ Qb (Rplus_le_le_0_compat _ _ Qc Qd))); lra).
  assert (B : (b + - b' = 0)%R) by (apply (S0 _ _ (Rplus_le_le_0_compat _ _ Qa (Rplus_le_le_0_compat _ _ Qc Qd))); lra).
  assert (D : (c + - c' = 0)%R) by (apply (S0 _ _ (Rplus_le_le_0_compat _ _ Qb (Rplus_le_le_0_compat _ _ Qa Qd))); lra).
  assert (F : (d + - d' = 0)%R) by (apply (S0 _ _ (Rplus_le_le_0_compat _ _ Qb (Rplus_le_le_0_compat _ _ Qc Qa))); lra).
  repeat f_equal; lra.
Qed.
Lemma zs_sub l q v w : zs_solution l q v -> zs_solution l q w -> zs_solution l q (fun t => vsub (v t) (w t)).
Proof.
  intros V W t. destruct (V t) as [A B], (W t) as [A' B']. unfold vsub. cbn [fst snd]. split.
  - eapply tderive_eq; [exact (tderive_minus _ _ _ _ _ A A')|]. ring.
  - eapply tderive_eq; [exact (tderive_minus _ _ _ _ _ B B')|]. ring.
Qed.
Lemma sq_derive (f : R -> R) t d : is_derive f t d -> is_derive (fun x => f x * f x)%R t (2 * f t * d)%R.
Proof.
  intros H. eapply (is_derive_ext (fun x => mult (f x) (f x))); [reflexivity|].
  evar_last; [apply (is_derive_mult f f t d d H H); intros; apply Rmult_comm|]. cbn. unfold plus, mult. cbn. ring.
Qed.
(** the norm grows at most like e^(2 Im l t) *)
Lemma nrm_derive l q v t : zs_solution l q v ->
  is_derive (fun x => nrm (v x)) t (2 * snd l * (fst (fst (v t)) * fst (fst (v t)) + snd (fst (v t)) * snd (fst (v t)) - (fst (snd (v t)) * fst (snd (v t)) + snd (snd (v t)) * snd (snd (v t)))))%R.
Proof.
  intros V. destruct (V t) as [[A B] [D F]]. unfold nrm.
  evar_last.
  - apply (is_derive_plus (fun x => fst (fst (v x)) * fst (fst (v x)) + snd (fst (v x)) * snd (fst (v x)))%R (fun x => fst (snd (v x)) * fst (snd (v x)) + snd (snd (v x)) * snd (snd (v x)))%R).
    + apply (is_derive_plus (fun x => fst (fst (v x)) * fst (fst (v x)))%R (fun x => snd (fst (v x)) * snd (fst (v x)))%R); apply sq_derive; eassumption.
    + apply (is_derive_plus (fun x => fst (snd (v x)) * fst (snd (v x)))%R (fun x => snd (snd (v x)) * snd (snd (v x)))%R); apply sq_derive; eassumption.
  - unfold plus. cbn. ring.
Qed.
Lemma scaled_derive l q v c t : zs_solution l q v ->
  is_derive (fun x => exp (c * x) * nrm (v x))%R t (exp (c * t) * ((c + 2 * snd l) * (fst (fst (v t)) * fst (fst (v t)) + snd (fst (v t)) * snd (fst (v t)))
    + (c - 2 * snd l) * (fst (snd (v t)) * fst (snd (v t)) + snd (snd (v t)) * snd (snd (v t)))))%R.
Proof.
  intros V. evar_last.
  - apply (is_derive_mult (fun x => exp (c * x)) (fun x => nrm (v x)) t); [|apply (nrm_derive l q v t V)|intros; apply Rmult_comm].
    auto_derive; [exact I|reflexivity].
  - unfold plus, mult, nrm. cbn. ring.
Qed.
Lemma mono_dec (f f' : R -> R) : (forall t, is_derive f t (f' t)) -> (forall t, f' t <= 0)%R -> forall a b, (a <= b)%R -> (f b <= f a)%R.
Proof.
  intros D S a b H. destruct (MVT_gen f a b f') as (c & Hc & E).
  - intros x _. apply D.
  - intros x _. apply continuity_pt_filterlim, (ex_derive_continuous f). exists (f' x). apply D.
  - assert (f' c * (b - a) <= 0)%R by (specialize (S c); nra). lra.
Qed.
Lemma dec_lim_zero (g : R -> R) : (forall a b, a <= b -> g b <= g a)%R -> is_lim g m_infty 0%R -> forall t, (g t <= 0)%R.
Proof.
  intros M L t. destruct (Rle_dec (g t) 0) as [H|H]; [exact H|exfalso]. assert (P : (0 < g t)%R) by lra.
  apply is_lim_spec in L. destruct (L (mkposreal _ P)) as (X & HX). cbn in HX. set (y := Rmin (X - 1) t).
  assert (Y1 : (y < X)%R) by (unfold y; generalize (Rmin_l (X - 1) t); lra). assert (Y2 : (y <= t)%R) by apply Rmin_r.
  specialize (HX y Y1). specialize (M y t Y2). rewrite Rminus_0_r in HX. apply Rabs_def2 in HX. lra.
Qed.
Lemma inc_lim_zero (g : R -> R) : (forall a b, a <= b -> g a <= g b)%R -> is_lim g p_infty 0%R -> forall t, (g t <= 0)%R.
Proof.
  intros M L t. destruct (Rle_dec (g t) 0) as [H|H]; [exact H|exfalso]. assert (P : (0 < g t)%R) by lra.
  apply is_lim_spec in L. destruct (L (mkposreal _ P)) as (X & HX). cbn in HX. set (y := Rmax (X + 1) t).
  assert (Y1 : (X < y)%R) by (unfold y; generalize (Rmax_l (X + 1) t); lra). assert (Y2 : (t <= y)%R) by apply Rmax_r.
  specialize (HX y Y1). specialize (M t y Y2). rewrite Rminus_0_r in HX. apply Rabs_def2 in HX. lra.
Qed.
Lemma nrm_scaled (e : C) v : nrm (e * fst v, e * snd v) = ((fst e * fst e + snd e * snd e) * nrm v)%R.
Proof. unfold nrm. cbn. ring. Qed.
Lemma exp_sq (z : C) : (fst (Cexp z) * fst (Cexp z) + snd (Cexp z) * snd (Cexp z) = exp (2 * fst z))%R.
Proof. cbn. transitivity (exp (fst z) * exp (fst z) * (Rsqr (sin (snd z)) + Rsqr (cos (snd z))))%R; [unfold Rsqr; ring|]. rewrite sin2_cos2, <- exp_plus. rewrite Rmult_1_r. f_equal. ring. Qed.
(** limits of the scaled vectors *)
Lemma nrm_lim (f g : R -> C) p : tlim f p 0 -> tlim g p 0 -> is_lim (fun t => nrm (f t, g t)) p 0%R.
Proof.
  intros [A B] [D F]. unfold nrm. cbn [fst snd] in *.
  assert (S : forall h : R -> R, is_lim h p 0%R -> is_lim (fun x => h x * h x)%R p 0%R).
  { intros h H. assert (G := rlim_mult h h p 0 0 H H). now rewrite Rmult_0_l in G. }
  assert (P : forall h k : R -> R, is_lim h p 0%R -> is_lim k p 0%R -> is_lim (fun x => h x + k x)%R p 0%R).
  { intros h k H K. assert (G := is_lim_plus' h k p 0 0 H K). now rewrite Rplus_0_l in G. }
  apply P; apply P; now apply S.
Qed.
Lemma sgn_l (s a b c d : R) : (0 <= s -> 0 <= - ((- (2) * s + 2 * s) * (a * a + b * b) + (- (2) * s - 2 * s) * (c * c + d * d)))%R.
Proof.
  intros H. replace (- ((- (2) * s + 2 * s) * (a * a + b * b) + (- (2) * s - 2 * s) * (c * c + d * d)))%R with (4 * s * (c * c + d * d))%R by ring.
  assert (Q := Rle_0_sqr c). assert (Q' := Rle_0_sqr d). unfold Rsqr in *. apply Rmult_le_pos; lra.
Qed.
Lemma sgn_r (s a b c d : R) : (0 <= s -> 0 <= (2 * s + 2 * s) * (a * a + b * b) + (2 * s - 2 * s) * (c * c + d * d))%R.
Proof.
  intros H. replace ((2 * s + 2 * s) * (a * a + b * b) + (2 * s - 2 * s) * (c * c + d * d))%R with (4 * s * (a * a + b * b))%R by ring.
  assert (Q := Rle_0_sqr a). assert (Q' := Rle_0_sqr b). unfold Rsqr in *. apply Rmult_le_pos; lra.
Qed.
Theorem jost_left_unique l q v w : (0 <= snd l)%R -> jost_left l q v -> jost_left l q w -> forall t, v t = w t.
Proof.
  intros Hl (V & V1 & V2) (W & W1 & W2) t. apply nrm_zero.
  assert (D := zs_sub l q v w V W).
  assert (L : is_lim (fun t => exp (- (2) * snd l * t) * nrm (vsub (v t) (w t)))%R m_infty 0%R).
  { assert (T1 : tlim (fun t => Cexp (Ci * l * RtoC t) * fst (vsub (v t) (w t))) m_infty 0).
    { eapply tlim_ext; [|eapply tlim_eq; [exact (tlim_minus _ _ _ _ _ V1 W1)|ring]]. intros x. cbn [vsub fst]. ring. }
    assert (T2 : tlim (fun t => Cexp (Ci * l * RtoC t) * snd (vsub (v t) (w t))) m_infty 0).
    { eapply tlim_ext; [|eapply tlim_eq; [exact (tlim_minus _ _ _ _ _ V2 W2)|ring]]. intros x. cbn [vsub snd]. ring. }
    eapply is_lim_ext; [|exact (nrm_lim _ _ _ T1 T2)]. intros x. cbv beta. rewrite nrm_scaled, exp_sq. f_equal. f_equal. cbn. ring. }
  assert (G := dec_lim_zero (fun t => exp (- (2) * snd l * t) * nrm (vsub (v t) (w t)))%R). cbv beta in G.
  assert (H : (exp (- (2) * snd l * t) * nrm (vsub (v t) (w t)) <= 0)%R).
  { apply G; [|exact L]. apply (mono_dec _ _ (fun x => scaled_derive l q _ (- (2) * snd l) x D)). intros x. cbv beta.
    apply Ropp_le_cancel. rewrite Ropp_0, Ropp_mult_distr_r. apply Rmult_le_pos; [left; apply exp_pos|]. apply sgn_l; exact Hl. }
  generalize (exp_pos (- (2) * snd l * t)) (nrm_pos (vsub (v t) (w t))). intros E N. clear - H E N. nra.
Qed.
Theorem jost_right_unique l q v w : (0 <= snd l)%R -> jost_right l q v -> jost_right l q w -> forall t, v t = w t.
Proof.
  intros Hl (V & V1 & V2) (W & W1 & W2) t. apply nrm_zero.
  assert (D := zs_sub l q v w V W).
  assert (L : is_lim (fun t => exp (2 * snd l * t) * nrm (vsub (v t) (w t)))%R p_infty 0%R).
  { assert (T1 : tlim (fun t => Cexp (- Ci * l * RtoC t) * fst (vsub (v t) (w t))) p_infty 0).
    { eapply tlim_ext; [|eapply tlim_eq; [exact (tlim_minus _ _ _ _ _ V1 W1)|ring]]. intros x. cbn [vsub fst]. ring. }
    assert (T2 : tlim (fun t => Cexp (- Ci * l * RtoC t) * snd (vsub (v t) (w t))) p_infty 0).
    { eapply tlim_ext; [|eapply tlim_eq; [exact (tlim_minus _ _ _ _ _ V2 W2)|ring]]. intros x. cbn [vsub snd]. ring. }
    eapply is_lim_ext; [|exact (nrm_lim _ _ _ T1 T2)]. intros x. cbv beta. rewrite nrm_scaled, exp_sq. f_equal. f_equal. cbn. ring. }
  assert (G := inc_lim_zero (fun t => exp (2 * snd l * t) * nrm (vsub (v t) (w t)))%R). cbv beta in G.
  assert (H : (exp (2 * snd l * t) * nrm (vsub (v t) (w t)) <= 0)%R).
  { apply G; [|exact L]. intros a b Hab.
    assert (M : forall c d, (c <= d)%R -> (- (exp (2 * snd l * d) * nrm (vsub (v d) (w d))) <= - (exp (2 * snd l * c) * nrm (vsub (v c) (w c))))%R).
    { apply (mono_dec (fun x => - (exp (2 * snd l * x) * nrm (vsub (v x) (w x))))%R _ (fun x => is_derive_opp _ _ _ (scaled_derive l q _ (2 * snd l) x D))). intros x. cbv beta.
      unfold opp. cbn. rewrite <- Ropp_0. apply Ropp_le_contravar. apply Rmult_le_pos; [left; apply exp_pos|]. apply sgn_r; exact Hl. }
    specialize (M a b Hab). lra. }
  generalize (exp_pos (2 * snd l * t)) (nrm_pos (vsub (v t) (w t))). intros E N. clear - H E N. nra.
Qed.
Lemma tlim_unique f p a b : tlim f p a -> tlim f p b -> a = b.
Proof.
  intros [A B] [A' B']. assert (E1 := eq_trans (eq_sym (is_lim_unique _ _ _ A)) (is_lim_unique _ _ _ A')). assert (E2 := eq_trans (eq_sym (is_lim_unique _ _ _ B)) (is_lim_unique _ _ _ B')).
  destruct a, b. cbn in *. injection E1 as ->. injection E2 as ->. reflexivity.
Qed.
(** a(l), b(l) and the norming constants are functions of the potential *)
Theorem nft_a_unique q l a a' : (0 <= snd l)%R -> nft_a q l a -> nft_a q l a' -> a = a'.
Proof.
  intros Hl (v & J & L) (w & J' & L'). apply (tlim_unique _ _ _ _ L). eapply tlim_ext; [|exact L']. intros x. cbv beta. now rewrite (jost_left_unique l q v w Hl J J' x).
Qed.
Theorem nft_b_unique q (l : R) b b' : nft_b q l b -> nft_b q l b' -> b = b'.
Proof.
  intros (v & J & L) (w & J' & L'). apply (tlim_unique _ _ _ _ L). eapply tlim_ext; [|exact L']. intros x. cbv beta.
  now rewrite (jost_left_unique (RtoC l) q v w (Rle_refl 0) J J' x).
Qed.
Theorem norming_constant_unique q l b b' : (0 <= snd l)%R -> norming_constant q l b -> norming_constant q l b' -> b = b'.
Proof.
  intros Hl (v & w & J & R & P) (v' & w' & J' & R' & P').
  assert (Q : forall t, b * snd (w t) = b' * snd (w t)).
  { intros t. rewrite <- (proj2 (P t)), (jost_left_unique l q v v' Hl J J' t), (jost_right_unique l q w w' Hl R R' t). apply P'. }
  destruct R as (_ & _ & R). apply (tlim_unique (fun t => b * (Cexp (- Ci * l * RtoC t) * snd (w t))) p_infty).
  - eapply tlim_eq; [exact (tlim_scal b _ _ _ R)|ring].
  - eapply tlim_ext; [|eapply tlim_eq; [exact (tlim_scal b' _ _ _ R)|ring]]. intros x. cbv beta.
    transitivity (Cexp (- Ci * l * RtoC x) * (b' * snd (w x))); [ring|]. rewrite <- Q. ring.
Qed.
