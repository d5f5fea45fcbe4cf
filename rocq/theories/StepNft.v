(** * Boffetta-Osborne is exact for staircases (C87) *)
From Coq Require Import Reals Lra Lia List.
From Coquelicot Require Import Coquelicot.
From Verif Require Import CExp CField CDeriv CMean FscatterSpec FscatterProof ScatterSpec MatExp InvSpec InvDarboux NftSpec StepSpec.
Local Open Scope C_scope.

(** ** real derivative of a complex differentiable function along the real line *)
Lemma tderive_line (f : C -> C) (l : C) (t : R) (s : R) : Cderive f (RtoC (t - s)) l -> tderive (fun x => f (RtoC (x - s))) t l.
Proof.
  intros H. assert (H' : Cderive f (RtoC (- s) + RtoC t * 1) l) by (replace (RtoC (- s) + RtoC t * 1) with (RtoC (t - s)); [exact H|apply Ceq; cbn; ring]).
  assert (E : forall x, RtoC (x - s) = RtoC (- s) + RtoC x * 1) by (intros; apply Ceq; cbn; ring).
  split; apply is_derive_Reals.
  - pose proof (line_derive f l 1 (RtoC (- s)) 1 t H') as L.
    replace (fst (1 * (1 * l))) with (fst l) in L by (cbn; ring).
    eapply derivable_pt_lim_ext; [|exact L]. intros x. cbv beta. rewrite E. cbn. ring.
  - pose proof (line_derive f l (- Ci) (RtoC (- s)) 1 t H') as L.
    replace (fst (- Ci * (1 * l))) with (snd l) in L by (cbn; ring).
    eapply derivable_pt_lim_ext; [|exact L]. intros x. cbv beta. rewrite E. cbn. ring.
Qed.
Lemma tderive_cont f t l : tderive f t l -> tcont f t.
Proof. intros [H1 H2]. split; apply (ex_derive_continuous (K := R_AbsRing) (V := R_NormedModule)); eexists; [exact H1|exact H2]. Qed.
Lemma tcont_ext f g t : (forall x, f x = g x) -> tcont f t -> tcont g t.
Proof. intros H [H1 H2]. split; [eapply continuous_ext; [|exact H1]|eapply continuous_ext; [|exact H2]]; intros x; cbv beta; now rewrite H. Qed.
Lemma tcont_plus f g t : tcont f t -> tcont g t -> tcont (fun x => f x + g x) t.
Proof. intros [A B] [A2 B2]. split; cbn; [exact (continuous_plus _ _ t A A2)|exact (continuous_plus _ _ t B B2)]. Qed.
Lemma tcont_mult f g t : tcont f t -> tcont g t -> tcont (fun x => f x * g x) t.
Proof.
  intros [A B] [A2 B2]. split; cbn.
  - exact (continuous_minus _ _ t (continuous_mult _ _ t A A2) (continuous_mult _ _ t B B2)).
  - exact (continuous_plus _ _ t (continuous_mult _ _ t A B2) (continuous_mult _ _ t B A2)).
Qed.

(** ** constant on an interval *)
Lemma real_const (f : R -> R) (l r : R) : (l <= r)%R -> (forall t, continuous f t) -> (forall t, (l < t < r)%R -> is_derive f t 0%R) -> f r = f l.
Proof.
  intros H Hc Hd. destruct (MVT_gen f l r (fun _ => 0%R)) as (c & _ & E).
  - intros x Hx. rewrite Rmin_left, Rmax_right in Hx by exact H. now apply Hd.
  - intros x _. apply continuity_pt_filterlim. exact (Hc x).
  - rewrite Rmult_0_l in E. lra.
Qed.
Lemma const_between (f : R -> C) (l r : R) : (l <= r)%R -> (forall t, tcont f t) -> (forall t, (l < t < r)%R -> tderive f t 0) -> f r = f l.
Proof.
  intros H Hc Hd. apply Ceq.
  - apply (real_const (fun x => fst (f x)) l r H); [intros t; apply Hc|intros t Ht; apply (Hd t Ht)].
  - apply (real_const (fun x => snd (f x)) l r H); [intros t; apply Hc|intros t Ht; apply (Hd t Ht)].
Qed.

(** ** a solution on an interval with constant coefficients *)
Lemma mv_mul A B v : mv (mmul A B) v = mv A (mv B v).
Proof. destruct A as [p1 p2 p3 p4], B as [r1 r2 r3 r4], v as [v1 v2]. unfold mv, mmul. cbn [a11 a12 a21 a22 fst snd]. f_equal; ring. Qed.
Lemma mv_one v : mv mone v = v.
Proof. destruct v as [v1 v2]. unfold mv, mone. cbn [a11 a12 a21 a22 fst snd]. f_equal; ring. Qed.
Lemma akns_traceless lam q r : traceless (akns_A lam q r).
Proof. unfold traceless, akns_A. cbn. ring. Qed.
(** the entries of t |-> mexp (c (t - s) A), c = 1 or -1 *)
Lemma mexp_entries lam q r (t s : R) (A := akns_A lam q r) (U := fun x : R => mexp (mscal (RtoC (x - s)) A)) :
  tderive (fun x => a11 (U x)) t (a11 (mmul A (U t))) /\ tderive (fun x => a12 (U x)) t (a12 (mmul A (U t))) /\
  tderive (fun x => a21 (U x)) t (a21 (mmul A (U t))) /\ tderive (fun x => a22 (U x)) t (a22 (mmul A (U t))).
Proof.
  destruct (mexp_fundamental A (akns_traceless lam q r)) as [_ H]. destruct (H (RtoC (t - s))) as (H1 & H2 & H3 & H4).
  split; [|split; [|split]];
  [apply (tderive_line (fun z => a11 (mexp (mscal z A))) _ t s H1)|apply (tderive_line (fun z => a12 (mexp (mscal z A))) _ t s H2)
  |apply (tderive_line (fun z => a21 (mexp (mscal z A))) _ t s H3)|apply (tderive_line (fun z => a22 (mexp (mscal z A))) _ t s H4)].
Qed.

Lemma solve_piece lam q r (v : R -> C * C) (l t : R) : (l <= t)%R ->
  (forall x, tcont (fun y => fst (v y)) x /\ tcont (fun y => snd (v y)) x) ->
  (forall x, (l < x < t)%R -> tderive (fun y => fst (v y)) x (- Ci * lam * fst (v x) + q * snd (v x)) /\
                              tderive (fun y => snd (v y)) x (r * fst (v x) + Ci * lam * snd (v x))) ->
  v t = mv (mexp (mscal (RtoC (t - l)) (akns_A lam q r))) (v l).
Proof.
  intros Hl Hc Hd. set (A := akns_A lam q r). set (A' := akns_A (- lam) (- q) (- r)).
  assert (EA : A' = mscal (- (1)) A) by (unfold A, A', akns_A, mscal; cbn [a11 a12 a21 a22]; f_equal; ring).
  set (U := fun x : R => mexp (mscal (RtoC (x - l)) A')).
  assert (Hu : forall x, tderive (fun x => a11 (U x)) x (a11 (mmul A' (U x))) /\ tderive (fun x => a12 (U x)) x (a12 (mmul A' (U x))) /\
     tderive (fun x => a21 (U x)) x (a21 (mmul A' (U x))) /\ tderive (fun x => a22 (U x)) x (a22 (mmul A' (U x)))) by (intros x; apply mexp_entries).
  assert (Hcomm : forall x, mmul A' (U x) = mscal (- (1)) (mmul (U x) A)).
  { intros x. unfold U. rewrite mexp_comm by apply akns_traceless. rewrite EA. set (X := mexp _). mring. }
  set (w := fun x => mv (U x) (v x)).
  assert (Kw : w t = w l).
  { assert (C1 : forall x, tcont (fun y => a11 (U y)) x /\ tcont (fun y => a12 (U y)) x /\ tcont (fun y => a21 (U y)) x /\ tcont (fun y => a22 (U y)) x).
    { intros x. destruct (Hu x) as (H1 & H2 & H3 & H4). split; [|split; [|split]]; eapply tderive_cont; eassumption. }
    assert (E1 : fst (w t) = fst (w l)).
    { apply (const_between (fun x => fst (w x)) l t Hl).
      - intros x. unfold w, mv. cbn [fst]. destruct (C1 x) as (? & ? & ? & ?). destruct (Hc x). apply tcont_plus; apply tcont_mult; assumption.
      - intros x Hx. unfold w, mv. cbn [fst]. destruct (Hu x) as (H1 & H2 & H3 & H4). destruct (Hd x Hx) as [D1 D2].
        eapply tderive_eq; [apply tderive_plus; apply tderive_mult; eassumption|]. cbv beta. rewrite Hcomm. unfold A, akns_A, mscal, mmul. cbn [a11 a12 a21 a22]. ring. }
    assert (E2 : snd (w t) = snd (w l)).
    { apply (const_between (fun x => snd (w x)) l t Hl).
      - intros x. unfold w, mv. cbn [snd]. destruct (C1 x) as (? & ? & ? & ?). destruct (Hc x). apply tcont_plus; apply tcont_mult; assumption.
      - intros x Hx. unfold w, mv. cbn [snd]. destruct (Hu x) as (H1 & H2 & H3 & H4). destruct (Hd x Hx) as [D1 D2].
        eapply tderive_eq; [apply tderive_plus; apply tderive_mult; eassumption|]. cbv beta. rewrite Hcomm. unfold A, akns_A, mscal, mmul. cbn [a11 a12 a21 a22]. ring. }
    rewrite (surjective_pairing (w t)), (surjective_pairing (w l)). now rewrite E1, E2. }
  assert (Ul : U l = mone). { unfold U. replace (RtoC (l - l)) with (RtoC 0) by (apply Ceq; cbn; ring). apply mexp_0. }
  unfold w in Kw. rewrite Ul, mv_one in Kw. rewrite <- Kw, <- mv_mul.
  replace (mmul (mexp (mscal (RtoC (t - l)) A)) (U t)) with mone; [symmetry; apply mv_one|]. symmetry.
  set (X := mscal (RtoC (t - l)) A). replace (U t) with (mexp (mscal (- (1)) X)).
  - assert (TX : traceless X) by (apply traceless_mscal, akns_traceless).
    rewrite <- (mexp_opp (mscal (- (1)) X)) by now apply traceless_mscal. f_equal. f_equal. unfold X. mring.
  - unfold U, X. rewrite EA. f_equal. mring.
Qed.
(** the free wave *)
Lemma mexp_free lam (t : R) : mexp (mscal (RtoC t) (akns_A lam 0 0)) = M2 (Cexp (- Ci * lam * RtoC t)) 0 0 (Cexp (Ci * lam * RtoC t)).
Proof.
  rewrite (mexp_root (Ci * lam * RtoC t)).
  - unfold mexp_at. destruct (Ceq_dec (Ci * lam * RtoC t) 0) as [E|N].
    + rewrite E. replace (- Ci * lam * RtoC t) with (RtoC 0) by (transitivity (- (Ci * lam * RtoC t)); [rewrite E|]; ring). unfold Ccosh. rewrite Copp_0, Cexp_0.
      apply mat2_eq; unfold madd, mscal, mone, akns_A; cbn [a11 a12 a21 a22]; try ring.
      * transitivity ((1 + 1) / 2 - (Ci * lam * RtoC t)); [unfold Cdiv; ring|rewrite E; apply Ceq; cbn; field].
      * transitivity ((1 + 1) / 2 + (Ci * lam * RtoC t)); [unfold Cdiv; ring|rewrite E; apply Ceq; cbn; field].
    + set (k := Ci * lam * RtoC t) in *. replace (- Ci * lam * RtoC t) with (- k) by (unfold k; ring).
      assert (Hk : RtoC t * (Ci * lam) = k) by (unfold k; ring). assert (Hk' : RtoC t * (- Ci * lam) = - k) by (unfold k; ring).
      unfold Ccosh, Csinh.
      apply mat2_eq; unfold madd, mscal, mone, akns_A; cbn [a11 a12 a21 a22]; rewrite ?Hk, ?Hk'; try (field; auto; fail); try ring.
  - unfold mdet, mscal, akns_A. cbn [a11 a12 a21 a22]. ring.
Qed.

(** ** gluing two functions *)
Definition glue {A} (e : R) (f g : R -> A) (t : R) : A := if Rle_dec t e then f t else g t.
Lemma glue_left {A} e (f g : R -> A) t : (t <= e)%R -> glue e f g t = f t.
Proof. intros H. unfold glue. destruct (Rle_dec t e); [reflexivity|contradiction]. Qed.
Lemma glue_right {A} e (f g : R -> A) t : (e < t)%R -> glue e f g t = g t.
Proof. intros H. unfold glue. destruct (Rle_dec t e); [lra|reflexivity]. Qed.
Lemma near_left e t : (t < e)%R -> locally t (fun x => (x <= e)%R).
Proof. intros H. exists (mkposreal (e - t) ltac:(lra)). intros x Hx. cbn in Hx. unfold ball in Hx. cbn in Hx. unfold AbsRing_ball, abs, minus, plus, opp in Hx. cbn in Hx. apply Rabs_def2 in Hx. lra. Qed.
Lemma near_right e t : (e < t)%R -> locally t (fun x => (e < x)%R).
Proof. intros H. exists (mkposreal (t - e) ltac:(lra)). intros x Hx. cbn in Hx. unfold ball in Hx. cbn in Hx. unfold AbsRing_ball, abs, minus, plus, opp in Hx. cbn in Hx. apply Rabs_def2 in Hx. lra. Qed.
Lemma glue_cont1 (p : C -> R) e (f g : R -> C) t : continuous (fun x => p (f x)) t -> continuous (fun x => p (g x)) t -> f e = g e -> continuous (fun x => p (glue e f g x)) t.
Proof.
  intros Hf Hg E. destruct (Rtotal_order t e) as [H|[->|H]].
  - eapply continuous_ext_loc; [|exact Hf]. eapply filter_imp; [|exact (near_left e t H)]. intros x Hx. cbv beta. now rewrite glue_left.
  - unfold continuous in *. intros P HP. cbv beta in HP. rewrite glue_left in HP by lra.
    assert (H1 := Hf P HP). rewrite E in HP. assert (H2 := Hg P HP). unfold filtermap in *.
    eapply filter_imp; [|exact (filter_and _ _ H1 H2)]. intros x [A B]. cbv beta. unfold glue. destruct (Rle_dec x e); assumption.
  - eapply continuous_ext_loc; [|exact Hg]. eapply filter_imp; [|exact (near_right e t H)]. intros x Hx. cbv beta. now rewrite glue_right.
Qed.
Lemma glue_cont e f g t : tcont f t -> tcont g t -> f e = g e -> tcont (glue e f g) t.
Proof. intros [A B] [A2 B2] E. split; apply glue_cont1; assumption. Qed.
Lemma glue_derive_left e f g t l : (t < e)%R -> tderive f t l -> tderive (glue e f g) t l.
Proof. intros H [A B]. split; eapply is_derive_ext_loc; try exact A; try exact B; (eapply filter_imp; [|exact (near_left e t H)]); intros x Hx; cbv beta; now rewrite glue_left. Qed.
Lemma glue_derive_right e f g t l : (e < t)%R -> tderive g t l -> tderive (glue e f g) t l.
Proof. intros H [A B]. split; eapply is_derive_ext_loc; try exact A; try exact B; (eapply filter_imp; [|exact (near_right e t H)]); intros x Hx; cbv beta; now rewrite glue_right. Qed.
Lemma glue_fst {A B} e (f g : R -> A * B) x : fst (glue e f g x) = glue e (fun y => fst (f y)) (fun y => fst (g y)) x.
Proof. unfold glue. now destruct (Rle_dec x e). Qed.
Lemma glue_snd {A B} e (f g : R -> A * B) x : snd (glue e f g x) = glue e (fun y => snd (f y)) (fun y => snd (g y)) x.
Proof. unfold glue. now destruct (Rle_dec x e). Qed.

(** the solution with constant coefficients *)
Lemma piece_derive lam q r (c : C * C) (s t : R) (f := fun x => mv (mexp (mscal (RtoC (x - s)) (akns_A lam q r))) c) :
  tderive (fun x => fst (f x)) t (- Ci * lam * fst (f t) + q * snd (f t)) /\ tderive (fun x => snd (f x)) t (r * fst (f t) + Ci * lam * snd (f t)).
Proof.
  destruct (mexp_entries lam q r t s) as (H1 & H2 & H3 & H4). unfold f, mv. cbn [fst snd].
  split; (eapply tderive_eq; [apply tderive_plus; apply tderive_mult; [eassumption|apply tderive_const|eassumption|apply tderive_const]|]);
  cbv beta; set (U := mexp _); unfold akns_A, mmul; cbn [a11 a12 a21 a22]; ring.
Qed.

Section Stair.
Variables (T : R * R) (D : nat) (q r : nat -> C) (u w : R -> C) (lam : C).
Hypothesis He : (0 < spacing T D)%R.
Hypothesis Hu : staircase T D q u.
Hypothesis Hw : staircase T D r w.
Let e := edge T D.
Let J := on_edge T D.
Let A j := akns_A lam (q j) (r j).
Let stp j := mexp (mscal (RtoC (spacing T D)) (A j)).

Lemma edge_S j : e (S j) = (e j + spacing T D)%R.
Proof. unfold e, edge. rewrite S_INR. ring. Qed.
Lemma edge_lt i j : (i < j)%nat -> (e i < e j)%R.
Proof. intros H. unfold e, edge. apply lt_INR in H. pose proof (Rmult_lt_compat_r _ _ _ He H). lra. Qed.
Lemma edge_le i j : (i <= j)%nat -> (e i <= e j)%R.
Proof. intros H. destruct (Nat.eq_dec i j) as [->|]; [lra|]. left. apply edge_lt. lia. Qed.
Lemma inside j t : (j < D)%nat -> (e j < t < e (S j))%R -> ~ J t.
Proof.
  intros Hj Ht (i & Hi & ->). fold (e i) in Ht. destruct (Nat.le_gt_cases i j) as [H|H]; [pose proof (edge_le i j H); lra|]. pose proof (edge_le (S j) i H). lra.
Qed.
Lemma outside t : (t < e 0 \/ e D < t)%R -> ~ J t.
Proof. intros Ht (i & Hi & ->). fold (e i) in Ht. pose proof (edge_le 0 i ltac:(lia)). pose proof (edge_le i D Hi). lra. Qed.

Lemma solution_steps v : akns_solution J lam u w v -> forall n, (n <= D)%nat -> v (e n) = mv (descending n stp) (v (e 0%nat)).
Proof.
  intros [Hc Hd]. induction n as [|n IH]; intros Hn; [cbn [descending]; now rewrite mv_one|].
  cbn [descending]. rewrite mv_mul, <- IH by lia. unfold stp at 1. replace (spacing T D) with (e (S n) - e n)%R by (rewrite edge_S; ring).
  apply solve_piece; [apply edge_le; lia|exact Hc|]. intros x Hx. pose proof (Hd x (inside n x Hn Hx)) as Hx2.
  destruct Hu as [_ Hu2], Hw as [_ Hw2]. rewrite (Hu2 n x Hn Hx), (Hw2 n x Hn Hx) in Hx2. exact Hx2.
Qed.
Lemma solution_leaves v : akns_solution J lam u w v -> enters (e 0%nat) lam v ->
  leaves (e D) lam (a11 (descending D stp) * Cexp (- Ci * lam * RtoC (e 0%nat)) * Cexp (Ci * lam * RtoC (e D)))
                   (a21 (descending D stp) * Cexp (- Ci * lam * RtoC (e 0%nat)) * Cexp (- Ci * lam * RtoC (e D))) v.
Proof.
  intros Hs Hi t Ht. assert (E := solution_steps v Hs D ltac:(lia)). rewrite (Hi (e 0%nat) ltac:(lra)) in E.
  destruct Hs as [Hc Hd].
  assert (P : v t = mv (mexp (mscal (RtoC (t - e D)) (akns_A lam 0 0))) (v (e D))).
  { apply solve_piece; [exact Ht|exact Hc|]. intros x Hx. pose proof (Hd x (outside x ltac:(lra))) as Hx2. destruct Hu as [Hu1 _], Hw as [Hw1 _].
    rewrite Hu1, Hw1 in Hx2 by (fold e; lra). exact Hx2. }
  rewrite P, E, mexp_free. unfold mv. cbn [a11 a12 a21 a22 fst snd]. set (S := descending D stp).
  assert (Ex : forall c : C, Cexp (c * RtoC (t - e D)) = Cexp (- c * RtoC (e D)) * Cexp (c * RtoC t)).
  { intros c. rewrite <- Cexp_plus. f_equal. rewrite RtoC_minus. ring. }
  f_equal.
  - replace (- Ci * lam * RtoC (t - e D)) with ((- Ci * lam) * RtoC (t - e D)) by ring. rewrite Ex. replace (- (- Ci * lam) * RtoC (e D)) with (Ci * lam * RtoC (e D)) by ring. ring.
  - rewrite Ex. replace (- (Ci * lam) * RtoC (e D)) with (- Ci * lam * RtoC (e D)) by ring. ring.
Qed.

Fixpoint build (n : nat) : R -> C * C :=
  match n with
  | O => fun t => (Cexp (- Ci * lam * RtoC t), RtoC 0)
  | S k => glue (e k) (build k) (fun t => mv (mexp (mscal (RtoC (t - e k)) (A k))) (build k (e k)))
  end.
Definition partial_solution (hi : R) (v : R -> C * C) : Prop :=
  (forall t, tcont (fun x => fst (v x)) t /\ tcont (fun x => snd (v x)) t) /\
  (forall t, ~ J t -> (t < hi)%R -> tderive (fun x => fst (v x)) t (- Ci * lam * fst (v t) + u t * snd (v t)) /\
                                    tderive (fun x => snd (v x)) t (w t * fst (v t) + Ci * lam * snd (v t))) /\
  enters (e 0%nat) lam v.
Lemma partial_glue l hi v qq rr : partial_solution l v -> J l -> (e 0%nat <= l)%R ->
  (forall t, (l < t < hi)%R -> ~ J t -> u t = qq /\ w t = rr) ->
  partial_solution hi (glue l v (fun t => mv (mexp (mscal (RtoC (t - l)) (akns_A lam qq rr))) (v l))).
Proof.
  intros (Hc & Hd & Hi) HJ H0 Hq. set (g := fun t => mv (mexp (mscal (RtoC (t - l)) (akns_A lam qq rr))) (v l)).
  assert (Eg : v l = g l). { unfold g. replace (RtoC (l - l)) with (RtoC 0) by (apply Ceq; cbn; ring). now rewrite mexp_0, mv_one. }
  assert (Dg : forall t, tderive (fun x => fst (g x)) t (- Ci * lam * fst (g t) + qq * snd (g t)) /\ tderive (fun x => snd (g x)) t (rr * fst (g t) + Ci * lam * snd (g t))) by (intros t; exact (piece_derive lam qq rr (v l) l t)).
  split; [|split].
  - intros t. destruct (Hc t) as [C1 C2]. destruct (Dg t) as [D1 D2]. apply tderive_cont in D1. apply tderive_cont in D2. split.
    + eapply tcont_ext; [intros x; symmetry; apply glue_fst|]. apply glue_cont; [exact C1|exact D1|now rewrite Eg].
    + eapply tcont_ext; [intros x; symmetry; apply glue_snd|]. apply glue_cont; [exact C2|exact D2|now rewrite Eg].
  - intros t Hj Ht. destruct (Rtotal_order t l) as [H|[->|H]]; [|contradiction|].
    + rewrite (glue_left l v g t) by lra. destruct (Hd t Hj H) as [D1 D2]. split.
      * eapply tderive_ext; [intros x; symmetry; apply glue_fst|]. now apply glue_derive_left.
      * eapply tderive_ext; [intros x; symmetry; apply glue_snd|]. now apply glue_derive_left.
    + rewrite (glue_right l v g t) by lra. destruct (Dg t) as [D1 D2]. destruct (Hq t ltac:(lra) Hj) as [-> ->]. split.
      * eapply tderive_ext; [intros x; symmetry; apply glue_fst|]. now apply glue_derive_right.
      * eapply tderive_ext; [intros x; symmetry; apply glue_snd|]. now apply glue_derive_right.
  - intros t Ht. rewrite glue_left by lra. now apply Hi.
Qed.
Lemma build_ok n : (n <= D)%nat -> partial_solution (e n) (build n).
Proof.
  induction n as [|n IH]; intros Hn.
  - split; [|split].
    + intros t. split; [exact (tderive_cont _ _ _ (tderive_exp (- Ci * lam) t))|exact (tderive_cont _ _ _ (tderive_const 0 t))].
    + intros t _ Ht. destruct Hu as [Hu1 _], Hw as [Hw1 _]. rewrite Hu1, Hw1 by (fold e; lra). cbn [build fst snd]. split.
      * eapply tderive_eq; [exact (tderive_exp (- Ci * lam) t)|ring].
      * eapply tderive_eq; [exact (tderive_const 0 t)|ring].
    + intros t Ht. reflexivity.
  - cbn [build]. apply partial_glue; [apply IH; lia|exists n; split; [lia|reflexivity]|apply edge_le; lia|].
    intros t Ht _. destruct Hu as [_ Hu2], Hw as [_ Hw2]. split; [apply Hu2|apply Hw2]; assumption || lia.
Qed.
Lemma solution_exists : exists v, akns_solution J lam u w v /\ enters (e 0%nat) lam v.
Proof.
  exists (glue (e D) (build D) (fun t => mv (mexp (mscal (RtoC (t - e D)) (akns_A lam 0 0))) (build D (e D)))).
  assert (H : forall hi, partial_solution hi (glue (e D) (build D) (fun t => mv (mexp (mscal (RtoC (t - e D)) (akns_A lam 0 0))) (build D (e D))))).
  { intros hi. apply partial_glue; [apply build_ok; lia|exists D; split; [lia|reflexivity]|apply edge_le; lia|].
    intros t Ht _. destruct Hu as [Hu1 _], Hw as [Hw1 _]. split; [apply Hu1|apply Hw1]; fold e; lra. }
  split; [|apply (H 0%R)]. split; [apply (H 0%R)|]. intros t Hj. destruct (H (t + 1)%R) as (_ & Hd & _). apply Hd; [exact Hj|lra].
Qed.

(** the product of the exponentials over the samples gives the exact NFT of the staircase *)
Theorem staircase_nft : nft_ab J (e 0%nat) (e D) u w lam
   (a11 (descending D stp) * Cexp (- Ci * lam * RtoC (e 0%nat)) * Cexp (Ci * lam * RtoC (e D)))
   (a21 (descending D stp) * Cexp (- Ci * lam * RtoC (e 0%nat)) * Cexp (- Ci * lam * RtoC (e D))).
Proof. split; [exact solution_exists|exact solution_leaves]. Qed.
End Stair.

(** there are staircases *)
Lemma staircase_exists T D q : (0 < spacing T D)%R -> exists u, staircase T D q u.
Proof.
  intros He. set (f := fix f n : R -> C := match n with O => fun _ => RtoC 0 | S k => glue (edge T D k) (f k) (fun t => if Rlt_dec t (edge T D (S k)) then q k else 0) end).
  assert (Hmono : forall i j, (i <= j)%nat -> (edge T D i <= edge T D j)%R).
  { intros i j H. unfold edge. apply le_INR in H. pose proof (Rmult_le_compat_r _ _ _ (Rlt_le _ _ He) H). lra. }
  exists (f D).
  assert (H : forall n, (forall t, (t < edge T D 0 \/ edge T D n < t)%R -> f n t = 0) /\ forall j t, (j < n)%nat -> (edge T D j < t < edge T D (S j))%R -> f n t = q j).
  { induction n as [|n [IH1 IH2]]; [split; [reflexivity|lia]|]. split.
    - intros t Ht. change (f (S n) t) with (glue (edge T D n) (f n) (fun t => if Rlt_dec t (edge T D (S n)) then q n else 0) t).
      pose proof (Hmono 0%nat n ltac:(lia)). pose proof (Hmono n (S n) ltac:(lia)).
      destruct Ht as [Ht|Ht]; [rewrite glue_left by lra; apply IH1; lra|rewrite glue_right by lra]. destruct (Rlt_dec t _); [lra|reflexivity].
    - intros j t Hj Ht. change (f (S n) t) with (glue (edge T D n) (f n) (fun t => if Rlt_dec t (edge T D (S n)) then q n else 0) t).
      destruct (Nat.eq_dec j n) as [->|].
      + rewrite glue_right by lra. destruct (Rlt_dec t _); [reflexivity|lra].
      + pose proof (Hmono (S j) n ltac:(lia)). rewrite glue_left by lra. apply IH2; [lia|exact Ht]. }
  apply H.
Qed.
