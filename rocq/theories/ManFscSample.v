(** * Manakov fast scattering, one sample: C35 *)
From Coq Require Import Reals List QArith Qreals ZArith Lia Lra.
From Coquelicot Require Import Coquelicot.
From Verif Require Import Base Loop Fields PolySpec MatSpec CField CExp CDeriv MiscNumModel ErrModel KissProof KissProps PolyFmultModel PolyFmultProof PolyFmultProps
  DiscTables DiscSpec DiscModel DiscProps FftAppProps FscatterTab FscatterSpec FscatterAlg FscatterModel FscatterProof FscatterOrder FscatterProps
  ManFscSpec ManFscTab ManFscAlg ManFscModel ManFscProof.
Import ListNotations.
Local Open Scope C_scope.

(** ** One sample *)
(** the polynomial matrix of one sample at z: nine lists of coefficients, row by row, highest power first *)
Definition poly_mat3 (ls : list (list C)) (z : C) : mat3 :=
  let p k := peval (K := CF) (nth k ls []) z in
  M3 (p 0%nat) (p 1%nat) (p 2%nat) (p 3%nat) (p 4%nat) (p 5%nat) (p 6%nat) (p 7%nat) (p 8%nat).
Lemma poly_mat3_hmat3 ls z : poly_mat3 ls z = hmat3 z ls.
Proof. unfold poly_mat3, hmat3. now rewrite !hor_peval. Qed.

(** z = exp(i lambda tau): the map lambda_to_z of the library *)
Definition man_tau (d : man_disc) (eps_t : R) : R :=
  match d with M_FTES4_suzuki => (eps_t / 3)%R | _ => (2 * eps_t / (INR (man_degree d) * INR (man_upsampling_factor d)))%R end.

Lemma zp_expi (lam : C) (tau : R) n : zp (Cexp (Ci * lam * RtoC tau)) n = Cexp (Ci * lam * RtoC (INR n * tau)).
Proof.
  induction n as [|n IH]; [cbn [zp INR]; rewrite Rmult_0_l, !Cmult_0_r, Cexp_0; reflexivity|].
  cbn [zp]. rewrite IH, S_INR, <- Cexp_plus. f_equal. rewrite !RtoC_mult, RtoC_plus. ring.
Qed.
Lemma expA3_diag lam (t tau : R) n : (2 * t = IZR n * tau)%R ->
  expA3 lam t = m3scal (Cexp (- Ci * lam * RtoC (IZR (Z.abs n) * tau / 2))) (diag3 (Cexp (Ci * lam * RtoC tau)) n).
Proof.
  intros H. unfold expA3, diag3. rewrite !zp_expi. replace t with (IZR n * tau / 2)%R by lra. clear H.
  rewrite !INR_IZR_INZ.
  destruct (Z.leb_spec 0 n) as [Hn|Hn].
  - rewrite Z.abs_eq, (Z2Nat.id n) by lia. replace (Z.to_nat (- n)) with 0%nat by lia. cbn [Z.of_nat].
    apply mat3_eq; m3cbn; try ring; [rewrite Rmult_0_l, Cmult_0_r, Cexp_0; ring|..];
    rewrite <- Cexp_plus; f_equal; unfold Rdiv; rewrite !RtoC_mult; rewrite RtoC_inv by lra; field.
  - rewrite Z.abs_neq, (Z2Nat.id (- n)) by lia. replace (Z.to_nat n) with 0%nat by lia. cbn [Z.of_nat]. rewrite opp_IZR.
    apply mat3_eq; m3cbn; try ring; [| |]; rewrite ?Rmult_0_l, ?Cmult_0_r, ?Cexp_0, ?Cmult_1_r, <- ?Cexp_plus; f_equal;
      unfold Rdiv; rewrite !RtoC_mult, RtoC_opp; rewrite RtoC_inv by lra; field.
Qed.
Definition wtA3 (f : Q -> Z) (w : word) : Z := fold_right (fun g s => match fst g with LA => Z.abs (f (snd g)) + s | LB => s end)%Z 0%Z w.
Lemma word_val3_diag lam (t tau : R) (f : Q -> Z) EB w : (forall a, In (LA, a) w -> (2 * (Q2R a * t) = IZR (f a) * tau)%R) ->
  word_val3 (fun a => expA3 lam (Q2R a * t)) EB w
  = m3scal (Cexp (- Ci * lam * RtoC (IZR (wtA3 f w) * tau / 2))) (word_val3 (fun a => diag3 (Cexp (Ci * lam * RtoC tau)) (f a)) EB w).
Proof.
  induction w as [|[l a] w IH]; intros H.
  - cbn [word_val3 fold_right wtA3]. unfold Rdiv. rewrite !Rmult_0_l, Cmult_0_r, Cexp_0. m3ring.
  - cbn [word_val3 wtA3 fold_right fst snd].
    change (fold_right _ m3one w) with (word_val3 (fun a => expA3 lam (Q2R a * t)) EB w) at 1.
    change (fold_right _ m3one w) with (word_val3 (fun a => diag3 (Cexp (Ci * lam * RtoC tau)) (f a)) EB w).
    change (fold_right _ 0%Z w) with (wtA3 f w).
    rewrite IH by (intros b Hb; apply H; now right). destruct l.
    + rewrite (expA3_diag lam _ tau (f a)) by (apply H; now left). rewrite m3scal_mul_l, !m3scal_mul_r, m3scal_m3scal, <- Cexp_plus. f_equal. f_equal.
      rewrite plus_IZR. unfold Rdiv. rewrite !RtoC_mult, RtoC_plus. ring.
    + now rewrite m3scal_mul_r.
Qed.
Lemma scheme_val3_diag (N : Z) lam (t tau : R) (f : Q -> Z) EB s :
  (forall c w, In (c, w) s -> wtA3 f w = N) -> (forall c w a, In (c, w) s -> In (LA, a) w -> (2 * (Q2R a * t) = IZR (f a) * tau)%R) ->
  scheme_val3 (fun a => expA3 lam (Q2R a * t)) EB s
  = m3scal (Cexp (- Ci * lam * RtoC (IZR N * tau / 2))) (scheme_val3 (fun a => diag3 (Cexp (Ci * lam * RtoC tau)) (f a)) EB s).
Proof.
  induction s as [|[c w] s IH]; intros H1 H2.
  - cbn. m3ring.
  - cbn [scheme_val3 fold_right fst snd].
    change (fold_right _ m3zero s) with (scheme_val3 (fun a => expA3 lam (Q2R a * t)) EB s) at 1.
    change (fold_right _ m3zero s) with (scheme_val3 (fun a => diag3 (Cexp (Ci * lam * RtoC tau)) (f a)) EB s).
    rewrite IH; [|intros c' w' Hw; apply (H1 c'); now right|intros c' w' a Hw; apply (H2 c'); now right].
    rewrite (word_val3_diag lam t tau f) by (intros a; apply (H2 c); now left). rewrite (H1 c w) by now left. m3ring.
Qed.

(** *** Suzuki: the multiplication of the even coefficients by E1 and E2 *)
Definition build (a : nat -> mat3) : list (list C) :=
  map (fun g => [g (a 0%nat); RtoC 0; g (a 2%nat); RtoC 0; g (a 4%nat); RtoC 0; g (a 6%nat); RtoC 0; g (a 8%nat); RtoC 0; g (a 10%nat); RtoC 0;
    g (a 12%nat); RtoC 0; g (a 14%nat)]) [c11; c12; c13; c21; c22; c23; c31; c32; c33].
Definition put (a : nat -> mat3) (j : nat) (M : mat3) : nat -> mat3 := fun i => if Nat.eqb i j then M else a i.
Lemma coef_build a j : In j [0;2;4;6;8;10;12;14]%nat -> coef_mat (build a) j = a j.
Proof.
  assert (Eta : forall M, M3 (c11 M) (c12 M) (c13 M) (c21 M) (c22 M) (c23 M) (c31 M) (c32 M) (c33 M) = M) by (intros []; reflexivity).
  intros H. cbn [In] in H. destruct H as [<-|[<-|[<-|[<-|[<-|[<-|[<-|[<-|[]]]]]]]]]; apply Eta.
Qed.
Lemma set_build a j M : In j [0;2;4;6;8;10;12;14]%nat -> set_coef (build a) j M = build (put a j M).
Proof. intros H. cbn [In] in H. destruct H as [<-|[<-|[<-|[<-|[<-|[<-|[<-|[<-|[]]]]]]]]]; reflexivity. Qed.
Lemma build_ext a b : (forall j, In j [0;2;4;6;8;10;12;14]%nat -> a j = b j) -> build a = build b.
Proof. intros H. unfold build. rewrite !H by (cbn [In]; tauto). reflexivity. Qed.
Lemma suzuki_fold_gen E1 E2 l : forall a, (forall j, In j l -> In j [0;2;4;6;8;10;12;14]%nat) -> NoDup l ->
  fold_left (fun ls j => set_coef ls j (mult_E1_TM_E2 (coef_mat ls j) E1 E2)) l (build a)
  = build (fun j => if existsb (Nat.eqb j) l then m3mul (m3mul E1 (a j)) E2 else a j).
Proof.
  induction l as [|x l IH]; intros a H ND; [reflexivity|]. cbn [fold_left].
  assert (Hx : In x [0;2;4;6;8;10;12;14]%nat) by (apply H; now left). rewrite coef_build, set_build by exact Hx.
  inversion ND as [|x' l' Nx ND']; subst. rewrite IH; [|intros j Hj; apply H; now right|exact ND'].
  apply build_ext. intros j _. cbn [existsb]. unfold put, mult_E1_TM_E2. destruct (Nat.eqb_spec j x) as [->|N]; cbn [orb]; [|reflexivity].
  destruct (existsb (Nat.eqb x) l) eqn:E; [|reflexivity]. apply existsb_exists in E as (y & Hy & Ey). apply Nat.eqb_eq in Ey. subst y. contradiction.
Qed.
Lemma suzuki_fold a E1 E2 :
  fold_left (fun ls j => set_coef ls j (mult_E1_TM_E2 (coef_mat ls j) E1 E2)) [0;2;4;6;8;10;12;14]%nat (build a)
  = build (fun j => m3mul (m3mul E1 (a j)) E2).
Proof.
  rewrite suzuki_fold_gen; [|auto|repeat constructor; cbn [In]; lia]. apply build_ext. intros j H.
  replace (existsb (Nat.eqb j) [0;2;4;6;8;10;12;14]%nat) with true; [reflexivity|]. symmetry. apply existsb_exists. exists j. split; [exact H|apply Nat.eqb_refl].
Qed.
Lemma build_table e1 e2 e3 : mstep_FTES4_suzuki e1 e2 e3 = build (coef_mat (mstep_FTES4_suzuki e1 e2 e3)).
Proof. reflexivity. Qed.
Lemma build_mul z a E1 E2 : hmat3 z (build (fun j => m3mul (m3mul E1 (a j)) E2)) = m3mul E1 (m3mul (hmat3 z (build a)) E2).
Proof.
  unfold build, hmat3, hor. cbn [map nth fold_left].
  assert (K : forall j, m3mul (m3mul E1 (a j)) E2 = m3mul E1 (m3mul (a j) E2)) by (intros; symmetry; apply m3mul_assoc). rewrite !K.
  apply mat3_eq; m3cbn; ring.
Qed.

(** *** The letters of a scheme *)
Definition q_is (a b : Q) : bool := andb (Z.eqb (Qnum a) (Qnum b)) (Pos.eqb (Qden a) (Qden b)).
Definition letter_in (a : Q) (s : scheme) : bool :=
  existsb (fun cw : Q * word => existsb (fun g : letter * Q => match fst g with LB => q_is (snd g) a | LA => false end) (snd cw)) s.
Definition B_letter (a : Q) (s : scheme) : Prop := exists c w, In (c, w) s /\ In (LB, a) w.
Lemma letter_in_ok a s : letter_in a s = true -> B_letter a s.
Proof.
  intros H. apply existsb_exists in H as ((c & w) & H1 & H). apply existsb_exists in H as ((l & b) & H2 & H). exists c, w. split; [exact H1|].
  cbn [fst snd] in *. destruct l; [discriminate H|]. apply andb_prop in H as (Ha & Hb). apply Z.eqb_eq in Ha. apply Pos.eqb_eq in Hb.
  destruct a, b. cbn in *. now subst.
Qed.
Definition tabA (d : man_disc) : Q -> Z := match d with M_FTES4_suzuki => fun a => (Qnum a / 8)%Z | _ => fun a => (2 * Qnum a)%Z end.
Definition wt_okb (d : man_disc) (s : scheme) : bool :=
  forallb (fun cw : Q * word => andb (Z.eqb (wtA3 (tabA d) (snd cw)) (Z.of_nat (man_degree d)))
    (forallb (fun g : letter * Q => match fst g with LA => match d with M_FTES4_suzuki => Z.eqb (Qnum (snd g)) (8 * (Qnum (snd g) / 8)) && Pos.eqb (Qden (snd g)) 1
        | _ => Pos.eqb (Qden (snd g)) 1 end | LB => true end) (snd cw))) s.
Lemma man_schemes_ok d u s : man_scheme_of d = Some (u, s) ->
  (forall c w, In (c, w) s -> wtA3 (tabA d) w = Z.of_nat (man_degree d)) /\
  (forall c w a, In (c, w) s -> In (LA, a) w -> forall eps_t : R,
     (2 * (Q2R a * (eps_t / INR (man_upsampling_factor d) / INR u)) = IZR (tabA d a) * man_tau d eps_t)%R).
Proof.
  intros H. assert (Hb : wt_okb d s = true) by (destruct d; cbn [man_scheme_of] in H; try discriminate H; injection H as <- <-; vm_compute; reflexivity).
  unfold wt_okb in Hb. rewrite forallb_forall in Hb. split.
  - intros c w Hw. specialize (Hb _ Hw). apply andb_prop in Hb as (Hb & _). now apply Z.eqb_eq in Hb.
  - intros c w a Hw Ha eps_t. specialize (Hb _ Hw). apply andb_prop in Hb as (_ & Hb). cbn [snd] in Hb. rewrite forallb_forall in Hb. specialize (Hb _ Ha). cbn [fst snd] in Hb.
    assert (Hu : d = M_FTES4_suzuki /\ u = 48%nat \/ d <> M_FTES4_suzuki /\ (man_degree d = 2 * u)%nat /\ u <> 0%nat /\ man_upsampling_factor d <> 0%nat).
    { destruct d; cbn [man_scheme_of] in H; try discriminate H; injection H as <- <-; (left; split; [reflexivity|reflexivity]) || (right; repeat split; discriminate). }
    clear H. destruct Hu as [(-> & ->)|(Nd & Hdeg & Nu & Nups)].
    + apply andb_prop in Hb as (Hn & Hd). apply Z.eqb_eq in Hn. apply Pos.eqb_eq in Hd. unfold man_tau, tabA, Q2R. rewrite Hd. set (k := (Qnum a / 8)%Z) in *. rewrite Hn, mult_IZR.
      change (INR (man_upsampling_factor M_FTES4_suzuki)) with 1%R. rewrite (INR_IZR_INZ 48). cbn [Z.of_nat Pos.of_succ_nat Pos.succ]. field.
    + assert (Hq : Qden a = 1%positive) by (destruct d; try (exfalso; apply Nd; reflexivity); now apply Pos.eqb_eq in Hb).
      assert (Et : man_tau d eps_t = (2 * eps_t / (INR (man_degree d) * INR (man_upsampling_factor d)))%R) by (destruct d; try reflexivity; exfalso; apply Nd; reflexivity).
      assert (Ea : tabA d a = (2 * Qnum a)%Z) by (destruct d; try reflexivity; exfalso; apply Nd; reflexivity).
      rewrite Et, Ea, Hdeg, mult_INR, mult_IZR. unfold Q2R. rewrite Hq. change (INR 2) with 2%R. field.
      split; apply not_0_INR; assumption.
Qed.
Lemma man_half_phase d u s (eps_t : R) : man_scheme_of d = Some (u, s) -> d <> M_FTES4_suzuki ->
  (INR (man_degree d) * man_tau d eps_t / 2 = eps_t / INR (man_upsampling_factor d))%R.
Proof.
  intros H Nd. assert (Et : man_tau d eps_t = (2 * eps_t / (INR (man_degree d) * INR (man_upsampling_factor d)))%R) by (destruct d; try reflexivity; exfalso; apply Nd; reflexivity).
  rewrite Et. field. split; apply not_0_INR; destruct d; discriminate.
Qed.

(** the conditions under which the code's case distinctions (|q| < epsilon, small arguments of sinc) do not deviate from the exponentials *)
Definition man_exact (d : man_disc) (kappa : Z) (eps_t : R) (q1n q2n : C * C * C) : Prop :=
  let '(a1, b1, e1) := q1n in let '(a2, b2, e2) := q2n in
  (forall u s a, man_scheme_of d = Some (u, s) -> B_letter a s -> exact_at kappa b1 b2 (Q2R a * (eps_t / INR u))) /\
  (is_ftes d = true ->
    exact_at kappa ((d1 a1 e1 / 12 + d2 a1 b1 e1 / 48) * RtoC eps_t) ((d1 a2 e2 / 12 + d2 a2 b2 e2 / 48) * RtoC eps_t) 1 /\
    exact_at kappa ((- d1 a1 e1 / 12 + d2 a1 b1 e1 / 48) * RtoC eps_t) ((- d1 a2 e2 / 12 + d2 a2 b2 e2 / 48) * RtoC eps_t) 1).
(** the transfer matrix of one sample the documentation promises *)
Definition man_step (d : man_disc) (kappa : Z) (eps_t : R) (q1n q2n : C * C * C) (us : nat * scheme) (lam : C) : mat3 :=
  let '(a1, b1, e1) := q1n in let '(a2, b2, e2) := q2n in
  let S := splitting3 lam kappa b1 b2 (eps_t / INR (man_upsampling_factor d)) eps_t us in
  if is_ftes d then m3mul (ftes_left kappa a1 b1 e1 a2 b2 e2 eps_t) (m3mul S (ftes_right kappa a1 b1 e1 a2 b2 e2 eps_t)) else S.

Lemma ftes_E1_ok kappa (eps_t : R) (a1 b1 e1 a2 b2 e2 : C) : (Z.abs kappa = 1)%Z -> (0 < eps_t)%R ->
  exact_at kappa ((d1 a1 e1 / 12 + d2 a1 b1 e1 / 48) * RtoC eps_t) ((d1 a2 e2 / 12 + d2 a2 b2 e2 / 48) * RtoC eps_t) 1 ->
  ftes_E1 kappa eps_t (a1, b1, e1) (a2, b2, e2) = ftes_left kappa a1 b1 e1 a2 b2 e2 eps_t.
Proof.
  intros Hk He H. unfold ftes_E1, ftes_left.
  assert (G : forall a b e : C, (e - a) * RtoC eps_t / 24 + (e - 2 * b + a) * RtoC eps_t / 48 = (d1 a e / 12 + d2 a b e / 48) * RtoC eps_t)
    by (intros; unfold d1, d2; field).
  assert (G2 : forall a b e : C, RtoC (IZR kappa) * Cconj (a - e) * RtoC eps_t / 24 - RtoC (IZR kappa) * Cconj (e - 2 * b + a) * RtoC eps_t / 48
     = - RtoC (IZR kappa) * Cconj ((d1 a e / 12 + d2 a b e / 48) * RtoC eps_t)).
  { intros. unfold d1, d2. rewrite Cmult_conj, Cplus_conj. repeat rewrite ?Cconj_div, ?Cconj_opp, ?Cplus_conj, ?Cconj_minus, ?Cmult_conj, ?Cconj_R by (apply RtoC_neq0'; lra). field. }
  rewrite !G, (get_E_exp kappa) by (assumption || apply G2). apply expNLS3_scale. lra.
Qed.
Lemma ftes_E2_ok kappa (eps_t : R) (a1 b1 e1 a2 b2 e2 : C) : (Z.abs kappa = 1)%Z -> (0 < eps_t)%R ->
  exact_at kappa ((- d1 a1 e1 / 12 + d2 a1 b1 e1 / 48) * RtoC eps_t) ((- d1 a2 e2 / 12 + d2 a2 b2 e2 / 48) * RtoC eps_t) 1 ->
  ftes_E2 kappa eps_t (a1, b1, e1) (a2, b2, e2) = ftes_right kappa a1 b1 e1 a2 b2 e2 eps_t.
Proof.
  intros Hk He H. unfold ftes_E2, ftes_right.
  assert (G : forall a b e : C, - (e - a) * RtoC eps_t / 24 + (e - 2 * b + a) * RtoC eps_t / 48 = (- d1 a e / 12 + d2 a b e / 48) * RtoC eps_t)
    by (intros; unfold d1, d2; field).
  assert (G2 : forall a b e : C, RtoC (IZR kappa) * Cconj (e - a) * RtoC eps_t / 24 - RtoC (IZR kappa) * Cconj (e - 2 * b + a) * RtoC eps_t / 48
     = - RtoC (IZR kappa) * Cconj ((- d1 a e / 12 + d2 a b e / 48) * RtoC eps_t)).
  { intros. unfold d1, d2. rewrite Cmult_conj, Cplus_conj. repeat rewrite ?Cconj_div, ?Cconj_opp, ?Cplus_conj, ?Cconj_minus, ?Cmult_conj, ?Cconj_R by (apply RtoC_neq0'; lra). field. }
  rewrite !G, (get_E_exp kappa) by (assumption || apply G2). apply expNLS3_scale. lra.
Qed.

Definition EBx (kappa : Z) (q1 q2 : C) (h : R) (u : nat) (a : Q) : mat3 := expNLS3 kappa q1 q2 (RtoC (Q2R a * (h / INR u))).
Lemma mz_letter d kappa (eps_t t : R) (q1 q2 : C) u s a : (Z.abs kappa = 1)%Z -> (0 < eps_t)%R -> man_scheme_of d = Some (u, s) ->
  (forall a, B_letter a s -> exact_at kappa q1 q2 (Q2R a * (eps_t / INR u))) ->
  letter_in a s = true -> t = (Q2R a * (eps_t / INR u))%R -> t <> 0%R -> mzfsm t q1 q2 kappa = EBx kappa q1 q2 eps_t u a.
Proof. intros Hk He Hs Hex Hl -> Ht. unfold EBx. apply mzfsm_exp; [assumption..|]. apply Hex. now apply letter_in_ok. Qed.
Lemma man_sample_is_scheme d u s kappa (eps_t : R) (q1n q2n : C * C * C) (z : C) :
  man_scheme_of d = Some (u, s) -> (Z.abs kappa = 1)%Z -> (0 < eps_t)%R -> man_exact d kappa eps_t q1n q2n ->
  exists ls, man_sample d kappa eps_t q1n q2n = Some ls /\
    let '(a1, b1, e1) := q1n in let '(a2, b2, e2) := q2n in
    let S := scheme_val3 (fun a => diag3 z (tabA d a)) (EBx kappa b1 b2 eps_t u) s in
    poly_mat3 ls z = if is_ftes d then m3mul (ftes_left kappa a1 b1 e1 a2 b2 e2 eps_t) (m3mul S (ftes_right kappa a1 b1 e1 a2 b2 e2 eps_t)) else S.
Proof.
  destruct q1n as [[a1 b1] e1], q2n as [[a2 b2] e2]. intros Hs Hk He (Hx & Hf).
  assert (Hx' : forall a, B_letter a s -> exact_at kappa b1 b2 (Q2R a * (eps_t / INR u))) by (intros a Ha; now apply Hx with (s := s)). clear Hx.
  assert (K : forall t a, letter_in a s = true -> t = (Q2R a * (eps_t / INR u))%R -> t <> 0%R -> mzfsm t b1 b2 kappa = EBx kappa b1 b2 eps_t u a)
    by (intros; eapply mz_letter; eassumption).
  assert (T : forall d', d' = d -> man_scheme_of d' = Some (u, s)) by (intros ? ->; exact Hs).
  assert (Hu : u <> 0%nat) by (destruct d; cbn [man_scheme_of] in Hs; try discriminate Hs; injection Hs as <- <-; discriminate).
  destruct d; cbn [man_scheme_of] in Hs; try discriminate Hs; cbn [man_sample is_ftes tabA]; eexists; (split; [reflexivity|]); cbv zeta; rewrite poly_mat3_hmat3.
  Ltac kk K t a u := let u' := eval compute in u in rewrite (K t a) by (first [vm_compute; reflexivity | lra | unfold Q2R; cbn [Qnum Qden Qopp Z.opp]; rewrite INR_IZR_INZ; cbn [Z.of_nat Pos.of_succ_nat Pos.succ]; field]).
  - injection Hs as <- <-. kk K (eps_t / 3)%R 1%Q 3%nat. kk K eps_t 3%Q 3%nat. apply (malg_2SPLIT3A z _ 3%nat); [|reflexivity].
    unfold EBx. unfold expNLS3. rewrite <- expB3_plus, <- RtoC_plus. f_equal. f_equal. unfold Q2R. simpl. field.
  - injection Hs as <- <-. kk K (eps_t / 3)%R 1%Q 3%nat. kk K (eps_t * 2 / 3)%R 2%Q 3%nat. kk K eps_t 3%Q 3%nat. apply (malg_2SPLIT3B z _ 3%nat). reflexivity.
  - injection Hs as <- <-. kk K (eps_t / 2)%R 2%Q 4%nat. kk K eps_t 4%Q 4%nat. apply (malg_2SPLIT4A z _ 4%nat). reflexivity.
  - injection Hs as <- <-. kk K (eps_t / 2)%R 1%Q 2%nat. kk K (eps_t / 4)%R (1#2)%Q 2%nat. apply (malg_2SPLIT4B z _ 2%nat). reflexivity.
  - injection Hs as <- <-. kk K (eps_t / 2)%R 3%Q 6%nat. kk K (eps_t / 3)%R 2%Q 6%nat. kk K (eps_t / 4)%R (3#2)%Q 6%nat. kk K (eps_t / 6)%R 1%Q 6%nat. apply (malg_2SPLIT6B z _ 6%nat). reflexivity.
  - injection Hs as <- <-. kk K (eps_t / 2)%R 2%Q 4%nat. kk K eps_t 4%Q 4%nat. apply (malg_2SPLIT4A z _ 4%nat). reflexivity.
  - injection Hs as <- <-. kk K (eps_t / 2)%R 1%Q 2%nat. kk K (eps_t / 4)%R (1#2)%Q 2%nat. apply (malg_2SPLIT4B z _ 2%nat). reflexivity.
  - injection Hs as <- <-. kk K (eps_t / 2)%R 3%Q 6%nat. kk K (eps_t / 3)%R 2%Q 6%nat. kk K (eps_t / 4)%R (3#2)%Q 6%nat. kk K (eps_t / 6)%R 1%Q 6%nat. apply (malg_2SPLIT6B z _ 6%nat). reflexivity.
  - destruct (Hf eq_refl) as (F1 & F2). rewrite ftes_E1_ok, ftes_E2_ok by assumption.
    injection Hs as <- <-. kk K (eps_t / 2)%R 2%Q 4%nat. kk K eps_t 4%Q 4%nat. apply (malg_FTES4_4A z _ _ _ 4%nat). reflexivity.
  - destruct (Hf eq_refl) as (F1 & F2). rewrite ftes_E1_ok, ftes_E2_ok by assumption.
    injection Hs as <- <-. kk K (7 * eps_t / 48)%R 7%Q 48%nat. kk K (3 * eps_t / 8)%R 18%Q 48%nat. kk K (-1 * eps_t / 48)%R (-(1))%Q 48%nat.
    rewrite build_table, suzuki_fold, build_mul, <- build_table. f_equal. f_equal. apply (malg_FTES4_suzuki z _ 48%nat). reflexivity.
Qed.

(** C35: one sample of every implemented discretization is the splitting of the specification, at z = lambda_to_z(lambda),
   up to the scalar factor exp(-i lambda deg tau/2) = exp(-i lambda eps_t/upsampling) (exp(-i lambda 7 eps_t/3) for the
   Suzuki splitting) that the phase factors of the discretization account for. *)
Theorem man_fscatter_is_splitting d us kappa (eps_t : R) (q1n q2n : C * C * C) (lam : C) :
  man_scheme_of d = Some us -> (Z.abs kappa = 1)%Z -> (0 < eps_t)%R -> man_exact d kappa eps_t q1n q2n ->
  exists ls, man_sample d kappa eps_t q1n q2n = Some ls /\
    man_step d kappa eps_t q1n q2n us lam
    = m3scal (Cexp (- Ci * lam * RtoC (INR (man_degree d) * man_tau d eps_t / 2))) (poly_mat3 ls (Cexp (Ci * lam * RtoC (man_tau d eps_t)))).
Proof.
  destruct us as [u s]. intros Hs Hk He Hx.
  destruct (man_sample_is_scheme d u s kappa eps_t q1n q2n (Cexp (Ci * lam * RtoC (man_tau d eps_t))) Hs Hk He Hx) as (ls & E & Hp).
  exists ls. split; [exact E|]. destruct q1n as [[a1 b1] e1], q2n as [[a2 b2] e2]. cbv zeta in Hp. rewrite Hp. clear Hp.
  destruct (man_schemes_ok d u s Hs) as (W1 & W2).
  unfold man_step, splitting3. cbn [fst snd]. rewrite (scheme_val3_diag (Z.of_nat (man_degree d)) lam _ (man_tau d eps_t) (tabA d)); [|exact W1|intros c w a Hw Ha; now apply (W2 c w a)].
  rewrite <- INR_IZR_INZ. destruct (is_ftes d); [|reflexivity]. now rewrite m3scal_mul_l, m3scal_mul_r.
Qed.
