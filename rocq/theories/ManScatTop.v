(** * Slow scattering for the Manakov equation: the whole routine (C84, C85) *)
From Coq Require Import Reals Lra Lia List ZArith.
From Coquelicot Require Import Coquelicot.
From Verif Require Import Base Loop Mem Fields ErrModel CExp CField CConj CDeriv CMean MiscNumModel MiscNumProps MiscMetricProps
  DiscTables DiscModel DiscProps FscatterSpec FscatterProof FscatterModel FscatterProps ScatterModel ScatterStep ScatterRun ScatterLoop ManFscSpec ManFscProof NsevModel
  ManScatSpec ManScatModel ManScatProof ManScatProps.
Import ListNotations.
Local Open Scope C_scope.

Lemma mm333 X Y : mm 3 3 3 (l9 X) (l9 Y) = Ret (l9 (m3mul X Y)).
Proof.
  destruct X as [x1 x2 x3 x4 x5 x6 x7 x8 x9], Y as [y1 y2 y3 y4 y5 y6 y7 y8 y9]. unfold l9. m3cbn.
  cbv -[Cplus Cmult RtoC IZR]. f_equal. leq; cring.
Qed.
Lemma eye3 : eye 3 = l9 m3one. Proof. reflexivity. Qed.
Lemma descending3_ext n M M' : (forall i, (i < n)%nat -> M i = M' i) -> descending3 n M = descending3 n M'.
Proof. induction n as [|n IH]; intros H; [reflexivity|]. cbn [descending3]. rewrite (H n) by lia. f_equal. apply IH. intros; apply H; lia. Qed.
Lemma m3det_mul X Y : m3det (m3mul X Y) = m3det X * m3det Y.
Proof. destruct X, Y. unfold m3det. m3cbn. ring. Qed.

(** the spectral parameter of the step: CF4_2 composes two exponentials of half the length in lambda *)
Definition step_lam (d : man_disc) (lam : C) : C := match d with M_CF4_2 => lam / 2 | _ => lam end.
(** A valid call *)
Record man_scat_valid (D : nat) (q1 q2 : list C) (eps_t : R) (kappa : Z) (K : nat) (lam res : list C) (d : man_disc) : Prop := {
  ms_D : (1 <= D)%nat; ms_q1 : (D <= length q1)%nat; ms_q2 : (D <= length q2)%nat; ms_eps : (0 < eps_t)%R; ms_K : (1 <= K)%nat;
  ms_lam : (K <= length lam)%nat; ms_res : (9 * K <= length res)%nat; ms_d : d = M_BO \/ d = M_CF4_2;
  ms_reg : forall i n, (i < K)%nat -> (n < D)%nat ->
    regular (step_lam d (nth i lam (RtoC 0))) kappa (nth n q1 (RtoC 0)) (nth n q2 (RtoC 0)) }.

Lemma man_loop_ok D q1 q2 eps_t kappa l : (D <= length q1)%nat -> (D <= length q2)%nat ->
  (forall n, (n < D)%nat -> regular l kappa (nthC q1 n) (nthC q2 n)) ->
  exists V : nat -> mat3, (forall n, (n < D)%nat -> man_U_BO (nthC q1 n) (nthC q2 n) l (RtoC eps_t) kappa = l9 (V n)) /\
    man_scat_loop D q1 q2 eps_t kappa l = Ret (l9 (descending3 D V)).
Proof.
  intros L1 L2 HR.
  destruct (finite_choice m3one (fun n V => man_U_BO (nthC q1 n) (nthC q2 n) l (RtoC eps_t) kappa = l9 V) D) as (V & HV).
  { intros n Hn. destruct (manakov_step_is_solution (nthC q1 n) (nthC q2 n) l (RtoC eps_t) kappa (HR n Hn)) as (V & E & _). now exists V. }
  exists V. split; [exact HV|]. unfold man_scat_loop.
  match goal with |- for_ ?n ?lo ?b ?s = _ => destruct (for_inv (fun k H => H = l9 (descending3 k V)) b n lo s) as (H & E & ->) end.
  - exact eye3.
  - intros n H Hn ->. rewrite !aget_nthC by lia. cbn [bind]. rewrite Nat.add_0_l in *. rewrite HV by lia. rewrite mm333. eexists. split; [reflexivity|reflexivity].
  - rewrite E. reflexivity.
Qed.

(** C84: for every lambda the block of the result is the transfer matrix U_(D-1)(h) ... U_0(h), where U_n is the fundamental
   solution of v' = P v with the n-th (constant) sample; C85: its determinant and, for real lambda, its isometry *)
Theorem manakov_scatter_matrix_product D q1 q2 eps_t kappa K lam res d : man_scat_valid D q1 q2 eps_t kappa K lam res d ->
  exists res', manakov_scatter_matrix D (Some q1) (Some q2) eps_t K (Some lam) kappa (Some res) d = Ret (SUCCESS, Some res') /\
    length res' = length res /\ (forall j, (9 * K <= j)%nat -> nth j res' (RtoC 0) = nth j res (RtoC 0)) /\
    forall i, (i < K)%nat -> let l := step_lam d (nth i lam (RtoC 0)) in
      exists S : mat3, (forall x y, (x < 3)%nat -> (y < 3)%nat -> nth (9 * i + 3 * x + y) res' (RtoC 0) = entry3 S x y) /\
        (forall U : nat -> C -> mat3, (forall n, (n < D)%nat -> fundamental3 (Pcut l kappa (nth n q1 (RtoC 0)) (nth n q2 (RtoC 0))) (U n)) ->
           S = descending3 D (fun n => U n (RtoC eps_t))) /\
        m3det S = Cexp (Ci * l * RtoC (INR D * eps_t)) /\
        ((kappa = 1 \/ kappa = -1)%Z -> snd l = 0%R -> isometric kappa S).
Proof.
  intros [HD L1 L2 He HK Ll Lr Hd HR]. unfold manakov_scatter_matrix.
  destruct (Nat.eqb_spec D 0) as [->|_]; [lia|]. destruct (Rlt_dec 0 eps_t); [|contradiction]. cbn [negb]. destruct (Nat.eqb_spec K 0) as [->|_]; [lia|].
  assert (F3 : Nat.eqb (man_upsampling_factor d) 0 = false) by (destruct Hd as [-> | ->]; reflexivity). rewrite F3. clear F3.
  unfold man_scat_all.
  pose (good := fun (r : list C) (i : nat) => exists V : nat -> mat3,
     (forall n, (n < D)%nat -> man_U_BO (nthC q1 n) (nthC q2 n) (step_lam d (nthC lam i)) (RtoC eps_t) kappa = l9 (V n)) /\
     forall x y, (x < 3)%nat -> (y < 3)%nat -> nthC r (9 * i + 3 * x + y) = entry3 (descending3 D V) x y).
  pose (P := fun (k : nat) (st : Z * list C) => exists r, st = (SUCCESS, r) /\ length r = length res /\
     (forall j, (9 * k <= j)%nat -> nthC r j = nthC res j) /\ forall i, (i < k)%nat -> good r i).
  match goal with |- exists _, (x <- for_ ?n ?lo ?b ?s ;; _) = _ /\ _ => destruct (for_inv P b n lo s) as (st & E & r1 & -> & Lr1 & O1 & G1) end.
  - exists res. split; [reflexivity|]. split; [reflexivity|]. split; [reflexivity|]. intros i Hi; lia.
  - intros i st Hi (r1 & -> & Lr1 & O1 & G1). rewrite ?Nat.add_0_l. change (negb (Z.eqb SUCCESS SUCCESS)) with false. cbn iota.
    rewrite aget_nthC by lia. cbn [bind].
    destruct (man_loop_ok D q1 q2 eps_t kappa (step_lam d (nthC lam i)) L1 L2) as (V & HV & EV).
    { intros n Hn. apply HR; lia. }
    destruct (wr_list_ok (l9 (descending3 D V)) (9 * i) r1) as (r2 & W2 & Lr2 & N2).
    { unfold l9. cbn [length]. lia. }
    exists (SUCCESS, r2). split.
    { destruct Hd as [-> | ->]; cbn [step_lam] in EV |- *; rewrite EV; cbn [bind]; rewrite W2; reflexivity. }
    exists r2. split; [reflexivity|]. split; [congruence|]. split.
    + intros j Hj. unfold nthC. rewrite N2. unfold l9 at 1. cbn [length].
      destruct (Nat.leb_spec (9 * i) j), (Nat.ltb_spec j (9 * i + 9)); cbn [andb]; try (apply O1; lia). exfalso. lia.
    + intros i' Hi'. destruct (Nat.eq_dec i' i) as [->|Ni].
      * exists V. split; [exact HV|]. intros x y Hx Hy. unfold nthC. rewrite N2. unfold l9 at 1. cbn [length].
        destruct (Nat.leb_spec (9 * i) (9 * i + 3 * x + y)), (Nat.ltb_spec (9 * i + 3 * x + y) (9 * i + 9)); cbn [andb]; try (exfalso; lia).
        replace (9 * i + 3 * x + y - 9 * i)%nat with (3 * x + y)%nat by lia.
        destruct x as [|[|[|x]]], y as [|[|[|y]]]; try (exfalso; lia); reflexivity.
      * destruct (G1 i') as (V' & HV' & B'); [lia|]. exists V'. split; [exact HV'|]. intros x y Hx Hy. rewrite <- B' by assumption.
        unfold nthC. rewrite N2. unfold l9 at 1. cbn [length].
        destruct (Nat.leb_spec (9 * i) (9 * i' + 3 * x + y)), (Nat.ltb_spec (9 * i' + 3 * x + y) (9 * i + 9)); cbn [andb]; try reflexivity. exfalso. lia.
  - rewrite E. cbn [bind]. exists r1. split; [reflexivity|]. split; [exact Lr1|]. split; [exact O1|].
    intros i Hi. destruct (G1 i) as (V & HV & B); [lia|]. fold (nthC lam i). cbv zeta. set (l := step_lam d (nthC lam i)) in *. exists (descending3 D V). split; [exact B|].
    assert (HR' : forall n, (n < D)%nat -> regular l kappa (nthC q1 n) (nthC q2 n)) by (intros n Hn; apply HR; lia).
    assert (K3 : forall n, (n < D)%nat -> (forall U, fundamental3 (Pcut l kappa (nthC q1 n) (nthC q2 n)) U -> V n = U (RtoC eps_t)) /\ m3det (V n) = Cexp (Ci * l * RtoC eps_t)).
    { intros n Hn. destruct (manakov_step_is_solution (nthC q1 n) (nthC q2 n) l (RtoC eps_t) kappa (HR' n Hn)) as (V' & E1 & _ & U1 & D1).
      assert (V' = V n) as <-; [|now split]. rewrite (HV n Hn) in E1. unfold l9 in E1. injection E1; intros. apply mat3_eq; congruence. }
    split; [|split].
    + intros U HU. apply descending3_ext. intros n Hn. apply K3; [exact Hn|]. now apply HU.
    + assert (G : forall k, (k <= D)%nat -> m3det (descending3 k V) = Cexp (Ci * l * RtoC (INR k * eps_t))).
      { induction k as [|k IH]; intros Hk.
        - cbn [descending3 INR]. rewrite Rmult_0_l, Cmult_0_r, Cexp_0. unfold m3det, m3one. m3cbn. ring.
        - cbn [descending3]. rewrite m3det_mul, IH by lia. destruct (K3 k) as [_ ->]; [lia|]. rewrite <- Cexp_plus. f_equal. rewrite S_INR.
          rewrite Rmult_plus_distr_r, RtoC_plus, Rmult_1_l. ring. }
      now apply G.
    + intros Hk Hl. assert (El : l = RtoC (fst l)) by (apply Ceq; [reflexivity|exact Hl]). clearbody l. rewrite El in *. set (lr := fst l) in *. clearbody lr.
      assert (G : forall k, (k <= D)%nat -> isometric kappa (descending3 k V)).
      { induction k as [|k IH]; intros Hk'; [apply isometric_one|]. cbn [descending3]. apply isometric_mul; [|apply IH; lia].
        apply (step_isometric (nthC q1 k) (nthC q2 k) lr eps_t); [exact Hk|apply HR'; lia|apply HV; lia]. }
      now apply G.
Qed.

(** the first column gives a and b: |a|^2 + kappa (|b1|^2 + |b2|^2) = 1 *)
Theorem isometric_first_column kappa S : isometric kappa S ->
  (Cmod (c11 S) * Cmod (c11 S) + IZR kappa * (Cmod (c21 S) * Cmod (c21 S) + Cmod (c31 S) * Cmod (c31 S)) = 1)%R.
Proof.
  unfold isometric. intros H. apply (f_equal c11) in H. unfold m3adj, J3 in H. cbn [c11 c21 c31 c12 c13 c22 c23 c32 c33 m3mul] in H.
  apply (f_equal fst) in H. rewrite !Cmod_sq. cbn in H. lra.
Qed.

(** ** Invalid arguments; fast discretizations are rejected; for these the result is untouched *)
Theorem manakov_scatter_matrix_rejects D q1 q2 eps_t K lam kappa res d :
  D = 0%nat \/ q1 = None \/ q2 = None \/ (eps_t <= 0)%R \/ K = 0%nat \/ lam = None \/ res = None \/ man_upsampling_factor d = 0%nat ->
  manakov_scatter_matrix D q1 q2 eps_t K lam kappa res d = Ret (EC_INVALID_ARGUMENT, res).
Proof.
  intros H. unfold manakov_scatter_matrix.
  destruct (Nat.eqb_spec D 0); [reflexivity|]. destruct q1 as [q1|]; [|reflexivity]. destruct q2 as [q2|]; [|reflexivity].
  destruct (Rlt_dec 0 eps_t); [|reflexivity]. cbn [negb]. destruct (Nat.eqb_spec K 0); [reflexivity|].
  destruct lam as [lam|]; [|reflexivity]. destruct res as [res|]; [|reflexivity]. destruct (Nat.eqb_spec (man_upsampling_factor d) 0) as [E|N]; [reflexivity|].
  exfalso. destruct H as [H|[H|[H|[H|[H|[H|[H|H]]]]]]]; try discriminate; try contradiction; lra.
Qed.
Theorem manakov_scatter_matrix_only_slow D q1 q2 eps_t K lam kappa res d : d <> M_BO -> d <> M_CF4_2 -> (K <= length lam)%nat ->
  exists code, manakov_scatter_matrix D (Some q1) (Some q2) eps_t K (Some lam) kappa (Some res) d = Ret (code, Some res) /\ code <> SUCCESS.
Proof.
  intros N1 N2 Ll. unfold manakov_scatter_matrix.
  assert (bad : EC_INVALID_ARGUMENT <> SUCCESS) by discriminate.
  destruct (Nat.eqb_spec D 0); [now eexists|]. destruct (Rlt_dec 0 eps_t); [|now eexists]. cbn [negb].
  destruct (Nat.eqb_spec K 0) as [|NK]; [now eexists|]. destruct (Nat.eqb_spec (man_upsampling_factor d) 0) as [|]; [now eexists|].
  unfold man_scat_all.
  set (P := fun (k : nat) (st : Z * list C) => st = (if Nat.eqb k 0 then SUCCESS else (-2)%Z, res)).
  match goal with |- exists _, (x <- for_ ?n ?lo ?b ?s ;; _) = _ /\ _ => destruct (for_inv P b n lo s) as (st & E & HP) end.
  - reflexivity.
  - intros k st Hk ->. rewrite ?Nat.add_0_l. destruct (Nat.eqb_spec k 0) as [->|Nk].
    + change (negb (Z.eqb SUCCESS SUCCESS)) with false. cbn iota. rewrite aget_nthC by lia. cbn [bind]. exists ((-2)%Z, res). split; [|reflexivity].
      destruct d; try contradiction; reflexivity.
    + exists ((-2)%Z, res). split; [reflexivity|]. unfold P. destruct (Nat.eqb_spec (S k) 0); [lia|reflexivity].
  - rewrite E. cbn [bind]. rewrite HP. rewrite Nat.add_0_l. destruct (Nat.eqb_spec K 0); [contradiction|]. exists (-2)%Z. split; [reflexivity|discriminate].
Qed.

(** ** Two cases in which the step is not the exponential.
   (a) lambda^2 + kappa |q|^2 = 0, for instance lambda = i |q| in the focusing case: x1 = 0, and the code divides by it (inf or NaN in C).
   The exponential exists: for q1 = 1, q2 = 0, lambda = i it is U below. *)
Definition Udeg (t : C) : mat3 := M3 (1 + t) t 0 (- t) (1 - t) 0 0 0 (Cexp (- t)).
Lemma Udeg_fundamental : fundamental3 (manakov_P Ci 1 1 0) Udeg.
Proof.
  assert (C0 : Cconj 0 = 0) by (apply Ceq; cbn; ring). assert (C1 : Cconj 1 = 1) by (apply Ceq; cbn; ring).
  split.
  - unfold Udeg. replace (- (0)) with (RtoC 0) by ring. rewrite Cexp_0. unfold m3one. f_equal; ring.
  - intros t i j Hi Hj.
    assert (G : Cderive (fun t => Cexp (- t)) t (- Cexp (- t))) by apply Cderive_exp_opp.
    assert (G1 : Cderive (fun t : C => 1 + t) t 1) by (eapply Cderive_eq; [apply Cderive_plus; [apply (Cderive_const 1)|apply Cderive_id]|ring]).
    assert (G2 : Cderive (fun t : C => 1 - t) t (- (1))) by (eapply Cderive_eq; [apply Cderive_minus; [apply (Cderive_const 1)|apply Cderive_id]|ring]).
    assert (G3 : Cderive (fun t : C => - t) t (- (1))) by (apply Cderive_opp, Cderive_id).
    unfold Udeg, manakov_P. rewrite C0, C1.
    destruct i as [|[|[|i]]]; try lia; destruct j as [|[|[|j]]]; try lia; cbn [entry3]; m3cbn;
      (eapply Cderive_eq; [first [apply (Cderive_const 0) | exact G | exact G1 | exact G2 | exact G3 | apply Cderive_id]|cbv beta; ring [Ci_sqr]]).
Qed.
Lemma one_not_tiny (q2 : C) : ~ tiny 1 q2.
Proof. intros [H _]. rewrite Cmod_1 in H. lra. Qed.
Theorem manakov_step_divides_by_zero_refuted :
  fundamental3 (manakov_P Ci 1 1 0) Udeg /\
  Csqrt (Ci * Ci + RtoC (IZR 1) * 1 * Cconj 1 + RtoC (IZR 1) * 0 * Cconj 0) = 0 /\
  exists V, man_U_BO 1 0 Ci 1 1 = l9 V /\ V <> Udeg 1.
Proof.
  assert (C1 : Cconj 1 = 1) by (apply Ceq; cbn; ring).
  split; [exact Udeg_fundamental|].
  assert (Z : Csqrt (Ci * Ci + RtoC (IZR 1) * 1 * Cconj 1 + RtoC (IZR 1) * 0 * Cconj 0) = 0).
  { apply root_0. rewrite Csqrt_sqr, C1. ring [Ci_sqr]. }
  split; [exact Z|].
  unfold man_U_BO. assert (Eb : (if Rlt_dec (Cmod 1) EPS then if Rlt_dec (Cmod 0) EPS then true else false else false) = false).
  { destruct (Rlt_dec (Cmod 1) EPS) as [H|]; [|reflexivity]. exfalso. rewrite Cmod_1, EPS_val in H. lra. }
  rewrite Eb. rewrite Z. cbv zeta.
  match goal with |- exists V, [?a; ?b; ?c; ?d; ?e; ?f; ?g; ?h; ?i] = l9 V /\ _ => exists (M3 a b c d e f g h i) end. split; [reflexivity|].
  intros H. apply (f_equal c12) in H. unfold Udeg in H. cbn [c12] in H. rewrite Cmult_0_r, Cmult_0_l, Csinh_0, Cmult_0_r in H. injection H. lra.
Qed.
(** (b) the threshold for vanishing samples does not depend on the step size: the sample q1 = 2^-53 over a step of length 2^52 pi
   rotates the first two components by a right angle, but the code returns the identity *)
Theorem manakov_step_threshold_refuted :
  exists (q1 : C) (h : R), q1 <> 0 /\ (0 < h)%R /\ man_U_BO q1 0 0 (RtoC h) 1 = l9 m3one /\
    exists U, fundamental3 (manakov_P 0 1 q1 0) U /\ c11 (U (RtoC h)) = 0 /\ c12 (U (RtoC h)) = 1.
Proof.
  set (a := (1 / 9007199254740992)%R). assert (Ha : (0 < a)%R) by (unfold a; lra).
  assert (Na : RtoC a <> 0) by (intros E; apply RtoC_inj in E; lra).
  exists (RtoC a), (PI / 2 / a)%R. split; [exact Na|]. split; [apply Rdiv_lt_0_compat; [pose proof PI_RGT_0; lra|exact Ha]|].
  split.
  - assert (T : tiny (RtoC a) 0).
    { unfold tiny. rewrite Cmod_0, Cmod_R, Rabs_pos_eq by lra. unfold a. lra. }
    rewrite step_tiny by exact T. f_equal. unfold Ediag. replace (- Ci * 0 * RtoC (PI / 2 / a)) with (RtoC 0) by ring. replace (Ci * 0 * RtoC (PI / 2 / a)) with (RtoC 0) by ring.
    rewrite Cexp_0. reflexivity.
  - assert (C0 : Cconj 0 = 0) by (apply Ceq; cbn; ring).
    assert (Hx : RtoC a * RtoC a = xs 0 1 (RtoC a) 0) by (unfold xs, kap; rewrite Cconj_R, C0; ring).
    exists (Ecode 0 1 (RtoC a) 0 (RtoC a)). split; [apply Ecode_fundamental; [now left|exact Hx|exact Na]|].
    assert (E : RtoC (PI / 2 / a) * RtoC a * Ci = Ci * RtoC (PI / 2)).
    { rewrite <- RtoC_mult. replace (PI / 2 / a * a)%R with (PI / 2)%R by (field; lra). ring. }
    assert (E1 : Cexp (Ci * RtoC (PI / 2)) = Ci).
    { unfold Cexp. replace (Ci * RtoC (PI / 2)) with ((0, PI / 2)%R : C) by (apply Ceq; cbn; ring). cbn [fst snd]. rewrite exp_0, cos_PI2, sin_PI2. apply Ceq; cbn; ring. }
    assert (Ec : Ccosh (Ci * RtoC (PI / 2)) = 0) by (unfold Ccosh; rewrite Cexp_opp, E1, Cinv_Ci; field).
    assert (Es : Csinh (Ci * RtoC (PI / 2)) = Ci) by (unfold Csinh; rewrite Cexp_opp, E1, Cinv_Ci; field).
    unfold Ecode, E3. cbv zeta. m3cbn. unfold cf, sf, ef. rewrite E, Ec, Es. split; [ring|]. field. split; [exact Ci_neq0|exact Na].
Qed.

(** ** A case that meets the hypotheses: two samples, one of them zero, two spectral parameters, focusing *)
Example manakov_valid_call (res : list C) : length res = 18%nat ->
  man_scat_valid 2 [RtoC 1; RtoC 0] [Ci; RtoC 0] (1 / 2) 1 2 [RtoC 3; Ci] res M_BO.
Proof.
  intros L. split; try (cbn; lia); try lra; try lia.
  - left; reflexivity.
  - intros i n Hi Hn. destruct n as [|[|n]]; try lia; cbn [nth].
    + right. assert (C1 : Cconj 1 = 1) by (apply Ceq; cbn; ring). assert (CI : Cconj Ci = - Ci) by (apply Ceq; cbn; ring). rewrite C1, CI.
      destruct i as [|[|i]]; try lia; cbn [nth step_lam]; intros E.
      * replace (3 * 3 + 1 * (1 * 1 + Ci * - Ci)) with (RtoC 11) in E by (ring [Ci_sqr]). apply RtoC_inj in E. lra.
      * replace (Ci * Ci + 1 * (1 * 1 + Ci * - Ci)) with (RtoC 1) in E by (ring [Ci_sqr]). apply RtoC_inj in E. lra.
    + left. unfold tiny. rewrite Cmod_0. lra.
Qed.
Example manakov_run (res : list C) : length res = 18%nat ->
  exists res', manakov_scatter_matrix 2 (Some [RtoC 1; RtoC 0]) (Some [Ci; RtoC 0]) (1 / 2) 2 (Some [RtoC 3; Ci]) 1 (Some res) M_BO = Ret (SUCCESS, Some res').
Proof. intros L. destruct (manakov_scatter_matrix_product _ _ _ _ _ _ _ _ _ (manakov_valid_call res L)) as (r & E & _). now exists r. Qed.

Print Assumptions manakov_step_is_solution.
Print Assumptions manakov_scatter_matrix_product.
Print Assumptions isometric_first_column.
Print Assumptions manakov_scatter_matrix_rejects.
Print Assumptions manakov_scatter_matrix_only_slow.
Print Assumptions manakov_step_divides_by_zero_refuted.
Print Assumptions manakov_step_threshold_refuted.
