(** * C104: time shift and zero padding for fnft_kdvv *)
From Coq Require Import Reals Lra List Lia.
From Coquelicot Require Import Coquelicot.
From Verif Require Import Loop CExp CConj CMean CField DiscTables DiscModel FscatterSpec FscatterProof ScatterSpec ScatterModel ScatterRun MatExp ScatterMatProps BoundProof
  NsevModel NsevSpec KdvvSpec KdvvModel NftSpec NsevLib NsevCsTop NsevEnergy KdvFast KdvCsTop KdvEnergy.
From Verif Require Import Symm Symm2 SymmTop ZeroPad TimeRev TimeRevTop.
From Verif Require Import KdvSymm.
Import ListNotations.
Local Open Scope C_scope.

Section KSym2.
Variable L : lib.
Variables (tiny : R) (below : R -> R).
Hypothesis HL : lib_ok L.

(** ** Moving the time window by tau leaves a unchanged and multiplies b by exp(-2 i xi tau), for every discretisation *)
Theorem kdvv_time_shift D q T M XI user dflt u cs d v (tau : R) :
  let o := match user with Some o => o | None => dflt end in
  kdvv_valid D (Some q) (Some T) M (Some XI) o u -> kdvv_readable D (Some q) M (Some XI) u -> (2 <= M)%nat ->
  u_cs u = Some cs -> (cs_values (k_cs o) * M <= length cs)%nat -> k_cs o <> CS_bad ->
  k_rich o <> 1%nat ->
  kdv_to_akns (k_disc o) = Some d -> kdv_vanilla_flag (k_disc o) = Some v -> ((3 <= D)%nat \/ akns_upsampling_factor d = 1%nat) ->
  (Z.of_nat (D * akns_upsampling_factor d) <= 2147483647)%Z ->
  exists p, kdv_preprocess (l_junk L) (l_junkR L) D (Some q) (spacing T D) D (k_disc o) = Ret (inr p) /\
  (akns_upsampling_factor d = 1%nat -> po_q p = q /\ po_r p = repeat (- (1))%C D) /\
  ((forall i, (i < M)%nat -> kdv_exact d v (weights d) (spacing T D) (nthC (po_q p)) (nthC (po_r p)) (D * akns_upsampling_factor d) (RtoC (grid_point XI M i))) ->
   krelated o M u (ksucceeds L tiny below D q T M XI user dflt u) (ksucceeds L tiny below D q (fst T + tau, snd T + tau)%R M XI user dflt u)
    (fun a1 b1 a2 b2 => forall i, (i < M)%nat -> a2 i = a1 i /\ b2 i = Cexp (- (2) * Ci * RtoC (grid_point XI M i) * RtoC tau) * b1 i)).
Proof.
  intros o V Rd HM Ecs Lcs Hct Hr Hd Hv H3 H31. set (T' := (fst T + tau, snd T + tau)%R).
  assert (Esp : spacing T' D = spacing T D) by (unfold spacing, T'; cbn [fst snd]; f_equal; ring).
  assert (V' : kdvv_valid D (Some q) (Some T') M (Some XI) o u).
  { destruct V as [V1 V2 V3 V4 V5 V6 V7 V8 V9]. constructor; try assumption.
    destruct V4 as (t0 & t1 & E & Ht). injection E as ->. exists (t0 + tau)%R, (t1 + tau)%R. split; [reflexivity|lra]. }
  destruct (kdvv_contspec_is_discrete_nft L tiny below HL D q T M XI user dflt u cs d v V Rd HM Ecs Lcs Hct Hr Hd Hv H3 H31) as (p & Ep & Hp & H).
  destruct (kdvv_contspec_is_discrete_nft L tiny below HL D q T' M XI user dflt u cs d v V' Rd HM Ecs Lcs Hct Hr Hd Hv H3 H31) as (p' & Ep' & _ & H').
  fold o in Ep, Ep', H, H'. exists p. split; [exact Ep|]. split; [exact Hp|]. intros Hx. rewrite Esp in Ep', H'. rewrite Ep in Ep'. injection Ep' as <-.
  cbv zeta in H, H'. specialize (H Hx). specialize (H' Hx). destruct H as [H1 _]. destruct H' as [H1' H2'].
  set (S := fun i => kdv_S d v (weights d) (spacing T D) (nthC (po_q p)) (nthC (po_r p)) (D * akns_upsampling_factor d) (RtoC (grid_point XI M i))) in *.
  set (xi := fun i => RtoC (grid_point XI M i)) in *.
  assert (Ea : forall i, nft_a_of (S i) T' (spacing T D) (xi i) = nft_a_of (S i) T (spacing T D) (xi i)).
  { intros i. unfold nft_a_of, T'. cbn [fst snd]. rewrite <- !Cmult_assoc, <- !Cexp_plus. f_equal. f_equal. unfold Rminus. rewrite !RtoC_plus. ring. }
  assert (Eb : forall i, nft_b_of (S i) T' (spacing T D) (xi i) = Cexp (- (2) * Ci * xi i * RtoC tau) * nft_b_of (S i) T (spacing T D) (xi i)).
  { intros i. unfold nft_b_of, T'. cbn [fst snd]. rewrite (Cmult_comm (Cexp (- (2) * Ci * xi i * RtoC tau))). rewrite <- !Cmult_assoc, <- !Cexp_plus. f_equal. f_equal. unfold Rminus. rewrite !RtoC_plus. ring. }
  split.
  - intros u1 u2 (x1 & y1 & R1) (x2 & y2 & R2). destruct (H1 u1 x1 y1 R1) as (cs1 & F1 & G1 & _). destruct (H1' u2 x2 y2 R2) as (cs2 & F2 & G2 & _).
    exists cs1, cs2, (fun i => nft_a_of (S i) T (spacing T D) (xi i)), (fun i => nft_b_of (S i) T (spacing T D) (xi i)),
      (fun i => nft_a_of (S i) T' (spacing T D) (xi i)), (fun i => nft_b_of (S i) T' (spacing T D) (xi i)).
    do 4 (split; [assumption|]). intros i Hi. split; [apply Ea|apply Eb].
  - intros N (u1 & x1 & y1 & R1). destruct (H1 u1 x1 y1 R1) as (cs1 & F1 & G1 & _). destruct (H2' N) as (u2 & x2 & y2 & R2).
    + destruct (spectrum_nz _ _ _ _ _ G1) as [E|E]; [left; exact E|right]. intros i Hi. specialize (E i Hi). cbv beta in E.
      change (nft_a_of (S i) T' (spacing T D) (xi i) <> 0). now rewrite Ea.
    + exists u2, x2, y2. exact R2.
Qed.

(** ** The steps of zero samples in the basis S *)
Lemma mexp_intertwine X Y P : mdet X = mdet Y -> mmul X P = mmul P Y -> mmul (mexp X) P = mmul P (mexp Y).
Proof.
  intros Ed E. unfold mexp. rewrite Ed. unfold mexp_at. set (s := if Ceq_dec _ _ then _ else _). set (c := Ccosh _).
  transitivity (madd (mscal c P) (mscal s (mmul X P))); [|rewrite E]; apply mat2_eq; cbn [a11 a12 a21 a22 mmul madd mscal mone]; ring.
Qed.
Lemma based_mul v lam X Y : mdet (basisP PDE_KdV v lam) <> 0 -> based PDE_KdV v lam (mmul X Y) = mmul (based PDE_KdV v lam X) (based PDE_KdV v lam Y).
Proof.
  intros N. destruct (mmul_minv _ N) as [I1 _]. unfold based. set (P := basisP PDE_KdV v lam) in *. rewrite !mmul_assoc. f_equal.
  rewrite <- (mmul_assoc _ P (minv P)), I1, mmul_one_r. reflexivity.
Qed.
Lemma based_zero_step (v : bool) (h l : R) : l <> 0%R ->
  based PDE_KdV v (RtoC l) (one_step A_BO h (if v then 0 else - (1)) (if v then - (1) else 0) (RtoC l)) = expA (RtoC l) h.
Proof.
  intros Nl. pose proof (minv_det_ok v l Nl) as N. destruct (mmul_minv _ N) as [_ I2]. cbn [one_step]. unfold based.
  assert (E : mmul (mexp (X_BO (RtoC h) (RtoC l) (if v then 0 else - (1)) (if v then - (1) else 0))) (basisP PDE_KdV v (RtoC l)) = mmul (basisP PDE_KdV v (RtoC l)) (mexp (mscal (RtoC h) (akns_A (RtoC l) 0 0)))).
  { apply mexp_intertwine; unfold X_BO, mdet; destruct v; try (apply mat2_eq); cbn [basisP a11 a12 a21 a22 mmul mscal akns_A]; ring. }
  rewrite E, mmul_assoc, I2, mmul_one_l. symmetry. apply expA_mexp.
Qed.
Lemma based_zero_steps (v : bool) (h l : R) n M : l <> 0%R -> (forall j, (j < n)%nat -> M j = one_step A_BO h (if v then 0 else - (1)) (if v then - (1) else 0) (RtoC l)) ->
  based PDE_KdV v (RtoC l) (descending n M) = expA (RtoC l) (INR n * h).
Proof.
  intros Nl. pose proof (minv_det_ok v l Nl) as N. induction n as [|n IH]; intros E; cbn [descending].
  - rewrite Rmult_0_l, expA_time0. unfold based. rewrite mmul_one_l. apply (mmul_minv _ N).
  - rewrite based_mul, IH, E, based_zero_step, expA_mul by auto. rewrite S_INR. f_equal. ring.
Qed.

(** ** Zero padding, for the method that computes the exponential of each step (Boffetta-Osborne), at frequencies where the steps of
   the zero samples are computed exactly *)
Theorem kdvv_zero_padding D q T M XI user dflt u cs v m n :
  let o := match user with Some o => o | None => dflt end in
  kcs_call D q T M XI o u cs A_BO v -> (Z.of_nat (m + (D + n)) <= 2147483647)%Z ->
  (forall i, (i < M)%nat -> (1 / 100000000 <= Rabs (spacing T D * grid_point XI M i))%R) ->
  krelated o M u (ksucceeds L tiny below D q T M XI user dflt u)
    (ksucceeds L tiny below (m + (D + n)) (zero_padded m n q) (fst T - INR m * spacing T D, snd T + INR n * spacing T D)%R M XI user dflt u)
    (fun a1 b1 a2 b2 => forall i, (i < M)%nat -> a2 i = a1 i /\ b2 i = b1 i).
Proof.
  intros o Hc HZ HBO. set (h := spacing T D) in *. set (T' := (fst T - INR m * h, snd T + INR n * h)%R). set (D' := (m + (D + n))%nat). set (q' := zero_padded m n q).
  pose proof (klen _ _ _ _ _ _ _ _ _ _ Hc) as Lq. pose proof (kspacing _ _ _ _ _ _ _ _ _ _ Hc) as He. fold h in He. pose proof (grid_nz _ _ _ _ _ _ _ _ _ _ Hc) as Hnz.
  pose proof (vk_D _ _ _ _ _ _ _ (kc_valid _ _ _ _ _ _ _ _ _ _ Hc)) as V1.
  assert (Esp : spacing T' D' = h).
  { assert (P1 : (2 <= INR D)%R) by (apply (le_INR 2); exact V1). pose proof (pos_INR m). pose proof (pos_INR n).
    assert (ET : (snd T - fst T = h * (INR D - 1))%R) by (unfold h, spacing; rewrite minus_INR by lia; cbn [INR]; field; lra).
    unfold spacing, T'. cbn [fst snd]. replace (snd T + INR n * h - (fst T - INR m * h))%R with (snd T - fst T + (INR n + INR m) * h)%R by ring. rewrite ET.
    replace (INR (D' - 1)) with (INR m + INR D + INR n - 1)%R; [field; lra|]. unfold D'. rewrite minus_INR by lia. rewrite !plus_INR. cbn [INR]. ring. }
  assert (Lq' : length q' = D') by (unfold q', zero_padded, D'; rewrite !app_length, !repeat_length; lia).
  assert (Eq : forall j, (j < D')%nat -> ((j < m)%nat \/ (m + D <= j)%nat -> nthC q' j = 0) /\ ((m <= j)%nat -> (j < m + D)%nat -> nthC q' j = nthC q (j - m))).
  { intros j Hj. unfold q'. rewrite !nth_padded, Lq. split; intros A.
    - replace ((m <=? j) && (j <? m + D))%nat with false; [reflexivity|]. symmetry. apply Bool.andb_false_iff.
      destruct A as [A|A]; [left; apply Nat.leb_gt; exact A|right; apply Nat.ltb_ge; exact A].
    - intros B. replace ((m <=? j) && (j <? m + D))%nat with true; [reflexivity|symmetry; apply andb_true_intro; split; [now apply Nat.leb_le|now apply Nat.ltb_lt]]. }
  set (m1 := repeat (- (1)) D : list C). set (m1' := repeat (- (1)) D' : list C).
  assert (Dext : forall k (F G : nat -> mat2), (forall j, (j < k)%nat -> F j = G j) -> descending k F = descending k G).
  { induction k as [|k IH]; intros F G E; cbn [descending]; [reflexivity|]. rewrite E, (IH F G) by auto. reflexivity. }
  assert (G : forall l : R, l <> 0%R -> KSof A_BO v T' D' q' (RtoC l) = mmul (expA (RtoC l) (INR n * h)) (mmul (KSof A_BO v T D q (RtoC l)) (expA (RtoC l) (INR m * h)))).
  { intros l Nl. pose proof (minv_det_ok v l Nl) as N. unfold KSof, kdv_S. fold m1. fold m1'. rewrite Esp, !scattering_steps by reflexivity. fold h. unfold D' at 1. rewrite !descending_add, !based_mul, <- mmul_assoc by exact N. f_equal; [|f_equal].
    - apply based_zero_steps; [exact Nl|]. intros j Hj. destruct (Eq (m + (D + j))%nat) as [E _]; [unfold D'; lia|]. specialize (E ltac:(right; lia)).
      assert (E2 : nthC m1' (m + (D + j)) = - (1)) by (apply nth_m1; unfold D'; lia). destruct v; now rewrite E, E2.
    - f_equal. apply Dext. intros j Hj. destruct (Eq (m + j)%nat) as [_ E]; [unfold D'; lia|]. specialize (E ltac:(lia) ltac:(lia)). replace (m + j - m)%nat with j in E by lia.
      assert (E2 : nthC m1' (m + j) = nthC m1 j) by (unfold m1, m1'; rewrite !nth_m1 by (unfold D'; lia); reflexivity). destruct v; now rewrite E, E2.
    - apply based_zero_steps; [exact Nl|]. intros j Hj. destruct (Eq j) as [E _]; [unfold D'; lia|]. specialize (E ltac:(left; lia)).
      assert (E2 : nthC m1' j = - (1)) by (apply nth_m1; unfold D'; lia). destruct v; now rewrite E, E2. }
  assert (Ha : forall l : R, l <> 0%R -> nft_a_of (KSof A_BO v T' D' q' (RtoC l)) T' h (RtoC l) = nft_a_of (KSof A_BO v T D q (RtoC l)) T h (RtoC l)).
  { intros l Nl. rewrite G by exact Nl. unfold nft_a_of, expA, T'. cbn [a11 a12 a21 a22 mmul fst snd]. set (x := a11 _).
    rewrite !Cmult_0_l, !Cmult_0_r, !Cplus_0_r.
    match goal with |- ?e1 * (x * ?e2) * ?e3 * ?e4 = _ => transitivity (x * (e1 * e2 * e3 * e4)); [ring|] end.
    rewrite <- !Cmult_assoc, <- !Cexp_plus. do 2 f_equal. unfold Rminus. rewrite !RtoC_plus, !RtoC_opp, !RtoC_mult. ring. }
  assert (Hb : forall l : R, l <> 0%R -> nft_b_of (KSof A_BO v T' D' q' (RtoC l)) T' h (RtoC l) = nft_b_of (KSof A_BO v T D q (RtoC l)) T h (RtoC l)).
  { intros l Nl. rewrite G by exact Nl. unfold nft_b_of, expA, T'. cbn [a11 a12 a21 a22 mmul fst snd]. set (x := a21 (KSof _ _ _ _ _ _)).
    rewrite !Cmult_0_l, !Cmult_0_r, !Cplus_0_r, !Cplus_0_l.
    match goal with |- ?e1 * (x * ?e2) * ?e3 * ?e4 = _ => transitivity (x * (e1 * e2 * e3 * e4)); [ring|] end.
    rewrite <- !Cmult_assoc, <- !Cexp_plus. do 2 f_equal. unfold Rminus. rewrite !RtoC_plus, !RtoC_opp, !RtoC_mult. ring. }
  eapply (kcall_pair L tiny below HL); [exact Hc| | |].
  - destruct (kc_order _ _ _ _ _ _ _ _ _ _ Hc) as [O1 O2]. pose proof (kreal _ _ _ _ _ _ _ _ _ _ Hc) as Hre. destruct Hc as [V Rd HM Ecs Lcs Hct Hr Hd Hv Hu Hint Hx]. constructor; try assumption.
    + assert (Vr : forall i x, (i < D')%nat -> nth_error q' i = Some x -> snd x = 0%R).
      { intros i x Hi E. rewrite <- (nth_error_nth _ _ (RtoC 0) E). change (snd (nthC q' i) = 0%R). destruct (Eq i Hi) as [Ez Es].
        destruct (Nat.lt_ge_cases i m) as [A|A]; [now rewrite (Ez (or_introl A))|]. destruct (Nat.lt_ge_cases i (m + D)) as [B|B]; [|now rewrite (Ez (or_intror B))].
        rewrite (Es A B). destruct (Hre (i - m)%nat ltac:(lia)) as [y ->]. reflexivity. }
      destruct V as [W1 W2 W3 W4 W5 W6 W7 W8 W9]. constructor; try assumption; [unfold D'; lia|discriminate| |].
      * intros l i x E Hi Eex. injection E as <-. exact (Vr i x Hi Eex).
      * exists (fst T')%R, (snd T')%R. split; [reflexivity|]. unfold T'. cbn [fst snd].
        pose proof (Rmult_le_pos _ _ (pos_INR m) (Rlt_le _ _ He)). pose proof (Rmult_le_pos _ _ (pos_INR n) (Rlt_le _ _ He)). lra.
    + destruct Rd as [R1 R2 R3]. constructor; try assumption. intros l E. injection E as <-. exact Lq'.
    + intros i Hi. specialize (Hx i Hi). unfold kdv_exact, scattering_exact in *. fold m1 in Hx. fold m1'. rewrite Esp. fold h in Hx. cbn [akns_degree slow_steps] in *. intros j Hj. destruct (Eq j Hj) as [Ez Es].
      assert (EX : forall q r j lam, step_core A_BO (weights A_BO) (RtoC h) q r j lam = X_BO (RtoC h) lam (q j) (r j)).
      { intros. unfold step_core. assert (EW : weights A_BO = [RtoC 1]) by reflexivity. rewrite EW. change (length [RtoC 1]) with 1%nat. rewrite Nat.mod_1_r. cbn [nth]. f_equal. ring. }
      split; [|exact I]. rewrite EX. set (y := grid_point XI M i) in *. assert (E2 : nthC m1' j = - (1)) by (apply nth_m1; exact Hj).
      assert (Z0 : nthC q' j = 0 -> sinc_exact (X_BO (RtoC h) (RtoC y) ((if v then nthC q' else nthC m1') j) ((if v then nthC m1' else nthC q') j))).
      { intros E0. assert (Em : mdet (X_BO (RtoC h) (RtoC y) ((if v then nthC q' else nthC m1') j) ((if v then nthC m1' else nthC q') j)) = RtoC (h * y * (h * y))).
        { destruct v; rewrite E0, E2; unfold mdet, X_BO, mscal, akns_A; cbn [a11 a12 a21 a22]; rewrite !RtoC_mult; apply Ceq; cbn; ring. }
        unfold sinc_exact; rewrite Em. right. pose proof (HBO i Hi) as Y. fold y in Y.
        rewrite Cmod_R, Rabs_mult. generalize dependent (Rabs (h * y)). clear. intros z Hz.
        replace (1 / 10000000000000000)%R with (1 / 100000000 * (1 / 100000000))%R by field. apply Rmult_le_compat; lra. }
      destruct (Nat.lt_ge_cases j m) as [A|A]; [|destruct (Nat.lt_ge_cases j (m + D)) as [B|B]].
      { exact (Z0 (Ez (or_introl A))). }
      { destruct (Hx (j - m)%nat) as [K _]; [lia|]. rewrite EX in K. assert (E1 : nthC m1 (j - m) = - (1)) by (apply nth_m1; lia). destruct v; rewrite (Es A B), E2; rewrite E1 in K; exact K. }
      { exact (Z0 (Ez (or_intror B))). }
  - intros i Hi. fold h. rewrite Esp. split; [apply Ha|apply Hb]; now apply Hnz.
  - right. intros i Hi. exists i. split; [exact Hi|]. cbv beta. fold h. rewrite Esp, Ha; auto.
Qed.
End KSym2.
