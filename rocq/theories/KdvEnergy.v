(** * Conservation law for the continuous spectrum returned by fnft_kdvv (C92) *)
From Coq Require Import Reals Lra.
From Coquelicot Require Import Coquelicot.
From Verif Require Import Loop CExp CField CConj DiscTables DiscModel DiscProps DiscPreProps DiscPreNse FscatterSpec FscatterProof FscatterProps ScatterSpec MatExp ScatterStep ScatterModel ScatterRun ScatterProps ScatterMatProps ScatterNse
  NsevSpec KdvvSpec NftSpec NsevFast NsevLib NsevCsTop NsevEnergy.
From Verif Require Import KdvFast KdvCsTop.
Local Open Scope C_scope.

(** ** The real structure: complex conjugation of the solutions of the Schroedinger equation, in the coordinates of the method *)
Definition mconj (X : mat2) : mat2 := M2 (Cconj (a11 X)) (Cconj (a12 X)) (Cconj (a21 X)) (Cconj (a22 X)).
Definition Kv (v : bool) (l : R) : mat2 := if v then M2 1 (2 * Ci * RtoC l) 0 1 else M2 1 0 (- (2) * Ci * RtoC l) 1.
Definition fixed (v : bool) (l : R) (X : mat2) : Prop := mmul (Kv v l) (mconj X) = mmul X (Kv v l).
Lemma conj_Ci : Cconj Ci = - Ci. Proof. apply Ceq; cbn; ring. Qed.
Lemma mconj_mul X Y : mconj (mmul X Y) = mmul (mconj X) (mconj Y).
Proof. apply mat2_eq; cbn [a11 a12 a21 a22 mmul mconj]; now rewrite Cplus_conj, !Cmult_conj. Qed.
Lemma mconj_add X Y : mconj (madd X Y) = madd (mconj X) (mconj Y).
Proof. apply mat2_eq; cbn [a11 a12 a21 a22 madd mconj]; now rewrite Cplus_conj. Qed.
Lemma mconj_scal c X : Cconj c = c -> mconj (mscal c X) = mscal c (mconj X).
Proof. intros H. apply mat2_eq; cbn [a11 a12 a21 a22 mscal mconj]; now rewrite Cmult_conj, H. Qed.
Lemma mconj_one : mconj mone = mone.
Proof. apply mat2_eq; cbn [a11 a12 a21 a22 mone mconj]; apply Cconj_R. Qed.
Section Fix.
Variables (v : bool) (l : R).
Lemma fx_mul X Y : fixed v l X -> fixed v l Y -> fixed v l (mmul X Y).
Proof. unfold fixed. intros HX HY. now rewrite mconj_mul, mmul_assoc, HX, <- mmul_assoc, HY, mmul_assoc. Qed.
Lemma fx_add X Y : fixed v l X -> fixed v l Y -> fixed v l (madd X Y).
Proof.
  unfold fixed. intros HX HY. rewrite mconj_add. assert (D1 : forall A B C0, mmul A (madd B C0) = madd (mmul A B) (mmul A C0)) by (intros; apply mat2_eq; cbn [a11 a12 a21 a22 mmul madd]; ring).
  assert (D2 : forall A B C0, mmul (madd B C0) A = madd (mmul B A) (mmul C0 A)) by (intros; apply mat2_eq; cbn [a11 a12 a21 a22 mmul madd]; ring).
  now rewrite D1, D2, HX, HY.
Qed.
Lemma fx_scal c X : Cconj c = c -> fixed v l X -> fixed v l (mscal c X).
Proof. unfold fixed. intros Hc HX. rewrite mconj_scal by exact Hc. now rewrite mscal_mul_l, mscal_mul_r, HX. Qed.
Lemma fx_one : fixed v l mone.
Proof. unfold fixed. now rewrite mconj_one, mmul_one_l, mmul_one_r. Qed.
Lemma fx_comm X Y : fixed v l X -> fixed v l Y -> fixed v l (mcomm X Y).
Proof. intros HX HY. unfold mcomm, mopp. apply fx_add; [now apply fx_mul|]. apply fx_scal; [rewrite Cconj_opp, Cconj_R; reflexivity|now apply fx_mul]. Qed.
Lemma Kv_det : mdet (Kv v l) = 1.
Proof. unfold mdet, Kv. destruct v; cbn [a11 a12 a21 a22]; ring. Qed.
Lemma mdet_conj X : mdet (mconj X) = Cconj (mdet X).
Proof. unfold mdet, mconj. cbn [a11 a12 a21 a22]. now rewrite Cconj_minus, !Cmult_conj. Qed.
Lemma fx_exp X : fixed v l X -> fixed v l (mexp X).
Proof.
  intros HX. assert (Hd : Cconj (mdet X) = mdet X). { pose proof (f_equal mdet HX) as H. rewrite !mdet_mul, Kv_det, mdet_conj in H. transitivity (1 * Cconj (mdet X)); [ring|]. rewrite H. ring. }
  destruct (mexp_real X (fst (mdet X))) as (c & s & ->); [now apply conj_real|].
  apply fx_add; (apply fx_scal; [apply Cconj_R|]); [apply fx_one|exact HX].
Qed.
Lemma fx_descending n M : (forall i, (i < n)%nat -> fixed v l (M i)) -> fixed v l (descending n M).
Proof. induction n as [|n IH]; intros H; cbn [descending]; [apply fx_one|]. apply fx_mul; [apply H; lia|apply IH; intros i Hi; apply H; lia]. Qed.
Lemma fx_A (q : C) : Cconj q = q -> fixed v l (akns_A (RtoC l) (if v then q else - (1)) (if v then - (1) else q)).
Proof.
  intros Hq. unfold fixed, Kv, akns_A. destruct v; apply mat2_eq; cbn [a11 a12 a21 a22 mmul mconj];
  rewrite ?Cmult_conj, ?Cconj_opp, ?Cmult_conj, ?conj_Ci, ?Cconj_R, ?Hq; ring.
Qed.
Lemma fx_offd (q : C) : Cconj q = q -> fixed v l (offd (if v then q else 0) (if v then 0 else q)).
Proof. intros Hq. unfold fixed, Kv, offd. destruct v; apply mat2_eq; cbn [a11 a12 a21 a22 mmul mconj]; rewrite ?Cconj_R, ?Hq; ring. Qed.

(** samples: q real, r = -1, with derivative 0 *)
Definition kdv_r (d : akns_disc) (i : nat) : C := if match d with A_ES4 | A_TES4 => negb (i mod 3 =? 0)%nat | _ => false end then RtoC 0 else - (1).
Lemma fixed_step d (h : R) (q r : nat -> C) n j : symmetric_method d -> multiple3 d n ->
  (forall i, (i < n)%nat -> Cconj (q i) = q i) -> (forall i, (i < n)%nat -> r i = kdv_r d i) -> (j < slow_steps d n)%nat ->
  fixed v l (slow_step d (weights d) (RtoC h) (if v then q else r) (if v then r else q) j (RtoC l)).
Proof.
  intros Hd Hm Hq Hr Hj. unfold slow_step.
  assert (BO : forall (w : C) i, Cconj w = w -> (i < n)%nat -> r i = - (1) -> fixed v l (X_BO (w * RtoC h) (RtoC l) ((if v then q else r) i) ((if v then r else q) i))).
  { intros w i Hw Hi Ri. unfold X_BO. apply fx_scal; [now rewrite Cmult_conj, Hw, Cconj_R|]. pose proof (fx_A (q i) (Hq i Hi)) as H. destruct v; rewrite Ri; exact H. }
  assert (BA : forall i, (i < n)%nat -> r i = - (1) -> fixed v l (akns_A (RtoC l) ((if v then q else r) i) ((if v then r else q) i))).
  { intros i Hi Ri. pose proof (fx_A (q i) (Hq i Hi)) as H. destruct v; rewrite Ri; exact H. }
  assert (OF : forall i, (i < n)%nat -> r i = 0 -> fixed v l (offd ((if v then q else r) i) ((if v then r else q) i))).
  { intros i Hi Ri. pose proof (fx_offd (q i) (Hq i Hi)) as H. destruct v; rewrite Ri; exact H. }
  assert (R1 : forall i, (i < n)%nat -> match d with A_ES4 | A_TES4 => False | _ => True end -> r i = - (1)) by (intros i Hi Hd'; rewrite Hr by exact Hi; unfold kdv_r; destruct d; tauto).
  destruct Hd as [->|[->|[->|[->| ->]]]]; cbn [step_outer step_core slow_steps multiple3 sandwich] in *.
  - apply fx_exp, BO; [apply weights_real; now left|exact Hj|now apply R1].
  - apply fx_exp, BO; [apply weights_real; right; now left|exact Hj|now apply R1].
  - apply fx_exp, BO; [apply weights_real; right; right; now left|exact Hj|now apply R1].
  - assert (HiD : (3 * j + 2 < n)%nat) by (pose proof (Nat.div_mod n 3); lia).
    assert (M0 : ((3 * j) mod 3 = 0 /\ (3 * j + 1) mod 3 = 1 /\ (3 * j + 2) mod 3 = 2)%nat).
    { rewrite (Nat.mul_comm 3 j). repeat split; [apply Nat.mod_mul; lia| |]; rewrite Nat.add_comm, Nat.mod_add by lia; reflexivity. } destruct M0 as (M0 & M1 & M2').
    assert (Z0 : r (3 * j)%nat = - (1)) by (rewrite Hr by lia; unfold kdv_r; rewrite M0; reflexivity).
    assert (Z1 : r (3 * j + 1)%nat = 0) by (rewrite Hr by lia; unfold kdv_r; rewrite M1; reflexivity).
    assert (Z2 : r (3 * j + 2)%nat = 0) by (rewrite Hr by lia; unfold kdv_r; rewrite M2'; reflexivity).
    apply fx_exp. unfold X_ES4. apply fx_add; [apply fx_scal; [apply Cconj_R|apply BA; [lia|exact Z0]]|].
    apply fx_add; (apply fx_scal; [rewrite <- !RtoC_mult; apply conj_div_R|]); [apply OF; [lia|exact Z2]|].
    apply fx_comm; [apply OF; [lia|exact Z1]|apply BA; [lia|exact Z0]].
  - assert (HiD : (3 * j + 2 < n)%nat) by (pose proof (Nat.div_mod n 3); lia).
    assert (M0 : ((3 * j) mod 3 = 0 /\ (3 * j + 1) mod 3 = 1 /\ (3 * j + 2) mod 3 = 2)%nat).
    { rewrite (Nat.mul_comm 3 j). repeat split; [apply Nat.mod_mul; lia| |]; rewrite Nat.add_comm, Nat.mod_add by lia; reflexivity. } destruct M0 as (M0 & M1 & M2').
    assert (Z0 : r (3 * j)%nat = - (1)) by (rewrite Hr by lia; unfold kdv_r; rewrite M0; reflexivity).
    assert (Z1 : r (3 * j + 1)%nat = 0) by (rewrite Hr by lia; unfold kdv_r; rewrite M1; reflexivity).
    assert (Z2 : r (3 * j + 2)%nat = 0) by (rewrite Hr by lia; unfold kdv_r; rewrite M2'; reflexivity).
    assert (T : forall s : C, Cconj s = s -> fixed v l (X_TES4 s (RtoC h) ((if v then q else r) (3 * j + 1)%nat) ((if v then q else r) (3 * j + 2)%nat) ((if v then r else q) (3 * j + 1)%nat) ((if v then r else q) (3 * j + 2)%nat))).
    { intros s Hs. unfold X_TES4. apply fx_add; apply fx_scal.
      - rewrite <- !RtoC_mult. apply conj_div_R.
      - apply OF; [lia|exact Z2].
      - rewrite Cmult_conj, Hs. rewrite <- !RtoC_mult, conj_div_R. reflexivity.
      - apply OF; [lia|exact Z1]. }
    apply fx_mul; [|apply fx_mul].
    + apply fx_exp, T, Cconj_R.
    + apply fx_exp. unfold X_BO. apply fx_scal; [apply Cconj_R|apply BA; [lia|exact Z0]].
    + apply fx_exp, T. rewrite Cconj_opp, Cconj_R. reflexivity.
Qed.
End Fix.
Lemma minv_det_ok v (l : R) : l <> 0%R -> mdet (basisP PDE_KdV v (RtoC l)) <> 0.
Proof.
  intros Hl. assert (N : RtoC l <> 0) by (intros E; apply RtoC_inj in E; contradiction).
  unfold mdet. destruct v; cbn [basisP a11 a12 a21 a22]; intros E.
  - apply N. assert (H : 2 * Ci * RtoC l = 0) by (rewrite <- E; ring). apply (f_equal snd) in H. cbn in H. apply Ceq; cbn; lra.
  - apply N. assert (H : 2 * Ci * RtoC l = 0) by (transitivity (- (1 * (- (2) * Ci * RtoC l) - 1 * 0)); [ring|rewrite E; ring]). apply (f_equal snd) in H. cbn in H. apply Ceq; cbn; lra.
Qed.
Lemma mmul_minv X : mdet X <> 0 -> mmul X (minv X) = mone /\ mmul (minv X) X = mone.
Proof. intros N. unfold minv, mdet in *. split; apply mat2_eq; cbn [a11 a12 a21 a22 mmul mscal mone]; field; exact N. Qed.
Definition swap2 : mat2 := M2 0 1 1 0.
Lemma Kv_basis v l : mmul (Kv v l) (mconj (basisP PDE_KdV v (RtoC l))) = mmul (basisP PDE_KdV v (RtoC l)) swap2.
Proof.
  unfold Kv, swap2. destruct v; apply mat2_eq; cbn [basisP a11 a12 a21 a22 mmul mconj];
  rewrite ?Cmult_conj, ?Cconj_opp, ?Cmult_conj, ?conj_Ci, ?Cconj_R; ring.
Qed.
Lemma fixed_based v l X : l <> 0%R -> fixed v l X -> let B := based PDE_KdV v (RtoC l) X in a22 B = Cconj (a11 B) /\ a12 B = Cconj (a21 B) /\ mdet B = mdet X.
Proof.
  intros Hl HX B. set (P := basisP PDE_KdV v (RtoC l)) in *. pose proof (minv_det_ok v l Hl) as Nd. fold P in Nd.
  destruct (mmul_minv P Nd) as [I1 I2].
  assert (PB : mmul P B = mmul X P) by (unfold B, based; fold P; now rewrite mmul_assoc, I1, mmul_one_l).
  assert (E : mmul swap2 (mconj B) = mmul B swap2).
  { assert (E1 : mmul (mmul (Kv v l) (mconj P)) (mconj B) = mmul P (mmul B swap2)).
    { rewrite <- mmul_assoc, <- mconj_mul, PB, mconj_mul, mmul_assoc, HX, <- mmul_assoc. unfold P at 1. rewrite Kv_basis. fold P. now rewrite mmul_assoc, <- PB, <- mmul_assoc. }
    unfold P at 1 in E1. rewrite Kv_basis in E1. fold P in E1.
    transitivity (mmul (minv P) (mmul (mmul P swap2) (mconj B))); [now rewrite !mmul_assoc, I2, mmul_one_l|]. rewrite E1, mmul_assoc, I2. apply mmul_one_l. }
  pose proof (f_equal a11 E) as E11. pose proof (f_equal a12 E) as E12. unfold swap2 in E11, E12. cbn [a11 a12 a21 a22 mmul mconj] in E11, E12.
  split; [|split].
  - pose proof (f_equal a21 E) as E21. unfold swap2 in E21. cbn [a11 a12 a21 a22 mmul mconj] in E21. transitivity (a21 B * 0 + a22 B * 1); [ring|]. rewrite <- E21. ring.
  - transitivity (a11 B * 0 + a12 B * 1); [ring|]. rewrite <- E11. ring.
  - pose proof (f_equal mdet PB) as H. rewrite !mdet_mul in H. apply (Cmult_eq_reg_l (mdet P)); [|exact Nd]. rewrite H. ring.
Qed.
Lemma kdv_energy d v (eps : R) (q r : nat -> C) n (l : R) : symmetric_method d -> multiple3 d n -> l <> 0%R ->
  (forall i, (i < n)%nat -> Cconj (q i) = q i) -> (forall i, (i < n)%nat -> r i = kdv_r d i) ->
  let S := kdv_S d v (weights d) eps q r n (RtoC l) in (Cmod (a11 S) ^ 2 - Cmod (a21 S) ^ 2 = 1)%R.
Proof.
  intros Hd Hm Hl Hq Hr S. assert (E0 : akns_degree d = O) by (destruct Hd as [->|[->|[->|[->| ->]]]]; reflexivity).
  unfold S, kdv_S, scattering. rewrite E0. set (X := descending _ _).
  assert (HX : fixed v l X) by (apply fx_descending; intros j Hj; now apply (fixed_step v l d eps q r n)).
  assert (DX : mdet X = 1).
  { unfold X. generalize (slow_steps d n). intros m. induction m as [|m IH]; [unfold mdet; cbn; ring|]. cbn [descending]. rewrite mdet_mul, slow_step_det, IH. ring. }
  destruct (fixed_based v l X Hl HX) as (A & B & DB). rewrite DX in DB. unfold mdet in DB. rewrite A, B in DB.
  apply RtoC_inj. rewrite RtoC_minus, !Cmod_pow2, <- DB. ring.
Qed.

(** C92.  For the KdV with one of the exponential methods with real weights and real samples, |a|^2 - |b|^2 = 1 holds for the values that
   fnft_kdvv stores (in particular |b/a| < 1); without bound states the call always succeeds.
   The samples of the methods without resampling (BO) are the real ones of the user; for the others the resampled ones have to be real *)
Theorem kdvv_energy_conserved L tiny below D q T M XI user dflt u cs d v : lib_ok L ->
  let o := match user with Some o => o | None => dflt end in
  kdvv_valid D (Some q) (Some T) M (Some XI) o u -> kdvv_readable D (Some q) M (Some XI) u -> (2 <= M)%nat ->
  u_cs u = Some cs -> (cs_values (k_cs o) * M <= length cs)%nat -> k_cs o <> CS_bad ->
  k_rich o <> 1%nat ->
  kdv_to_akns (k_disc o) = Some d -> kdv_vanilla_flag (k_disc o) = Some v -> symmetric_method d -> ((3 <= D)%nat \/ akns_upsampling_factor d = 1%nat) ->
  (Z.of_nat (D * akns_upsampling_factor d) <= 2147483647)%Z ->
  exists p, kdv_preprocess (l_junk L) (l_junkR L) D (Some q) (spacing T D) D (k_disc o) = Ret (inr p) /\
  (akns_upsampling_factor d = 1%nat -> po_q p = q) /\
  ((forall i, (i < D * akns_upsampling_factor d)%nat -> snd (nthC (po_q p) i) = 0%R) ->
   (forall i, (i < M)%nat -> kdv_exact d v (weights d) (spacing T D) (nthC (po_q p)) (nthC (po_r p)) (D * akns_upsampling_factor d) (RtoC (grid_point XI M i))) ->
  (forall u' user' dflt', fnft_kdvv (klib_env L tiny below) D (Some q) (Some T) M (Some XI) user dflt u = Ret (SUCCESS, u', user', dflt') ->
     exists cs', u_cs u' = Some cs' /\ conserved (-1) (k_cs o) M cs') /\
  ((u_bs u = None \/ u_K u = Some O) -> exists u' user' dflt', fnft_kdvv (klib_env L tiny below) D (Some q) (Some T) M (Some XI) user dflt u = Ret (SUCCESS, u', user', dflt'))).
Proof.
  intros HL o V R HM Ecs Lcs Hct Hr Hd Hv Hsy H3 H31.
  destruct (kdvv_contspec_is_discrete_nft L tiny below HL D q T M XI user dflt u cs d v V R HM Ecs Lcs Hct Hr Hd Hv H3 H31) as (p & Ep & Hpl & Htop).
  fold o in Ep, Hpl, Htop. exists p. split; [exact Ep|]. split; [intros U; apply Hpl, U|]. intros Hreal Hx. cbv zeta in Htop. destruct (Htop Hx) as [T1 T2]. clear Htop.
  set (n := (D * akns_upsampling_factor d)%nat) in *.
  assert (Lq : length q = D) by (destruct R as [R1 _ _]; now apply R1).
  destruct V as [VD Vq Vre VT VX Vz VK Vg Vd]. destruct VT as (t0 & t1 & ET & HT). injection ET as ->.
  assert (He : (0 < spacing (t0, t1) D)%R) by (apply spacing_pos; [exact HT|exact VD]).
  assert (Ia : akns_implemented d) by (destruct (k_disc o); try discriminate Hd; injection Hd as <-; repeat split; discriminate).
  assert (Rs : forall i, (i < n)%nat -> nthC (po_r p) i = kdv_r d i).
  { intros i Hi. destruct H3 as [H3|U].
    - destruct (kdv_preprocess_r_is_minus_one (l_junk L) (l_junkR L) (lk_junk L HL) (lk_junkR L HL) D D q (spacing (t0, t1) D) Lq He (k_disc o) d H3 Hd Ia) as (ns & p2 & E2 & G & L1 & L2 & Hn).
      assert (p2 = p) as -> by congruence. unfold nthC. rewrite Hn; [reflexivity|]. rewrite L1. destruct G as (_ & _ & _ & _ & _ & G). destruct (G eq_refl) as [_ ->].
      unfold kdv_upsampling_factor, via. rewrite Hd. unfold n in Hi. lia.
    - destruct (Hpl U) as [_ ->]. unfold nthC, kdv_r. rewrite nth_indep with (d' := (- (1))%C) by (rewrite repeat_length; unfold n in Hi; rewrite U in Hi; lia). rewrite nth_repeat.
      destruct d; try reflexivity; discriminate. }
  assert (Qs : forall i, (i < n)%nat -> Cconj (nthC (po_q p) i) = nthC (po_q p) i).
  { intros i Hi. specialize (Hreal i Hi). apply Ceq; cbn; [reflexivity|]. rewrite Hreal. ring. }
  assert (H3n : multiple3 d n) by (unfold n; destruct d; try exact I; cbn [akns_upsampling_factor multiple3]; apply Nat.mod_mul; lia).
  assert (En : forall i, (i < M)%nat -> let l := grid_point XI M i in
    let S := kdv_S d v (weights d) (spacing (t0, t1) D) (nthC (po_q p)) (nthC (po_r p)) n (RtoC l) in
    (Cmod (nft_a_of S (t0, t1) (spacing (t0, t1) D) (RtoC l)) ^ 2 - Cmod (nft_b_of S (t0, t1) (spacing (t0, t1) D) (RtoC l)) ^ 2 = 1)%R).
  { intros i Hi l S. destruct (nft_mod S (t0, t1) (spacing (t0, t1) D) l) as [-> ->]. apply kdv_energy; try assumption.
    intros E0. apply (Vz XI i eq_refl HM Hi). rewrite <- E0. unfold l, KdvvSpec.grid_point, grid_point, spacing. ring. }
  split.
  - intros u' user' dflt' H. destruct (T1 u' user' dflt' H) as (cs' & Ec & Hsp & _). exists cs'. split; [exact Ec|]. intros i Hi. cbv zeta.
    specialize (En i Hi). cbv zeta in En. unfold spectrum_is in Hsp.
    set (a := nft_a_of _ _ _ _) in En. set (b := nft_b_of _ _ _ _) in En.
    assert (Rho : a <> RtoC 0 -> (Cmod a ^ 2 * (1 + IZR (-1) * Cmod (Cdiv b a) ^ 2) = 1)%R).
    { intros Na. rewrite Cmod_div by exact Na. assert (Cmod a <> 0%R) by (intros E0; now apply Na, Cmod_eq_0). transitivity (Cmod a ^ 2 - Cmod b ^ 2)%R; [field; assumption|exact En]. }
    destruct (k_cs o); try contradiction.
    + destruct (Hsp i Hi) as [Na Hn]. fold a in Na. rewrite Nat.mul_0_l, Nat.add_0_l, Hn. fold a b. specialize (Rho Na).
      assert (0 < Cmod a ^ 2)%R by (apply pow_lt, Cmod_gt_0, Na). destruct (Rlt_le_dec 0 (1 + IZR (-1) * Cmod (Cdiv b a) ^ 2)) as [|Hle]; [assumption|]. exfalso.
      pose proof (Rmult_le_compat_l _ _ _ (Rlt_le _ _ H0) Hle). lra.
    + destruct (Hsp i Hi) as [Hn1 Hn2]. rewrite Nat.mul_0_l, Nat.add_0_l, Nat.mul_1_l, Hn1, Hn2. fold a b. lra.
    + destruct (Hsp i Hi) as (Na & Hn0 & Hn1 & Hn2). fold a in Na. rewrite Nat.mul_0_l, Nat.add_0_l, Nat.mul_1_l, Hn0, Hn1, Hn2. fold a b. split; [lra|now apply Rho].
  - intros Hnb. apply T2; [exact Hnb|]. right. intros i Hi E0. specialize (En i Hi). cbv zeta in En. rewrite E0, Cmod_0 in En.
    match type of En with (_ - ?x ^ 2 = 1)%R => pose proof (pow2_ge_0 x) end. lra.
Qed.
Print Assumptions kdvv_energy_conserved.
