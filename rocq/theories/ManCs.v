(** * The continuous spectrum that fnft_manakovv returns is the one of the discretised signal (C93) *)
From Coq Require Import Reals Lra.
From Coquelicot Require Import Coquelicot.
From Verif Require Import Loop Mem Fields CExp CField MiscProof DiscSpec DiscTables DiscModel DiscProps DiscPreProps DiscPreNse FscatterSpec FscatterProof
  ScatterSpec ScatterModel ScatterRun ScatterLoop ScatterMatProps ChirpzModel ChirpzProof PolySpec MatSpec KissProof PolyFmultProof NsevSpec NsevProps NsevSafe
  NsevEnv NftSpec NsevFast NsevLib NsevCsTop ManFscSpec ManFscModel ManFscSample ManFscProps ManScatSpec ManScatModel ManScatProof ManScatProps ManScatTop ManvSpec ManvProps ManvSafe ManvSafe2 ManvSafe3.
From Verif Require Import ManNft.
Local Open Scope C_scope.

(** ** fnft_manakovv with the models of its subroutines in place of the parameter [menv] *)
Definition mlib_env (L : lib) : menv := {|
  me_alloc := fun _ _ => true;
  me_junk := l_junk L;
  me_pre := fun _ D q1 q2 eps_t Dsub d => man_preprocess (l_junk L) (l_junkR L) D (Some q1) (Some q2) eps_t Dsub d;
  me_fscatter := fun _ D q1 q2 kappa eps_t res norm d =>
    x <- manakov_fscatter (l_expo L) (l_0 L) (l_1 L) (l_2 L) (l_p L) norm D (Some q1) (Some q2) kappa eps_t (Some res) true d ;;
    let '(code, deg, res, W) := x in Ret (code, match deg with Some n => n | None => O end, or_nil res, W);
  me_smat := fun _ D q1 q2 eps_t K lam kappa d =>
    x <- manakov_scatter_matrix D (Some q1) (Some q2) eps_t K (Some lam) kappa (Some (l_junk L 2 (9 * K)%nat)) d ;;
    let '(code, res) := x in Ret (code, or_nil res);
  me_chirpz := fun _ deg p A V M =>
    x <- poly_chirpz (l_junk L) deg (Some p) A V M (Some (l_junk L 1 M)) ;;
    let '(code, res) := x in Ret (code, or_nil res);
  me_roots := fun _ deg p buf => l_roots L deg p buf |}.

Definition implemented (d : man_disc) : Prop := d <> M_other /\ d <> M_FTES4_4B.
Lemma man_fast_slow d : implemented d -> (exists us, man_scheme_of d = Some us /\ man_degree d <> O) \/ (man_scheme_of d = None /\ man_degree d = O /\ (d = M_BO \/ d = M_CF4_2)).
Proof. intros [H1 H2]. destruct d; try congruence; first [left; eexists; split; [reflexivity|discriminate]|right; auto]. Qed.
(** what the polynomials of the fast methods leave out: e^(i lam drop) *)
Definition drop (d : man_disc) (eps : R) (n : nat) : R := (INR n * (INR (man_degree d) * man_tau d eps / 2))%R.

(** the phase factors turn the computed entries into a, b1 and b2 *)
Lemma mphases_ok d (eps : R) T D : implemented d -> exists pa pb,
  man_phase_factor_a eps D (fst T) (snd T) d = POk (Some pa) /\ man_phase_factor_b eps D (fst T) (snd T) d = POk (Some pb) /\
  man_phase_factor_rho eps (snd T) d = POk (Some (pb - pa)%R) /\
  forall lam S, let f := match man_scheme_of d with None => RtoC 1 | Some _ => Cexp (Ci * lam * RtoC (drop d eps (D * man_upsampling_factor d))) end in
    let e := man_edges d T eps in
    f * c11 S * Cexp (Ci * lam * RtoC pa) = mnft_a S e lam /\ f * c21 S * Cexp (Ci * lam * RtoC pb) = mnft_b1 S e lam /\
    f * c31 S * Cexp (Ci * lam * RtoC pb) = mnft_b2 S e lam.
Proof.
  intros [Hn Hn2]. destruct (man_phase_factors_consistent d eps (fst T) (snd T) D Hn) as (pr & pa & pb & Hr & Ha & Hb & ->).
  exists pa, pb. split; [exact Ha|]. split; [exact Hb|]. split; [exact Hr|]. intros lam S. cbv zeta. clear Hr. unfold mnft_a, mnft_b1, mnft_b2.
  assert (EA : forall (c : C) (x y x' y' : C), x + y = x' + y' -> Cexp x * c * Cexp y = c * Cexp x' * Cexp y').
  { intros c x y x' y' E0. transitivity (c * (Cexp x * Cexp y)); [ring|]. rewrite <- Cexp_plus, E0, Cexp_plus. ring. }
  assert (E1 : forall (c : C) (y x' y' : C), y = x' + y' -> 1 * c * Cexp y = c * Cexp x' * Cexp y').
  { intros c y x' y' ->. rewrite Cexp_plus. ring. }
  assert (G : forall x, (pa = snd (man_edges d T eps) - fst (man_edges d T eps) - x)%R -> (pb = - snd (man_edges d T eps) - fst (man_edges d T eps) - x)%R ->
     match man_scheme_of d with None => x = 0%R | Some _ => x = drop d eps (D * man_upsampling_factor d) end ->
     match man_scheme_of d with None => RtoC 1 | Some _ => Cexp (Ci * lam * RtoC (drop d eps (D * man_upsampling_factor d))) end = Cexp (Ci * lam * RtoC x)).
  { intros x _ _ Hx. destruct (man_scheme_of d); [now rewrite Hx|]. rewrite Hx, Cmult_0_r, Cexp_0. reflexivity. }
  set (e := man_edges d T eps) in *.
  assert (X : exists x, (pa = snd e - fst e - x)%R /\ (pb = - snd e - fst e - x)%R /\
     match man_scheme_of d with None => x = 0%R | Some _ => x = drop d eps (D * man_upsampling_factor d) end).
  { unfold e, man_edges, drop. clear - Ha Hb Hn Hn2. destruct d; try congruence; cbn [man_scheme_of]; cbn -[INR man_degree Rmult Rplus Rminus Rdiv Ropp] in Ha, Hb |- *; injection Ha as <-; injection Hb as <-;
    eexists; (split; [|split; [|reflexivity]]); rewrite ?mult_INR; unfold man_tau, man_boundary_coeff; cbn [man_degree man_upsampling_factor]; cbn [INR]; lra. }
  destruct X as (x & Ea & Eb & Ex). rewrite (G x Ea Eb Ex). clear G.
  repeat split; apply EA; rewrite ?Ea, ?Eb, !RtoC_minus, ?RtoC_opp; ring.
Qed.

(** ** Existence and uniqueness of the scattering matrix, and the entries the routines deliver *)
Lemma exact_regular d kappa eps q1 q2 n lam : man_scheme_of d = None -> man_scat_exact d kappa eps q1 q2 n lam -> forall j, (j < n)%nat ->
  regular (step_lam d lam) kappa (q1 j) (q2 j) /\ Pcut (step_lam d lam) kappa (q1 j) (q2 j) = manakov_P (step_lam d lam) kappa (q1 j) (q2 j).
Proof.
  intros E H j Hj. unfold man_scat_exact in H. rewrite E in H. destruct (H j Hj) as [[-> ->]|[Nt Hr]].
  - split; [left; unfold tiny; rewrite Cmod_0; lra|]. unfold Pcut, cut. destruct (tiny_dec 0 0); reflexivity.
  - split; [right; exact Hr|]. unfold Pcut, cut. destruct (tiny_dec (q1 j) (q2 j)); [contradiction|reflexivity].
Qed.
Lemma descending3_ext' n (F G : nat -> mat3) : (forall i, (i < n)%nat -> F i = G i) -> descending3 n F = descending3 n G.
Proof. induction n as [|n IH]; intros H; [reflexivity|]. cbn [descending3]. rewrite (H n) by lia. rewrite IH; [reflexivity|]. intros i Hi. apply H. lia. Qed.
Lemma man_scattering_exists d kappa eps q1 q2 n lam : man_scat_exact d kappa eps q1 q2 n lam ->
  exists S, man_scattering d kappa eps q1 q2 n lam S /\ forall S', man_scattering d kappa eps q1 q2 n lam S' -> S' = S.
Proof.
  intros H. unfold man_scattering. destruct (man_scheme_of d) eqn:E; [eexists; split; [reflexivity|]; auto|].
  pose proof (exact_regular d kappa eps q1 q2 n lam E H) as HR.
  destruct (ScatterLoop.finite_choice (fun _ => m3one) (fun j U => fundamental3 (manakov_P (step_lam d lam) kappa (q1 j) (q2 j)) U) n) as (U & HU).
  { intros j Hj. destruct (HR j Hj) as [R1 R2]. destruct (manakov_step_is_solution (q1 j) (q2 j) (step_lam d lam) 0 kappa R1) as (V & _ & (U & HU) & _). rewrite R2 in HU. now exists U. }
  exists (descending3 n (fun j => U j (RtoC eps))). split; [now exists U|]. intros S' (U' & HU' & ->). apply descending3_ext'. intros j Hj.
  destruct (HR j Hj) as [R1 R2]. destruct (manakov_step_is_solution (q1 j) (q2 j) (step_lam d lam) (RtoC eps) kappa R1) as (V & _ & _ & Hu & _). rewrite R2 in Hu.
  rewrite <- (Hu (U j)) by (now apply HU). symmetry. apply Hu. now apply HU'.
Qed.
Lemma triple_neighbours d n (q : list C) j : triple_at d n q j = with_neighbours d n (nthC q) j.
Proof. reflexivity. Qed.

Section Contspec.
Variable L : lib.
Hypothesis HL : lib_ok L.
Let EV := mlib_env L.

(** the transfer matrix that fnft_manakovv_base holds when it calls manakovv_compute_contspec *)
Definition mtransfer_ok (d : man_disc) (kappa : Z) (eps : R) (q1 q2 : list C) (N deg : nat) (W : Z) (tm : option (list C)) : Prop :=
  man_scheme_of d = None /\ tm = None /\ deg = O /\ W = 0%Z \/
  (exists us, man_scheme_of d = Some us) /\ exists p, tm = Some p /\ (9 * (deg + 1) <= length p)%nat /\
    forall lam S x, man_scattering d kappa eps (nthC q1) (nthC q2) N lam S -> (x < 3)%nat ->
      RtoC (powerRZ 2 W) * peval (K := CF) (firstn (deg + 1) (skipn (3 * x * (deg + 1)) p)) (Cexp (Ci * lam * RtoC (man_tau d eps)))
      = Cexp (Ci * lam * RtoC (drop d eps N)) * entry3 S x 0.

Lemma mfscatter_entries norm N (q1 q2 res : list C) kappa (eps : R) d us numel : man_scheme_of d = Some us ->
  (2 <= N)%nat -> (Z.of_nat N <= 2147483647)%Z -> (0 < eps)%R -> (kappa = 1 \/ kappa = -1)%Z -> (N <= length q1)%nat -> (N <= length q2)%nat ->
  man_fscatter_numel N d = Ret numel -> (numel <= length res)%nat ->
  (forall j, (j < N)%nat -> man_exact d kappa eps (with_neighbours d N (nthC q1) j) (with_neighbours d N (nthC q2) j)) ->
  exists tm W, manakov_fscatter (l_expo L) (l_0 L) (l_1 L) (l_2 L) (l_p L) norm N (Some q1) (Some q2) kappa eps (Some res) true d = Ret (SUCCESS, Some (N * man_degree d)%nat, Some tm, W) /\
    (norm = false -> W = 0%Z) /\ mtransfer_ok d kappa eps q1 q2 N (N * man_degree d) W (Some tm).
Proof.
  intros Hd HN HN2 He Hk L1 L2 Hnum Lres Hx.
  assert (Hk' : (Z.abs kappa = 1)%Z) by (destruct Hk as [-> | ->]; reflexivity).
  destruct (manakov_fscatter_product (l_expo L) (l_0 L) (l_1 L) (l_2 L) (l_p L) (lk_0 L HL) (lk_1 L HL) (lk_2 L HL) (lk_p L HL) norm N q1 q2 res kappa eps d us numel HN HN2 He Hk' Hd L1 L2 Hnum Lres)
    as (tm & W & Ms & E & Lt & HW & _).
  destruct (manakov_fscatter_transfer_matrix (l_expo L) (l_0 L) (l_1 L) (l_2 L) (l_p L) (lk_0 L HL) (lk_1 L HL) (lk_2 L HL) (lk_p L HL) norm N q1 q2 res kappa eps d us numel HN HN2 He Hk' Hd L1 L2 Hnum Lres Hx)
    as (tm' & W' & E' & Hent).
  rewrite E in E'. injection E' as <- <-. exists tm, W. split; [exact E|]. split; [exact HW|]. right. split; [now exists us|]. exists tm. split; [reflexivity|]. split.
  { rewrite Lt. unfold man_fscatter_numel in Hnum. assert (man_degree d <> O) by (destruct d; try discriminate Hd; discriminate).
    destruct (Nat.eqb_spec (man_degree d) 0) as [Ez|_]; [contradiction|].
    destruct (poly_fmult_numel_value 9 (man_degree d) N ltac:(lia) ltac:(lia)) as (k & Ek & Hk2 & _).
    assert (Hn : numel = (9 * (man_degree d + 1) * 2 ^ k)%nat) by congruence. nia. }
  intros lam S x HS Hx3. unfold man_scattering in HS. rewrite Hd in HS. subst S.
  pose proof (Hent lam x 0%nat Hx3 ltac:(lia)) as Q. rewrite zpow_powerRZ, Nat.add_0_r, (Nat.mul_comm x 3) in Q. fold (drop d eps N) in Q.
  match type of Q with _ = entry3 ?S _ _ => change (entry3 (descending3 N (fun j => man_step d kappa eps (with_neighbours d N (nthC q1) j) (with_neighbours d N (nthC q2) j) us lam)) x 0) with (entry3 S x 0) end.
  rewrite <- Q. unfold coeffs. rewrite Cmult_assoc, <- Cexp_plus.
  replace (Ci * lam * RtoC (drop d eps N) + - Ci * lam * RtoC (drop d eps N)) with (RtoC 0) by ring. rewrite Cexp_0, Cmult_1_l. reflexivity.
Qed.

(** the chirp transform evaluates on the grid *)
Lemma mchirp_point (tau XI0 dx : R) i :
  let A := Cexp (Ci * RtoC (- XI0) * RtoC tau) in let V := Cexp (Ci * RtoC dx * RtoC tau) in
  / (A * / (V ^^ i)) = Cexp (Ci * RtoC (XI0 + dx * INR i) * RtoC tau).
Proof.
  intros A V. assert (EV2 : V ^^ i = Cexp (Ci * RtoC (dx * INR i) * RtoC tau)).
  { transitivity (Cpown V i). { clear. induction i as [|i IH]; [reflexivity|]. cbn [Cpown]. rewrite <- IH. reflexivity. }
    unfold V. rewrite Cexp_pown. f_equal. rewrite RtoC_mult. ring. }
  assert (NA : A <> 0) by apply Cexp_neq0. assert (NV : V ^^ i <> 0) by (rewrite EV2; apply Cexp_neq0).
  transitivity (V ^^ i * / A); [field; auto|]. rewrite EV2. unfold A. rewrite <- Cexp_opp, <- Cexp_plus. f_equal.
  rewrite RtoC_plus, RtoC_opp. ring.
Qed.

Lemma mcontspec_values_lib s deg W tm q1 q2 eps eps_xi N M XI0 xi kappa o d (S : nat -> mat3) :
  m_disc o = d -> implemented d -> (kappa = 1 \/ kappa = -1)%Z ->
  (2 <= N)%nat -> length q1 = N -> length q2 = N -> (0 < eps)%R -> (2 <= M)%nat ->
  xi = map (fun i => RtoC (XI0 + eps_xi * INR i)) (seq 0 M) ->
  (forall i, (i < M)%nat -> man_scat_exact d kappa eps (nthC q1) (nthC q2) N (RtoC (XI0 + eps_xi * INR i))) ->
  (forall i, (i < M)%nat -> man_scattering d kappa eps (nthC q1) (nthC q2) N (RtoC (XI0 + eps_xi * INR i)) (S i)) ->
  mtransfer_ok d kappa eps q1 q2 N deg W tm ->
  exists H11 H21 H31, mcontspec_values EV s deg W tm q1 q2 eps eps_xi N M XI0 xi kappa o = Ret (SUCCESS, (H11, H21, H31))
    /\ length H11 = M /\ length H21 = M /\ length H31 = M /\ forall i, (i < M)%nat -> let lam := RtoC (XI0 + eps_xi * INR i) in
       let f := match man_scheme_of d with None => RtoC 1 | Some _ => Cexp (Ci * lam * RtoC (drop d eps N)) end in
       nth i H11 0 * RtoC (powerRZ 2 W) = f * c11 (S i) /\ nth i H21 0 * RtoC (powerRZ 2 W) = f * c21 (S i) /\ nth i H31 0 * RtoC (powerRZ 2 W) = f * c31 (S i).
Proof.
  intros Hd Hi Hk HN L1 L2 He HM Exi Hx HS Hcase.
  assert (Lx : length xi = M) by (rewrite Exi, map_length; apply seq_length).
  assert (Nx : forall i, (i < M)%nat -> nth i xi (RtoC 0) = RtoC (XI0 + eps_xi * INR i)).
  { intros i HiM. rewrite Exi. rewrite nth_indep with (d' := (fun i => RtoC (XI0 + eps_xi * INR i)) 0%nat) by (rewrite map_length, seq_length; exact HiM).
    rewrite (map_nth (fun i => RtoC (XI0 + eps_xi * INR i))). now rewrite seq_nth by exact HiM. }
  unfold mcontspec_values. destruct Hcase as [(Hs & -> & -> & ->)|((us & Hf) & p & -> & Lp & Hp)].
  - cbn [Nat.eqb andb Z.eqb]. change (me_alloc EV s 2) with true. cbn [negb]. unfold EV. cbn [mlib_env me_smat]. rewrite Hd.
    assert (Hbo : d = M_BO \/ d = M_CF4_2) by (destruct (man_fast_slow d Hi) as [(us & E & _)|(_ & _ & H)]; [congruence|exact H]).
    destruct (manakov_scatter_matrix_product N q1 q2 eps kappa M xi (l_junk L 2 (9 * M)) d) as (res' & E & Lr & _ & Hent).
    { constructor; try lia; try assumption; try (rewrite (lk_junk L HL); lia). intros i n HiM Hn. rewrite Nx by exact HiM. now apply (exact_regular d kappa eps (nthC q1) (nthC q2) N _ Hs (Hx i HiM) n Hn). }
    rewrite E. cbn [bind or_nil]. unfold check. change (SUCCESS =? SUCCESS)%Z with true. cbv iota. rewrite (lk_junk L HL) in Lr.
    match goal with |- context [for_ M 0 ?f ([], [], [])] => destruct (for_inv (fun i (H : list C * list C * list C) => (length (fst (fst H)) = i /\ length (snd (fst H)) = i /\ length (snd H) = i) /\
       forall j, (j < i)%nat -> nth j (fst (fst H)) (RtoC 0) = c11 (S j) /\ nth j (snd (fst H)) (RtoC 0) = c21 (S j) /\ nth j (snd H) (RtoC 0) = c31 (S j)) f M 0%nat ([], [], [])) as (((H11 & H21) & H31) & El & Hl) end.
    { cbn. split; [auto|]. lia. }
    { intros i [[h g] g'] HiM0 ((Lh & Lg & Lg') & Hv). cbn [fst snd] in *. assert (HiM : (i < M)%nat) by lia.
      rewrite (aget_nth res' (RtoC 0) (i * 9)) by lia. cbn [bind]. rewrite (aget_nth res' (RtoC 0) (i * 9 + 3)) by lia. cbn [bind]. rewrite (aget_nth res' (RtoC 0) (i * 9 + 6)) by lia. cbn [bind].
      destruct (Hent i HiM) as (Si & He3 & HU & _). rewrite Nx in HU by exact HiM.
      assert (ES : Si = S i).
      { pose proof (HS i HiM) as HSi. unfold man_scattering in HSi. rewrite Hs in HSi. destruct HSi as (U & HU' & ->). apply HU. intros n Hn.
        destruct (exact_regular d kappa eps (nthC q1) (nthC q2) N _ Hs (Hx i HiM) n Hn) as [_ R2]. unfold nthC in R2. rewrite R2. now apply HU'. }
      subst Si.
      pose proof (He3 0%nat 0%nat ltac:(lia) ltac:(lia)) as Q1. pose proof (He3 1%nat 0%nat ltac:(lia) ltac:(lia)) as Q2. pose proof (He3 2%nat 0%nat ltac:(lia) ltac:(lia)) as Q3.
      replace (9 * i + 3 * 0 + 0)%nat with (i * 9)%nat in Q1 by lia. replace (9 * i + 3 * 1 + 0)%nat with (i * 9 + 3)%nat in Q2 by lia. replace (9 * i + 3 * 2 + 0)%nat with (i * 9 + 6)%nat in Q3 by lia.
      rewrite Q1, Q2, Q3. cbn [entry3]. eexists. split; [reflexivity|]. cbn [fst snd]. rewrite !app_length. cbn [length]. split; [lia|]. intros j Hj. destruct (Nat.eq_dec j i) as [->|Nj].
      - rewrite !app_nth2 by lia. rewrite Lh, Lg, Lg', Nat.sub_diag. cbn [nth]. auto.
      - rewrite !app_nth1 by lia. apply Hv. lia. }
    rewrite El. cbn [bind]. exists H11, H21, H31. split; [reflexivity|]. rewrite Nat.add_0_l in Hl. destruct Hl as ((Lh & Lg & Lg') & Hv). cbn [fst snd] in *. split; [exact Lh|]. split; [exact Lg|]. split; [exact Lg'|].
    intros i HiM. cbv zeta. rewrite Hs. destruct (Hv i HiM) as (-> & -> & ->). cbn [powerRZ]. repeat split; ring.
  - rewrite Bool.andb_false_r. cbn [andb]. rewrite Hd.
    destruct (man_lambda_to_z_tau d us eps [RtoC eps_xi] Hf) as (v & Ev & Lv & Nv). destruct (man_lambda_to_z_tau d us eps [RtoC (- XI0)] Hf) as (a & Ea & La & Na).
    cbn [length] in Ev, Ea, Lv, La, Nv, Na.
    rewrite Ev. cbn [bind]. unfold check. change (SUCCESS =? SUCCESS)%Z with true. cbv iota. rewrite Ea. cbn [bind]. change (SUCCESS =? SUCCESS)%Z with true. cbv iota.
    rewrite (aget_nth v (RtoC 0) 0%nat) by (rewrite Lv; lia). rewrite (aget_nth a (RtoC 0) 0%nat) by (rewrite La; lia). cbn [bind deref].
    rewrite (Nv 0%nat ltac:(lia)), (Na 0%nat ltac:(lia)). cbn [nth]. clear v a Ev Ea Lv La Nv Na.
    set (A := Cexp (Ci * RtoC (- XI0) * RtoC (man_tau d eps))). set (Vv := Cexp (Ci * RtoC eps_xi * RtoC (man_tau d eps))).
    assert (Hch : forall pp, length pp = (deg + 1)%nat -> exists H, me_chirpz EV s deg pp A Vv M = Ret (SUCCESS, H)
       /\ length H = M /\ forall i, (i < M)%nat -> nth i H (RtoC 0) = peval (K := CF) pp (Cexp (Ci * RtoC (XI0 + eps_xi * INR i) * RtoC (man_tau d eps)))).
    { intros pp Lpp. destruct (poly_chirpz_spec (l_junk L) deg pp A Vv M (l_junk L 1 M) (lk_junk L HL)) as (H & EH & LH & NH & _); try assumption; try apply Cexp_neq0; try lia.
      { rewrite (lk_junk L HL). lia. } unfold EV. cbn [mlib_env me_chirpz]. rewrite EH. cbn [bind or_nil]. exists H. split; [reflexivity|]. rewrite (lk_junk L HL) in LH. split; [exact LH|].
      intros i HiM. rewrite (NH i HiM). f_equal. apply mchirp_point. }
    destruct (Hch (firstn (deg + 1) p)) as (H11 & E1 & L11 & N1). { rewrite firstn_length. lia. }
    destruct (Hch (firstn (deg + 1) (skipn (3 * (deg + 1)) p))) as (H21 & E2 & L21 & N2). { rewrite firstn_length, skipn_length. lia. }
    destruct (Hch (firstn (deg + 1) (skipn (6 * (deg + 1)) p))) as (H31 & E3 & L31 & N3). { rewrite firstn_length, skipn_length. lia. }
    change (me_chirpz EV s deg (@firstn C (deg + 1) p) A Vv M = Ret (SUCCESS, H11)) in E1.
    change (me_chirpz EV s deg (@firstn C (deg + 1) (@skipn C (3 * (deg + 1)) p)) A Vv M = Ret (SUCCESS, H21)) in E2.
    change (me_chirpz EV s deg (@firstn C (deg + 1) (@skipn C (6 * (deg + 1)) p)) A Vv M = Ret (SUCCESS, H31)) in E3.
    rewrite E1. cbn [bind]. change (SUCCESS =? SUCCESS)%Z with true. cbv iota. rewrite E2. cbn [bind]. change (SUCCESS =? SUCCESS)%Z with true. cbv iota.
    rewrite E3. cbn [bind]. change (SUCCESS =? SUCCESS)%Z with true. cbv iota.
    exists H11, H21, H31. split; [reflexivity|]. split; [exact L11|]. split; [exact L21|]. split; [exact L31|]. intros i HiM. cbv zeta. rewrite Hf.
    rewrite (N1 i HiM), (N2 i HiM), (N3 i HiM). pose proof (fun x => Hp _ (S i) x (HS i HiM)) as Q.
    pose proof (Q 0%nat ltac:(lia)) as Q1. pose proof (Q 1%nat ltac:(lia)) as Q2. pose proof (Q 2%nat ltac:(lia)) as Q3. cbn [entry3] in Q1, Q2, Q3.
    split; [rewrite <- Q1; apply Cmult_comm|]. split; [rewrite <- Q2; apply Cmult_comm|rewrite <- Q3; apply Cmult_comm].
Qed.
End Contspec.
