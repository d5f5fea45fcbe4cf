(** * From the coefficients of nse_fscatter and from nse_scatter_matrix to the discrete scattering matrix of NftSpec *)
From Coq Require Import Reals Lra Qreals.
From Coquelicot Require Import Coquelicot.
From Verif Require Import Base Loop Fields ErrModel CExp CField MiscProof DiscTables FscatterTab FscatterAlg FscatterSpec FscatterModel FscatterProof FscatterProps ScatterSpec ScatterRun ScatterLoop ScatterMatProps PolySpec MatSpec PolyFmultModel KissProof PolyFmultProps DiscProps ScatterModel ScatterNse NftSpec.
Local Open Scope C_scope.

(** ** Algebra *)
Lemma descending_scal n (c : C) F : descending n (fun j => mscal c (F j)) = mscal (Cpown c n) (descending n F).
Proof.
  induction n as [|n IH]; cbn [descending].
  - cbn [Cpown]. now rewrite mscal_one.
  - rewrite IH, mscal_mul_l, mscal_mul_r, mscal_mscal. reflexivity.
Qed.
Lemma descending_conj n P Q F : mmul P Q = mone -> descending n (fun j => mmul Q (mmul (F j) P)) = mmul Q (mmul (descending n F) P) \/ n = O.
Proof.
  intros H. destruct n as [|n]; [now right|left]. induction n as [|n IH].
  - cbn [descending]. now rewrite !mmul_one_r.
  - set (G := descending (S n)) in *. change (descending (S (S n)) (fun j => mmul Q (mmul (F j) P))) with (mmul (mmul Q (mmul (F (S n)) P)) (G (fun j => mmul Q (mmul (F j) P)))).
    rewrite IH. change (descending (S (S n)) F) with (mmul (F (S n)) (G F)).
    transitivity (mmul Q (mmul (F (S n)) (mmul (mmul P Q) (mmul (G F) P)))); [now rewrite !mmul_assoc|].
    rewrite H, mmul_one_l. now rewrite !mmul_assoc.
Qed.
Lemma Cexp_pown (x : C) n : Cpown (Cexp x) n = Cexp (RtoC (INR n) * x).
Proof.
  induction n as [|n IH]; cbn [Cpown].
  - cbn [INR]. rewrite <- Cexp_0. f_equal. ring.
  - rewrite IH, <- Cexp_plus. f_equal. rewrite S_INR, RtoC_plus. ring.
Qed.

(** ** One sample of the fast methods *)
(** the matrix whose polynomial entries the code stores: for 2SPLIT2A and 2SPLIT2_MODAL without the first half step *)
Definition raw_step (d : akns_disc) (h : R) (q r lam : C) : mat2 :=
  match d with
  | A_2SPLIT2_MODAL => mmul (modal h q r) (expA lam h)
  | _ => match scheme_of d with Some s => splitting lam q r h (akns_degree d) s | None => mone end
  end.
Definition half_shifted (d : akns_disc) : bool := match d with A_2SPLIT2A | A_2SPLIT2_MODAL => true | _ => false end.
Definition zmap (d : akns_disc) (eps : R) (lam : C) : C :=
  Cexp (2 * Ci * lam * RtoC eps / RtoC (INR (akns_degree d) * INR (akns_upsampling_factor d))).

Lemma modal_scl (h : R) (q r : C) : RtoC h * q * (RtoC h * r) <> 1 -> Csqrt (1 - RtoC h * q * (RtoC h * r)) <> 0.
Proof.
  intros N E. apply N. pose proof (Csqrt_sqr (1 - RtoC h * q * (RtoC h * r))) as Hs. rewrite E in Hs.
  transitivity (1 - (1 - RtoC h * q * (RtoC h * r))); [ring|]. rewrite <- Hs. ring.
Qed.

Lemma fast_sample d (eps : R) (q r : C) : is_fast d -> fast_exact d (step_size d eps) q r ->
  exists ls, akns_sample d eps q r = Some (Some ls) /\ forall lam,
    poly_mat ls (zmap d eps lam) = mscal (Cexp (Ci * lam * RtoC (step_size d eps))) (raw_step d (step_size d eps) q r lam).
Proof.
  intros Hf Hx. assert (X : forall lam h, Cexp (Ci * lam * RtoC h) * Cexp (- Ci * lam * RtoC h) = 1).
  { intros lam h. rewrite <- Cexp_plus, <- Cexp_0. f_equal. ring. }
  destruct (Decidable.dec_or (d = A_2SPLIT2_MODAL) False) as [[->|[]]|Nm].
  { destruct d; (left; reflexivity) || (right; discriminate). } { right; auto. }
  - cbn [fast_exact] in Hx. assert (Es : step_size A_2SPLIT2_MODAL eps = eps) by (unfold step_size; cbn; field). rewrite Es in *.
    pose proof (modal_scl _ _ _ Hx) as Ns.
    unfold akns_sample, step_MODAL. destruct (Ceq_dec _ 0) as [E|_]; [contradiction|].
    eexists. split; [reflexivity|]. intros lam. rewrite poly_mat_hmat. cbn [hmat]. unfold hor. cbn [fold_left raw_step].
    assert (Ez : zmap A_2SPLIT2_MODAL eps lam = Cexp (Ci * lam * RtoC eps) * Cexp (Ci * lam * RtoC eps)).
    { unfold zmap. rewrite <- Cexp_plus. f_equal. cbn [akns_degree akns_upsampling_factor]. replace (INR 1 * INR 1)%R with 1%R by (cbn; ring). field. }
    rewrite Ez. specialize (X lam eps). unfold modal, expA. set (e := Cexp (Ci * lam * RtoC eps)) in *. set (e' := Cexp (- Ci * lam * RtoC eps)) in *.
    set (s := Csqrt _) in *. clearbody s e e'.
    apply mat2_eq; cbn [a11 a12 a21 a22 mmul mscal];
    match goal with |- _ = ?rhs => 
      first [ transitivity (1 / s * (e * e')) ; [rewrite X; ring|ring]
            | transitivity (1 / s * (RtoC eps * r) * (e * e')); [rewrite X; ring|ring]
            | ring ] end.
  - assert (Hs : exists s, scheme_of d = Some s).
    { destruct Hf as [->|Hf]; [now destruct Nm; left|]. destruct (scheme_of d); [eauto|congruence]. }
    destruct Hs as (s & Hs). destruct (fscatter_is_splitting d s eps q r 0 Hs) as (ls & El & _).
    { intros t f Ht Hi Hb. destruct d; try (now destruct Nm; left); exact (Hx s t f Hs Ht Hi Hb). }
    exists ls. split; [exact El|]. intros lam. destruct (fscatter_is_splitting d s eps q r lam Hs) as (ls' & El' & E).
    { intros t f Ht Hi Hb. destruct d; try (now destruct Nm; left); exact (Hx s t f Hs Ht Hi Hb). }
    assert (ls' = ls) as -> by congruence.
    assert (Er : raw_step d (step_size d eps) q r lam = splitting lam q r (step_size d eps) (akns_degree d) s).
    { unfold raw_step. rewrite Hs. destruct d; try reflexivity. now destruct Nm; left. }
    rewrite Er, E, mscal_mscal. fold (zmap d eps lam). now rewrite X, mscal_one.
Qed.

Lemma raw_fast d h q r lam : is_fast d ->
  raw_step d h q r lam = if half_shifted d then mmul (expA lam (- (h / 2))) (mmul (fast_step d h q r lam) (expA lam (h / 2))) else fast_step d h q r lam.
Proof.
  intros _. assert (E0 : mmul (expA lam (- (h / 2))) (expA lam (h / 2)) = mone) by (rewrite <- expA_plus, Rplus_opp_l; apply expA_0).
  assert (E : expA lam h = mmul (expA lam (h / 2)) (expA lam (h / 2))) by (rewrite <- expA_plus; f_equal; field).
  assert (F : forall G, mmul (expA lam (- (h / 2))) (mmul (mmul (expA lam (h / 2)) (mmul G (expA lam (h / 2)))) (expA lam (h / 2))) = mmul G (expA lam h)).
  { intros G. rewrite E. transitivity (mmul (mmul (expA lam (- (h / 2))) (expA lam (h / 2))) (mmul G (mmul (expA lam (h / 2)) (expA lam (h / 2))))); [now rewrite !mmul_assoc|].
    now rewrite E0, mmul_one_l. }
  destruct d; try reflexivity; cbn [half_shifted raw_step fast_step].
  - symmetry. apply F.
  - rewrite F. cbn [scheme_of]. unfold splitting, scheme_val, word_val. cbn [fold_right fst snd akns_degree].
    replace (Q2R 1 * (h / INR 1))%R with h by (unfold Q2R; simpl; field).
    replace (RtoC (Q2R 1)) with (RtoC 1) by (unfold Q2R; simpl; f_equal; field). mring.
Qed.

(** the entries 11 and 21 of the product of the stored matrices *)
Definition shift21 (d : akns_disc) (h : R) (lam : C) : C := if half_shifted d then Cexp (- Ci * lam * RtoC h) else RtoC 1.
Lemma raw_product d (h : R) (q r : nat -> C) n lam : is_fast d ->
  let R := descending n (fun j => raw_step d h (q j) (r j) lam) in
  let S := descending n (fun j => fast_step d h (q j) (r j) lam) in
  a11 R = a11 S /\ a21 R = shift21 d h lam * a21 S.
Proof.
  intros Hf R S. assert (E : R = descending n (fun j => if half_shifted d then mmul (expA lam (- (h / 2))) (mmul (fast_step d h (q j) (r j) lam) (expA lam (h / 2))) else fast_step d h (q j) (r j) lam)).
  { apply descending_ext. intros j _. now apply raw_fast. }
  unfold shift21. destruct (half_shifted d) eqn:Eh; [|rewrite E; split; [reflexivity|fold S; ring]].
  assert (E0 : mmul (expA lam (h / 2)) (expA lam (- (h / 2))) = mone) by (rewrite <- expA_plus, Rplus_opp_r; apply expA_0).
  destruct (descending_conj n (expA lam (h / 2)) (expA lam (- (h / 2))) (fun j => fast_step d h (q j) (r j) lam) E0) as [E1|En].
  2: { rewrite E. unfold S. subst n. cbn. split; ring. }
  rewrite E, E1. fold S. unfold expA. cbn [a11 a12 a21 a22 mmul].
  assert (X1 : Cexp (- Ci * lam * RtoC (- (h / 2))) * Cexp (- Ci * lam * RtoC (h / 2)) = 1).
  { rewrite <- Cexp_plus, <- Cexp_0. f_equal. rewrite RtoC_opp. ring. }
  assert (X2 : Cexp (Ci * lam * RtoC (- (h / 2))) * Cexp (- Ci * lam * RtoC (h / 2)) = Cexp (- Ci * lam * RtoC h)).
  { rewrite <- Cexp_plus. f_equal. replace (RtoC h) with (RtoC (h / 2) + RtoC (h / 2)) by (rewrite <- RtoC_plus; f_equal; field). rewrite RtoC_opp. ring. }
  split.
  - transitivity (a11 S * (Cexp (- Ci * lam * RtoC (- (h / 2))) * Cexp (- Ci * lam * RtoC (h / 2)))); [ring|]. rewrite X1. ring.
  - rewrite <- X2. ring.
Qed.

(** ** The array that nse_fscatter returns *)
Lemma zpow_powerRZ W : zpow (K := CF) (RtoC 2) W = RtoC (powerRZ 2 W).
Proof.
  assert (P : forall (x : R) n, fpow (K := CF) (RtoC x) n = RtoC (x ^ n)%R).
  { intros x n. induction n as [|n IH]; [reflexivity|]. cbn [fpow pow]. rewrite IH, RtoC_mult. reflexivity. }
  destruct W as [|p|p]; cbn [zpow powerRZ].
  - reflexivity.
  - apply P.
  - transitivity (fpow (K := CF) (RtoC (/ 2)) (Pos.to_nat p)).
    + f_equal. symmetry. apply RtoC_inv. lra.
    + rewrite P, pow_inv by lra. reflexivity.
Qed.
Lemma degree_pos d : is_fast d -> akns_degree d <> O.
Proof. intros [->|H]; [discriminate|]. destruct d; try (now destruct H); discriminate. Qed.
Lemma ups_pos d : akns_implemented d -> akns_upsampling_factor d <> O.
Proof. intros (H1 & H2 & H3 & H4). destruct d; try congruence; discriminate. Qed.

Section Fsc.
Variable expo : list C -> Z.
Variables junk0 junk1 junk2 junkp : nat -> list C.
Hypothesis Hj0 : forall n, length (junk0 n) = n.
Hypothesis Hj1 : forall n, length (junk1 n) = n.
Hypothesis Hj2 : forall n, length (junk2 n) = n.
Hypothesis Hjp : forall n, length (junkp n) = n.

Lemma fscatter_entries norm N (q r res : list C) (eps : R) nd d numel : nse_to_akns nd = Some d -> is_fast d ->
  (2 <= N)%nat -> (Z.of_nat N <= 2147483647)%Z -> (0 < eps)%R -> (N <= length q)%nat -> (N <= length r)%nat ->
  akns_fscatter_numel N d = Ret numel -> (numel <= length res)%nat ->
  (forall j, (j < N)%nat -> fast_exact d (step_size d eps) (nthC q j) (nthC r j)) ->
  let deg := (N * akns_degree d)%nat in
  exists tm W, nse_fscatter expo junk0 junk1 junk2 junkp norm N (Some q) (Some r) eps (Some res) true nd = Ret (SUCCESS, Some deg, Some tm, W)
    /\ length tm = length res /\ (4 * (deg + 1) <= length tm)%nat /\ (norm = false -> W = 0%Z)
    /\ forall lam, let S := scattering d (weights d) eps (nthC q) (nthC r) N lam in
       RtoC (powerRZ 2 W) * peval (K := CF) (firstn (deg + 1) tm) (zmap d eps lam) = Cexp (Ci * lam * RtoC (INR N * step_size d eps)) * a11 S
       /\ RtoC (powerRZ 2 W) * peval (K := CF) (firstn (deg + 1) (skipn (2 * (deg + 1)) tm)) (zmap d eps lam)
          = Cexp (Ci * lam * RtoC (INR N * step_size d eps)) * (shift21 d (step_size d eps) lam * a21 S).
Proof.
  intros Hd Hf HN HN2 He Lq Lr Hnum Lres Hx deg.
  set (Ms := fun i => match akns_sample d eps (nth i q (RtoC 0)) (nth i r (RtoC 0)) with Some (Some ls) => ls | _ => ([], [], [], []) end).
  assert (HM : forall i, (i < N)%nat -> akns_sample d eps (nth i q (RtoC 0)) (nth i r (RtoC 0)) = Some (Some (Ms i)) /\ forall lam,
     poly_mat (Ms i) (zmap d eps lam) = mscal (Cexp (Ci * lam * RtoC (step_size d eps))) (raw_step d (step_size d eps) (nthC q i) (nthC r i) lam)).
  { intros i Hi. destruct (fast_sample d eps (nthC q i) (nthC r i) Hf (Hx i Hi)) as (ls & El & E). unfold nthC in El. unfold Ms. rewrite El. split; [reflexivity|exact E]. }
  pose proof (degree_pos d Hf) as Nd.
  destruct (akns_fscatter_product expo junk0 junk1 junk2 junkp Hj0 Hj1 Hj2 Hjp norm N q r res eps d numel Ms HN HN2 He Nd Lq Lr Hnum Lres (fun i Hi => proj1 (HM i Hi)))
    as (tm & W & E & Lt & HW & Hprod).
  exists tm, W. split. { eapply nse_fscatter_is_akns; try eassumption; lia. }
  split; [exact Lt|]. split.
  { rewrite Lt. unfold akns_fscatter_numel in Hnum. destruct (Nat.eqb_spec (akns_degree d) 0) as [Ez|_]; [contradiction|].
    destruct (poly_fmult_numel_value 4 (akns_degree d) N ltac:(lia) ltac:(lia)) as (k & Ek & Hk & _).
    assert (Hn : numel = (4 * (akns_degree d + 1) * 2 ^ k)%nat) by congruence. unfold deg. nia. }
  split; [exact HW|]. intros lam S.
  assert (ED : descending N (fun i => poly_mat (Ms i) (zmap d eps lam))
             = mscal (Cexp (Ci * lam * RtoC (INR N * step_size d eps))) (descending N (fun j => raw_step d (step_size d eps) (nthC q j) (nthC r j) lam))).
  { rewrite (descending_ext N _ (fun j => mscal (Cexp (Ci * lam * RtoC (step_size d eps))) (raw_step d (step_size d eps) (nthC q j) (nthC r j) lam))) by (intros j Hj; apply HM; exact Hj).
    rewrite descending_scal, Cexp_pown. f_equal. f_equal. rewrite RtoC_mult. ring. }
  assert (ES : S = descending N (fun j => fast_step d (step_size d eps) (nthC q j) (nthC r j) lam)).
  { unfold S, scattering. destruct (akns_degree d); [contradiction|reflexivity]. }
  destruct (raw_product d (step_size d eps) (nthC q) (nthC r) N lam Hf) as (P1 & P2). rewrite <- ES in P1, P2.
  pose proof (Hprod (zmap d eps lam) 0%nat 0%nat ltac:(lia) ltac:(lia)) as Q1.
  pose proof (Hprod (zmap d eps lam) 1%nat 0%nat ltac:(lia) ltac:(lia)) as Q2.
  rewrite ED in Q1, Q2. cbn [entry mscal a11 a21] in Q1, Q2. rewrite P1 in Q1. rewrite P2 in Q2. rewrite zpow_powerRZ in Q1, Q2.
  split; [exact Q1|exact Q2].
Qed.
End Fsc.

(** ** The arrays that nse_scatter_matrix returns *)
Lemma mone_conj X : mmul (minv mone) (mmul X mone) = X.
Proof. unfold minv, mdet, mone. apply mat2_eq; cbn [a11 a12 a21 a22 mmul mscal]; field; intros E; injection E as E; lra. Qed.
Lemma scatter_entries N (q r lam res : list C) (eps : R) kappa K W nd d : nse_to_akns nd = Some d -> akns_degree d = O -> is_slow d ->
  (1 <= N)%nat -> (match d with A_ES4 | A_TES4 => (N mod 3 = 0)%nat | _ => True end) -> (0 < eps)%R -> (N <= length q)%nat -> (N <= length r)%nat ->
  (kappa = 1 \/ kappa = -1)%Z -> (1 <= K)%nat -> (K <= length lam)%nat -> (4 * K <= length res)%nat -> match W with Some w => (K <= length w)%nat | None => True end ->
  (forall i, (i < K)%nat -> scattering_exact d (weights d) eps (nthC q) (nthC r) N (nth i lam (RtoC 0))) ->
  exists res' W', nse_scatter_matrix N (Some q) (Some r) eps kappa K (Some lam) (Some res) W nd 0 = Ret (SUCCESS, Some res', W')
    /\ length res' = length res /\ option_map (@length Z) W' = option_map (@length Z) W
    /\ forall i, (i < K)%nat -> let l := nth i lam (RtoC 0) in let S := scattering d (weights d) eps (nthC q) (nthC r) N l in
         RtoC (powerRZ 2 (WI W' i)) * nth (i * 4) res' (RtoC 0) = a11 S /\ RtoC (powerRZ 2 (WI W' i)) * nth (i * 4 + 2) res' (RtoC 0) = a21 S.
Proof.
  intros Hd Hdeg Hs HN Hm He Lq Lr Hk HK Ll Lres LW Hx.
  assert (HV : valid N q r eps K lam res W d PDE_NSE false) by (constructor; auto; try discriminate; cbn; lia).
  destruct (akns_scatter_matrix_product _ _ _ _ _ _ _ _ _ _ false _ HV) as (res' & W' & E & L & LW' & _ & _ & B).
  exists res', W'. split. { exact (nse_scatter_matrix_is_akns N q r eps kappa K lam res W nd d 0 SUCCESS (Some res') W' HN He Hk HK Hd E ltac:(discriminate)). }
  split; [exact L|]. split; [exact LW'|]. intros i Hi l S. destruct (B i Hi) as (V & V' & HVs & HB). fold l in HVs, HB.
  assert (EV : forall j, (j < slow_steps d N)%nat -> V j = slow_step d (weights d) (RtoC eps) (nthC q) (nthC r) j l).
  { intros j Hj. apply step_value; [apply HVs; exact Hj|]. specialize (Hx i Hi). unfold scattering_exact in Hx. rewrite Hdeg in Hx. now apply Hx. }
  assert (ES : based PDE_NSE false l (descending (slow_steps d N) V) = S).
  { unfold S, scattering. rewrite Hdeg, (descending_ext _ V _ EV). unfold based, basisP. apply mone_conj. }
  rewrite ES in HB. destruct (HB 0%nat 0%nat ltac:(lia) ltac:(lia)) as [H0 _]. destruct (HB 1%nat 0%nat ltac:(lia) ltac:(lia)) as [H2 _].
  cbn [entry] in H0, H2. replace (4 * i + 2 * 0 + 0)%nat with (i * 4)%nat in H0 by lia. replace (4 * i + 2 * 1 + 0)%nat with (i * 4 + 2)%nat in H2 by lia. auto.
Qed.
