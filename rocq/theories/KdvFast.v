(** * From kdv_fscatter, kdv_scatter_matrix and the change of basis to the discrete scattering matrix of the KdV *)
From Coq Require Import Reals Lra Qreals.
From Coquelicot Require Import Coquelicot.
From Verif Require Import Base Loop Fields ErrModel CExp CField MiscProof DiscTables DiscModel FscatterTab FscatterAlg FscatterSpec FscatterModel FscatterProof FscatterProps ScatterSpec ScatterRun ScatterLoop ScatterMatProps PolySpec MatSpec PolyFmultModel KissProof PolyFmultProps DiscProps ScatterModel ScatterNse
  MiscNumModel NftSpec NsevFast NsevSpec NsevProps KdvvModel KdvvProps KdvvSafe.
Local Open Scope C_scope.

(** ** Specification: the scattering matrix of the KdV in the basis S.
   The KdV is the AKNS system with r = -1; the discretisations without _VANILLA exchange q and r.  P = basisP *)
Definition kdv_S (d : akns_disc) (vanilla : bool) (w : list C) (eps : R) (q r : nat -> C) (n : nat) (lam : C) : mat2 :=
  based PDE_KdV vanilla lam (scattering d w eps (if vanilla then q else r) (if vanilla then r else q) n lam).
Definition kdv_exact (d : akns_disc) (vanilla : bool) (w : list C) (eps : R) (q r : nat -> C) (n : nat) (lam : C) : Prop :=
  scattering_exact d w eps (if vanilla then q else r) (if vanilla then r else q) n lam.

(** ** The change of basis of the code undoes the half steps that 2SPLIT2A and 2SPLIT2_MODAL leave out *)
Definition from_m (d : akns_disc) (v : bool) (eps : R) (x : C) : mat2 :=
  if half_shifted d then mmul (expA x (- (eps / 2))) (basisP PDE_KdV v x) else basisP PDE_KdV v x.
Definition to_m (d : akns_disc) (v : bool) (eps : R) (x : C) : mat2 :=
  if half_shifted d then mmul (minv (basisP PDE_KdV v x)) (expA x (eps / 2)) else minv (basisP PDE_KdV v x).
Lemma shift_class d : akns_implemented d -> akns_to_S_kdv_class d = Some (half_shifted d) /\ akns_from_S_kdv_class d = Some (half_shifted d).
Proof. intros (H1 & H2 & H3 & H4). destruct d; try congruence; split; reflexivity. Qed.
Lemma exp_half (x : C) (e : R) : Cexp (- Ci * x * RtoC (- (e / 2))) = Cexp (RtoC (1/2) * Ci * x * RtoC e) /\ Cexp (Ci * x * RtoC (- (e / 2))) = Cexp (RtoC (-1/2) * Ci * x * RtoC e) /\
  Cexp (- Ci * x * RtoC (e / 2)) = Cexp (RtoC (-1/2) * Ci * x * RtoC e) /\ Cexp (Ci * x * RtoC (e / 2)) = Cexp (RtoC (1/2) * Ci * x * RtoC e).
Proof.
  assert (E1 : RtoC (- (e / 2)) = - (RtoC (1/2) * RtoC e)) by (rewrite RtoC_opp, <- RtoC_mult; f_equal; f_equal; field).
  assert (E2 : RtoC (e / 2) = RtoC (1/2) * RtoC e) by (rewrite <- RtoC_mult; f_equal; field).
  assert (E3 : RtoC (-1/2) = - RtoC (1/2)) by (rewrite <- RtoC_opp; f_equal; field).
  rewrite E1, E2, E3. repeat split; f_equal; ring.
Qed.
Lemma kdv_from_S_value T (x : C) eps kd d v : length T = 4%nat -> kdv_to_akns kd = Some d -> kdv_vanilla_flag kd = Some v -> akns_implemented d -> x <> 0 ->
  kdv_from_S T x false eps kd = Ret (SUCCESS, l4 (from_m d v eps x)).
Proof.
  intros LT Hd Hv Hi Nx. unfold kdv_from_S, kdv_basis. rewrite Hd, Hv. unfold akns_from_S, basis_matrix.
  destruct (Ceq_dec x 0) as [|_]; [contradiction|]. rewrite (proj2 (shift_class d Hi)). unfold from_S_kdv_writes.
  destruct (exp_half x eps) as (X1 & X2 & X3 & X4).
  unfold from_m. destruct (half_shifted d), v; rewrite (writes_spec false) by exact LT; f_equal; f_equal; unfold l4, expA; cbn [a11 a12 a21 a22 mmul basisP];
  rewrite ?X1, ?X2; repeat (apply f_equal2; [try reflexivity; ring|]); reflexivity.
Qed.
Lemma kdv_to_S_value T (x : C) eps kd d v : length T = 4%nat -> kdv_to_akns kd = Some d -> kdv_vanilla_flag kd = Some v -> akns_implemented d -> x <> 0 ->
  kdv_to_S T x false eps kd = Ret (SUCCESS, l4 (to_m d v eps x)).
Proof.
  intros LT Hd Hv Hi Nx. unfold kdv_to_S, kdv_basis. rewrite Hd, Hv. unfold akns_to_S, basis_matrix.
  destruct (Ceq_dec x 0) as [|_]; [contradiction|]. rewrite (proj1 (shift_class d Hi)). unfold to_S_kdv_writes.
  destruct (exp_half x eps) as (X1 & X2 & X3 & X4).
  unfold to_m. destruct (half_shifted d), v; rewrite (writes_spec false) by exact LT; f_equal; f_equal; unfold l4, expA, minv, mdet; cbn [a11 a12 a21 a22 mmul mscal basisP];
  rewrite ?X3, ?X4, ?half_inv; try (set (E1 := Cexp _) in *; clearbody E1); try (set (E2 := Cexp _) in *; clearbody E2); rewrite ?Cm1;
  repeat (apply f_equal2; [first [reflexivity|ring|field [Ci_sqr]; auto using Ci_neq0, C2_neq0]|]); reflexivity.
Qed.
Lemma mult_l4 (A B : mat2) (X : list C) : length X = 4%nat -> misc_matrix_mult (K:=CF) 2 2 2 (l4 A) (l4 B) X = Ret (l4 (mmul A B)).
Proof.
  intros L. destruct (list4 X L) as (x0 & x1 & x2 & x3 & ->). unfold l4.
  cbv [misc_matrix_mult for_ bind aget aset Nat.mul Nat.add upd]. cbn.
  f_equal. repeat (apply f_equal2; [ring|]). reflexivity.
Qed.
Definition shifted_of (d : akns_disc) (h : R) (lam : C) (S : mat2) : mat2 :=
  if half_shifted d then mmul (expA lam (- (h / 2))) (mmul S (expA lam (h / 2))) else S.
Lemma to_from d v (h : R) (x : C) S : mmul (to_m d v h x) (mmul (shifted_of d h x S) (from_m d v h x)) = based PDE_KdV v x S.
Proof.
  unfold to_m, from_m, shifted_of, based. destruct (half_shifted d); [|reflexivity].
  assert (E0 : mmul (expA x (h / 2)) (expA x (- (h / 2))) = mone) by (rewrite <- expA_plus, Rplus_opp_r; apply expA_0).
  transitivity (mmul (minv (basisP PDE_KdV v x)) (mmul (mmul (expA x (h / 2)) (expA x (- (h / 2)))) (mmul S (mmul (mmul (expA x (h / 2)) (expA x (- (h / 2)))) (basisP PDE_KdV v x))))).
  - now rewrite !mmul_assoc.
  - now rewrite E0, !mmul_one_l.
Qed.
Lemma raw_shifted d (h : R) (q r : nat -> C) n lam : is_fast d -> (1 <= n)%nat ->
  descending n (fun j => raw_step d h (q j) (r j) lam) = shifted_of d h lam (descending n (fun j => fast_step d h (q j) (r j) lam)).
Proof.
  intros Hf Hn. rewrite (descending_ext n _ (fun j => if half_shifted d then mmul (expA lam (- (h / 2))) (mmul (fast_step d h (q j) (r j) lam) (expA lam (h / 2))) else fast_step d h (q j) (r j) lam))
    by (intros j _; now apply raw_fast).
  unfold shifted_of. destruct (half_shifted d); [|reflexivity].
  destruct (descending_conj n (expA lam (h / 2)) (expA lam (- (h / 2))) (fun j => fast_step d h (q j) (r j) lam)) as [E|E]; [|exact E|lia].
  rewrite <- expA_plus, Rplus_opp_r. apply expA_0.
Qed.
Lemma to_from_scal d v (h : R) (x c : C) S : mmul (to_m d v h x) (mmul (mscal c (shifted_of d h x S)) (from_m d v h x)) = mscal c (based PDE_KdV v x S).
Proof. rewrite <- (to_from d v h x S). rewrite mscal_mul_l, mscal_mul_r. reflexivity. Qed.
Lemma half_shifted_step d (eps : R) : half_shifted d = true -> step_size d eps = eps.
Proof. destruct d; try discriminate; intros _; unfold step_size; cbn; field. Qed.

(** ** The loop over the frequencies *)
Definition row (H : list C) (M j : nat) : mat2 := M2 (nth j H 0) (nth (M + j) H 0) (nth (2 * M + j) H 0) (nth (3 * M + j) H 0).
Lemma basis_loop_value E eps kd d v M (xi : list C) : (forall k n, length (ke_junk E k n) = n) -> kdv_to_akns kd = Some d -> kdv_vanilla_flag kd = Some v -> akns_implemented d ->
  length xi = M -> (forall j, (j < M)%nat -> nth j xi 0 <> 0) ->
  forall cnt i H, (i + cnt = M)%nat -> length H = (4 * M)%nat ->
  exists H', basis_loop E cnt i M xi eps kd H = Ret (SUCCESS, H') /\ length H' = (4 * M)%nat
    /\ (forall j, (j < i)%nat -> row H' M j = row H M j)
    /\ forall j, (i <= j < M)%nat -> let x := nth j xi 0 in row H' M j = mmul (to_m d v eps x) (mmul (row H M j) (from_m d v eps x)).
Proof.
  intros HJ Hd Hv Hi Lx Nx. induction cnt as [|k IH]; intros i H Hik LH; cbn [basis_loop].
  { exists H. split; [reflexivity|]. split; [exact LH|]. split; [reflexivity|]. intros j Hj. lia. }
  rewrite (aget_nth H (RtoC 0) i) by lia. cbn [bind]. rewrite (aget_nth H (RtoC 0) (M + i)) by lia. cbn [bind].
  rewrite (aget_nth H (RtoC 0) (2 * M + i)) by lia. cbn [bind]. rewrite (aget_nth H (RtoC 0) (3 * M + i)) by lia. cbn [bind].
  rewrite (aget_nth xi (RtoC 0) i) by lia. cbn [bind]. set (x := nth i xi (RtoC 0)). assert (Nxi : x <> 0) by (apply Nx; lia).
  rewrite (kdv_from_S_value _ x eps kd d v (HJ 10%nat 4%nat) Hd Hv Hi Nxi). cbn [bind]. unfold check at 1. change (SUCCESS =? SUCCESS)%Z with true. cbv iota.
  change [nth i H (RtoC 0); nth (M + i) H (RtoC 0); nth (2 * M + i) H (RtoC 0); nth (3 * M + i) H (RtoC 0)] with (l4 (row H M i)).
  rewrite (mult_l4 _ _ _ (HJ 11%nat 4%nat)). cbn [bind].
  rewrite (kdv_to_S_value (l4 (from_m d v eps x)) x eps kd d v eq_refl Hd Hv Hi Nxi). cbn [bind]. unfold check at 1. change (SUCCESS =? SUCCESS)%Z with true. cbv iota.
  rewrite mult_l4 by reflexivity. cbn [bind]. set (Y := mmul (to_m d v eps x) (mmul (row H M i) (from_m d v eps x))).
  unfold l4. cbn [aget nth_error bind].
  rewrite (aset_upd H) by lia. cbn [bind]. rewrite aset_upd by (rewrite ?upd_length; lia). cbn [bind]. rewrite aset_upd by (rewrite ?upd_length; lia). cbn [bind].
  rewrite aset_upd by (rewrite ?upd_length; lia). cbn [bind].
  set (H1 := upd (upd (upd (upd H i (a11 Y)) (M + i) (a12 Y)) (2 * M + i) (a21 Y)) (3 * M + i) (a22 Y)).
  assert (L1 : length H1 = (4 * M)%nat) by (unfold H1; now rewrite !upd_length).
  assert (R1 : forall j, (j < M)%nat -> row H1 M j = if Nat.eqb j i then Y else row H M j).
  { intros j Hj. unfold row, H1. repeat (rewrite nth_upd by (rewrite ?upd_length; lia)).
    destruct (Nat.eqb_spec j i) as [->|Nj].
    - rewrite !Nat.eqb_refl. repeat match goal with |- context [Nat.eqb ?a ?b] => destruct (Nat.eqb_spec a b); [lia|] end. destruct Y; reflexivity.
    - repeat match goal with |- context [Nat.eqb ?a ?b] => destruct (Nat.eqb_spec a b); [lia|] end. reflexivity. }
  destruct (IH (S i) H1 ltac:(lia) L1) as (H' & E' & L' & O' & V'). exists H'. split; [exact E'|]. split; [exact L'|]. split.
  - intros j Hj. rewrite O' by lia. rewrite R1 by lia. destruct (Nat.eqb_spec j i); [lia|reflexivity].
  - intros j Hj. cbv zeta. destruct (Nat.eq_dec j i) as [->|Nj].
    + rewrite O' by lia. rewrite R1 by lia. now rewrite Nat.eqb_refl.
    + rewrite (V' j ltac:(lia)). cbv zeta. rewrite R1 by lia. destruct (Nat.eqb_spec j i); [lia|reflexivity].
Qed.

(** ** The array that kdv_fscatter returns *)
Section Fsc.
Variable expo : list C -> Z.
Variables junk0 junk1 junk2 junkp : nat -> list C.
Hypothesis Hj0 : forall n, length (junk0 n) = n.
Hypothesis Hj1 : forall n, length (junk1 n) = n.
Hypothesis Hj2 : forall n, length (junk2 n) = n.
Hypothesis Hjp : forall n, length (junkp n) = n.

Lemma kfscatter_entries norm N (q r res : list C) (eps : R) kd d v numel : kdv_to_akns kd = Some d -> kdv_vanilla_flag kd = Some v -> is_fast d ->
  (2 <= N)%nat -> (Z.of_nat N <= 2147483647)%Z -> (0 < eps)%R -> (N <= length q)%nat -> (N <= length r)%nat ->
  akns_fscatter_numel N d = Ret numel -> (numel <= length res)%nat ->
  let q' := if v then q else r in let r' := if v then r else q in
  (forall j, (j < N)%nat -> fast_exact d (step_size d eps) (nthC q' j) (nthC r' j)) ->
  let deg := (N * akns_degree d)%nat in
  exists tm W, kdv_fscatter expo junk0 junk1 junk2 junkp norm N (Some q) (Some r) eps (Some res) true kd = Ret (SUCCESS, Some deg, Some tm, W)
    /\ length tm = length res /\ (4 * (deg + 1) <= length tm)%nat /\ (norm = false -> W = 0%Z)
    /\ forall lam x y, (x < 2)%nat -> (y < 2)%nat -> let S := scattering d (weights d) eps (nthC q') (nthC r') N lam in
       RtoC (powerRZ 2 W) * peval (K := CF) (firstn (deg + 1) (skipn ((x * 2 + y) * (deg + 1)) tm)) (zmap d eps lam)
       = Cexp (Ci * lam * RtoC (INR N * step_size d eps)) * entry (shifted_of d (step_size d eps) lam S) x y.
Proof.
  intros Hd Hv Hf HN HN2 He Lq Lr Hnum Lres q' r' Hx deg.
  assert (Lq' : (N <= length q')%nat) by (unfold q'; destruct v; assumption). assert (Lr' : (N <= length r')%nat) by (unfold r'; destruct v; assumption).
  set (Ms := fun i => match akns_sample d eps (nth i q' (RtoC 0)) (nth i r' (RtoC 0)) with Some (Some ls) => ls | _ => ([], [], [], []) end).
  assert (HM : forall i, (i < N)%nat -> akns_sample d eps (nth i q' (RtoC 0)) (nth i r' (RtoC 0)) = Some (Some (Ms i)) /\ forall lam,
     poly_mat (Ms i) (zmap d eps lam) = mscal (Cexp (Ci * lam * RtoC (step_size d eps))) (raw_step d (step_size d eps) (nthC q' i) (nthC r' i) lam)).
  { intros i Hi. destruct (fast_sample d eps (nthC q' i) (nthC r' i) Hf (Hx i Hi)) as (ls & El & E). unfold nthC in El. unfold Ms. rewrite El. split; [reflexivity|exact E]. }
  pose proof (degree_pos d Hf) as Nd.
  destruct (akns_fscatter_product expo junk0 junk1 junk2 junkp Hj0 Hj1 Hj2 Hjp norm N q' r' res eps d numel Ms HN HN2 He Nd Lq' Lr' Hnum Lres (fun i Hi => proj1 (HM i Hi)))
    as (tm & W & E & Lt & HW & Hprod).
  exists tm, W. split. { eapply kdv_fscatter_is_akns; try eassumption; try lia. unfold q', r' in E. destruct v; exact E. }
  split; [exact Lt|]. split.
  { rewrite Lt. unfold akns_fscatter_numel in Hnum. destruct (Nat.eqb_spec (akns_degree d) 0) as [Ez|_]; [contradiction|].
    destruct (poly_fmult_numel_value 4 (akns_degree d) N ltac:(lia) ltac:(lia)) as (k & Ek & Hk & _).
    assert (Hn : numel = (4 * (akns_degree d + 1) * 2 ^ k)%nat) by congruence. unfold deg. nia. }
  split; [exact HW|]. intros lam x y Hx2 Hy2 S.
  assert (ED : descending N (fun i => poly_mat (Ms i) (zmap d eps lam))
             = mscal (Cexp (Ci * lam * RtoC (INR N * step_size d eps))) (descending N (fun j => raw_step d (step_size d eps) (nthC q' j) (nthC r' j) lam))).
  { rewrite (descending_ext N _ (fun j => mscal (Cexp (Ci * lam * RtoC (step_size d eps))) (raw_step d (step_size d eps) (nthC q' j) (nthC r' j) lam))) by (intros j Hj; apply HM; exact Hj).
    rewrite descending_scal, Cexp_pown. f_equal. f_equal. rewrite RtoC_mult. ring. }
  assert (ES : S = descending N (fun j => fast_step d (step_size d eps) (nthC q' j) (nthC r' j) lam)).
  { unfold S, scattering. destruct (akns_degree d); [contradiction|reflexivity]. }
  rewrite (raw_shifted d (step_size d eps) (nthC q') (nthC r') N lam Hf ltac:(lia)) in ED. rewrite <- ES in ED.
  pose proof (Hprod (zmap d eps lam) x y Hx2 Hy2) as Q. rewrite ED, zpow_powerRZ in Q.
  assert (EM : forall c X, entry (mscal c X) x y = c * entry X x y) by (intros c X; destruct x as [|[|]], y as [|[|]]; try lia; reflexivity).
  rewrite EM in Q. exact Q.
Qed.
End Fsc.

(** ** The arrays that kdv_scatter_matrix returns *)
Lemma kscatter_entries N (q r lam res : list C) (eps : R) kappa K W kd d v : kdv_to_akns kd = Some d -> kdv_vanilla_flag kd = Some v -> akns_degree d = O -> is_slow d ->
  (1 <= N)%nat -> (match d with A_ES4 | A_TES4 => (N mod 3 = 0)%nat | _ => True end) -> (0 < eps)%R -> (N <= length q)%nat -> (N <= length r)%nat ->
  (1 <= K)%nat -> (K <= length lam)%nat -> (4 * K <= length res)%nat -> match W with Some w => (K <= length w)%nat | None => True end ->
  (forall i, (i < K)%nat -> nth i lam (RtoC 0) <> 0 /\ kdv_exact d v (weights d) eps (nthC q) (nthC r) N (nth i lam (RtoC 0))) ->
  exists res' W', kdv_scatter_matrix N (Some q) (Some r) eps kappa K (Some lam) (Some res) W kd 0 = Ret (SUCCESS, Some res', W')
    /\ length res' = length res /\ option_map (@length Z) W' = option_map (@length Z) W
    /\ forall i, (i < K)%nat -> let l := nth i lam (RtoC 0) in let S := kdv_S d v (weights d) eps (nthC q) (nthC r) N l in
         RtoC (powerRZ 2 (WI W' i)) * nth (i * 4) res' (RtoC 0) = a11 S /\ RtoC (powerRZ 2 (WI W' i)) * nth (i * 4 + 2) res' (RtoC 0) = a21 S.
Proof.
  intros Hd Hv Hdeg Hs HN Hm He Lq Lr HK Ll Lres LW Hx.
  set (q' := if v then q else r). set (r' := if v then r else q).
  assert (Lq' : (N <= length q')%nat) by (unfold q'; destruct v; assumption). assert (Lr' : (N <= length r')%nat) by (unfold r'; destruct v; assumption).
  assert (HV : valid N q' r' eps K lam res W d PDE_KdV false) by (constructor; auto; try discriminate; right; split; [reflexivity|]; intros i Hi; apply Hx; exact Hi).
  destruct (akns_scatter_matrix_product _ _ _ _ _ _ _ _ _ _ v _ HV) as (res' & W' & E & L & LW' & _ & _ & B).
  exists res', W'. split. { exact (kdv_scatter_matrix_is_akns N q r eps kappa K lam res W kd d v 0 SUCCESS (Some res') W' HN He HK Hd Hv E ltac:(discriminate)). }
  split; [exact L|]. split; [exact LW'|]. intros i Hi l S. destruct (B i Hi) as (V & V' & HVs & HB). fold l in HVs, HB.
  assert (EQ : (fun j => nthC q' j) = if v then nthC q else nthC r) by (unfold q'; destruct v; reflexivity).
  assert (ER : (fun j => nthC r' j) = if v then nthC r else nthC q) by (unfold r'; destruct v; reflexivity).
  assert (EV : forall j, (j < slow_steps d N)%nat -> V j = slow_step d (weights d) (RtoC eps) (if v then nthC q else nthC r) (if v then nthC r else nthC q) j l).
  { intros j Hj. rewrite <- EQ, <- ER. apply step_value; [apply HVs; exact Hj|]. destruct (Hx i Hi) as [_ Hx']. unfold kdv_exact, scattering_exact in Hx'. rewrite Hdeg in Hx'. rewrite <- EQ, <- ER in Hx'. now apply Hx'. }
  assert (ES : based PDE_KdV v l (descending (slow_steps d N) V) = S).
  { unfold S, kdv_S, scattering. rewrite Hdeg, (descending_ext _ V _ EV). reflexivity. }
  rewrite ES in HB. destruct (HB 0%nat 0%nat ltac:(lia) ltac:(lia)) as [H0 _]. destruct (HB 1%nat 0%nat ltac:(lia) ltac:(lia)) as [H2 _].
  cbn [entry] in H0, H2. replace (4 * i + 2 * 0 + 0)%nat with (i * 4)%nat in H0 by lia. replace (4 * i + 2 * 1 + 0)%nat with (i * 4 + 2)%nat in H2 by lia. auto.
Qed.
