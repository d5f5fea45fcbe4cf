(** * The continuous spectrum that fnft_kdvv returns is the one of the discretised signal (C91) *)
From Coq Require Import Reals Lra.
From Coquelicot Require Import Coquelicot.
From Verif Require Import Loop Mem CExp CField MiscProof DiscSpec DiscTables DiscModel DiscProps DiscPreProps DiscPreNse FscatterSpec FscatterModel FscatterProof FscatterProps
  ScatterSpec ScatterModel ScatterRun ScatterLoop ScatterMatProps ChirpzModel ChirpzProof PolySpec KissProof PolyFmultProof BoundModel NsevSpec NsevProps NsevSafe ManvSafe
  NsevEnv KdvvSpec KdvvProps KdvvSafe KdvvSafe3 NftSpec NsevFast NsevCs NsevLib NsevCsTop.
From Verif Require Import KdvFast.
Local Open Scope C_scope.

(** ** fnft_kdvv with the models of its subroutines in place of the parameter [kenv]: kdv_discretization_preprocess_signal
   (DiscModel), kdv_fscatter (FscatterModel), kdv_scatter_matrix (ScatterModel), poly_chirpz (ChirpzModel),
   kdv_scatter_bound_states (BoundModel); no allocation of the driver fails.  [tiny], [below] stand for nexttoward *)
Definition klib_env (L : lib) (tiny : R) (below : R -> R) : kenv := {|
  ke_alloc := fun _ _ => true;
  ke_junk := l_junk L;
  ke_pre := fun _ D q eps_t Dsub d => kdv_preprocess (l_junk L) (l_junkR L) D (Some q) eps_t Dsub d;
  ke_fscatter := fun _ D q r eps_t res norm d =>
    x <- kdv_fscatter (l_expo L) (l_0 L) (l_1 L) (l_2 L) (l_p L) norm D (Some q) (Some r) eps_t (Some res) true d ;;
    let '(code, deg, res, W) := x in Ret (code, match deg with Some n => n | None => O end, or_nil res, W);
  ke_smat := fun _ D q r eps_t K lam norm d =>
    x <- kdv_scatter_matrix D (Some q) (Some r) eps_t 1 K (Some lam) (Some (l_junk L 2 (4 * K)%nat)) (if norm then Some (l_junkZ L K) else None) d 0 ;;
    let '(code, res, W) := x in Ret (code, or_nil res, or_nil W);
  ke_chirpz := fun _ deg p A V M =>
    x <- poly_chirpz (l_junk L) deg (Some p) A V M (Some (l_junk L 1 M)) ;;
    let '(code, res) := x in Ret (code, or_nil res);
  ke_sbs := fun _ D q r T K bs norm d skip =>
    x <- kdv_scatter_bound_states (l_junk1 L) (l_junkZ L) (l_junkZ L) D (Some q) (Some r) (Some T) K (Some bs)
           (Some (l_junk L 5 K)) (Some (l_junk L 6 K)) (if skip then None else Some (l_junk L 7 K)) (if norm then Some (l_junkZ L K) else None) d skip ;;
    let '(code, a, ap, b, W) := x in Ret (code, or_nil a, or_nil ap, or_nil b, or_nil W);
  ke_tiny := tiny;
  ke_below := below |}.

Section Contspec.
Variable L : lib.
Variables (tiny : R) (below : R -> R).
Hypothesis HL : lib_ok L.
Let EV := klib_env L tiny below.

Lemma kknown_fast_slow kd : kd <> K_other -> exists d v, kdv_to_akns kd = Some d /\ kdv_vanilla_flag kd = Some v /\ akns_implemented d /\
  ((is_fast d /\ akns_degree d <> O) \/ (is_slow d /\ akns_degree d = O)).
Proof.
  intros H. destruct kd; try congruence; eexists _, _; (split; [reflexivity|]); (split; [reflexivity|]); (split; [repeat split; discriminate|]);
  first [ left; split; [right; discriminate || (left; reflexivity)|discriminate]
        | left; split; [left; reflexivity|discriminate]
        | right; split; [unfold is_slow; auto 10|reflexivity] ].
Qed.
(** the phase factors turn the computed entries into a and b *)
Lemma kphases kd d (eps : R) T D : kd <> K_other -> kdv_to_akns kd = Some d -> exists pa pb,
  kdv_phase_factor_a eps D (fst T) (snd T) kd = POk (Some pa) /\ kdv_phase_factor_b eps D (fst T) (snd T) kd = POk (Some pb) /\
  kdv_phase_factor_rho eps (snd T) kd = POk (Some (pb - pa)%R) /\
  forall lam S, let f := match akns_degree d with O => RtoC 1 | _ => Cexp (Ci * lam * RtoC (INR (D * akns_upsampling_factor d) * step_size d eps)) end in
    f * a11 S * Cexp (Ci * lam * RtoC pa) = nft_a_of S T eps lam /\ f * a21 S * Cexp (Ci * lam * RtoC pb) = nft_b_of S T eps lam.
Proof.
  intros Hn Hd. destruct (kdv_phase_factors_consistent kd eps (fst T) (snd T) D Hn) as (pr & pa & pb & Hr & Ha & Hb & ->).
  exists pa, pb. split; [exact Ha|]. split; [exact Hb|]. split; [exact Hr|]. intros lam S. cbv zeta.
  assert (Eh : (INR (D * akns_upsampling_factor d) * step_size d eps = INR D * eps)%R).
  { unfold step_size. rewrite mult_INR. field. apply not_0_INR. apply ups_pos. destruct kd; try congruence; injection Hd as <-; repeat split; discriminate. }
  rewrite Eh. clear Eh Hr. unfold nft_a_of, nft_b_of.
  assert (EA : forall (c : C) (x y x' y' : C), x + y = x' + y' -> Cexp x * c * Cexp y = c * Cexp x' * Cexp y').
  { intros c x y x' y' E0. transitivity (c * (Cexp x * Cexp y)); [ring|]. rewrite <- Cexp_plus, E0, Cexp_plus. ring. }
  assert (E1 : forall (c : C) (y x' y' : C), y = x' + y' -> 1 * c * Cexp y = c * Cexp x' * Cexp y').
  { intros c y x' y' ->. rewrite Cexp_plus. ring. }
  destruct kd; try congruence; injection Hd as <-; cbn in Ha, Hb; injection Ha as <-; injection Hb as <-; cbn [akns_degree];
  (split; [apply EA || apply E1|apply EA || apply E1]; apply Ceq; cbn; try (unfold akns_boundary_coeff); try field).
Qed.

(** the transfer matrix that fnft_kdvv_base holds when it calls kdvv_compute_contspec *)
Definition ktransfer_ok (d : akns_disc) (v : bool) (eps : R) (q r : list C) (N deg : nat) (W : Z) (tm : option (list C)) : Prop :=
  is_slow d /\ akns_degree d = O /\ tm = None /\ deg = O /\ W = 0%Z \/
  is_fast d /\ akns_degree d <> O /\ exists p, tm = Some p /\ (4 * (deg + 1) <= length p)%nat /\
    forall lam x y, (x < 2)%nat -> (y < 2)%nat -> let S := scattering d (weights d) eps (nthC (if v then q else r)) (nthC (if v then r else q)) N lam in
       RtoC (powerRZ 2 W) * peval (K := CF) (firstn (deg + 1) (skipn ((x * 2 + y) * (deg + 1)) p)) (zmap d eps lam)
       = Cexp (Ci * lam * RtoC (INR N * step_size d eps)) * entry (shifted_of d (step_size d eps) lam S) x y.

Lemma nth_app4 (A B C0 D0 : list C) M j : length A = M -> length B = M -> length C0 = M -> length D0 = M -> (j < M)%nat ->
  row (A ++ B ++ C0 ++ D0) M j = M2 (nth j A 0) (nth j B 0) (nth j C0 0) (nth j D0 0).
Proof.
  intros L1 L2 L3 L4 Hj. unfold row.
  assert (X : forall (P Q : list C) k, length P = M -> nth (M + k) (P ++ Q) (RtoC 0) = nth k Q (RtoC 0)).
  { intros P Q k LP. rewrite app_nth2 by lia. f_equal. lia. }
  rewrite app_nth1 by lia. rewrite X by exact L1. rewrite app_nth1 by lia.
  replace (2 * M + j)%nat with (M + (M + j))%nat by lia. rewrite X, X by assumption. rewrite app_nth1 by lia.
  replace (3 * M + j)%nat with (M + (M + (M + j)))%nat by lia. rewrite X, X, X by assumption. reflexivity.
Qed.
Lemma mat2_eta M : M2 (entry M 0 0) (entry M 0 1) (entry M 1 0) (entry M 1 1) = M.
Proof. destruct M; reflexivity. Qed.

Lemma kcontspec_values_lib s deg W tm q r eps eps_xi N M XI0 xi o d v :
  kdv_to_akns (k_disc o) = Some d -> kdv_vanilla_flag (k_disc o) = Some v -> akns_implemented d ->
  (2 <= N)%nat -> length q = N -> length r = N -> (0 < eps)%R -> (2 <= M)%nat ->
  xi = map (fun i => RtoC (XI0 + eps_xi * INR i)) (seq 0 M) ->
  match d with A_ES4 | A_TES4 => (N mod 3 = 0)%nat | _ => True end ->
  (forall i, (i < M)%nat -> RtoC (XI0 + eps_xi * INR i) <> 0 /\ kdv_exact d v (weights d) eps (nthC q) (nthC r) N (RtoC (XI0 + eps_xi * INR i))) ->
  ktransfer_ok d v eps q r N deg W tm ->
  exists H11 H21, kcontspec_values EV s deg W tm q r eps eps_xi N M XI0 xi o = Ret (SUCCESS, (H11, H21))
    /\ length H11 = M /\ length H21 = M /\ forall i, (i < M)%nat -> let lam := RtoC (XI0 + eps_xi * INR i) in
       let S := kdv_S d v (weights d) eps (nthC q) (nthC r) N lam in
       let f := match akns_degree d with O => RtoC 1 | _ => Cexp (Ci * lam * RtoC (INR N * step_size d eps)) end in
       nth i H11 0 * RtoC (powerRZ 2 W) = f * a11 S /\ nth i H21 0 * RtoC (powerRZ 2 W) = f * a21 S.
Proof.
  intros Hd Hv Hi HN Lq Lr He HM Exi Hm3 Hx Hcase.
  assert (Lx : length xi = M) by (rewrite Exi, map_length; apply seq_length).
  assert (Nx : forall i, (i < M)%nat -> nth i xi (RtoC 0) = RtoC (XI0 + eps_xi * INR i)).
  { intros i HiM. rewrite Exi. rewrite nth_indep with (d' := (fun i => RtoC (XI0 + eps_xi * INR i)) 0%nat) by (rewrite map_length, seq_length; exact HiM).
    rewrite (map_nth (fun i => RtoC (XI0 + eps_xi * INR i))). now rewrite seq_nth by exact HiM. }
  unfold kcontspec_values. destruct Hcase as [(Hs & Hdeg & -> & -> & ->)|(Hf & Hdeg & p & -> & Lp & Hp)].
  - cbn [Nat.eqb andb Z.eqb]. unfold EV at 1 2. cbn [klib_env ke_alloc negb]. rewrite Bool.andb_false_r. unfold EV. cbn [klib_env ke_smat].
    destruct (kscatter_entries N q r xi (l_junk L 2 (4 * M)) eps 1 M (if k_norm o then Some (l_junkZ L M) else None) (k_disc o) d v Hd Hv Hdeg Hs ltac:(lia) Hm3 He)
      as (res' & W' & Es & L1 & L2 & Hent); try assumption; try lia.
    { rewrite (lk_junk L HL). lia. } { destruct (k_norm o); [rewrite (lk_junkZ L HL); lia|exact I]. }
    { intros i HiM. rewrite Nx by exact HiM. now apply Hx. }
    rewrite Es. cbn [bind or_nil]. unfold check. cbn [Z.eqb SUCCESS]. rewrite (lk_junk L HL) in L1.
    set (V := fun (i j : nat) => nth (i * 4 + j) res' (RtoC 0) * RtoC (powerRZ 2 (WI W' i))).
    match goal with |- context [for_ M 0 ?f ([], [])] => destruct (for_inv (fun i (H : list C * list C) => length (fst H) = i /\ length (snd H) = i /\
       forall j, (j < i)%nat -> nth j (fst H) (RtoC 0) = V j 0%nat /\ nth j (snd H) (RtoC 0) = V j 2%nat) f M 0%nat ([], [])) as ((H11 & H21) & El & Hl) end.
    { cbn. split; [reflexivity|]. split; [reflexivity|]. lia. }
    { intros i [h g] HiM (Lh & Lg & Hvv). cbn [fst snd] in *. rewrite (aget_nth res' (RtoC 0) (i * 4)) by lia. cbn [bind]. rewrite (aget_nth res' (RtoC 0) (i * 4 + 2)) by lia. cbn [bind].
      assert (Step : forall x y, x = V i 0%nat -> y = V i 2%nat -> length (h ++ [x]) = S i /\ length (g ++ [y]) = S i /\
         forall j, (j < S i)%nat -> nth j (h ++ [x]) (RtoC 0) = V j 0%nat /\ nth j (g ++ [y]) (RtoC 0) = V j 2%nat).
      { intros x y Ex Ey. rewrite !app_length. cbn [length]. split; [lia|]. split; [lia|]. intros j Hj. destruct (Nat.eq_dec j i) as [->|Nj].
        - rewrite !app_nth2 by lia. rewrite Lh, Lg, Nat.sub_diag. cbn [nth]. auto.
        - rewrite !app_nth1 by lia. apply Hvv. lia. }
      destruct (k_norm o); destruct W' as [w|]; try discriminate L2; cbn [option_map] in L2.
      - injection L2 as L2. rewrite (lk_junkZ L HL) in L2. cbn [or_nil]. rewrite (aget_nth w 0%Z i) by lia. cbn [bind].
        eexists. split; [reflexivity|]. apply Step; unfold V, WI; rewrite ?Nat.add_0_r; apply Cmult_comm.
      - eexists. split; [reflexivity|]. apply Step; unfold V, WI; rewrite ?Nat.add_0_r; cbn [powerRZ]; ring. }
    rewrite El. cbn [bind]. exists H11, H21. split; [reflexivity|]. rewrite Nat.add_0_l in Hl. destruct Hl as (Lh & Lg & Hvv). cbn [fst snd] in *. split; [exact Lh|]. split; [exact Lg|].
    intros i HiM. cbv zeta. rewrite Hdeg. destruct (Hvv i HiM) as [-> ->]. destruct (Hent i HiM) as [Q1 Q2]. rewrite Nx in Q1, Q2 by exact HiM.
    rewrite <- Q1, <- Q2. unfold V. rewrite Nat.add_0_r. cbn [powerRZ]. split; ring.
  - rewrite Bool.andb_false_r. cbn [andb].
    assert (Fn : name_fast (kdv_name (k_disc o)) = true).
    { clear - Hd Hdeg. destruct (k_disc o); try discriminate Hd; injection Hd as <-; try reflexivity; exfalso; now apply Hdeg. }
    destruct (kdv_transforms_inverse (k_disc o) Fn) as (L2Z & _). unfold kdv_degree, kdv_upsampling_factor, via in L2Z. rewrite Hd in L2Z.
    destruct (L2Z 1%nat eps [RtoC eps_xi] ltac:(cbn; lia)) as (vv & Ev & Lv & Nv & _). destruct (L2Z 1%nat eps [RtoC (- XI0)] ltac:(cbn; lia)) as (a & Ea & La & Na & _).
    rewrite Ev. cbn [bind]. unfold check at 1. change (0 =? SUCCESS)%Z with true. cbv iota. rewrite Ea. cbn [bind]. unfold check at 1. change (0 =? SUCCESS)%Z with true. cbv iota.
    rewrite (aget_nth vv (RtoC 0) 0%nat) by (rewrite Lv; cbn; lia). rewrite (aget_nth a (RtoC 0) 0%nat) by (rewrite La; cbn; lia). cbn [bind deref].
    destruct (Nv 0%nat ltac:(lia)) as [-> _]. destruct (Na 0%nat ltac:(lia)) as [-> _]. cbn [nth].
    set (sd := (INR (akns_degree d) * INR (akns_upsampling_factor d))%R) in *.
    set (A := Cexp (2 * Ci * RtoC (- XI0) * RtoC eps / RtoC sd)). set (Vv := Cexp (2 * Ci * RtoC eps_xi * RtoC eps / RtoC sd)).
    assert (Hch : forall pp, length pp = (deg + 1)%nat -> exists H, ke_chirpz EV s deg pp A Vv M = Ret (SUCCESS, H)
       /\ length H = M /\ forall i, (i < M)%nat -> nth i H (RtoC 0) = peval (K := CF) pp (zmap d eps (RtoC (XI0 + eps_xi * INR i)))).
    { intros pp Lpp. destruct (poly_chirpz_spec (l_junk L) deg pp A Vv M (l_junk L 1 M) (lk_junk L HL)) as (H & EH & LH & NH & _); try assumption; try apply Cexp_neq0; try lia.
      { rewrite (lk_junk L HL). lia. } unfold EV. cbn [klib_env ke_chirpz]. rewrite EH. cbn [bind or_nil]. exists H. split; [reflexivity|]. rewrite (lk_junk L HL) in LH. split; [exact LH|].
      intros i HiM. rewrite (NH i HiM). f_equal. apply chirp_point. }
    assert (Hbl : forall k, (k < 4)%nat -> exists H, ke_chirpz EV s deg (@firstn C (deg + 1) (@skipn C (k * (deg + 1)) p)) A Vv M = Ret (SUCCESS, H)
       /\ length H = M /\ forall i, (i < M)%nat -> nth i H (RtoC 0) = peval (K := CF) (firstn (deg + 1) (skipn (k * (deg + 1)) p)) (zmap d eps (RtoC (XI0 + eps_xi * INR i)))).
    { intros k Hk. apply Hch. rewrite firstn_length, skipn_length. nia. }
    destruct (Hbl 0%nat ltac:(lia)) as (H11 & E1 & L1 & N1). destruct (Hbl 1%nat ltac:(lia)) as (H12 & E2 & L2 & N2).
    destruct (Hbl 2%nat ltac:(lia)) as (H21 & E3 & L3 & N3). destruct (Hbl 3%nat ltac:(lia)) as (H22 & E4 & L4 & N4).
    change (@skipn C (0 * (deg + 1)) p) with p in E1.
    rewrite E1. cbn [bind]. unfold check at 1. change (SUCCESS =? SUCCESS)%Z with true. cbv iota.
    rewrite E2. cbn [bind]. unfold check at 1. change (SUCCESS =? SUCCESS)%Z with true. cbv iota.
    rewrite E3. cbn [bind]. unfold check at 1. change (SUCCESS =? SUCCESS)%Z with true. cbv iota.
    rewrite E4. cbn [bind]. unfold check at 1. change (SUCCESS =? SUCCESS)%Z with true. cbv iota.
    destruct (basis_loop_value EV eps (k_disc o) d v M xi (lk_junk L HL) Hd Hv Hi Lx) with (cnt := M) (i := 0%nat) (H := H11 ++ H12 ++ H21 ++ H22) as (H' & EB & LB & _ & VB).
    { intros j Hj. rewrite Nx by exact Hj. apply Hx, Hj. } { lia. } { rewrite !app_length. lia. }
    rewrite EB. cbn [bind]. change (negb (SUCCESS =? SUCCESS)%Z) with false. cbv iota.
    eexists _, _. split; [reflexivity|]. split; [rewrite firstn_length; lia|]. split; [rewrite firstn_length, skipn_length; lia|].
    intros i HiM. cbv zeta. destruct (akns_degree d) as [|n] eqn:Edeg; [contradiction|].
    rewrite nth_firstn by exact HiM. rewrite nth_firstn by exact HiM. rewrite nth_skipn'.
    specialize (VB i ltac:(lia)). cbv zeta in VB. rewrite Nx in VB by exact HiM. rewrite nth_app4 in VB by assumption.
    rewrite (N1 i HiM), (N2 i HiM), (N3 i HiM), (N4 i HiM) in VB. clear N1 N2 N3 N4 Hbl Hch.
    set (lam := RtoC (XI0 + eps_xi * INR i)) in *. set (w := RtoC (powerRZ 2 W)) in *. set (f := Cexp (Ci * lam * RtoC (INR N * step_size d eps))) in *.
    assert (Nw : w <> 0) by (unfold w; intros E0; apply RtoC_inj in E0; revert E0; apply powerRZ_NOR; lra).
    set (S := scattering d (weights d) eps (nthC (if v then q else r)) (nthC (if v then r else q)) N lam) in *.
    assert (Q : forall x y, (x < 2)%nat -> (y < 2)%nat -> peval (K := CF) (firstn (deg + 1) (skipn ((x * 2 + y) * (deg + 1)) p)) (zmap d eps lam) = (f / w) * entry (shifted_of d (step_size d eps) lam S) x y).
    { intros x y Hx2 Hy2. specialize (Hp lam x y Hx2 Hy2). cbv zeta in Hp. fold w f S in Hp.
      assert (G : forall z e : C, w * z = f * e -> z = f / w * e). { intros z e H. transitivity ((w * z) / w); [field; exact Nw|]. rewrite H. field. exact Nw. }
      exact (G _ _ Hp). }
    assert (Q00 := Q 0%nat 0%nat ltac:(lia) ltac:(lia)). assert (Q01 := Q 0%nat 1%nat ltac:(lia) ltac:(lia)). assert (Q10 := Q 1%nat 0%nat ltac:(lia) ltac:(lia)). assert (Q11 := Q 1%nat 1%nat ltac:(lia) ltac:(lia)).
    cbn [Nat.mul Nat.add] in Q00, Q01, Q10, Q11. cbn [Nat.mul Nat.add] in VB. rewrite Q00, Q01, Q10, Q11 in VB.
    match type of VB with _ = mmul _ (mmul ?X _) => assert (EX : X = mscal (f / w) (shifted_of d eps lam S)) end.
    { assert (Sh : shifted_of d (step_size d eps) lam S = shifted_of d eps lam S) by (unfold shifted_of; destruct (half_shifted d) eqn:Eh; [now rewrite half_shifted_step|reflexivity]).
      rewrite Sh. destruct (shifted_of d eps lam S); reflexivity. }
    rewrite EX, to_from_scal in VB.
    assert (ES : based PDE_KdV v lam S = kdv_S d v (weights d) eps (nthC q) (nthC r) N lam) by (unfold kdv_S, S; destruct v; reflexivity).
    rewrite ES in VB. assert (V1 := f_equal a11 VB). assert (V2 := f_equal a21 VB). cbn [row a11 a21 mscal] in V1, V2. rewrite V1, V2. split; field; exact Nw.
Qed.

(** ** fnft_kdvv_base *)
Section Call.
Variables (D M : nat) (T XI : R * R) (o : kopts) (d : akns_disc) (v : bool) (q r : list C).
Let kd := k_disc o.
Let ups := akns_upsampling_factor d.
Let N := (D * ups)%nat.
Let eps := spacing T D.
Let xi i := RtoC (grid_point XI M i).
Let S lam := kdv_S d v (weights d) eps (nthC q) (nthC r) N lam.
Let a i := nft_a_of (S (xi i)) T eps (xi i).
Let b i := nft_b_of (S (xi i)) T eps (xi i).
Hypothesis Hd : kdv_to_akns kd = Some d.
Hypothesis Hv0 : kdv_vanilla_flag kd = Some v.
Hypothesis HD : (2 <= D)%nat.
Hypothesis HM : (2 <= M)%nat.
Hypothesis HT : (fst T < snd T)%R.
Hypothesis Lq : length q = N.
Hypothesis Lr : length r = N.
Hypothesis Hx : forall i, (i < M)%nat -> xi i <> 0 /\ kdv_exact d v (weights d) eps (nthC q) (nthC r) N (xi i).

Lemma kd_known : kd <> K_other.
Proof. intros E. rewrite E in Hd. discriminate. Qed.
Lemma d_impl : akns_implemented d.
Proof. destruct kd; try discriminate Hd; injection Hd as <-; repeat split; discriminate. Qed.
Lemma ups_ok : ups <> O.
Proof. apply ups_pos, d_impl. Qed.
Lemma N_ge : (2 <= N)%nat.
Proof. pose proof ups_ok. unfold N. nia. Qed.
Lemma N_div : (N / ups = D)%nat.
Proof. unfold N. apply Nat.div_mul, ups_ok. Qed.
Lemma N_mult3 : match d with A_ES4 | A_TES4 => (N mod 3 = 0)%nat | _ => True end.
Proof. unfold N, ups. destruct d; try exact I; cbn [akns_upsampling_factor]; apply Nat.mod_mul; lia. Qed.

Lemma compute_contspec_lib s deg W tm result : ktransfer_ok d v eps q r N deg W tm -> (cs_values (k_cs o) * M <= length result)%nat ->
  k_cs o <> CS_bad ->
  exists c res, kdvv_compute_contspec EV s deg W tm q r T N (Some XI) M result o = Ret (c, res)
    /\ ok_code c
    /\ (c = SUCCESS -> spectrum_is (k_cs o) M a b res /\ kept (cs_values (k_cs o) * M) result res)
    /\ ((k_cs o = CS_AB \/ forall i, (i < M)%nat -> a i <> 0) -> c = SUCCESS).
Proof.
  intros Htm Lres Hc. unfold kdvv_compute_contspec.
  assert (Eu : kdv_upsampling_factor (k_disc o) = ups) by (unfold kdv_upsampling_factor, via; fold kd; now rewrite Hd).
  rewrite Eu. destruct (Nat.eqb_spec ups 0) as [E0|_]; [now destruct (ups_ok E0)|]. rewrite N_div.
  rewrite (step_spacing T D HD). cbn [bind deref]. rewrite (step_spacing XI M HM). cbn [bind]. change (ke_alloc EV s 0) with true. change (ke_alloc EV s 1) with true. cbn [negb]. fold eps.
  set (xl := map (fun i => RtoC (fst XI + spacing XI M * INR i)) (seq 0 M)).
  assert (Lx : length xl = M) by (unfold xl; rewrite map_length; apply seq_length).
  assert (Nx : forall i, (i < M)%nat -> nth i xl (RtoC 0) = xi i).
  { intros i Hi. unfold xl. rewrite nth_indep with (d' := (fun i => RtoC (fst XI + spacing XI M * INR i)) 0%nat) by (rewrite map_length, seq_length; exact Hi).
    rewrite (map_nth (fun i => RtoC (fst XI + spacing XI M * INR i))). now rewrite seq_nth by exact Hi. }
  destruct (kcontspec_values_lib s deg W tm q r eps (spacing XI M) N M (fst XI) xl o d v Hd Hv0 d_impl N_ge Lq Lr (spacing_pos T D HT HD) HM eq_refl N_mult3 Hx Htm)
    as (H11 & H21 & Ev & L1 & L2 & Hv). fold EV in Ev. rewrite Ev.
  cbn [bind]. change (negb (SUCCESS =? SUCCESS)%Z) with false. cbv iota.
  destruct (kphases kd d eps T D kd_known Hd) as (pa & pb & Pa & Pb & Pr & Hph). fold kd. rewrite Pa, Pb, Pr. cbn [phase bind fst snd]. unfold check. change (SUCCESS =? SUCCESS)%Z with true. cbv iota.
  set (w := RtoC (powerRZ 2 W)). assert (Nw : w <> 0) by (unfold w; intros E; apply RtoC_inj in E; revert E; apply powerRZ_NOR; lra).
  assert (Va : forall i, (i < M)%nat -> nth i H11 0 * w * Cexp (Ci * nth i xl 0 * RtoC pa) = a i).
  { intros i Hi. rewrite Nx by exact Hi. destruct (Hv i Hi) as [Q1 _]. cbv zeta in Q1. fold (grid_point XI M i) in Q1. fold (xi i) in Q1. fold w in Q1. rewrite Q1.
    destruct (Hph (xi i) (S (xi i))) as [R1 _]. exact R1. }
  assert (Vb : forall i, (i < M)%nat -> nth i H21 0 * w * Cexp (Ci * nth i xl 0 * RtoC pb) = b i).
  { intros i Hi. rewrite Nx by exact Hi. destruct (Hv i Hi) as [_ Q1]. cbv zeta in Q1. fold (grid_point XI M i) in Q1. fold (xi i) in Q1. fold w in Q1. rewrite Q1.
    destruct (Hph (xi i) (S (xi i))) as [_ R1]. exact R1. }
  assert (Z1 : forall i, (i < M)%nat -> (nth i H11 0 = 0 <-> a i = 0)).
  { intros i Hi. rewrite <- (Va i Hi). split; [intros ->; ring|]. intros E.
    destruct (Ceq_dec (nth i H11 0) 0) as [|Nh]; [assumption|]. exfalso. revert E. apply Cmult_neq_0; [now apply Cmult_neq_0|apply Cexp_neq0]. }
  assert (Vr : forall i, (i < M)%nat -> nth i H11 0 <> 0 -> nth i H21 0 * Cexp (Ci * nth i xl 0 * RtoC (pb - pa)) / nth i H11 0 = b i / a i).
  { intros i Hi Nh. rewrite <- (Va i Hi), <- (Vb i Hi). set (x := Ci * nth i xl 0).
    assert (E : Cexp (x * RtoC pb) = Cexp (x * RtoC (pb - pa)) * Cexp (x * RtoC pa)).
    { rewrite <- Cexp_plus. f_equal. rewrite RtoC_minus. ring. }
    rewrite E. field. repeat split; try apply Cexp_neq0; assumption. }
  assert (Hall : forall l, (M <= length l)%nat -> (forall i, (i < M)%nat -> nth i H11 0 <> 0) ->
    exists res, rho_loop M 0 H11 H21 xl (pb - pa) l = Ret (SUCCESS, res) /\ kept M l res /\ forall i, (i < M)%nat -> a i <> 0 /\ nth i res 0 = b i / a i).
  { intros l Hl Hnz. destruct (rho_loop_value H11 H21 xl (pb - pa) M L1 L2 Lx Hnz M 0%nat l eq_refl Hl) as (res & E & K & _ & V).
    exists res. split; [exact E|]. split; [exact K|]. intros i Hi. split; [intros E0; apply (Hnz i Hi), (Z1 i Hi), E0|]. rewrite (V i ltac:(lia)). now apply Vr; [|apply Hnz]. }
  assert (Hdec : (forall i, (i < M)%nat -> nth i H11 0 <> 0) \/ exists i, (0 <= i < M)%nat /\ nth i H11 0 = 0).
  { clear. assert (H : forall m, (forall i, (i < m)%nat -> nth i H11 0 <> 0) \/ exists i, (0 <= i < m)%nat /\ nth i H11 0 = 0).
    { induction m as [|m [IH|(i & Hi & E)]]; [left; lia| |right; exists i; split; [lia|exact E]].
      destruct (Ceq_dec (nth m H11 0) 0) as [E|Nz]; [right; exists m; split; [lia|exact E]|left].
      intros i Hi. destruct (Nat.eq_dec i m) as [->|]; [exact Nz|apply IH; lia]. }
    apply H. }
  assert (Hab : forall off l, (off + 2 * M <= length l)%nat -> exists res, ab_loop M off H11 H21 xl (powerRZ 2 W) pa pb l = Ret res /\ kept (off + 2 * M) l res
     /\ (forall j, (j < off)%nat -> nth j res 0 = nth j l 0) /\ forall i, (i < M)%nat -> nth (off + i) res 0 = a i /\ nth (off + M + i) res 0 = b i).
  { intros off l Hl. destruct (ab_loop_value H11 H21 xl (powerRZ 2 W) pa pb M off l L1 L2 Lx Hl) as (res & E & K & O & V).
    exists res. split; [exact E|]. split; [exact K|]. split; [exact O|]. intros i Hi. destruct (V i Hi) as [-> ->]. split; [exact (Va i Hi)|exact (Vb i Hi)]. }
  assert (Hz : (forall i, (i < M)%nat -> a i <> 0) -> (forall i, (i < M)%nat -> nth i H11 0 <> 0)) by (intros H i Hi E; apply (H i Hi), (Z1 i Hi), E).
  destruct (k_cs o); cbn [cs_values] in Lres |- *; try congruence.
  - destruct Hdec as [Hnz|Hez].
    + destruct (Hall result ltac:(lia) Hnz) as (res & -> & K & V). exists SUCCESS, res. split; [reflexivity|]. split; [codes|]. split; [|reflexivity].
      intros _. split; [exact V|]. rewrite Nat.mul_1_l. exact K.
    + destruct (rho_loop_zero H11 H21 xl (pb - pa) M L1 L2 Lx M 0%nat result eq_refl ltac:(lia) Hez) as (res & ->).
      eexists _, _. split; [reflexivity|]. split; [codes|]. split; [discriminate|]. intros [E|Hnz]; [discriminate|]. destruct Hez as (i & Hi & E). now destruct (Hz Hnz i ltac:(lia)).
  - destruct (Hab 0%nat result ltac:(lia)) as (res & -> & K & _ & V). cbn [bind]. exists SUCCESS, res. split; [reflexivity|]. split; [codes|]. split; [|reflexivity].
    intros _. split; [exact V|exact K].
  - destruct Hdec as [Hnz|Hez].
    + destruct (Hall result ltac:(lia) Hnz) as (res & -> & K & V). cbn [bind]. change (negb (SUCCESS =? SUCCESS)%Z) with false. cbv iota.
      destruct (Hab M res ltac:(rewrite (kept_length _ _ _ K); lia)) as (res2 & -> & K2 & O2 & V2). cbn [bind].
      exists SUCCESS, res2. split; [reflexivity|]. split; [codes|]. split; [|reflexivity]. intros _. split.
      * intros i Hi. destruct (V i Hi) as [Na Vi]. destruct (V2 i Hi) as [A1 B1]. rewrite (O2 i Hi). replace (2 * M + i)%nat with (M + M + i)%nat by lia. auto.
      * split; [rewrite (kept_length _ _ _ K2); apply K|]. intros i Hi. destruct K as [_ K], K2 as [_ K2]. rewrite K2 by lia. apply K. lia.
    + destruct (rho_loop_zero H11 H21 xl (pb - pa) M L1 L2 Lx M 0%nat result eq_refl ltac:(lia) Hez) as (res & ->). cbn [bind].
      change (negb (EC_DIV_BY_ZERO =? SUCCESS)%Z) with true. cbv iota.
      eexists _, _. split; [reflexivity|]. split; [codes|]. split; [discriminate|]. intros [E|Hnz]; [discriminate|]. destruct Hez as (i & Hi & E). now destruct (Hz Hnz i ltac:(lia)).
Qed.

(** fnft_nsev_base up to the call of nsev_compute_contspec *)
Hypothesis HN31 : is_fast d -> (Z.of_nat N <= 2147483647)%Z.
Lemma base_transfer s : exists i, kdv_fscatter_numel N kd = Ret i /\ exists deg tm W,
  (if negb (Nat.eqb i 0)
        then x <- ke_fscatter EV s N q r eps (ke_junk EV 8 i) (k_norm o) (k_disc o) ;;
             let '(code, deg, tm, W) := x in
             Ret (code, deg, Some tm, if k_norm o then W else 0%Z)
        else Ret (SUCCESS, O, None, 0%Z)) = Ret (SUCCESS, deg, tm, W) /\ ktransfer_ok d v eps q r N deg W tm.
Proof.
  destruct (kknown_fast_slow kd kd_known) as (d' & v' & Hd' & _ & _ & Hcase). assert (d' = d) as -> by congruence.
  unfold kdv_fscatter_numel, kdv_degree, via. fold kd. rewrite Hd. destruct Hcase as [[Hf Hdeg]|[Hs Hdeg]].
  - destruct (Nat.eqb_spec (akns_degree d) 0) as [|_]; [contradiction|].
    destruct (poly_fmult_numel_value 4 (akns_degree d) N ltac:(pose proof N_ge; lia) ltac:(lia)) as (k & Ek & Hk2 & _).
    set (numel := (4 * (akns_degree d + 1) * 2 ^ k)%nat) in *. exists numel. split; [exact Ek|].
    destruct (Nat.eqb_spec numel 0) as [E0|_]; [pose proof (Nat.pow_nonzero 2 k); unfold numel in E0; nia|]. cbn [negb]. unfold EV. cbn [klib_env ke_fscatter ke_junk].
    destruct (kfscatter_entries (l_expo L) (l_0 L) (l_1 L) (l_2 L) (l_p L) (lk_0 L HL) (lk_1 L HL) (lk_2 L HL) (lk_p L HL) (k_norm o) N q r (l_junk L 8 numel) eps kd d v numel Hd Hv0 Hf N_ge (HN31 Hf) (spacing_pos T D HT HD))
      as (tm & W & E & Lt & L4 & HW & Hent); try lia.
    { unfold akns_fscatter_numel. destruct (Nat.eqb_spec (akns_degree d) 0); [contradiction|exact Ek]. }
    { rewrite (lk_junk L HL). lia. }
    { destruct (Hx 0%nat ltac:(lia)) as [_ Hx0]. unfold kdv_exact, scattering_exact in Hx0. intros j Hj. destruct (akns_degree d); [contradiction|]. specialize (Hx0 j Hj). destruct v; exact Hx0. }
    fold kd. rewrite E. cbn [bind or_nil]. eexists _, _, _. split; [reflexivity|]. right. split; [exact Hf|]. split; [exact Hdeg|]. exists tm. split; [reflexivity|]. split; [exact L4|].
    destruct (k_norm o); [exact Hent|]. rewrite (HW eq_refl) in Hent. exact Hent.
  - rewrite Hdeg. cbn [Nat.eqb]. exists O. split; [reflexivity|]. cbn [Nat.eqb negb]. eexists _, _, _. split; [reflexivity|]. left. auto.
Qed.

(** If the base routine succeeds then the continuous spectrum is the one of the samples; without bound states it succeeds if
   no division by zero occurs *)
Lemma base_contspec s u cs : u_cs u = Some cs -> (fst XI < snd XI)%R ->
  (cs_values (k_cs o) * M <= length cs)%nat -> k_cs o <> CS_bad ->
  (forall c u', fnft_kdvv_base EV s N q r T M (Some XI) o u = Ret (c, u') -> c = SUCCESS ->
     exists cs', u_cs u' = Some cs' /\ spectrum_is (k_cs o) M a b cs' /\ kept (cs_values (k_cs o) * M) cs cs') /\
  ((u_bs u <> None -> u_K u <> None) -> (u_bs u = None \/ u_K u = Some O) -> (k_cs o = CS_AB \/ forall i, (i < M)%nat -> a i <> 0) ->
     exists u', fnft_kdvv_base EV s N q r T M (Some XI) o u = Ret (SUCCESS, u')).
Proof.
  intros Ecs HXI Lcs Hc.
  assert (Eu : kdv_upsampling_factor (k_disc o) = ups) by (unfold kdv_upsampling_factor, via; fold kd; now rewrite Hd).
  destruct (base_transfer s) as (i & Ei & deg & tm & W & Et & Htm).
  destruct (compute_contspec_lib s deg W tm cs Htm Lcs Hc) as (c & res & Er & Hok & Hs1 & Hs2).
  unfold fnft_kdvv_base. rewrite Eu.
  destruct (args_bad N (Some q) (Some T) (Some XI) 1 u) eqn:Ea.
  { split; [intros c' u' H Hs; injection H as <- _; discriminate|]. intros HuK. exfalso.
    enough (args_bad N (Some q) (Some T) (Some XI) 1 u = false) by congruence.
    apply (args_bad_spec N (Some q) (Some T) (Some XI) 1 plain u). split; [exact N_ge|]. split; [discriminate|]. split; [exists (fst T), (snd T); destruct T; auto|].
    split; [intros _; exists (fst XI), (snd XI); destruct XI; auto|]. split; [left; reflexivity|]. split; [exact HuK|reflexivity]. }
  destruct (Nat.eqb_spec ups 0) as [E0|_]; [now destruct (ups_ok E0)|]. rewrite N_div, (step_spacing T D HD). cbn [bind]. fold eps kd.
  rewrite Ei. cbn [bind]. change (ke_alloc EV s 8) with true. cbn [negb]. rewrite Bool.andb_false_r. fold kd in Et. rewrite Et. cbn [bind]. unfold check at 1. change (SUCCESS =? SUCCESS)%Z with true. cbv iota.
  rewrite Ecs. destruct (Nat.ltb_spec 0 M) as [_|]; [|lia]. rewrite Er. cbn [bind fst snd].
  split.
  - intros c' u' H Hsucc. subst c'. apply check_Ret in H. destruct H as [(-> & H)|(Hne & _ & _ & Hcode)].
    2: { exfalso. cbn [fst] in Hcode. symmetry in Hcode. now apply abs_nonzero in Hcode. }
    destruct (Hs1 eq_refl) as (Hsp & Hkp).
    assert (Eres : u_cs u' = Some res).
    { cbn [set_cs u_bs u_K u_nc] in H. destruct (u_bs u) as [bs|].
      - inv_bind H. destruct (negb (x =? 0)%nat).
        + inv_bind H. destruct x0 as [c1 [K1 bs1]]. apply check_Ret in H. destruct H as [(_ & H)|(_ & H & _)].
          * cbn in H. destruct (u_nc u) as [nc|].
            -- destruct (negb (K1 =? 0)%nat).
               ++ inv_bind H. apply check_Ret in H. destruct H as [(_ & H)|(_ & H & _)].
                  ** injection H as <-. reflexivity.
                  ** cbn in H. subst u'. reflexivity.
               ++ injection H as <-. reflexivity.
            -- injection H as <-. reflexivity.
          * cbn in H. subst u'. reflexivity.
        + injection H as <-. destruct (u_K u); reflexivity.
      - injection H as <-. destruct (u_K u); reflexivity. }
    exists res. auto.
  - intros _ Hnb Hz. rewrite (Hs2 Hz). unfold check. change (SUCCESS =? SUCCESS)%Z with true. cbv iota. cbn [set_cs u_bs].
    destruct Hnb as [->|EK]; [eexists; reflexivity|]. destruct (u_bs u); cbn [set_cs u_K]; rewrite EK; eexists; reflexivity.
Qed.
End Call.


Lemma kpre_code_nonzero D q (eps : R) Dsub kd c : kdv_preprocess (l_junk L) (l_junkR L) D q eps Dsub kd = Ret (inl c) -> c <> SUCCESS.
Proof.
  unfold kdv_preprocess. destruct (kdv_to_akns kd) as [d|]; [|intros H; injection H as <-; discriminate].
  intros H. inv_bind H. destruct x as [c0|]; [|discriminate]. injection H as <-. apply abs_nonzero. revert Hx. unfold akns_preprocess.
  destruct (D <? 2)%nat; [intros H; injection H as <-; discriminate|]. destruct q as [q|]; [|intros H; injection H as <-; discriminate].
  destruct (Rle_dec eps 0); [intros H; injection H as <-; discriminate|]. intros H. inv_bind H. destruct x as [nskip Ds].
  cbv zeta in H. destruct (Nat.eqb (akns_upsampling_factor d) 0); [injection H as <-; discriminate|]. inv_bind H.
  destruct (Z.eqb_spec (fst x) 0); [discriminate|]. injection H as <-. exact n0.
Qed.
(** the samples that the driver scatters: kdv_discretization_preprocess_signal with Dsub = D (C31) *)
Lemma kpre_exists D q (eps : R) kd d : kdv_to_akns kd = Some d -> length q = D -> (0 < eps)%R -> (2 <= D)%nat ->
  ((3 <= D)%nat \/ akns_upsampling_factor d = 1%nat) ->
  exists p, kdv_preprocess (l_junk L) (l_junkR L) D (Some q) eps D kd = Ret (inr p)
    /\ po_Dsub p = D /\ length (po_q p) = (D * akns_upsampling_factor d)%nat /\ length (po_r p) = (D * akns_upsampling_factor d)%nat
    /\ (akns_upsampling_factor d = 1%nat -> po_q p = q /\ po_r p = repeat (- (1))%C D).
Proof.
  intros Hd Lq He HD H3. unfold kdv_preprocess. rewrite Hd. set (rf := kdv_r_from_q).
  assert (Cases : akns_upsampling_factor d = 1%nat \/ (d = A_ES4 \/ d = A_TES4) \/ (exists w sw, akns_method_weights d = inr (w, sw)) /\ (2 <= akns_upsampling_factor d)%nat).
  { destruct kd; try discriminate Hd; injection Hd as <-; try (left; reflexivity); try (right; left; auto; fail); right; right; (split; [eexists _, _; reflexivity|cbn; lia]). }
  destruct Cases as [U|[ES|((w & sw & W) & U)]].
  - destruct (akns_preprocess_plain (l_junk L) (l_junkR L) (lk_junk L HL) (lk_junkR L HL) D D q rf eps Lq He d HD U) as (s & o & E & G & L1 & L2 & Hv).
    rewrite E. destruct G as (_ & _ & _ & _ & _ & G). destruct (G eq_refl) as [-> GD]. cbn [bind]. exists o. split; [reflexivity|]. rewrite U, Nat.mul_1_r. split; [exact GD|]. split; [congruence|]. split; [congruence|].
    intros _. split; apply (nth_ext _ _ (RtoC 0) (RtoC 0)); rewrite ?repeat_length; try congruence; intros k Hk; destruct (Hv k ltac:(congruence)) as [H1 H2]; rewrite Nat.mul_1_r in H1, H2.
    + exact H1.
    + rewrite H2. transitivity (nth k (repeat (- (1))%C D) (- (1))%C); [rewrite nth_repeat; reflexivity|apply nth_indep; rewrite repeat_length; congruence].
  - destruct (akns_preprocess_derivatives (l_junk L) (l_junkR L) (lk_junk L HL) (lk_junkR L HL) D D q rf eps Lq He d HD ES) as (s & o & E & G & L1 & L2 & _).
    rewrite E. destruct G as (_ & _ & _ & _ & _ & G). destruct (G eq_refl) as [_ GD]. cbn [bind]. exists o. split; [reflexivity|]. rewrite GD in L1, L2.
    assert (U : akns_upsampling_factor d = 3%nat) by (destruct ES; subst; reflexivity). rewrite U. split; [exact GD|]. split; [lia|]. split; [lia|discriminate].
  - destruct (akns_preprocess_commutator_free (l_junk L) (l_junkR L) (lk_junk L HL) (lk_junkR L HL) D D q rf eps Lq He d w sw ltac:(lia) W U) as (nc & s & o & cols & E & _ & _ & G & L1 & L2 & _).
    rewrite E. destruct G as (_ & _ & _ & _ & _ & G). destruct (G eq_refl) as [_ GD]. cbn [bind]. exists o. split; [reflexivity|]. rewrite GD in L1, L2.
    split; [exact GD|]. split; [lia|]. split; [lia|]. intros U1. lia.
Qed.

(** C91.  The continuous spectrum of fnft_kdvv.  For real samples q(t_0), ..., q(t_(D-1)) on T, with qs, rs the samples of the
   discretisation (q itself and -1 for the methods without resampling; C31 otherwise), and with S(lam) the product of the
   steps of the chosen method over these samples, transformed to the basis in which the KdV is scattered:
   - whenever the call returns SUCCESS, whatever it was asked to do about bound states, contspec holds a, b and/or b/a
     of S at the M grid points of XI in the documented layout, and the rest of the array is untouched;
   - if no bound states are asked for and no a is zero where a division is needed, the call does return SUCCESS *)
Theorem kdvv_contspec_is_discrete_nft D q T M XI user dflt u cs d v :
  let o := match user with Some o => o | None => dflt end in
  kdvv_valid D (Some q) (Some T) M (Some XI) o u -> kdvv_readable D (Some q) M (Some XI) u -> (2 <= M)%nat ->
  u_cs u = Some cs -> (cs_values (k_cs o) * M <= length cs)%nat -> k_cs o <> CS_bad ->
  k_rich o <> 1%nat ->
  kdv_to_akns (k_disc o) = Some d -> kdv_vanilla_flag (k_disc o) = Some v -> ((3 <= D)%nat \/ akns_upsampling_factor d = 1%nat) ->
  (Z.of_nat (D * akns_upsampling_factor d) <= 2147483647)%Z ->
  let eps := spacing T D in
  let xi i := RtoC (grid_point XI M i) in
  exists p, kdv_preprocess (l_junk L) (l_junkR L) D (Some q) eps D (k_disc o) = Ret (inr p) /\
  (akns_upsampling_factor d = 1%nat -> po_q p = q /\ po_r p = repeat (- (1))%C D) /\
  let n := (D * akns_upsampling_factor d)%nat in
  let S lam := kdv_S d v (weights d) eps (nthC (po_q p)) (nthC (po_r p)) n lam in
  let a i := nft_a_of (S (xi i)) T eps (xi i) in let b i := nft_b_of (S (xi i)) T eps (xi i) in
  (forall i, (i < M)%nat -> kdv_exact d v (weights d) eps (nthC (po_q p)) (nthC (po_r p)) n (xi i)) ->
  (forall u' user' dflt', fnft_kdvv (klib_env L tiny below) D (Some q) (Some T) M (Some XI) user dflt u = Ret (SUCCESS, u', user', dflt') ->
     exists cs', u_cs u' = Some cs' /\ spectrum_is (k_cs o) M a b cs' /\ kept (cs_values (k_cs o) * M) cs cs') /\
  ((u_bs u = None \/ u_K u = Some O) -> (k_cs o = CS_AB \/ forall i, (i < M)%nat -> a i <> 0) ->
     exists u' user' dflt', fnft_kdvv (klib_env L tiny below) D (Some q) (Some T) M (Some XI) user dflt u = Ret (SUCCESS, u', user', dflt')).
Proof.
  intros o V R HM Ecs Lcs Hct Hr Hd Hv H3 H31 eps xi.
  pose proof (check_valid D (Some q) (Some T) M (Some XI) o u V R) as Hck.
  destruct V as [VD Vq Vre VT VX Vz VK Vg Vd]. destruct VT as (t0 & t1 & ET & HT). injection ET as ->.
  destruct (VX ltac:(congruence)) as (x0 & x1 & EX & HX). injection EX as ->.
  assert (Lq : length q = D) by (destruct R as [R1 _ _]; now apply R1).
  assert (He : (0 < eps)%R) by (apply spacing_pos; [exact HT|exact VD]).
  destruct (kpre_exists D q eps _ d Hd Lq He VD H3) as (p & Ep & _ & L1 & L2 & Hpl).
  exists p. split; [exact Ep|]. split; [exact Hpl|]. intros n S a b Hx.
  assert (Nz : forall i, (i < M)%nat -> xi i <> 0).
  { intros i Hi E0. apply RtoC_inj in E0. apply (Vz (x0, x1) i eq_refl HM Hi). rewrite <- E0. unfold KdvvSpec.grid_point, grid_point, spacing. ring. }
  assert (Eu : kdv_upsampling_factor (k_disc o) = akns_upsampling_factor d) by (unfold kdv_upsampling_factor, via; now rewrite Hd).
  assert (Nu : akns_upsampling_factor d <> O) by (apply ups_pos; destruct (k_disc o); try discriminate Hd; injection Hd as <-; repeat split; discriminate).
  destruct (base_contspec D M (t0, t1) (x0, x1) o d v (po_q p) (po_r p) Hd Hv VD HM HT L1 L2 (fun i Hi => conj (Nz i Hi) (Hx i Hi)) (fun _ => H31) 1 u cs Ecs HX Lcs Hct) as [B1 B2].
  fold n eps in B1, B2.
  assert (Run : kdvv_run EV D (Some q) (Some (t0, t1)) M (Some (x0, x1)) o u =
      (x <- fnft_kdvv_base EV 1 n (po_q p) (po_r p) (t0, t1) M (Some (x0, x1)) o u ;; let '(code, u) := x in check code (o, u) (Ret (SUCCESS, (o, u))))).
  { unfold kdvv_run. rewrite Hck. cbn [bind]. change (negb (SUCCESS =? SUCCESS)%Z) with false. cbv iota. rewrite Eu. destruct (Nat.eqb_spec (akns_upsampling_factor d) 0); [contradiction|].
    cbn [deref bind fst snd]. rewrite (step_spacing (t0, t1) D VD : step (t1 - t0) D = _). cbn [bind]. fold eps.
    destruct (Nat.eqb_spec (k_rich o) 1) as [|_]; [contradiction|]. cbn [andb bind]. unfold EV at 1. cbn [klib_env ke_pre]. rewrite Ep. cbn [bind]. reflexivity. }
  fold EV. split.
  - intros u' user' dflt' H. unfold fnft_kdvv in H. fold o in H. inv_bind H. destruct x as [code [o1 u1]]. injection H as -> -> _ _.
    match goal with HH : kdvv_run _ _ _ _ _ _ _ _ = _ |- _ => rename HH into HR end. rewrite Run in HR.
    inv_bind HR. destruct x as [c w]. apply check_Ret in HR. destruct HR as [(-> & HR)|(Hne & _ & _ & Hcode)].
    2: { exfalso. cbn [fst] in Hcode. symmetry in Hcode. now apply abs_nonzero in Hcode. }
    injection HR as <- <-. eapply B1; [eassumption|reflexivity].
  - intros Hnb Hz. destruct (B2 VK Hnb Hz) as (u' & Eb).
    rewrite Eb in Run. cbn [bind] in Run. unfold check in Run. change (SUCCESS =? SUCCESS)%Z with true in Run. cbv iota in Run.
    unfold fnft_kdvv. fold o. rewrite Run. cbn [bind]. eexists _, _, _. reflexivity.
Qed.
End Contspec.
Print Assumptions kdvv_contspec_is_discrete_nft.
