(** * fnft_nsev with the models of its subroutines in place of the parameter [env], and its continuous spectrum *)
From Coq Require Import Reals Lra.
From Coquelicot Require Import Coquelicot.
From Verif Require Import Loop CExp CField MiscProof DiscSpec DiscTables DiscModel DiscProps DiscPreProps DiscPreNse FscatterSpec FscatterModel FscatterProof FscatterProps
  ScatterSpec ScatterModel ScatterRun ScatterLoop ScatterMatProps ChirpzModel ChirpzProof PolySpec KissProof BoundModel NsevSpec NsevProps NsevSafe ManvSafe NftSpec NsevFast NsevCs.
Local Open Scope C_scope.

(** Everything about the run that the models leave open: the contents of freshly allocated arrays, the exponents that
   poly_fmult2x2 factors out, and the Fortran root finder *)
Record lib := {
  l_junk : nat -> nat -> list C; l_junkR : nat -> list R; l_junkZ : nat -> list Z; l_junk1 : nat -> list C;
  l_expo : list C -> Z; l_0 : nat -> list C; l_1 : nat -> list C; l_2 : nat -> list C; l_p : nat -> list C;
  l_roots : nat -> list C -> list C -> out (Z * list C) }.
Record lib_ok (L : lib) : Prop := {
  lk_junk : forall k n, length (l_junk L k n) = n; lk_junkR : forall n, length (l_junkR L n) = n; lk_junkZ : forall n, length (l_junkZ L n) = n;
  lk_junk1 : forall n, length (l_junk1 L n) = n;
  lk_0 : forall n, length (l_0 L n) = n; lk_1 : forall n, length (l_1 L n) = n; lk_2 : forall n, length (l_2 L n) = n; lk_p : forall n, length (l_p L n) = n }.
Definition or_nil {A} (o : option (list A)) : list A := match o with Some l => l | None => [] end.

(** the subroutines: nse_discretization_preprocess_signal (DiscModel), nse_fscatter (FscatterModel), nse_scatter_matrix
   (ScatterModel), poly_chirpz (ChirpzModel), nse_scatter_bound_states (BoundModel); no allocation of the driver fails *)
Definition lib_env (L : lib) : env := {|
  e_alloc := fun _ _ => true;
  e_junk := l_junk L;
  e_pre := fun _ D q eps_t kappa Dsub d => nse_preprocess (l_junk L) (l_junkR L) D (Some q) eps_t kappa Dsub d;
  e_fscatter := fun _ D q r eps_t res norm d =>
    x <- nse_fscatter (l_expo L) (l_0 L) (l_1 L) (l_2 L) (l_p L) norm D (Some q) (Some r) eps_t (Some res) true d ;;
    let '(code, deg, res, W) := x in Ret (code, match deg with Some n => n | None => O end, or_nil res, W);
  e_smat := fun _ D q r eps_t kappa K lam norm d =>
    x <- nse_scatter_matrix D (Some q) (Some r) eps_t kappa K (Some lam) (Some (l_junk L 2 (4 * K)%nat)) (if norm then Some (l_junkZ L K) else None) d 0 ;;
    let '(code, res, W) := x in Ret (code, or_nil res, or_nil W);
  e_chirpz := fun _ deg p A V M =>
    x <- poly_chirpz (l_junk L) deg (Some p) A V M (Some (l_junk L 1 M)) ;;
    let '(code, res) := x in Ret (code, or_nil res);
  e_sbs := fun _ D q r T K bs norm d skip =>
    x <- nse_scatter_bound_states (l_junk1 L) (l_junkZ L) (l_junkZ L) D (Some q) (Some r) (Some T) K (Some bs)
           (Some (l_junk L 5 K)) (Some (l_junk L 6 K)) (if skip then None else Some (l_junk L 7 K)) (if norm then Some (l_junkZ L K) else None) d skip ;;
    let '(code, a, ap, b, W) := x in Ret (code, or_nil a, or_nil ap, or_nil b, or_nil W);
  e_roots := fun _ deg p buf => l_roots L deg p buf |}.

Section Contspec.
Variable L : lib.
Hypothesis HL : lib_ok L.

Lemma known_fast_slow nd : nd <> N_other -> exists d, nse_to_akns nd = Some d /\ akns_implemented d /\
  ((is_fast d /\ akns_degree d <> O) \/ (is_slow d /\ akns_degree d = O)).
Proof.
  intros H. destruct nd; try congruence; eexists; (split; [reflexivity|]); (split; [repeat split; discriminate|]);
  first [ left; split; [right; discriminate || (left; reflexivity)|discriminate]
        | left; split; [left; reflexivity|discriminate]
        | right; split; [unfold is_slow; auto 10|reflexivity] ].
Qed.
(** the phase factors turn the computed entries into a and b *)
Lemma phases nd d (eps : R) T D : nd <> N_other -> nse_to_akns nd = Some d -> exists pa pb,
  nse_phase_factor_a eps D (fst T) (snd T) nd = POk (Some pa) /\ nse_phase_factor_b eps D (fst T) (snd T) nd = POk (Some pb) /\
  nse_phase_factor_rho eps (snd T) nd = POk (Some (pb - pa)%R) /\
  forall lam S, let f := match akns_degree d with O => RtoC 1 | _ => Cexp (Ci * lam * RtoC (INR (D * akns_upsampling_factor d) * step_size d eps)) end in
    let g := match akns_degree d with O => RtoC 1 | _ => shift21 d (step_size d eps) lam end in
    f * a11 S * Cexp (Ci * lam * RtoC pa) = nft_a_of S T eps lam /\ f * (g * a21 S) * Cexp (Ci * lam * RtoC pb) = nft_b_of S T eps lam.
Proof.
  intros Hn Hd. destruct (nse_phase_factors_consistent nd eps (fst T) (snd T) D Hn) as (pr & pa & pb & Hr & Ha & Hb & ->).
  exists pa, pb. split; [exact Ha|]. split; [exact Hb|]. split; [exact Hr|]. intros lam S. cbv zeta.
  assert (Eh : (INR (D * akns_upsampling_factor d) * step_size d eps = INR D * eps)%R).
  { unfold step_size. rewrite mult_INR. field. apply not_0_INR. apply ups_pos. destruct nd; try congruence; injection Hd as <-; repeat split; discriminate. }
  rewrite Eh. clear Eh Hr. unfold nft_a_of, nft_b_of.
  assert (X : forall (e : C) (x1 x2 x3 : C), e = x1 -> x1 = x2 -> x3 = x2 -> e = x3) by (intros; congruence).
  assert (EA : forall (c : C) (x y x' y' : C), x + y = x' + y' -> Cexp x * c * Cexp y = c * Cexp x' * Cexp y').
  { intros c x y x' y' E. transitivity (c * (Cexp x * Cexp y)); [ring|]. rewrite <- Cexp_plus, E, Cexp_plus. ring. }
  assert (EB : forall (c : C) (x y z x' y' : C), x + y + z = x' + y' -> Cexp x * (Cexp y * c) * Cexp z = c * Cexp x' * Cexp y').
  { intros c x y z x' y' E. transitivity (c * (Cexp x * Cexp y * Cexp z)); [ring|]. rewrite <- !Cexp_plus, E, Cexp_plus. ring. }
  assert (E1 : forall (c : C) (y x' y' : C), y = x' + y' -> 1 * c * Cexp y = c * Cexp x' * Cexp y').
  { intros c y x' y' ->. rewrite Cexp_plus. ring. }
  assert (E2 : forall (c : C) (y x' y' : C), y = x' + y' -> 1 * (1 * c) * Cexp y = c * Cexp x' * Cexp y').
  { intros c y x' y' ->. rewrite Cexp_plus. ring. }
  assert (E3 : forall (c : C) (x z x' y' : C), x + z = x' + y' -> Cexp x * (RtoC 1 * c) * Cexp z = c * Cexp x' * Cexp y').
  { intros c x z x' y' E. transitivity (c * (Cexp x * Cexp z)); [ring|]. rewrite <- !Cexp_plus, E, Cexp_plus. ring. }
  clear X. destruct nd; try congruence; injection Hd as <-; cbn in Ha, Hb; injection Ha as <-; injection Hb as <-; cbn [akns_degree];
  unfold shift21, step_size; cbn [half_shifted akns_upsampling_factor];
  (split; [apply EA || apply E1|apply EB || apply E3 || apply E2]; apply Ceq; cbn; try (unfold akns_boundary_coeff); try field).
Qed.

(** the chirp transform evaluates on the grid *)
Lemma chirp_point d (eps XI0 dx : R) i :
  let s := (INR (akns_degree d) * INR (akns_upsampling_factor d))%R in
  let A := Cexp (2 * Ci * RtoC (- XI0) * RtoC eps / RtoC s) in let V := Cexp (2 * Ci * RtoC dx * RtoC eps / RtoC s) in
  / (A * / (V ^^ i)) = zmap d eps (RtoC (XI0 + dx * INR i)).
Proof.
  intros s A V. assert (EV : V ^^ i = Cexp (2 * Ci * RtoC (dx * INR i) * RtoC eps / RtoC s)).
  { transitivity (Cpown V i). { clear. induction i as [|i IH]; [reflexivity|]. cbn [Cpown]. rewrite <- IH. reflexivity. }
    unfold V. rewrite Cexp_pown. f_equal. rewrite RtoC_mult. unfold Cdiv. ring. }
  assert (NA : A <> 0) by apply Cexp_neq0. assert (NV : V ^^ i <> 0) by (rewrite EV; apply Cexp_neq0).
  transitivity (V ^^ i * / A); [field; auto|]. rewrite EV. unfold A, zmap. fold s. rewrite <- Cexp_opp, <- Cexp_plus. f_equal.
  rewrite RtoC_plus, RtoC_opp. unfold Cdiv. ring.
Qed.

(** what contspec_values delivers *)
Lemma contspec_values_lib s deg W tm q r eps eps_xi N M XI0 xi kappa o d :
  nse_to_akns (discretization o) = Some d -> akns_implemented d ->
  (kappa = 1 \/ kappa = -1)%Z -> (2 <= N)%nat -> length q = N -> length r = N -> (0 < eps)%R -> (2 <= M)%nat ->
  xi = map (fun i => RtoC (XI0 + eps_xi * INR i)) (seq 0 M) ->
  match d with A_ES4 | A_TES4 => (N mod 3 = 0)%nat | _ => True end ->
  (forall i, (i < M)%nat -> scattering_exact d (weights d) eps (nthC q) (nthC r) N (RtoC (XI0 + eps_xi * INR i))) ->
  (is_slow d /\ akns_degree d = O /\ tm = None /\ deg = O /\ W = 0%Z \/
   is_fast d /\ akns_degree d <> O /\ exists p, tm = Some p /\ (4 * (deg + 1) <= length p)%nat /\ forall lam, let S := scattering d (weights d) eps (nthC q) (nthC r) N lam in
       RtoC (powerRZ 2 W) * peval (K := CF) (firstn (deg + 1) p) (zmap d eps lam) = Cexp (Ci * lam * RtoC (INR N * step_size d eps)) * a11 S
       /\ RtoC (powerRZ 2 W) * peval (K := CF) (firstn (deg + 1) (skipn (2 * (deg + 1)) p)) (zmap d eps lam)
          = Cexp (Ci * lam * RtoC (INR N * step_size d eps)) * (shift21 d (step_size d eps) lam * a21 S)) ->
  exists H11 H21, contspec_values (lib_env L) s deg W tm q r eps eps_xi N M XI0 xi kappa o = Ret (SUCCESS, (H11, H21))
    /\ length H11 = M /\ length H21 = M /\ forall i, (i < M)%nat -> let lam := RtoC (XI0 + eps_xi * INR i) in
       let S := scattering d (weights d) eps (nthC q) (nthC r) N lam in
       let f := match akns_degree d with O => RtoC 1 | _ => Cexp (Ci * lam * RtoC (INR N * step_size d eps)) end in
       let g := match akns_degree d with O => RtoC 1 | _ => shift21 d (step_size d eps) lam end in
       nth i H11 0 * RtoC (powerRZ 2 W) = f * a11 S /\ nth i H21 0 * RtoC (powerRZ 2 W) = f * (g * a21 S).
Proof.
  intros Hd Hi Hk HN Lq Lr He HM Exi Hm3 Hx Hcase.
  assert (Lx : length xi = M) by (rewrite Exi, map_length; apply seq_length).
  assert (Nx : forall i, (i < M)%nat -> nth i xi (RtoC 0) = RtoC (XI0 + eps_xi * INR i)).
  { intros i HiM. rewrite Exi. rewrite nth_indep with (d' := (fun i => RtoC (XI0 + eps_xi * INR i)) 0%nat) by (rewrite map_length, seq_length; exact HiM).
    rewrite (map_nth (fun i => RtoC (XI0 + eps_xi * INR i))). now rewrite seq_nth by exact HiM. }
  unfold contspec_values. destruct Hcase as [(Hs & Hdeg & -> & -> & ->)|(Hf & Hdeg & p & -> & Lp & Hp)].
  - cbn [Nat.eqb andb Z.eqb]. cbn [lib_env e_alloc negb]. rewrite Bool.andb_false_r. cbn [lib_env e_smat].
    destruct (scatter_entries N q r xi (l_junk L 2 (4 * M)) eps kappa M (if normalization_flag o then Some (l_junkZ L M) else None) (discretization o) d Hd Hdeg Hs ltac:(lia) Hm3 He)
      as (res' & W' & E & L1 & L2 & Hent); try assumption; try lia.
    { rewrite (lk_junk L HL). lia. } { destruct (normalization_flag o); [rewrite (lk_junkZ L HL); lia|exact I]. }
    { intros i HiM. rewrite Nx by exact HiM. now apply Hx. }
    rewrite E. cbn [bind or_nil]. unfold check. cbn [Z.eqb SUCCESS]. rewrite (lk_junk L HL) in L1.
    set (V := fun (i j : nat) => nth (i * 4 + j) res' (RtoC 0) * RtoC (powerRZ 2 (WI W' i))).
    match goal with |- context [for_ M 0 ?f ([], [])] => destruct (for_inv (fun i (H : list C * list C) => length (fst H) = i /\ length (snd H) = i /\
       forall j, (j < i)%nat -> nth j (fst H) (RtoC 0) = V j 0%nat /\ nth j (snd H) (RtoC 0) = V j 2%nat) f M 0%nat ([], [])) as ((H11 & H21) & El & Hl) end.
    { cbn. split; [reflexivity|]. split; [reflexivity|]. lia. }
    { intros i [h g] HiM (Lh & Lg & Hv). cbn [fst snd] in *. rewrite (aget_nth res' (RtoC 0) (i * 4)) by lia. cbn [bind]. rewrite (aget_nth res' (RtoC 0) (i * 4 + 2)) by lia. cbn [bind].
      assert (Step : forall x y, x = V i 0%nat -> y = V i 2%nat -> length (h ++ [x]) = S i /\ length (g ++ [y]) = S i /\
         forall j, (j < S i)%nat -> nth j (h ++ [x]) (RtoC 0) = V j 0%nat /\ nth j (g ++ [y]) (RtoC 0) = V j 2%nat).
      { intros x y Ex Ey. rewrite !app_length. cbn [length]. split; [lia|]. split; [lia|]. intros j Hj. destruct (Nat.eq_dec j i) as [->|Nj].
        - rewrite !app_nth2 by lia. rewrite Lh, Lg, Nat.sub_diag. cbn [nth]. auto.
        - rewrite !app_nth1 by lia. apply Hv. lia. }
      destruct (normalization_flag o); destruct W' as [w|]; try discriminate L2; cbn [option_map] in L2.
      - injection L2 as L2. rewrite (lk_junkZ L HL) in L2. cbn [or_nil]. rewrite (aget_nth w 0%Z i) by lia. cbn [bind].
        eexists. split; [reflexivity|]. apply Step; unfold V, WI; rewrite ?Nat.add_0_r; reflexivity.
      - eexists. split; [reflexivity|]. apply Step; unfold V, WI; rewrite ?Nat.add_0_r; cbn [powerRZ]; ring. }
    rewrite El. cbn [bind]. exists H11, H21. split; [reflexivity|]. rewrite Nat.add_0_l in Hl. destruct Hl as (Lh & Lg & Hv). cbn [fst snd] in *. split; [exact Lh|]. split; [exact Lg|].
    intros i HiM. cbv zeta. rewrite Hdeg. destruct (Hv i HiM) as [-> ->]. destruct (Hent i HiM) as [Q1 Q2]. rewrite Nx in Q1, Q2 by exact HiM.
    rewrite <- Q1, <- Q2. unfold V. rewrite Nat.add_0_r. cbn [powerRZ]. split; ring.
  - rewrite Bool.andb_false_r. cbn [andb].
    assert (Fn : name_fast (nse_name (discretization o)) = true).
    { clear - Hd Hdeg. destruct (discretization o); try discriminate Hd; injection Hd as <-; try reflexivity; exfalso; now apply Hdeg. }
    destruct (nse_transforms_inverse (discretization o) Fn) as (L2Z & _). unfold nse_degree, nse_upsampling_factor, via in L2Z. rewrite Hd in L2Z.
    destruct (L2Z 1%nat eps [RtoC eps_xi] ltac:(cbn; lia)) as (v & Ev & Lv & Nv & _). destruct (L2Z 1%nat eps [RtoC (- XI0)] ltac:(cbn; lia)) as (a & Ea & La & Na & _).
    rewrite Ev. cbn [bind]. unfold check. change (0 =? SUCCESS)%Z with true. cbv iota. rewrite Ea. cbn [bind]. change (0 =? SUCCESS)%Z with true. cbv iota.
    rewrite (aget_nth v (RtoC 0) 0%nat) by (rewrite Lv; cbn; lia). rewrite (aget_nth a (RtoC 0) 0%nat) by (rewrite La; cbn; lia). cbn [bind deref].
    destruct (Nv 0%nat ltac:(lia)) as [-> _]. destruct (Na 0%nat ltac:(lia)) as [-> _]. cbn [nth].
    set (sd := (INR (akns_degree d) * INR (akns_upsampling_factor d))%R) in *.
    set (A := Cexp (2 * Ci * RtoC (- XI0) * RtoC eps / RtoC sd)). set (Vv := Cexp (2 * Ci * RtoC eps_xi * RtoC eps / RtoC sd)).
    assert (Hch : forall pp, length pp = (deg + 1)%nat -> exists H, e_chirpz (lib_env L) s deg pp A Vv M = Ret (SUCCESS, H)
       /\ length H = M /\ forall i, (i < M)%nat -> nth i H (RtoC 0) = peval (K := CF) pp (zmap d eps (RtoC (XI0 + eps_xi * INR i)))).
    { intros pp Lpp. destruct (poly_chirpz_spec (l_junk L) deg pp A Vv M (l_junk L 1 M) (lk_junk L HL)) as (H & EH & LH & NH & _); try assumption; try apply Cexp_neq0; try lia.
      { rewrite (lk_junk L HL). lia. } cbn [lib_env e_chirpz]. rewrite EH. cbn [bind or_nil]. exists H. split; [reflexivity|]. rewrite (lk_junk L HL) in LH. split; [exact LH|].
      intros i HiM. rewrite (NH i HiM). f_equal. apply chirp_point. }
    destruct (Hch (firstn (deg + 1) p)) as (H11 & E1 & L1 & N1). { rewrite firstn_length. lia. }
    destruct (Hch (firstn (deg + 1) (skipn (2 * (deg + 1)) p))) as (H21 & E2 & L2 & N2). { rewrite firstn_length, skipn_length. lia. }
    change (e_chirpz (lib_env L) s deg (@firstn C (deg + 1) p) A Vv M = Ret (SUCCESS, H11)) in E1.
    change (e_chirpz (lib_env L) s deg (@firstn C (deg + 1) (@skipn C (2 * (deg + 1)) p)) A Vv M = Ret (SUCCESS, H21)) in E2.
    rewrite E1. cbn [bind]. change (SUCCESS =? SUCCESS)%Z with true. cbv iota. rewrite E2. cbn [bind]. change (SUCCESS =? SUCCESS)%Z with true. cbv iota.
    exists H11, H21. split; [reflexivity|]. split; [exact L1|]. split; [exact L2|]. intros i HiM. cbv zeta. destruct (akns_degree d) as [|n]; [contradiction|].
    rewrite (N1 i HiM), (N2 i HiM). destruct (Hp (RtoC (XI0 + eps_xi * INR i))) as [Q1 Q2]. rewrite <- Q1, <- Q2. split; apply Cmult_comm.
Qed.
End Contspec.
