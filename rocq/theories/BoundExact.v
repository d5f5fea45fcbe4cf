(** * Bound states: exact values, errors, wrappers, instances (C41) *)
From Coq Require Import Reals Lra Lia List ZArith.
From Coquelicot Require Import Coquelicot.
From Verif Require Import Base Loop Mem Fields ErrModel CExp CField CConj CDeriv CMean MiscNumModel MiscNumProps MiscMetricProps MiscSincBound
  DiscTables DiscModel DiscProps FscatterSpec FscatterProof FscatterModel FscatterProps ScatterSpec MatExp ScatterStep ScatterModel ScatterProof ScatterRun ScatterLoop ScatterProps ScatterMatProps ScatterNse
  BoundModel BoundSpec BoundProof BoundRun BoundOne BoundProps.
Import ListNotations.
Local Open Scope C_scope.

(** ** Exactness *)
Lemma core_traceless d w h q r i lam : traceless (step_core d w h q r i lam).
Proof.
  assert (TE' : forall l h a b c x y z, traceless (X_ES4 h l a b c x y z)) by (intros; unfold traceless, X_ES4; cbn [a11 a22 madd mscal akns_A offd mcomm mopp mmul]; ring).
  unfold step_core. destruct d; first [apply X_BO_traceless|apply TE'].
Qed.
Lemma outer_traceless d h q r i L R : step_outer d h q r i = Some (L, R) -> traceless L /\ traceless R.
Proof.
  assert (T2 : forall s h a b c x, traceless (X_TES4 s h a b c x)) by (intros; unfold traceless, X_TES4; cbn [a11 a22 madd mscal offd]; ring).
  unfold step_outer. destruct d; try discriminate. intros E. injection E as <- <-. split; apply T2.
Qed.
Lemma sinc_exact_opp X : sinc_exact X -> sinc_exact (mopp X).
Proof. unfold sinc_exact, mopp. rewrite mdet_mscal. replace (- (1) * - (1) * mdet X) with (mdet X) by ring. auto. Qed.
Lemma minv_l X : mdet X <> 0 -> mmul (minv X) X = mone.
Proof. intros N. unfold minv. apply mat2_eq; cbn [a11 a12 a21 a22 mmul mscal mone]; unfold mdet in *; field; exact N. Qed.
Lemma minv_r X : mdet X <> 0 -> mmul X (minv X) = mone.
Proof. intros N. unfold minv. apply mat2_eq; cbn [a11 a12 a21 a22 mmul mscal mone]; unfold mdet in *; field; exact N. Qed.
Lemma det1_nz X : mdet X = 1 -> mdet X <> 0. Proof. intros ->. exact C1_nz. Qed.
Lemma left_inv X Y : mmul Y X = mone -> mdet X = 1 -> Y = minv X.
Proof. intros E Dx. rewrite <- (mmul_one_r Y), <- (minv_r X (det1_nz X Dx)), mmul_assoc, E. now rewrite mmul_one_l. Qed.
Lemma back_value d w h q r i lam V : approx_back d w h q r i lam V -> step_exact d w h q r i lam -> V = minv (slow_step d w h q r i lam).
Proof.
  intros (Vc & VL & VR & (A & _) & O) (S & SO). apply left_inv; [|apply slow_step_det].
  specialize (A (sinc_exact_opp _ S)). pose proof (mexp_opp _ (core_traceless d w h q r i lam)) as IC. fold (mopp (step_core d w h q r i lam)) in IC.
  unfold slow_step. destruct (step_outer d h q r i) as [[L R]|] eqn:EO; cbn [sandwich] in *.
  - destruct O as ((AL & _) & (AR & _) & ->). destruct SO as [SL SR]. specialize (AL (sinc_exact_opp _ SL)). specialize (AR (sinc_exact_opp _ SR)).
    destruct (outer_traceless _ _ _ _ _ _ _ EO) as [TL TR]. pose proof (mexp_opp _ TL) as IL. pose proof (mexp_opp _ TR) as IR. fold (mopp L) in IL. fold (mopp R) in IR.
    rewrite A, AL, AR. transitivity (mmul (mexp (mopp R)) (mmul (mmul (mexp (mopp (step_core d w h q r i lam))) (mmul (mmul (mexp (mopp L)) (mexp L)) (mexp (step_core d w h q r i lam)))) (mexp R))).
    + rewrite !mmul_assoc. reflexivity.
    + rewrite IL, mmul_one_l, IC, mmul_one_l. exact IR.
  - rewrite O, A. exact IC.
Qed.
Lemma rising_ext k : forall n M N, (forall i, (n <= i < n + k)%nat -> M i = N i) -> rising k n M = rising k n N.
Proof. induction k as [|k IH]; intros n M N H; [reflexivity|]. cbn [rising]. rewrite H by lia. f_equal. apply IH. intros i Hi. apply H. lia. Qed.
Lemma rising_inverse k : forall n V, (forall i, (n <= i < n + k)%nat -> mdet (V i) = 1) ->
  mmul (rising k n (fun i => minv (V i))) (descending k (fun i => V (n + i)%nat)) = mone.
Proof.
  induction k as [|k IH]; intros n V H; [apply mmul_one_l|].
  replace (S k) with (k + 1)%nat by lia. rewrite rising_add. cbn [rising]. rewrite mmul_one_r.
  replace (descending (k + 1) (fun i => V (n + i)%nat)) with (mmul (V (n + k)%nat) (descending k (fun i => V (n + i)%nat))) by (replace (k + 1)%nat with (S k) by lia; reflexivity).
  rewrite <- (mmul_assoc (rising k n _)), (mmul_assoc (minv _)), minv_l by (apply det1_nz, H; lia). rewrite mmul_one_l. apply IH. intros i Hi. apply H. lia.
Qed.

(** phi_n = b psi_n for all n if the first entry of the scattering matrix vanishes *)
Section Relation.
Variables (d : akns_disc) (pde : akns_pde) (vanilla : bool) (V : nat -> mat2) (lam : C) (tm tp : R) (Dg : nat).
Hypothesis Hp : pde_ok pde lam.
Hypothesis HV : forall i, mdet (V i) = 1.
Let N := (Dg * substeps d)%nat.
Let S := based pde vanilla lam (descending N V).
Let phi := jost_phi d pde vanilla V tm lam.
Let psi := jost_psi d pde vanilla (fun i => minv (V i)) Dg tp lam.
Lemma jost_relation n : (n <= Dg)%nat -> exists Q, phi n = mmul Q (mmul S (waves tm lam)) /\ psi n = mmul Q (waves tp lam).
Proof.
  intros Hn. destruct (basis_derive pde vanilla lam Hp) as (_ & _ & E).
  set (P := basisP pde vanilla lam) in *. set (Pi := minv P) in *.
  assert (E' : mmul P Pi = mone).
  { assert (Dt : mdet Pi * mdet P = 1) by (rewrite <- mdet_mul, E; unfold mdet; cbn [a11 a12 a21 a22 mone]; ring).
    apply minv_r. intros Z. rewrite Z, Cmult_0_r in Dt. now apply C1_nz. }
  set (k := ((Dg - n) * substeps d)%nat). set (m := (n * substeps d)%nat).
  set (Rn := rising k m (fun i => minv (V i))).
  assert (HN : N = (m + k)%nat) by (unfold N, m, k; nia).
  assert (HR : mmul Rn (descending N V) = descending m V).
  { rewrite HN, descending_add, mmul_assoc. unfold Rn. rewrite rising_inverse by (intros; apply HV). apply mmul_one_l. }
  exists (mmul Pi (mmul Rn P)). split.
  - unfold phi, jost_phi, S, based. fold P Pi m. rewrite <- HR.
    transitivity (mmul (mmul Pi (mmul Rn (mmul (mmul P Pi) (mmul (descending N V) P)))) (waves tm lam)); [rewrite E', mmul_one_l|]; now rewrite !mmul_assoc.
  - unfold psi, jost_psi, based. fold P Pi m k Rn. reflexivity.
Qed.
End Relation.

(** What is returned for one bound state if the exponents are in the range where the sinc routines are exact:
   the a-coefficient, its derivative with respect to lambda, and, at a zero of a, the norming constant *)
Definition a_coeff d pde vanilla w h q r N (tm tp : R) (lam : C) : C := Cexp (Ci * lam * RtoC (tp - tm)) * a11 (slow_S d pde vanilla w h q r N lam).
Definition b_coeff d pde vanilla w h q r N (tm tp : R) (lam : C) : C := Cexp (- Ci * lam * RtoC (tp + tm)) * a21 (slow_S d pde vanilla w h q r N lam).
Definition exact_phi d pde vanilla w h q r tm lam := jost_phi d pde vanilla (fun i => slow_step d w h q r i lam) tm lam.
Definition exact_psi d pde vanilla w h q r Dg tp lam := jost_psi d pde vanilla (fun i => minv (slow_step d w h q r i lam)) Dg tp lam.

Lemma part_real pde x z : (pde = PDE_KdV -> snd x = 0%R) -> part pde (x * z) = x * part pde z.
Proof.
  intros H. destruct pde; cbn [part]; try reflexivity. specialize (H eq_refl). destruct x as [x y], z as [u v]. cbn [snd] in H. subst y.
  unfold RtoC, Cmult. cbn [fst snd]. f_equal; ring.
Qed.

Section Exact.
Variables (d : akns_disc) (pde : akns_pde) (vanilla : bool) (w : list C) (h : C) (q r : nat -> C) (Dg : nat) (tm tp : R) (skip_b : bool) (lam a ap : C) (W : Z) (b_old b : C).
Let N := (Dg * substeps d)%nat.
Hypothesis HR : bound_state_result d pde vanilla w h q r Dg tm tp skip_b lam a ap W b_old b.
Hypothesis Hp : pde_ok pde lam.
Hypothesis HE : forall j, (j < N)%nat -> step_exact d w h q r j lam.

Theorem bound_state_exact_a : RtoC (powerRZ 2 W) * a = part pde (a_coeff d pde vanilla w h q r N tm tp lam).
Proof.
  destruct HR as (V & V' & Vb & HV & RA & _). rewrite RA. unfold a_coeff, slow_S, based. fold N.
  rewrite (descending_ext N V (fun i => slow_step d w h q r i lam)); [reflexivity|]. intros i Hi. apply step_value; [apply HV; exact Hi|now apply HE].
Qed.
Theorem bound_state_exact_aprime : (forall j, (j < N)%nat -> dsinc_exact (step_core d w h q r j lam)) ->
  exists D1, Cderive (a_coeff d pde vanilla w h q r N tm tp) lam D1 /\ RtoC (powerRZ 2 W) * ap = ipart pde D1.
Proof.
  intros HD. destruct HR as (V & V' & Vb & HV & _ & RP & _). fold N in HV, RP. rewrite RP.
  assert (ED : forall i, (i < N)%nat -> V i = slow_step d w h q r i lam) by (intros i Hi; apply step_value; [apply HV; exact Hi|now apply HE]).
  eexists. split; [|reflexivity]. unfold a_coeff.
  assert (M : Mderive (slow_S d pde vanilla w h q r N) lam (dbased pde vanilla lam (descending N V) (propagated N V V'))).
  { destruct (basis_derive pde vanilla lam Hp) as (B1 & B2 & _). unfold slow_S. eapply Mderive_eq.
    - apply Mderive_mul; [exact B2|]. apply Mderive_mul; [|exact B1].
      apply (descending_derive _ _ V'). intros j Hj. apply (step_dvalue _ _ _ _ _ _ _ (V j)); [apply HV; assumption|apply HE; assumption|apply HD; assumption].
    - cbv beta. rewrite <- (descending_ext N V) by exact ED. unfold dbased. f_equal. f_equal. f_equal. f_equal. apply propagated_ext. intros j Hj. split; [symmetry; now apply ED|reflexivity]. }
  destruct M as (M1 & _). eapply Cderive_eq.
  - apply (Cderive_mult (fun z => Cexp (Ci * z * RtoC (tp - tm)))); [|exact M1].
    apply (Cderive_comp Cexp (fun z => Ci * z * RtoC (tp - tm))); [apply Cderive_exp|].
    apply (Cderive_ext (fun z => Ci * RtoC (tp - tm) * z)); [intros; ring|]. apply Cderive_scal, Cderive_id.
  - cbv beta. unfold based, slow_S. rewrite <- (descending_ext N V) by exact ED. ring.
Qed.
(** at a zero of a the two Jost solutions are proportional and the returned b is the factor, provided some sample can be used *)
Theorem bound_state_exact_b : skip_b = false -> a11 (slow_S d pde vanilla w h q r N lam) = 0 ->
  let b0 := b_coeff d pde vanilla w h q r N tm tp lam in
  let phi := exact_phi d pde vanilla w h q r tm lam in let psi := exact_psi d pde vanilla w h q r Dg tp lam in
  (forall n, (n <= Dg)%nat -> a11 (phi n) = b0 * a12 (psi n) /\ a21 (phi n) = b0 * a22 (psi n)) /\
  ((pde = PDE_KdV -> snd b0 = 0%R) -> (exists n, (n <= Dg)%nat /\ usable pde phi psi n) -> b = b0) /\
  ((forall n, (n <= Dg)%nat -> ~ usable pde phi psi n) -> b = b_old).
Proof.
  intros Hsk Z b0 phi psi.
  assert (R : forall n, (n <= Dg)%nat -> a11 (phi n) = b0 * a12 (psi n) /\ a21 (phi n) = b0 * a22 (psi n)).
  { intros n Hn. destruct (jost_relation d pde vanilla (fun i => slow_step d w h q r i lam) lam tm tp Dg Hp (fun i => slow_step_det _ _ _ _ _ _ _) n Hn) as (Q & E1 & E2).
    change (phi n = mmul Q (mmul (slow_S d pde vanilla w h q r N lam) (waves tm lam))) in E1. fold (psi n) in E2.
    change (psi n = mmul Q (waves tp lam)) in E2. rewrite E1, E2. unfold b0, b_coeff. set (SS := slow_S d pde vanilla w h q r N lam) in *.
    cbn [mmul a11 a12 a21 a22 waves]. rewrite Z.
    assert (EE : Cexp (- Ci * lam * RtoC tm) = Cexp (- Ci * lam * RtoC (tp + tm)) * Cexp (Ci * lam * RtoC tp)) by (rewrite <- Cexp_plus; f_equal; rewrite RtoC_plus; ring).
    rewrite EE. split; ring. }
  split; [exact R|].
  destruct HR as (V & V' & Vb & HV & _ & _ & RB). fold N in HV. rewrite Hsk in RB.
  assert (ED : forall i, (i < N)%nat -> V i = slow_step d w h q r i lam) by (intros i Hi; apply step_value; [apply HV; exact Hi|now apply HE]).
  assert (EB : forall i, (i < N)%nat -> Vb i = minv (slow_step d w h q r i lam)) by (intros i Hi; apply back_value; [apply HV; exact Hi|now apply HE]).
  assert (EP : forall n, (n <= Dg)%nat -> jost_phi d pde vanilla V tm lam n = phi n).
  { intros n Hn. unfold phi, exact_phi, jost_phi. do 2 f_equal. apply descending_ext. intros i Hi. apply ED. unfold N. nia. }
  assert (ES : forall n, (n <= Dg)%nat -> jost_psi d pde vanilla Vb Dg tp lam n = psi n).
  { intros n Hn. unfold psi, exact_psi, jost_psi. do 2 f_equal. apply rising_ext. intros i Hi. apply EB. unfold N. nia. }
  assert (UU : forall n, (n <= Dg)%nat -> usable pde (jost_phi d pde vanilla V tm lam) (jost_psi d pde vanilla Vb Dg tp lam) n <-> usable pde phi psi n).
  { intros n Hn. unfold usable, f0, f1, g0, g1. rewrite (EP n Hn), (ES n Hn). reflexivity. }
  split.
  - intros Hre (n1 & Hn1 & U1). destruct RB as [(n & Hn & U & Eb & _)|[NU _]].
    + rewrite Eb. unfold f0, g0. rewrite (EP n Hn), (ES n Hn). destruct (R n Hn) as [-> _]. rewrite part_real by exact Hre.
      destruct (UU n Hn) as [UU' _]. destruct (UU' U) as (_ & _ & G & _). unfold g0 in G. field. exact G.
    + exfalso. exact (NU n1 Hn1 (proj2 (UU n1 Hn1) U1)).
  - intros NU. destruct RB as [(n & Hn & U & _)|[_ Eb]]; [|exact Eb]. exfalso. exact (NU n Hn (proj1 (UU n Hn) U)).
Qed.
End Exact.

(** ** Error exits *)
Theorem akns_bound_states_invalid_arguments junk j1 j2 D q r T K lam a ap b W d pde vanilla skip_b :
  (D = 0%nat \/ q = None \/ r = None \/ T = None \/ K = 0%nat \/ lam = None \/ a = None \/ ap = None \/ (skip_b = false /\ b = None) \/ akns_upsampling_factor d = 0%nat) ->
  akns_scatter_bound_states junk j1 j2 D q r T K lam a ap b W d pde vanilla skip_b = Ret (EC_INVALID_ARGUMENT, a, ap, b, W).
Proof.
  intros H. unfold akns_scatter_bound_states. destruct (Nat.eqb_spec D 0) as [|ND]; [reflexivity|]. destruct q as [q|]; [|reflexivity]. destruct r as [r|]; [|reflexivity].
  destruct T as [[T0 T1]|]; [|reflexivity]. destruct (Nat.eqb_spec K 0) as [|NK]; [reflexivity|]. destruct lam as [lam|]; [|reflexivity]. destruct a as [a|]; [|reflexivity].
  destruct ap as [ap|]; [|reflexivity]. destruct (negb skip_b && _) eqn:Eb; [reflexivity|]. destruct (Nat.eqb_spec (akns_upsampling_factor d) 0); [reflexivity|].
  exfalso. destruct H as [H|[H|[H|[H|[H|[H|[H|[H|[[H1 H2]|H]]]]]]]]]; try discriminate; try contradiction. subst. discriminate.
Qed.
Theorem akns_bound_states_indivisible junk j1 j2 D q r T K lam a ap b W d pde vanilla skip_b :
  (1 <= D)%nat -> (1 <= K)%nat -> (skip_b = false -> b <> None) -> akns_upsampling_factor d <> 0%nat -> (D mod akns_upsampling_factor d <> 0)%nat -> akns_boundary_coeff d <> None ->
  akns_scatter_bound_states junk j1 j2 D (Some q) (Some r) (Some T) K (Some lam) (Some a) (Some ap) b W d pde vanilla skip_b = Ret (EC_ASSERTION_FAILED, Some a, Some ap, b, W).
Proof.
  intros HD HK Hb Hu Hm Hc. unfold akns_scatter_bound_states. destruct (Nat.eqb_spec D 0) as [|_]; [lia|]. destruct T as [T0 T1]. destruct (Nat.eqb_spec K 0) as [|_]; [lia|].
  destruct (negb skip_b && _) eqn:Eb.
  - exfalso. apply andb_prop in Eb. destruct Eb as [E1 E2]. destruct skip_b; [discriminate|]. destruct b; [discriminate|]. now apply Hb.
  - destruct (Nat.eqb_spec (akns_upsampling_factor d) 0); [contradiction|]. destruct (akns_boundary_coeff d); [|contradiction]. destruct (Nat.eqb_spec (D mod akns_upsampling_factor d) 0); [contradiction|]. reflexivity.
Qed.
(** KdV: the bound state 0 is rejected with the code of the change of basis, nothing is written if it is the first one *)
Theorem kdv_bound_state_zero junk j1 j2 D Dg q r T0 T1 K lam a ap b W d vanilla skip_b :
  (forall n, length (junk n) = n) ->
  (1 <= Dg)%nat -> D = (Dg * akns_upsampling_factor d)%nat -> (D <= length q)%nat -> (D <= length r)%nat -> (1 <= K)%nat -> (1 <= length lam)%nat ->
  (skip_b = false -> match b with Some b => (1 <= length b)%nat | None => False end) -> is_slow d -> nth 0 lam (RtoC 0) = 0 ->
  akns_scatter_bound_states junk j1 j2 D (Some q) (Some r) (Some (T0, T1)) K (Some lam) (Some a) (Some ap) b W d PDE_KdV vanilla skip_b
    = Ret ((- EC_DIV_BY_ZERO)%Z, Some a, Some ap, b, W).
Proof.
  intros HJ HDg HD Hq Hr HK Hl Hb Hs Hz. unfold akns_scatter_bound_states.
  destruct (slow_ups d Hs) as [U0 _]. pose proof (slow_bc d Hs) as Ebc.
  destruct (Nat.eqb_spec D 0) as [|_]; [nia|]. destruct (Nat.eqb_spec K 0) as [|_]; [lia|].
  assert (Eb : negb skip_b && (match b with None => true | _ => false end) = false).
  { destruct skip_b; [reflexivity|]. specialize (Hb eq_refl). destruct b; [reflexivity|contradiction]. }
  rewrite Eb. destruct (Nat.eqb_spec (akns_upsampling_factor d) 0) as [|_]; [contradiction|]. rewrite Ebc.
  assert (Em : (D mod akns_upsampling_factor d = 0)%nat) by (rewrite HD; now apply Nat.mod_mul). rewrite Em. cbn [Nat.eqb negb].
  assert (Ed : (D / akns_upsampling_factor d = Dg)%nat) by (rewrite HD; now apply Nat.div_mul). rewrite Ed.
  set (eps_t := ((T1 - T0) / (INR Dg - 1))%R).
  destruct (prepare_ok D q r eps_t Hq Hr d Hs (mult3 d D Dg HD)) as (pr & Ep & Hp). rewrite Ep. cbn [bind].
  pose (P := fun (k : nat) (st : bstate) => (k = 0%nat /\ bs_code st = SUCCESS \/ bs_code st = (- EC_DIV_BY_ZERO)%Z) /\ bs_a st = a /\ bs_ap st = ap /\ bs_b st = b /\ bs_W st = W).
  match goal with |- context [for_ ?n ?lo ?bo ?s] => destruct (for_inv P bo n lo s) as (st & E & R) end.
  - split; [left; split; reflexivity|]. repeat split.
  - intros i st Hi ([[Ei Ec]|Ec] & Ea & Eap & Ebb & EW).
    + rewrite Ec. change (SUCCESS =? SUCCESS)%Z with true. cbn [negb]. subst i. rewrite (aget_nth lam (RtoC 0)) by lia. cbn [bind]. rewrite Hz.
      assert (EB : exists bo, (match bs_b st with Some b0 => if skip_b then Ret (RtoC 0) else aget b0 0 | None => Ret (RtoC 0) end) = Ret bo).
      { rewrite Ebb. destruct b as [b|]; [|now eexists]. destruct skip_b; [now eexists|]. specialize (Hb eq_refl). rewrite (aget_nth b (RtoC 0)) by lia. now eexists. }
      destruct EB as (bo & ->). cbn [bind].
      assert (EF : akns_from_S (repeat (RtoC 0) 16) (RtoC 0) true eps_t d vanilla PDE_KdV = Ret ((- EC_DIV_BY_ZERO)%Z, repeat (RtoC 0) 16)).
      { destruct (slow_classes d Hs) as (_ & C2 & _). unfold akns_from_S, basis_matrix. destruct (Ceq_dec 0 0); [|contradiction]. reflexivity. }
      unfold one_bound. rewrite EF. cbn [bind]. change (- EC_DIV_BY_ZERO =? SUCCESS)%Z with false. cbn [negb].
      eexists. split; [reflexivity|]. split; [right; reflexivity|]. cbn [bs_a bs_ap bs_b bs_W]. auto.
    + rewrite Ec. change (- EC_DIV_BY_ZERO =? SUCCESS)%Z with false. cbn [negb]. exists st. split; [reflexivity|]. split; [now right|auto].
  - rewrite E. cbn [bind]. destruct R as ([[Q _]|Ec] & Ea & Eap & Ebb & EW); [cbn in Q; lia|]. now rewrite Ec, Ea, Eap, Ebb, EW.
Qed.

(** ** Wrappers *)
Theorem nse_bound_states_is_akns junk j1 j2 D q r T K lam a ap b W d ad skip_b code a' ap' b' W' : nse_to_akns d = Some ad ->
  akns_scatter_bound_states junk j1 j2 D q r T K lam a ap b W ad PDE_NSE false skip_b = Ret (code, a', ap', b', W') -> code <> INT_MIN ->
  nse_scatter_bound_states junk j1 j2 D q r T K lam a ap b W d skip_b = Ret (outcome_code code, a', ap', b', W').
Proof.
  intros Hd E Nc. unfold nse_scatter_bound_states. rewrite Hd, E. cbn [bind]. unfold chkZ, outcome_code. destruct (Z.eqb_spec code SUCCESS) as [->|Ns]; [reflexivity|].
  unfold E_SUBROUTINE. destruct (Z.eqb_spec code INT_MIN); [contradiction|reflexivity].
Qed.
Theorem kdv_bound_states_is_akns junk j1 j2 D q r T K lam a ap b W d ad v skip_b code a' ap' b' W' : kdv_to_akns d = Some ad -> kdv_vanilla_flag d = Some v ->
  akns_scatter_bound_states junk j1 j2 D (if v then q else r) (if v then r else q) T K lam a ap b W ad PDE_KdV v skip_b = Ret (code, a', ap', b', W') -> code <> INT_MIN ->
  kdv_scatter_bound_states junk j1 j2 D q r T K lam a ap b W d skip_b = Ret (outcome_code code, a', ap', b', W').
Proof.
  intros Hd Hv E Nc. unfold kdv_scatter_bound_states. rewrite Hd, Hv. destruct v; rewrite E; cbn [bind]; unfold chkZ, outcome_code;
  (destruct (Z.eqb_spec code SUCCESS) as [->|Ns]; [reflexivity|]; unfold E_SUBROUTINE; destruct (Z.eqb_spec code INT_MIN); [contradiction|reflexivity]).
Qed.

(** ** All together *)
Theorem akns_bound_states_exact junk j1 j2 D Dg q r T0 T1 K lam a ap b W d pde vanilla :
  (forall n, length (junk n) = n) -> (forall n, length (j1 n) = n) -> (forall n, length (j2 n) = n) ->
  let eps_t := ((T1 - T0) / (INR Dg - 1))%R in let tm := (T0 - eps_t / 2)%R in let tp := (T1 + eps_t / 2)%R in
  let w := weights d in let h := RtoC eps_t in let N := (Dg * substeps d)%nat in let qf := nthC q in let rf := nthC r in
  bvalid D Dg q r eps_t K lam a ap b W d pde false ->
  (forall i j, (i < K)%nat -> (j < N)%nat -> step_exact d w h qf rf j (nth i lam (RtoC 0))) ->
  exists a' ap' b' W', akns_scatter_bound_states junk j1 j2 D (Some q) (Some r) (Some (T0, T1)) K (Some lam) (Some a) (Some ap) b W d pde vanilla false
      = Ret (SUCCESS, Some a', Some ap', b', W')
    /\ forall i, (i < K)%nat -> let l := nth i lam (RtoC 0) in
       RtoC (powerRZ 2 (WI W' i)) * nth i a' (RtoC 0) = part pde (a_coeff d pde vanilla w h qf rf N tm tp l)
       /\ ((forall j, (j < N)%nat -> dsinc_exact (step_core d w h qf rf j l)) ->
           exists D1, Cderive (a_coeff d pde vanilla w h qf rf N tm tp) l D1 /\ RtoC (powerRZ 2 (WI W' i)) * nth i ap' (RtoC 0) = ipart pde D1)
       /\ (a11 (slow_S d pde vanilla w h qf rf N l) = 0 -> (pde = PDE_KdV -> snd (b_coeff d pde vanilla w h qf rf N tm tp l) = 0%R) ->
           (exists n, (n <= Dg)%nat /\ usable pde (exact_phi d pde vanilla w h qf rf tm l) (exact_psi d pde vanilla w h qf rf Dg tp l) n) ->
           nthO b' i = b_coeff d pde vanilla w h qf rf N tm tp l).
Proof.
  intros HJ H1 H2 eps_t tm tp w h N qf rf HV HE.
  destruct (akns_bound_states_result junk j1 j2 HJ H1 H2 D Dg q r T0 T1 K lam a ap b W d pde vanilla false HV) as (a' & ap' & b' & W' & E & _ & _ & _ & _ & _ & _ & R).
  exists a', ap', b', W'. split; [exact E|]. intros i Hi l. specialize (R i Hi).
  assert (Hp : pde_ok pde l). { destruct (bv_pde _ _ _ _ _ _ _ _ _ _ _ _ _ _ HV) as [->|[-> Nz]]; [now left|]. right. split; [reflexivity|now apply Nz]. }
  assert (HEi : forall j, (j < Dg * substeps d)%nat -> step_exact d w h qf rf j l) by (intros j Hj; now apply HE).
  split; [|split].
  - exact (bound_state_exact_a _ _ _ _ _ _ _ _ _ _ _ _ _ _ _ _ _ R HEi).
  - exact (bound_state_exact_aprime _ _ _ _ _ _ _ _ _ _ _ _ _ _ _ _ _ R Hp HEi).
  - intros Z Hre U. destruct (bound_state_exact_b _ _ _ _ _ _ _ _ _ _ _ _ _ _ _ _ _ R Hp HEi eq_refl Z) as (_ & G & _). exact (G Hre U).
Qed.

(** ** Instance: BO, D = 2, T = (0, 1), q = (x, x), r = -q with x = 3 pi/4, lambda = 0: every step is a rotation by x *)
Definition x0 : R := (3 * PI / 4)%R.
Lemma Cexp_i (x : R) : Cexp (Ci * RtoC x) = RtoC (cos x) + Ci * RtoC (sin x).
Proof.
  unfold Cexp. replace (fst (Ci * RtoC x)) with 0%R by (unfold Ci, RtoC, Cmult; cbn [fst snd]; ring).
  replace (snd (Ci * RtoC x)) with x by (unfold Ci, RtoC, Cmult; cbn [fst snd]; ring). rewrite exp_0. unfold Ci, RtoC, Cplus, Cmult. cbn [fst snd]. f_equal; ring.
Qed.
Lemma rot_step w h q r i (x : R) : nth (i mod length w) w (RtoC 0) * h = 1 -> (0 < x)%R -> q i = RtoC x -> r i = RtoC (- x) ->
  slow_step A_BO w h q r i 0 = M2 (RtoC (cos x)) (RtoC (sin x)) (- RtoC (sin x)) (RtoC (cos x)).
Proof.
  intros Hw Hx Hq Hr. unfold slow_step. cbn [step_outer sandwich step_core]. rewrite Hw, Hq, Hr.
  assert (Nx : Ci * RtoC x <> 0) by (apply Cmult_neq_0; [exact Ci_neq0|intros E; apply RtoC_inj in E; lra]).
  rewrite (mexp_root (Ci * RtoC x)).
  - unfold mexp_at. destruct (Ceq_dec (Ci * RtoC x) 0) as [E|_]; [contradiction|].
    assert (EP : Cexp (Ci * RtoC x) = RtoC (cos x) + Ci * RtoC (sin x)) by apply Cexp_i.
    assert (EM : Cexp (- (Ci * RtoC x)) = RtoC (cos x) - Ci * RtoC (sin x)).
    { replace (- (Ci * RtoC x)) with (Ci * RtoC (- x)) by (rewrite RtoC_opp; ring). rewrite Cexp_i, cos_neg, sin_neg, RtoC_opp. ring. }
    assert (EC : Ccosh (Ci * RtoC x) = RtoC (cos x)) by (unfold Ccosh; rewrite EP, EM; field; exact C2_neq0).
    assert (ES : Csinh (Ci * RtoC x) = Ci * RtoC (sin x)) by (unfold Csinh; rewrite EP, EM; field; exact C2_neq0).
    assert (Nx' : RtoC x <> 0) by (intros E; apply RtoC_inj in E; lra).
    rewrite EC, ES. unfold X_BO, akns_A. rewrite RtoC_opp. apply mat2_eq; cbn [a11 a12 a21 a22 madd mscal mone]; field; auto using Ci_neq0.
  - unfold mdet, X_BO, akns_A. cbn [a11 a12 a21 a22 mscal]. rewrite RtoC_opp. ring [Ci_sqr].
Qed.

Definition qx : list C := [RtoC x0; RtoC x0].
Definition rx : list C := [RtoC (- x0); RtoC (- x0)].
Definition ex : R := ((1 - 0) / (INR 2 - 1))%R.
Lemma ex_1 : ex = 1%R. Proof. unfold ex. cbn [INR]. field. Qed.
Lemma w_1 i : nth (i mod length (weights A_BO)) (weights A_BO) (RtoC 0) * RtoC ex = 1.
Proof. rewrite ex_1. unfold weights. cbn [akns_method_weights akns_weight_class length]. rewrite Nat.mod_1_r. cbn [nth]. ring. Qed.
Lemma x0_pos : (1 < x0)%R. Proof. unfold x0. pose proof PI_RGT_0. pose proof PI2_3_2. unfold PI2 in *. lra. Qed.
Lemma cos_x0 : cos x0 = (- (sqrt 2 / 2))%R.
Proof.
  unfold x0. replace (3 * PI / 4)%R with (PI - PI / 4)%R by field. rewrite Rtrigo_facts.cos_pi_minus, cos_PI4. f_equal.
  pose proof (sqrt_sqrt 2 ltac:(lra)). pose proof (sqrt_lt_R0 2 ltac:(lra)). apply (Rmult_eq_reg_l (2 * sqrt 2)); [|lra]. field_simplify; [|lra]. simpl. lra.
Qed.
Lemma sin_x0 : sin x0 = (sqrt 2 / 2)%R.
Proof.
  unfold x0. replace (3 * PI / 4)%R with (PI - PI / 4)%R by field. rewrite Rtrigo_facts.sin_pi_minus, sin_PI4.
  pose proof (sqrt_sqrt 2 ltac:(lra)). pose proof (sqrt_lt_R0 2 ltac:(lra)). apply (Rmult_eq_reg_l (2 * sqrt 2)); [|lra]. field_simplify; [|lra]. simpl. lra.
Qed.
Lemma step_x j : (j < 2)%nat -> slow_step A_BO (weights A_BO) (RtoC ex) (nthC qx) (nthC rx) j 0 = M2 (RtoC (cos x0)) (RtoC (sin x0)) (- RtoC (sin x0)) (RtoC (cos x0)).
Proof.
  intros Hj. apply rot_step; [apply w_1|pose proof x0_pos; lra| |]; destruct j as [|[|j]]; try lia; reflexivity.
Qed.
Lemma core_x j : (j < 2)%nat -> mdet (step_core A_BO (weights A_BO) (RtoC ex) (nthC qx) (nthC rx) j 0) = RtoC (x0 * x0).
Proof.
  intros Hj. cbn [step_core]. rewrite w_1. assert (Eq : nthC qx j = RtoC x0) by (destruct j as [|[|j]]; try lia; reflexivity).
  assert (Er : nthC rx j = RtoC (- x0)) by (destruct j as [|[|j]]; try lia; reflexivity). rewrite Eq, Er.
  unfold mdet, X_BO, akns_A. cbn [a11 a12 a21 a22 mscal]. rewrite RtoC_opp, RtoC_mult. ring.
Qed.
Lemma core_x_big j : (j < 2)%nat -> (1 <= Cmod (mdet (step_core A_BO (weights A_BO) (RtoC ex) (nthC qx) (nthC rx) j 0)))%R.
Proof. intros Hj. rewrite core_x by exact Hj. pose proof x0_pos. rewrite Cmod_R, Rabs_pos_eq; nra. Qed.

(** a = 0, b = 1, and sample 1 is usable: all hypotheses of akns_bound_states_exact are met *)
Example bound_states_case :
  bvalid 2 2 qx rx ex 1 [RtoC 0] [RtoC 7] [RtoC 7] (Some [RtoC 7]) (Some [5%Z]) A_BO PDE_NSE false /\ (forall j, (j < 2)%nat -> step_exact A_BO (weights A_BO) (RtoC ex) (nthC qx) (nthC rx) j 0 /\ dsinc_exact (step_core A_BO (weights A_BO) (RtoC ex) (nthC qx) (nthC rx) j 0)) /\ a11 (slow_S A_BO PDE_NSE false (weights A_BO) (RtoC ex) (nthC qx) (nthC rx) 2 0) = 0 /\ b_coeff A_BO PDE_NSE false (weights A_BO) (RtoC ex) (nthC qx) (nthC rx) 2 (0 - ex / 2) (1 + ex / 2) 0 = 1 /\ usable PDE_NSE (exact_phi A_BO PDE_NSE false (weights A_BO) (RtoC ex) (nthC qx) (nthC rx) (0 - ex / 2) 0)
    (exact_psi A_BO PDE_NSE false (weights A_BO) (RtoC ex) (nthC qx) (nthC rx) 2 (1 + ex / 2) 0) 1.
Proof.
  assert (P2 : (sqrt 2 / 2 * (sqrt 2 / 2) = 1 / 2)%R) by (pose proof (sqrt_sqrt 2 ltac:(lra)); lra).
  assert (PP : (0 < sqrt 2 / 2)%R) by (pose proof (sqrt_lt_R0 2 ltac:(lra)); lra). 
  assert (ES : slow_S A_BO PDE_NSE false (weights A_BO) (RtoC ex) (nthC qx) (nthC rx) 2 0 = M2 0 (- (1)) 1 0).
  { unfold slow_S. fold (based PDE_NSE false 0 (descending 2 (fun i => slow_step A_BO (weights A_BO) (RtoC ex) (nthC qx) (nthC rx) i 0))). rewrite based_nse. cbn [descending].
    rewrite !step_x by lia. rewrite mmul_one_r, cos_x0, sin_x0. set (s := (sqrt 2 / 2)%R) in *.
    apply mat2_eq; cbn [a11 a12 a21 a22 mmul]; rewrite ?RtoC_opp.
    - ring.
    - transitivity (- RtoC (2 * (s * s))); [rewrite !RtoC_mult; ring|]. rewrite P2. f_equal. f_equal. field.
    - transitivity (RtoC (2 * (s * s))); [rewrite !RtoC_mult; ring|]. rewrite P2. f_equal. field.
    - ring. }
  split; [|split; [|split; [|split]]].
  - constructor; [lia|reflexivity|apply le_n|apply le_n|apply le_n|apply le_n|apply le_n|apply le_n|intros _; apply le_n|apply le_n|left; reflexivity|left; reflexivity|].
    intros i j Hi Hj. destruct i; [|lia]. cbn [nth]. unfold core_ok. pose proof (core_x_big j Hj). lra.
  - intros j Hj. pose proof (core_x_big j Hj). split; [split; [right; lra|exact I]|exact H].
  - rewrite ES. reflexivity.
  - unfold b_coeff. rewrite ES. cbn [a21]. replace (- Ci * 0 * RtoC (1 + ex / 2 + (0 - ex / 2))) with (RtoC 0) by ring. rewrite Cexp_0. ring.
  - assert (NZ : forall x : R, x <> 0%R -> RtoC x <> 0) by (intros x Nx E; apply RtoC_inj in E; contradiction).
    assert (E1 : exact_phi A_BO PDE_NSE false (weights A_BO) (RtoC ex) (nthC qx) (nthC rx) (0 - ex / 2) 0 1 = M2 (RtoC (cos x0)) (RtoC (sin x0)) (- RtoC (sin x0)) (RtoC (cos x0))).
    { unfold exact_phi, jost_phi. rewrite based_nse. cbn [descending substeps akns_upsampling_factor Nat.mul Nat.add]. rewrite step_x by lia. rewrite mmul_one_r.
      unfold waves. replace (- Ci * 0 * RtoC (0 - ex / 2)) with (RtoC 0) by ring. replace (Ci * 0 * RtoC (0 - ex / 2)) with (RtoC 0) by ring. rewrite Cexp_0. apply mmul_one_r. }
    assert (E2 : exact_psi A_BO PDE_NSE false (weights A_BO) (RtoC ex) (nthC qx) (nthC rx) 2 (1 + ex / 2) 0 1 = M2 (RtoC (cos x0)) (- RtoC (sin x0)) (RtoC (sin x0)) (RtoC (cos x0))).
    { unfold exact_psi, jost_psi. rewrite based_nse. cbn [rising substeps akns_upsampling_factor Nat.mul Nat.add Nat.sub]. rewrite step_x by lia. rewrite mmul_one_r.
      unfold waves. replace (- Ci * 0 * RtoC (1 + ex / 2)) with (RtoC 0) by ring. replace (Ci * 0 * RtoC (1 + ex / 2)) with (RtoC 0) by ring. rewrite Cexp_0. fold mone. rewrite mmul_one_r.
      assert (Dt : mdet (M2 (RtoC (cos x0)) (RtoC (sin x0)) (- RtoC (sin x0)) (RtoC (cos x0))) = 1) by (rewrite <- (step_x 0) by lia; apply slow_step_det).
      unfold minv. rewrite Dt. replace (/ 1) with (RtoC 1) by (field; exact C1_nz). rewrite mscal_one. cbn [a11 a12 a21 a22]. f_equal. ring. }
    unfold usable, f0, f1, g0, g1. rewrite E1, E2. cbn [a11 a12 a21 a22 part]. rewrite cos_x0, sin_x0, <- !RtoC_opp.
    repeat split; try (apply NZ; lra). discriminate.
Qed.

Print Assumptions akns_bound_states_result.
Print Assumptions akns_bound_states_exact.
Print Assumptions bound_state_exact_a.
Print Assumptions bound_state_exact_aprime.
Print Assumptions bound_state_exact_b.
Print Assumptions akns_bound_states_invalid_arguments.
Print Assumptions akns_bound_states_indivisible.
Print Assumptions kdv_bound_state_zero.
Print Assumptions nse_bound_states_is_akns.
Print Assumptions kdv_bound_states_is_akns.
