(** * The slow scattering matrix: C37 (product rule), C39, C40 *)
From Coq Require Import Reals Lra Lia List ZArith.
From Coquelicot Require Import Coquelicot.
From Verif Require Import Base Loop Mem Fields ErrModel CExp CField CConj CDeriv CMean MiscNumModel MiscNumProps MiscMetricProps MiscSincBound
  DiscTables DiscModel DiscProps FscatterSpec FscatterProof FscatterModel FscatterProps ScatterSpec MatExp ScatterStep ScatterModel ScatterProof ScatterRun ScatterLoop ScatterProps.
Import ListNotations.
Local Open Scope C_scope.

(** A valid call: [df] = derivative flag *)
Record valid (D : nat) (q r : list C) (eps_t : R) (K : nat) (lam res : list C) (W : option (list Z)) (d : akns_disc) (pde : akns_pde) (df : bool) : Prop := {
  v_D : (1 <= D)%nat; v_q : (D <= length q)%nat; v_r : (D <= length r)%nat; v_eps : (0 < eps_t)%R; v_K : (1 <= K)%nat;
  v_lam : (K <= length lam)%nat; v_res : ((if df then 8 else 4) * K <= length res)%nat;
  v_W : match W with Some w => (K <= length w)%nat | None => True end;
  v_slow : is_slow d; v_mult : match d with A_ES4 | A_TES4 => (D mod 3 = 0)%nat | _ => True end;
  v_pde : pde = PDE_NSE \/ (pde = PDE_KdV /\ forall i, (i < K)%nat -> nth i lam (RtoC 0) <> 0);
  v_core : df = true -> forall i j, (i < K)%nat -> (j < slow_steps d D)%nat ->
             core_ok d (weights d) (RtoC eps_t) (nthC q) (nthC r) j (nth i lam (RtoC 0)) }.
Definition flag (df : bool) : nat := if df then 1%nat else 0%nat.

(** 2^W times the b-entry block i of the result holds M, and M' if df *)
Definition holds_block (df : bool) (res : list C) (W : option (list Z)) (i : nat) (M M' : mat2) : Prop :=
  let b := if df then 8%nat else 4%nat in
  forall x y, (x < 2)%nat -> (y < 2)%nat ->
    RtoC (powerRZ 2 (WI W i)) * nth (b * i + 2 * x + y) res (RtoC 0) = entry M x y /\
    (df = true -> RtoC (powerRZ 2 (WI W i)) * nth (b * i + 4 + 2 * x + y) res (RtoC 0) = entry M' x y).

Lemma scattered_block D d pde vanilla V V' df norm l res W i :
  scattered D d pde vanilla V V' df norm l (slice (blk df) res i) (WI W i) ->
  holds_block df res W i (based pde vanilla l (descending (slow_steps d D) V)) (dbased pde vanilla l (descending (slow_steps d D) V) (propagated (slow_steps d D) V V')).
Proof.
  intros (_ & E & _). intros x y Hx Hy. fold (p2 (WI W i)).
  set (A := based pde vanilla l _) in *. set (B := dbased pde vanilla l _ _) in *. clearbody A B.
  assert (G : forall j, (j < blk df)%nat -> p2 (WI W i) * nth (blk df * i + j) res (RtoC 0) = nth j (l4 A ++ (if df then l4 B else [])) (RtoC 0)).
  { intros j Hj. rewrite <- E. rewrite (nth_indep (map (fun x => p2 (WI W i) * x) (slice (blk df) res i)) (RtoC 0) (p2 (WI W i) * RtoC 0)).
    - rewrite (map_nth (fun x => p2 (WI W i) * x)). f_equal. unfold slice. now rewrite nth_tabulate by exact Hj.
    - rewrite map_length. unfold slice. now rewrite tabulate_length. }
  fold (blk df). split.
  - replace (blk df * i + 2 * x + y)%nat with (blk df * i + (2 * x + y))%nat by lia. rewrite G by (destruct df; unfold blk; lia).
    destruct x as [|[|x]], y as [|[|y]]; try lia; reflexivity.
  - intros ->. replace (blk true * i + 4 + 2 * x + y)%nat with (blk true * i + (4 + 2 * x + y))%nat by lia. rewrite G by (unfold blk; lia).
    destruct x as [|[|x]], y as [|[|y]]; try lia; reflexivity.
Qed.

Lemma valid_pde D q r eps_t K lam res W d pde df : valid D q r eps_t K lam res W d pde df -> forall i, (i < K)%nat -> pde_ok pde (nthC lam i).
Proof. intros [] i Hi. destruct v_pde0 as [->|[-> N]]; [now left|]. right. split; [reflexivity|]. now apply N. Qed.

Lemma run_ok D q r eps_t K lam res W d pde vanilla df pr VV VV' :
  valid D q r eps_t K lam res W d pde df -> prepare D q r eps_t d = Ret (inr pr) -> prepared D q r eps_t d pr ->
  (forall i, (i < K)%nat -> steps_are D q r eps_t d pr (VV i) (VV' i) (nthC lam i)) ->
  exists res' W', akns_scatter_matrix D (Some q) (Some r) eps_t K (Some lam) (Some res) W d pde vanilla (flag df) = Ret (SUCCESS, Some res', W')
    /\ length res' = length res /\ isSome W' = isSome W /\ option_map (@length Z) W' = option_map (@length Z) W
    /\ (forall j, (blk df * K <= j)%nat -> nthC res' j = nthC res j)
    /\ (forall i, (K <= i)%nat -> WI W' i = WI W i)
    /\ forall i, (i < K)%nat -> scattered D d pde vanilla (VV i) (VV' i) df (isSome W) (nthC lam i) (slice (blk df) res' i) (WI W' i).
Proof.
  intros HV Ep Hp HVV. pose proof (valid_pde _ _ _ _ _ _ _ _ _ _ _ HV) as Hpde. destruct HV.
  destruct (scat_all_ok D q r eps_t d pr pde vanilla v_q0 v_r0 v_slow0 v_mult0 Hp VV VV' df K lam res W HVV v_lam0) as (res' & W' & E & R); try assumption.
  unfold akns_scatter_matrix. destruct (Nat.eqb_spec D 0) as [->|_]; [lia|]. destruct (Rlt_dec 0 eps_t); [|contradiction]. cbn [negb].
  destruct (Nat.eqb_spec K 0) as [->|_]; [lia|].
  assert (F1 : Nat.ltb 1 (flag df) = false) by (destruct df; reflexivity). rewrite F1.
  assert (F2 : Nat.eqb (flag df) 1 = df) by (destruct df; reflexivity). rewrite F2.
  assert (F3 : Nat.eqb (akns_upsampling_factor d) 0 = false) by (destruct v_slow0 as [->|[->|[->|[->|[->|[->| ->]]]]]]; reflexivity). rewrite F3.
  rewrite Ep. cbn [bind]. rewrite E. cbn [bind]. exists res', W'. split; [reflexivity|exact R].
Qed.

Lemma steps_all D q r eps_t K lam res W d pde df : valid D q r eps_t K lam res W d pde df ->
  exists pr VV VV', prepare D q r eps_t d = Ret (inr pr) /\ prepared D q r eps_t d pr /\
    forall i, (i < K)%nat -> steps_are D q r eps_t d pr (VV i) (VV' i) (nthC lam i).
Proof.
  intros HV. destruct HV. destruct (prepare_ok D q r eps_t v_q0 v_r0 d v_slow0 v_mult0) as (pr & E & Hp). exists pr.
  destruct (finite_choice ((fun _ => mone), (fun _ => mone)) (fun i VV => steps_are D q r eps_t d pr (fst VV) (snd VV) (nthC lam i)) K) as (f & Hf).
  - intros i Hi. destruct (steps_ok D q r eps_t d pr v_q0 v_r0 v_slow0 v_mult0 Hp (nthC lam i)) as (V & V' & HS). now exists (V, V').
  - exists (fun i => fst (f i)), (fun i => snd (f i)). split; [exact E|]. split; [exact Hp|]. exact Hf.
Qed.

(** ** C39: for every lambda the result times 2^W is T_to (V_(n-1) ... V_0) T_from, V_j an approximation of the j-th step *)
Theorem akns_scatter_matrix_product D q r eps_t K lam res W d pde vanilla df : valid D q r eps_t K lam res W d pde df ->
  exists res' W', akns_scatter_matrix D (Some q) (Some r) eps_t K (Some lam) (Some res) W d pde vanilla (flag df) = Ret (SUCCESS, Some res', W')
    /\ length res' = length res /\ option_map (@length Z) W' = option_map (@length Z) W
    /\ (forall j, ((if df then 8 else 4) * K <= j)%nat -> nth j res' (RtoC 0) = nth j res (RtoC 0)) /\ (forall i, (K <= i)%nat -> WI W' i = WI W i)
    /\ forall i, (i < K)%nat -> let l := nth i lam (RtoC 0) in let n := slow_steps d D in
         exists V V', (forall j, (j < n)%nat -> approx_step d (weights d) (RtoC eps_t) (nthC q) (nthC r) j l (V j)
             /\ (df = true -> approx_dstep d (weights d) (RtoC eps_t) (nthC q) (nthC r) j l (V j) (V' j)))
           /\ holds_block df res' W' i (based pde vanilla l (descending n V)) (dbased pde vanilla l (descending n V) (propagated n V V')).
Proof.
  intros HV. destruct (steps_all _ _ _ _ _ _ _ _ _ _ _ HV) as (pr & VV & VV' & Ep & Hp & HVV).
  destruct (run_ok _ _ _ _ _ _ _ _ _ _ vanilla _ pr VV VV' HV Ep Hp HVV) as (res' & W' & E & L & S1 & M1 & O & OW & B).
  exists res', W'. split; [exact E|]. split; [exact L|]. split; [exact M1|]. split; [exact O|]. split; [exact OW|].
  intros i Hi l n. exists (VV i), (VV' i). split.
  - intros j Hj. destruct (HVV i Hi j Hj) as (A & _ & Q). split; [exact A|]. intros Edf. apply Q. destruct HV. now apply v_core0.
  - exact (scattered_block _ _ _ _ _ _ _ _ _ _ _ _ (B i Hi)).
Qed.

(** with W = NULL and with W != NULL the same numbers, up to the factor 2^W; all entries are then below 2 for the NSE *)
Theorem akns_scatter_matrix_normalisation D q r eps_t K lam res d pde vanilla df w : valid D q r eps_t K lam res (Some w) d pde df ->
  exists resU resN w', 
    akns_scatter_matrix D (Some q) (Some r) eps_t K (Some lam) (Some res) None d pde vanilla (flag df) = Ret (SUCCESS, Some resU, None) /\
    akns_scatter_matrix D (Some q) (Some r) eps_t K (Some lam) (Some res) (Some w) d pde vanilla (flag df) = Ret (SUCCESS, Some resN, Some w') /\
    let b := if df then 8%nat else 4%nat in
    forall i j, (i < K)%nat -> (j < b)%nat ->
      nth (b * i + j) resU (RtoC 0) = RtoC (powerRZ 2 (nth i w' 0%Z)) * nth (b * i + j) resN (RtoC 0)
      /\ (pde = PDE_NSE -> (Cmod (nth (b * i + j) resN (RtoC 0)) < 2)%R).
Proof.
  intros HV. assert (HV0 : valid D q r eps_t K lam res None d pde df) by (destruct HV; constructor; assumption || exact I).
  destruct (steps_all _ _ _ _ _ _ _ _ _ _ _ HV) as (pr & VV & VV' & Ep & Hp & HVV).
  destruct (run_ok _ _ _ _ _ _ _ _ _ _ vanilla _ pr VV VV' HV0 Ep Hp HVV) as (resU & W0 & E0 & _ & S0 & _ & _ & _ & B0).
  destruct (run_ok _ _ _ _ _ _ _ _ _ _ vanilla _ pr VV VV' HV Ep Hp HVV) as (resN & W1 & E1 & _ & S1 & _ & _ & _ & B1).
  destruct W0 as [|]; [discriminate|]. destruct W1 as [w'|]; [|discriminate].
  exists resU, resN, w'. split; [exact E0|]. split; [exact E1|]. intros b i j Hi Hj. fold (blk df) in b.
  destruct (B0 i Hi) as (_ & Q0 & _). destruct (B1 i Hi) as (_ & Q1 & Q2). cbn [WI] in *. rewrite <- Q1 in Q0.
  assert (T : forall res, nth j (slice (blk df) res i) (RtoC 0) = nth (b * i + j) res (RtoC 0)) by (intros rs; unfold slice; now rewrite nth_tabulate by exact Hj).
  assert (G : forall c rs, nth j (map (fun x => c * x) (slice (blk df) rs i)) (RtoC 0) = c * nth (b * i + j) rs (RtoC 0)).
  { intros c rs. rewrite (nth_indep (map (fun x => c * x) (slice (blk df) rs i)) (RtoC 0) (c * RtoC 0)) by (rewrite map_length; unfold slice; now rewrite tabulate_length).
    rewrite (map_nth (fun x => c * x)). now rewrite T. }
  split.
  - apply (f_equal (fun v => nth j v (RtoC 0))) in Q0. rewrite !G in Q0. rewrite p2_0, Cmult_1_l in Q0. exact Q0.
  - intros Hn. specialize (Q2 eq_refl Hn). unfold small in Q2. rewrite Forall_forall in Q2. rewrite <- T. apply Q2, nth_In.
    unfold slice. now rewrite tabulate_length.
Qed.

(** ** Exactness: all exponents in the range where the sinc routines are exact *)
Lemma step_value d w h q r i lam V : approx_step d w h q r i lam V -> step_exact d w h q r i lam -> V = slow_step d w h q r i lam.
Proof.
  intros (Vc & VL & VR & (A & _) & O) (S & SO). unfold slow_step. destruct (step_outer d h q r i) as [[L R]|]; cbn [sandwich] in *.
  - destruct O as ((AL & _) & (AR & _) & ->). destruct SO as [SL SR]. now rewrite (A S), (AL SL), (AR SR).
  - rewrite O. exact (A S).
Qed.
Lemma dsinc_sinc X : dsinc_exact X -> sinc_exact X.
Proof. unfold dsinc_exact, sinc_exact. intros H. right. lra. Qed.
Lemma step_dvalue d w h q r i lam V V' : approx_dstep d w h q r i lam V V' -> step_exact d w h q r i lam -> dsinc_exact (step_core d w h q r i lam) ->
  Mderive (slow_step d w h q r i) lam V'.
Proof.
  intros (Vc & Vc' & VL & VR & (A & _) & (E & HE & XE & _) & O) (S & SO) DS. unfold slow_step. destruct (step_outer d h q r i) as [[L R]|]; cbn [sandwich] in *.
  - destruct O as ((AL & _) & (AR & _) & _ & ->). destruct SO as [SL SR]. rewrite (AL SL), (AR SR), (XE DS).
    eapply Mderive_eq; [apply Mderive_mul; [apply Mderive_const|apply Mderive_mul; [exact HE|apply Mderive_const]]|]. cbv beta. mring.
  - destruct O as [_ ->]. rewrite (XE DS). exact HE.
Qed.
Lemma descending_ext n M N : (forall i, (i < n)%nat -> M i = N i) -> descending n M = descending n N.
Proof. induction n as [|n IH]; intros H; [reflexivity|]. cbn [descending]. rewrite H by lia. rewrite IH; [reflexivity|]. intros i Hi. apply H. lia. Qed.
Lemma descending_derive n (M : nat -> C -> mat2) (M' : nat -> mat2) lam : (forall i, (i < n)%nat -> Mderive (M i) lam (M' i)) ->
  Mderive (fun z => descending n (fun i => M i z)) lam (propagated n (fun i => M i lam) M').
Proof.
  induction n as [|n IH]; intros H; [exact (Mderive_const mone lam)|]. cbn [descending propagated].
  eapply Mderive_eq; [apply Mderive_mul; [apply H; lia|apply IH; intros i Hi; apply H; lia]|]. cbv beta. mring.
Qed.
Lemma propagated_ext n M N E F : (forall i, (i < n)%nat -> M i = N i /\ E i = F i) -> propagated n M E = propagated n N F.
Proof.
  induction n as [|n IH]; intros H; [reflexivity|]. cbn [propagated]. destruct (H n ltac:(lia)) as [-> ->]. rewrite IH by (intros i Hi; apply H; lia).
  f_equal. f_equal. apply descending_ext. intros i Hi. apply H. lia.
Qed.

Theorem akns_scatter_matrix_exact D q r eps_t K lam res W d pde vanilla df : valid D q r eps_t K lam res W d pde df ->
  (forall i j, (i < K)%nat -> (j < slow_steps d D)%nat -> step_exact d (weights d) (RtoC eps_t) (nthC q) (nthC r) j (nth i lam (RtoC 0))) ->
  (df = true -> forall i j, (i < K)%nat -> (j < slow_steps d D)%nat -> dsinc_exact (step_core d (weights d) (RtoC eps_t) (nthC q) (nthC r) j (nth i lam (RtoC 0)))) ->
  exists res' W', akns_scatter_matrix D (Some q) (Some r) eps_t K (Some lam) (Some res) W d pde vanilla (flag df) = Ret (SUCCESS, Some res', W')
    /\ forall i, (i < K)%nat -> let l := nth i lam (RtoC 0) in let S := slow_S d pde vanilla (weights d) (RtoC eps_t) (nthC q) (nthC r) (slow_steps d D) in
         exists S', holds_block df res' W' i (S l) S' /\ (df = true -> Mderive S l S').
Proof.
  intros HV HE HD. destruct (akns_scatter_matrix_product _ _ _ _ _ _ _ _ _ _ vanilla _ HV) as (res' & W' & E & _ & _ & _ & _ & B).
  exists res', W'. split; [exact E|]. intros i Hi l S. destruct (B i Hi) as (V & V' & HVs & HB). fold l in HVs, HB.
  exists (dbased pde vanilla l (descending (slow_steps d D) V) (propagated (slow_steps d D) V V')).
  assert (EV : forall j, (j < slow_steps d D)%nat -> V j = slow_step d (weights d) (RtoC eps_t) (nthC q) (nthC r) j l).
  { intros j Hj. apply step_value; [apply HVs; exact Hj|]. apply HE; assumption. }
  assert (ED : descending (slow_steps d D) V = descending (slow_steps d D) (fun j => slow_step d (weights d) (RtoC eps_t) (nthC q) (nthC r) j l)) by (apply descending_ext; exact EV).
  split.
  - unfold S, slow_S, based in *. now rewrite <- ED.
  - intros Edf. destruct (basis_derive pde vanilla l (valid_pde _ _ _ _ _ _ _ _ _ _ _ HV i Hi)) as (B1 & B2 & _).
    unfold S, slow_S. eapply Mderive_eq.
    + apply Mderive_mul; [exact B2|]. apply Mderive_mul; [|exact B1].
      apply (descending_derive _ _ V'). intros j Hj. apply (step_dvalue _ _ _ _ _ _ _ (V j)); [apply HVs; assumption|apply HE; assumption|apply HD; assumption].
    + cbv beta. rewrite <- ED. unfold dbased. f_equal. f_equal. f_equal. f_equal. apply propagated_ext. intros j Hj. split; [symmetry; now apply EV|reflexivity].
Qed.

(** determinant of the exact scattering matrix: 1 *)
Lemma slow_step_det d w h q r i lam : mdet (slow_step d w h q r i lam) = 1.
Proof.
  assert (T1 : traceless (step_core d w h q r i lam)).
  { assert (TE : forall a b c x y z t, traceless (X_ES4 t a b c x y z lam)) by (intros; unfold traceless, X_ES4; cbn [a11 a22 madd mscal akns_A offd mcomm mopp mmul]; ring).
    assert (TE' : forall l h a b c x y z, traceless (X_ES4 h l a b c x y z)) by (intros; unfold traceless, X_ES4; cbn [a11 a22 madd mscal akns_A offd mcomm mopp mmul]; ring).
    unfold step_core. destruct d; first [apply X_BO_traceless|apply TE']. }
  assert (T2 : forall s h a b c x, traceless (X_TES4 s h a b c x)) by (intros; unfold traceless, X_TES4; cbn [a11 a22 madd mscal offd]; ring).
  unfold slow_step, step_outer. destruct d; cbn [sandwich]; try (apply mexp_det; exact T1).
  rewrite !mdet_mul, !mexp_det by (apply T2 || exact T1). ring.
Qed.
Theorem slow_S_determinant d pde vanilla w h q r n lam : pde_ok pde lam -> mdet (slow_S d pde vanilla w h q r n lam) = 1.
Proof.
  intros Hp. unfold slow_S. destruct (basis_derive pde vanilla lam Hp) as (_ & _ & E). rewrite !mdet_mul.
  assert (ED : mdet (descending n (fun i => slow_step d w h q r i lam)) = 1).
  { induction n as [|n IH]; [unfold mdet; cbn; ring|]. cbn [descending]. rewrite mdet_mul, slow_step_det, IH. ring. }
  rewrite ED. transitivity (mdet (mmul (minv (basisP pde vanilla lam)) (basisP pde vanilla lam))); [rewrite mdet_mul; ring|].
  rewrite E. unfold mdet. cbn [a11 a12 a21 a22 mone]. ring.
Qed.

(** the hypotheses are met, with derivatives and normalisation: D = 2, q = (1, 2), r = (-1, -2), lambda = 1 *)
Lemma example_core j : (j < 2)%nat -> (1 <= Cmod (mdet (step_core A_BO (weights A_BO) (RtoC 1) (nthC [RtoC 1; RtoC 2]) (nthC [RtoC (-1); RtoC (-2)]) j (RtoC 1))))%R.
Proof.
  intros Hj. cbn [step_core].
  assert (W : forall i, nth (i mod length (weights A_BO)) (weights A_BO) (RtoC 0) = RtoC 1) by (intros i; unfold weights; cbn [akns_method_weights akns_weight_class length]; rewrite Nat.mod_1_r; reflexivity).
  rewrite W. assert (E : forall a b : R, mdet (X_BO (RtoC 1 * RtoC 1) (RtoC 1) (RtoC a) (RtoC b)) = RtoC (1 - a * b)).
  { intros a b. unfold mdet, X_BO, akns_A. cbn [a11 a12 a21 a22 mscal]. rewrite RtoC_minus, RtoC_mult. ring [Ci_sqr]. }
  destruct j as [|[|j]]; [| |lia]; unfold nthC; cbn [nth]; rewrite E, Cmod_R, Rabs_pos_eq; lra.
Qed.
Example akns_scatter_matrix_case : valid 2 [RtoC 1; RtoC 2] [RtoC (-1); RtoC (-2)] 1 1 [RtoC 1] (repeat (RtoC 7) 8) (Some [5%Z]) A_BO PDE_NSE true /\
  (forall i j, (i < 1)%nat -> (j < slow_steps A_BO 2)%nat ->
     step_exact A_BO (weights A_BO) (RtoC 1) (nthC [RtoC 1; RtoC 2]) (nthC [RtoC (-1); RtoC (-2)]) j (nth i [RtoC 1] (RtoC 0)) /\
     dsinc_exact (step_core A_BO (weights A_BO) (RtoC 1) (nthC [RtoC 1; RtoC 2]) (nthC [RtoC (-1); RtoC (-2)]) j (nth i [RtoC 1] (RtoC 0)))).
Proof.
  split.
  - constructor; try (cbn; lia || lra || (now left) || exact I).
    intros _ i j Hi Hj. destruct i; [|lia]. cbn [nth]. unfold core_ok. pose proof (example_core j Hj). lra.
  - intros i j Hi Hj. destruct i; [|lia]. cbn [nth]. pose proof (example_core j Hj) as H. split; [|exact H]. split; [right; lra|exact I].
Qed.
(** ... and for the KdV with CF4_2 and without normalisation, where lambda <> 0 is needed *)
Example akns_scatter_matrix_case_kdv : valid 4 (repeat (RtoC (-1)) 4) (repeat (RtoC 3) 4) 1 2 [RtoC 1; Ci] (repeat (RtoC 7) 8) None A_CF4_2 PDE_KdV false.
Proof.
  constructor; try (cbn; lia || lra || exact I).
  - right. now left.
  - right. split; [reflexivity|]. intros [|[|i]] Hi; [exact C1_nz|exact Ci_neq0|lia].
Qed.

Print Assumptions akns_scatter_matrix_product.
Print Assumptions akns_scatter_matrix_normalisation.
Print Assumptions akns_scatter_matrix_exact.
Print Assumptions slow_S_determinant.
