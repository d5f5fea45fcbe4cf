(** * Slow scattering: error handling, NSE and KdV wrappers (C39), symmetry (C40) *)
From Coq Require Import Reals Lra Lia List ZArith.
From Coquelicot Require Import Coquelicot.
From Verif Require Import Base Loop Mem Fields ErrModel CExp CField CConj CDeriv CMean MiscNumModel MiscNumProps MiscMetricProps MiscSincBound
  DiscTables DiscModel DiscProps DiscPreNse FscatterSpec FscatterProof FscatterModel FscatterProps ScatterSpec MatExp ScatterStep ScatterModel ScatterProof ScatterRun ScatterLoop ScatterProps ScatterMatProps.
Import ListNotations.
Local Open Scope C_scope.

(** ** Errors *)
Theorem akns_scatter_matrix_invalid_arguments D q r eps_t K lam res W d pde vanilla df :
  (D = 0%nat \/ q = None \/ r = None \/ ~ (0 < eps_t)%R \/ K = 0%nat \/ lam = None \/ res = None \/ (1 < df)%nat \/ akns_upsampling_factor d = 0%nat) ->
  akns_scatter_matrix D q r eps_t K lam res W d pde vanilla df = Ret (EC_INVALID_ARGUMENT, res, W).
Proof.
  intros H. unfold akns_scatter_matrix. destruct (Nat.eqb_spec D 0) as [|ND]; [reflexivity|]. destruct q as [q|]; [|reflexivity]. destruct r as [r|]; [|reflexivity].
  destruct (Rlt_dec 0 eps_t); [|reflexivity]. cbn [negb]. destruct (Nat.eqb_spec K 0) as [|NK]; [reflexivity|]. destruct lam as [lam|]; [|reflexivity].
  destruct res as [res|]; [|reflexivity]. destruct (Nat.ltb_spec 1 df); [reflexivity|]. destruct (Nat.eqb_spec (akns_upsampling_factor d) 0); [reflexivity|].
  exfalso. destruct H as [H|[H|[H|[H|[H|[H|[H|[H|H]]]]]]]]; try discriminate; try contradiction; lia.
Qed.
(** the polynomial (fast) discretizations are refused; nothing is written *)
Theorem akns_scatter_matrix_fast_discretization D q r eps_t K lam res W d pde vanilla df :
  (1 <= D)%nat -> (0 < eps_t)%R -> (1 <= K)%nat -> (df <= 1)%nat -> akns_upsampling_factor d <> 0%nat -> ~ is_slow d ->
  akns_scatter_matrix D (Some q) (Some r) eps_t K (Some lam) (Some res) W d pde vanilla df = Ret (- EC_INVALID_ARGUMENT, Some res, W)%Z.
Proof.
  intros HD He HK Hf Hu Hs. unfold akns_scatter_matrix. destruct (Nat.eqb_spec D 0) as [|_]; [lia|]. destruct (Rlt_dec 0 eps_t); [|contradiction]. cbn [negb].
  destruct (Nat.eqb_spec K 0) as [|_]; [lia|]. destruct (Nat.ltb_spec 1 df); [lia|]. destruct (Nat.eqb_spec (akns_upsampling_factor d) 0) as [Q|_]; [contradiction|].
  assert (E : prepare D q r eps_t d = Ret (inl (-2)%Z)).
  { unfold prepare. assert (S : stepper_of d = None); [|now rewrite S]. unfold is_slow in Hs. destruct d; cbn [stepper_of]; try reflexivity; exfalso; apply Hs; intuition. }
  rewrite E. reflexivity.
Qed.
(** KdV at lambda = 0 *)
Lemma kdv_zero_basis d eps_t vanilla T df : akns_to_S T 0 df eps_t d vanilla PDE_KdV = Ret ((-3)%Z, T).
Proof. unfold akns_to_S, basis_matrix. destruct (Ceq_dec 0 0); [reflexivity|contradiction]. Qed.
Theorem akns_scatter_matrix_kdv_zero D q r eps_t K lam res W d vanilla :
  (1 <= D <= length q)%nat -> (D <= length r)%nat -> (0 < eps_t)%R -> (1 <= K)%nat -> (K <= length lam)%nat -> (4 * K <= length res)%nat -> lenW W K ->
  is_slow d -> multiple3 d D -> (exists i, (i < K)%nat /\ nth i lam (RtoC 0) = 0) ->
  exists res' W', akns_scatter_matrix D (Some q) (Some r) eps_t K (Some lam) (Some res) W d PDE_KdV vanilla 0 = Ret (- EC_DIV_BY_ZERO, Some res', W')%Z.
Proof.
  intros HD Hr He HK Hl Hres HW Hs Hm (i0 & Hi0 & Z0). unfold akns_scatter_matrix. destruct (Nat.eqb_spec D 0) as [|_]; [lia|].
  destruct (Rlt_dec 0 eps_t); [|contradiction]. cbn [negb]. destruct (Nat.eqb_spec K 0) as [|_]; [lia|]. cbn [Nat.ltb Nat.leb Nat.eqb].
  assert (F3 : Nat.eqb (akns_upsampling_factor d) 0 = false) by (destruct Hs as [->|[->|[->|[->|[->|[->| ->]]]]]]; reflexivity). rewrite F3.
  destruct (prepare_ok D q r eps_t ltac:(lia) Hr d Hs Hm) as (pr & -> & Hp). cbn [bind]. unfold scat_all.
  pose (P := fun (k : nat) (st : Z * list C * option (list Z)) => let '(code, res', W') := st in length res' = length res /\ isSome W' = isSome W /\
    option_map (@length Z) W' = option_map (@length Z) W /\ ((code = SUCCESS /\ (k <= i0)%nat) \/ code = (-3)%Z)).
  match goal with |- exists res' W', bind (for_ ?n ?lo ?b ?s) _ = _ => destruct (for_inv P b n lo s) as ([[code res'] W'] & E & L & _ & _ & R) end.
  - unfold P. split; [reflexivity|]. split; [reflexivity|]. split; [reflexivity|]. left. split; [reflexivity|lia].
  - intros i [[code res1] W1] Hi (L1 & S1 & M1 & R1). destruct R1 as [[-> Hk]| ->].
    + change (negb (Z.eqb SUCCESS SUCCESS)) with false. cbn iota. rewrite aget_nthC by lia. cbn [bind]. fold (isSome W1).
      destruct (steps_ok D q r eps_t d pr ltac:(lia) Hr Hs Hm Hp (nthC lam i)) as (V & V' & HS).
      assert (EW : forall Wi, exists W2, (match W1 with Some w => w <- aset w i Wi ;; Ret (Some w) | None => Ret None end) = Ret W2 /\
        isSome W2 = isSome W1 /\ option_map (@length Z) W2 = option_map (@length Z) W1).
      { intros Wi. destruct W1 as [w1|].
        - assert (i < length w1)%nat.
          { destruct W as [w0|]; [|discriminate]. cbn [option_map] in M1. injection M1 as M1. cbn [lenW] in HW. lia. }
          rewrite aset_upd by lia. cbn [bind]. eexists. split; [reflexivity|]. split; [reflexivity|]. cbn. now rewrite upd_length.
        - eexists. split; [reflexivity|]. split; reflexivity. }
      destruct (Ceq_dec (nthC lam i) 0) as [Zi|Ni].
      * unfold scat_one. destruct (loop_value D q r eps_t (akns_upsampling_factor d) pr (nthC lam i) V V' (isSome W1)) as (H & Wi & -> & _).
        { rewrite (passes_steps d D q r eps_t pr Hs Hm Hp). intros j H Hj. destruct (HS j Hj) as (_ & Q & _). apply Q. }
        cbn [bind]. rewrite Zi, kdv_zero_basis. cbn [bind]. change (negb (Z.eqb (-3) SUCCESS)) with true. cbn iota.
        change (chkZ (-3)) with (Ret (-3)%Z). cbn [bind]. destruct (EW Wi) as (W2 & -> & S2 & M2). cbn [bind].
        change (Z.eqb (-3) SUCCESS) with false. cbn iota. eexists. split; [reflexivity|]. unfold P. split; [exact L1|]. split; [congruence|]. split; [congruence|]. now right.
      * destruct (scat_one_ok D q r eps_t d pr PDE_KdV vanilla Hs Hm Hp V V' false (isSome W1) (nthC lam i) HS) as (vals & Wi & -> & Lv & _).
        { right. split; [reflexivity|exact Ni]. }
        { discriminate. }
        cbn [bind]. destruct (EW Wi) as (W2 & -> & S2 & M2). cbn [bind]. change (Z.eqb SUCCESS SUCCESS) with true. cbn iota.
        destruct (wr_list_ok vals (4 * i) res1) as (res2 & -> & L2 & _); [cbn iota in Lv; rewrite Lv, L1; lia|]. cbn [bind].
        eexists. split; [reflexivity|]. unfold P. split; [congruence|]. split; [congruence|]. split; [congruence|]. left. split; [reflexivity|].
        destruct (Nat.eq_dec i i0) as [->|]; [contradiction|lia].
    + change (negb (Z.eqb (-3) SUCCESS)) with true. cbn iota. eexists. split; [reflexivity|]. unfold P. split; [exact L1|]. split; [exact S1|]. split; [exact M1|]. now right.
  - rewrite E. cbn [bind]. exists res', W'. destruct R as [[_ Hk]| ->]; [lia|reflexivity].
Qed.
(** ES4 and TES4 read and write past the arrays unless D is a multiple of 3 *)
Lemma for_app {S} n m lo body (st : S) : for_ (n + m) lo body st = (s <- for_ n lo body st ;; for_ m (lo + n) body s).
Proof.
  revert lo st. induction n as [|n IH]; intros lo st; cbn [Nat.add for_ bind].
  - now rewrite Nat.add_0_r.
  - destruct (body lo st) as [s|]; cbn [bind]; [|reflexivity]. rewrite IH. replace (Datatypes.S lo + n)%nat with (lo + Datatypes.S n)%nat by lia. reflexivity.
Qed.
Lemma aget_out {A} (l : list A) i : (length l <= i)%nat -> aget l i = UB.
Proof. revert i. induction l as [|x l IH]; intros [|i] H; cbn in *; try reflexivity; try lia. apply IH. lia. Qed.
Lemma pre_loop_overrun D q r f : (D mod 3 <> 0)%nat -> length q = D -> pre_loop D q r f = UB.
Proof.
  intros Hm Hq. unfold pre_loop.
  assert (T : triples D = (D / 3 + 1)%nat).
  { unfold triples. pose proof (Nat.div_mod D 3 ltac:(lia)) as E. pose proof (Nat.mod_upper_bound D 3 ltac:(lia)). 
    replace (D + 2)%nat with ((D mod 3 - 1) + (D / 3 + 1) * 3)%nat by lia. rewrite Nat.div_add by lia. rewrite (Nat.div_small (D mod 3 - 1)) by lia. lia. }
  rewrite T, for_app. destruct (for_ (D / 3) 0 _ _) as [s|]; [|reflexivity]. cbn [bind for_ Nat.add].
  pose proof (Nat.div_mod D 3 ltac:(lia)) as E. pose proof (Nat.mod_upper_bound D 3 ltac:(lia)).
  destruct (aget q (3 * (D / 3))) as [a|]; cbn [bind]; [|reflexivity]. destruct (aget q (3 * (D / 3) + 1)) as [b|]; cbn [bind]; [|reflexivity].
  rewrite aget_out by lia. reflexivity.
Qed.
Theorem es4_needs_multiple_of_three D q r eps_t K lam res W d pde vanilla df : (1 <= D)%nat -> (0 < eps_t)%R -> (1 <= K)%nat -> (df <= 1)%nat ->
  (d = A_ES4 \/ d = A_TES4) -> (D mod 3 <> 0)%nat -> length q = D ->
  akns_scatter_matrix D (Some q) (Some r) eps_t K (Some lam) (Some res) W d pde vanilla df = UB.
Proof.
  intros HD He HK Hf Hd Hm Hq. unfold akns_scatter_matrix. destruct (Nat.eqb_spec D 0) as [|_]; [lia|]. destruct (Rlt_dec 0 eps_t); [|contradiction]. cbn [negb].
  destruct (Nat.eqb_spec K 0) as [|_]; [lia|]. destruct (Nat.ltb_spec 1 df); [lia|].
  destruct Hd as [-> | ->]; unfold prepare; cbn [stepper_of]; rewrite pre_loop_overrun by assumption; reflexivity.
Qed.

(** ** Wrappers *)
Definition outcome_code (c : Z) : Z := if Z.eqb c SUCCESS then SUCCESS else (- Z.abs c)%Z.
Theorem nse_scatter_matrix_is_akns D q r eps_t kappa K lam res W d a df code res' W' :
  (1 <= D)%nat -> (0 < eps_t)%R -> (kappa = 1 \/ kappa = -1)%Z -> (1 <= K)%nat -> nse_to_akns d = Some a ->
  akns_scatter_matrix D (Some q) (Some r) eps_t K (Some lam) (Some res) W a PDE_NSE false df = Ret (code, res', W') -> code <> INT_MIN ->
  nse_scatter_matrix D (Some q) (Some r) eps_t kappa K (Some lam) (Some res) W d df = Ret (outcome_code code, res', W').
Proof.
  intros HD He Hk HK Hd E Nc. unfold nse_scatter_matrix. destruct (Nat.eqb_spec D 0) as [|_]; [lia|]. destruct (Rlt_dec 0 eps_t); [|contradiction]. cbn [negb].
  assert (Ek : Z.eqb (Z.abs kappa) 1 = true) by (destruct Hk as [-> | ->]; reflexivity). rewrite Ek. cbn [negb].
  destruct (Nat.eqb_spec K 0) as [|_]; [lia|]. rewrite Hd, E. cbn [bind]. unfold chkZ, outcome_code. destruct (Z.eqb_spec code SUCCESS) as [->|N]; [reflexivity|].
  unfold E_SUBROUTINE. destruct (Z.eqb_spec code INT_MIN); [contradiction|reflexivity].
Qed.
Theorem nse_scatter_matrix_invalid_arguments D q r eps_t kappa K lam res W d df :
  (D = 0%nat \/ q = None \/ r = None \/ ~ (0 < eps_t)%R \/ Z.abs kappa <> 1%Z \/ K = 0%nat \/ lam = None \/ res = None) ->
  nse_scatter_matrix D q r eps_t kappa K lam res W d df = Ret (EC_INVALID_ARGUMENT, res, W).
Proof.
  intros H. unfold nse_scatter_matrix. destruct (Nat.eqb_spec D 0) as [|ND]; [reflexivity|]. destruct q as [q|]; [|reflexivity]. destruct r as [r|]; [|reflexivity].
  destruct (Rlt_dec 0 eps_t); [|reflexivity]. cbn [negb]. destruct (Z.eqb_spec (Z.abs kappa) 1); [|reflexivity]. cbn [negb].
  destruct (Nat.eqb_spec K 0) as [|NK]; [reflexivity|]. destruct lam as [lam|]; [|reflexivity].
  destruct res as [res|]; [|reflexivity]. exfalso. destruct H as [H|[H|[H|[H|[H|[H|[H|H]]]]]]]; try discriminate; try contradiction.
Qed.
(** KdV: q and r exchanged for the discretizations without _VANILLA *)
Theorem kdv_scatter_matrix_is_akns D q r eps_t kappa K lam res W d a v df code res' W' :
  (1 <= D)%nat -> (0 < eps_t)%R -> (1 <= K)%nat -> kdv_to_akns d = Some a -> kdv_vanilla_flag d = Some v ->
  akns_scatter_matrix D (Some (if v then q else r)) (Some (if v then r else q)) eps_t K (Some lam) (Some res) W a PDE_KdV v df = Ret (code, res', W') -> code <> INT_MIN ->
  kdv_scatter_matrix D (Some q) (Some r) eps_t kappa K (Some lam) (Some res) W d df = Ret (outcome_code code, res', W').
Proof.
  intros HD He HK Hd Hv E Nc. unfold kdv_scatter_matrix. destruct (Nat.eqb_spec D 0) as [|_]; [lia|]. destruct (Rlt_dec 0 eps_t); [|contradiction]. cbn [negb].
  destruct (Nat.eqb_spec K 0) as [|_]; [lia|]. rewrite Hd, Hv. destruct v; rewrite E; cbn [bind]; unfold chkZ, outcome_code;
  (destruct (Z.eqb_spec code SUCCESS) as [->|N]; [reflexivity|]; unfold E_SUBROUTINE; destruct (Z.eqb_spec code INT_MIN); [contradiction|reflexivity]).
Qed.

(** ** C40: symmetry for the NSE on the real axis *)
(** [[a, -kappa conj(b)], [b, conj(a)]] *)
Definition unitary_like (kappa : C) (M : mat2) : Prop := a22 M = Cconj (a11 M) /\ a12 M = - kappa * Cconj (a21 M).
Definition lie (kappa : C) (X : mat2) : Prop := a22 X = - a11 X /\ Cconj (a11 X) = - a11 X /\ a12 X = - kappa * Cconj (a21 X).
Section Sym.
Variable kap : R.
Hypothesis Hkap : kap = 1%R \/ kap = (-1)%R.
Let k : C := RtoC kap.
Lemma kk : k * k = 1.
Proof. unfold k. rewrite <- RtoC_mult. f_equal. destruct Hkap as [-> | ->]; ring. Qed.
Lemma kc : Cconj k = k. Proof. apply Cconj_R. Qed.
Ltac cj := repeat first [rewrite Cplus_conj | rewrite Cmult_conj | rewrite Cconj_opp | rewrite Cconj_minus | rewrite Cconj_conj | rewrite Cconj_R | rewrite kc].
Lemma ul_mmul M N : unitary_like k M -> unitary_like k N -> unitary_like k (mmul M N).
Proof.
  intros (A & B) (A' & B'). unfold unitary_like. cbn [a11 a12 a21 a22 mmul]. rewrite A, B, A', B'. cj. split; ring.
Qed.
Lemma ul_one : unitary_like k mone.
Proof. unfold unitary_like. cbn [a11 a12 a21 a22 mone]. rewrite !Cconj_R. split; ring. Qed.
Lemma ul_descending n M : (forall i, (i < n)%nat -> unitary_like k (M i)) -> unitary_like k (descending n M).
Proof. induction n as [|n IH]; intros H; cbn [descending]; [apply ul_one|]. apply ul_mmul; [apply H; lia|apply IH; intros i Hi; apply H; lia]. Qed.
Lemma Cmod_pow2 (z : C) : RtoC (Cmod z ^ 2) = z * Cconj z.
Proof. replace (Cmod z ^ 2)%R with (Cmod z * Cmod z)%R by ring. rewrite Cmod_sq. apply Ceq; cbn; ring. Qed.
Lemma ul_det M : unitary_like k M -> mdet M = RtoC (Cmod (a11 M) ^ 2 + kap * Cmod (a21 M) ^ 2).
Proof. intros (A & B). unfold mdet. rewrite A, B. rewrite RtoC_plus, RtoC_mult, !Cmod_pow2. fold k. ring. Qed.
Lemma lie_det X : lie k X -> exists x : R, mdet X = RtoC x.
Proof.
  intros (A & B & C0). exists (fst (mdet X)). apply conj_real. unfold mdet. rewrite A, C0. cj. rewrite B. ring.
Qed.
Lemma lie_exp X V : lie k X -> approx_exp X V -> unitary_like k V.
Proof.
  intros L (_ & _ & A). destruct (lie_det X L) as (x & Hx). destruct (A x Hx) as (c & s & ->). destruct L as (L1 & L2 & L3).
  unfold unitary_like. cbn [a11 a12 a21 a22 madd mscal mone]. rewrite L1, L3. cj. rewrite L2. split; ring.
Qed.
Lemma lie_add X Y : lie k X -> lie k Y -> lie k (madd X Y).
Proof. intros (A & B & C0) (A' & B' & C'). unfold lie. cbn [a11 a12 a21 a22 madd]. rewrite A, C0, A', C'. cj. rewrite B, B'. split; [ring|split; ring]. Qed.
Lemma lie_scal (c : C) X : Cconj c = c -> lie k X -> lie k (mscal c X).
Proof. intros Hc (A & B & C0). unfold lie. cbn [a11 a12 a21 a22 mscal]. rewrite A, C0. cj. rewrite B, Hc. split; [ring|split; ring]. Qed.
Lemma lie_comm X Y : lie k X -> lie k Y -> lie k (mcomm X Y).
Proof.
  intros (A & B & C0) (A' & B' & C'). unfold lie, mcomm, mopp. cbn [a11 a12 a21 a22 madd mmul mscal]. rewrite A, C0, A', C'. cj. rewrite B, B'.
  split; [ring|split; ring].
Qed.
Lemma rel_flip (q r : C) : r = - k * Cconj q -> q = - k * Cconj r.
Proof. intros ->. cj. transitivity (k * k * q); [rewrite kk; ring|ring]. Qed.
Lemma lie_A (l : R) q r : r = - k * Cconj q -> lie k (akns_A (RtoC l) q r).
Proof.
  intros H. apply rel_flip in H. unfold lie, akns_A. cbn [a11 a12 a21 a22]. split; [ring|]. split; [|exact H].
  cj. replace (Cconj Ci) with (- Ci) by (apply Ceq; cbn; ring). ring.
Qed.
Lemma lie_offd q r : r = - k * Cconj q -> lie k (offd q r).
Proof. intros H. apply rel_flip in H. unfold lie, offd. cbn [a11 a12 a21 a22]. rewrite Cconj_R. split; [ring|]. split; [ring|exact H]. Qed.

Definition symmetric_method (d : akns_disc) : Prop := d = A_BO \/ d = A_CF4_2 \/ d = A_CF4_3 \/ d = A_ES4 \/ d = A_TES4.
Lemma conj_div_R (x y : R) : Cconj (RtoC x / RtoC y) = RtoC x / RtoC y.
Proof. apply Ceq; cbn; unfold Rdiv; ring. Qed.
Lemma weights_real d j : symmetric_method d -> Cconj (nth j (weights d) (RtoC 0)) = nth j (weights d) (RtoC 0).
Proof.
  assert (Q : forall j, exists x : R, nth j cf43_qr 0 = RtoC x).
  { intros i. destruct (Nat.lt_ge_cases i 9) as [Hj|Hj].
    - unfold cf43_qr. rewrite nth_tabulate by lia. eexists. reflexivity.
    - exists 0%R. rewrite nth_overflow by (unfold cf43_qr; rewrite tabulate_length; lia). reflexivity. }
  intros [->|[->|[->|[->| ->]]]].
  - unfold weights. cbn. destruct j as [|[|j]]; apply Cconj_R.
  - unfold weights. cbn. destruct j as [|[|[|j]]]; apply Cconj_R.
  - unfold weights, akns_method_weights, normalise_rows. cbn [akns_weight_class].
    destruct (Nat.lt_ge_cases j 3) as [Hj|Hj].
    + rewrite nth_tabulate by exact Hj. destruct (Q (3 * j)%nat) as [a ->]. destruct (Q (3 * j + 1)%nat) as [b ->]. destruct (Q (3 * j + 2)%nat) as [c ->].
      rewrite <- !RtoC_plus. apply Cconj_R.
    + rewrite nth_overflow by (rewrite tabulate_length; lia). apply Cconj_R.
  - unfold weights. cbn. destruct j; apply Cconj_R.
  - unfold weights. cbn. destruct j; apply Cconj_R.
Qed.
Lemma symmetric_step d (h l : R) (q r : nat -> C) D j V : symmetric_method d -> multiple3 d D -> (forall i, (i < D)%nat -> r i = - k * Cconj (q i)) ->
  (j < slow_steps d D)%nat -> approx_step d (weights d) (RtoC h) q r j (RtoC l) V -> unitary_like k V.
Proof.
  intros Hd Hm Hr Hj (Vc & VL & VR & A & O).
  assert (Hc : lie k (step_core d (weights d) (RtoC h) q r j (RtoC l))).
  { assert (BO : forall w : C, Cconj w = w -> (j < D)%nat -> lie k (X_BO (w * RtoC h) (RtoC l) (q j) (r j))).
    { intros w Hw Hi. unfold X_BO. apply lie_scal; [cj; now rewrite Hw|]. apply lie_A, Hr, Hi. }
    destruct Hd as [->|[->|[->|[->| ->]]]]; cbn [step_core slow_steps multiple3] in *.
    - apply BO; [apply weights_real; now left|exact Hj].
    - apply BO; [apply weights_real; right; now left|exact Hj].
    - apply BO; [apply weights_real; right; right; now left|exact Hj].
    - assert (HiD : (3 * j + 2 < D)%nat) by (pose proof (Nat.div_mod D 3); lia). unfold X_ES4.
      apply lie_add; [apply lie_scal; [apply Cconj_R|apply lie_A, Hr; lia]|].
      apply lie_add; (apply lie_scal; [rewrite <- !RtoC_mult; apply conj_div_R|]); [apply lie_offd, Hr; lia|].
      apply lie_comm; [apply lie_offd, Hr; lia|apply lie_A, Hr; lia].
    - assert (HiD : (3 * j + 2 < D)%nat) by (pose proof (Nat.div_mod D 3); lia). unfold X_BO. apply lie_scal; [apply Cconj_R|apply lie_A, Hr; lia]. }
  pose proof (lie_exp _ _ Hc A) as Uc.
  destruct Hd as [->|[->|[->|[->| ->]]]]; cbn [step_outer slow_steps multiple3] in *; try (rewrite O; exact Uc).
  assert (HiD : (3 * j + 2 < D)%nat) by (pose proof (Nat.div_mod D 3); lia).
  assert (T : forall s : C, Cconj s = s -> lie k (X_TES4 s (RtoC h) (q (3 * j + 1)%nat) (q (3 * j + 2)%nat) (r (3 * j + 1)%nat) (r (3 * j + 2)%nat))).
  { intros s Hs. unfold X_TES4. apply lie_add; (apply lie_scal; [|apply lie_offd, Hr; lia]).
    - rewrite <- !RtoC_mult. apply conj_div_R.
    - rewrite Cmult_conj, Hs. rewrite <- !RtoC_mult, conj_div_R. reflexivity. }
  destruct O as (AL & AR & ->). apply ul_mmul; [|apply ul_mmul; [exact Uc|]].
  - refine (lie_exp _ _ _ AL). apply T. apply Cconj_R.
  - refine (lie_exp _ _ _ AR). apply T. rewrite Cconj_opp, Cconj_R. reflexivity.
Qed.

(** For real lambda and r = -kappa conj(q) the computed matrix has the structure [[a, -kappa conj(b)], [b, conj(a)]] for every
   number of samples; |a|^2 + kappa |b|^2 = 1 (times the scaling 4^W) if the sinc routine is exact for all steps *)
Theorem nse_scattering_symmetry D q r eps_t K lam res W d df : valid D q r eps_t K lam res W d PDE_NSE df -> symmetric_method d ->
  (forall i, (i < D)%nat -> nth i r (RtoC 0) = - RtoC kap * Cconj (nth i q (RtoC 0))) ->
  (forall i, (i < K)%nat -> exists x : R, nth i lam (RtoC 0) = RtoC x) ->
  exists res' W', akns_scatter_matrix D (Some q) (Some r) eps_t K (Some lam) (Some res) W d PDE_NSE false (flag df) = Ret (SUCCESS, Some res', W') /\
  forall i, (i < K)%nat -> let s j := nth ((if df then 8 else 4) * i + j)%nat res' (RtoC 0) in
    s 3%nat = Cconj (s 0%nat) /\ s 1%nat = - RtoC kap * Cconj (s 2%nat) /\
    ((forall j, (j < slow_steps d D)%nat -> step_exact d (weights d) (RtoC eps_t) (nthC q) (nthC r) j (nth i lam (RtoC 0))) ->
      (powerRZ 4 (WI W' i) * (Cmod (s 0%nat) ^ 2 + kap * Cmod (s 2%nat) ^ 2) = 1)%R).
Proof.
  intros HV Hd Hr Hl. destruct (akns_scatter_matrix_product _ _ _ _ _ _ _ _ _ _ false _ HV) as (res' & W' & E & _ & _ & _ & _ & B).
  exists res', W'. split; [exact E|]. intros i Hi s. destruct (B i Hi) as (V & V' & HVs & HB). destruct (Hl i Hi) as (x & Hx).
  assert (U : unitary_like k (descending (slow_steps d D) V)).
  { apply ul_descending. intros j Hj. destruct (HVs j Hj) as [A _]. rewrite Hx in A. apply (symmetric_step d eps_t x (nthC q) (nthC r) D j); try assumption.
    apply HV. }
  rewrite based_nse in HB. set (M := descending _ V) in *. set (p := RtoC (powerRZ 2 (WI W' i))) in *.
  assert (Np : p <> 0) by apply (p2_neq0 (WI W' i)). assert (Cp : Cconj p = p) by apply Cconj_R.
  assert (S0 : p * s 0%nat = a11 M) by (destruct (HB 0 0)%nat as [Q _]; [lia|lia|]; cbn [entry] in Q; rewrite <- Q; unfold s, p; f_equal; f_equal; lia).
  assert (S1 : p * s 1%nat = a12 M) by (destruct (HB 0 1)%nat as [Q _]; [lia|lia|]; cbn [entry] in Q; rewrite <- Q; unfold s, p; f_equal; f_equal; lia).
  assert (S2 : p * s 2%nat = a21 M) by (destruct (HB 1 0)%nat as [Q _]; [lia|lia|]; cbn [entry] in Q; rewrite <- Q; unfold s, p; f_equal; f_equal; lia).
  assert (S3 : p * s 3%nat = a22 M) by (destruct (HB 1 1)%nat as [Q _]; [lia|lia|]; cbn [entry] in Q; rewrite <- Q; unfold s, p; f_equal; f_equal; lia).
  destruct U as (U1 & U2). split; [|split].
  - apply (Cmult_eq_reg_l p); [|exact Np]. rewrite S3, U1, <- S0, Cmult_conj, Cp. reflexivity.
  - apply (Cmult_eq_reg_l p); [|exact Np]. rewrite S1, U2, <- S2, Cmult_conj, Cp. unfold k. ring.
  - intros HE. assert (D1 : mdet M = 1).
    { unfold M. rewrite (descending_ext _ V (fun j => slow_step d (weights d) (RtoC eps_t) (nthC q) (nthC r) j (nth i lam (RtoC 0)))).
      - generalize (slow_steps d D). intros n. induction n as [|n IH]; [unfold mdet; cbn; ring|]. cbn [descending]. rewrite mdet_mul, slow_step_det, IH. ring.
      - intros j Hj. apply step_value; [apply HVs; exact Hj|]. now apply HE. }
    rewrite (ul_det M (conj U1 U2)) in D1. apply RtoC_inj in D1. rewrite <- S0, <- S2, !Cmod_mult in D1.
    assert (Mp : (Cmod p * Cmod p = powerRZ 4 (WI W' i))%R).
    { unfold p. rewrite Cmod_R, Rabs_pos_eq by (apply powerRZ_le; lra). rewrite <- powerRZ_mult by lra. reflexivity. }
    rewrite <- Mp. rewrite <- D1. ring.
Qed.
End Sym.

(** the hypotheses are met: the case of ScatterMatProps has r = -conj(q), lambda real *)
Example nse_scattering_symmetry_case : symmetric_method A_BO /\
  (forall i, (i < 2)%nat -> nth i [RtoC (-1); RtoC (-2)] (RtoC 0) = - RtoC 1 * Cconj (nth i [RtoC 1; RtoC 2] (RtoC 0))) /\
  (forall i, (i < 1)%nat -> exists x : R, nth i [RtoC 1] (RtoC 0) = RtoC x).
Proof.
  split; [now left|]. split.
  - intros [|[|i]] Hi; [| |lia]; cbn [nth]; rewrite Cconj_R, <- RtoC_opp, <- RtoC_mult; f_equal; lra.
  - intros [|i] Hi; [|lia]. now exists 1%R.
Qed.
Example nse_scatter_matrix_runs : exists res' W', nse_scatter_matrix 2 (Some [RtoC 1; RtoC 2]) (Some [RtoC (-1); RtoC (-2)]) 1 1 1 (Some [RtoC 1])
  (Some (repeat (RtoC 7) 8)) (Some [5%Z]) N_BO 1 = Ret (SUCCESS, Some res', W').
Proof.
  destruct akns_scatter_matrix_case as [HV _]. destruct (akns_scatter_matrix_product _ _ _ _ _ _ _ _ _ _ false _ HV) as (res' & W' & E & _). exists res', W'.
  change SUCCESS with (outcome_code SUCCESS) at 1. apply (nse_scatter_matrix_is_akns _ _ _ _ _ _ _ _ _ _ A_BO); try lia; try lra; try reflexivity; [exact E|discriminate].
Qed.
Example kdv_scatter_matrix_runs : exists res' W', kdv_scatter_matrix 4 (Some (repeat (RtoC 3) 4)) (Some (repeat (RtoC (-1)) 4)) 1 1 2 (Some [RtoC 1; Ci])
  (Some (repeat (RtoC 7) 8)) None K_CF4_2 0 = Ret (SUCCESS, Some res', W').
Proof.
  destruct (akns_scatter_matrix_product _ _ _ _ _ _ _ _ _ _ false _ akns_scatter_matrix_case_kdv) as (res' & W' & E & _). exists res', W'.
  change SUCCESS with (outcome_code SUCCESS) at 1. apply (kdv_scatter_matrix_is_akns _ _ _ _ _ _ _ _ _ _ A_CF4_2 false); try lia; try lra; try reflexivity; [exact E|discriminate].
Qed.

Print Assumptions akns_scatter_matrix_invalid_arguments.
Print Assumptions akns_scatter_matrix_fast_discretization.
Print Assumptions akns_scatter_matrix_kdv_zero.
Print Assumptions es4_needs_multiple_of_three.
Print Assumptions nse_scatter_matrix_is_akns.
Print Assumptions nse_scatter_matrix_invalid_arguments.
Print Assumptions kdv_scatter_matrix_is_akns.
Print Assumptions nse_scattering_symmetry.
