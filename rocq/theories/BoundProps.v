(** * Bound states: C41 *)
From Coq Require Import Reals Lra Lia List ZArith.
From Coquelicot Require Import Coquelicot.
From Verif Require Import Base Loop Mem Fields ErrModel CExp CField CConj CDeriv CMean MiscNumModel MiscNumProps MiscMetricProps MiscSincBound
  DiscTables DiscModel DiscProps FscatterSpec FscatterProof FscatterModel FscatterProps ScatterSpec MatExp ScatterStep ScatterModel ScatterProof ScatterRun ScatterLoop ScatterProps ScatterMatProps ScatterNse
  BoundModel BoundSpec BoundProof BoundRun BoundOne.
Import ListNotations.
Local Open Scope C_scope.

Definition nthO (o : option (list C)) (i : nat) : C := match o with Some b => nth i b (RtoC 0) | None => RtoC 0 end.
Definition lenO (o : option (list C)) : option nat := option_map (@length C) o.

(** ** A valid call.  Dg = number of given samples, ups*Dg = D preprocessed samples *)
Record bvalid (D Dg : nat) (q r : list C) (eps_t : R) (K : nat) (lam a ap : list C) (b : option (list C)) (W : option (list Z))
  (d : akns_disc) (pde : akns_pde) (skip_b : bool) : Prop := {
  bv_Dg : (2 <= Dg)%nat; bv_D : D = (Dg * akns_upsampling_factor d)%nat;
  bv_q : (D <= length q)%nat; bv_r : (D <= length r)%nat; bv_K : (1 <= K)%nat; bv_lam : (K <= length lam)%nat;
  bv_a : (K <= length a)%nat; bv_ap : (K <= length ap)%nat;
  bv_b : skip_b = false -> match b with Some b => (K <= length b)%nat | None => False end;
  bv_W : match W with Some w => (K <= length w)%nat | None => True end;
  bv_slow : is_slow d;
  bv_pde : pde = PDE_NSE \/ (pde = PDE_KdV /\ forall i, (i < K)%nat -> nth i lam (RtoC 0) <> 0);
  bv_core : forall i j, (i < K)%nat -> (j < Dg * substeps d)%nat -> core_ok d (weights d) (RtoC eps_t) (nthC q) (nthC r) j (nth i lam (RtoC 0)) }.

Lemma slow_ups d : is_slow d -> akns_upsampling_factor d <> 0%nat /\ exists bc, akns_boundary_coeff d = Some bc.
Proof. intros [->|[->|[->|[->|[->|[->| ->]]]]]]; split; try discriminate; eexists; reflexivity. Qed.
Lemma slow_bc d : is_slow d -> akns_boundary_coeff d = Some (1 / 2)%R.
Proof. intros [->|[->|[->|[->|[->|[->| ->]]]]]]; reflexivity. Qed.
Lemma mult3 d D Dg : D = (Dg * akns_upsampling_factor d)%nat -> multiple3 d D.
Proof.
  intros ->. unfold multiple3. destruct d; try exact I; cbn [akns_upsampling_factor]; apply Nat.mod_mul; lia.
Qed.

Section Main.
Variables (junk : nat -> list C) (junkW1 junkW2 : nat -> list Z).
Hypothesis HJ : forall n, length (junk n) = n.
Hypothesis HJ1 : forall n, length (junkW1 n) = n.
Hypothesis HJ2 : forall n, length (junkW2 n) = n.

(** Every bound state i: 2^W a = e^(i lambda (tp-tm)) S11, 2^W a' = its derivative, b from the sample where the two estimates agree best.
   The contents of the freshly allocated buffers do not matter *)
Theorem akns_bound_states_result D Dg q r T0 T1 K lam a ap b W d pde vanilla skip_b :
  let eps_t := ((T1 - T0) / (INR Dg - 1))%R in
  bvalid D Dg q r eps_t K lam a ap b W d pde skip_b ->
  exists a' ap' b' W', akns_scatter_bound_states junk junkW1 junkW2 D (Some q) (Some r) (Some (T0, T1)) K (Some lam) (Some a) (Some ap) b W d pde vanilla skip_b
      = Ret (SUCCESS, Some a', Some ap', b', W')
    /\ length a' = length a /\ length ap' = length ap /\ lenO b' = lenO b /\ option_map (@length Z) W' = option_map (@length Z) W
    /\ (forall i, (K <= i)%nat -> nth i a' (RtoC 0) = nth i a (RtoC 0) /\ nth i ap' (RtoC 0) = nth i ap (RtoC 0) /\ nthO b' i = nthO b i /\ WI W' i = WI W i)
    /\ (skip_b = true -> b' = b)
    /\ forall i, (i < K)%nat ->
         bound_state_result d pde vanilla (weights d) (RtoC eps_t) (nthC q) (nthC r) Dg (T0 - eps_t / 2)%R (T1 + eps_t / 2)%R skip_b
           (nth i lam (RtoC 0)) (nth i a' (RtoC 0)) (nth i ap' (RtoC 0)) (WI W' i) (nthO b i) (nthO b' i).
Proof.
  intros eps_t []. unfold akns_scatter_bound_states.
  destruct (slow_ups d bv_slow0) as [U0 _]. pose proof (slow_bc d bv_slow0) as Ebc.
  assert (D0 : D <> 0%nat) by (rewrite bv_D0; nia).
  destruct (Nat.eqb_spec D 0) as [|_]; [lia|]. destruct (Nat.eqb_spec K 0) as [|_]; [lia|].
  assert (Eb : negb skip_b && (match b with None => true | _ => false end) = false).
  { destruct skip_b; [reflexivity|]. specialize (bv_b0 eq_refl). destruct b; [reflexivity|contradiction]. }
  rewrite Eb. destruct (Nat.eqb_spec (akns_upsampling_factor d) 0) as [|_]; [contradiction|]. rewrite Ebc.
  assert (Em : (D mod akns_upsampling_factor d = 0)%nat) by (rewrite bv_D0; now apply Nat.mod_mul). rewrite Em. cbn [Nat.eqb negb].
  assert (Ed : (D / akns_upsampling_factor d = Dg)%nat) by (rewrite bv_D0; now apply Nat.div_mul). rewrite Ed. fold eps_t.
  set (norm := match W with Some _ => true | None => false end).
  assert (Enorm : norm = isSome W) by (destruct W; reflexivity).
  destruct (prepare_ok D q r eps_t bv_q0 bv_r0 d bv_slow0 (mult3 d D Dg bv_D0)) as (pr & Ep & Hp).
  assert (Hpde : forall i, (i < K)%nat -> pde_ok pde (nth i lam (RtoC 0))).
  { intros i Hi. destruct bv_pde0 as [->|[-> Nz]]; [now left|]. right. split; [reflexivity|now apply Nz]. }
  set (alloc := fun j : nat -> list Z => if norm && negb skip_b then Some (j (Dg + 1)%nat) else None).
  assert (LA : forall j, (forall n, length (j n) = n) -> lenw (alloc j) (Dg + 1)).
  { intros j Hj. unfold alloc. destruct (norm && negb skip_b); cbn [lenw]; [rewrite Hj; lia|exact I]. }
  assert (SA : forall j, isSome (alloc j) = norm && negb skip_b) by (intros j; unfold alloc; destruct (norm && negb skip_b); reflexivity).
  assert (Epde : forall X (A B : X), (match pde with PDE_KdV | PDE_NSE => A | _ => B end) = A) by (intros; destruct bv_pde0 as [->|[-> _]]; reflexivity).
  rewrite Epde, Ep. cbn [bind].
  pose (P := fun (k : nat) (st : bstate) => exists a' ap' b' W' mem w1 w2, st = BS SUCCESS a' ap' b' W' mem w1 w2
    /\ length mem = (4 * (Dg + 1) + 2)%nat /\ isSome w1 = (norm && negb skip_b)%bool /\ isSome w2 = (norm && negb skip_b)%bool /\ lenw w1 (Dg + 1) /\ lenw w2 (Dg + 1)
    /\ length a' = length a /\ length ap' = length ap /\ lenO b' = lenO b /\ option_map (@length Z) W' = option_map (@length Z) W
    /\ (forall i, (k <= i)%nat -> nth i a' (RtoC 0) = nth i a (RtoC 0) /\ nth i ap' (RtoC 0) = nth i ap (RtoC 0) /\ nthO b' i = nthO b i /\ WI W' i = WI W i)
    /\ (skip_b = true -> b' = b)
    /\ forall i, (i < k)%nat ->
         bound_state_result d pde vanilla (weights d) (RtoC eps_t) (nthC q) (nthC r) Dg (T0 - eps_t / 2)%R (T1 + eps_t / 2)%R skip_b
           (nth i lam (RtoC 0)) (nth i a' (RtoC 0)) (nth i ap' (RtoC 0)) (WI W' i) (nthO b i) (nthO b' i)).
  match goal with |- context [for_ ?n ?lo ?bo ?s] => destruct (for_inv P bo n lo s) as (st & E & R) end.
  - exists a, ap, b, W, (junk (4 * (Dg + 1) + 2)%nat), (alloc junkW1), (alloc junkW2). split; [reflexivity|]. split; [apply HJ|].
    split; [apply SA|]. split; [apply SA|]. split; [apply LA, HJ1|]. split; [apply LA, HJ2|]. do 4 (split; [reflexivity|]). split; [auto|]. split; [auto|]. intros i Hi. lia.
  - intros i st Hi (a1 & ap1 & b1 & W1 & mem & w1 & w2 & -> & Lm & S1 & S2 & L1 & L2 & La & Lap & Lb & LW & OUT & SK & DONE). cbn [plus] in Hi.
    cbn [bs_code bs_a bs_ap bs_b bs_W bs_mem bs_W1 bs_W2]. change (SUCCESS =? SUCCESS)%Z with true. cbn [negb].
    rewrite (aget_nth lam (RtoC 0)) by lia. cbn [bind].
    destruct (OUT i (le_n i)) as (_ & _ & OUTb & _).
    assert (EB : exists bo, (match b1 with Some b0 => if skip_b then Ret (RtoC 0) else aget b0 i | None => Ret (RtoC 0) end) = Ret bo /\ (skip_b = false -> bo = nthO b i)).
    { destruct b1 as [b1|].
      - destruct skip_b; [eexists; split; [reflexivity|discriminate]|]. specialize (bv_b0 eq_refl). destruct b as [b|]; [|contradiction]. cbn [lenO option_map] in Lb. injection Lb as Lb.
        rewrite (aget_nth b1 (RtoC 0)) by lia. eexists. split; [reflexivity|]. intros _. exact OUTb.
      - eexists. split; [reflexivity|]. intros Es. specialize (bv_b0 Es). destruct b; [discriminate Lb|contradiction]. }
    destruct EB as (bo & -> & Hbo). cbn [bind].
    destruct (one_bound_ok D q r T0 T1 eps_t (1 / 2) d pr Dg norm pde vanilla skip_b bv_q0 bv_r0 bv_slow0 bv_D0 Hp mem w1 w2 (nth i lam (RtoC 0)) bo (Hpde i ltac:(lia)))
      as (xa & xap & xW & xb & mem' & w1' & w2' & EO & Lm' & S1' & S2' & L1' & L2' & RES); try assumption.
    { intros j Hj. apply bv_core0; [lia|exact Hj]. }
    { intros -> ->. rewrite S1, S2. split; reflexivity. }
    rewrite EO. cbn [bind]. change (SUCCESS =? SUCCESS)%Z with true. cbn [negb].
    rewrite aset_upd by lia. cbn [bind]. rewrite aset_upd by lia. cbn [bind].
    assert (EW : exists W2, (match W1 with Some w => w <- aset w i xW ;; Ret (Some w) | None => Ret None end) = Ret W2 /\ option_map (@length Z) W2 = option_map (@length Z) W /\
      (forall j, WI W2 j = if Nat.eqb j i then (if norm then xW else 0%Z) else WI W1 j)).
    { destruct W1 as [v|], W as [v0|]; try discriminate LW.
      - cbn [option_map] in LW. injection LW as LW. rewrite aset_upd by lia. eexists. split; [reflexivity|]. split; [cbn [option_map]; now rewrite upd_length, LW|].
        intros j. cbn [WI norm]. rewrite nth_upd by lia. reflexivity.
      - eexists. split; [reflexivity|]. split; [reflexivity|]. intros j. cbn [WI]. destruct (Nat.eqb j i); reflexivity. }
    destruct EW as (W2 & -> & LW2 & EW2). cbn [bind].
    assert (EB2 : exists b2, (match b1 with Some bv => if skip_b then Ret (Some bv) else bv <- aset bv i xb ;; Ret (Some bv) | None => Ret None end) = Ret b2 /\ lenO b2 = lenO b /\
      (skip_b = true -> b2 = b1) /\ (skip_b = false -> forall j, nthO b2 j = if Nat.eqb j i then xb else nthO b1 j)).
    { destruct b1 as [v|].
      - destruct skip_b; [eexists; split; [reflexivity|]; split; [exact Lb|]; split; [reflexivity|discriminate]|].
        specialize (bv_b0 eq_refl). destruct b as [b|]; [|contradiction]. cbn [lenO option_map] in Lb. injection Lb as Lb.
        rewrite aset_upd by lia. eexists. split; [reflexivity|]. split; [cbn [lenO option_map]; now rewrite upd_length, Lb|]. split; [discriminate|].
        intros _ j. cbn [nthO]. rewrite nth_upd by lia. reflexivity.
      - eexists. split; [reflexivity|]. split; [exact Lb|]. split; [reflexivity|]. intros Es. specialize (bv_b0 Es). destruct b; [discriminate Lb|contradiction]. }
    destruct EB2 as (b2 & -> & Lb2 & Eb2t & Eb2f). cbn [bind].
    assert (NB : forall j, nthO b2 j = (if skip_b then nthO b1 j else if Nat.eqb j i then xb else nthO b1 j)).
    { intros j. destruct skip_b; [now rewrite (Eb2t eq_refl)|now apply Eb2f]. }
    eexists. split; [reflexivity|]. exists (upd a1 i xa), (upd ap1 i xap), b2, W2, mem', w1', w2'. split; [reflexivity|]. split; [congruence|].
    split; [congruence|]. split; [congruence|]. split; [exact L1'|]. split; [exact L2'|]. rewrite !upd_length. split; [exact La|]. split; [exact Lap|]. split; [exact Lb2|]. split; [exact LW2|].
    split; [|split].
    + intros j Hj. destruct (OUT j ltac:(lia)) as (O1 & O2 & O3 & O4). rewrite !nth_upd by lia. rewrite NB, EW2. assert (En : Nat.eqb j i = false) by (apply Nat.eqb_neq; lia). rewrite En.
      split; [exact O1|]. split; [exact O2|]. split; [|exact O4]. destruct skip_b; exact O3.
    + intros Es. rewrite (Eb2t Es). now apply SK.
    + intros j Hj. destruct (Nat.eq_dec j i) as [->|Nj].
      * rewrite !nth_upd by lia. rewrite NB, EW2, Nat.eqb_refl.
        replace (T0 - eps_t / 2)%R with (T0 - eps_t * (1 / 2))%R by field. replace (T1 + eps_t / 2)%R with (T1 + eps_t * (1 / 2))%R by field.
        destruct RES as (V & V' & Vb & HV & RA & RAP & RB). exists V, V', Vb. split; [exact HV|]. cbv zeta in *. split; [exact RA|]. split; [exact RAP|].
        destruct skip_b; [exact OUTb|]. rewrite (Hbo eq_refl) in RB. exact RB.
      * rewrite !nth_upd by lia. rewrite NB, EW2. assert (En : Nat.eqb j i = false) by (apply Nat.eqb_neq; lia). rewrite En.
        assert (Ex : (if skip_b then nthO b1 j else nthO b1 j) = nthO b1 j) by (destruct skip_b; reflexivity). rewrite Ex. apply DONE. lia.
  - cbn [Nat.add] in R. rewrite E. cbn [bind].
    destruct R as (a' & ap' & b' & W' & mem & w1 & w2 & -> & _ & _ & _ & _ & _ & La & Lap & Lb & LW & OUT & SK & DONE). cbn [bs_code bs_a bs_ap bs_b bs_W].
    exists a', ap', b', W'. split; [reflexivity|]. split; [exact La|]. split; [exact Lap|]. split; [exact Lb|]. split; [exact LW|]. split; [exact OUT|]. split; [exact SK|exact DONE].
Qed.
End Main.
