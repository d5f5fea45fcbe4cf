(** * Refinement proofs for akns_scatter_bound_states: storage, loops, one bound state *)
From Coq Require Import Reals Lra Lia List ZArith.
From Coquelicot Require Import Coquelicot.
From Verif Require Import Base Loop Mem Fields ErrModel CExp CField CConj CDeriv CMean MiscNumModel MiscNumProps MiscMetricProps MiscSincBound
  DiscTables DiscModel DiscProps FscatterSpec FscatterProof FscatterModel FscatterProps ScatterSpec MatExp ScatterStep ScatterModel ScatterProof ScatterRun ScatterLoop BoundModel BoundSpec BoundProof.
Import ListNotations.
Local Open Scope C_scope.

(** ** The array PSIPHI *)
Definition at_ (mem : list C) (off : nat) (v : list C) : Prop :=
  (off + length v <= length mem)%nat /\ forall i, (i < length v)%nat -> nthC mem (off + i) = nthC v i.
Lemma at_rd mem off v n : at_ mem off v -> n = length v -> rd mem off n = Ret v.
Proof.
  intros [L H] ->. destruct (rd_ok mem off (length v) (RtoC 0) L) as (v' & -> & L' & N). f_equal.
  apply (list_eq_nth _ _ (RtoC 0)); [exact L'|]. intros i Hi. rewrite N by lia. apply H. lia.
Qed.
Lemma wr_at mem off v : (off + length v <= length mem)%nat -> exists mem', wr mem off v = Ret mem' /\ length mem' = length mem /\ at_ mem' off v /\
  forall off' v', at_ mem off' v' -> (off' + length v' <= off \/ off + length v <= off')%nat -> at_ mem' off' v'.
Proof.
  intros L. destruct (wr_ok mem off v (RtoC 0) L) as (mem' & E & L' & N). exists mem'. split; [exact E|]. split; [exact L'|]. split.
  - split; [lia|]. intros i Hi. unfold nthC. rewrite N. destruct (Nat.leb_spec off (off + i)), (Nat.ltb_spec (off + i) (off + length v)); try lia. cbn [andb]. f_equal. lia.
  - intros off' v' [L1 H1] Hd. split; [lia|]. intros i Hi. unfold nthC. rewrite N.
    destruct (Nat.leb_spec off (off' + i)), (Nat.ltb_spec (off' + i) (off + length v)); cbn [andb]; try (now apply H1). exfalso. lia.
Qed.
Lemma at_c2 mem off X X' : at_ mem off (c4 X X') -> at_ mem off (c2 X).
Proof.
  intros [L H]. cbn [length c4 c2] in *. split; [cbn [length c2]; lia|]. intros i Hi. cbn [length c2] in Hi. specialize (H i). rewrite H by lia.
  destruct i as [|[|i]]; [reflexivity|reflexivity|lia].
Qed.

(** ** Arrays of exponents *)
Definition lenw (W : option (list Z)) (n : nat) : Prop := match W with Some w => (n <= length w)%nat | None => True end.
Definition entries (W : option (list Z)) (lo hi : nat) (w : nat -> Z) : Prop :=
  match W with Some l => forall m, (lo <= m < hi)%nat -> nth m l 0%Z = w m | None => True end.

Section Run.
Variables (D : nat) (q r : list C) (eps_t : R) (d : akns_disc) (pr : prep) (Dg : nat) (norm : bool) (l : C).
Hypothesis Hs : is_slow d.
Let ups := akns_upsampling_factor d.
Hypothesis HD : D = (Dg * ups)%nat.
Hypothesis Hp : prepared D q r eps_t d pr.
Let sub := substeps d.
Variables (V V' Vb : nat -> mat2).
Hypothesis HF : forall ng, (ng < Dg)%nat -> fwd_fact q r eps_t d pr norm l V V' ng.
Hypothesis HB : forall ng, (ng < Dg)%nat -> bwd_fact D q r eps_t d pr Dg norm l Vb ng.

Lemma fwd_passes_Dg : fwd_passes D Dg pr = Dg.
Proof.
  unfold prepared in Hp. destruct (stepper_of d) as [s|] eqn:Es; [|contradiction]. destruct s, pr; try contradiction; cbn [fwd_passes]; [reflexivity| |].
  - pose proof (es4_case d Hs Es) as Ed. apply triples_mul. rewrite HD. unfold ups. rewrite Ed. cbn [akns_upsampling_factor]. lia.
  - pose proof (tes4_case d Hs Es) as Ed. apply triples_mul. rewrite HD. unfold ups. rewrite Ed. cbn [akns_upsampling_factor]. lia.
Qed.

Definition Phi (X : mat2) (m : nat) : mat2 := mmul (descending (m * sub) V) X.
Definition Phi' (X X' : mat2) (m : nat) : mat2 := madd (mmul (propagated (m * sub) V V') X) (mmul (descending (m * sub) V) X').
Definition Psi (X : mat2) (m : nat) : mat2 := mmul (rising ((Dg - m) * sub) (m * sub) Vb) X.

Lemma fwd_loop_ok mem WPHI X X' : length mem = (4 * (Dg + 1) + 2)%nat -> at_ mem 2 (c4 X X') -> lenw WPHI (Dg + 1) ->
  exists mem' W' (w : nat -> Z), fwd_loop D q r ups Dg eps_t pr norm l mem WPHI = Ret (mem', w Dg, W') /\ length mem' = length mem /\
    (norm = false -> forall m, w m = 0%Z) /\ w 0%nat = 0%Z /\
    (forall m, (m <= Dg)%nat -> at_ mem' (2 + 4 * m) (c4 (mscal (p2 (- w m)) (Phi X m)) (mscal (p2 (- w m)) (Phi' X X' m)))) /\
    isSome W' = isSome WPHI /\ lenw W' (Dg + 1) /\ (norm = true -> entries W' 1 (Dg + 1) w).
Proof.
  intros Lm H0 HW. unfold fwd_loop. rewrite fwd_passes_Dg.
  pose (P := fun (k : nat) (st : list C * Z * option (list Z)) => exists mem' W' (w : nat -> Z), st = (mem', w k, W') /\ length mem' = length mem /\
    (norm = false -> forall m, w m = 0%Z) /\ w 0%nat = 0%Z /\
    (forall m, (m <= k)%nat -> at_ mem' (2 + 4 * m) (c4 (mscal (p2 (- w m)) (Phi X m)) (mscal (p2 (- w m)) (Phi' X X' m)))) /\
    isSome W' = isSome WPHI /\ lenw W' (Dg + 1) /\ (norm = true -> entries W' 1 (k + 1) w)).
  match goal with |- context [for_ ?n ?lo ?b ?s] => destruct (for_inv P b n lo s) as (st & E & mem' & W' & w & -> & R) end.
  - exists mem, WPHI, (fun _ => 0%Z). split; [reflexivity|]. split; [reflexivity|]. split; [reflexivity|]. split; [reflexivity|].
    split; [|split; [reflexivity|split; [exact HW|]]].
    + intros m Hm. assert (m = 0%nat) by lia. subst m. change (- 0)%Z with 0%Z. rewrite p2_0, !mscal_one. unfold Phi, Phi'. cbn [Nat.mul descending propagated].
      rewrite !mmul_one_l. replace (madd (mmul mzero X) X') with X' by mring. exact H0.
    + intros _. unfold entries. destruct WPHI; [|exact I]. intros m Hm. lia.
  - intros ng st Hng (mem1 & W1 & w & -> & L1 & N1 & Z1 & A1 & S1 & LW & EW). cbn [plus] in Hng.
    rewrite (at_rd _ _ _ 4 (A1 ng ltac:(lia)) eq_refl). cbn [bind].
    destruct (HF ng ltac:(lia) (mscal (p2 (- w ng)) (Phi X ng)) (mscal (p2 (- w ng)) (Phi' X X' ng))) as (a & Ea & Na). fold ups in Ea. cbv zeta in Ea. rewrite Ea. cbn [bind].
    set (w' := fun m => if Nat.eqb m (ng + 1) then (w ng + a)%Z else w m).
    assert (Ew : forall m, (m <= ng)%nat -> w' m = w m) by (intros m Hm; unfold w'; destruct (Nat.eqb_spec m (ng + 1)); [lia|reflexivity]).
    assert (Ew1 : w' (ng + 1)%nat = (w ng + a)%Z) by (unfold w'; now rewrite Nat.eqb_refl).
    assert (EE : exists W2, (match W1 with Some ww => if norm then ww <- aset ww (ng + 1) (w ng + a)%Z ;; Ret (Some ww) else Ret W1 | None => Ret W1 end) = Ret W2 /\
       isSome W2 = isSome WPHI /\ lenw W2 (Dg + 1) /\ (norm = true -> entries W2 1 (ng + 1 + 1) w')).
    { destruct W1 as [w1|].
      - destruct norm.
        + cbn [lenw] in LW. rewrite aset_upd by lia. cbn [bind]. eexists. split; [reflexivity|]. split; [exact S1|]. split; [cbn [lenw]; rewrite upd_length; exact LW|].
          intros _ m Hm. rewrite nth_upd by lia. unfold w'. destruct (Nat.eqb_spec m (ng + 1)); [reflexivity|]. apply EW; [reflexivity|lia].
        + eexists. split; [reflexivity|]. split; [exact S1|]. split; [exact LW|discriminate].
      - eexists. split; [reflexivity|]. split; [exact S1|]. split; [exact I|]. intros _. exact I. }
    destruct EE as (W2 & -> & S2 & LW2 & EW2). cbn [bind].
    match goal with |- context [wr mem1 _ ?v] => destruct (wr_at mem1 (2 + 4 * (ng + 1)) v) as (mem2 & -> & L2 & A2 & F2) end.
    { cbn [length c4]. lia. }
    cbn [bind]. eexists. split; [reflexivity|]. exists mem2, W2, w'. replace (S ng) with (ng + 1)%nat by lia. rewrite Ew1. split; [reflexivity|]. split; [congruence|].
    split; [|split; [|split; [|split; [exact S2|split; [exact LW2|exact EW2]]]]].
    + intros Nn m. unfold w'. rewrite (N1 Nn), (Na Nn). destruct (Nat.eqb m (ng + 1)); [reflexivity|]. now apply N1.
    + rewrite Ew by lia. exact Z1.
    + intros m Hm. destruct (Nat.eq_dec m (ng + 1)) as [->|Nm].
      * rewrite Ew1. refine (eq_rect _ (fun v => at_ mem2 _ v) A2 _ _). replace (- (w ng + a))%Z with (- a + - w ng)%Z by lia. rewrite p2_add.
        unfold Phi, Phi'. rewrite Nat.mul_add_distr_r, Nat.mul_1_l. rewrite descending_add, propagated_add. fold sub. unfold sub. f_equal; mring.
      * rewrite Ew by lia. apply F2; [apply A1; lia|]. cbn [length c4]. lia.
  - exists mem', W', w. cbn [Nat.add] in R. split; [exact E|]. exact R.
Qed.

Lemma bwd_loop_ok mem WPSI X : length mem = (4 * (Dg + 1) + 2)%nat -> at_ mem (4 * Dg) (r2 X) -> lenw WPSI (Dg + 1) -> (norm = true -> isSome WPSI = true) ->
  exists mem' acc W' (w : nat -> Z), bwd_loop D q r ups Dg eps_t pr norm l mem WPSI = Ret (mem', acc, W') /\ length mem' = length mem /\
    (norm = false -> forall m, w m = 0%Z) /\ w Dg = 0%Z /\
    (forall m, (m <= Dg)%nat -> at_ mem' (4 * m) (r2 (mscal (p2 (- w m)) (Psi X m)))) /\
    (forall m v, (m <= Dg)%nat -> length v = 2%nat -> at_ mem (2 + 4 * m) v -> at_ mem' (2 + 4 * m) v) /\
    (forall v, length v = 4%nat -> at_ mem (2 + 4 * Dg) v -> at_ mem' (2 + 4 * Dg) v) /\
    isSome W' = isSome WPSI /\ lenw W' (Dg + 1) /\ (norm = true -> entries W' 0 Dg w).
Proof.
  intros Lm H0 HW HS. unfold bwd_loop.
  pose (P := fun (k : nat) (st : list C * Z * option (list Z)) => exists mem' W' (w : nat -> Z), st = (mem', w (Dg - k)%nat, W') /\ length mem' = length mem /\
    (norm = false -> forall m, w m = 0%Z) /\ w Dg = 0%Z /\
    (forall m, (Dg - k <= m <= Dg)%nat -> at_ mem' (4 * m) (r2 (mscal (p2 (- w m)) (Psi X m)))) /\
    (forall m v, (m <= Dg)%nat -> length v = 2%nat -> at_ mem (2 + 4 * m) v -> at_ mem' (2 + 4 * m) v) /\
    (forall v, length v = 4%nat -> at_ mem (2 + 4 * Dg) v -> at_ mem' (2 + 4 * Dg) v) /\
    isSome W' = isSome WPSI /\ lenw W' (Dg + 1) /\ (norm = true -> entries W' (Dg - k) Dg w)).
  match goal with |- context [for_ ?n ?lo ?b ?s] => destruct (for_inv P b n lo s) as (st & E & mem' & W' & w & -> & R) end.
  - exists mem, WPSI, (fun _ => 0%Z). split; [reflexivity|]. split; [reflexivity|]. split; [reflexivity|]. split; [reflexivity|].
    split; [|split; [|split; [|split; [reflexivity|split; [exact HW|]]]]].
    + intros m Hm. assert (m = Dg) by lia. subst m. change (- 0)%Z with 0%Z. rewrite p2_0, !mscal_one. unfold Psi. rewrite Nat.sub_diag. cbn [Nat.mul rising].
      rewrite !mmul_one_l. exact H0.
    + intros m v _ _ H. exact H.
    + intros v _ H. exact H.
    + intros _. unfold entries. destruct WPSI; [|exact I]. intros m Hm. lia.
  - intros k st Hk (mem1 & W1 & w & -> & L1 & N1 & Z1 & A1 & F1 & G1 & S1 & LW & EW). cbn [plus] in Hk.
    set (ng := (Dg - 1 - k)%nat). assert (Hng : (ng < Dg)%nat) by (unfold ng; lia). assert (Ek : (Dg - k = ng + 1)%nat) by (unfold ng; lia). rewrite Ek in *.
    rewrite (at_rd _ _ _ 2 (A1 (ng + 1)%nat ltac:(lia)) eq_refl). cbn [bind].
    destruct (HB ng Hng (mscal (p2 (- w (ng + 1)%nat)) (Psi X (ng + 1)))) as (a & Ea & Na). fold ups in Ea. rewrite Ea. cbn [bind].
    set (w' := fun m => if Nat.eqb m ng then (w (ng + 1)%nat + a)%Z else w m).
    assert (Ew : forall m, (ng < m)%nat -> w' m = w m) by (intros m Hm; unfold w'; destruct (Nat.eqb_spec m ng); [lia|reflexivity]).
    assert (Ew1 : w' ng = (w (ng + 1)%nat + a)%Z) by (unfold w'; now rewrite Nat.eqb_refl).
    assert (EE : exists W2, (if norm then match W1 with Some ww => ww <- aset ww ng (w (ng + 1)%nat + a)%Z ;; Ret (Some ww) | None => UB end else Ret W1) = Ret W2 /\
       isSome W2 = isSome WPSI /\ lenw W2 (Dg + 1) /\ (norm = true -> entries W2 ng Dg w')).
    { destruct norm.
      - destruct W1 as [w1|]; [|rewrite HS in S1 by reflexivity; discriminate].
        cbn [lenw] in LW. rewrite aset_upd by lia. cbn [bind]. eexists. split; [reflexivity|]. split; [exact S1|]. split; [cbn [lenw]; rewrite upd_length; exact LW|].
        intros _ m Hm. rewrite nth_upd by lia. unfold w'. destruct (Nat.eqb_spec m ng); [reflexivity|]. apply EW; [reflexivity|lia].
      - eexists. split; [reflexivity|]. split; [exact S1|]. split; [exact LW|discriminate]. }
    destruct EE as (W2 & -> & S2 & LW2 & EW2). cbn [bind].
    match goal with |- context [wr mem1 _ ?v] => destruct (wr_at mem1 (4 * ng) v) as (mem2 & -> & L2 & A2 & F2) end.
    { cbn [length r2]. lia. }
    cbn [bind]. eexists. split; [reflexivity|]. exists mem2, W2, w'. replace (Dg - S k)%nat with ng by (unfold ng; lia). rewrite Ew1. split; [reflexivity|]. split; [congruence|].
    split; [|split; [|split; [|split; [|split; [|split; [exact S2|split; [exact LW2|exact EW2]]]]]]].
    + intros Nn m. unfold w'. rewrite (N1 Nn), (Na Nn). destruct (Nat.eqb m ng); [reflexivity|]. now apply N1.
    + rewrite Ew by lia. exact Z1.
    + intros m Hm. destruct (Nat.eq_dec m ng) as [->|Nm].
      * rewrite Ew1. refine (eq_rect _ (fun v => at_ mem2 _ v) A2 _ _). replace (- (w (ng + 1)%nat + a))%Z with (- a + - w (ng + 1)%nat)%Z by lia. rewrite p2_add.
        unfold Psi. replace ((Dg - ng) * sub)%nat with (sub + (Dg - (ng + 1)) * sub)%nat by (replace (Dg - ng)%nat with (S (Dg - (ng + 1))) by lia; reflexivity).
        rewrite rising_add. replace (ng * sub + sub)%nat with ((ng + 1) * sub)%nat by lia. unfold sub. f_equal. mring.
      * rewrite Ew by lia. apply F2; [apply A1; lia|]. cbn [length r2]. lia.
    + intros m v Hm Lv H. apply F2; [now apply F1|]. rewrite Lv. cbn [length r2]. lia.
    + intros v Lv H. apply F2; [now apply G1|]. cbn [length r2]. lia.
  - cbn [Nat.add] in R. rewrite Nat.sub_diag in *. exists mem', (w 0%nat), W', w. split; [exact E|].
    destruct R as (R1 & R2 & R3 & R4 & R5). split; [exact R1|]. split; [exact R2|]. split; [exact R3|]. split; [intros m Hm; apply R4; lia|exact R5].
Qed.
End Run.
