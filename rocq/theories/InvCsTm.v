(** * nsev_inverse: the first column of the transfer matrix *)
From Coq Require Import Reals ZArith List Lia Lra.
From Coquelicot Require Import Coquelicot.
From Verif Require Import Base Mem Loop Series Fields CField CConj Dft FftUse MatSpec PolySpec ErrModel CExp KissModel KissProof DiscTables DiscProps NsevModel NsevSafe FscatterSpec FinvModel FinvAlg FinvMult FinvRun FinvTop FinvProof FinvProps InvModel InvGrid InvArgs InvTop InvCsSpec InvPeel InvCsAlg InvPeelTop InvCs.
Import ListNotations.
Local Open Scope C_scope.

Lemma nth_map_low M (b : list C) j : (j < length b)%nat -> nth j (map (low_entry M) b) (RtoC 0) = low_entry M (nth j b (RtoC 0)).
Proof. intros H. rewrite nth_indep with (d' := low_entry M (RtoC 0)) by (rewrite map_length; exact H). apply map_nth. Qed.
(** entries 11 and 21 as lists of coefficients, lowest first *)
Definition col11 (tm : list C) (deg : nat) : list C := map (fun l => nth (deg - l) tm (RtoC 0)) (seq 0 (S deg)).
Definition col21 (tm : list C) (deg : nat) : list C := map (fun l => nth (2 * (deg + 1) + (deg - l)) tm (RtoC 0)) (seq 0 (S deg)).
Lemma tm11_polyval tm deg z : (4 * (deg + 1) <= length tm)%nat -> tm11 tm deg z = polyval (col11 tm deg) z.
Proof.
  intros L. rewrite (proj1 (tm_low tm deg z L)). unfold col11. rewrite polyval_leval. apply (leval_ext (K := CF)). intros l Hl. unfold low. destruct (Nat.leb_spec l deg); [|lia].
  f_equal.
Qed.
Lemma tm21_polyval tm deg z : (4 * (deg + 1) <= length tm)%nat -> tm21 tm deg z = polyval (col21 tm deg) z.
Proof.
  intros L. rewrite (proj2 (tm_low tm deg z L)). unfold col21. rewrite polyval_leval. apply (leval_ext (K := CF)). intros l Hl. unfold low. destruct (Nat.leb_spec l deg); [|lia].
  f_equal.
Qed.
Lemma nth_col (f : nat -> C) n l : (l < n)%nat -> nth l (map f (seq 0 n)) (RtoC 0) = f l.
Proof.
  intros H. rewrite nth_indep with (d' := f O) by (rewrite map_length, seq_length; exact H). rewrite map_nth, seq_nth by exact H. reflexivity.
Qed.

Lemma i0_le deg M : (1 <= deg)%nat -> (i0_of deg M <= deg)%nat. Proof. unfold i0_of. destruct (Nat.leb_spec deg (M - 1)); lia. Qed.
Lemma i0_idx deg M : (1 <= deg)%nat -> (deg <= M)%nat -> forall j, (i0_of deg M <= j)%nat -> (j <= deg)%nat -> (deg - j < M)%nat /\ (M - 1 + j - deg < M)%nat.
Proof. unfold i0_of. destruct (Nat.leb_spec deg (M - 1)); lia. Qed.

Section Tm.
Variables (deg M : nat) (b : list C) (kappa : Z).
Hypothesis Hdeg : (1 <= deg)%nat.
Hypothesis HM : (deg <= M)%nat.
Hypothesis Lb : length b = M.
Let B := (deg + 1)%nat.
(** contents after the columns 0, ..., i-1 are written *)
Definition filled (v11 : nat -> C) (i : nat) (tm : list C) : Prop := length tm = (4 * B)%nat /\
  forall j, (j < i)%nat -> (j <= deg)%nat -> nth j tm (RtoC 0) = v11 j /\
    nth (2 * B + j) tm (RtoC 0) = if (i0_of deg M <=? j)%nat then low_entry M (nth (deg - j) b (RtoC 0)) else RtoC 0.
Lemma set4 (tm : list C) i a1 a2 a3 a4 : length tm = (4 * B)%nat -> (i <= deg)%nat ->
  exists tm', (tm <- aset tm i a1 ;; tm <- aset tm (1 * B + i) a2 ;; tm <- aset tm (2 * B + i) a3 ;; aset tm (3 * B + i) a4) = Ret tm' /\ length tm' = (4 * B)%nat /\
  forall k, nth k tm' (RtoC 0) = if Nat.eqb k (3 * B + i) then a4 else if Nat.eqb k (2 * B + i) then a3 else if Nat.eqb k (1 * B + i) then a2 else if Nat.eqb k i then a1 else nth k tm (RtoC 0).
Proof using Type.
  clear HM Hdeg Lb M b. intros L Hi. subst B. rewrite aset_upd by lia. cbn [bind]. rewrite aset_upd by (rewrite upd_length; lia). cbn [bind]. rewrite aset_upd by (rewrite !upd_length; lia). cbn [bind].
  rewrite aset_upd by (rewrite !upd_length; lia). eexists. split; [reflexivity|]. split; [now rewrite !upd_length|]. intros k. rewrite !nth_upd by (rewrite ?upd_length; lia). reflexivity.
Qed.
Lemma set4_filled (tm tm' : list C) i a1 a2 a3 a4 v11 : (i <= deg)%nat -> filled v11 i tm -> length tm' = (4 * B)%nat ->
  (forall k, nth k tm' (RtoC 0) = if Nat.eqb k (3 * B + i) then a4 else if Nat.eqb k (2 * B + i) then a3 else if Nat.eqb k (1 * B + i) then a2 else if Nat.eqb k i then a1 else nth k tm (RtoC 0)) ->
  a1 = v11 i -> a3 = (if (i0_of deg M <=? i)%nat then low_entry M (nth (deg - i) b (RtoC 0)) else RtoC 0) -> filled v11 (S i) tm'.
Proof using Type.
  clear HM Hdeg Lb. intros Hi [L F] L' N E1 E3. split; [exact L'|]. intros j Hj Hjd. rewrite !N. subst B.
  destruct (Nat.eqb_spec j (3 * (deg + 1) + i)); [lia|]. destruct (Nat.eqb_spec j (2 * (deg + 1) + i)); [lia|]. destruct (Nat.eqb_spec j (1 * (deg + 1) + i)); [lia|].
  destruct (Nat.eqb_spec (2 * (deg + 1) + j) (3 * (deg + 1) + i)); [lia|]. destruct (Nat.eqb_spec (2 * (deg + 1) + j) (1 * (deg + 1) + i)); [lia|]. destruct (Nat.eqb_spec (2 * (deg + 1) + j) i); [lia|].
  destruct (Nat.eqb_spec j i) as [->|Ne].
  - rewrite Nat.eqb_refl. rewrite E1, E3. now split.
  - destruct (Nat.eqb_spec (2 * (deg + 1) + j) (2 * (deg + 1) + i)); [lia|]. apply F; lia.
Qed.
(** the coefficients of entry 21 *)
Lemma filled_col21 v11 tm : filled v11 B tm -> forall l, (l < deg)%nat -> nth l (col21 tm deg) (RtoC 0) = nth l (map (low_entry M) b) (RtoC 0).
Proof.
  intros [L F] l Hl. unfold col21. rewrite nth_col by lia. rewrite nth_map_low by lia. destruct (F (deg - l)%nat) as [_ H]; [subst B; lia|lia|]. subst B. rewrite H.
  replace (deg - (deg - l))%nat with l by lia. unfold i0_of. destruct (Nat.leb_spec deg (M - 1)); destruct (Nat.leb_spec 0 (deg - l)); try lia; try reflexivity.
  destruct (Nat.leb_spec (deg - (M - 1)) (deg - l)); [reflexivity|lia].
Qed.
End Tm.

(** ** TFMATRIX_CONTAINS_REFL_COEFF *)
Lemma tm_refl_loops deg M (b : list C) kappa (tm : list C) : (1 <= deg)%nat -> (deg <= M)%nat -> length b = M -> length tm = (4 * (deg + 1))%nat ->
  exists tm', (tm <- for_ (i0_of deg M) 0 (fun i tm =>
    tm <- aset tm i (RtoC 0) ;; tm <- aset tm (1 * (deg + 1) + i) (RtoC 0) ;;
    tm <- aset tm (2 * (deg + 1) + i) (RtoC 0) ;; aset tm (3 * (deg + 1) + i) (RtoC 0)) tm ;;
  tm <- for_ (deg + 1 - i0_of deg M) (i0_of deg M) (fun i tm =>
    tm <- aset tm i (RtoC 0) ;;
    u <- aget b (M - 1 + i - deg) ;; tm <- aset tm (1 * (deg + 1) + i) (up_entry kappa M u) ;;
    l <- aget b (deg - i) ;; tm <- aset tm (2 * (deg + 1) + i) (low_entry M l) ;;
    aset tm (3 * (deg + 1) + i) (RtoC 0)) tm ;;
  tm <- aset tm deg (RtoC 1) ;;
  aset tm (3 * (deg + 1)) (RtoC 1)) = Ret tm' /\ length tm' = (4 * (deg + 1))%nat /\ nth deg tm' (RtoC 0) = 1 /\
  (forall z, tm11 tm' deg z = 1) /\ agree deg (tm21 tm' deg) (polyval (map (low_entry M) b)).
Proof.
  intros Hd HM Lb Lt. set (i0 := i0_of deg M).
  assert (Hi0 := i0_le deg M Hd). fold i0 in Hi0.
  destruct (for_inv (filled deg M b (fun _ => RtoC 0)) (fun i (tm : list C) => tm <- aset tm i (RtoC 0) ;; tm <- aset tm (1 * (deg + 1) + i) (RtoC 0) ;;
    tm <- aset tm (2 * (deg + 1) + i) (RtoC 0) ;; aset tm (3 * (deg + 1) + i) (RtoC 0)) i0 0 tm) as (t1 & E1 & F1).
  { split; [exact Lt|]. intros j Hj. lia. }
  { intros i st Hi Fi. destruct (set4 deg st i 0 0 0 0 (proj1 Fi)) as (st' & Es & Ls & Ns); [lia|]. exists st'. split; [exact Es|].
    apply (set4_filled deg M b st st' i 0 0 0 0 _ ltac:(lia) Fi Ls Ns); [reflexivity|]. fold i0. destruct (Nat.leb_spec i0 i); [lia|reflexivity]. }
  rewrite E1. cbn [bind]. cbn [Nat.add] in F1.
  destruct (for_inv (filled deg M b (fun _ => RtoC 0)) (fun i (tm : list C) =>
    tm <- aset tm i (RtoC 0) ;;
    u <- aget b (M - 1 + i - deg) ;; tm <- aset tm (1 * (deg + 1) + i) (up_entry kappa M u) ;;
    l <- aget b (deg - i) ;; tm <- aset tm (2 * (deg + 1) + i) (low_entry M l) ;;
    aset tm (3 * (deg + 1) + i) (RtoC 0)) (deg + 1 - i0) i0 t1) as (t2 & E2 & F2); [exact F1| |].
  { intros i st Hi Fi. destruct (i0_idx deg M Hd HM i) as [I1 I2]; [fold i0; lia|lia|].
    destruct (set4 deg st i 0 (up_entry kappa M (nth (M - 1 + i - deg) b (RtoC 0))) (low_entry M (nth (deg - i) b (RtoC 0))) 0 (proj1 Fi)) as (st' & Es & Ls & Ns); [lia|]. exists st'. split.
    - rewrite <- Es. destruct (aset st i 0) as [s1|]; [|reflexivity]. cbn [bind]. rewrite (aget_nth b (RtoC 0)) by lia. cbn [bind]. destruct (aset s1 _ _) as [s2|]; [|reflexivity]. cbn [bind].
      rewrite (aget_nth b (RtoC 0)) by lia. reflexivity.
    - apply (set4_filled deg M b st st' i _ _ _ _ _ ltac:(lia) Fi Ls Ns); [reflexivity|]. fold i0. destruct (Nat.leb_spec i0 i); [reflexivity|lia]. }
  rewrite E2. cbn [bind]. replace (i0 + (deg + 1 - i0))%nat with (deg + 1)%nat in F2 by lia. assert (L2 := proj1 F2).
  rewrite aset_upd by lia. cbn [bind]. rewrite aset_upd by (rewrite upd_length; lia). eexists. split; [reflexivity|].
  assert (Lf : length (upd (upd t2 deg 1) (3 * (deg + 1)) 1) = (4 * (deg + 1))%nat) by (rewrite !upd_length; exact L2). split; [exact Lf|].
  assert (Nf : forall k, nth k (upd (upd t2 deg 1) (3 * (deg + 1)) 1) (RtoC 0) = if Nat.eqb k (3 * (deg + 1)) then 1 else if Nat.eqb k deg then 1 else nth k t2 (RtoC 0)).
  { intros k. rewrite !nth_upd by (rewrite ?upd_length; lia). reflexivity. }
  split. { rewrite Nf. rewrite Nat.eqb_refl. destruct (Nat.eqb_spec deg (3 * (deg + 1))); reflexivity. }
  split.
  - intros z. rewrite tm11_polyval by lia. transitivity (polyval (RtoC 1 :: repeat (RtoC 0) deg) z); [|rewrite polyval_cons, polyval_zeros; ring]. f_equal.
    apply (nth_ext _ _ (RtoC 0) (RtoC 0)); [unfold col11; rewrite map_length, seq_length; cbn; rewrite repeat_length; reflexivity|].
    unfold col11. rewrite map_length, seq_length. intros l Hl. rewrite nth_col by exact Hl. rewrite Nf. destruct (Nat.eqb_spec (deg - l) (3 * (deg + 1))); [lia|].
    destruct l as [|l]; [rewrite Nat.sub_0_r, Nat.eqb_refl; reflexivity|]. destruct (Nat.eqb_spec (deg - S l) deg); [lia|]. cbn [nth]. rewrite nth_repeat0. apply (proj2 F2); lia.
  - apply (agree_ext deg (polyval (col21 t2 deg)) _ (polyval (map (low_entry M) b)) _); [|reflexivity|].
    + intros z. rewrite tm21_polyval by lia. f_equal. unfold col21. apply map_ext. intros l. rewrite Nf.
      destruct (Nat.eqb_spec (2 * (deg + 1) + (deg - l)) (3 * (deg + 1))); [lia|]. destruct (Nat.eqb_spec (2 * (deg + 1) + (deg - l)) deg); [lia|]. reflexivity.
    + apply agree_polyval. intros l Hl. apply (filled_col21 deg M b Hd HM Lb (fun _ => RtoC 0)); [exact F2|exact Hl].
Qed.
