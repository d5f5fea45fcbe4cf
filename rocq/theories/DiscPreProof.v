(** * Preprocessing: proofs *)
From Coq Require Import Reals Lra.
From Coquelicot Require Import Coquelicot.
From Verif Require Import DiscModel MiscProof ResampleProof FftAppProps.
Local Open Scope C_scope.

Lemma sizes_spec D Dsub : (2 <= D)%nat ->
  exists s m, downsample_sizes D Dsub = Ret (s, m) /\ (1 <= s)%nat /\ (2 <= m)%nat /\ ((m - 1) * s < D)%nat.
Proof.
  intros H. destruct (Nat.eq_dec D 2) as [->|Hn].
  - exists 1%nat, 2%nat. split; [|lia]. unfold downsample_sizes.
    destruct (Nat.ltb_spec Dsub 2); [reflexivity|]. destruct (Nat.ltb_spec 2 Dsub); [reflexivity|].
    replace Dsub with 2%nat by lia. reflexivity.
  - destruct (downsample_sizes_spec D Dsub ltac:(lia)) as (s & m & E & H1 & H2 & H3 & _). exists s, m. split; [exact E|]. lia.
Qed.

(** sums in the order of the code *)
Fixpoint wdot (w xs : nat -> C) (n : nat) : C := match n with O => 0 | S k => wdot w xs k + w k * xs k end.

Lemma wsum_spec w off xs : (off + length xs <= length w)%nat ->
  wsum w off xs = Ret (wdot (fun m => nth (off + m) w 0) (fun m => nth m xs 0) (length xs)).
Proof.
  intros L. unfold wsum.
  destruct (for_inv (fun k acc => acc = wdot (fun m => nth (off + m) w 0) (fun m => nth m xs 0) k)
    (fun m acc => a <- aget w (off + m) ;; x <- aget xs m ;; Ret (acc + a * x)) (length xs) 0 (RtoC 0)) as (r & E & ->).
  - reflexivity.
  - intros i st Hi ->. rewrite (aget_nth w 0) by lia. rewrite (aget_nth xs 0) by lia. cbn [bind]. eexists. split; reflexivity.
  - exact E.
Qed.

Lemma gather_spec (cols : list (list C)) i : (forall c, In c cols -> (i < length c)%nat) ->
  for_ (length cols) 0 (fun m acc => c <- aget cols m ;; x <- aget c i ;; Ret (acc ++ [x])) [] = Ret (map (fun c : list C => nth i c (RtoC 0)) cols).
Proof.
  intros H.
  destruct (for_inv (fun k acc => acc = map (fun c : list C => nth i c (RtoC 0)) (firstn k cols))
    (fun m acc => c <- aget cols m ;; x <- aget c i ;; Ret (acc ++ [x])) (length cols) 0 ([] : list C)) as (r & E & R0).
  - reflexivity.
  - intros k st Hk ->. rewrite (aget_nth cols []) by lia. cbn [bind].
    rewrite (aget_nth _ (RtoC 0)) by (apply H, nth_In; lia). cbn [bind]. eexists. split; [reflexivity|].
    assert (Hs : firstn (S k) cols = firstn k cols ++ [nth k cols []]).
    { clear -Hk. assert (Hk' : (k < length cols)%nat) by lia. clear Hk. revert k Hk'.
      induction cols as [|c cols IH]; intros [|k] Hk; cbn in *; try lia; auto. f_equal. apply IH. lia. }
    rewrite Hs, map_app. reflexivity.
  - rewrite E, R0. rewrite Nat.add_0_l, firstn_all. reflexivity.
Qed.

Section CF.
Variables (u ncol : nat) (w : list C) (rf : C -> C) (cols : list (list C)) (Dsub nskip : nat).
Hypothesis Hcol : length cols = ncol.
Hypothesis Hw : (u * ncol <= length w)%nat.
Hypothesis Hu : (0 < u)%nat.
Hypothesis Hlen : forall c, In c cols -> forall k, (k < Dsub)%nat -> (k * nskip < length c)%nat.

Definition cfq (k j : nat) : C := wdot (fun m => nth (j * ncol + m) w 0) (fun m => nth (k * nskip) (nth m cols []) 0) ncol.
Definition cfr (k j : nat) : C := wdot (fun m => nth (j * ncol + m) w 0) (fun m => rf (nth (k * nskip) (nth m cols []) 0)) ncol.

Lemma wdot_ext w1 w2 x1 x2 n : (forall m, (m < n)%nat -> w1 m = w2 m /\ x1 m = x2 m) -> wdot w1 x1 n = wdot w2 x2 n.
Proof.
  induction n as [|n IH]; intros H; [reflexivity|]. cbn. rewrite IH by (intros; apply H; lia). destruct (H n) as [-> ->]; [lia|reflexivity].
Qed.

Lemma cf_step_spec k (q r : list C) : (k < Dsub)%nat -> (u * Dsub <= length q)%nat -> (u * Dsub <= length r)%nat ->
  exists q' r', cf_step u w rf cols (u * k) (k * nskip) (q, r) = Ret (q', r') /\ length q' = length q /\ length r' = length r
    /\ forall i, nth i q' 0 = (if ((u * k <=? i) && (i <? u * k + u))%nat%bool then cfq k (i - u * k) else nth i q 0)
           /\ nth i r' 0 = (if ((u * k <=? i) && (i <? u * k + u))%nat%bool then cfr k (i - u * k) else nth i r 0).
Proof.
  intros Hk Lq Lr. unfold cf_step. rewrite gather_spec by (intros c Hc; now apply Hlen). cbn [bind].
  assert (Hb : (u * k + u <= u * Dsub)%nat) by nia.
  set (body := fun (j : nat) (qr : list C * list C) => _).
  destruct (for_inv (fun j (st : list C * list C) => length (fst st) = length q /\ length (snd st) = length r /\
      forall i, nth i (fst st) 0 = (if ((u * k <=? i) && (i <? u * k + j))%nat%bool then cfq k (i - u * k) else nth i q 0)
           /\ nth i (snd st) 0 = (if ((u * k <=? i) && (i <? u * k + j))%nat%bool then cfr k (i - u * k) else nth i r 0))
     body u 0 (q, r)) as ([q' r'] & E & L1 & L2 & N).
  - cbn [fst snd]. split; [reflexivity|]. split; [reflexivity|]. intros i.
    destruct (Nat.leb_spec (u * k) i); cbn [andb]; [|split; reflexivity].
    destruct (Nat.ltb_spec i (u * k + 0)); [lia|split; reflexivity].
  - intros j [q1 r1] Hj (L1 & L2 & N). cbn [fst snd] in *. unfold body.
    assert (Hjc : (j * length cols + ncol <= length w)%nat) by (rewrite Hcol; nia).
    rewrite !wsum_spec by (rewrite ?map_length, Hcol; nia).
    cbn [bind fst snd]. rewrite !aset_upd by lia. cbn [bind].
    eexists. split; [reflexivity|]. cbn [fst snd]. rewrite !upd_length. split; [exact L1|]. split; [exact L2|].
    intros i. rewrite !nth_upd by lia. destruct (N i) as [N1 N2]. rewrite N1, N2.
    destruct (Nat.eqb_spec i (u * k + j)) as [->|Hi].
    + destruct (Nat.leb_spec (u * k) (u * k + j)); [|lia]. destruct (Nat.ltb_spec (u * k + j) (u * k + S j)); [|lia]. cbn [andb].
      replace (u * k + j - u * k)%nat with j by lia. unfold cfq, cfr. rewrite !map_length, Hcol. split.
      * apply wdot_ext. intros m Hm. split; [reflexivity|].
        rewrite (nth_indep _ _ (nth (k * nskip) (@nil C) 0)) by (rewrite map_length; lia). now rewrite (map_nth (fun c : list C => nth (k * nskip) c 0)).
      * apply wdot_ext. intros m Hm. split; [reflexivity|]. rewrite map_map.
        rewrite (nth_indep _ _ (rf (nth (k * nskip) (@nil C) 0))) by (rewrite map_length; lia). now rewrite (map_nth (fun c : list C => rf (nth (k * nskip) c 0))).
    + destruct (Nat.leb_spec (u * k) i); cbn [andb]; [|split; reflexivity].
      destruct (Nat.ltb_spec i (u * k + j)), (Nat.ltb_spec i (u * k + S j)); try lia; split; reflexivity.
  - exists q', r'. split; [exact E|]. split; [exact L1|]. split; [exact L2|]. exact N.
Qed.

Lemma cf_loop_spec (q r : list C) : length q = (u * Dsub)%nat -> length r = (u * Dsub)%nat ->
  exists q' r', cf_loop u Dsub nskip w rf cols (q, r) = Ret (q', r') /\ length q' = length q /\ length r' = length r
    /\ forall k j, (k < Dsub)%nat -> (j < u)%nat -> nth (u * k + j) q' 0 = cfq k j /\ nth (u * k + j) r' 0 = cfr k j.
Proof.
  intros Lq Lr. unfold cf_loop.
  destruct (for_inv (fun n (st : list C * list C) => length (fst st) = length q /\ length (snd st) = length r /\
     forall k j, (k < n)%nat -> (j < u)%nat -> nth (u * k + j) (fst st) 0 = cfq k j /\ nth (u * k + j) (snd st) 0 = cfr k j)
     (fun k => cf_step u w rf cols (u * k) (k * nskip)) Dsub 0 (q, r)) as ([q' r'] & E & L1 & L2 & N).
  - cbn [fst snd]. split; [reflexivity|]. split; [reflexivity|]. intros; lia.
  - intros n [q1 r1] Hn (L1 & L2 & N). cbn [fst snd] in *.
    destruct (cf_step_spec n q1 r1 ltac:(lia) ltac:(lia) ltac:(lia)) as (q2 & r2 & E2 & L3 & L4 & N2).
    exists (q2, r2). split; [exact E2|]. cbn [fst snd]. split; [lia|]. split; [lia|]. intros k j Hk Hj.
    destruct (N2 (u * k + j)%nat) as [A B]. rewrite A, B.
    destruct (Nat.eq_dec k n) as [->|Hkn].
    + destruct (Nat.leb_spec (u * n) (u * n + j)); [|lia]. destruct (Nat.ltb_spec (u * n + j) (u * n + u)); [|lia]. cbn [andb].
      replace (u * n + j - u * n)%nat with j by lia. split; reflexivity.
    + destruct (Nat.leb_spec (u * n) (u * k + j)); cbn [andb]; [nia|]. apply N; lia.
  - exists q', r'. split; [exact E|]. split; [exact L1|]. split; [exact L2|]. exact N.
Qed.
End CF.

Lemma plain_loop_spec (Dsub nskip : nat) (q1 q2 : list C) (f g : C -> C) (a b : list C) :
  length a = Dsub -> length b = Dsub -> (forall k, (k < Dsub)%nat -> (k * nskip < length q1)%nat /\ (k * nskip < length q2)%nat) ->
  exists a' b', for_ Dsub 0 (fun k qr => x <- aget q1 (k * nskip) ;; y <- aget q2 (k * nskip) ;;
       a <- aset (fst qr) k (f x) ;; b <- aset (snd qr) k (g y) ;; Ret (a, b)) (a, b) = Ret (a', b')
    /\ length a' = Dsub /\ length b' = Dsub
    /\ forall k, (k < Dsub)%nat -> nth k a' 0 = f (nth (k * nskip) q1 0) /\ nth k b' 0 = g (nth (k * nskip) q2 0).
Proof.
  intros La Lb H.
  destruct (for_inv (fun n (st : list C * list C) => length (fst st) = Dsub /\ length (snd st) = Dsub /\
     forall k, (k < n)%nat -> nth k (fst st) 0 = f (nth (k * nskip) q1 0) /\ nth k (snd st) 0 = g (nth (k * nskip) q2 0))
     (fun k qr => x <- aget q1 (k * nskip) ;; y <- aget q2 (k * nskip) ;;
       a <- aset (fst qr) k (f x) ;; b <- aset (snd qr) k (g y) ;; Ret (a, b)) Dsub 0 (a, b)) as ([a' b'] & E & L1 & L2 & N).
  - cbn [fst snd]. split; [exact La|]. split; [exact Lb|]. intros; lia.
  - intros n [a1 b1] Hn (L1 & L2 & N). cbn [fst snd] in *. destruct (H n ltac:(lia)) as [Hn1 Hn2].
    rewrite (aget_nth q1 0) by exact Hn1. rewrite (aget_nth q2 0) by exact Hn2. cbn [bind].
    rewrite !aset_upd by lia. cbn [bind]. eexists. split; [reflexivity|]. cbn [fst snd]. rewrite !upd_length.
    split; [exact L1|]. split; [exact L2|]. intros k Hk. rewrite !nth_upd by lia.
    destruct (Nat.eqb_spec k n) as [->|]; [split; reflexivity|]. apply N. lia.
  - exists a', b'. split; [exact E|]. split; [exact L1|]. split; [exact L2|]. exact N.
Qed.

(** resampling into a fresh array *)
Lemma resample_new_spec junk junkR k D (eps_t : R) q (delta : R) :
  (forall k n, length (junk k n) = n) -> (forall n, length (junkR n) = n) -> (2 < D)%nat -> eps_t <> 0%R -> length q = D ->
  exists q', resample_new junk junkR k D eps_t q delta = Ret (0%Z, q') /\ length q' = D
    /\ forall j1 j2, (forall k n, length (j1 k n) = n) -> (forall n, length (j2 n) = n) -> resampled j1 j2 D eps_t delta q q'.
Proof.
  intros Hj HjR HD He Lq. unfold resample_new.
  destruct (misc_resample_rs (fun i => junk (100 + 10 * k + i)%nat) junkR D eps_t q delta (junk k D)) as (q' & E & L & N & _); try assumption.
  { intros; apply Hj. } { lia. } { rewrite Hj. lia. }
  rewrite E. cbn [bind]. rewrite Hj in L. exists q'. split; [reflexivity|]. split; [exact L|].
  intros j1 j2 H1 H2. destruct (misc_resample_total j1 j2 H1 H2 D eps_t HD He delta q Lq) as (q2 & R2).
  assert (Eq : q' = q2); [|now rewrite Eq].
  apply (list_eq_nth _ _ (RtoC 0)); [rewrite (proj1 R2); exact L|]. intros i Hi. rewrite L in Hi.
  rewrite N by exact Hi. now rewrite (resampled_spec j1 j2 H1 H2 D eps_t HD He delta q q2 Lq R2 i Hi).
Qed.

(** ** ES4/TES4: samples and central differences, zero outside *)
Section ES4.
Variables (Dsub nskip : nat) (eps_t : R) (q : list C) (rf : nat -> C -> C).
Hypothesis HD : (2 <= Dsub)%nat.
Hypothesis Hq : forall k, (k < Dsub)%nat -> (k * nskip < length q)%nat.
(** sample k of the subsampled signal, zero outside 0..Dsub-1; index shifted by one so that -1 can be written *)
Definition xs (k1 : nat) : C := match k1 with O => 0 | S k => if (k <? Dsub)%nat then nth (k * nskip) q 0 else 0 end.
Definition hh : C := RtoC (eps_t * INR nskip).
Definition es4_val (k i : nat) : C :=
  match i with
  | O => xs (S k)
  | 1%nat => (xs (S (S k)) - xs k) / (2 * hh)
  | _ => (xs (S (S k)) - 2 * xs (S k) + xs k) / (hh * hh)
  end.

Lemma es4_spec qr : length (fst qr) = (3 * Dsub)%nat -> length (snd qr) = (3 * Dsub)%nat ->
  exists q' r', es4_branch Dsub nskip eps_t q rf qr = Ret (q', r') /\ length q' = (3 * Dsub)%nat /\ length r' = (3 * Dsub)%nat
    /\ forall k i, (k < Dsub)%nat -> (i < 3)%nat -> nth (3 * k + i) q' 0 = es4_val k i /\ nth (3 * k + i) r' 0 = rf i (es4_val k i).
Proof.
  intros Lq Lr. unfold es4_branch.
  (* loop 1 *)
  destruct (for_inv (fun n (qp : list C) => length qp = (3 * Dsub)%nat /\ forall k, (k < n)%nat -> nth (3 * k) qp 0 = nth (k * nskip) q 0)
    (fun k qp => x <- aget q (k * nskip) ;; aset qp (3 * k) x) Dsub 0 (fst qr)) as (p1 & E1 & L1 & N1).
  { split; [exact Lq|]. intros; lia. }
  { intros k qp Hk (L & N). rewrite (aget_nth q 0) by (apply Hq; lia). cbn [bind]. rewrite aset_upd by lia.
    eexists. split; [reflexivity|]. rewrite upd_length. split; [exact L|]. intros k' Hk'. rewrite nth_upd by lia.
    destruct (Nat.eqb_spec (3 * k') (3 * k)) as [He|He].
    - replace k' with k by lia. reflexivity.
    - apply N. lia. }
  rewrite E1. cbn [bind]. rewrite Nat.add_0_l in N1.
  assert (X : forall k, (k < Dsub)%nat -> nth (3 * k) p1 0 = xs (S k)).
  { intros k Hk. rewrite N1 by exact Hk. unfold xs. destruct (Nat.ltb_spec k Dsub); [reflexivity|lia]. }
  (* reads and writes of the boundary *)
  rewrite (aget_nth p1 0 3) by lia. rewrite (aget_nth p1 0 0) by lia. cbn [bind].
  rewrite aset_upd by lia. cbn [bind]. rewrite aset_upd by (rewrite upd_length; lia). cbn [bind].
  set (p2 := upd (upd p1 1 _) 2 _).
  assert (L2 : length p2 = (3 * Dsub)%nat) by (unfold p2; now rewrite !upd_length).
  assert (X2 : forall k, (k < Dsub)%nat -> nth (3 * k) p2 0 = xs (S k)).
  { intros k Hk. unfold p2. rewrite !nth_upd by (rewrite ?upd_length; lia).
    destruct (Nat.eqb_spec (3 * k) 2); [lia|]. destruct (Nat.eqb_spec (3 * k) 1); [lia|]. now apply X. }
  assert (Y2 : nth 1 p2 0 = es4_val 0 1 /\ nth 2 p2 0 = es4_val 0 2).
  { unfold p2. rewrite !nth_upd by (rewrite ?upd_length; lia). cbn [Nat.eqb].
    change 3%nat with (3 * 1)%nat. change (nth 0 p1 0) with (nth (3 * 0) p1 0). rewrite !X by lia.
    split; reflexivity. }
  rewrite (aget_nth p2 0 (3 * Dsub - 6)) by lia. cbn [bind]. rewrite aset_upd by lia. cbn [bind].
  set (p3 := upd p2 (3 * Dsub - 2) _).
  assert (L3 : length p3 = (3 * Dsub)%nat) by (unfold p3; now rewrite upd_length).
  assert (X3 : forall k, (k < Dsub)%nat -> nth (3 * k) p3 0 = xs (S k)).
  { intros k Hk. unfold p3. rewrite nth_upd by lia. destruct (Nat.eqb_spec (3 * k) (3 * Dsub - 2)); [lia|]. now apply X2. }
  assert (Y3 : nth (3 * (Dsub - 1) + 1) p3 0 = es4_val (Dsub - 1) 1).
  { unfold p3. rewrite nth_upd by lia. destruct (Nat.eqb_spec (3 * (Dsub - 1) + 1) (3 * Dsub - 2)); [|lia].
    replace (3 * Dsub - 6)%nat with (3 * (Dsub - 2))%nat by lia. rewrite X2 by lia.
    unfold es4_val. replace (xs (S (S (Dsub - 1)))) with (RtoC 0).
    2:{ unfold xs. destruct (Nat.ltb_spec (S (Dsub - 1)) Dsub); [lia|reflexivity]. }
    replace (S (Dsub - 2)) with (Dsub - 1)%nat by lia. reflexivity. }
  rewrite (aget_nth p3 0 (3 * Dsub - 3)) by lia. rewrite (aget_nth p3 0 (3 * Dsub - 6)) by lia. cbn [bind].
  rewrite aset_upd by lia. cbn [bind].
  set (p4 := upd p3 (3 * Dsub - 1) _).
  assert (L4 : length p4 = (3 * Dsub)%nat) by (unfold p4; now rewrite upd_length).
  assert (X4 : forall k, (k < Dsub)%nat -> nth (3 * k) p4 0 = xs (S k)).
  { intros k Hk. unfold p4. rewrite nth_upd by lia. destruct (Nat.eqb_spec (3 * k) (3 * Dsub - 1)); [lia|]. now apply X3. }
  assert (Y4 : forall i, (i < 3)%nat -> nth (3 * (Dsub - 1) + i) p4 0 = es4_val (Dsub - 1) i /\ nth i p4 0 = es4_val 0 i).
  { intros i Hi. destruct i as [|[|[|i]]]; [| | |lia].
    - split; [rewrite Nat.add_0_r; apply X4; lia|]. change (nth 0 p4 0) with (nth (3 * 0) p4 0). apply X4. lia.
    - split.
      + unfold p4. rewrite nth_upd by lia. destruct (Nat.eqb_spec (3 * (Dsub - 1) + 1) (3 * Dsub - 1)); [lia|]. exact Y3.
      + unfold p4. rewrite nth_upd by lia. destruct (Nat.eqb_spec 1 (3 * Dsub - 1)); [lia|].
        unfold p3. rewrite nth_upd by lia. destruct (Nat.eqb_spec 1 (3 * Dsub - 2)); [lia|]. apply Y2.
    - split.
      + unfold p4. rewrite nth_upd by lia. destruct (Nat.eqb_spec (3 * (Dsub - 1) + 2) (3 * Dsub - 1)); [|lia].
        replace (3 * Dsub - 6)%nat with (3 * (Dsub - 2))%nat by lia. replace (3 * Dsub - 3)%nat with (3 * (Dsub - 1))%nat by lia.
        rewrite !X3 by lia. unfold es4_val. replace (xs (S (S (Dsub - 1)))) with (RtoC 0).
        2:{ unfold xs. destruct (Nat.ltb_spec (S (Dsub - 1)) Dsub); [lia|reflexivity]. }
        replace (S (Dsub - 2)) with (Dsub - 1)%nat by lia. reflexivity.
      + unfold p4. rewrite nth_upd by lia. destruct (Nat.eqb_spec 2 (3 * Dsub - 1)); [lia|].
        unfold p3. rewrite nth_upd by lia. destruct (Nat.eqb_spec 2 (3 * Dsub - 2)); [lia|]. apply Y2. }
  (* interior *)
  match goal with |- context [for_ (Dsub - 2) 1 ?b p4] => set (body := b) end.
  destruct (for_inv (fun n (qp : list C) => length qp = (3 * Dsub)%nat /\ (forall k, (k < Dsub)%nat -> nth (3 * k) qp 0 = xs (S k))
      /\ forall k i, (k < n \/ k = Dsub - 1)%nat -> (k < Dsub)%nat -> (i < 3)%nat -> nth (3 * k + i) qp 0 = es4_val k i) body (Dsub - 2) 1 p4)
    as (p5 & E5 & L5 & X5 & N5).
  { split; [exact L4|]. split; [exact X4|]. intros k i Hk _ Hi. destruct Hk as [Hk|Hk].
    - replace k with 0%nat by lia. apply Y4; exact Hi.
    - subst k. apply Y4; exact Hi. }
  { intros k qp Hk (L & X' & N). unfold body. rewrite (aget_nth qp 0 (3 * k + 3)) by lia. rewrite (aget_nth qp 0 (3 * k - 3)) by lia. cbn [bind].
    rewrite aset_upd by lia. cbn [bind]. rewrite (aget_nth _ (RtoC 0) (3 * k)) by (rewrite upd_length; lia). cbn [bind].
    rewrite aset_upd by (rewrite upd_length; lia). eexists. split; [reflexivity|].
    rewrite !upd_length. split; [exact L|]. 
    replace (3 * k + 3)%nat with (3 * (k + 1))%nat by lia. replace (3 * k - 3)%nat with (3 * (k - 1))%nat by lia. rewrite !X' by lia.
    rewrite (nth_upd qp) by lia. destruct (Nat.eqb_spec (3 * k) (3 * k + 1)) as [|_]; [lia|]. rewrite X' by lia.
    replace (S (k + 1)) with (S (S k)) by lia. replace (S (k - 1)) with k by lia.
    split.
    - intros k' Hk'. rewrite !nth_upd by (rewrite ?upd_length; lia).
      destruct (Nat.eqb_spec (3 * k') (3 * k + 2)); [lia|]. destruct (Nat.eqb_spec (3 * k') (3 * k + 1)); [lia|]. now apply X'.
    - intros k' i Hk' Hk'' Hi. rewrite !nth_upd by (rewrite ?upd_length; lia).
      destruct (Nat.eqb_spec (3 * k' + i) (3 * k + 2)) as [He|He].
      + assert (k' = k) by lia. assert (i = 2%nat) by lia. subst. reflexivity.
      + destruct (Nat.eqb_spec (3 * k' + i) (3 * k + 1)) as [He2|He2].
        * assert (k' = k) by lia. assert (i = 1%nat) by lia. subst. reflexivity.
        * destruct (Nat.eq_dec k' k) as [->|Hn].
          -- assert (i = 0%nat) by lia. subst i. rewrite Nat.add_0_r. now apply X'.
          -- apply N; lia. }
  rewrite E5. cbn [bind].
  assert (N5' : forall k i, (k < Dsub)%nat -> (i < 3)%nat -> nth (3 * k + i) p5 0 = es4_val k i).
  { intros k i Hk Hi. apply N5; lia. }
  destruct (for_inv (fun n (rp : list C) => length rp = (3 * Dsub)%nat /\ forall k i, (k < n)%nat -> (i < 3)%nat -> nth (3 * k + i) rp 0 = rf i (es4_val k i))
     (fun k rp => for_ 3 0 (fun i rp => x <- aget p5 (3 * k + i) ;; aset rp (3 * k + i) (rf i x)) rp) Dsub 0 (snd qr)) as (r' & E6 & L6 & N6).
  { split; [exact Lr|]. intros; lia. }
  { intros k rp Hk (L & N).
    destruct (for_inv (fun m (rp' : list C) => length rp' = (3 * Dsub)%nat /\ (forall k' i, (k' < k)%nat -> (i < 3)%nat -> nth (3 * k' + i) rp' 0 = rf i (es4_val k' i))
        /\ forall i, (i < m)%nat -> nth (3 * k + i) rp' 0 = rf i (es4_val k i))
      (fun i rp => x <- aget p5 (3 * k + i) ;; aset rp (3 * k + i) (rf i x)) 3 0 rp) as (rp' & E & L' & N' & M').
    { split; [exact L|]. split; [exact N|]. intros; lia. }
    { intros i st Hi (L' & N' & M'). rewrite (aget_nth p5 0) by lia. cbn [bind]. rewrite aset_upd by lia. eexists. split; [reflexivity|].
      rewrite upd_length. split; [exact L'|]. split.
      - intros k' i' Hk' Hi'. rewrite nth_upd by lia. destruct (Nat.eqb_spec (3 * k' + i') (3 * k + i)); [lia|]. now apply N'.
      - intros i' Hi'. rewrite nth_upd by lia. destruct (Nat.eqb_spec (3 * k + i') (3 * k + i)).
        + replace i' with i by lia. now rewrite N5' by lia.
        + apply M'. lia. }
    exists rp'. split; [exact E|]. split; [exact L'|]. intros k' i Hk' Hi. destruct (Nat.eq_dec k' k) as [->|]; [apply M'; lia|apply N'; lia]. }
  rewrite E6. cbn [bind]. exists p5, r'. split; [reflexivity|]. split; [exact L5|]. split; [exact L6|].
  intros k i Hk Hi. split; [now apply N5'|apply N6; lia].
Qed.
End ES4.
