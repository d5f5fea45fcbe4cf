(** * Theorems about the error metrics (C10) and the sinc routines (C59) of fnft__misc *)
From Coq Require Import Reals Lra Psatz.
From Coquelicot Require Import Coquelicot.
From Verif Require Import MiscNumModel CDeriv.

Section Hausdorff.
Local Open Scope R_scope.

(** every value of each array has a partner at distance <= d in the other array *)
Definition covers (A B : list C) (d : R) : Prop :=
  (forall a, In a A -> exists b, In b B /\ Cmod (Cminus a b) <= d) /\
  (forall b, In b B -> exists a, In a A /\ Cmod (Cminus a b) <= d).

Lemma min_dist_spec f g len : (forall j, (j < len)%nat -> f j = Ret (g j)) ->
  exists r, min_dist f len = Ret r /\
    match r with
    | None => len = 0%nat
    | Some d => (exists j, (j < len)%nat /\ g j = d) /\ forall j, (j < len)%nat -> d <= g j
    end.
Proof.
  intros Hf. unfold min_dist.
  match goal with |- context [for_ _ _ ?b _] => set (body := b) end.
  destruct (for_inv (fun k (r : option R) => match r with
    | None => k = 0%nat
    | Some d => (exists j, (j < k)%nat /\ g j = d) /\ forall j, (j < k)%nat -> d <= g j end) body len 0 None) as (r & E & H).
  - reflexivity.
  - intros i st Hi Hst. unfold body. rewrite Hf by lia. cbn [bind]. eexists. split; [reflexivity|].
    destruct st as [d|]; [|subst i].
    + destruct Hst as [(j & Hj & Ej) Hall]. destruct (Rlt_dec (g i) d) as [Hlt|Hge].
      * split; [exists i; split; [lia|reflexivity]|]. intros k Hk. destruct (Nat.eq_dec k i) as [->|]; [lra|]. specialize (Hall k ltac:(lia)). lra.
      * split; [exists j; split; [lia|exact Ej]|]. intros k Hk. destruct (Nat.eq_dec k i) as [->|]; [lra|]. apply Hall. lia.
    + split; [exists 0%nat; split; [lia|reflexivity]|]. intros k Hk. replace k with 0%nat by lia. lra.
  - exists r. split; [exact E|]. exact H.
Qed.

(** the outer loops: running maximum *)
Lemma max_loop_spec (dist : nat -> out (option R)) (h : nat -> option R) len m :
  (forall i, (i < len)%nat -> dist i = Ret (h i)) ->
  exists r, for_ len 0 (fun i m => d <- dist i ;; Ret (max_upd d m)) m = Ret r /\
    (r = m \/ exists i, (i < len)%nat /\ r = h i) /\
    (m = None -> r = None) /\
    (forall x, r = Some x -> (exists y, m = Some y /\ y <= x) /\ forall i, (i < len)%nat -> exists y, h i = Some y /\ y <= x).
Proof.
  intros Hd. set (body := fun i m => d <- dist i ;; Ret (max_upd d m)).
  destruct (for_inv (fun k r => (r = m \/ exists i, (i < k)%nat /\ r = h i) /\
    (m = None -> r = None) /\
    (forall x, r = Some x -> (exists y, m = Some y /\ y <= x) /\ forall i, (i < k)%nat -> exists y, h i = Some y /\ y <= x)) body len 0 m)
    as (r & E & H).
  - split; [now left|]. split; [auto|]. intros x ->. split; [exists x; split; [reflexivity|lra]|]. intros; lia.
  - intros i st Hi (H1 & H2 & H3). unfold body. rewrite Hd by lia. cbn [bind]. eexists. split; [reflexivity|].
    destruct st as [s|].
    + destruct (h i) as [d|] eqn:Ehi; simpl.
      * destruct (Rlt_dec s d) as [Hlt|Hge].
        -- split; [right; exists i; split; [lia|now rewrite Ehi]|]. split.
           { intros ->. now specialize (H2 eq_refl). }
           intros x [= <-]. destruct (H3 s eq_refl) as [(y & Ey & Hy) Hall].
           split; [exists y; split; [exact Ey|lra]|]. intros j Hj. destruct (Nat.eq_dec j i) as [->|].
           ++ exists d. split; [exact Ehi|lra].
           ++ destruct (Hall j ltac:(lia)) as (z & Ez & Hz). exists z. split; [exact Ez|lra].
        -- split.
           { destruct H1 as [H1|(j & Hj & Ej)]; [now left|]. right. exists j. split; [lia|exact Ej]. }
           split. { intros ->. now specialize (H2 eq_refl). }
           intros x [= <-]. destruct (H3 s eq_refl) as [Hm Hall]. split; [exact Hm|].
           intros j Hj. destruct (Nat.eq_dec j i) as [->|]; [|apply Hall; lia]. exists d. split; [exact Ehi|lra].
      * split; [right; exists i; split; [lia|now rewrite Ehi]|]. split; [reflexivity|]. discriminate.
    + assert (Em : max_upd (h i) None = None) by (destruct (h i); reflexivity). rewrite Em.
      split. { destruct H1 as [H1|(j & Hj & Ej)]; [now left|]. right. exists j. split; [lia|exact Ej]. }
      split; [reflexivity|]. discriminate.
  - exists r. split; [exact E|]. exact H.
Qed.

Lemma In_nth_C (A : list C) a : In a A -> exists i, (i < length A)%nat /\ nth i A (RtoC 0) = a.
Proof. intros H. destruct (In_nth A a (RtoC 0) H) as (i & Hi & E). eauto. Qed.

Theorem misc_hausdorff_dist_is_least (A B : list C) : A <> [] -> B <> [] ->
  exists d, misc_hausdorff_dist (length A) A (length B) B = Ret (Some d)
    /\ 0 <= d /\ covers A B d /\ forall d', covers A B d' -> d <= d'.
Proof.
  intros HA HB. assert (LA : (0 < length A)%nat) by (destruct A; [contradiction|simpl; lia]).
  assert (LB : (0 < length B)%nat) by (destruct B; [contradiction|simpl; lia]).
  set (g := fun i j => Cmod (Cminus (nth i A (RtoC 0)) (nth j B (RtoC 0)))).
  assert (HgA : forall i, (i < length A)%nat -> exists r, min_dist (fun j => a <- aget A i ;; b <- aget B j ;; Ret (Cmod (Cminus a b))) (length B) = Ret (Some r)
     /\ (exists j, (j < length B)%nat /\ g i j = r) /\ forall j, (j < length B)%nat -> r <= g i j).
  { intros i Hi. destruct (min_dist_spec (fun j => a <- aget A i ;; b <- aget B j ;; Ret (Cmod (Cminus a b))) (g i) (length B)) as ([r|] & E & H).
    - intros j Hj. now rewrite (aget_nth A (RtoC 0)), (aget_nth B (RtoC 0)) by assumption.
    - exists r. auto.
    - lia. }
  assert (HgB : forall j, (j < length B)%nat -> exists r, min_dist (fun i => a <- aget A i ;; b <- aget B j ;; Ret (Cmod (Cminus a b))) (length A) = Ret (Some r)
     /\ (exists i, (i < length A)%nat /\ g i j = r) /\ forall i, (i < length A)%nat -> r <= g i j).
  { intros j Hj. destruct (min_dist_spec (fun i => a <- aget A i ;; b <- aget B j ;; Ret (Cmod (Cminus a b))) (fun i => g i j) (length A)) as ([r|] & E & H).
    - intros i Hi. now rewrite (aget_nth A (RtoC 0)), (aget_nth B (RtoC 0)) by assumption.
    - exists r. auto.
    - lia. }
  set (hA := fun i => match min_dist (fun j => a <- aget A i ;; b <- aget B j ;; Ret (Cmod (Cminus a b))) (length B) with Ret r => r | UB => None end).
  set (hB := fun j => match min_dist (fun i => a <- aget A i ;; b <- aget B j ;; Ret (Cmod (Cminus a b))) (length A) with Ret r => r | UB => None end).
  unfold misc_hausdorff_dist.
  destruct (max_loop_spec (fun i => min_dist (fun j => a <- aget A i ;; b <- aget B j ;; Ret (Cmod (Cminus a b))) (length B)) hA (length A) (Some (-1)))
    as (m & Em & M1 & M2 & M3).
  { intros i Hi. destruct (HgA i Hi) as (r & E & _). unfold hA. now rewrite E. }
  rewrite Em. cbn [bind].
  destruct (max_loop_spec (fun j => min_dist (fun i => a <- aget A i ;; b <- aget B j ;; Ret (Cmod (Cminus a b))) (length A)) hB (length B) m)
    as (r & Er & R1 & R2 & R3).
  { intros j Hj. destruct (HgB j Hj) as (r & E & _). unfold hB. now rewrite E. }
  rewrite Er.
  assert (FA : forall i, (i < length A)%nat -> exists x, hA i = Some x /\ (exists j, (j < length B)%nat /\ g i j = x) /\ forall j, (j < length B)%nat -> x <= g i j).
  { intros i Hi. destruct (HgA i Hi) as (x & E & H). exists x. split; [unfold hA; now rewrite E|exact H]. }
  assert (FB : forall j, (j < length B)%nat -> exists x, hB j = Some x /\ (exists i, (i < length A)%nat /\ g i j = x) /\ forall i, (i < length A)%nat -> x <= g i j).
  { intros i Hi. destruct (HgB i Hi) as (x & E & H). exists x. split; [unfold hB; now rewrite E|exact H]. }
  assert (Hm : exists x, m = Some x).
  { destruct M1 as [->|(i & Hi & ->)]; [eauto|]. destruct (FA i Hi) as (x & -> & _). eauto. }
  destruct Hm as (xm & ->).
  assert (Hr : exists x, r = Some x).
  { destruct R1 as [->|(i & Hi & ->)]; [eauto|]. destruct (FB i Hi) as (x & -> & _). eauto. }
  destruct Hr as (d & ->). destruct (R3 d eq_refl) as [(y & Ey & Hyd) RB]. injection Ey as <-.
  destruct (M3 xm eq_refl) as [_ MA].
  assert (Hpos : 0 <= d).
  { destruct (RB 0%nat LB) as (x & Ex & Hx). destruct (FB 0%nat LB) as (x' & Ex' & (i & Hi & Hg) & _). rewrite Ex in Ex'. injection Ex' as <-.
    rewrite <- Hg in Hx. unfold g in Hx. pose proof (Cmod_ge_0 (Cminus (nth i A (RtoC 0)) (nth 0 B (RtoC 0)))). lra. }
  exists d. split; [reflexivity|]. split; [exact Hpos|]. split; [split|].
  - intros a Ha. destruct (In_nth_C A a Ha) as (i & Hi & <-). destruct (MA i Hi) as (x & Ex & Hx).
    destruct (FA i Hi) as (x' & Ex' & (j & Hj & Hg) & _). rewrite Ex in Ex'. injection Ex' as <-.
    exists (nth j B (RtoC 0)). split; [now apply nth_In|]. unfold g in Hg. lra.
  - intros b Hb. destruct (In_nth_C B b Hb) as (j & Hj & <-). destruct (RB j Hj) as (x & Ex & Hx).
    destruct (FB j Hj) as (x' & Ex' & (i & Hi & Hg) & _). rewrite Ex in Ex'. injection Ex' as <-.
    exists (nth i A (RtoC 0)). split; [now apply nth_In|]. unfold g in Hg. lra.
  - intros d' [C1 C2].
    assert (Hd0 : 0 <= d').
    { destruct (C1 (nth 0 A (RtoC 0))) as (b & _ & Hb); [now apply nth_In|]. pose proof (Cmod_ge_0 (Cminus (nth 0 A (RtoC 0)) b)). lra. }
    destruct R1 as [E|(j & Hj & E)].
    + injection E as ->. destruct M1 as [E|(i & Hi & E)]; [injection E; lra|].
      destruct (FA i Hi) as (x & Ex & _ & Hall). rewrite Ex in E. injection E as ->.
      destruct (C1 (nth i A (RtoC 0))) as (b & Hb & Hle); [now apply nth_In|].
      destruct (In_nth_C B b Hb) as (j & Hj & <-). specialize (Hall j Hj). unfold g in Hall. lra.
    + destruct (FB j Hj) as (x & Ex & _ & Hall). rewrite Ex in E. injection E as ->.
      destruct (C2 (nth j B (RtoC 0))) as (a & Ha & Hle); [now apply nth_In|].
      destruct (In_nth_C A a Ha) as (i & Hi & <-). specialize (Hall i Hi). unfold g in Hall. lra.
Qed.

Lemma Cmod_minus_sym (a b : C) : Cmod (Cminus a b) = Cmod (Cminus b a).
Proof. rewrite <- (Cmod_opp (Cminus a b)). f_equal. ring. Qed.
Lemma covers_sym A B d : covers A B d -> covers B A d.
Proof.
  intros [H1 H2]. split; intros x Hx; [destruct (H2 x Hx) as (y & Hy & Hd)|destruct (H1 x Hx) as (y & Hy & Hd)];
    exists y; split; auto; now rewrite Cmod_minus_sym.
Qed.

(** empty arrays: -1 if both are empty, INFINITY if exactly one is *)
Theorem misc_hausdorff_dist_empty (A B : list C) : A = [] \/ B = [] ->
  misc_hausdorff_dist (length A) A (length B) B = Ret (match A, B with [], [] => Some (-1) | _, _ => None end).
Proof.
  intros H. unfold misc_hausdorff_dist. destruct A as [|a A], B as [|b B]; try (destruct H; discriminate).
  - reflexivity.
  - cbn [length for_ bind]. cbn [min_dist for_ bind max_upd].
    match goal with |- context [for_ _ _ ?f _] => destruct (for_inv (fun _ r => r = None) f (length B) 1 None eq_refl) as (r & E & ->) end.
    + intros i st _ ->. eexists. split; [reflexivity|reflexivity].
    + exact E.
  - cbn [length for_ bind]. cbn [min_dist for_ bind max_upd].
    match goal with |- context [for_ _ _ ?f _] => destruct (for_inv (fun _ r => r = None) f (length A) 1 None eq_refl) as (r & E & ->) end.
    + intros i st _ ->. eexists. split; [reflexivity|reflexivity].
    + rewrite E. reflexivity.
Qed.

Theorem misc_hausdorff_dist_symmetric (A B : list C) :
  misc_hausdorff_dist (length A) A (length B) B = misc_hausdorff_dist (length B) B (length A) A.
Proof.
  destruct A as [|a A]; [|destruct B as [|b B]].
  - rewrite (misc_hausdorff_dist_empty [] B), (misc_hausdorff_dist_empty B []) by auto. now destruct B.
  - rewrite (misc_hausdorff_dist_empty (a :: A) []), (misc_hausdorff_dist_empty [] (a :: A)) by auto. reflexivity.
  - destruct (misc_hausdorff_dist_is_least (a :: A) (b :: B)) as (d & E & _ & Hc & Hl); try discriminate.
    destruct (misc_hausdorff_dist_is_least (b :: B) (a :: A)) as (e & E' & _ & Hc' & Hl'); try discriminate.
    rewrite E, E'. do 2 f_equal. apply Rle_antisym; [apply Hl|apply Hl']; now apply covers_sym.
Qed.

Theorem misc_hausdorff_dist_zero (A B : list C) : A <> [] -> B <> [] ->
  (misc_hausdorff_dist (length A) A (length B) B = Ret (Some 0) <-> forall x, In x A <-> In x B).
Proof.
  intros HA HB. destruct (misc_hausdorff_dist_is_least A B HA HB) as (d & E & Hd & [C1 C2] & Hl). rewrite E. split.
  - intros [= ->]. assert (Heq : forall a b, Cmod (Cminus a b) <= 0 -> a = b).
    { intros a b H. pose proof (Cmod_ge_0 (Cminus a b)). assert (E0 : Cminus a b = RtoC 0) by (apply Cmod_eq_0; lra).
      transitivity (Cplus (Cminus a b) b); [ring|]. rewrite E0. ring. }
    intros x. split; intros Hx.
    + destruct (C1 x Hx) as (y & Hy & Hle). now rewrite (Heq _ _ Hle).
    + destruct (C2 x Hx) as (y & Hy & Hle). now rewrite <- (Heq _ _ Hle).
  - intros Hs. do 2 f_equal. apply Rle_antisym; [|exact Hd]. apply Hl.
    split; intros x Hx; exists x; (split; [now apply Hs|]); replace (Cminus x x) with (RtoC 0) by ring; rewrite Cmod_0; lra.
Qed.

Example hausdorff_ex : exists d, misc_hausdorff_dist 2 [RtoC 0; RtoC 1] 1 [RtoC 0] = Ret (Some d) /\ d = 1.
Proof.
  destruct (misc_hausdorff_dist_is_least [RtoC 0; RtoC 1] [RtoC 0]) as (d & E & Hd & [C1 C2] & Hl); try discriminate.
  exists d. split; [exact E|].
  assert (H1 : Cmod (Cminus (RtoC 1) (RtoC 0)) = 1) by (replace (Cminus (RtoC 1) (RtoC 0)) with (RtoC 1) by ring; rewrite Cmod_R; apply Rabs_R1).
  assert (H0 : Cmod (Cminus (RtoC 0) (RtoC 0)) = 0) by (replace (Cminus (RtoC 0) (RtoC 0)) with (RtoC 0) by ring; apply Cmod_0).
  apply Rle_antisym.
  - apply Hl. split; intros x Hx.
    + exists (RtoC 0). split; [now left|]. destruct Hx as [<-|[<-|[]]]; lra.
    + exists (RtoC 0). split; [now left|]. destruct Hx as [<-|[]]; lra.
  - destruct (C1 (RtoC 1)) as (b & [<-|[]] & Hb); [right; now left|]. lra.
Qed.
End Hausdorff.

(** ** squared L2 norm *)
Section L2.
Local Open Scope R_scope.
Fixpoint sum_sq (Z : list C) : R := match Z with [] => 0 | z :: Z' => Cmod z * Cmod z + sum_sq Z' end.

Lemma sum_loop (f : C -> R) Z : forall off acc pre, off = length pre ->
  for_ (length Z) off (fun i val => z <- aget (pre ++ Z) i ;; Ret (val + f z)) acc
  = Ret (acc + fold_right (fun z s => f z + s) 0 Z).
Proof.
  induction Z as [|z Z IH]; intros off acc pre Ho.
  - simpl. f_equal. ring.
  - cbn [length for_]. rewrite aget_middle by exact Ho. cbn [bind].
    replace (pre ++ z :: Z) with ((pre ++ [z]) ++ Z) by (rewrite <- app_assoc; reflexivity).
    rewrite IH by (rewrite app_length; simpl; lia). simpl. f_equal. ring.
Qed.

Theorem misc_l2norm2_rectangle_rule (Z : list C) a b :
  misc_l2norm2 (length Z) Z a b
  = Ret (if Rle_dec b a then None else if (length Z =? 0)%nat then None else Some (sum_sq Z * ((b - a) / INR (length Z)))).
Proof.
  unfold misc_l2norm2. destruct (Rle_dec b a); [reflexivity|]. cbn [orb].
  destruct (Nat.eqb_spec (length Z) 0); [reflexivity|].
  pose proof (sum_loop (fun z => Cmod z * Cmod z) Z 0 0 [] eq_refl) as E. simpl app in E. cbv zeta. rewrite E. cbn [bind].
  do 3 f_equal. rewrite Rplus_0_l. clear. induction Z as [|z Z IH]; simpl; [reflexivity|]. now rewrite IH.
Qed.
Corollary misc_l2norm2_nan_iff (Z : list C) a b :
  misc_l2norm2 (length Z) Z a b = Ret None <-> (length Z = 0%nat \/ b <= a).
Proof.
  rewrite misc_l2norm2_rectangle_rule. destruct (Rle_dec b a); [split; auto|].
  destruct (Nat.eqb_spec (length Z) 0); [split; auto|]. split; [discriminate|]. intros [H|H]; contradiction.
Qed.
(** unchanged when every sample is multiplied by a phase *)
Theorem misc_l2norm2_phase_invariant (Z : list C) (u : list C) a b : length u = length Z ->
  (forall x, In x u -> Cmod x = 1) ->
  misc_l2norm2 (length Z) (zipw Cmult u Z) a b = misc_l2norm2 (length Z) Z a b.
Proof.
  intros L H. assert (L' : length (zipw Cmult u Z) = length Z) by (rewrite zipw_length, L; apply Nat.min_id).
  rewrite <- L' at 1. rewrite !misc_l2norm2_rectangle_rule, L'. destruct (Rle_dec b a); [reflexivity|].
  destruct (Nat.eqb_spec (length Z) 0); [reflexivity|]. do 3 f_equal.
  clear -L H. revert u L H. induction Z as [|z Z IH]; intros [|x u] L H; simpl in *; try discriminate; [reflexivity|].
  rewrite Cmod_mult, (H x (or_introl eq_refl)), (IH u); auto. ring.
Qed.

(** relative error: sum|numer-exact| / sum|exact| *)
Fixpoint sum_diff (A B : list C) : R := match A, B with a :: A', b :: B' => Cmod (Cminus a b) + sum_diff A' B' | _, _ => 0 end.
Fixpoint sum_abs (B : list C) : R := match B with b :: B' => Cmod b + sum_abs B' | _ => 0 end.
Lemma rel_loop A : forall B off n d pa pb, length A = length B -> off = length pa -> off = length pb ->
  for_ (length A) off (fun i (st : R * R) => let '(n, d) := st in
    a <- aget (pa ++ A) i ;; b <- aget (pb ++ B) i ;; Ret (n + Cmod (Cminus a b), d + Cmod b)) (n, d)
  = Ret (n + sum_diff A B, d + sum_abs B).
Proof.
  induction A as [|a A IH]; intros [|b B] off n d pa pb L Ha Hb; try discriminate.
  - simpl. f_equal. f_equal; ring.
  - cbn [length for_]. rewrite !aget_middle by assumption. cbn [bind].
    replace (pa ++ a :: A) with ((pa ++ [a]) ++ A) by (rewrite <- app_assoc; reflexivity).
    replace (pb ++ b :: B) with ((pb ++ [b]) ++ B) by (rewrite <- app_assoc; reflexivity).
    rewrite IH by (try rewrite app_length; simpl in *; lia). simpl. f_equal. f_equal; ring.
Qed.
Lemma sum_diff_pos A B : 0 <= sum_diff A B.
Proof. revert B; induction A as [|a A IH]; intros [|b B]; simpl; try lra. pose proof (Cmod_ge_0 (Cminus a b)). specialize (IH B). lra. Qed.
Lemma sum_diff_zero A : forall B, length A = length B -> sum_diff A B = 0 -> A = B.
Proof.
  induction A as [|a A IH]; intros [|b B] L H; simpl in *; try discriminate; [reflexivity|].
  pose proof (Cmod_ge_0 (Cminus a b)). pose proof (sum_diff_pos A B). f_equal.
  - assert (E0 : Cminus a b = RtoC 0) by (apply Cmod_eq_0; lra). transitivity (Cplus (Cminus a b) b); [ring|]. rewrite E0. ring.
  - apply IH; [lia|lra].
Qed.
Lemma sum_diff_refl A : sum_diff A A = 0.
Proof. induction A as [|a A IH]; simpl; [reflexivity|]. replace (Cminus a a) with (RtoC 0) by ring. rewrite Cmod_0, IH. ring. Qed.
Lemma sum_abs_pos B : 0 <= sum_abs B.
Proof. induction B as [|b B IH]; simpl; [lra|]. pose proof (Cmod_ge_0 b). lra. Qed.

Theorem misc_rel_err_quotient (A B : list C) : length A = length B ->
  misc_rel_err (length A) A B = Ret (if Req_EM_T (sum_abs B) 0 then None else Some (sum_diff A B / sum_abs B)).
Proof.
  intros L. unfold misc_rel_err, rel_err_sums. pose proof (rel_loop A B 0 0 0 [] [] L eq_refl eq_refl) as E. simpl app in E.
  rewrite E. cbn [bind]. rewrite !Rplus_0_l. reflexivity.
Qed.
Corollary misc_rel_err_zero_iff (A B : list C) r : length A = length B ->
  misc_rel_err (length A) A B = Ret (Some r) -> 0 <= r /\ (r = 0 <-> A = B).
Proof.
  intros L. rewrite misc_rel_err_quotient by exact L. destruct (Req_EM_T (sum_abs B) 0); [discriminate|]. intros [= <-].
  pose proof (sum_diff_pos A B). pose proof (sum_abs_pos B). assert (0 < sum_abs B) by lra.
  assert (Hi : 0 < / sum_abs B) by (now apply Rinv_0_lt_compat).
  split; [unfold Rdiv; nra|]. split.
  - intros E. apply sum_diff_zero; [exact L|]. unfold Rdiv in E. nra.
  - intros ->. rewrite sum_diff_refl. unfold Rdiv. ring.
Qed.
End L2.

(** ** C59: sinc and its derivative, sech *)
Section Sinc.
Local Open Scope C_scope.

Theorem misc_sech_is_inverse_cosh (z : C) : Ccosh z <> 0 -> misc_sech z * Ccosh z = 1.
Proof.
  intros H. unfold misc_sech, Ccosh in *.
  assert (Hs : Cexp z + Cexp (- z) <> 0).
  { intros E. apply H. rewrite E. unfold Cdiv. ring. }
  field. split; [exact C2_neq0|exact Hs].
Qed.

(** outside the thresholds the values are sin(x)/x and its derivative *)
Theorem misc_CSINC_exact (x : C) : (1 / 100000000 <= Cmod x)%R -> misc_CSINC x * x = Csin x.
Proof.
  intros H. unfold misc_CSINC. destruct (Rle_dec (1 / 100000000) (Cmod x)); [|contradiction].
  field. intros ->. rewrite Cmod_0 in H. lra.
Qed.
Theorem misc_CSINC_derivative_exact (x : C) : (1 <= Cmod x)%R ->
  Cderive (fun z => Csin z / z) x (misc_CSINC_derivative x).
Proof.
  intros H. unfold misc_CSINC_derivative. destruct (Rle_dec 1 (Cmod x)); [|contradiction].
  assert (Hx : x <> 0) by (intros ->; rewrite Cmod_0 in H; lra).
  unfold misc_CSINC. destruct (Rle_dec (1 / 100000000) (Cmod x)); [|lra].
  eapply Cderive_eq; [apply (Cderive_mult Csin (fun z => / z) x); [apply Cderive_csin|now apply Cderive_inv]|].
  field. exact Hx.
Qed.

(** for |x| < 1: the first nine terms of the Taylor series
   sinc'(x) = sum_k (-1)^(k+1) (2k+2)/(2k+3)! x^(2k+1) *)
Definition taylor_term (x : C) (k : nat) : C :=
  RtoC ((-1) ^ (k + 1) * INR (2 * k + 2) / INR (fact (2 * k + 3))) * Cpown x (2 * k + 1).
Lemma sign_odd n : (if Nat.odd n then 1 else -1)%R = ((-1) ^ (n + 1))%R.
Proof.
  induction n as [|n IH]; [simpl; ring|]. rewrite Nat.odd_succ, <- Nat.negb_odd.
  replace (S n + 1)%nat with (S (n + 1)) by lia. cbn [pow]. rewrite <- IH. destruct (Nat.odd n); simpl; ring.
Qed.
Lemma Cpown_add x n m : Cpown x (n + m) = Cpown x n * Cpown x m.
Proof. induction n as [|n IH]; cbn [Nat.add Cpown]; [ring|]. rewrite IH. ring. Qed.
Lemma Cpown_sq x n : Cpown (x * x) n = Cpown x (2 * n).
Proof. induction n as [|n IH]; [reflexivity|]. replace (2 * S n)%nat with (S (S (2 * n))) by lia. cbn [Cpown]. rewrite IH. ring. Qed.
Lemma taylor_loop x : forall k r,
  csinc_deriv_loop k (x * x) r * x
  = fold_right Cplus 0 (map (taylor_term x) (seq 0 k)) + Cpown x (2 * k + 1) * RtoC (/ INR (fact (2 * k + 1))) * r.
Proof.
  induction k as [|n IH]; intros r.
  - cbn. rewrite Rinv_1. ring.
  - cbn [csinc_deriv_loop]. rewrite IH. rewrite seq_S, map_app, fold_right_app. cbn [map fold_right Nat.add].
    set (T := map (taylor_term x) (seq 0 n)).
    assert (Hf : forall a, fold_right Cplus (a + 0) T = fold_right Cplus 0 T + a).
    { intros a. induction T as [|t T IHT]; simpl; [ring|]. rewrite IHT. ring. }
    rewrite Hf. unfold taylor_term.
    assert (F1 : INR (fact (2 * n + 3)) = (INR (2 * n + 3) * INR (2 * n + 2) * INR (fact (2 * n + 1)))%R).
    { replace (2 * n + 3)%nat with (S (S (2 * n + 1))) by lia. rewrite !fact_simpl, !mult_INR.
      replace (S (2 * n + 1)) with (2 * n + 2)%nat by lia. ring. }
    replace (2 * S n + 1)%nat with (2 * n + 3)%nat by lia. rewrite F1, sign_odd.
    assert (P3 : Cpown x (2 * n + 3) = Cpown x (2 * n + 1) * (x * x)).
    { replace (2 * n + 3)%nat with (2 * n + 1 + 2)%nat by lia. rewrite Cpown_add. cbn [Cpown]. ring. }
    rewrite P3. 
    assert (N1 : INR (fact (2 * n + 1)) <> 0%R) by apply INR_fact_neq_0.
    assert (N2 : INR (2 * n + 2) <> 0%R) by (apply not_0_INR; lia).
    assert (N3 : INR (2 * n + 3) <> 0%R) by (apply not_0_INR; lia).
    revert N1 N2 N3. generalize (INR (fact (2 * n + 1))) (INR (2 * n + 2)) (INR (2 * n + 3)) ((-1) ^ (n + 1))%R (Cpown x (2 * n + 1)).
    intros f a b s P N1 N2 N3.
    assert (M1 : RtoC f <> 0) by (intros E; apply N1; now injection E).
    assert (M2 : RtoC a <> 0) by (intros E; apply N2; now injection E).
    assert (M3 : RtoC b <> 0) by (intros E; apply N3; now injection E).
    rewrite RtoC_inv, (RtoC_inv (b * a * f)), RtoC_div, !RtoC_mult by (repeat apply Rmult_integral_contrapositive_currified; assumption).
    field. auto.
Qed.
Theorem misc_CSINC_derivative_taylor (x : C) : (Cmod x < 1)%R ->
  misc_CSINC_derivative x = fold_right Cplus 0 (map (taylor_term x) (seq 0 9)).
Proof.
  intros H. unfold misc_CSINC_derivative. destruct (Rle_dec 1 (Cmod x)); [lra|].
  rewrite taylor_loop. ring.
Qed.
(** the routine is odd and vanishes at 0 *)
Theorem misc_CSINC_at_zero : misc_CSINC 0 = 1.
Proof.
  unfold misc_CSINC. rewrite Cmod_0. destruct (Rle_dec (1 / 100000000) 0); [lra|].
  unfold Cdiv. rewrite Cmult_0_l. unfold Ccos. rewrite Cmult_0_r. replace (- (0)) with (RtoC 0) by ring. rewrite Cexp_0, C2_eq.
  field. exact C11_neq0.
Qed.
End Sinc.

Print Assumptions misc_hausdorff_dist_is_least.
Print Assumptions misc_l2norm2_phase_invariant.
Print Assumptions misc_CSINC_derivative_exact.
