(** * Proofs about the discrete helpers *)
From Verif Require Import Base MiscModel.
From Coq Require Import ZifyBool ZifyNat.
Ltac Zify.zify_post_hook ::= Z.div_mod_to_equations.

(** ** Filters *)
(** The loop on arrays split as pre ++ mid ++ todo ++ tl *)
Lemma filter_loop_none {A : Type} (keep : A -> bool) : forall todo pre mid tl i nf,
  nf = length pre -> i = length pre + length mid ->
  exists mid', length mid' + length (filter keep todo) = length mid + length todo /\
  filter_loop keep (length todo) i nf (pre ++ mid ++ todo ++ tl) None
  = Ret (nf + length (filter keep todo), pre ++ filter keep todo ++ mid' ++ tl, None).
Proof.
  induction todo as [|x todo IH]; intros pre mid tl i nf -> ->.
  - exists mid. simpl. split; [lia|]. now rewrite Nat.add_0_r.
  - cbn [filter_loop length].
    assert (Hget : aget (pre ++ mid ++ (x :: todo) ++ tl) (length pre + length mid) = Ret x).
    { rewrite app_assoc. apply aget_middle. now rewrite app_length. }
    rewrite Hget. cbn [bind filter].
    destruct (keep x) eqn:Hk.
    + destruct mid as [|y mid].
      * cbn [app length] in *. rewrite aset_middle by reflexivity. cbn [bind].
        destruct (IH (pre ++ [x]) [] tl (S (length pre + 0)) (S (length pre))) as (mid' & HL & HE);
          [rewrite app_length; simpl; lia..|].
        exists mid'. split; [simpl in *; lia|].
        cbn [app] in HE. rewrite <- app_assoc in HE. cbn [app] in HE. rewrite HE.
        rewrite <- !app_assoc. cbn [app length]. do 2 f_equal. f_equal. lia.
      * cbn [app]. rewrite aset_middle by reflexivity. cbn [bind].
        destruct (IH (pre ++ [x]) (mid ++ [x]) tl (S (length pre + length (y :: mid))) (S (length pre)))
          as (mid' & HL & HE); [rewrite app_length; simpl; lia| rewrite !app_length; simpl; lia|].
        exists mid'. split; [rewrite app_length in HL; simpl in *; lia|].
        rewrite <- !app_assoc in HE. cbn [app] in HE. rewrite HE.
        cbn [app length]. do 2 f_equal. f_equal. lia.
    + destruct (IH pre (mid ++ [x]) tl (S (length pre + length mid)) (length pre))
        as (mid' & HL & HE); [reflexivity| rewrite app_length; simpl; lia|].
      exists mid'. split; [rewrite app_length in HL; simpl in *; lia|].
      rewrite <- !app_assoc in HE. cbn [app] in HE. exact HE.
Qed.

(** With a companion array the loop is the loop without it on each array,
   where the companion is moved by the decisions taken on [vals]. *)
Lemma filter_loop_some {A : Type} (keep : A -> bool) : forall todo pre mid tl rtodo rpre rmid rtl i nf,
  nf = length pre -> i = length pre + length mid ->
  length rpre = length pre -> length rmid = length mid -> length rtodo = length todo ->
  exists mid' rmid' kept,
  length mid' = length rmid' /\
  length mid' + length kept = length mid + length todo /\
  kept = filter (fun p => keep (fst p)) (combine todo rtodo) /\
  filter_loop keep (length todo) i nf (pre ++ mid ++ todo ++ tl) (Some (rpre ++ rmid ++ rtodo ++ rtl))
  = Ret (nf + length kept, pre ++ map fst kept ++ mid' ++ tl,
         Some (rpre ++ map snd kept ++ rmid' ++ rtl)).
Proof.
  induction todo as [|x todo IH]; intros pre mid tl [|rx rtodo] rpre rmid rtl i nf -> -> Hp Hm Hr;
    try discriminate Hr.
  - exists mid, rmid, []. simpl. repeat split; auto. now rewrite Nat.add_0_r.
  - cbn [filter_loop length].
    assert (Hget : aget (pre ++ mid ++ (x :: todo) ++ tl) (length pre + length mid) = Ret x).
    { rewrite app_assoc. apply aget_middle. now rewrite app_length. }
    assert (Hget2 : aget (rpre ++ rmid ++ (rx :: rtodo) ++ rtl) (length pre + length mid) = Ret rx).
    { rewrite app_assoc. apply aget_middle. rewrite app_length. lia. }
    rewrite Hget. cbn [bind combine filter fst]. rewrite Hget2. cbn [bind].
    destruct (keep x) eqn:Hk.
    + destruct mid as [|y mid], rmid as [|ry rmid]; try discriminate Hm.
      * cbn [app length] in *. rewrite aset_middle by reflexivity. cbn [bind].
        rewrite aset_middle by congruence. cbn [bind].
        destruct (IH (pre ++ [x]) [] tl rtodo (rpre ++ [rx]) [] rtl (S (length pre + 0)) (S (length pre)))
          as (mid' & rmid' & kept & HL1 & HL2 & HK & HE);
          [rewrite ?app_length; simpl in *; lia..|].
        exists mid', rmid', ((x, rx) :: kept). split; [auto|]. split; [simpl in *; lia|].
        split; [now rewrite HK|].
        cbn [app] in HE. rewrite <- !app_assoc in HE. cbn [app] in HE. rewrite HE.
        cbn [app length map fst snd]. do 2 f_equal. f_equal. lia.
      * cbn [app length] in *. rewrite aset_middle by reflexivity. cbn [bind].
        rewrite aset_middle by congruence. cbn [bind].
        destruct (IH (pre ++ [x]) (mid ++ [x]) tl rtodo (rpre ++ [rx]) (rmid ++ [rx]) rtl
                     (S (length pre + S (length mid))) (S (length pre)))
          as (mid' & rmid' & kept & HL1 & HL2 & HK & HE);
          [rewrite ?app_length; simpl in *; lia..|].
        exists mid', rmid', ((x, rx) :: kept). split; [auto|].
        split; [rewrite ?app_length in *; simpl in *; lia|].
        split; [now rewrite HK|].
        rewrite <- !app_assoc in HE. cbn [app] in HE. rewrite HE.
        cbn [app length map fst snd]. do 2 f_equal. f_equal. lia.
    + destruct (IH pre (mid ++ [x]) tl rtodo rpre (rmid ++ [rx]) rtl (S (length pre + length mid)) (length pre))
        as (mid' & rmid' & kept & HL1 & HL2 & HK & HE);
        [rewrite ?app_length; simpl in *; lia..|].
      exists mid', rmid', kept. split; [auto|].
      split; [rewrite ?app_length in *; simpl in *; lia|]. split; [exact HK|].
      rewrite <- !app_assoc in HE. cbn [app] in HE. exact HE.
Qed.

(** What the caller sees, without a companion array. *)
Lemma run_filter_none keep n vals :
  n <= length vals ->
  exists vals',
    run_filter keep {| fs_N := Some n; fs_vals := Some vals; fs_re := None |}
    = Ret (SUCCESS, {| fs_N := Some (length (filter keep (firstn n vals)));
                       fs_vals := Some vals'; fs_re := None |})
    /\ length vals' = length vals
    /\ firstn (length (filter keep (firstn n vals))) vals' = filter keep (firstn n vals)
    /\ skipn n vals' = skipn n vals.
Proof.
  intros Hn. unfold run_filter. cbn [fs_N fs_vals fs_re].
  destruct (filter_loop_none keep (firstn n vals) [] [] (skipn n vals) 0 0 eq_refl eq_refl)
    as (mid' & HL & HE).
  cbn [app length] in HE. rewrite firstn_skipn, firstn_length_le in HE by exact Hn.
  rewrite HE. cbn [bind].
  exists (filter keep (firstn n vals) ++ mid' ++ skipn n vals).
  split; [reflexivity|]. rewrite firstn_length_le in HL by exact Hn. simpl in HL.
  split; [rewrite !app_length, skipn_length; lia|].
  split; [rewrite firstn_app, Nat.sub_diag, firstn_all; now rewrite app_nil_r|].
  rewrite app_assoc, skipn_app.
  rewrite skipn_all2 by (rewrite app_length; lia).
  rewrite app_length. replace (n - _) with 0 by lia. reflexivity.
Qed.

(** ... and with one: the pairs (vals[i], rearrange_as_well[i]) are filtered. *)
Lemma run_filter_some keep n vals re :
  n <= length vals -> n <= length re ->
  let kept := filter (fun p => keep (fst p)) (combine (firstn n vals) (firstn n re)) in
  exists vals' re',
    run_filter keep {| fs_N := Some n; fs_vals := Some vals; fs_re := Some re |}
    = Ret (SUCCESS, {| fs_N := Some (length kept);
                       fs_vals := Some vals'; fs_re := Some re' |})
    /\ length vals' = length vals /\ length re' = length re
    /\ firstn (length kept) vals' = map fst kept
    /\ firstn (length kept) re' = map snd kept
    /\ skipn n vals' = skipn n vals /\ skipn n re' = skipn n re.
Proof.
  intros Hn Hr kept. unfold run_filter. cbn [fs_N fs_vals fs_re].
  destruct (filter_loop_some keep (firstn n vals) [] [] (skipn n vals)
     (firstn n re) [] [] (skipn n re) 0 0 eq_refl eq_refl eq_refl eq_refl)
    as (mid' & rmid' & kept' & HL1 & HL2 & HK & HE);
    [rewrite !firstn_length_le by assumption; reflexivity|].
  fold kept in HK. subst kept'.
  cbn [app length] in HE. rewrite !firstn_skipn, firstn_length_le in HE by assumption.
  rewrite HE. cbn [bind].
  exists (map fst kept ++ mid' ++ skipn n vals), (map snd kept ++ rmid' ++ skipn n re).
  split; [reflexivity|]. rewrite firstn_length_le in HL2 by exact Hn. simpl in HL2.
  split; [rewrite !app_length, map_length, skipn_length; lia|].
  split; [rewrite !app_length, map_length, skipn_length; lia|].
  split; [rewrite firstn_app, map_length, Nat.sub_diag; simpl;
          rewrite app_nil_r; apply firstn_all2; now rewrite map_length|].
  split; [rewrite firstn_app, map_length, Nat.sub_diag; simpl;
          rewrite app_nil_r; apply firstn_all2; now rewrite map_length|].
  split.
  - rewrite app_assoc, skipn_app.
    rewrite skipn_all2 by (rewrite app_length, map_length; lia).
    rewrite app_length, map_length. replace (n - _) with 0 by lia. reflexivity.
  - rewrite app_assoc, skipn_app.
    rewrite skipn_all2 by (rewrite app_length, map_length; lia).
    rewrite app_length, map_length. replace (n - _) with 0 by lia. reflexivity.
Qed.

(** ** Merge *)
Section MergeProof.
  Context {A : Type} (near : A -> A -> bool).

  Lemma merge_inner_spec : forall n j vi pre rest,
    j = length pre -> n <= length rest ->
    merge_inner near n j vi (pre ++ rest) = Ret (existsb (fun v => near v vi) (firstn n rest)).
  Proof.
    induction n as [|n IH]; intros j vi pre rest -> Hn; [reflexivity|].
    destruct rest as [|x rest]; [simpl in Hn; lia|].
    cbn [merge_inner]. rewrite aget_middle by reflexivity. cbn [bind firstn existsb].
    destruct (near x vi); [reflexivity|]. cbn [orb].
    specialize (IH (S (length pre)) vi (pre ++ [x]) rest).
    rewrite <- app_assoc in IH. cbn [app] in IH. apply IH; [rewrite app_length; simpl; lia|simpl in *; lia].
  Qed.

  (** pairwise separated, in order *)
  Definition separated (l : list A) : Prop :=
    forall i j a b, i < j -> nth_error l i = Some a -> nth_error l j = Some b -> near a b = false.

  (** [linked orig S x]: [x] is joined to some element of S by a chain of
     elements of orig with [near] steps (earlier element first). *)
  Inductive linked (orig S : list A) : A -> Prop :=
  | linked_in x : In x S -> linked orig S x
  | linked_step x y : linked orig S y -> In y orig -> near y x = true -> linked orig S x.

  (** l1 is a sub-sequence of l2 *)
  Inductive subseq : list A -> list A -> Prop :=
  | sub_nil l : subseq [] l
  | sub_take x l1 l2 : subseq l1 l2 -> subseq (x :: l1) (x :: l2)
  | sub_drop x l1 l2 : subseq l1 l2 -> subseq l1 (x :: l2).

  Lemma subseq_snoc_take l1 l2 x : subseq l1 l2 -> subseq (l1 ++ [x]) (l2 ++ [x]).
  Proof.
    induction 1 as [l| |]; simpl.
    - induction l; simpl; [apply sub_take; constructor|now apply sub_drop].
    - now apply sub_take.
    - now apply sub_drop.
  Qed.
  Lemma subseq_snoc_drop l1 l2 x : subseq l1 l2 -> subseq l1 (l2 ++ [x]).
  Proof.
    induction 1; simpl; [constructor|now apply sub_take|now apply sub_drop].
  Qed.

  Lemma separated_snoc l x :
    separated l -> existsb (fun v => near v x) l = false -> separated (l ++ [x]).
  Proof.
    intros Hs He i j a b Hij Ha Hb.
    destruct (Nat.lt_ge_cases j (length l)) as [Hj|Hj].
    - rewrite nth_error_app1 in Ha by lia. rewrite nth_error_app1 in Hb by lia. eauto.
    - assert (j = length l).
      { assert (j < length (l ++ [x])) by (apply nth_error_Some; congruence).
        rewrite app_length in H; simpl in H; lia. }
      subst j. rewrite nth_error_app2, Nat.sub_diag in Hb by lia. simpl in Hb. injection Hb as <-.
      rewrite nth_error_app1 in Ha by lia.
      apply nth_error_In in Ha.
      destruct (near a x) eqn:E; [|reflexivity].
      assert (existsb (fun v => near v x) l = true) by (apply existsb_exists; eauto). congruence.
  Qed.

  Lemma linked_mono orig orig' S S' x :
    incl orig orig' -> incl S S' -> linked orig S x -> linked orig' S' x.
  Proof.
    intros H1 H2. induction 1; [apply linked_in; auto|].
    eapply linked_step; eauto.
  Qed.

  Lemma incl_app_l (l1 l2 : list A) : incl l1 (l1 ++ l2).
  Proof. intros x Hx. apply in_or_app. auto. Qed.

  (** loop invariant: pre = survivors of [done], mid = a suffix part of done *)
  Lemma merge_loop_spec : forall todo done pre mid tl,
    separated pre -> subseq pre done -> (forall x, In x mid -> In x done) ->
    (forall x, In x done -> linked done pre x) ->
    exists kept mid',
      merge_loop near (length todo) (length pre + length mid) (length pre)
        (pre ++ mid ++ todo ++ tl)
      = Ret (length (pre ++ kept), (pre ++ kept) ++ mid' ++ tl)
      /\ length (kept ++ mid') = length (mid ++ todo)
      /\ separated (pre ++ kept) /\ subseq (pre ++ kept) (done ++ todo)
      /\ (forall x, In x (done ++ todo) -> linked (done ++ todo) (pre ++ kept) x).
  Proof.
    induction todo as [|x todo IH]; intros dn pre mid tl Hsep Hsub Hmid Hlink.
    - exists [], mid. cbn [length merge_loop app]. rewrite !app_nil_r. auto.
    - cbn [merge_loop length].
      assert (Hget : aget (pre ++ mid ++ (x :: todo) ++ tl) (length pre + length mid) = Ret x).
      { rewrite app_assoc. apply aget_middle. now rewrite app_length. }
      rewrite Hget. cbn [bind].
      rewrite (merge_inner_spec _ 0 x [] (pre ++ mid ++ (x :: todo) ++ tl)) by
        (rewrite ?app_length; simpl; lia).
      assert (Hfn : firstn (length pre + length mid) (pre ++ mid ++ (x :: todo) ++ tl) = pre ++ mid).
      { rewrite <- (app_length pre mid), app_assoc, firstn_app, Nat.sub_diag, firstn_all.
        apply app_nil_r. }
      rewrite Hfn.
      cbn [bind].
      destruct (existsb (fun v => near v x) (pre ++ mid)) eqn:Hex.
      + (* dropped *)
        destruct (IH (dn ++ [x]) pre (mid ++ [x]) tl) as (kept & mid' & HE & HL & H1 & H2 & H3).
        * exact Hsep.
        * now apply subseq_snoc_drop.
        * intros y Hy. apply in_app_iff in Hy. apply in_app_iff.
          destruct Hy as [Hy|Hy]; [left; auto|right; auto].
        * intros y Hy. apply in_app_iff in Hy. destruct Hy as [Hy|[<-|[]]].
          -- eapply linked_mono; [apply incl_app_l|apply incl_refl|auto].
          -- apply existsb_exists in Hex. destruct Hex as (v & Hv & Hn).
             assert (Hvd : In v dn).
             { apply in_app_iff in Hv. destruct Hv as [Hv|Hv]; [|auto].
               clear -Hsub Hv. induction Hsub; simpl in *; [easy|intuition|intuition]. }
             eapply linked_step; [|apply in_app_iff; left; exact Hvd|exact Hn].
             eapply linked_mono; [apply incl_app_l|apply incl_refl|auto].
        * exists kept, mid'.
          rewrite app_length in HE. cbn [length] in HE.
          replace (length pre + (length mid + 1)) with (S (length pre + length mid)) in HE by lia.
          rewrite <- !app_assoc in *. cbn [app] in *.
          repeat split; auto.
      + (* kept *)
        assert (Hset : exists mid1, aset (pre ++ mid ++ (x :: todo) ++ tl) (length pre) x
                  = Ret ((pre ++ [x]) ++ mid1 ++ todo ++ tl) /\ length mid1 = length mid
                  /\ forall y, In y mid1 -> In y (mid ++ [x])).
        { destruct mid as [|y mid].
          - exists []. cbn [app]. rewrite aset_middle by reflexivity.
            rewrite <- app_assoc. cbn [app]. repeat split. intros z [].
          - exists (mid ++ [x]). cbn [app]. rewrite aset_middle by reflexivity.
            rewrite <- !app_assoc. cbn [app length]. repeat split; auto.
            + rewrite app_length; simpl; lia.
            + intros z Hz. right. exact Hz. }
        destruct Hset as (mid1 & Hset & HLm & Hm1). rewrite Hset. cbn [bind].
        rewrite existsb_app in Hex. apply orb_false_iff in Hex. destruct Hex as [Hex1 _].
        destruct (IH (dn ++ [x]) (pre ++ [x]) mid1 tl) as (kept & mid' & HE & HL & H1 & H2 & H3).
        * now apply separated_snoc.
        * now apply subseq_snoc_take.
        * intros y Hy. apply Hm1 in Hy. apply in_app_iff in Hy. apply in_app_iff.
          destruct Hy as [Hy|Hy]; [left; auto|right; auto].
        * intros y Hy. apply in_app_iff in Hy. destruct Hy as [Hy|[<-|[]]].
          -- eapply linked_mono; [apply incl_app_l|apply incl_app_l|auto].
          -- apply linked_in. apply in_app_iff. right. now left.
        * exists (x :: kept), mid'.
          rewrite app_length in HE. cbn [length] in HE.
          replace (length pre + 1 + length mid1) with (S (length pre + length mid)) in HE by lia.
          replace (length pre + 1) with (S (length pre)) in HE by lia.
          rewrite <- !app_assoc in *. cbn [app] in *.
          repeat split; auto. cbn [length]. rewrite HL, !app_length. simpl. lia.
  Qed.

  Lemma misc_merge_spec n l :
    0 < n <= length l ->
    exists m vals', misc_merge near (Some n) (Some l) false = Ret (SUCCESS, Some m, Some vals')
      /\ 0 < m <= n /\ length vals' = length l /\ skipn n vals' = skipn n l
      /\ nth_error vals' 0 = nth_error l 0
      /\ subseq (firstn m vals') (firstn n l)
      /\ separated (firstn m vals')
      /\ (forall x, In x (firstn n l) -> linked (firstn n l) (firstn m vals') x).
  Proof.
    intros Hn. destruct n as [|n]; [lia|]. destruct l as [|x l]; [simpl in Hn; lia|].
    cbn [misc_merge]. simpl in Hn.
    destruct (merge_loop_spec (firstn n l) [x] [x] [] (skipn n l)) as (kept & mid' & HE & HL & H1 & H2 & H3).
    - intros i j a b Hij Ha Hb. destruct j as [|j]; [lia|]. destruct j; discriminate.
    - apply sub_take; constructor.
    - easy.
    - intros y Hy. now apply linked_in.
    - cbn [app length Nat.add] in HE. rewrite firstn_skipn, firstn_length_le in HE by lia.
      rewrite HE. cbn [bind fst snd].
      cbn [app] in HL. rewrite app_length, firstn_length_le in HL by lia.
      assert (EF : firstn (S (length kept)) (x :: (kept ++ mid' ++ skipn n l)) = x :: kept).
      { cbn [firstn]. f_equal. rewrite firstn_app, Nat.sub_diag, firstn_all. apply app_nil_r. }
      exists (S (length kept)), (x :: (kept ++ mid' ++ skipn n l)).
      cbn [app] in *.
      split; [reflexivity|]. split; [lia|].
      split; [cbn [length]; rewrite !app_length, skipn_length; lia|].
      split; [|split; [reflexivity|]].
      + cbn [skipn]. rewrite app_assoc, skipn_app, skipn_all2 by (rewrite app_length; lia).
        rewrite app_length. replace (n - _) with 0 by lia. reflexivity.
      + rewrite EF. cbn [firstn] in *. auto.
  Qed.
End MergeProof.

(** ** Downsampling *)
Lemma downsample_sizes_spec D Dsub :
  2 < D ->
  exists nskip m, downsample_sizes D Dsub = Ret (nskip, m)
    /\ 1 <= nskip <= D /\ 2 <= m /\ (m - 1) * nskip < D
    /\ 2 * m * nskip <= 2 * D + nskip /\ 2 * D < 2 * m * nskip + nskip.
Proof.
  intros HD. unfold downsample_sizes.
  set (d1 := if Dsub <? 2 then 2 else Dsub).
  set (d2 := if D <? d1 then D else d1).
  assert (H2 : 2 <= d2 <= D).
  { unfold d2, d1. destruct (Nat.ltb_spec Dsub 2) as [E1|E1];
    match goal with |- context [D <? ?x] => destruct (Nat.ltb_spec D x) as [E2|E2] end; lia. }
  clearbody d2. clear d1.
  unfold round_div.
  set (nskip := (2 * D + d2) / (2 * d2)).
  assert (Hn1 : 2 * d2 * nskip <= 2 * D + d2) by (unfold nskip; apply Nat.mul_div_le; lia).
  assert (Hn2 : 2 * D + d2 < 2 * d2 * S nskip) by (unfold nskip; apply Nat.mul_succ_div_gt; lia).
  assert (Hn : 1 <= nskip) by nia.
  destruct (Nat.eqb_spec nskip 0) as [Hz|_]; [lia|].
  set (m := (2 * D + nskip) / (2 * nskip)).
  assert (Hm1 : 2 * nskip * m <= 2 * D + nskip) by (unfold m; apply Nat.mul_div_le; lia).
  assert (Hm2 : 2 * D + nskip < 2 * nskip * S m) by (unfold m; apply Nat.mul_succ_div_gt; lia).
  exists nskip, m. split; [reflexivity|].
  clearbody nskip m.
  assert (Hns : 4 * nskip <= 2 * D + 2) by nia.
  assert (2 <= m).
  { destruct m as [|[|m]]; [nia| |lia].
    (* 2D + nskip < 4 nskip *)
    assert (2 * D < 3 * nskip) by lia. lia. }
  repeat split; try nia.
Qed.

Lemma downsample_loop_spec {A} (q : list A) (d : A) nskip : forall fuel i,
  (fuel = 0 \/ i + (fuel - 1) * nskip < length q) ->
  downsample_loop fuel i nskip q
  = Ret (tabulate fuel (fun k => nth (i + k * nskip) q d), i + fuel * nskip).
Proof.
  induction fuel as [|fuel IH]; intros i Hi.
  - cbn [downsample_loop]. rewrite Nat.mul_0_l, Nat.add_0_r. reflexivity.
  - destruct Hi as [Hi|Hi]; [lia|].
    cbn [downsample_loop]. rewrite (aget_nth q d) by nia. cbn [bind].
    rewrite IH by (destruct fuel; [left; reflexivity|right; nia]).
    cbn [bind fst snd]. f_equal. f_equal.
    + unfold tabulate. cbn [seq map]. f_equal; [f_equal; lia|].
      rewrite <- seq_shift, map_map. apply map_ext. intros k. f_equal. lia.
    + lia.
Qed.

Lemma misc_downsample_spec {A} (q : list A) (d : A) D Dsub :
  2 < D -> length q = D ->
  exists s m, misc_downsample D (Some q) Dsub false
    = Ret (inr {| ds_Dsub := m; ds_qsub := tabulate m (fun k => nth (k * s) q d);
                  ds_first := 0; ds_last := (m - 1) * s |})
    /\ 1 <= s /\ 2 <= m /\ (m - 1) * s < D
    /\ 2 * (D - 1 - (m - 1) * s) < 3 * s.
Proof.
  intros HD HL. unfold misc_downsample.
  destruct (Nat.leb_spec D 2) as [H|_]; [lia|].
  destruct (downsample_sizes_spec D Dsub HD) as (s & m & E & H1 & H2 & H3 & H4 & H5).
  rewrite E. cbn [bind].
  rewrite (downsample_loop_spec q d) by (right; lia).
  cbn [bind fst snd]. exists s, m.
  split.
  - cbn [Nat.add]. do 2 f_equal. f_equal. nia.
  - repeat split; nia.
Qed.

(** exact division: the requested size is met *)
Lemma downsample_sizes_exact D Dsub :
  2 < D -> 2 <= Dsub -> Dsub <= D -> (exists k, D = k * Dsub) ->
  downsample_sizes D Dsub = Ret (D / Dsub, Dsub).
Proof.
  intros HD H2 Hle (k & Hk). unfold downsample_sizes.
  destruct (Nat.ltb_spec Dsub 2) as [H|_]; [lia|].
  destruct (Nat.ltb_spec D Dsub) as [H|_]; [lia|].
  unfold round_div. subst D.
  assert (Hk1 : 1 <= k) by nia.
  replace ((2 * (k * Dsub) + Dsub) / (2 * Dsub)) with k.
  2:{ apply Nat.div_unique with (r := Dsub); nia. }
  rewrite Nat.div_mul by lia.
  destruct (Nat.eqb_spec k 0) as [H|_]; [lia|].
  do 2 f_equal. symmetry. apply Nat.div_unique with (r := k); nia.
Qed.

(** ** Next power of two *)
Local Open Scope Z_scope.

Lemma np2_loop_stuck fuel number : 0 < number -> np2_loop fuel 0 number = None.
Proof.
  induction fuel as [|fuel IH]; intros H; [reflexivity|].
  cbn [np2_loop]. destruct (Z.ltb_spec 0 number); [|lia]. apply IH. exact H.
Qed.

Lemma np2_loop_term : forall (k : nat) (e fuel : nat) number,
  (e + k <= 63)%nat -> (k < fuel)%nat ->
  2 ^ (Z.of_nat (e + k)) >= number -> (k = 0%nat \/ 2 ^ (Z.of_nat (e + k) - 1) < number) ->
  np2_loop fuel (2 ^ Z.of_nat e) number = Some (2 ^ Z.of_nat (e + k)).
Proof.
  induction k as [|k IH]; intros e fuel number He Hf H1 H2.
  - destruct fuel as [|fuel]; [lia|]. cbn [np2_loop].
    rewrite Nat.add_0_r in *. destruct (Z.ltb_spec (2 ^ Z.of_nat e) number); [lia|reflexivity].
  - destruct H2 as [H2|H2]; [lia|].
    destruct fuel as [|fuel]; [lia|]. cbn [np2_loop].
    assert (Hlt : 2 ^ Z.of_nat e <= 2 ^ (Z.of_nat (e + S k) - 1)) by (apply Z.pow_le_mono_r; lia).
    destruct (Z.ltb_spec (2 ^ Z.of_nat e) number) as [_|H]; [|lia].
    assert (Hdbl : (2 ^ Z.of_nat e * 2) mod UINT_MOD = 2 ^ Z.of_nat (S e)).
    { rewrite Nat2Z.inj_succ, Z.pow_succ_r by lia. rewrite Z.mul_comm.
      apply Z.mod_small. unfold UINT_MOD.
      assert (2 ^ Z.of_nat e <= 2 ^ 62) by (apply Z.pow_le_mono_r; lia).
      assert (0 < 2 ^ Z.of_nat e) by (apply Z.pow_pos_nonneg; lia).
      change (2 ^ 62) with 4611686018427387904 in *. lia. }
    rewrite Hdbl. replace (e + S k)%nat with (S e + k)%nat in * by lia.
    apply IH; try lia. 
Qed.

Lemma np2_spec number :
  1 <= number <= 2 ^ 63 ->
  exists k : nat, (k <= 63)%nat /\ misc_nextpowerof2 64 number = Some (2 ^ Z.of_nat k)
    /\ number <= 2 ^ Z.of_nat k
    /\ forall j : nat, number <= 2 ^ Z.of_nat j -> (k <= j)%nat.
Proof.
  intros Hn. set (k := Z.to_nat (Z.log2_up number)).
  assert (Hk0 : 0 <= Z.log2_up number) by apply Z.log2_up_nonneg.
  assert (Hk : (k <= 63)%nat).
  { assert (Z.log2_up number <= Z.log2_up (2 ^ 63)) by (apply Z.log2_up_le_mono; lia).
    rewrite Z.log2_up_pow2 in H by lia. unfold k. lia. }
  assert (Hub : number <= 2 ^ Z.of_nat k).
  { unfold k. rewrite Z2Nat.id by lia.
    destruct (Z.eq_dec number 1) as [->|H]; [simpl; lia|].
    apply Z.log2_log2_up_spec. lia. }
  assert (Hlb : forall j : nat, number <= 2 ^ Z.of_nat j -> (k <= j)%nat).
  { intros j Hj. unfold k. apply Z.log2_up_le_mono in Hj. rewrite Z.log2_up_pow2 in Hj by lia. lia. }
  exists k. split; [exact Hk|]. split; [|split; [exact Hub|exact Hlb]].
  unfold misc_nextpowerof2. destruct (Z.eqb_spec number 0); [lia|].
  change 1 with (2 ^ Z.of_nat 0). apply (np2_loop_term k 0 64 number); try lia.
  - cbn [Nat.add]. lia.
  - destruct k as [|k'] eqn:Ek; [left; reflexivity|]. right.
    cbn [Nat.add]. destruct (Z.le_gt_cases number (2 ^ (Z.of_nat (S k') - 1))) as [H|H]; [|exact H].
    replace (Z.of_nat (S k') - 1) with (Z.of_nat k') in H by lia.
    apply Hlb in H. lia.
Qed.

(** size_t inputs above 2^63: never terminates *)
Lemma np2_diverges_aux : forall (k : nat) fuel number,
  2 ^ 63 < number -> (k <= 63)%nat ->
  np2_loop fuel (2 ^ (63 - Z.of_nat k)) number = None.
Proof.
  induction k as [|k IH]; intros fuel number Hn Hk; destruct fuel as [|fuel]; try reflexivity;
    cbn [np2_loop].
  - change (2 ^ (63 - Z.of_nat 0)) with (2 ^ 63).
    destruct (Z.ltb_spec (2 ^ 63) number); [|lia].
    change ((2 ^ 63 * 2) mod UINT_MOD) with 0.
    apply np2_loop_stuck. lia.
  - assert (2 ^ (63 - Z.of_nat (S k)) <= 2 ^ 63) by (apply Z.pow_le_mono_r; lia).
    destruct (Z.ltb_spec (2 ^ (63 - Z.of_nat (S k))) number); [|lia].
    replace ((2 ^ (63 - Z.of_nat (S k)) * 2) mod UINT_MOD) with (2 ^ (63 - Z.of_nat k)).
    + apply IH; lia.
    + replace (63 - Z.of_nat k) with (Z.succ (63 - Z.of_nat (S k))) by lia.
      rewrite Z.pow_succ_r by lia. rewrite (Z.mul_comm 2). symmetry. apply Z.mod_small.
      assert (0 < 2 ^ (63 - Z.of_nat (S k))) by (apply Z.pow_pos_nonneg; lia).
      assert (2 ^ (63 - Z.of_nat (S k)) <= 2 ^ 62) by (apply Z.pow_le_mono_r; lia).
      unfold UINT_MOD. change (2 ^ 62) with 4611686018427387904 in *. lia.
Qed.

Lemma np2_diverges number fuel :
  2 ^ 63 < number < 2 ^ 64 -> misc_nextpowerof2 fuel number = None.
Proof.
  intros H. unfold misc_nextpowerof2. destruct (Z.eqb_spec number 0); [lia|].
  change 1 with (2 ^ (63 - Z.of_nat 63)). apply np2_diverges_aux; lia.
Qed.
