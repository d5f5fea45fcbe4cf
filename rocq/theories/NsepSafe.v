(** * fnft_nsep stays inside the arrays of the caller and filters (C67-C70): proofs, part 1 *)
From Coq Require Import Reals Lra.
From Coquelicot Require Import Coquelicot.
From Verif Require Import Loop MiscSpec MiscProof MiscProps PolyFmultProof DiscProps DiscPreProps NsevSpec NsevProps NsevSafe NsevSafe2 NsevSafe3 NsevSafe5 NsevEnv NsepSpec NsepNewton.
Local Open Scope C_scope.

(** ** Parts of arrays *)
Section Seg.
Context {A : Type}.
(** entries outside off, ..., off+n-1 have not been touched *)
Definition seg (off n : nat) (l l' : list A) : Prop :=
  length l' = length l /\ forall i, (i < off \/ off + n <= i)%nat -> nth_error l' i = nth_error l i.
Definition seg_opt (off n : nat) (l l' : option (list A)) : Prop :=
  match l, l' with Some l, Some l' => seg off n l l' | None, None => True | _, _ => False end.
Definition all_in (P : A -> Prop) (off n : nat) (l : list A) : Prop :=
  forall i z, (off <= i < off + n)%nat -> nth_error l i = Some z -> P z.
Lemma seg_refl off n l : seg off n l l. Proof. split; auto. Qed.
Lemma seg_trans off n l l' l'' : seg off n l l' -> seg off n l' l'' -> seg off n l l''.
Proof. intros [A1 A2] [B1 B2]. split; [congruence|]. intros i Hi. rewrite B2, A2; auto. Qed.
Lemma seg_mono off n off' n' l l' : (off' <= off)%nat -> (off + n <= off' + n')%nat -> seg off n l l' -> seg off' n' l l'.
Proof. intros H1 H2 [A1 A2]. split; [exact A1|]. intros i Hi. apply A2. lia. Qed.
Lemma seg_length off n l l' : seg off n l l' -> length l' = length l. Proof. now intros []. Qed.
Lemma seg_kept n l l' : seg 0 n l l' <-> kept n l l'.
Proof. unfold seg, kept. split; intros [H1 H2]; (split; [exact H1|]); intros i Hi; apply H2; lia. Qed.
Lemma aset_seg l i x : (i < length l)%nat -> exists l', aset l i x = Ret l' /\ seg i 1 l l' /\ nth_error l' i = Some x.
Proof.
  intros H. rewrite aset_upd by exact H. eexists. split; [reflexivity|]. split.
  - split; [apply upd_length|]. intros j Hj. apply nth_error_upd_other. lia.
  - rewrite (nth_error_nth' _ x) by (rewrite upd_length; exact H). rewrite nth_upd by exact H. now rewrite Nat.eqb_refl.
Qed.
Lemma seg_opt_refl off n l : seg_opt off n l l.
Proof. destruct l; cbn; [apply seg_refl|exact I]. Qed.
Lemma seg_opt_trans off n l l' l'' : seg_opt off n l l' -> seg_opt off n l' l'' -> seg_opt off n l l''.
Proof. destruct l, l', l''; cbn; try tauto. apply seg_trans. Qed.
Lemma seg_opt_mono off n off' n' l l' : (off' <= off)%nat -> (off + n <= off' + n')%nat -> seg_opt off n l l' -> seg_opt off' n' l l'.
Proof. destruct l, l'; cbn; try tauto. apply seg_mono. Qed.
Lemma seg_opt_kept n l l' : seg_opt 0 n l l' <-> kept_opt n l l'.
Proof. destruct l, l'; cbn; try tauto. apply seg_kept. Qed.
Lemma seg_opt_some off n l l' : seg_opt off n l l' -> (l' = None <-> l = None).
Proof. destruct l, l'; cbn; try tauto. intros _. split; discriminate. Qed.
Lemma all_in_seg P off n m k l l' : seg m k l l' -> (off + n <= m \/ m + k <= off)%nat -> all_in P off n l -> all_in P off n l'.
Proof. intros [_ H] Hd Hl i z Hi Hz. apply (Hl i z Hi). rewrite <- Hz. symmetry. apply H. lia. Qed.
Lemma all_in_app P off n m l : all_in P off n l -> all_in P (off + n) m l -> all_in P off (n + m) l.
Proof. intros H1 H2 i z Hi Hz. destruct (Nat.lt_ge_cases i (off + n)); [apply (H1 i z)|apply (H2 i z)]; auto; lia. Qed.
Lemma all_in_le P off n m l : (m <= n)%nat -> all_in P off n l -> all_in P off m l.
Proof. intros H1 H2 i z Hi Hz. apply (H2 i z); [lia|exact Hz]. Qed.
Lemma all_in_impl (P Q : A -> Prop) off n l : (forall z, P z -> Q z) -> all_in P off n l -> all_in Q off n l.
Proof. intros H1 H2 i z Hi Hz. apply H1. now apply (H2 i z). Qed.
End Seg.

Lemma copy_seg n off (src dst : list C) : (n <= length src)%nat -> (off + n <= length dst)%nat ->
  exists l, copy n off src dst = Ret l /\ seg off n dst l /\ forall i, (i < n)%nat -> nth_error l (off + i) = nth_error src i.
Proof.
  intros H1 H2. unfold copy.
  destruct (for_inv (fun k l => seg off n dst l /\ forall i, (i < k)%nat -> nth_error l (off + i) = nth_error src i)
    (fun i dst => x <- aget src i ;; aset dst (off + i) x) n 0 dst) as (l & El & Hl & Hv).
  { split; [apply seg_refl|]. lia. }
  { intros i l Hi [Hl Hv]. pose proof (seg_length _ _ _ _ Hl) as Ll.
    destruct (aget_ex src i ltac:(lia)) as (x & Ex). rewrite Ex. cbn [bind].
    destruct (aset_seg l (off + i) x) as (l' & El' & Hs & Hx); [lia|]. exists l'. split; [exact El'|]. split.
    - eapply seg_trans; [exact Hl|]. eapply seg_mono; [| |exact Hs]; lia.
    - intros j Hj. destruct (Nat.eq_dec j i) as [->|N].
      + rewrite Hx. rewrite (aget_nth src x) in Ex by lia. injection Ex as Ex. rewrite (nth_error_nth' src x) by lia. now rewrite Ex.
      + destruct Hs as [_ Hs]. rewrite Hs by lia. apply Hv. lia. }
  exists l. auto.
Qed.
Lemma copy_all_in P n off (src dst : list C) : (n <= length src)%nat -> (off + n <= length dst)%nat -> all_in P 0 n src ->
  exists l, copy n off src dst = Ret l /\ seg off n dst l /\ all_in P off n l.
Proof.
  intros H1 H2 HP. destruct (copy_seg n off src dst H1 H2) as (l & El & Hs & Hv). exists l. split; [exact El|]. split; [exact Hs|].
  intros i z Hi Hz. apply (HP (i - off)%nat z); [lia|]. rewrite <- Hv by lia. now replace (off + (i - off))%nat with i by lia.
Qed.

(** ** The filters *)
Definition passes (o : popts) (z : C) : Prop := match p_filt o with PF_NONE => True | _ => within (p_box o) z end.
Lemma box_keep_within bb z : box_keep bb z = true <-> within bb z.
Proof. unfold box_keep, within. destruct (xle (x0 bb) _), (xle _ (x1 bb)), (xle (x2 bb) _), (xle _ (x3 bb)); cbn; intuition discriminate. Qed.

Lemma filtered_all_in (keep : C -> bool) K vals tl : (K <= length vals)%nat ->
  let v := filter keep (firstn K vals) ++ tl in let K' := length (filter keep (firstn K vals)) in
  all_in (fun z => keep z = true) 0 K' v /\ forall P, all_in P 0 K vals -> all_in P 0 K' v.
Proof.
  intros HK v K'. assert (H : forall i z, (i < K')%nat -> nth_error v i = Some z -> keep z = true /\ In z (firstn K vals)).
  { intros i z Hi Hz. unfold v in Hz. rewrite nth_error_app1 in Hz by exact Hi. apply nth_error_In in Hz. apply filter_In in Hz. tauto. }
  split.
  - intros i z Hi Hz. apply (H i z); [lia|exact Hz].
  - intros P HP i z Hi Hz. destruct (H i z) as [_ Hin]; [lia|exact Hz|]. apply In_nth_error in Hin. destruct Hin as (j & Hj).
    assert (Hjl : (j < K)%nat). { assert (Hn : nth_error (firstn K vals) j <> None) by congruence. apply nth_error_Some in Hn. rewrite firstn_length_le in Hn by exact HK. exact Hn. }
    apply (HP j z); [lia|]. rewrite <- Hj. rewrite <- (firstn_skipn K vals) at 1. rewrite nth_error_app1 by (rewrite firstn_length_le; lia). reflexivity.
Qed.
Lemma pfilter_safe o K vals : (K <= length vals)%nat ->
  exists c K' v, pfilter o K vals = Ret (c, K', v) /\ ok_code c /\ (K' <= K)%nat /\ kept K vals v
    /\ (c = SUCCESS -> all_in (passes o) 0 K' v /\ forall P, all_in P 0 K vals -> all_in P 0 K' v).
Proof.
  intros HK. unfold pfilter, passes.
  assert (HN : exists c K' v, Ret (SUCCESS, K, vals) = Ret (c, K', v) /\ ok_code c /\ (K' <= K)%nat /\ kept K vals v
    /\ (c = SUCCESS -> all_in (fun _ => True) 0 K' v /\ forall P, all_in P 0 K vals -> all_in P 0 K' v)).
  { eexists _, _, _. split; [reflexivity|]. split; [codes|]. split; [lia|]. split; [apply kept_refl|]. intros _. split; [now intros i z|auto]. }
  assert (HF : exists c K' v, cfilter K vals (p_box o) = Ret (c, K', v) /\ ok_code c /\ (K' <= K)%nat /\ kept K vals v
    /\ (c = SUCCESS -> all_in (within (p_box o)) 0 K' v /\ forall P, all_in P 0 K vals -> all_in P 0 K' v)).
  { destruct (cfilter_safe K vals (p_box o) HK) as (c & K' & v & E & Hc & HK' & Hk & Hs). eexists _, _, _. split; [exact E|]. split; [exact Hc|]. split; [exact HK'|]. split; [exact Hk|].
    intros H. destruct (Hs H) as (tl & -> & ->). destruct (filtered_all_in (box_keep (p_box o)) K vals tl HK) as [H1 H2]. split; [|exact H2].
    eapply all_in_impl; [|exact H1]. intros z. apply box_keep_within. }
  destruct (p_filt o); [exact HN|exact HF..].
Qed.
Lemma pfilter_real_safe skip tol K vals : (K <= length vals)%nat ->
  exists c K' v, pfilter_real skip tol K vals = Ret (c, K', v) /\ ok_code c /\ (K' <= K)%nat /\ kept K vals v
    /\ (c = SUCCESS -> forall P, all_in P 0 K vals -> all_in P 0 K' v).
Proof.
  intros HK. unfold pfilter_real, cfilter_nonreal.
  assert (HN : forall c0, ok_code c0 -> exists c K' v, Ret (c0, K, vals) = Ret (c, K', v) /\ ok_code c /\ (K' <= K)%nat /\ kept K vals v
    /\ (c = SUCCESS -> forall P, all_in P 0 K vals -> all_in P 0 K' v)).
  { intros c0 H0. eexists _, _, _. split; [reflexivity|]. split; [exact H0|]. split; [lia|]. split; [apply kept_refl|auto]. }
  destruct skip; [|apply HN; codes]. destruct (negb _); [apply HN; codes|].
  destruct (filter_loop_none (im_keep tol) (firstn K vals) [] [] (skipn K vals) 0 0 eq_refl eq_refl) as (mid & HL & HF).
  cbn [app length] in HL, HF. rewrite firstn_skipn, firstn_length_le in HF by exact HK. rewrite HF. cbn [bind].
  rewrite firstn_length_le in HL by exact HK.
  eexists _, _, _. split; [reflexivity|]. split; [codes|]. split; [lia|]. split.
  - apply kept_skipn.
    + rewrite !app_length, skipn_length. lia.
    + rewrite app_assoc, skipn_app, skipn_all2 by (rewrite app_length; lia). rewrite app_length. replace (K - _)%nat with O by lia. reflexivity.
  - intros _. cbn [Nat.add]. apply (filtered_all_in (im_keep tol) K vals (mid ++ skipn K vals) HK).
Qed.

(** ** Refinement *)
Definition safe_f (F : C -> out (Z + C * C)) : Prop := forall x, exists r, F x = Ret r /\ match r with inl c => ok_code c | inr _ => True end.
Lemma main_f_safe E s D q r h kappa d norm rhs : penv_ok E -> (2 <= D)%nat -> length q = D -> length r = D -> (0 < h)%R ->
  safe_f (main_f E s D q r h kappa d norm rhs).
Proof.
  intros HE HD Lq Lr Hh x. unfold main_f. destruct (kp_mono E HE s D q r h kappa x norm d HD Lq Lr Hh) as (c & M & W & -> & Hc & LM). cbn [bind].
  destruct (Z.eqb_spec c SUCCESS) as [_|_]; cbn [negb].
  - do 9 (destruct M as [|? M]; try discriminate LM). cbn [aget nth_error bind]. eexists. split; [reflexivity|exact I].
  - rewrite E_SUB_ok by exact Hc. cbn [bind]. eexists. split; [reflexivity|]. now apply ok_neg.
Qed.
Lemma aux_f_safe E s D q r h kappa d norm : penv_ok E -> (2 <= D)%nat -> length q = D -> length r = D -> (0 < h)%R ->
  safe_f (aux_f E s D q r h kappa d norm).
Proof.
  intros HE HD Lq Lr Hh x. unfold aux_f. destruct (kp_mono E HE s D q r h kappa x norm d HD Lq Lr Hh) as (c & M & W & -> & Hc & LM). cbn [bind].
  destruct (Z.eqb_spec c SUCCESS) as [_|_]; cbn [negb].
  - do 9 (destruct M as [|? M]; try discriminate LM). cbn [aget nth_error bind]. eexists. split; [reflexivity|exact I].
  - rewrite E_SUB_ok by exact Hc. cbn [bind]. eexists. split; [reflexivity|]. now apply ok_neg.
Qed.
Lemma try_steps_safe F tol : safe_f F -> forall cnt m lam incr ma best nf nfp,
  exists y, try_steps F cnt m lam incr tol ma best nf nfp = Ret y /\ match y with inl (c, _) => ok_code c | inr (_, n) => (cnt <> O -> 1 <= n)%nat end.
Proof.
  intros HF. induction cnt as [|k IH]; intros m lam incr ma best nf nfp; cbn [try_steps].
  - eexists. split; [reflexivity|]. congruence.
  - destruct (HF (lam - RtoC (INR m) * incr)) as (r & -> & Hr). cbn [bind]. destruct r as [c|[f fp]].
    + eexists. split; [reflexivity|exact Hr].
    + assert (H : forall a b c d, exists y, (y0 <- try_steps F k (S m) lam incr tol a b c d ;;
          Ret (match y0 with inl (c, n) => inl (c, S n) | inr (b, g, gp, n) => inr (b, g, gp, S n) end)) = Ret y
          /\ match y with inl (c, _) => ok_code c | inr (_, n) => (S k <> O -> 1 <= n)%nat end).
      { intros a b c d. destruct (IH (S m) lam incr a b c d) as (y & -> & Hy). cbn [bind]. eexists. split; [reflexivity|].
        destruct y as [[? ?]|[[[? ?] ?] ?]]; [exact Hy|lia]. }
      match goal with |- context [if ?b then _ else _] => destruct b end; [|apply H].
      destruct (xlt _ tol); [|apply H]. eexists. split; [reflexivity|]. intros _; apply Nat.le_refl.
Qed.
Lemma main_loop_safe F tol bb : safe_f F -> forall fuel nevals max_evals lam fv fp, (max_evals < fuel + nevals)%nat ->
  exists c y n, main_loop F fuel nevals max_evals tol bb lam fv fp = Ret (c, y, n) /\ ok_code c.
Proof.
  intros HF. induction fuel as [|fuel IH]; intros nevals max_evals lam fv fp Hf; cbn [main_loop].
  - destruct (Nat.leb_spec nevals max_evals); [lia|]. eexists _, _, _. split; [reflexivity|codes].
  - destruct (Nat.leb_spec nevals max_evals); cbn [negb]; [|eexists _, _, _; split; [reflexivity|codes]].
    destruct (ceq fp 0); [eexists _, _, _; split; [reflexivity|codes]|].
    destruct (try_steps_safe F tol HF 2 1 lam (fv / fp) None 1 fv fp) as (y & -> & Hy). cbn [bind].
    destruct y as [[c n]|[[[best nf] nfp] n]]; [eexists _, _, _; split; [reflexivity|exact Hy]|].
    destruct (_ || _).
    + destruct (ceq nfp 0); eexists _, _, _; (split; [reflexivity|codes]).
    + destruct (negb _); [eexists _, _, _; split; [reflexivity|codes]|].
      match goal with |- context [main_loop F fuel ?a ?b tol bb ?l ?u ?v] => destruct (IH a b l u v) as (c & z & k & -> & Hc) end.
      { assert (2 <> 0)%nat by lia. specialize (Hy H0). lia. }
      cbn [bind]. eexists _, _, _. split; [reflexivity|exact Hc].
Qed.
Definition safe_one (one : C -> out (Z * C * nat)) : Prop := forall x, exists c y n, one x = Ret (c, y, n) /\ ok_code c.
Lemma main_point_safe F max_evals tol bb : safe_f F -> safe_one (refine_main_point F max_evals tol bb).
Proof.
  intros HF x. unfold refine_main_point. destruct (HF x) as (r & -> & Hr). cbn [bind]. destruct r as [c|[fv fp]].
  - eexists _, _, _. split; [reflexivity|exact Hr].
  - destruct (main_loop_safe F tol bb HF max_evals 1 max_evals x fv fp) as (c & y & n & -> & Hc); [lia|]. cbn [bind]. eexists _, _, _. split; [reflexivity|exact Hc].
Qed.
Lemma aux_point_safe F tol bb : safe_f F -> forall max_evals, safe_one (refine_aux_point F max_evals tol bb).
Proof.
  intros HF. induction max_evals as [|k IH]; intros x; cbn [refine_aux_point].
  - eexists _, _, _. split; [reflexivity|codes].
  - destruct (HF x) as (r & -> & Hr). cbn [bind]. destruct r as [c|[fv fp]]; [eexists _, _, _; split; [reflexivity|exact Hr]|].
    destruct (ceq fp 0); [eexists _, _, _; split; [reflexivity|codes]|]. destruct (_ || _); [eexists _, _, _; split; [reflexivity|codes]|].
    destruct (negb _); [eexists _, _, _; split; [reflexivity|codes]|].
    destruct (IH (x - fv / fp)) as (c & y & n & -> & Hc). cbn [bind]. eexists _, _, _. split; [reflexivity|exact Hc].
Qed.
Lemma refine_points_safe one : safe_one one -> forall cnt i arr, (i + cnt <= length arr)%nat ->
  exists c arr' ns, refine_points one cnt i arr = Ret (c, arr', ns) /\ ok_code c /\ seg i cnt arr arr'.
Proof.
  intros HO. induction cnt as [|k IH]; intros i arr Hi; cbn [refine_points].
  - eexists _, _, _. split; [reflexivity|]. split; [codes|apply seg_refl].
  - destruct (aget_ex arr i ltac:(lia)) as (x & Ex). rewrite Ex. cbn [bind]. destruct (HO x) as (c & y & n & -> & Hc). cbn [bind].
    destruct (aset_seg arr i y) as (arr1 & -> & Hs & _); [lia|]. cbn [bind].
    assert (Hs' : seg i (S k) arr arr1) by (eapply seg_mono; [| |exact Hs]; lia).
    destruct (negb _); [eexists _, _, _; split; [reflexivity|]; split; [exact Hc|exact Hs']|].
    destruct (IH (S i) arr1) as (c2 & arr2 & ns & -> & Hc2 & Hs2); [rewrite (seg_length _ _ _ _ Hs); lia|]. cbn [bind].
    eexists _, _, _. split; [reflexivity|]. split; [exact Hc2|]. eapply seg_trans; [exact Hs'|]. eapply seg_mono; [| |exact Hs2]; lia.
Qed.
Lemma refine_mainspec_safe E s D q r h K off arr me rhs tol kappa d bb norm : penv_ok E -> (2 <= D)%nat -> length q = D -> length r = D -> (0 < h)%R ->
  (off + K <= length arr)%nat ->
  exists c arr' ns, refine_mainspec E s D q r h K off arr me rhs tol kappa d bb norm = Ret (c, arr', ns) /\ ok_code c /\ seg off K arr arr'.
Proof.
  intros HE HD Lq Lr Hh HK. unfold refine_mainspec. destruct (Nat.eqb me 0).
  - eexists _, _, _. split; [reflexivity|]. split; [codes|apply seg_refl].
  - apply refine_points_safe; [|exact HK]. apply main_point_safe. now apply main_f_safe.
Qed.
Lemma refine_auxspec_safe E s D q r h K arr me tol kappa d bb norm : penv_ok E -> (2 <= D)%nat -> length q = D -> length r = D -> (0 < h)%R ->
  (K <= length arr)%nat ->
  exists c arr' ns, refine_auxspec E s D q r h K arr me tol kappa d bb norm = Ret (c, arr', ns) /\ ok_code c /\ seg 0 K arr arr'.
Proof.
  intros HE HD Lq Lr Hh HK. unfold refine_auxspec. destruct (Nat.eqb me 0).
  - eexists _, _, _. split; [reflexivity|]. split; [codes|apply seg_refl].
  - apply refine_points_safe; [|exact HK]. apply aux_point_safe. now apply aux_f_safe.
Qed.

(** ** Sizes *)
Lemma trace_poly_safe deg tm : (deg + 1 <= length tm)%nat -> exists p, trace_poly deg tm = Ret p /\ length p = (deg + 1)%nat.
Proof.
  intros H. unfold trace_poly.
  destruct (for_inv (fun i (p : list C) => length p = i) (fun i p => a <- aget tm i ;; b <- aget tm (deg - i) ;; Ret (p ++ [a + Cconj b])) (S deg) 0 []) as (p & Ep & Hp).
  { reflexivity. }
  { intros i p Hi Hp. destruct (aget_ex tm i ltac:(lia)) as (a & Ea). destruct (aget_ex tm (deg - i) ltac:(lia)) as (b & Eb). rewrite Ea, Eb. cbn [bind].
    eexists. split; [reflexivity|]. rewrite app_length. cbn. lia. }
  exists p. split; [exact Ep|lia].
Qed.
Lemma pow2_sizes k j : (1 <= k)%nat -> exists nskip m, downsample_sizes (2 ^ k) (2 ^ j) = Ret (nskip, m) /\ (1 <= nskip)%nat /\ (2 <= m)%nat /\ (m * nskip = 2 ^ k)%nat.
Proof.
  intros Hk. destruct (Nat.eq_dec k 1) as [->|N].
  { exists 1%nat, 2%nat. rewrite sizes_two. split; [reflexivity|]. cbn. lia. }
  assert (HD : (2 < 2 ^ k)%nat). { destruct k as [|[|k]]; [lia|lia|]. cbn. pose proof (Nat.pow_nonzero 2 k). lia. }
  assert (H : forall e, (1 <= e <= k)%nat -> (2 <= 2 ^ e)%nat /\ downsample_sizes (2 ^ k) (2 ^ e) = Ret (2 ^ (k - e), 2 ^ e)%nat).
  { intros e He. assert (H2 : (2 <= 2 ^ e)%nat) by (apply (Nat.pow_le_mono_r 2 1 e); lia). split; [exact H2|].
    assert (Ek : (2 ^ k = 2 ^ (k - e) * 2 ^ e)%nat) by (rewrite <- Nat.pow_add_r; f_equal; lia).
    rewrite downsample_sizes_exact; [|exact HD|exact H2|apply Nat.pow_le_mono_r; lia|eexists; exact Ek].
    rewrite Ek, Nat.div_mul by lia. reflexivity. }
  assert (Hc : forall x y, (if x <? 2 then 2 else x)%nat = (if y <? 2 then 2 else y)%nat -> downsample_sizes (2 ^ k) x = downsample_sizes (2 ^ k) y).
  { intros x y Hxy. unfold downsample_sizes. rewrite Hxy. reflexivity. }
  assert (Hg : forall e, (1 <= e <= k)%nat -> exists nskip m, downsample_sizes (2 ^ k) (2 ^ e) = Ret (nskip, m) /\ (1 <= nskip)%nat /\ (2 <= m)%nat /\ (m * nskip = 2 ^ k)%nat).
  { intros e He. destruct (H e He) as [H2 ->]. eexists _, _. split; [reflexivity|]. pose proof (Nat.pow_nonzero 2 (k - e)). split; [lia|]. split; [exact H2|].
    rewrite <- Nat.pow_add_r. f_equal. lia. }
  destruct (Nat.eq_dec j 0) as [->|Nj]. { rewrite (Hc (2 ^ 0) (2 ^ 1))%nat by reflexivity. apply Hg. lia. }
  destruct (Nat.le_gt_cases j k); [apply Hg; lia|].
  replace (downsample_sizes (2 ^ k) (2 ^ j)) with (downsample_sizes (2 ^ k) (2 ^ k)); [apply Hg; lia|].
  assert (2 ^ k < 2 ^ j)%nat by (apply Nat.pow_lt_mono_r; lia). unfold downsample_sizes.
  destruct (Nat.ltb_spec (2 ^ k) 2); [lia|]. destruct (Nat.ltb_spec (2 ^ j) 2); [lia|]. destruct (Nat.ltb_spec (2 ^ k) (2 ^ k)); [lia|].
  destruct (Nat.ltb_spec (2 ^ k) (2 ^ j)); [reflexivity|lia].
Qed.

(** ** The number of samples of the subsampled signal *)
Lemma log2_pow n : log2 (2 ^ n) = INR n.
Proof. unfold log2. pose proof ln_lt_2. rewrite ln_pow by lra. field. lra. Qed.
Lemma log2_le x y : (0 < x)%R -> (x <= y)%R -> (log2 x <= log2 y)%R.
Proof.
  intros H0 H. unfold log2. pose proof ln_lt_2. apply Rmult_le_compat_r; [apply Rlt_le, Rinv_0_lt_compat; lra|].
  destruct H as [H| ->]; [apply Rlt_le, ln_increasing; assumption|lra].
Qed.
Lemma INR_bound n m : (Z.of_nat n <= 2 ^ Z.of_nat m)%Z -> (INR n <= 2 ^ m)%R.
Proof.
  intros H. rewrite INR_IZR_INZ. apply IZR_le in H. rewrite <- pow_IZR in H. exact H.
Qed.
Lemma log2_range n m : (1 <= n)%nat -> (Z.of_nat n <= 2 ^ Z.of_nat m)%Z -> (0 <= log2 (INR n) <= INR m)%R.
Proof.
  intros H1 H2. apply INR_bound in H2. apply le_INR in H1. change (INR 1) with 1%R in H1. split.
  - replace 0%R with (log2 1) by (unfold log2; rewrite ln_1; field; pose proof ln_lt_2; lra). apply log2_le; lra.
  - rewrite <- (log2_pow m). apply log2_le; lra.
Qed.
Lemma choose_Dsub_pow D Dsub : (2 <= D)%nat -> (Z.of_nat D <= 2 ^ 63)%Z -> (Z.of_nat Dsub <= 2 ^ 63)%Z -> exists j, choose_Dsub D Dsub = Ret (2 ^ j)%nat.
Proof.
  intros H2 HD Hs. unfold choose_Dsub. destruct (Nat.eqb_spec Dsub 0) as [_|N].
  - set (e := uceiling _). assert (He : (e < 64)%nat).
    { unfold e, uceiling. destruct (log2_range D 63) as [L0 L1]; [lia|exact HD|]. pose proof (INR_bound D 63 HD) as HB. apply le_INR in H2. change (INR 2) with 2%R in H2.
      set (l := log2 (INR D)) in *. assert (L2 : (1 <= l)%R).
      { unfold l. replace 1%R with (log2 (2 ^ 1)) by (rewrite log2_pow; reflexivity). apply log2_le; lra. }
      assert (HL : (INR D * l * l <= 2 ^ 75)%R).
      { rewrite INR_IZR_INZ in L1. change (Z.of_nat 63) with 63%Z in L1.
        apply Rle_trans with (2 ^ 63 * 2 ^ 12)%R; [|rewrite <- pow_add; apply Rle_refl]. rewrite Rmult_assoc. apply Rmult_le_compat; [lra|nra|exact HB|].
        apply Rle_trans with (63 * 63)%R; [nra|]. replace (2 ^ 12)%R with 4096%R by ring. lra. }
      assert (HP : (0 < INR D * l * l)%R) by (apply Rmult_lt_0_compat; [apply Rmult_lt_0_compat|]; lra).
      assert (HU : (log2 (INR D * l * l) <= 75)%R).
      { replace 75%R with (INR 75) by (rewrite INR_IZR_INZ; reflexivity). rewrite <- (log2_pow 75). apply log2_le; assumption. }
      set (x := (/ 2 * log2 (INR D * l * l))%R) in *. assert (Hx : (x <= 38)%R) by (unfold x; lra).
      destruct (base_Int_part (- x)) as [B1 B2]. assert (HI : (- Int_part (- x) < 64)%Z) by (apply lt_IZR; rewrite opp_IZR; lra). lia. }
    unfold upow2. destruct (Nat.leb_spec 64 e); [lia|]. now exists e.
  - destruct (log2_range Dsub 63) as [L0 L1]; [lia|exact Hs|]. set (e := uround _). assert (He : (e < 64)%nat).
    { unfold e, uround, ufloor. rewrite (INR_IZR_INZ 63) in L1. change (Z.of_nat 63) with 63%Z in L1. set (x := (log2 (INR Dsub) + / 2)%R) in *. assert (Hx : (x < 64)%R) by (unfold x; lra).
      destruct (base_Int_part x) as [B1 B2]. assert (HI : (Int_part x < 64)%Z) by (apply lt_IZR; lra). lia. }
    unfold upow2. destruct (Nat.leb_spec 64 e); [lia|]. now exists e.
Qed.
