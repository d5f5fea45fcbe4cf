(** * Sorting of the bound states, the test for multiple bound states, conversion of residues, precompensation *)
From Coq Require Import Reals List Lra Lia Permutation.
From Coquelicot Require Import Coquelicot.
From Verif Require Import CDeriv CExp CField CConj NsevProps InvModel InvSpec InvDarboux InvSoliton InvSolCode InvPerm.
Import ListNotations.
Local Open Scope C_scope.

Definition exch {A} (l : list A) (i j : nat) (d : A) : list A := upd (upd l i (nth j l d)) j (nth i l d).
Lemma exch_length {A} (l : list A) i j d : length (exch l i j d) = length l. Proof. unfold exch. now rewrite !upd_length. Qed.
Lemma exch_nth {A} (l : list A) i j d k : (i < length l)%nat -> (j < length l)%nat ->
  nth k (exch l i j d) d = if Nat.eqb k j then nth i l d else if Nat.eqb k i then nth j l d else nth k l d.
Proof. intros Hi Hj. unfold exch. rewrite nth_upd by (rewrite upd_length; exact Hj). now rewrite nth_upd by exact Hi. Qed.
Lemma exch_perm {A} (l : list A) i j d : (i < length l)%nat -> (j < length l)%nat -> Permutation l (exch l i j d).
Proof.
  intros Hi Hj. apply (Permutation_nth l (exch l i j d) d). split; [now rewrite exch_length|].
  exists (fun k => if Nat.eqb k j then i else if Nat.eqb k i then j else k). split; [|split].
  - intros k Hk. destruct (Nat.eqb_spec k j), (Nat.eqb_spec k i); subst; auto.
  - intros a b Ha Hb. destruct (Nat.eqb_spec a j), (Nat.eqb_spec a i), (Nat.eqb_spec b j), (Nat.eqb_spec b i); lia.
  - intros k Hk. rewrite exch_nth by assumption. destruct (Nat.eqb_spec k j), (Nat.eqb_spec k i); subst; reflexivity.
Qed.
Lemma map_upd {A B} (f : A -> B) l i x : map f (upd l i x) = upd (map f l) i (f x).
Proof. revert i. induction l as [|y l IH]; intros [|i]; cbn; try reflexivity. now rewrite IH. Qed.
Definition dx : C * C := (RtoC 0, RtoC 0).
Lemma swap_map (f : C * C -> C) ds i j : (i < length ds)%nat -> (j < length ds)%nat -> swap (map f ds) i j = Ret (map f (exch ds i j dx)).
Proof.
  intros Hi Hj. unfold swap. rewrite !(aget_nth (map f ds) (RtoC 0)) by (rewrite map_length; assumption). cbn [bind].
  rewrite aset_upd by (rewrite map_length; exact Hi). cbn [bind]. rewrite aset_upd by (rewrite upd_length, map_length; exact Hj).
  unfold exch. rewrite !map_upd, !(nth_map_lt f ds _ dx) by assumption. reflexivity.
Qed.
Definition im_at (ds : list (C * C)) (i : nat) : R := snd (fst (nth i ds dx)).
(** decreasing imaginary parts *)
Definition sorted (ds : list (C * C)) : Prop := forall i j, (i < j < length ds)%nat -> (im_at ds j <= im_at ds i)%R.
Definition sinv (ds0 : list (C * C)) (i j : nat) (st : list C * list C) : Prop := exists ds, st = (map fst ds, map snd ds) /\ Permutation ds0 ds /\
  (forall a b, (a < i)%nat -> (a < b < length ds)%nat -> (im_at ds b <= im_at ds a)%R) /\ (forall b, (i < b < j)%nat -> (im_at ds b <= im_at ds i)%R).
Lemma sort_step_ok ds0 i j st : (i < j < length ds0)%nat -> sinv ds0 i j st -> exists st', sort_step i j st = Ret st' /\ sinv ds0 i (S j) st'.
Proof.
  intros H (ds & -> & P & A & B). assert (L := Permutation_length P). unfold sort_step.
  rewrite !(aget_nth (map fst ds) (RtoC 0)) by (rewrite map_length; lia). cbn [bind]. rewrite !(nth_map_lt fst ds _ dx) by lia.
  fold (im_at ds i) (im_at ds j). destruct (Rlt_dec (im_at ds i) (im_at ds j)) as [Hlt|Hge].
  - rewrite !swap_map by lia. cbn [bind]. eexists. split; [reflexivity|]. exists (exch ds i j dx). split; [reflexivity|].
    split; [eapply Permutation_trans; [exact P|apply exch_perm; lia]|].
    assert (E : forall k, im_at (exch ds i j dx) k = if Nat.eqb k j then im_at ds i else if Nat.eqb k i then im_at ds j else im_at ds k).
    { intros k. unfold im_at at 1. rewrite exch_nth by lia. destruct (Nat.eqb k j), (Nat.eqb k i); reflexivity. }
    split.
    + intros a b Ha Hb. rewrite exch_length in Hb. rewrite !E. destruct (Nat.eqb_spec a j); [lia|]. destruct (Nat.eqb_spec a i); [lia|].
      destruct (Nat.eqb_spec b j); [apply A; lia|]. destruct (Nat.eqb_spec b i); [apply A; lia|]. apply A; lia.
    + intros b Hb. rewrite !E. rewrite Nat.eqb_refl. destruct (Nat.eqb_spec i j); [lia|]. destruct (Nat.eqb_spec b j); [lra|].
      destruct (Nat.eqb_spec b i); [lia|]. assert (Q := B b ltac:(lia)). lra.
  - eexists. split; [reflexivity|]. exists ds. split; [reflexivity|]. split; [exact P|]. split; [exact A|].
    intros b Hb. destruct (Nat.eq_dec b j) as [->|]; [lra|]. apply B. lia.
Qed.
(** the pairs stay together, the imaginary parts are decreasing *)
Theorem sort_bs_spec ds : exists ds', sort_bs (length ds) (map fst ds, map snd ds) = Ret (map fst ds', map snd ds') /\ Permutation ds ds' /\ sorted ds'.
Proof.
  unfold sort_bs.
  destruct (for_inv (fun i st => sinv ds i (i + 1) st) (fun i st => for_ (length ds - (i + 1)) (i + 1) (sort_step i) st) (length ds) 0 (map fst ds, map snd ds)) as (st & E & I).
  - exists ds. split; [reflexivity|]. split; [apply Permutation_refl|]. split; intros; lia.
  - intros i st Hi I. destruct (for_inv (fun j st => sinv ds i j st) (sort_step i) (length ds - (i + 1)) (i + 1) st I) as (st' & E & I').
    + intros j s Hj. apply sort_step_ok. lia.
    + exists st'. split; [exact E|]. replace (i + 1 + (length ds - (i + 1)))%nat with (length ds) in I' by lia.
      destruct I' as (d' & -> & P & A & B). assert (L := Permutation_length P). exists d'. split; [reflexivity|]. split; [exact P|]. split; [|intros; lia].
      intros a b Ha Hb. destruct (Nat.eq_dec a i) as [->|]; [apply B; lia|apply A; lia].
  - destruct I as (d' & -> & P & A & B). exists d'. split; [exact E|]. split; [exact P|]. assert (L := Permutation_length P).
    intros i j Hij. apply A; lia.
Qed.
(** only equal neighbours are detected *)
Theorem has_double_spec (bs : list C) : exists r, has_double (length bs) bs = Ret r /\
  (r = true <-> exists i, (S i < length bs)%nat /\ nth (S i) bs (RtoC 0) = nth i bs (RtoC 0)).
Proof.
  unfold has_double.
  destruct (for_inv (fun k (r : bool) => r = true <-> exists i, (i < k)%nat /\ (S i < length bs)%nat /\ nth (S i) bs (RtoC 0) = nth i bs (RtoC 0))
    (fun i (r : bool) => if r then Ret true else x <- aget bs (i + 1) ;; y <- aget bs i ;; Ret (ceq x y)) (length bs - 1) 0 false) as (r & E & I).
  - split; [discriminate|]. intros (i & Hi & _). lia.
  - intros i r Hi I. destruct r.
    + exists true. split; [reflexivity|]. split; [|reflexivity]. intros _. destruct (proj1 I eq_refl) as (k & Hk & G). exists k. split; [lia|exact G].
    + rewrite !(aget_nth bs (RtoC 0)) by lia. cbn [bind]. eexists. split; [reflexivity|]. replace (i + 1)%nat with (S i) by lia. unfold ceq.
      destruct (Ceq_dec (nth (S i) bs 0) (nth i bs 0)) as [Q|Q].
      * split; [|reflexivity]. intros _. exists i. split; [lia|]. split; [lia|exact Q].
      * split; [discriminate|]. intros (k & Hk & Hl & G). destruct (Nat.eq_dec k i) as [->|]; [contradiction|]. apply I. exists k. split; [lia|]. auto.
  - exists r. split; [exact E|]. rewrite I. split; intros (i & H); [exists i; tauto|]. exists i. destruct H. split; [lia|auto].
Qed.
(** all repetitions are detected if different bound states have different imaginary parts *)
Lemma sorted_double ds : sorted ds -> (forall x y, In x ds -> In y ds -> snd (fst x) = snd (fst y) -> fst x = fst y) ->
  ~ NoDup (map fst ds) -> exists i, (S i < length ds)%nat /\ nth (S i) (map fst ds) (RtoC 0) = nth i (map fst ds) (RtoC 0).
Proof.
  intros H U N.
  assert (D : exists i j, (i < j < length ds)%nat /\ nth i (map fst ds) (RtoC 0) = nth j (map fst ds) (RtoC 0)).
  { apply Classical_Prop.NNPP. intros G. apply N. apply (NoDup_nth (map fst ds) (RtoC 0)). intros i j Hi Hj E. rewrite map_length in Hi, Hj.
    destruct (Nat.lt_trichotomy i j) as [Q|[Q|Q]]; [|exact Q|]; exfalso; apply G; [exists i, j|exists j, i]; split; auto; lia. }
  destruct D as (i & j & Hij & E). exists i. split; [lia|]. rewrite !(nth_map_lt fst ds _ dx) in * by lia.
  assert (A := H i (S i) ltac:(lia)). assert (B : (im_at ds j <= im_at ds (S i))%R) by (destruct (Nat.eq_dec j (S i)) as [->|]; [lra|apply H; lia]).
  apply U; [apply nth_In; lia|apply nth_In; lia|]. unfold im_at in *. rewrite <- E in B. apply Rle_antisym; assumption.
Qed.

(** ** Residues *)
Definition factor (l k : C) : C := (l - k) / (l - Cconj k).
(** product over j < n, j <> i *)
Definition others (ls : list C) (i n : nat) (l : C) : C :=
  fold_right (fun j p => (if Nat.eqb j i then 1 else factor l (nth j ls (RtoC 0))) * p) 1 (seq 0 n).
Lemma prod_snoc (F : nat -> C) n : fold_right (fun j p => F j * p) 1 (seq 0 (S n)) = F n * fold_right (fun j p => F j * p) 1 (seq 0 n).
Proof.
  rewrite seq_S, fold_right_app. cbn [fold_right]. change (0 + n)%nat with n.
  assert (G : forall l (y : C), fold_right (fun j p => F j * p) y l = y * fold_right (fun j p => F j * p) 1 l).
  { induction l as [|a l IH]; intros y; cbn; [ring|]. rewrite IH. ring. }
  rewrite G. ring.
Qed.
Lemma others_snoc ls i n l : others ls i (S n) l = (if Nat.eqb n i then 1 else factor l (nth n ls (RtoC 0))) * others ls i n l.
Proof. exact (prod_snoc (fun j => if Nat.eqb j i then 1 else factor l (nth j ls (RtoC 0))) n). Qed.
Lemma blaschke_seq ls l : blaschke ls l = fold_right (fun j p => factor l (nth j ls (RtoC 0)) * p) 1 (seq 0 (length ls)).
Proof.
  induction ls as [|k ls IH] using rev_ind; [reflexivity|]. rewrite app_length. cbn [length]. rewrite Nat.add_1_r, prod_snoc.
  rewrite app_nth2, Nat.sub_diag by lia. cbn [nth].
  assert (E : fold_right (fun j p => factor l (nth j (ls ++ [k]) (RtoC 0)) * p) 1 (seq 0 (length ls)) = blaschke ls l).
  { rewrite IH. assert (G : forall s, (forall j, In j s -> (j < length ls)%nat) ->
      fold_right (fun j p => factor l (nth j (ls ++ [k]) (RtoC 0)) * p) 1 s = fold_right (fun j p => factor l (nth j ls (RtoC 0)) * p) 1 s).
    { induction s as [|a s IHs]; intros Hs; cbn; [reflexivity|]. rewrite IHs by (intros; apply Hs; now right). rewrite app_nth1 by (apply Hs; now left). reflexivity. }
    apply G. intros j Hj. apply in_seq in Hj. lia. }
  rewrite E. unfold blaschke. rewrite fold_right_app. cbn [fold_right].
  assert (G : forall s (y : C), fold_right (fun k p => (l - k) / (l - Cconj k) * p) y s = y * fold_right (fun k p => (l - k) / (l - Cconj k) * p) 1 s).
  { induction s as [|a s IHs]; intros y; cbn; [ring|]. rewrite IHs. ring. }
  rewrite G. unfold factor. ring.
Qed.
Lemma blaschke_split ls i l : (i < length ls)%nat -> blaschke ls l = factor l (nth i ls (RtoC 0)) * others ls i (length ls) l.
Proof.
  rewrite blaschke_seq. generalize (length ls) as n. induction n as [|n IH]; intros H; [lia|]. rewrite prod_snoc, others_snoc.
  destruct (Nat.eqb_spec n i) as [->|Nn].
  - f_equal. transitivity (others ls i i l); [|ring]. unfold others.
    assert (G : forall s, (forall j, In j s -> (j < i)%nat) -> fold_right (fun j p => factor l (nth j ls (RtoC 0)) * p) 1 s
      = fold_right (fun j p => (if Nat.eqb j i then 1 else factor l (nth j ls (RtoC 0))) * p) 1 s).
    { induction s as [|a s IHs]; intros Hs; cbn; [reflexivity|]. rewrite IHs by (intros; apply Hs; now right). destruct (Nat.eqb_spec a i); [|reflexivity].
      specialize (Hs a (or_introl eq_refl)). lia. }
    apply G. intros j Hj. apply in_seq in Hj. lia.
  - rewrite IH by lia. ring.
Qed.
Lemma factor_derive (l k : C) : l <> Cconj k -> exists d, Cderive (fun z => factor z k) l d.
Proof.
  intros H. assert (N : l - Cconj k <> 0) by (intros E; apply H; symmetry; now apply Csub_0).
  eexists. unfold factor, Cdiv. apply Cderive_mult.
  - apply Cderive_minus; [apply Cderive_id|apply Cderive_const].
  - apply (Cderive_comp (fun z => / z) (fun z => z - Cconj k)); [now apply Cderive_inv|]. apply Cderive_minus; [apply Cderive_id|apply Cderive_const].
Qed.
Lemma others_derive ls i n l : (forall j, (j < n)%nat -> l <> Cconj (nth j ls (RtoC 0))) -> exists d, Cderive (others ls i n) l d.
Proof.
  induction n as [|n IH]; intros H.
  - exists (RtoC 0). apply (Cderive_const 1).
  - destruct (IH ltac:(intros; apply H; lia)) as (d & D). destruct (Nat.eqb_spec n i) as [E|E].
    + exists d. eapply Cderive_ext; [|exact D]. intros z. rewrite others_snoc. destruct (Nat.eqb_spec n i); [|contradiction]. ring.
    + destruct (factor_derive l (nth n ls (RtoC 0)) (H n ltac:(lia))) as (d' & D'). eexists.
      eapply Cderive_ext; [|exact (Cderive_mult _ _ _ _ _ D' D)]. intros z. cbv beta. rewrite others_snoc. destruct (Nat.eqb_spec n i); [contradiction|]. reflexivity.
Qed.
(** the derivative of a(l) = f(l) prod_k (l - l_k) / (l - conj l_k) at l_i *)
Lemma a_derive ls i (f : C -> C) f' : (i < length ls)%nat -> (forall j, (j < length ls)%nat -> nth i ls (RtoC 0) <> Cconj (nth j ls (RtoC 0))) ->
  Cderive f (nth i ls (RtoC 0)) f' ->
  Cderive (fun z => f z * blaschke ls z) (nth i ls (RtoC 0)) (f (nth i ls (RtoC 0)) / (nth i ls (RtoC 0) - Cconj (nth i ls (RtoC 0))) * others ls i (length ls) (nth i ls (RtoC 0))).
Proof.
  intros Hi Hc Hf. set (li := nth i ls (RtoC 0)) in *. destruct (others_derive ls i (length ls) li Hc) as (d & D).
  assert (N : li - Cconj li <> 0) by (intros E; apply (Hc i Hi); fold li; symmetry; now apply Csub_0).
  assert (Di := Cderive_comp (fun z => / z) (fun z => z - Cconj li) li _ _ (Cderive_inv _ N) (Cderive_minus _ _ _ _ _ (Cderive_id li) (Cderive_const (Cconj li) li))).
  assert (D0 := Cderive_minus _ _ _ _ _ (Cderive_id li) (Cderive_const li li)).
  assert (DM := Cderive_mult _ _ _ _ _ Hf (Cderive_mult _ _ _ _ _ (Cderive_mult _ _ _ _ _ D0 Di) D)).
  eapply Cderive_eq; [eapply Cderive_ext; [|exact DM]|].
  - intros z. cbv beta. rewrite (blaschke_split ls i z Hi). fold li. reflexivity.
  - cbv beta. field. exact N.
Qed.
(** ** The code *)
Lemma upper_conj (x y : C) : (0 < snd x)%R -> (0 < snd y)%R -> x - Cconj y <> 0.
Proof. intros Hx Hy E. assert (Q := f_equal snd E). cbn in Q. lra. Qed.
Lemma residue_factor_ok (bs : list C) i (a : C) : (i < length bs)%nat -> List.Forall (fun l : C => 0 < snd l)%R bs ->
  residue_factor (length bs) i bs a = Ret (a * others bs i (length bs) (nth i bs (RtoC 0))).
Proof.
  intros Hi P. unfold residue_factor.
  destruct (for_inv (fun j tmp => tmp = a * others bs i j (nth i bs (RtoC 0)))
    (fun j tmp => if Nat.eqb j i then Ret tmp else x <- aget bs i ;; y <- aget bs j ;; cdivc (tmp * (x - y)) (x - Cconj y)) (length bs) 0 a) as (r & E & I).
  - cbn. ring.
  - intros j tmp Hj ->. rewrite others_snoc. destruct (Nat.eqb j i); [eexists; split; [reflexivity|]; ring|].
    rewrite !(aget_nth bs (RtoC 0)) by lia. cbn [bind]. rewrite Forall_forall in P.
    assert (N : nth i bs 0 - Cconj (nth j bs 0) <> 0) by (apply upper_conj; apply P; apply nth_In; lia).
    rewrite cdivc_ok by exact N. eexists. split; [reflexivity|]. unfold factor. field. exact N.
  - rewrite E, I. reflexivity.
Qed.
Lemma Cmult_neq0 (a b : C) : a <> 0 -> b <> 0 -> a * b <> 0. Proof. exact (Cmult_neq_0 a b). Qed.
Lemma others_neq0 (ls : list C) i n : (n <= length ls)%nat -> (i < length ls)%nat -> NoDup ls -> List.Forall (fun l : C => 0 < snd l)%R ls ->
  others ls i n (nth i ls (RtoC 0)) <> 0.
Proof.
  intros Hn Hi N P. rewrite Forall_forall in P. induction n as [|n IH]; [exact C1_nz|]. rewrite others_snoc. apply Cmult_neq0; [|apply IH; lia].
  destruct (Nat.eqb_spec n i) as [->|D]; [exact C1_nz|]. unfold factor. unfold Cdiv. apply Cmult_neq0.
  - intros E. apply D. apply (proj1 (NoDup_nth ls (RtoC 0)) N); [lia|lia|]. now apply Csub_0.
  - intros E. apply (f_equal (fun x => x * (nth i ls 0 - Cconj (nth n ls 0)))) in E.
    assert (Q : nth i ls 0 - Cconj (nth n ls 0) <> 0) by (apply upper_conj; apply P, nth_In; lia). rewrite Cinv_l in E by exact Q. apply C1_nz. rewrite E. ring.
Qed.
Lemma a_derive_neq0 ls i (c : C) : (i < length ls)%nat -> NoDup ls -> List.Forall (fun l : C => 0 < snd l)%R ls -> c <> 0 ->
  c / (nth i ls (RtoC 0) - Cconj (nth i ls (RtoC 0))) * others ls i (length ls) (nth i ls (RtoC 0)) <> 0.
Proof.
  intros Hi N P Hc. apply Cmult_neq0; [|apply others_neq0; auto]. unfold Cdiv. apply Cmult_neq0; [exact Hc|]. intros E.
  apply (f_equal (fun x => x * (nth i ls 0 - Cconj (nth i ls 0)))) in E. assert (Q : nth i ls 0 - Cconj (nth i ls 0) <> 0) by (rewrite Forall_forall in P; apply upper_conj; apply P, nth_In; lia).
  rewrite Cinv_l in E by exact Q. apply C1_nz. rewrite E. ring.
Qed.
(** one residue: the quotient of the norming constant and the derivative of a *)
Theorem to_norm_consts_ok (bs nc : list C) (f : C -> C) (f' : nat -> C) : length nc = length bs -> List.Forall (fun l : C => 0 < snd l)%R bs ->
  (forall i, (i < length bs)%nat -> Cderive f (nth i bs (RtoC 0)) (f' i)) ->
  exists nc', to_norm_consts (length bs) bs (map f bs) nc = Ret nc' /\ length nc' = length bs /\
  forall i, (i < length bs)%nat -> exists da : C, Cderive (fun z => f z * blaschke bs z) (nth i bs (RtoC 0)) da /\
    (NoDup bs -> f (nth i bs (RtoC 0)) <> RtoC 0 -> da <> RtoC 0) /\ nth i nc' (RtoC 0) = nth i nc (RtoC 0) * da.
Proof.
  intros L P F. set (l := fun i => nth i bs (RtoC 0)). unfold to_norm_consts.
  destruct (fill_ok (fun i => nth i nc (RtoC 0) / (2 * Ci * RtoC (snd (l i))) * (f (l i) * others bs i (length bs) (l i))) (RtoC 0) (length bs) 0
    (fun i => ai <- aget (map f bs) i ;; tmp <- residue_factor (length bs) i bs ai ;; r <- aget nc i ;; x <- aget bs i ;;
      z <- cdivc r (2 * Ci * RtoC (snd x)) ;; Ret (z * tmp)) nc) as (nc' & E & L' & N).
  - lia.
  - intros i Hi. assert (Pi : (0 < snd (l i))%R) by (rewrite Forall_forall in P; apply P, nth_In; lia).
    rewrite (aget_nth _ (RtoC 0)) by (rewrite map_length; lia). cbn [bind]. rewrite residue_factor_ok by (auto; lia). cbn [bind].
    rewrite (aget_nth nc (RtoC 0)), (aget_nth bs (RtoC 0)) by lia. cbn [bind]. rewrite (nth_map_lt f bs i (RtoC 0)) by lia. fold (l i).
    rewrite cdivc_ok; [reflexivity|]. rewrite Cim2. apply upper_conj; exact Pi.
  - exists nc'. split; [exact E|]. split; [lia|]. intros i Hi. rewrite Forall_forall in P.
    assert (Pi : forall j, (j < length bs)%nat -> (0 < snd (l j))%R) by (intros j Hj; apply P, nth_In; lia).
    eexists. split; [|split].
    + apply (a_derive bs i f (f' i) Hi); [|now apply F]. intros j Hj Q. assert (S := f_equal snd Q). cbn in S. fold (l i) (l j) in S. generalize (Pi i Hi) (Pi j Hj). lra.
    + intros ND Nf. apply a_derive_neq0; auto. apply Forall_forall. exact P.
    + rewrite N. destruct (Nat.leb_spec 0 i); [|lia]. destruct (Nat.ltb_spec i (0 + length bs)); [|lia]. cbn [andb]. rewrite Cim2. fold (l i). field.
      apply upper_conj; apply Pi; exact Hi.
Qed.
