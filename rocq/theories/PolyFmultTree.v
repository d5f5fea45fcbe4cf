(** * The tree levels of poly_fmult2x2/3x3 *)
From Verif Require Import Base Mem Series Dft KissModel KissSizeProof PolyFmultModel PolyFmultTwo PolyFmultScript.

Lemma mul_add_inj S a b r r' : r < S -> r' < S -> a * S + r = b * S + r' -> a = b /\ r = r'.
Proof.
  intros H H' E. assert (a = b).
  { destruct (Nat.lt_trichotomy a b) as [Q|[Q|Q]]; [|exact Q|]; exfalso.
    - assert ((a + 1) * S <= b * S) by (apply Nat.mul_le_mono_r; lia). lia.
    - assert ((b + 1) * S <= a * S) by (apply Nat.mul_le_mono_r; lia). lia. }
  subst b. lia.
Qed.

Lemma two_polys_len_spec deg : exists len, two_polys_len deg = Ret len /\ (2 * deg + 1 <= len) /\ (1 <= len).
Proof.
  unfold two_polys_len, next_fft_length.
  destruct (next_fast_size_spec (2 * (deg + 1) - 1)) as (r & E & H & _); [lia|].
  rewrite E. exists r. cbn [opt]. split; [reflexivity|]. lia.
Qed.

Lemma two_polys_len_mono d1 d2 l1 l2 : (d1 <= d2) -> two_polys_len d1 = Ret l1 -> two_polys_len d2 = Ret l2 ->
  (l1 <= l2).
Proof.
  unfold two_polys_len, next_fft_length. intros Hd.
  destruct (next_fast_size_spec (2 * (d1 + 1) - 1)) as (r1 & E1 & H1 & S1 & M1); [lia|].
  destruct (next_fast_size_spec (2 * (d2 + 1) - 1)) as (r2 & E2 & H2 & S2 & M2); [lia|].
  rewrite E1, E2. cbn [opt]. intros [= <-] [= <-].
  destruct (Nat.le_gt_cases r1 r2) as [H|H]; [exact H|]. exfalso. apply (M1 r2); [lia|exact S2].
Qed.

Section Tree.
Context {K : cfield}.
Add Field KF : (cfield_th K).
Local Open Scope cf_scope.

(** ** rescale *)
Lemma read_blocks_spec mm : forall (r : list K) ro stride cnt,
  (forall d, (d < mm)%nat -> (ro + d * stride + cnt <= length r)%nat) ->
  read_blocks mm r ro stride cnt
  = Ret (tabulate mm (fun d => tabulate cnt (fun k => nth (ro + d * stride + k) r 0))).
Proof.
  induction mm as [|mm IH]; intros r ro stride cnt H; [reflexivity|]. cbn [read_blocks].
  rewrite (rd_tab r ro cnt 0) by (specialize (H 0%nat); lia). cbn [bind].
  rewrite IH.
  - cbn [bind]. rewrite (tabulate_cons mm). f_equal. f_equal.
    + apply tabulate_ext. intros k Hk. f_equal. lia.
    + apply tabulate_ext. intros d Hd. apply tabulate_ext. intros k Hk. f_equal. lia.
  - intros d Hd. specialize (H (S d)). lia.
Qed.

Lemma write_blocks_spec mm : forall (f : nat -> nat -> K) (r : list K) ro stride cnt,
  (mm <= 1 \/ cnt <= stride)%nat ->
  (forall d, (d < mm)%nat -> (ro + d * stride + cnt <= length r)%nat) ->
  exists r', write_blocks (tabulate mm (fun d => tabulate cnt (f d))) r ro stride = Ret r' /\
    length r' = length r /\
    (forall d k, (d < mm)%nat -> (k < cnt)%nat -> nth (ro + d * stride + k) r' 0 = f d k) /\
    (forall i, (forall d, (d < mm)%nat -> (i < ro + d * stride \/ ro + d * stride + cnt <= i)%nat) ->
       nth i r' 0 = nth i r 0).
Proof.
  induction mm as [|mm IH]; intros f r ro stride cnt Hs H.
  { exists r. split; [reflexivity|]. split; [reflexivity|]. split; [intros; lia|auto]. }
  rewrite (tabulate_cons mm). cbn [write_blocks].
  destruct (wr_ok r ro (tabulate cnt (f 0%nat)) 0) as (r1 & E1 & L1 & H1).
  { rewrite tabulate_length. specialize (H 0%nat). lia. }
  rewrite E1. cbn [bind]. rewrite tabulate_length in H1.
  destruct (IH (fun d => f (S d)) r1 (ro + stride)%nat stride cnt) as (r2 & E2 & L2 & H2 & F2).
  { lia. } { intros d Hd. specialize (H (S d)). lia. }
  exists r2. split; [exact E2|]. split; [lia|]. split.
  - intros [|d] k Hd Hk.
    + rewrite F2.
      * rewrite H1. destruct (Nat.leb_spec ro (ro + 0 * stride + k)); [|lia].
        destruct (Nat.ltb_spec (ro + 0 * stride + k) (ro + cnt)); [|lia]. cbn [andb].
        replace (ro + 0 * stride + k - ro)%nat with k by lia. now apply nth_tabulate.
      * intros d Hd'. destruct Hs; [lia|]. left. lia.
    + rewrite <- H2 by lia. f_equal. lia.
  - intros i Hi. rewrite F2.
    + rewrite H1. specialize (Hi 0%nat ltac:(lia)). destruct (Nat.leb_spec ro i); cbn [andb]; [|reflexivity].
      destruct (Nat.ltb_spec i (ro + cnt)); [lia|reflexivity].
    + intros d Hd. specialize (Hi (S d) ltac:(lia)). lia.
Qed.

(** ** matrices stored in an array: entry ij of polynomial matrix t *)
Definition mat_of (m : nat) (a : list K) (stride deg t : nat) : smat :=
  fun i j l => if (l <=? deg)%nat then nth ((i * m + j) * stride + t * (deg + 1) + l) a 0 else 0.

Lemma mat_of_supp m a stride deg t : ssupp m deg (mat_of m a stride deg t).
Proof. intros i j l _ _ Hl. unfold mat_of. destruct (Nat.leb_spec l deg); [lia|reflexivity]. Qed.

Lemma idx_lt m i j : (i < m)%nat -> (j < m)%nat -> (i * m + j < m * m)%nat.
Proof. intros Hi Hj. assert ((i + 1) * m <= m * m)%nat by (apply Nat.mul_le_mono_r; lia). lia. Qed.

Variable expo : list K -> Z.
Variable two : K.

Lemma rescale_spec mm (r : list K) ro stride cnt :
  (mm <= 1 \/ cnt <= stride)%nat ->
  (forall d, (d < mm)%nat -> (ro + d * stride + cnt <= length r)%nat) ->
  exists a r', rescale expo two mm r ro stride cnt = Ret (a, r') /\ length r' = length r /\
    (forall d k, (d < mm)%nat -> (k < cnt)%nat ->
       nth (ro + d * stride + k) r' 0 = nth (ro + d * stride + k) r 0 * zpow two (- a)) /\
    (forall i, (forall d, (d < mm)%nat -> (i < ro + d * stride \/ ro + d * stride + cnt <= i)%nat) ->
       nth i r' 0 = nth i r 0).
Proof.
  intros Hs H. unfold rescale. rewrite read_blocks_spec by exact H. cbn [bind].
  set (bs := tabulate mm _). set (a := expo (concat bs)).
  assert (E : map (map (fun x => x * zpow two (- a))) bs
    = tabulate mm (fun d => tabulate cnt (fun k => nth (ro + d * stride + k) r 0 * zpow two (- a)))).
  { unfold bs, tabulate. rewrite map_map. apply map_ext. intros d. now rewrite map_map. }
  rewrite E.
  destruct (write_blocks_spec mm (fun d k => nth (ro + d * stride + k) r 0 * zpow two (- a)) r ro stride cnt Hs H)
    as (r' & E' & L' & H' & F'). rewrite E'. cbn [bind]. exists a, r'. auto.
Qed.

Variable fft : bool -> nat -> list K -> out (list K).
Variable script : bool -> list call.
Variable m : nat.
Hypothesis Hscript : script_ok m script.
Hypothesis Htwo : two <> 0.

(** one pair: run_calls *)
Section Pair.
Variables (deg len : nat) (w : K).
Hypothesis Hlen : two_polys_len deg = Ret len.
Hypothesis Hlen2 : (2 * deg + 1 <= len)%nat.
Hypothesis Hfft : fft_ok fft len w.
Variables (p_stride h : nat).
Let r_stride := (h * (2 * deg + 1))%nat.
Hypothesis Hps : (h * (2 * deg + 2) <= p_stride)%nat.

Lemma norm_pairs_sp (p : list K) o1 o2 l l' : norm_pairs l = Some l' -> forall k,
  sp deg p o1 o2 p_stride l k
  = fold_right (fun ab acc => acc + smul (ser (opv deg p o1 o2 p_stride (P1 (fst ab)))) (ser (opv deg p o1 o2 p_stride (P2 (snd ab)))) k) 0 l'.
Proof.
  revert l'. induction l as [|[x y] l IH]; intros l' H k; cbn [norm_pairs] in H.
  - injection H as <-. reflexivity.
  - destruct (norm_pair (x, y)) as [ab|] eqn:E; [|discriminate].
    destruct (norm_pairs l) as [l''|]; [|discriminate]. injection H as <-. cbn [sp fold_right].
    rewrite (IH l'' eq_refl). f_equal.
    destruct x as [a|a], y as [b|b]; cbn in E; try discriminate; injection E as <-; cbn [fst snd].
    + reflexivity.
    + apply smul_comm.
Qed.

Lemma fold_expected (F : nat * nat -> K) d : fold_right (fun ab acc => acc + F ab) 0 (expected m d)
  = fsum m (fun k => F (d / m * m + k, k * m + d mod m)%nat).
Proof.
  unfold expected. generalize (d / m * m)%nat (d mod m)%nat. intros x y. 
  enough (H : forall n, fold_right (fun ab acc => acc + F ab) 0 (map (fun k => (x + k, k * m + y)%nat) (rev (seq 0 n)))
    = fsum n (fun k => F (x + k, k * m + y)%nat)) by apply H.
  induction n as [|n IH]; [reflexivity|].
  rewrite seq_S, rev_app_distr. cbn [rev app map fold_right fsum]. rewrite IH. reflexivity.
Qed.

Lemma ser_opv_mat p s i j : (s < h)%nat -> (i < m)%nat -> (j < m)%nat -> forall l,
  ser (opv deg p (s * (2 * deg + 2)) (s * (2 * deg + 2) + (deg + 1)) p_stride (P1 (i * m + j))) l
    = mat_of m p p_stride deg (2 * s) i j l /\
  ser (opv deg p (s * (2 * deg + 2)) (s * (2 * deg + 2) + (deg + 1)) p_stride (P2 (i * m + j))) l
    = mat_of m p p_stride deg (2 * s + 1) i j l.
Proof.
  intros Hs Hi Hj l. unfold ser, opv, mat_of. destruct (Nat.leb_spec l deg) as [H|H].
  - rewrite !nth_tabulate by lia. split; f_equal; lia.
  - split; apply nth_overflow; rewrite tabulate_length; lia.
Qed.

Lemma pair_spec p r b0 b1 b2 s :
  (s < h)%nat -> (m * m * p_stride <= length p)%nat -> (m * m * r_stride <= length r)%nat ->
  (len <= length b0)%nat -> (len <= length b1)%nat -> (len <= length b2)%nat ->
  exists r' b0' b1' b2',
    run_calls fft p (s * (2 * deg + 2)) (s * (2 * deg + 2) + (deg + 1)) p_stride deg (s * (2 * deg + 1)) r_stride
      (script (negb (r_stride - s * (2 * deg + 1) <? len))) r b0 b1 b2 = Ret (r', b0', b1', b2') /\
    length r' = length r /\ length b0' = length b0 /\ length b1' = length b1 /\ length b2' = length b2 /\
    (forall i j l, (i < m)%nat -> (j < m)%nat -> (l < 2 * deg + 1)%nat ->
       nth (s * (2 * deg + 1) + (i * m + j) * r_stride + l) r' 0
       = smmul m (mat_of m p p_stride deg (2 * s)) (mat_of m p p_stride deg (2 * s + 1)) i j l) /\
    (forall i j t l, (i < m)%nat -> (j < m)%nat -> (t < s)%nat -> (l < 2 * deg + 1)%nat ->
       nth ((i * m + j) * r_stride + t * (2 * deg + 1) + l) r' 0
       = nth ((i * m + j) * r_stride + t * (2 * deg + 1) + l) r 0).
Proof.
  intros Hs Lp Lr L0 L1 L2.
  set (space := negb (r_stride - s * (2 * deg + 1) <? len)).
  destruct (Hscript space) as (g & Eg & Lg & Hg & Hmodes & Hdest & Hsrc).
  set (L := if space then len else (2 * deg + 1)%nat).
  assert (Hro : ((s + 1) * (2 * deg + 1) <= r_stride)%nat) by (apply Nat.mul_le_mono_r; lia).
  assert (HL : (2 * deg + 1 <= L)%nat) by (unfold L; destruct space; lia).
  assert (HLs : (s * (2 * deg + 1) + L <= r_stride)%nat).
  { unfold L. destruct space eqn:Es; [|lia]. unfold space in Es.
    destruct (Nat.ltb_spec (r_stride - s * (2 * deg + 1)) len); [discriminate|]. lia. }
  assert (Hin : forall t ij, (t < h)%nat -> (ij < m * m)%nat -> (t * (2 * deg + 2) + ij * p_stride + (2 * deg + 2) <= length p)%nat).
  { intros t ij Ht Hij. assert ((t + 1) * (2 * deg + 2) <= h * (2 * deg + 2))%nat by (apply Nat.mul_le_mono_r; lia).
    assert ((ij + 1) * p_stride <= m * m * p_stride)%nat by (apply Nat.mul_le_mono_r; lia). lia. }
  destruct (calls_sound fft deg len w Hlen Hlen2 Hfft p (s * (2 * deg + 2)) (s * (2 * deg + 2) + (deg + 1)) p_stride
    (s * (2 * deg + 1)) r_stride (m * m)) with (L := L) (cs := script space) (g := mkg None None (repeat GAny (m * m)))
     (g' := g) (r := r) (b0 := b0) (b1 := b1) (b2 := b2) (r0 := r)
    as (r' & b0' & b1' & b2' & E & I & M0 & M1 & M2); auto.
  { intros ij Hij. specialize (Hin s ij Hs Hij). lia. }
  { intros ij Hij. specialize (Hin s ij Hs Hij). lia. }
  { constructor; cbn [g1 g2 gd]; auto; try exact Logic.I. rewrite repeat_length. split; [reflexivity|].
    intros d Hd. rewrite nth_repeat. exact Logic.I. }
  { intros c Hc. destruct (Hmodes c Hc) as [Hm|Hm]; [now left|right]. unfold L. rewrite Hm. lia. }
  { intros c [ij|ij] Hc Ho; apply (Hsrc c ij Hc); tauto. }
  destruct I as [J0 J1 J2 J3 J4 J5 [J6 Hgd] J8].
  exists r', b0', b1', b2'. split; [exact E|].
  split; [exact J3|].
  split; [exact M0|]. split; [exact M1|]. split; [exact M2|]. split.
  - intros i j l Hi Hj Hl.
    pose proof (idx_lt m i j Hi Hj) as Hd.
    specialize (Hgd _ Hd).
    destruct (Hg _ Hd) as (ll & Ell & Enp). rewrite Ell in Hgd. cbn [ghas] in Hgd.
    rewrite (Hgd l Hl). rewrite (norm_pairs_sp _ _ _ _ _ Enp).
    rewrite (fold_expected (fun ab => smul (ser (opv deg p _ _ p_stride (P1 (fst ab)))) (ser (opv deg p _ _ p_stride (P2 (snd ab)))) l)).
    unfold smmul. apply fsum_ext. intros k Hk. cbn [fst snd].
    assert (Hm : m <> 0%nat) by lia.
    rewrite Nat.div_add_l, (Nat.div_small j m), Nat.add_0_r by assumption.
    rewrite (Nat.add_comm (i * m) j), Nat.mod_add, Nat.mod_small by assumption.
    apply smul_ext; intros a Ha; now apply ser_opv_mat.
  - intros i j t l Hi Hj Ht Hl.
    apply J8.
    intros d Hd. assert ((t + 1) * (2 * deg + 1) <= s * (2 * deg + 1))%nat by (apply Nat.mul_le_mono_r; lia).
    destruct (Nat.lt_trichotomy d (i * m + j)) as [Q|[Q|Q]].
    + right. assert ((d + 1) * r_stride <= (i * m + j) * r_stride)%nat by (apply Nat.mul_le_mono_r; lia). lia.
    + left. subst d. lia.
    + left. assert ((i * m + j + 1) * r_stride <= d * r_stride)%nat by (apply Nat.mul_le_mono_r; lia). lia.
Qed.

Lemma pairsM_spec p normalize : (m * m * p_stride <= length p)%nat ->
  forall fuel s r W b0 b1 b2,
  (s + fuel = h)%nat -> (m * m * r_stride <= length r)%nat ->
  (len <= length b0)%nat -> (len <= length b1)%nat -> (len <= length b2)%nat ->
  exists r' W' b0' b1' b2' c,
    pairsM fft expo two script (m * m) fuel deg (s * (2 * deg + 2)) (s * (2 * deg + 1)) p_stride r_stride len
      normalize p r W b0 b1 b2 = Ret (r', W', b0', b1', b2') /\
    length r' = length r /\ length b0' = length b0 /\ length b1' = length b1 /\ length b2' = length b2 /\
    (forall t, (s <= t < h)%nat -> smeq m (smscal (c t) (mat_of m r' r_stride (2 * deg) t))
        (smmul m (mat_of m p p_stride deg (2 * t)) (mat_of m p p_stride deg (2 * t + 1)))) /\
    (forall t, (t < s)%nat -> smeq m (mat_of m r' r_stride (2 * deg) t) (mat_of m r r_stride (2 * deg) t)) /\
    zpow two W' = zpow two W * cprod fuel (fun t => c (s + t)%nat) /\ (normalize = false -> W' = W).
Proof.
  intros Lp. induction fuel as [|fuel IH]; intros s r W b0 b1 b2 Hsf Lr L0 L1 L2.
  { exists r, W, b0, b1, b2, (fun _ => 1). cbn [pairsM cprod]. repeat (split; [reflexivity|]).
    split; [intros t Ht; lia|]. split; [intros t Ht; apply smeq_refl|]. split; [ring|auto]. }
  cbn [pairsM].
  destruct (pair_spec p r b0 b1 b2 s) as (r1 & c0 & c1 & c2 & E1 & Lr1 & N0 & N1 & N2 & P1 & F1); auto; [lia|].
  rewrite E1. cbn [bind].
  assert (Hro : ((s + 1) * (2 * deg + 1) <= r_stride)%nat) by (apply Nat.mul_le_mono_r; lia).
  (* rescale *)
  assert (R : exists a r2, (if normalize then rescale expo two (m * m) r1 (s * (2 * deg + 1)) r_stride (2 * deg + 1) else Ret (0%Z, r1))
      = Ret (a, r2) /\ length r2 = length r1 /\
      (forall d k, (d < m * m)%nat -> (k < 2 * deg + 1)%nat ->
        nth (s * (2 * deg + 1) + d * r_stride + k) r2 0 = nth (s * (2 * deg + 1) + d * r_stride + k) r1 0 * zpow two (- a)) /\
      (forall i, (forall d, (d < m * m)%nat -> (i < s * (2 * deg + 1) + d * r_stride \/ s * (2 * deg + 1) + d * r_stride + (2 * deg + 1) <= i)%nat) ->
        nth i r2 0 = nth i r1 0) /\ (normalize = false -> a = 0%Z)).
  { destruct normalize.
    - destruct (rescale_spec (m * m) r1 (s * (2 * deg + 1)) r_stride (2 * deg + 1)) as (a & r2 & Ea & La & Ha & Fa).
      + right. lia.
      + intros d Hd. assert ((d + 1) * r_stride <= m * m * r_stride)%nat by (apply Nat.mul_le_mono_r; lia). lia.
      + exists a, r2. repeat (split; [assumption|]). discriminate.
    - exists 0%Z, r1. split; [reflexivity|]. split; [reflexivity|]. split; [|auto].
      intros d k _ _. cbn. ring. }
  destruct R as (a & r2 & ER & Lr2 & H2 & F2 & Ha0). rewrite ER. cbn [bind].
  destruct (IH (S s) r2 (W + a)%Z c0 c1 c2) as (r' & W' & b0' & b1' & b2' & c & E & Lr' & M0 & M1 & M2 & Hprod & Hfr & HW & HW0); try lia.
  replace (s * (2 * deg + 2) + (2 * deg + 2))%nat with (S s * (2 * deg + 2))%nat by lia.
  replace (s * (2 * deg + 1) + (2 * deg + 1))%nat with (S s * (2 * deg + 1))%nat by lia.
  rewrite E.
  exists r', W', b0', b1', b2', (fun t => if Nat.eqb t s then zpow two a else c t).
  split; [reflexivity|]. repeat (split; [lia|]). split; [|split; [|split]].
  - intros t Ht. destruct (Nat.eqb_spec t s) as [->|Hne]; [|apply Hprod; lia].
    intros i j l Hi Hj. unfold smscal. rewrite (Hfr s ltac:(lia) i j l Hi Hj).
    destruct (Nat.le_gt_cases l (2 * deg)) as [Hl|Hl].
    + unfold mat_of at 1. destruct (Nat.leb_spec l (2 * deg)); [|lia].
      replace ((i * m + j) * r_stride + s * (2 * deg + 1) + l)%nat with (s * (2 * deg + 1) + (i * m + j) * r_stride + l)%nat by lia.
      rewrite H2 by (try apply idx_lt; lia). rewrite P1 by lia.
      transitivity (zpow two a * zpow two (- a) * smmul m (mat_of m p p_stride deg (2 * s)) (mat_of m p p_stride deg (2 * s + 1)) i j l); [ring|].
      rewrite zpow_neg by exact Htwo. ring.
    + rewrite (mat_of_supp m r2 r_stride (2 * deg) s i j l Hi Hj Hl).
      rewrite (smmul_supp m deg deg _ _ (mat_of_supp _ _ _ _ _) (mat_of_supp _ _ _ _ _) i j l Hi Hj ltac:(lia)). ring.
  - intros t Ht i j l Hi Hj. rewrite (Hfr t ltac:(lia) i j l Hi Hj). unfold mat_of.
    destruct (Nat.leb_spec l (2 * deg)); [|reflexivity].
    rewrite F2; [apply F1; lia|].
    intros d Hd. assert ((t + 1) * (2 * deg + 1) <= s * (2 * deg + 1))%nat by (apply Nat.mul_le_mono_r; lia).
    destruct (Nat.lt_trichotomy d (i * m + j)) as [Q|[Q|Q]].
    + right. assert ((d + 1) * r_stride <= (i * m + j) * r_stride)%nat by (apply Nat.mul_le_mono_r; lia). lia.
    + left. subst d. lia.
    + left. assert ((i * m + j + 1) * r_stride <= d * r_stride)%nat by (apply Nat.mul_le_mono_r; lia). lia.
  - rewrite HW, zpow_add by exact Htwo.
    assert (Ec : forall n f, cprod (K:=K) (S n) f = f 0%nat * cprod n (fun t => f (S t))).
    { induction n as [|n IHn]; intros f; [cbn; ring|]. change (cprod (S (S n)) f) with (cprod (S n) f * f (S n)).
      rewrite IHn. cbn [cprod]. ring. }
    rewrite Ec. rewrite Nat.add_0_r, Nat.eqb_refl.
    assert (Ex : forall n f g, (forall t, (t < n)%nat -> f t = g t) -> cprod (K:=K) n f = cprod n g).
    { induction n as [|n IHn]; intros f g Hfg; [reflexivity|]. cbn [cprod]. rewrite (IHn f g), (Hfg n) by auto. reflexivity. }
    rewrite (Ex fuel (fun t => if Nat.eqb (s + S t) s then zpow two a else c (s + S t)%nat) (fun t => c (S s + t)%nat)).
    + ring.
    + intros t Ht. destruct (Nat.eqb_spec (s + S t) s); [lia|]. f_equal. lia.
  - intros Hn. rewrite HW0, Ha0 by exact Hn. lia.
Qed.
End Pair.

(** ** copy_back *)
Lemma copy_back_spec (r : list K) r_stride p_stride len : forall cnt d p,
  (len <= p_stride)%nat ->
  (forall e, (d <= e < d + cnt)%nat -> (e * r_stride + len <= length r)%nat) ->
  (forall e, (d <= e < d + cnt)%nat -> (e * p_stride + len <= length p)%nat) ->
  exists p', copy_back cnt d r_stride p_stride len p r = Ret p' /\ length p' = length p /\
   (forall e k, (d <= e < d + cnt)%nat -> (k < len)%nat -> nth (e * p_stride + k) p' 0 = nth (e * r_stride + k) r 0) /\
   (forall i, (i < d * p_stride)%nat -> nth i p' 0 = nth i p 0).
Proof.
  induction cnt as [|cnt IH]; intros d p Hl Hr Hp.
  { exists p. split; [reflexivity|]. split; [reflexivity|]. split; [intros; lia|auto]. }
  cbn [copy_back]. rewrite (rd_tab r (d * r_stride) len 0) by (apply Hr; lia). cbn [bind].
  destruct (wr_ok p (d * p_stride) (tabulate len (fun i => nth (d * r_stride + i) r 0)) 0) as (p1 & E1 & L1 & H1).
  { rewrite tabulate_length. apply Hp. lia. }
  rewrite E1. cbn [bind]. rewrite tabulate_length in H1.
  destruct (IH (S d) p1) as (p' & E & L & H & F); auto.
  { intros e He. apply Hr. lia. } { intros e He. rewrite L1. apply Hp. lia. }
  exists p'. split; [exact E|]. split; [lia|]. split.
  - intros e k He Hk. destruct (Nat.eq_dec e d) as [->|Hne]; [|apply H; lia].
    rewrite F by lia. rewrite H1. destruct (Nat.leb_spec (d * p_stride) (d * p_stride + k)); [|lia].
    destruct (Nat.ltb_spec (d * p_stride + k) (d * p_stride + len)); [|lia]. cbn [andb].
    rewrite nth_tabulate by lia. f_equal. lia.
  - intros i Hi. rewrite F by lia. rewrite H1. destruct (Nat.leb_spec (d * p_stride) i); [lia|reflexivity].
Qed.

(** ** FFT lengths *)
(** ** all levels *)
Hypothesis Hfft : forall len, (1 <= len)%nat -> exists w, fft_ok fft len w.

Lemma levelsM_spec normalize p_stride lenmem : forall h fuel deg rs0 p r W b0 b1 b2,
  (h < fuel)%nat -> (2 ^ h * (deg + 1) <= p_stride)%nat ->
  (m * m * p_stride <= length p)%nat -> (m * m * p_stride <= length r)%nat ->
  length b0 = lenmem -> length b1 = lenmem -> length b2 = lenmem ->
  (forall deg' l, (2 * deg' <= deg * 2 ^ h)%nat -> two_polys_len deg' = Ret l -> (l <= lenmem)%nat) ->
  exists rs p' r' W',
    levelsM fft expo two script (m * m) fuel (2 ^ h) deg p_stride rs0 normalize p r W b0 b1 b2
      = Ret (0%Z, (deg * 2 ^ h)%nat, rs, p', r', W') /\
    (h = 0%nat -> r' = r /\ W' = W) /\
    (h <> 0%nat -> rs = (deg * 2 ^ h + 1)%nat /\ length r' = length r /\ length p' = length p /\
      (exists c, zpow two W' = zpow two W * c /\
      smeq m (smscal c (mat_of m r' rs (deg * 2 ^ h) 0)) (smprod m (2 ^ h) (mat_of m p p_stride deg))) /\
      (normalize = false -> W' = W)).
Proof.
  induction h as [|h IH]; intros fuel deg rs0 p r W b0 b1 b2 Hf Hps Lp Lr L0 L1 L2 Hmem.
  { destruct fuel as [|fuel]; [lia|]. cbn [levelsM Nat.pow]. cbn [Nat.ltb Nat.leb].
    rewrite Nat.mul_1_r. do 4 eexists. split; [reflexivity|]. split; [auto|]. intros H; now destruct H. }
  destruct fuel as [|fuel]; [lia|]. cbn [levelsM].
  assert (Hpow : (1 <= 2 ^ h)%nat) by (apply Nat.neq_0_lt_0, Nat.pow_nonzero; lia).
  assert (E2 : (2 ^ S h = 2 * 2 ^ h)%nat) by (cbn [Nat.pow]; lia).
  destruct (Nat.ltb_spec (2 ^ S h) 2); [lia|].
  destruct (two_polys_len_spec deg) as (len & Elen & Hlen & Hlen1). rewrite Elen. cbn [bind].
  assert (Hd2 : (2 ^ S h / 2 = 2 ^ h)%nat) by (rewrite E2, Nat.mul_comm; apply Nat.div_mul; lia).
  assert (Hd3 : ((2 ^ S h + 1) / 2 = 2 ^ h)%nat).
  { rewrite E2, Nat.mul_comm, Nat.div_add_l by lia. simpl (1 / 2)%nat. lia. }
  assert (Hm2 : (2 ^ S h mod 2 = 0)%nat) by (rewrite E2, Nat.mul_comm; apply Nat.mod_mul; lia).
  rewrite Hd2, Hd3, Hm2. cbn [Nat.eqb negb].
  destruct (Hfft len Hlen1) as (w & Hw).
  assert (Hlm : (len <= lenmem)%nat) by (apply (Hmem deg); [nia|exact Elen]).
  set (rs := (2 ^ h * (2 * deg + 1))%nat).
  assert (Hrs : (rs <= p_stride)%nat) by (unfold rs; nia).
  assert (Hmr : (m * m * rs <= m * m * p_stride)%nat) by (apply Nat.mul_le_mono_l; exact Hrs).
  destruct (pairsM_spec deg len w Elen Hlen Hw p_stride (2 ^ h) ltac:(nia) p normalize Lp (2 ^ h) 0 r W b0 b1 b2)
    as (r1 & W1 & c0 & c1 & c2 & c & E & Lr1 & M0 & M1 & M2 & Hprod & _ & HW & HW0); try lia.
  rewrite !Nat.mul_0_l in E. fold rs in E. fold rs in Hprod. rewrite E. cbn [bind]. clear E.
  assert (Hp1 : smeq m (smscal (cprod (2 ^ h) c) (smprod m (2 ^ h) (mat_of m r1 rs (2 * deg))))
      (smprod m (2 ^ S h) (mat_of m p p_stride deg))).
  { rewrite E2. apply smprod_pairs. intros t Ht. apply Hprod. lia. }
  assert (HWc : zpow two W1 = zpow two W * cprod (2 ^ h) c).
  { rewrite HW. f_equal. }
  destruct h as [|h'].
  - (* last level *)
    cbn [Nat.pow] in *. cbn [Nat.ltb Nat.leb].
    destruct fuel as [|fuel]; [lia|]. cbn [bind levelsM Nat.ltb Nat.leb].
    exists rs, p, r1, W1. split.
    { reflexivity. }
    split; [discriminate|]. intros _. split; [unfold rs; lia|]. split; [exact Lr1|]. split; [reflexivity|].
    split; [|auto].
    exists (cprod 1 c). split; [exact HWc|].
    eapply smeq_trans; [|exact Hp1]. apply smscal_ext.
    replace (deg * (2 * 1))%nat with (2 * deg)%nat by lia. cbn [smprod].
    intros i j l Hi Hj. symmetry.
    (* smone * A = A *)
    unfold smmul, smone. rewrite (fsum_single m i); [|exact Hi|].
    + rewrite Nat.eqb_refl. rewrite smul_comm. apply smul_one_r.
    + intros k Hk Hne. destruct (Nat.eqb_spec i k); [congruence|]. unfold smul. apply fsum_zero'. intros; ring.
  - (* more levels *)
    assert (Hpow' : (1 <= 2 ^ h')%nat) by (apply Nat.neq_0_lt_0, Nat.pow_nonzero; lia).
    destruct (Nat.ltb_spec 1 (2 ^ S h')) as [_|Hx]; [|cbn [Nat.pow] in Hx; lia].
    assert (Hcl : (2 ^ S h' * (deg * 2 + 1) = rs)%nat) by (unfold rs; lia). rewrite Hcl.
    destruct (copy_back_spec r1 rs p_stride rs (m * m) 0 p) as (p2 & Ec & Lp2 & Hc & _).
    { exact Hrs. }
    { intros e He. assert ((e + 1) * rs <= m * m * rs)%nat by (apply Nat.mul_le_mono_r; lia). lia. }
    { intros e He. assert ((e + 1) * p_stride <= m * m * p_stride)%nat by (apply Nat.mul_le_mono_r; lia). lia. }
    rewrite Ec. cbn [bind].
    assert (Em : forall t, (t < 2 ^ S h')%nat -> smeq m (mat_of m p2 p_stride (2 * deg) t) (mat_of m r1 rs (2 * deg) t)).
    { intros t Ht i j l Hi Hj. unfold mat_of. destruct (Nat.leb_spec l (2 * deg)); [|reflexivity].
      rewrite <- !Nat.add_assoc. apply Hc; [pose proof (idx_lt m i j Hi Hj); lia|].
      assert ((t + 1) * (2 * deg + 1) <= 2 ^ S h' * (2 * deg + 1))%nat by (apply Nat.mul_le_mono_r; lia).
      unfold rs. lia. }
    destruct (IH fuel (deg * 2)%nat rs p2 r1 W1 c0 c1 c2) as (rs' & p' & r' & W' & EI & _ & HI); try lia.
    { intros deg' l Hd. apply Hmem. cbn [Nat.pow] in *. lia. }
    exists rs', p', r', W'. split.
    { rewrite EI. replace (deg * 2 * 2 ^ S h')%nat with (deg * 2 ^ S (S h'))%nat by (cbn [Nat.pow]; lia). reflexivity. }
    split; [discriminate|]. intros _. destruct (HI ltac:(lia)) as (Hrs' & Lr' & Lp' & (c' & HW' & Hsm) & HWn).
    assert (Edeg : (deg * 2 * 2 ^ S h' = deg * 2 ^ S (S h'))%nat) by (cbn [Nat.pow]; lia).
    rewrite Edeg in Hrs', Hsm.
    split; [exact Hrs'|]. split; [lia|]. split; [lia|]. split; [|intros Hn; rewrite HWn, HW0 by exact Hn; reflexivity].
    exists (cprod (2 ^ S h') c * c'). split; [rewrite HW', HWc; ring|].
    eapply smeq_trans; [|exact Hp1].
    intros i j l Hi Hj. unfold smscal. transitivity (cprod (2 ^ S h') c * (c' * mat_of m r' rs' (deg * 2 ^ S (S h')) 0 i j l)); [ring|].
    f_equal. specialize (Hsm i j l Hi Hj). unfold smscal in Hsm. rewrite Hsm.
    apply smprod_ext; try assumption. intros t Ht. rewrite (Nat.mul_comm deg 2). now apply Em.
Qed.
End Tree.
