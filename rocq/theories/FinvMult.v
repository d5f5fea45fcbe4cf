(** * The 2x2 product of polynomials with operands in different arrays *)
From Coq Require Import Reals List Lia.
From Coquelicot Require Import Coquelicot.
From Verif Require Import Base Mem Series Dft Fields CField MatSpec KissModel KissProof KissProps PolyFmultModel PolyFmultTwo PolyFmultScript PolyFmultTree PolyFmultProps FscatterModel FinvModel FinvAlg.
Import ListNotations.

Section Rev.
Context {K : cfield}.
Add Field KF : (cfield_th K).
Local Open Scope cf_scope.
Definition revs (n : nat) (p : nat -> K) : nat -> K := fun l => if (l <=? n)%nat then p (n - l)%nat else 0.
Lemma smul_windowed n (p q : nat -> K) m : (forall i, (n < i)%nat -> p i = 0) ->
  smul p q m = fsum (S n) (fun i => p i * (if (i <=? m)%nat then q (m - i)%nat else 0)).
Proof.
  intros Hp. unfold smul. destruct (Nat.le_gt_cases m n) as [H|H].
  - replace (S n) with (S m + (n - m))%nat by lia. rewrite fsum_split. rewrite (fsum_zero' (n - m)).
    2: { intros i Hi. destruct (Nat.leb_spec (S m + i) m); [lia|ring]. }
    transitivity (fsum (S m) (fun i => p i * (if (i <=? m)%nat then q (m - i)%nat else 0))); [|ring].
    apply fsum_ext. intros i Hi. destruct (Nat.leb_spec i m); [reflexivity|lia].
  - replace (S m) with (S n + (m - n))%nat by lia. rewrite fsum_split. rewrite (fsum_zero' (m - n)).
    2: { intros i Hi. rewrite Hp by lia. ring. }
    transitivity (fsum (S n) (fun i => p i * q (m - i)%nat)); [ring|].
    apply fsum_ext. intros i Hi. destruct (Nat.leb_spec i m); [reflexivity|lia].
Qed.
Lemma smul_revs n (p q : nat -> K) l : (forall i, (n < i)%nat -> p i = 0) -> (forall i, (n < i)%nat -> q i = 0) ->
  smul (revs n p) (revs n q) l = revs (2 * n) (smul p q) l.
Proof.
  intros Hp Hq. assert (Hp' : forall i, (n < i)%nat -> revs n p i = 0) by (intros i Hi; unfold revs; destruct (Nat.leb_spec i n); [lia|reflexivity]).
  assert (Hq' : forall i, (n < i)%nat -> revs n q i = 0) by (intros i Hi; unfold revs; destruct (Nat.leb_spec i n); [lia|reflexivity]).
  unfold revs at 3. destruct (Nat.leb_spec l (2 * n)) as [H|H].
  2: { apply (smul_support n n); auto; lia. }
  rewrite (smul_windowed n) by exact Hp'. rewrite (smul_windowed n p) by exact Hp. rewrite fsum_rev. apply fsum_ext. intros k Hk.
  replace (S n - 1 - k)%nat with (n - k)%nat by lia. unfold revs at 1. destruct (Nat.leb_spec (n - k) n); [|lia].
  replace (n - (n - k))%nat with k by lia. f_equal.
  destruct (Nat.leb_spec (n - k) l), (Nat.leb_spec k (2 * n - l)); unfold revs.
  - destruct (Nat.leb_spec (l - (n - k)) n); [|lia]. f_equal. lia.
  - destruct (Nat.leb_spec (l - (n - k)) n); [lia|reflexivity].
  - rewrite Hq by lia. reflexivity.
  - reflexivity.
Qed.
Lemma smul_ext_all (p p' q q' : nat -> K) l : (forall i, p i = p' i) -> (forall i, q i = q' i) -> smul p q l = smul p' q' l.
Proof. intros. apply smul_ext; auto. Qed.
(** blocks of equal length in a list *)
Lemma nth_blocks cnt (f : nat -> nat -> K) m : forall a k, (a < m)%nat -> (k < cnt)%nat ->
  nth (a * cnt + k) (concat (tabulate m (fun d => tabulate cnt (f d)))) 0 = f a k.
Proof.
  revert f. induction m as [|m IH]; intros f a k Ha Hk; [lia|]. rewrite tabulate_cons. cbn [concat].
  destruct a as [|a].
  - rewrite app_nth1 by (rewrite tabulate_length; lia). cbn [Nat.mul Nat.add]. now rewrite nth_tabulate by exact Hk.
  - rewrite app_nth2 by (rewrite tabulate_length; lia). rewrite tabulate_length.
    replace (S a * cnt + k - cnt)%nat with (a * cnt + k)%nat by lia. apply (IH (fun d => f (S d))); lia.
Qed.
Lemma blocks_length cnt (f : nat -> nat -> K) m : length (concat (tabulate m (fun d => tabulate cnt (f d)))) = (m * cnt)%nat.
Proof.
  revert f. induction m as [|m IH]; intros f; [reflexivity|]. rewrite tabulate_cons. cbn [concat]. rewrite app_length, tabulate_length.
  rewrite (IH (fun d => f (S d))). lia.
Qed.
End Rev.

(** the polynomial matrix stored (highest coefficient first) at offset o with the given stride and degree, lowest
   coefficient first *)
Definition low (a : list C) (o s n : nat) : nat -> nat -> nat -> C := fun i j l =>
  if (l <=? n)%nat then nth (o + (i * 2 + j) * s + (n - l)) a (RtoC 0) else RtoC 0.

Lemma mult2x2_spec deg A oA sA B oB sB res ro rs b0 b1 b2 len :
  two_polys_len deg = Ret len ->
  (oA + 3 * sA + (deg + 1) <= length A)%nat -> (oB + 3 * sB + (deg + 1) <= length B)%nat ->
  (ro + (2 * deg + 1) <= rs)%nat -> (4 * rs <= length res)%nat ->
  (len <= length b0)%nat -> (len <= length b1)%nat -> (len <= length b2)%nat ->
  exists res' b0' b1' b2', mult2x2 (len, 0%nat) deg A oA sA B oB sB res ro rs b0 b1 b2 = Ret (res', b0', b1', b2') /\
    length res' = length res /\ length b0' = length b0 /\ length b1' = length b1 /\ length b2' = length b2 /\
    smeq (K := CF) 2 (low res' ro rs (2 * deg)) (smmul (K := CF) 2 (low A oA sA deg) (low B oB sB deg)) /\
    (forall x, (forall d, (d < 4)%nat -> (x < ro + d * rs \/ ro + d * rs + (2 * deg + 1) <= x)%nat) -> nth x res' (RtoC 0) = nth x res (RtoC 0)).
Proof.
  intros Hlen LA LB Hrs Lr L0 L1 L2. unfold mult2x2. rewrite Hlen. cbn [bind fst snd]. rewrite Nat.eqb_refl. cbn [negb Nat.eqb].
  destruct (two_polys_len_spec deg) as (len' & El & Hge & Hge1). rewrite Hlen in El. injection El as <-.
  rewrite (read_blocks_spec (K := CF) 4 A oA sA (deg + 1)) by (intros d Hd; clear - Hd LA; change (car CF) with C; assert (d * sA <= 3 * sA)%nat by (apply Nat.mul_le_mono_r; lia); lia). cbn [bind].
  rewrite (read_blocks_spec (K := CF) 4 B oB sB (deg + 1)) by (intros d Hd; clear - Hd LB; change (car CF) with C; assert (d * sB <= 3 * sB)%nat by (apply Nat.mul_le_mono_r; lia); lia). cbn [bind].
  set (fA := fun d k => nth (oA + d * sA + k) A (RtoC 0)). set (fB := fun d k => nth (oB + d * sB + k) B (RtoC 0)).
  set (P := concat _).
  assert (EP : P = concat (tabulate 4 (fun d => tabulate (deg + 1) (fA d))) ++ concat (tabulate 4 (fun d => tabulate (deg + 1) (fB d)))) by apply concat_app.
  assert (LP : length P = (8 * (deg + 1))%nat).
  { rewrite EP, app_length. pose proof (blocks_length (K := CF) (deg + 1) fA 4) as E1. pose proof (blocks_length (K := CF) (deg + 1) fB 4) as E2.
    change (car CF) with C in E1, E2. rewrite E1, E2. lia. }
  assert (NA : forall ab k, (ab < 4)%nat -> (k < deg + 1)%nat -> nth (ab * (deg + 1) + k) P (RtoC 0) = fA ab k).
  { intros ab k Hab Hk. rewrite EP. pose proof (blocks_length (K := CF) (deg + 1) fA 4) as E1. change (car CF) with C in E1.
    rewrite app_nth1 by (rewrite E1; nia). exact (nth_blocks (K := CF) (deg + 1) fA 4 ab k Hab Hk). }
  assert (NB : forall ab k, (ab < 4)%nat -> (k < deg + 1)%nat -> nth (4 * (deg + 1) + ab * (deg + 1) + k) P (RtoC 0) = fB ab k).
  { intros ab k Hab Hk. rewrite EP. pose proof (blocks_length (K := CF) (deg + 1) fA 4) as E1. change (car CF) with C in E1.
    rewrite app_nth2 by (rewrite E1; nia). rewrite E1. replace (4 * (deg + 1) + ab * (deg + 1) + k - 4 * (deg + 1))%nat with (ab * (deg + 1) + k)%nat by lia.
    exact (nth_blocks (K := CF) (deg + 1) fB 4 ab k Hab Hk). }
  clearbody P. clear EP.
  destruct (script2_ok false) as (g & Eg & Lg & Hg & Hmodes & Hdest & Hsrc).
  pose proof (kiss_fft_ok len Hge1) as Hfft.
  destruct (calls_sound (K := CF) kiss_fft deg len (wroot false len) Hlen Hge Hfft P 0 (4 * (deg + 1)) (deg + 1) ro rs 4) with
    (L := (2 * deg + 1)%nat) (cs := script2 false) (g := mkg None None (repeat GAny 4)) (g' := g) (r := res) (b0 := b0) (b1 := b1) (b2 := b2) (r0 := res)
    as (r' & b0' & b1' & b2' & E & I & M0 & M1 & M2); try assumption.
  { intros ij Hij. pose proof (LP : @length (car CF) P = _) as LP'. rewrite LP'. nia. }
  { intros ij Hij. pose proof (LP : @length (car CF) P = _) as LP'. rewrite LP'. nia. }
  { apply le_n. }
  { constructor; cbn [g1 g2 gd]; auto; try exact Logic.I. split; [reflexivity|]. intros d Hd. rewrite nth_repeat. exact Logic.I. }
  { intros c Hc. destruct (Hmodes c Hc) as [Hm|Hm]; [now left|discriminate Hm]. }
  { intros c [ij|ij] Hc Ho; apply (Hsrc c ij Hc); tauto. }
  destruct I as [J0 J1 J2 J3 J4 J5 [J6 Hgd] J8].
  exists r', b0', b1', b2'. split; [exact E|]. split; [exact J3|]. split; [exact M0|]. split; [exact M1|]. split; [exact M2|].
  split; [|exact J8].
  intros i j l Hi Hj. unfold low at 1. change (0%nat + deg)%nat with deg in *.
  assert (Hser : forall a b, (a < 2)%nat -> (b < 2)%nat -> 
     (forall k, ser (K := CF) (opv (K := CF) deg P 0 (4 * (deg + 1)) (deg + 1) (P1 (a * 2 + b))) k = if (k <=? deg)%nat then fA (a * 2 + b)%nat k else RtoC 0) /\
     (forall k, ser (K := CF) (opv (K := CF) deg P 0 (4 * (deg + 1)) (deg + 1) (P2 (a * 2 + b))) k = if (k <=? deg)%nat then fB (a * 2 + b)%nat k else RtoC 0)).
  { intros a b Ha Hb. split; intros k; unfold ser, opv; destruct (Nat.leb_spec k deg).
    - rewrite nth_tabulate by lia. apply NA; lia.
    - apply nth_overflow. rewrite tabulate_length. lia.
    - rewrite nth_tabulate by lia. apply NB; lia.
    - apply nth_overflow. rewrite tabulate_length. lia. }
  pose proof (fun k => (Hser i k Hi)) as HserA.
  assert (HlowA : forall a b l, low A oA sA deg a b l = revs (K := CF) deg (fun k => if (k <=? deg)%nat then fA (a * 2 + b)%nat k else RtoC 0) l).
  { intros a b l0. unfold low, revs. destruct (Nat.leb_spec l0 deg); [|reflexivity]. destruct (Nat.leb_spec (deg - l0) deg); [reflexivity|lia]. }
  assert (HlowB : forall a b l, low B oB sB deg a b l = revs (K := CF) deg (fun k => if (k <=? deg)%nat then fB (a * 2 + b)%nat k else RtoC 0) l).
  { intros a b l0. unfold low, revs. destruct (Nat.leb_spec l0 deg); [|reflexivity]. destruct (Nat.leb_spec (deg - l0) deg); [reflexivity|lia]. }
  assert (Hsm : smmul (K := CF) 2 (low A oA sA deg) (low B oB sB deg) i j l
    = if (l <=? 2 * deg)%nat then fsum (K := CF) 2 (fun k => smul (K := CF) (ser (K := CF) (opv (K := CF) deg P 0 (4 * (deg + 1)) (deg + 1) (P1 (i * 2 + k))))
         (ser (K := CF) (opv (K := CF) deg P 0 (4 * (deg + 1)) (deg + 1) (P2 (k * 2 + j)))) (2 * deg - l)) else RtoC 0).
  { unfold smmul. transitivity (fsum (K := CF) 2 (fun k => revs (K := CF) (2 * deg) (smul (K := CF) (ser (K := CF) (opv (K := CF) deg P 0 (4 * (deg + 1)) (deg + 1) (P1 (i * 2 + k))))
         (ser (K := CF) (opv (K := CF) deg P 0 (4 * (deg + 1)) (deg + 1) (P2 (k * 2 + j))))) l)).
    - apply (fsum_ext (K := CF)). intros k Hk. destruct (Hser i k Hi Hk) as [HA _]. destruct (Hser k j Hk Hj) as [_ HB].
      rewrite <- (smul_revs (K := CF)).
      + apply (smul_ext_all (K := CF)); intros x; [rewrite HlowA|rewrite HlowB]; unfold revs; destruct (x <=? deg)%nat; try reflexivity; [rewrite HA|rewrite HB]; reflexivity.
      + intros x Hx. rewrite HA. destruct (Nat.leb_spec x deg); [lia|reflexivity].
      + intros x Hx. rewrite HB. destruct (Nat.leb_spec x deg); [lia|reflexivity].
    - unfold revs. destruct (l <=? 2 * deg)%nat; [reflexivity|]. apply (fsum_zero' (K := CF)). reflexivity. }
  rewrite Hsm. destruct (Nat.leb_spec l (2 * deg)) as [Hl|Hl]; [|reflexivity].
  pose proof (idx_lt 2 i j Hi Hj) as Hd. change (2 * 2)%nat with 4%nat in Hd. specialize (Hgd _ Hd).
  destruct (Hg _ Hd) as (ll & Ell & Enp). rewrite Ell in Hgd. cbn [ghas] in Hgd.
  etransitivity; [apply (Hgd (2 * deg - l)%nat); lia|].
  rewrite (norm_pairs_sp (K := CF) _ _ _ _ _ _ _ Enp).
  rewrite (fold_expected (K := CF) 2 (fun ab => smul (K := CF) (ser (opv (K := CF) deg P _ _ (deg + 1) (P1 (fst ab)))) (ser (opv (K := CF) deg P _ _ (deg + 1) (P2 (snd ab)))) _)).
  apply (fsum_ext (K := CF)). intros k Hk. cbn [fst snd].
  rewrite Nat.div_add_l, (Nat.div_small j 2), Nat.add_0_r by lia.
  rewrite (Nat.add_comm (i * 2) j), Nat.mod_add, Nat.mod_small by lia. reflexivity.
Qed.
