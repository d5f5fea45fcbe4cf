(** * poly_fmult, poly_fmult2x2, poly_fmult3x3: padding, levels, result *)
From Verif Require Import Base Mem Series Dft KissModel MiscModel MiscProof PolyFmultModel PolyFmultTwo PolyFmultScript PolyFmultTree.

Lemma np2_ok n : 1 <= n -> (Z.of_nat n <= 2 ^ 63)%Z ->
  exists k, np2 n = Ret (2 ^ k) /\ n <= 2 ^ k /\ (2 <= n -> 1 <= k) /\ (forall j, n <= 2 ^ j -> k <= j).
Proof.
  intros Hn Hn2. destruct (np2_spec (Z.of_nat n)) as (k & _ & E & H1 & H2); [lia|].
  exists k. unfold np2. rewrite E. cbn [opt bind].
  assert (Ek : Z.to_nat (2 ^ Z.of_nat k) = 2 ^ k) by (rewrite <- (Nat2Z.id (2 ^ k)), Nat2Z.inj_pow; reflexivity).
  assert (Hle : n <= 2 ^ k) by (apply Nat2Z.inj_le; rewrite Nat2Z.inj_pow; exact H1).
  rewrite Ek. split; [reflexivity|]. split; [exact Hle|]. split.
  - intros H. destruct k; [simpl in Hle; lia|lia].
  - intros j Hj. apply H2. apply Nat2Z.inj_le in Hj. now rewrite Nat2Z.inj_pow in Hj.
Qed.

Section P.
Context {K : cfield}.
Add Field KF : (cfield_th K).
Local Open Scope cf_scope.

(** ** padding *)
Lemma spread_spec n N cnt : (n <= N)%nat -> forall d (p : list K),
  ((d + 1) * (N * cnt) <= length p)%nat ->
  exists p', spread d n N cnt p = Ret p' /\ length p' = length p /\
    (forall e k, (e <= d)%nat -> (k < n * cnt)%nat -> nth (e * (N * cnt) + k) p' 0 = nth (e * (n * cnt) + k) p 0) /\
    (forall i, ((d + 1) * (N * cnt) <= i)%nat -> nth i p' 0 = nth i p 0).
Proof.
  intros HnN. assert (HnN' : (n * cnt <= N * cnt)%nat) by (apply Nat.mul_le_mono_r; exact HnN).
  induction d as [|d IH]; intros p Hl.
  { exists p. split; [reflexivity|]. split; [reflexivity|]. split; [|auto]. intros e k He Hk.
    replace e with 0%nat by lia. reflexivity. }
  cbn [spread].
  assert (Hd : (S d * (n * cnt) <= S d * (N * cnt))%nat) by (apply Nat.mul_le_mono_l; exact HnN').
  rewrite (rd_tab p (S d * (n * cnt)) (n * cnt) 0) by lia. cbn [bind].
  destruct (wr_ok p (S d * (N * cnt)) (tabulate (n * cnt) (fun i => nth (S d * (n * cnt) + i) p 0)) 0) as (p1 & E1 & L1 & H1).
  { rewrite tabulate_length. lia. }
  rewrite E1. cbn [bind]. rewrite tabulate_length in H1.
  destruct (IH p1) as (p' & E & L & H & F); [lia|].
  exists p'. split; [exact E|]. split; [lia|]. split.
  - intros e k He Hk. destruct (Nat.eq_dec e (S d)) as [->|Hne].
    + rewrite F by lia. rewrite H1. destruct (Nat.leb_spec (S d * (N * cnt)) (S d * (N * cnt) + k)); [|lia].
      destruct (Nat.ltb_spec (S d * (N * cnt) + k) (S d * (N * cnt) + n * cnt)); [|lia]. cbn [andb].
      rewrite nth_tabulate by lia. f_equal. lia.
    + rewrite H by lia. rewrite H1.
      assert ((e + 1) * (n * cnt) <= S d * (n * cnt))%nat by (apply Nat.mul_le_mono_r; lia).
      destruct (Nat.leb_spec (S d * (N * cnt)) (e * (n * cnt) + k)); [lia|reflexivity].
  - intros i Hi. rewrite F by lia. rewrite H1.
    destruct (Nat.leb_spec (S d * (N * cnt)) i); cbn [andb]; [|reflexivity].
    destruct (Nat.ltb_spec i (S d * (N * cnt) + n * cnt)); [lia|reflexivity].
Qed.

Lemma pad_entry_spec deg lead : forall fuel off (p : list K),
  (off + fuel * (deg + 1) <= length p)%nat ->
  exists p', pad_entry fuel deg off lead p = Ret p' /\ length p' = length p /\
    (forall t l, (t < fuel)%nat -> (l <= deg)%nat -> nth (off + t * (deg + 1) + l) p' 0 = lead * sone l) /\
    (forall i, (i < off \/ off + fuel * (deg + 1) <= i)%nat -> nth i p' 0 = nth i p 0).
Proof.
  induction fuel as [|fuel IH]; intros off p Hl.
  { exists p. split; [reflexivity|]. split; [reflexivity|]. split; [intros; lia|auto]. }
  cbn [pad_entry].
  destruct (wr_ok p off (lead :: repeat 0 deg) 0) as (p1 & E1 & L1 & H1).
  { cbn [length]. rewrite repeat_length. lia. }
  rewrite E1. cbn [bind]. cbn [length] in H1. rewrite repeat_length in H1.
  destruct (IH (off + (deg + 1))%nat p1) as (p' & E & L & H & F); [lia|].
  exists p'. split; [exact E|]. split; [lia|]. split.
  - intros [|t] l Ht Hl'.
    + rewrite F by lia. rewrite H1. destruct (Nat.leb_spec off (off + 0 * (deg + 1) + l)); [|lia].
      destruct (Nat.ltb_spec (off + 0 * (deg + 1) + l) (off + S deg)); [|lia]. cbn [andb].
      replace (off + 0 * (deg + 1) + l - off)%nat with l by lia.
      destruct l; cbn [nth sone]; [ring|]. rewrite nth_repeat. ring.
    + rewrite <- (H t l) by lia. f_equal. lia.
  - intros i Hi. rewrite F by lia. rewrite H1. destruct (Nat.leb_spec off i); cbn [andb]; [|reflexivity].
    destruct (Nat.ltb_spec i (off + S deg)); [lia|reflexivity].
Qed.

Lemma pad1_eq fuel : forall deg off (p : list K), pad1 fuel deg off p = pad_entry fuel deg off 1 p.
Proof. induction fuel as [|fuel IH]; intros deg off p; [reflexivity|]. cbn [pad1 pad_entry]. destruct (wr p off _); [apply IH|reflexivity]. Qed.

Lemma pad_entries_spec m n N deg : (n <= N)%nat -> forall cnt d (p : list K),
  ((d + cnt) * (N * (deg + 1)) <= length p)%nat ->
  exists p', pad_entries cnt d m n N deg p = Ret p' /\ length p' = length p /\
    (forall e t l, (d <= e < d + cnt)%nat -> (n <= t < N)%nat -> (l <= deg)%nat ->
       nth (e * (N * (deg + 1)) + t * (deg + 1) + l) p' 0 = (if Nat.eqb (e / m) (e mod m) then 1 else 0) * sone l) /\
    (forall e k, (k < n * (deg + 1))%nat -> nth (e * (N * (deg + 1)) + k) p' 0 = nth (e * (N * (deg + 1)) + k) p 0) /\
    (forall i, (i < d * (N * (deg + 1)))%nat -> nth i p' 0 = nth i p 0).
Proof.
  intros HnN. assert (HnN' : (n * (deg + 1) + (N - n) * (deg + 1) = N * (deg + 1))%nat) by nia.
  set (S0 := (N * (deg + 1))%nat) in *.
  induction cnt as [|cnt IH]; intros d p Hl.
  { exists p. split; [reflexivity|]. split; [reflexivity|]. split; [intros; lia|auto]. }
  cbn [pad_entries].
  destruct (pad_entry_spec deg (if Nat.eqb (d / m) (d mod m) then 1 else 0) (N - n) (d * S0 + n * (deg + 1)) p)
    as (p1 & E1 & L1 & H1 & F1); [lia|].
  fold S0. rewrite E1. cbn [bind].
  destruct (IH (S d) p1) as (p' & E & L & H & G & F); [lia|].
  exists p'. split; [exact E|]. split; [lia|]. split; [|split].
  - intros e t l He Ht Hl'. destruct (Nat.eq_dec e d) as [->|Hne]; [|apply H; lia].
    assert ((t + 1) * (deg + 1) <= S0)%nat by (apply Nat.mul_le_mono_r; lia).
    rewrite F by lia. rewrite <- (H1 (t - n)%nat l) by lia. f_equal. nia.
  - intros e k Hk. rewrite G by exact Hk. apply F1.
    destruct (Nat.lt_trichotomy e d) as [Q|[Q|Q]].
    + left. assert ((e + 1) * S0 <= d * S0)%nat by (apply Nat.mul_le_mono_r; lia). lia.
    + left. subst e. lia.
    + right. assert ((d + 1) * S0 <= e * S0)%nat by (apply Nat.mul_le_mono_r; lia). lia.
  - intros i Hi. rewrite F by lia. apply F1. left. lia.
Qed.

(** ** shrink *)
Lemma shrink_spec rs deg : (deg + 1 <= rs)%nat -> forall cnt d (r : list K),
  ((d + cnt) * rs <= length r)%nat ->
  exists r', shrink cnt d rs deg r = Ret r' /\ length r' = length r /\
    (forall e k, (d <= e < d + cnt)%nat -> (k <= deg)%nat -> nth (e * (deg + 1) + k) r' 0 = nth (e * rs + k) r 0) /\
    (forall i, (i < d * (deg + 1))%nat -> nth i r' 0 = nth i r 0).
Proof.
  intros Hrs. induction cnt as [|cnt IH]; intros d r Hl.
  { exists r. split; [reflexivity|]. split; [reflexivity|]. split; [intros; lia|auto]. }
  cbn [shrink]. rewrite (rd_tab r (d * rs) (deg + 1) 0) by lia. cbn [bind].
  assert (Hd : (d * (deg + 1) <= d * rs)%nat) by (apply Nat.mul_le_mono_l; exact Hrs).
  destruct (wr_ok r (d * (deg + 1)) (tabulate (deg + 1) (fun i => nth (d * rs + i) r 0)) 0) as (r1 & E1 & L1 & H1).
  { rewrite tabulate_length. lia. }
  rewrite E1. cbn [bind]. rewrite tabulate_length in H1.
  destruct (IH (S d) r1) as (r' & E & L & H & F); [lia|].
  exists r'. split; [exact E|]. split; [lia|]. split.
  - intros e k He Hk. destruct (Nat.eq_dec e d) as [->|Hne].
    + rewrite F by lia. rewrite H1. destruct (Nat.leb_spec (d * (deg + 1)) (d * (deg + 1) + k)); [|lia].
      destruct (Nat.ltb_spec (d * (deg + 1) + k) (d * (deg + 1) + (deg + 1))); [|lia]. cbn [andb].
      rewrite nth_tabulate by lia. f_equal. lia.
    + rewrite H by lia. rewrite H1.
      assert ((d + 1) * (deg + 1) <= e * rs)%nat by (apply Nat.mul_le_mono; lia).
      destruct (Nat.leb_spec (d * (deg + 1)) (e * rs + k)); cbn [andb]; [|reflexivity].
      destruct (Nat.ltb_spec (e * rs + k) (d * (deg + 1) + (deg + 1))); [lia|reflexivity].
  - intros i Hi. rewrite F by lia. rewrite H1. destruct (Nat.leb_spec (d * (deg + 1)) i); [lia|reflexivity].
Qed.

Variable fft : bool -> nat -> list K -> out (list K).
Variable expo : list K -> Z.
Variable two : K.
Hypothesis Hfft : forall len, (1 <= len)%nat -> exists w, fft_ok fft len w.
Hypothesis Htwo : two <> 0.

Variables junk0 junk1 junk2 : nat -> list K.
Hypothesis Hj0 : forall l, length (junk0 l) = l.
Hypothesis Hj1 : forall l, length (junk1 l) = l.
Hypothesis Hj2 : forall l, length (junk2 l) = l.

Lemma pow_gt n : (n < 2 ^ n)%nat.
Proof. apply Nat.pow_gt_lin_r. lia. Qed.

(** ** 2x2 and 3x3 *)
Section M.
Variable script : bool -> list call.
Variable m : nat.
Hypothesis Hm : m <> 0%nat.
Hypothesis Hscript : script_ok m script.

Theorem poly_fmultM_spec normalize d n p result numel :
  (2 <= n)%nat -> (Z.of_nat n <= 2 ^ 63)%Z ->
  fmult_numel (m * m) d n = Ret numel -> (numel <= length p)%nat -> (numel <= length result)%nat ->
  exists p' r' W, poly_fmultM fft expo two script m junk0 junk1 junk2 normalize d n p result = Ret (0%Z, (n * d)%nat, p', r', W) /\
    length p' = length p /\ length r' = length result /\ (normalize = false -> W = 0%Z) /\
    smeq m (smscal (zpow two W) (mat_of m r' (n * d + 1) (n * d) 0)) (smprod m n (mat_of m p (n * (d + 1)) d)).
Proof.
  intros Hn Hn2 Hnum Lp Lr.
  destruct (np2_ok n ltac:(lia) Hn2) as (h & EN & HnN & Hh & _). specialize (Hh Hn).
  unfold fmult_numel in Hnum. rewrite EN in Hnum. cbn [bind] in Hnum. injection Hnum as <-.
  unfold poly_fmultM. rewrite EN. cbn [bind].
  set (N := (2 ^ h)%nat) in *.
  assert (HN2 : (2 <= N)%nat) by (unfold N; destruct h; [lia|]; cbn [Nat.pow]; pose proof (pow_gt h); lia).
  set (ps := (N * (d + 1))%nat).
  assert (Hps : (m * m * ps = m * m * (d + 1) * N)%nat) by (unfold ps; lia).
  (* padding *)
  assert (P : exists p1, (if n <? N then p0 <- spread (m * m - 1) n N (d + 1) p ;; pad_entries (m * m) 0 m n N d p0 else Ret p) = Ret p1
     /\ length p1 = length p /\
     (forall t, (t < n)%nat -> smeq m (mat_of m p1 ps d t) (mat_of m p (n * (d + 1)) d t)) /\
     (forall t, (n <= t < N)%nat -> smeq m (mat_of m p1 ps d t) smone)).
  { destruct (Nat.ltb_spec n N) as [HlN|HgN].
    - destruct (spread_spec n N (d + 1) HnN (m * m - 1) p) as (p0 & E0 & L0 & H0 & _).
      { replace (m * m - 1 + 1)%nat with (m * m)%nat by nia. fold ps. lia. }
      rewrite E0. cbn [bind].
      destruct (pad_entries_spec m n N d HnN (m * m) 0 p0) as (p1 & E1 & L1 & H1 & G1 & _).
      { cbn [Nat.add]. fold ps. lia. }
      exists p1. split; [exact E1|]. split; [lia|]. split.
      + intros t Ht i j l Hi Hj. unfold mat_of. destruct (Nat.leb_spec l d); [|reflexivity].
        assert ((t + 1) * (d + 1) <= n * (d + 1))%nat by (apply Nat.mul_le_mono_r; lia).
        rewrite <- !Nat.add_assoc. unfold ps. rewrite G1 by lia. rewrite H0; [reflexivity| |lia].
        pose proof (idx_lt m i j Hi Hj). lia.
      + intros t Ht i j l Hi Hj. pose proof (idx_lt m i j Hi Hj).
        unfold mat_of, smone. destruct (Nat.leb_spec l d) as [Hl|Hl].
        * unfold ps. rewrite H1 by lia.
          rewrite Nat.div_add_l, (Nat.div_small j m), Nat.add_0_r by assumption.
          rewrite (Nat.add_comm (i * m) j), Nat.mod_add, Nat.mod_small by assumption.
          destruct (Nat.eqb i j); ring.
        * destruct (Nat.eqb i j); [|reflexivity]. destruct l; [lia|reflexivity].
    - exists p. replace n with N by lia. split; [reflexivity|]. split; [reflexivity|].
      split; [intros; apply smeq_refl|intros; lia]. }
  destruct P as (p1 & E1 & L1 & H1 & H2).
  rewrite E1. cbn [bind].
  destruct (two_polys_len_spec (d * N / 2)%nat) as (lenmem & Elen & _ & _). rewrite Elen. cbn [bind].
  destruct (Nat.ltb_spec N 2); [lia|].
  destruct (levelsM_spec expo two fft script m Hscript Htwo Hfft normalize ps lenmem h (S N) d 0 p1 result 0%Z
     (junk0 lenmem) (junk1 lenmem) (junk2 lenmem)) as (rs & p' & r' & W & E & _ & HI); auto.
  { unfold N. pose proof (pow_gt h). lia. }
  { rewrite L1. fold ps. lia. }
  { fold ps. lia. }
  { intros deg' l Hd El. apply (two_polys_len_mono deg' (d * N / 2)%nat l lenmem); auto.
    apply Nat.div_le_lower_bound; [lia|]. exact Hd. }
  fold ps. fold N in E. rewrite E. cbn [bind]. cbn [Z.eqb negb].
  destruct (HI ltac:(lia)) as (Hrs & Lr' & Lp' & (c & HW & Hsm) & HWn). clear HI. fold N in Hrs, Hsm.
  assert (Hc : c = zpow two W) by (rewrite HW; cbn; ring). subst c. clear HW.
  assert (Hfull : smeq m (smscal (zpow two W) (mat_of m r' rs (d * N) 0)) (smprod m n (mat_of m p (n * (d + 1)) d))).
  { eapply smeq_trans; [exact Hsm|].
    set (A := fun t => if (t <? n)%nat then mat_of m p (n * (d + 1)) d t else smone).
    eapply smeq_trans; [apply (smprod_ext m N (mat_of m p1 ps d) A)|].
    - intros t Ht. unfold A. destruct (Nat.ltb_spec t n); [now apply H1|apply H2; lia].
    - replace N with (n + (N - n))%nat by lia. eapply smeq_trans; [apply smprod_pad|].
      + intros t Ht. unfold A. destruct (Nat.ltb_spec t n); [lia|apply smeq_refl].
      + apply smprod_ext. intros t Ht. unfold A. destruct (Nat.ltb_spec t n); [apply smeq_refl|lia]. }
  assert (HndN : (n * d <= d * N)%nat) by nia.
  destruct (Nat.ltb_spec n N) as [HlN|HgN].
  - replace (d * N - (N - n) * d)%nat with (n * d)%nat by nia.
    destruct (shrink_spec rs (n * d) ltac:(lia) (m * m - 1) 1 r') as (r2 & E2 & L2 & S2 & F2).
    { replace (1 + (m * m - 1))%nat with (m * m)%nat by nia. rewrite Lr'. rewrite Hrs.
      assert (m * m * (d * N + 1) <= m * m * ps)%nat by (apply Nat.mul_le_mono_l; unfold ps; nia). lia. }
    rewrite E2. cbn [bind]. exists p', r2, W. split; [reflexivity|]. split; [lia|]. split; [lia|].
    split; [exact HWn|].
    intros i j l Hi Hj. unfold smscal.
    destruct (Nat.le_gt_cases l (n * d)) as [Hl|Hl].
    + rewrite <- (Hfull i j l Hi Hj). unfold smscal. f_equal. unfold mat_of.
      destruct (Nat.leb_spec l (n * d)); [|lia]. destruct (Nat.leb_spec l (d * N)); [|lia].
      rewrite !Nat.mul_0_l, !Nat.add_0_r.
      destruct (Nat.eq_dec (i * m + j) 0) as [E0|E0].
      * rewrite E0. rewrite !Nat.mul_0_l. apply F2. lia.
      * pose proof (idx_lt m i j Hi Hj). apply S2; lia.
    + rewrite (mat_of_supp m r2 (n * d + 1) (n * d) 0 i j l Hi Hj Hl).
      rewrite (smprod_supp m n d _ (fun t _ => mat_of_supp m p (n * (d + 1)) d t) i j l Hi Hj Hl). ring.
  - assert (EnN : N = n) by lia.
    assert (Edn : (d * N = n * d)%nat) by (rewrite EnN; lia). rewrite Edn in *.
    exists p', r', W. split; [reflexivity|]. split; [lia|]. split; [lia|]. split; [exact HWn|].
    rewrite Hrs in Hfull. exact Hfull.
Qed.
End M.

(** ** the scalar version, in place *)
Definition pol (p : list K) (deg t : nat) : nat -> K := mat_of 1 p 0 deg t 0%nat 0%nat.

Section Pairs1.
Variables (deg len : nat) (w : K).
Hypothesis Hlen : two_polys_len deg = Ret len.
Hypothesis Hlen2 : (2 * deg + 1 <= len)%nat.
Hypothesis Hw : fft_ok fft len w.
Variables (h : nat) (normalize : bool).

Lemma pairs1_spec : forall fuel s p W b0 b1 b2,
  (s + fuel = h)%nat -> (h * (2 * deg + 2) <= length p)%nat ->
  (len <= length b0)%nat -> (len <= length b1)%nat -> (len <= length b2)%nat ->
  exists p' W' b0' b1' b2' c,
    pairs1 fft expo two fuel deg (s * (2 * deg + 2)) (s * (2 * deg + 1)) normalize p W b0 b1 b2
      = Ret (p', W', b0', b1', b2') /\
    length p' = length p /\ length b0' = length b0 /\ length b1' = length b1 /\ length b2' = length b2 /\
    (forall t, (s <= t < h)%nat -> forall l, c t * pol p' (2 * deg) t l
        = smul (pol p deg (2 * t)) (pol p deg (2 * t + 1)) l) /\
    (forall t l, (t < s)%nat -> pol p' (2 * deg) t l = pol p (2 * deg) t l) /\
    zpow two W' = zpow two W * cprod fuel (fun t => c (s + t)%nat) /\ (normalize = false -> W' = W).
Proof.
  induction fuel as [|fuel IH]; intros s p W b0 b1 b2 Hsf Lp L0 L1 L2.
  { exists p, W, b0, b1, b2, (fun _ => 1). cbn [pairs1 cprod]. repeat (split; [reflexivity|]).
    split; [intros t Ht; lia|]. split; [intros; reflexivity|]. split; [ring|auto]. }
  cbn [pairs1].
  assert (Hs2 : ((s + 1) * (2 * deg + 2) <= h * (2 * deg + 2))%nat) by (apply Nat.mul_le_mono_r; lia).
  rewrite (rd_tab p (s * (2 * deg + 2)) (deg + 1) 0) by lia. cbn [bind].
  rewrite (rd_tab p (s * (2 * deg + 2) + (deg + 1)) (deg + 1) 0) by lia. cbn [bind].
  set (q1 := tabulate (deg + 1) (fun i => nth (s * (2 * deg + 2) + i) p 0)).
  set (q2 := tabulate (deg + 1) (fun i => nth (s * (2 * deg + 2) + (deg + 1) + i) p 0)).
  destruct (two_polys_spec fft deg len w Hlen Hlen2 Hw (Some q1) (Some q2) q1 q2 p (s * (2 * deg + 1)) b0 b1 b2 0%nat
     WAny (WCoef (smul (ser q1) (ser q2)))) as (p1 & c0 & c1 & c2 & E1 & Lp1 & N0 & N1 & N2 & _ & _ & P1 & F1); auto.
  { cbn [wsize]. lia. }
  { split; [apply tabulate_length|reflexivity]. } { split; [apply tabulate_length|reflexivity]. }
  { exact Logic.I. }
  rewrite E1. cbn [bind]. cbn [wsize whas] in *.
  assert (R : exists a p2, (if normalize then rescale expo two 1 p1 (s * (2 * deg + 1)) 0 (2 * deg + 1) else Ret (0%Z, p1))
      = Ret (a, p2) /\ length p2 = length p1 /\
      (forall k, (k < 2 * deg + 1)%nat ->
        nth (s * (2 * deg + 1) + k) p2 0 = nth (s * (2 * deg + 1) + k) p1 0 * zpow two (- a)) /\
      (forall i, (i < s * (2 * deg + 1) \/ s * (2 * deg + 1) + (2 * deg + 1) <= i)%nat -> nth i p2 0 = nth i p1 0) /\
      (normalize = false -> a = 0%Z)).
  { destruct normalize.
    - destruct (rescale_spec expo two 1 p1 (s * (2 * deg + 1)) 0 (2 * deg + 1)) as (a & r2 & Ea & La & Ha & Fa).
      + left. lia.
      + intros d Hd. lia.
      + exists a, r2. split; [assumption|]. split; [assumption|]. split; [|split; [|discriminate]].
        * intros k Hk. specialize (Ha 0%nat k ltac:(lia) Hk). now rewrite Nat.mul_0_l, Nat.add_0_r in Ha.
        * intros i Hi. apply Fa. intros d Hd. lia.
    - exists 0%Z, p1. split; [reflexivity|]. split; [reflexivity|]. split; [|auto].
      intros k _. cbn. ring. }
  destruct R as (a & p2 & ER & Lp2 & H2 & F2 & Ha0). rewrite ER. cbn [bind].
  destruct (IH (S s) p2 (W + a)%Z c0 c1 c2) as (p' & W' & b0' & b1' & b2' & c & E & Lr' & M0 & M1 & M2 & Hprod & Hfr & HW & HW0); try lia.
  replace (s * (2 * deg + 2) + (2 * deg + 2))%nat with (S s * (2 * deg + 2))%nat by lia.
  replace (s * (2 * deg + 1) + (2 * deg + 1))%nat with (S s * (2 * deg + 1))%nat by lia.
  rewrite E.
  exists p', W', b0', b1', b2', (fun t => if Nat.eqb t s then zpow two a else c t).
  split; [reflexivity|]. repeat (split; [lia|]). split; [|split; [|split]].
  - intros t Ht l. destruct (Nat.eqb_spec t s) as [->|Hne].
    + rewrite (Hfr s l ltac:(lia)).
      destruct (Nat.le_gt_cases l (2 * deg)) as [Hl|Hl].
      * unfold pol at 1, mat_of. destruct (Nat.leb_spec l (2 * deg)); [|lia].
        rewrite Nat.mul_0_l, Nat.add_0_l.
        replace (0 * 0 + s * (2 * deg + 1) + l)%nat with (s * (2 * deg + 1) + l)%nat by lia.
        rewrite H2 by lia. rewrite P1 by lia.
        transitivity (zpow two a * zpow two (- a) * smul (ser q1) (ser q2) l); [ring|].
        rewrite zpow_neg by exact Htwo.
        rewrite (smul_ext (ser q1) (pol p deg (2 * s)) (ser q2) (pol p deg (2 * s + 1))); [ring| |];
          intros i _; unfold ser, q1, q2, pol, mat_of; destruct (Nat.leb_spec i deg);
          try (apply nth_overflow; rewrite tabulate_length; lia); rewrite nth_tabulate by lia; f_equal; lia.
      * unfold pol at 1. rewrite (mat_of_supp 1 _ _ _ _ 0%nat 0%nat l ltac:(lia) ltac:(lia) Hl).
        rewrite (smul_support deg deg); [ring| | |lia]; intros i Hi; unfold pol; apply (mat_of_supp 1); lia.
    + rewrite (Hprod t ltac:(lia) l).
      apply smul_ext; intros i _; unfold pol, mat_of; (destruct (Nat.leb_spec i deg); [|reflexivity]);
        (assert ((s + 1) * (2 * deg + 2) <= t * (2 * deg + 2))%nat by (apply Nat.mul_le_mono_r; lia));
        rewrite F2, F1 by lia; reflexivity.
  - intros t l Ht. rewrite (Hfr t l ltac:(lia)). unfold pol, mat_of.
    destruct (Nat.leb_spec l (2 * deg)); [|reflexivity].
    assert ((t + 1) * (2 * deg + 1) <= s * (2 * deg + 1))%nat by (apply Nat.mul_le_mono_r; lia).
    rewrite F2, F1 by lia. reflexivity.
  - rewrite HW, zpow_add by exact Htwo.
    assert (Ec : forall n f, cprod (K:=K) (S n) f = f 0%nat * cprod n (fun t => f (S t))).
    { induction n as [|n IHn]; intros f; [cbn; ring|]. change (cprod (S (S n)) f) with (cprod (S n) f * f (S n)).
      rewrite IHn. cbn [cprod]. ring. }
    rewrite Ec. rewrite Nat.add_0_r, Nat.eqb_refl.
    assert (Ex : forall n f g, (forall t, (t < n)%nat -> f t = g t) -> cprod (K:=K) n f = cprod n g).
    { induction n as [|n IHn]; intros f g Hfg; [reflexivity|]. cbn [cprod]. rewrite (IHn f g), (Hfg n) by auto. reflexivity. }
    rewrite (Ex fuel (fun t => if Nat.eqb (s + S t) s then zpow two a else c (s + S t)%nat) (fun t => c (S s + t)%nat)).
    + ring.
    + intros t Ht. destruct (Nat.eqb_spec (s + S t) s); [lia|]. f_equal. lia.
  - intros Hn. rewrite HW0, Ha0 by exact Hn. lia.
Qed.
End Pairs1.

Lemma smeq1 (A B : @smat K) : (forall l, A 0%nat 0%nat l = B 0%nat 0%nat l) -> smeq 1 A B.
Proof. intros H i j l Hi Hj. replace i with 0%nat by lia. replace j with 0%nat by lia. apply H. Qed.
Lemma smmul1 (A B : @smat K) l : smmul 1 A B 0%nat 0%nat l = smul (A 0%nat 0%nat) (B 0%nat 0%nat) l.
Proof. unfold smmul. cbn [fsum]. ring. Qed.

Lemma levels1_spec normalize lenmem : forall h fuel deg p W b0 b1 b2,
  (h < fuel)%nat -> (2 ^ h * (deg + 1) <= length p)%nat ->
  length b0 = lenmem -> length b1 = lenmem -> length b2 = lenmem ->
  (forall deg' l, (2 * deg' <= deg * 2 ^ h)%nat -> two_polys_len deg' = Ret l -> (l <= lenmem)%nat) ->
  exists p' W' c,
    levels1 fft expo two fuel (2 ^ h) deg normalize p W b0 b1 b2 = Ret (0%Z, (deg * 2 ^ h)%nat, p', W') /\
    length p' = length p /\ zpow two W' = zpow two W * c /\ (normalize = false -> W' = W) /\
    smeq 1 (smscal c (mat_of 1 p' 0 (deg * 2 ^ h) 0)) (smprod 1 (2 ^ h) (mat_of 1 p 0 deg)).
Proof.
  induction h as [|h IH]; intros fuel deg p W b0 b1 b2 Hf Lp L0 L1 L2 Hmem.
  { destruct fuel as [|fuel]; [lia|]. cbn [levels1 Nat.pow Nat.ltb Nat.leb].
    rewrite Nat.mul_1_r. exists p, W, 1. split; [reflexivity|]. split; [reflexivity|]. split; [ring|]. split; [auto|].
    apply smeq1. intros l. unfold smscal. cbn [smprod]. rewrite smmul1. unfold smone. cbn [Nat.eqb].
    rewrite smul_comm, smul_one_r. ring. }
  destruct fuel as [|fuel]; [lia|]. cbn [levels1].
  assert (Hpow : (1 <= 2 ^ h)%nat) by (apply Nat.neq_0_lt_0, Nat.pow_nonzero; lia).
  assert (E2 : (2 ^ S h = 2 * 2 ^ h)%nat) by (cbn [Nat.pow]; lia).
  destruct (Nat.ltb_spec (2 ^ S h) 2); [lia|].
  destruct (two_polys_len_spec deg) as (len & Elen & Hlen & Hlen1).
  assert (Hd2 : (2 ^ S h / 2 = 2 ^ h)%nat) by (rewrite E2, Nat.mul_comm; apply Nat.div_mul; lia).
  assert (Hd3 : ((2 ^ S h + 1) / 2 = 2 ^ h)%nat).
  { rewrite E2, Nat.mul_comm, Nat.div_add_l by lia. simpl (1 / 2)%nat. lia. }
  assert (Hm2 : (2 ^ S h mod 2 = 0)%nat) by (rewrite E2, Nat.mul_comm; apply Nat.mod_mul; lia).
  rewrite Hd2, Hd3, Hm2. cbn [Nat.eqb negb].
  destruct (Hfft len Hlen1) as (w & Hw).
  assert (Hlm : (len <= lenmem)%nat) by (apply (Hmem deg); [nia|exact Elen]).
  destruct (pairs1_spec deg len w Elen Hlen Hw (2 ^ h) normalize (2 ^ h) 0 p W b0 b1 b2)
    as (p1 & W1 & c0 & c1 & c2 & c & E & Lp1 & M0 & M1 & M2 & Hprod & _ & HW & HW0); try lia.
  rewrite !Nat.mul_0_l in E. rewrite E. cbn [bind]. clear E.
  assert (Hp1 : smeq 1 (smscal (cprod (2 ^ h) c) (smprod 1 (2 ^ h) (mat_of 1 p1 0 (2 * deg))))
      (smprod 1 (2 ^ S h) (mat_of 1 p 0 deg))).
  { rewrite E2. apply smprod_pairs. intros t Ht. apply smeq1. intros l. unfold smscal. rewrite smmul1.
    apply (Hprod t). lia. }
  assert (HWc : zpow two W1 = zpow two W * cprod (2 ^ h) c) by (rewrite HW; reflexivity).
  destruct (IH fuel (deg * 2)%nat p1 W1 c0 c1 c2) as (p' & W' & c' & EI & Lp' & HW' & HWn & Hsm); try lia.
  { intros deg' l Hd. apply Hmem. lia. }
  assert (Edeg : (deg * 2 * 2 ^ h = deg * 2 ^ S h)%nat) by lia. rewrite Edeg in *.
  exists p', W', (cprod (2 ^ h) c * c'). split; [exact EI|]. split; [lia|]. split; [rewrite HW', HWc; ring|].
  split; [intros Hn; rewrite HWn, HW0 by exact Hn; reflexivity|].
  eapply smeq_trans; [|exact Hp1].
  intros i j l Hi Hj. unfold smscal.
  transitivity (cprod (2 ^ h) c * (c' * mat_of 1 p' 0 (deg * 2 ^ S h) 0 i j l)); [ring|].
  f_equal. specialize (Hsm i j l Hi Hj). unfold smscal in Hsm. rewrite Hsm, (Nat.mul_comm deg 2). reflexivity.
Qed.

Theorem poly_fmult_spec normalize d n p numel :
  (2 <= n)%nat -> (Z.of_nat n <= 2 ^ 63)%Z ->
  fmult_numel 1 d n = Ret numel -> (numel <= length p)%nat ->
  exists p' W, poly_fmult fft expo two junk0 junk1 junk2 normalize d n p = Ret (0%Z, (n * d)%nat, p', W) /\
    length p' = length p /\ (normalize = false -> W = 0%Z) /\
    smeq 1 (smscal (zpow two W) (mat_of 1 p' 0 (n * d) 0)) (smprod 1 n (mat_of 1 p 0 d)).
Proof.
  intros Hn Hn2 Hnum Lp.
  destruct (np2_ok n ltac:(lia) Hn2) as (h & EN & HnN & Hh & _). specialize (Hh Hn).
  unfold fmult_numel in Hnum. rewrite EN in Hnum. cbn [bind] in Hnum. injection Hnum as <-.
  unfold poly_fmult. rewrite EN. cbn [bind].
  set (N := (2 ^ h)%nat) in *.
  assert (HN2 : (2 <= N)%nat) by (unfold N; destruct h; [lia|]; cbn [Nat.pow]; pose proof (pow_gt h); lia).
  rewrite pad1_eq.
  destruct (pad_entry_spec d 1 (N - n) (n * (d + 1)) p) as (p1 & E1 & L1 & H1 & F1); [nia|].
  rewrite E1. cbn [bind].
  destruct (two_polys_len_spec (d * N / 2)%nat) as (lenmem & Elen & _ & _). rewrite Elen. cbn [bind].
  destruct (Nat.ltb_spec N 2); [lia|].
  destruct (levels1_spec normalize lenmem h (S N) d p1 0%Z (junk0 lenmem) (junk1 lenmem) (junk2 lenmem))
    as (p' & W & c & E & Lp' & HW & HWn & Hsm); auto.
  { unfold N. pose proof (pow_gt h). lia. }
  { rewrite L1. fold N. nia. }
  { intros deg' l Hd El. apply (two_polys_len_mono deg' (d * N / 2)%nat l lenmem); auto.
    apply Nat.div_le_lower_bound; [lia|]. exact Hd. }
  fold N in E, Hsm. rewrite E. cbn [bind]. cbn [Z.eqb negb].
  assert (Hc : c = zpow two W) by (rewrite HW; cbn; ring). subst c. clear HW.
  replace (d * N - (N - n) * d)%nat with (n * d)%nat by nia.
  exists p', W. split; [reflexivity|]. split; [lia|]. split; [exact HWn|].
  assert (Hfull : smeq 1 (smscal (zpow two W) (mat_of 1 p' 0 (d * N) 0)) (smprod 1 n (mat_of 1 p 0 d))).
  { eapply smeq_trans; [exact Hsm|].
    set (A := fun t => if (t <? n)%nat then mat_of 1 p 0 d t else smone).
    eapply smeq_trans; [apply (smprod_ext 1 N (mat_of 1 p1 0 d) A)|].
    - intros t Ht. unfold A. apply smeq1. intros l. unfold mat_of, smone. cbn [Nat.mul Nat.add].
      destruct (Nat.ltb_spec t n).
      + destruct (Nat.leb_spec l d); [|reflexivity]. apply F1.
        assert ((t + 1) * (d + 1) <= n * (d + 1))%nat by (apply Nat.mul_le_mono_r; lia). lia.
      + cbn [Nat.eqb]. destruct (Nat.leb_spec l d).
        * transitivity (1 * sone l : K); [|ring]. rewrite <- (H1 (t - n)%nat l) by lia. f_equal. nia.
        * destruct l; [lia|reflexivity].
    - replace N with (n + (N - n))%nat by lia. eapply smeq_trans; [apply smprod_pad|].
      + intros t Ht. unfold A. destruct (Nat.ltb_spec t n); [lia|apply smeq_refl].
      + apply smprod_ext. intros t Ht. unfold A. destruct (Nat.ltb_spec t n); [apply smeq_refl|lia]. }
  apply smeq1. intros l. unfold smscal.
  destruct (Nat.le_gt_cases l (n * d)) as [Hl|Hl].
  - rewrite <- (Hfull 0%nat 0%nat l) by lia. unfold smscal. f_equal. unfold mat_of.
    destruct (Nat.leb_spec l (n * d)); [|lia]. destruct (Nat.leb_spec l (d * N)); [|nia].
    f_equal.
  - rewrite (mat_of_supp 1 _ _ _ _ 0%nat 0%nat l ltac:(lia) ltac:(lia) Hl).
    rewrite (smprod_supp 1 n d _ (fun t _ => mat_of_supp 1 p 0 d t) 0%nat 0%nat l ltac:(lia) ltac:(lia) Hl). ring.
Qed.
End P.
