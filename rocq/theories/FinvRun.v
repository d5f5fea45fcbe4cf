(** * The stack machine computes the samples *)
From Coq Require Import Reals ZArith List Lia Lra.
From Coquelicot Require Import Coquelicot.
From Verif Require Import Base Mem Loop Series Fields CField MatSpec ErrModel CExp KissModel PolyFmultModel PolyFmultTree FscatterModel FinvModel FinvAlg FinvMult.
Import ListNotations.
Local Open Scope C_scope.

Lemma arr_eqb_eq a b : arr_eqb a b = true <-> a = b.
Proof.
  split; [|intros ->; destruct b; cbn; auto using Nat.eqb_refl].
  destruct a, b; cbn; try discriminate; auto; intros H; apply Nat.eqb_eq in H; now subst.
Qed.
Lemma mset_same m a v : mset m a v a = v.
Proof. unfold mset. now rewrite (proj2 (arr_eqb_eq a a) eq_refl). Qed.
Lemma mset_other m a v b : a <> b -> mset m a v b = m b.
Proof. unfold mset. destruct (arr_eqb a b) eqn:E; [|reflexivity]. apply arr_eqb_eq in E. contradiction. Qed.

(** arrays that belong to levels below i *)
Definition old (i : nat) (a : arr) : Prop := match a with TM => True | AT1 l | AT1i l | AT2i l => (l < i)%nat end.
Lemma old_S i a : old i a -> old (S i) a. Proof. destruct a; cbn; lia. Qed.

Section Run.
Variables (qfr : C -> C) (ret_r : bool) (eps_t : R) (kd : kind).
Variable K : nat.
Variables (c Q R x : nat -> C).
Hypothesis Hc : forall k, c k <> 0.
Hypothesis HQ : forall k, (k < 2 ^ K)%nat -> qfr (R k) = Q k.
Hypothesis HQR : forall k, (k < 2 ^ K)%nat -> 1 - Q k * R k <> 0.
Hypothesis Hx : forall k, (k < 2 ^ K)%nat -> recover eps_t kd (if ret_r then R k else Q k) = Some (x k).
Variable lens : nat -> nat.
Hypothesis Hlens : forall l, (l <= K)%nat -> two_polys_len (2 ^ (K - l)) = Ret (lens l).
Hypothesis Hlen0 : forall l, (l <= K)%nat -> (lens l <= lens 0)%nat.

Local Notation run := (run qfr ret_r eps_t kd).
Local Notation pass := (pass qfr ret_r eps_t kd).
Definition M : nat -> nat -> nat -> nat -> C := fun k => Msamp (K := CF) (c k) (Q k) (R k).
Local Notation prod := (Mdesc (K := CF) M).

Fixpoint cost (k : nat) : nat := match k with O => 1 | S k' => 3 + 2 * cost k' end.

(** the arrays of level l *)
Record wfm (m : mem) (l : nat) : Prop := {
  w_T1 : length (m (AT1 l)) = (4 * (2 * 2 ^ (K - l) + 1))%nat;
  w_T1i : length (m (AT1i l)) = (4 * (2 ^ (K - l) / 2 + 1))%nat;
  w_T2i : length (m (AT2i l)) = (4 * (2 ^ (K - l) + 1))%nat;
  w_zero : forall ij y, (ij < 4)%nat -> (y < 2 ^ (K - l) / 2)%nat -> nth (ij * (2 ^ (K - l) + 1) + y) (m (AT2i l)) (RtoC 0) = 0 }.

Record pre (k i : nat) (s : machine) (f : frame) (Y : nat -> nat -> nat -> C) : Prop := {
  p_len : length (frames s) = S K;
  p_f : nth i (frames s) None = Some f;
  p_pos : f_pos f = 0%nat;
  p_deg : f_deg f = (2 ^ k)%nat;
  p_plan : length (plan s) = S K /\ forall l, (l <= K)%nat -> nth l (plan s) (0%nat, 0%nat) = (lens l, 0%nat);
  p_buf : (lens 0 <= length (buf0 s))%nat /\ (lens 0 <= length (buf1 s))%nat /\ (lens 0 <= length (buf2 s))%nat;
  p_old : old i (fst (f_T f));
  p_T : (snd (f_T f) + 3 * f_Ts f + (2 ^ k + 1) <= length (mm s (fst (f_T f))))%nat;
  p_Ti : forall ia io, f_Ti f = Some (ia, io) -> old i ia /\ ia <> fst (f_T f) /\ (io + (2 ^ k + 1) <= f_Tis f)%nat /\ (4 * f_Tis f <= length (mm s ia))%nat;
  p_Ti0 : f_Ti f = None -> (1 <= k)%nat;
  p_q : (f_q f + 2 ^ k <= length (qs s))%nat /\ (f_q f + 2 ^ k <= 2 ^ K)%nat;
  p_wf : forall l, (i <= l <= K)%nat -> wfm (mm s) l;
  p_col : forall a l, (a < 2)%nat -> (l < 2 ^ k)%nat ->
    low (mm s (fst (f_T f))) (snd (f_T f)) (f_Ts f) (2 ^ k) a 0 l = smmul (K := CF) 2 (prod (f_q f) (2 ^ k)) Y a 0%nat l;
  p_Y : Y 0%nat 0%nat 0%nat <> 0 }.

Record post (k i : nat) (s : machine) (f : frame) (s' : machine) : Prop := {
  o_frames : forall j, (j < i)%nat -> nth j (frames s') None = nth j (frames s) None;
  o_len : length (frames s') = S K;
  o_plan : plan s' = plan s;
  o_buf : length (buf0 s') = length (buf0 s) /\ length (buf1 s') = length (buf1 s) /\ length (buf2 s') = length (buf2 s);
  o_ret : retc s' = if Nat.eqb k 0 then retc s else Some SUCCESS;
  o_qlen : length (qs s') = length (qs s);
  o_q : forall n, nth n (qs s') (RtoC 0) = if andb (f_q f <=? n)%nat (n <? f_q f + 2 ^ k)%nat then x n else nth n (qs s) (RtoC 0);
  o_wf : forall l, (i <= l <= K)%nat -> wfm (mm s') l;
  o_old : forall a, old i a -> (forall io, f_Ti f <> Some (a, io)) -> mm s' a = mm s a;
  o_Ti : forall ia io, f_Ti f = Some (ia, io) -> length (mm s' ia) = length (mm s ia) /\
     invof (K := CF) (2 ^ k) (low (mm s' ia) io (f_Tis f) (2 ^ k)) (prod (f_q f) (2 ^ k)) /\
     forall y, (forall d, (d < 4)%nat -> (y < io + d * f_Tis f \/ io + d * f_Tis f + (2 ^ k + 1) <= y)%nat) ->
       nth y (mm s' ia) (RtoC 0) = nth y (mm s ia) (RtoC 0) }.

Lemma pow2_pos k : (1 <= 2 ^ k)%nat. Proof. pose proof (Nat.pow_nonzero 2 k). lia. Qed.

(** writing the four blocks of the base case *)
Lemma base_write (t : list C) io s v0 v1 v2 v3 v4 v5 v6 v7 : (io + 2 <= s)%nat -> (4 * s <= length t)%nat ->
  exists t', (t <- wr t io [v0; v1] ;; t <- wr t (io + s) [v2; v3] ;; t <- wr t (io + 2 * s) [v4; v5] ;; wr t (io + 3 * s) [v6; v7]) = Ret t' /\
    length t' = length t /\
    (forall i j l, (i < 2)%nat -> (j < 2)%nat -> low t' io s 1 i j l =
       match i, j, l with
       | 0%nat, 0%nat, 0%nat => v1 | 0%nat, 0%nat, 1%nat => v0 | 0%nat, 1%nat, 0%nat => v3 | 0%nat, 1%nat, 1%nat => v2
       | 1%nat, 0%nat, 0%nat => v5 | 1%nat, 0%nat, 1%nat => v4 | 1%nat, 1%nat, 0%nat => v7 | 1%nat, 1%nat, 1%nat => v6 | _, _, _ => RtoC 0 end) /\
    (forall y, (forall d, (d < 4)%nat -> (y < io + d * s \/ io + d * s + 2 <= y)%nat) -> nth y t' (RtoC 0) = nth y t (RtoC 0)).
Proof.
  intros Hs Ht.
  destruct (wr_ok t io [v0; v1] (RtoC 0)) as (t1 & E1 & L1 & N1); [cbn [length]; lia|]. rewrite E1. cbn [bind].
  destruct (wr_ok t1 (io + s) [v2; v3] (RtoC 0)) as (t2 & E2 & L2 & N2); [cbn [length]; lia|]. rewrite E2. cbn [bind].
  destruct (wr_ok t2 (io + 2 * s) [v4; v5] (RtoC 0)) as (t3 & E3 & L3 & N3); [cbn [length]; lia|]. rewrite E3. cbn [bind].
  destruct (wr_ok t3 (io + 3 * s) [v6; v7] (RtoC 0)) as (t4 & E4 & L4 & N4); [cbn [length]; lia|]. rewrite E4.
  cbn [length] in N1, N2, N3, N4.
  assert (Hn : forall y, nth y t4 (RtoC 0) = if (y =? io)%nat then v0 else if (y =? io + 1)%nat then v1 else
      if (y =? io + s)%nat then v2 else if (y =? io + s + 1)%nat then v3 else if (y =? io + 2 * s)%nat then v4 else if (y =? io + 2 * s + 1)%nat then v5
      else if (y =? io + 3 * s)%nat then v6 else if (y =? io + 3 * s + 1)%nat then v7 else nth y t (RtoC 0)).
  { intros y. 
    assert (B : forall o (u v : C) w, (if andb (o <=? y)%nat (y <? o + 2)%nat then nth (y - o) [u; v] (RtoC 0) else w)
       = if (y =? o)%nat then u else if (y =? o + 1)%nat then v else w).
    { intros o u v w. destruct (Nat.eqb_spec y o) as [->|N].
      - replace (andb (o <=? o)%nat (o <? o + 2)%nat) with true by (symmetry; apply andb_true_intro; split; [apply Nat.leb_le|apply Nat.ltb_lt]; lia). now rewrite Nat.sub_diag.
      - destruct (Nat.eqb_spec y (o + 1)) as [->|N'].
        + replace (andb (o <=? o + 1)%nat (o + 1 <? o + 2)%nat) with true by (symmetry; apply andb_true_intro; split; [apply Nat.leb_le|apply Nat.ltb_lt]; lia).
          now replace (o + 1 - o)%nat with 1%nat by lia.
        + destruct (Nat.leb_spec o y), (Nat.ltb_spec y (o + 2)); cbn [andb]; try reflexivity. lia. }
    rewrite N4, B, N3, B, N2, B, N1, B.
    repeat match goal with |- context [(?a =? ?b)%nat] => destruct (Nat.eqb_spec a b); try reflexivity; try (exfalso; lia) end. }
  clear N1 N2 N3 N4 E1 E2 E3 E4. exists t4. split; [reflexivity|]. split; [lia|]. split.
  - intros i j l Hi Hj. unfold low. destruct (Nat.leb_spec l 1) as [Hl|Hl].
    + rewrite Hn. destruct i as [|[|i]]; [| |lia]; (destruct j as [|[|j]]; [| |lia]); (destruct l as [|[|l]]; [| |lia]); cbn [Nat.sub Nat.mul Nat.add];
      repeat match goal with |- context [(?a =? ?b)%nat] => destruct (Nat.eqb_spec a b); try reflexivity; try (exfalso; lia) end.
    + destruct i as [|[|i]]; [| |lia]; (destruct j as [|[|j]]; [| |lia]); (destruct l as [|[|l]]; [lia|lia|]); reflexivity.
  - intros y Hy. rewrite Hn.
    pose proof (Hy 0%nat ltac:(lia)). pose proof (Hy 1%nat ltac:(lia)). pose proof (Hy 2%nat ltac:(lia)). pose proof (Hy 3%nat ltac:(lia)).
    repeat match goal with |- context [(?a =? ?b)%nat] => destruct (Nat.eqb_spec a b); try reflexivity; try (exfalso; lia) end.
Qed.

Lemma aget_frame s i f : length (frames s) = S K -> (i <= K)%nat -> nth i (frames s) None = Some f -> aget (frames s) i = Ret (Some f).
Proof. intros L Hi E. rewrite (aget_nth (frames s) None i) by lia. now rewrite E. Qed.

Lemma base_run i s f Y fuel : i = K -> pre 0 i s f Y ->
  exists s', run (cost 0 + fuel) s (At i) = run fuel s' (pop i) /\ post 0 i s f s'.
Proof.
  intros Ei P. destruct P as [P1 P2 P3 P4 P5 P6 P7 P8 P9 P10 P11 P12 P13 P14].
  cbn [cost Nat.add FinvModel.run]. unfold FinvModel.pass. rewrite (aget_frame s i f) by (assumption || lia). cbn [bind].
  rewrite P3, P4. cbn [Nat.pow Nat.eqb Nat.ltb Nat.leb]. unfold base_case. destruct (f_T f) as [ta to] eqn:ET. cbn [fst snd] in *. cbn [Nat.pow] in *.
  rewrite (aget_nth (mm s ta) (RtoC 0) (to + 1)) by lia. cbn [bind].
  rewrite (aget_nth (mm s ta) (RtoC 0) (to + 2 * f_Ts f + 1)) by lia. cbn [bind].
  pose proof (P13 0%nat 0%nat ltac:(lia) ltac:(lia)) as C0. pose proof (P13 1%nat 0%nat ltac:(lia) ltac:(lia)) as C1.
  unfold low in C0, C1. cbn [Nat.leb Nat.mul Nat.add Nat.sub] in C0, C1.
  replace (to + 0 + 1)%nat with (to + 1)%nat in C0 by lia. replace (to + (f_Ts f + (f_Ts f + 0)) + 1)%nat with (to + 2 * f_Ts f + 1)%nat in C1 by lia.
  assert (EM : forall a, (a < 2)%nat -> smmul (K := CF) 2 (prod (f_q f) 1) Y a 0%nat 0%nat = smmul (K := CF) 2 (M (f_q f)) Y a 0%nat 0%nat).
  { intros a Ha. cbn [Mdesc]. rewrite Nat.add_0_r. apply (smmul_ext (K := CF)); [apply smmul_one_r|apply smeq_refl|exact Ha|lia]. }
  rewrite EM in C0, C1 by lia. rewrite C0, C1. set (k := f_q f) in *.
  destruct (Msamp_ratio (K := CF) c Q R Hc k Y P14) as [N0 ER].
  assert (ER' : smmul (K := CF) 2 (M k) Y 1%nat 0%nat 0%nat / smmul (K := CF) 2 (M k) Y 0%nat 0%nat 0%nat = R k) by exact ER.
  assert (Hk : (k < 2 ^ K)%nat) by lia.
  rewrite ER', HQ by exact Hk. destruct (Ceq_dec (1 - Q k * R k) 0) as [E0|_]; [exfalso; exact (HQR k Hk E0)|].
  destruct (f_Ti f) as [[ia io]|] eqn:ETi; [|specialize (P10 eq_refl); lia].
  destruct (P9 ia io eq_refl) as (O1 & O2 & O3 & O4).
  set (scl := 1 / Csqrt (1 - Q k * R k)).
  destruct (base_write (mm s ia) io (f_Tis f) scl (RtoC 0) (- scl * Q k) (RtoC 0) (RtoC 0) (- scl * R k) (RtoC 0) scl ltac:(lia) O4) as (t' & Ew & Lw & Nw & Fw).
  match goal with |- context [bind (wr (mm s ia) io ?v) ?g] =>
    replace (bind (wr (mm s ia) io v) g) with
    (bind (t <- wr (mm s ia) io [scl; RtoC 0] ;; t <- wr t (io + f_Tis f) [- scl * Q k; RtoC 0] ;; t <- wr t (io + 2 * f_Tis f) [RtoC 0; - scl * R k] ;; wr t (io + 3 * f_Tis f) [RtoC 0; scl])
      (fun t => match recover eps_t kd (if ret_r then R k else Q k) with
                | None => Ret (mkmach (frames s) (plan s) (mset (mm s) ia t) (qs s) (buf0 s) (buf1 s) (buf2 s) (retc s), Leave EC_INVALID_ARGUMENT)
                | Some x0 => q <- aset (qs s) k x0 ;; Ret (mkmach (frames s) (plan s) (mset (mm s) ia t) q (buf0 s) (buf1 s) (buf2 s) (retc s), pop i) end))
  end.
  2: { repeat match goal with |- context [bind (wr ?a ?o ?v) _] => destruct (wr a o v); cbn [bind]; [|reflexivity] end. reflexivity. }
  rewrite Ew. cbn [bind]. rewrite Hx by exact Hk. rewrite aset_upd by lia. cbn [bind fst snd].
  eexists. split; [reflexivity|].
  constructor; cbn [frames plan mm qs buf0 buf1 buf2 retc]; try reflexivity; auto.
  - apply upd_length.
  - intros n. fold k. rewrite nth_upd by lia. cbn [Nat.pow]. destruct (Nat.eqb_spec n k) as [->|N].
    + replace (andb (k <=? k)%nat (k <? k + 1)%nat) with true; [reflexivity|]. symmetry. apply andb_true_intro. split; [apply Nat.leb_le|apply Nat.ltb_lt]; lia.
    + destruct (Nat.leb_spec k n), (Nat.ltb_spec n (k + 1)); cbn [andb]; try reflexivity. lia.
  - intros l Hl. destruct (P12 l Hl) as [W1 W2 W3 W4]. assert (NA : forall a, ~ old i a -> mset (mm s) ia t' a = mm s a).
    { intros a Ha. apply mset_other. intros <-. contradiction. }
    constructor; rewrite NA by (cbn; lia); assumption.
  - intros a Ha Hna. apply mset_other. intros <-. exact (Hna io ETi).
  - intros ia' io' E. rewrite ETi in E. injection E as <- <-. rewrite mset_same. split; [exact Lw|]. split; [|exact Fw].
    assert (Ns : scl <> 0).
    { unfold scl. intros E. pose proof (Csqrt_sqr (1 - Q k * R k)) as Hs. assert (Nq : Csqrt (1 - Q k * R k) <> 0).
      { intros Z. rewrite Z in Hs. apply (HQR k Hk). rewrite <- Hs. ring. }
      assert (E1 : RtoC 1 = 0) by (transitivity (1 / Csqrt (1 - Q k * R k) * Csqrt (1 - Q k * R k)); [field; exact Nq|rewrite E; ring]).
      injection E1 as E1. lra. }
    apply (invof_ext (K := CF) 1 (Minv (K := CF) scl (Q k) (R k)) _ (M k)).
    + intros a b l Ha Hb. cbn [Nat.pow]. rewrite Nw by assumption. destruct a as [|[|a]]; [| |lia]; (destruct b as [|[|b]]; [| |lia]); destruct l as [|[|l]]; reflexivity.
    + intros a b l Ha Hb. cbn [Nat.pow Mdesc]. rewrite Nat.add_0_r. fold k. symmetry. apply (smmul_one_r (K := CF)); assumption.
    + exists (scl * c k * (1 - Q k * R k)). split; [|apply (Minv_Msamp (K := CF))].
      apply Cmult_neq_0; [apply Cmult_neq_0|]; auto.
Qed.

Lemma run_S fuel s i : run (S fuel) s (At i) = bind (pass s i) (fun y => run fuel (fst y) (snd y)).
Proof. reflexivity. Qed.

(** push keeps everything but the stack *)
Lemma push_ok s i f p ch : length (frames s) = S K -> (i + 1 <= K)%nat ->
  exists fr, push s i f p ch = Ret (mkmach fr (plan s) (mm s) (qs s) (buf0 s) (buf1 s) (buf2 s) (retc s), At (i + 1)) /\
    length fr = S K /\ nth (i + 1) fr None = Some ch /\ nth i fr None = Some (set_pos f p) /\
    forall j, (j < i)%nat -> nth j fr None = nth j (frames s) None.
Proof.
  intros L Hi. unfold push. rewrite aset_upd by lia. cbn [bind]. rewrite aset_upd by (rewrite upd_length; lia). cbn [bind].
  eexists. split; [reflexivity|]. rewrite !upd_length. split; [exact L|].
  rewrite !nth_upd by (rewrite ?upd_length; lia). rewrite !Nat.eqb_refl.
  destruct (Nat.eqb_spec (i + 1) i); [lia|]. split; [reflexivity|]. split; [reflexivity|].
  intros j Hj. rewrite !nth_upd by (rewrite ?upd_length; lia). destruct (Nat.eqb_spec j i); [lia|]. destruct (Nat.eqb_spec j (i + 1)); [lia|reflexivity].
Qed.
Lemma smmul_scal_r' (A Y : nat -> nat -> nat -> C) (d : C) i j l :
  smmul (K := CF) 2 A (fun i j l => d * Y i j l) i j l = d * smmul (K := CF) 2 A Y i j l.
Proof.
  unfold smmul. cbn [fsum]. rewrite !(smul_scal_r (K := CF) d). cbn [CF fadd fmul f0 car]. ring.
Qed.
Lemma low_shift (t : list C) o s n i l : (l <= n)%nat -> low t (o + n) s n i 0 l = low t o s (n + n) i 0 l.
Proof.
  intros Hl. unfold low. destruct (Nat.leb_spec l n); [|lia]. destruct (Nat.leb_spec l (n + n)); [|lia]. f_equal. lia.
Qed.

Lemma deg_half k : (2 ^ S k / 2 = 2 ^ k)%nat.
Proof. rewrite Nat.pow_succ_r', Nat.mul_comm. apply Nat.div_mul. lia. Qed.

Theorem machine_run k : forall i s f Y fuel, (i + k = K)%nat -> pre k i s f Y ->
  exists s', run (cost k + fuel) s (At i) = run fuel s' (pop i) /\ post k i s f s'.
Proof.
  induction k as [|k IH]; intros i s f Y fuel Hik P; [apply (base_run i s f Y fuel); [lia|exact P]|].
  destruct P as [P1 P2 P3 P4 P5 P6 P7 P8 P9 P10 P11 P12 P13 P14].
  assert (E2 : (2 ^ S k)%nat = (2 ^ k + 2 ^ k)%nat) by (cbn [Nat.pow]; lia).
  pose proof (deg_half k) as Eh. pose proof (pow2_pos k) as Hn1.
  assert (EKi : (2 ^ (K - i) = 2 ^ S k)%nat) by (f_equal; lia).
  set (n := (2 ^ k)%nat) in *. rewrite E2 in *.
  cbn [cost]. replace (3 + 2 * cost k + fuel)%nat with (S (cost k + S (cost k + S fuel)))%nat by lia.
  rewrite run_S. unfold FinvModel.pass at 1. rewrite (aget_frame s i f) by (assumption || lia). cbn [bind]. rewrite P3, P4. cbn [Nat.eqb].
  destruct (Nat.ltb_spec 1 (n + n)) as [_|Hbad]; [|lia]. unfold step1. rewrite P4, Eh. destruct (f_T f) as [ta to] eqn:ET. cbn [fst snd] in *.
  destruct (P12 i ltac:(lia)) as [W1 W2 W3 W4]. rewrite EKi in W1, W2, W3, W4. rewrite ?Eh in W2, W4.
  destruct P5 as [P5L P5]. destruct P6 as (P6a & P6b & P6c). destruct P11 as [P11a P11b].
  assert (Nta : forall l, (i <= l)%nat -> ta <> AT1 l /\ ta <> AT1i l /\ ta <> AT2i l).
  { intros l Hl. destruct ta; cbn in P7; repeat split; intros E; try discriminate E; injection E as E; lia. }
  (* first recursive call *)
  set (c1 := mkframe n (ta, (to + n)%nat) (f_Ts f) (Some (AT2i i, n)) (n + n + 1) (f_q f + n) 0).
  destruct (push_ok s i f 1 c1 P1 ltac:(lia)) as (fr1 & Ep1 & Lf1 & Nc1 & Ni1 & No1). rewrite Ep1. cbn [bind fst snd].
  set (s1 := mkmach fr1 (plan s) (mm s) (qs s) (buf0 s) (buf1 s) (buf2 s) (retc s)).
  set (Y1 := smmul (K := CF) 2 (prod (f_q f) n) Y).
  assert (Hprod : smeq (K := CF) 2 (prod (f_q f) (n + n)) (smmul (K := CF) 2 (prod (f_q f + n)%nat n) (prod (f_q f) n))) by apply Mdesc_split.
  destruct (IH (i + 1)%nat s1 c1 Y1 (S (cost k + S fuel))) as (s2 & Er1 & O1); [lia| |].
  { constructor; unfold s1, c1; cbn [frames f_pos f_deg plan buf0 buf1 buf2 mm qs fst snd f_T f_Ts f_Ti f_Tis f_q]; auto.
    - rewrite Nat.add_1_r. apply old_S. exact P7.
    - fold n. lia.
    - intros ia io [= <- <-]. split; [cbn; lia|]. split; [apply not_eq_sym; apply (proj2 (proj2 (Nta i (le_n _))))|]. fold n. split; [lia|]. rewrite W3. apply le_n.
    - discriminate.
    - fold n. lia.
    - intros l Hl. apply P12. lia.
    - intros a l Ha Hl. fold n in Hl |- *. rewrite (low_shift (mm s ta) to (f_Ts f) n a l) by lia. etransitivity; [apply P13; [exact Ha|lia]|].
      unfold Y1. rewrite <- (smmul_assoc (K := CF) 2 (prod (f_q f + n)%nat n) (prod (f_q f) n) Y a 0%nat l Ha ltac:(lia)).
      apply (smmul_ext (K := CF) 2); [exact Hprod|apply smeq_refl|exact Ha|lia].
    - apply (Mdesc_col0 (K := CF) c Q R Hc). exact P14. }
  rewrite Er1. clear Er1. destruct O1 as [A1 A2 A3 A4 A5 A6 A7 A8 A9 A10].
  unfold s1, c1 in A1, A3, A4, A5, A6, A7, A9, A10. cbn [frames f_pos f_deg plan buf0 buf1 buf2 mm qs fst snd f_T f_Ts f_Ti f_Tis f_q] in A1, A3, A4, A5, A6, A7, A9, A10. fold n in A7, A10.
  destruct (A10 (AT2i i) n eq_refl) as (L2i & (c2 & Hc2 & Hinv2) & F2i).
  assert (M2a : forall a, old (i + 1) a -> a <> AT2i i -> mm s2 a = mm s a).
  { intros a Ha Hne. apply A9; [exact Ha|]. intros io E. injection E as E _. symmetry in E. contradiction. }
  (* step 2 *)
  replace (pop (i + 1)) with (At i) by (rewrite Nat.add_1_r; reflexivity).
  rewrite run_S. unfold FinvModel.pass at 1. rewrite (aget_frame s2 i (set_pos f 1)); [|exact A2|lia|rewrite A1 by lia; exact Ni1]. cbn [bind].
  change (f_pos (set_pos f 1)) with 1%nat. cbn [Nat.eqb]. unfold step23.
  change (f_deg (set_pos f 1)) with (f_deg f). change (f_T (set_pos f 1)) with (f_T f). change (f_Ts (set_pos f 1)) with (f_Ts f). change (f_q (set_pos f 1)) with (f_q f).
  rewrite ET, P4, Eh. cbn [fst snd].
  rewrite A3. rewrite (aget_nth (plan s) (0%nat, 0%nat) i) by lia. cbn [bind]. rewrite P5 by lia.
  assert (Hli : two_polys_len (n + n) = Ret (lens i)) by (rewrite <- (Hlens i ltac:(lia)), EKi; reflexivity).
  pose proof (Hlen0 i ltac:(lia)) as Hl0.
  destruct A4 as (A4a & A4b & A4c).
  destruct (mult2x2_spec (n + n) (mm s2 (AT2i i)) 0 (n + n + 1) (mm s2 ta) to (f_Ts f) (mm s2 (AT1 i)) 0 (2 * (n + n) + 1)
     (buf0 s2) (buf1 s2) (buf2 s2) (lens i) Hli) as (r1 & b0 & b1 & b2 & Em & Lr1 & Lb0 & Lb1 & Lb2 & Hr1 & _).
  { rewrite L2i, W3. lia. }
  { rewrite M2a by (try apply (proj2 (proj2 (Nta i (le_n _)))); rewrite Nat.add_1_r; apply old_S; exact P7). lia. }
  { lia. } { rewrite M2a by (try discriminate; cbn; lia). rewrite W1. lia. } { lia. } { lia. } { lia. }
  rewrite Em. cbn [bind]. clear Em.
  set (s3 := mkmach (frames s2) (plan s2) (mset (mm s2) (AT1 i) r1) (qs s2) b0 b1 b2 (Some SUCCESS)).
  set (c3 := mkframe n (AT1 i, (n + n)%nat) (2 * (n + n) + 1) (Some (AT1i i, 0%nat)) (n + 1) (f_q f) 0).
  destruct (push_ok s3 i (set_pos f 1) 2 c3 A2 ltac:(lia)) as (fr3 & Ep3 & Lf3 & Nc3 & Ni3 & No3). unfold s3 in Ep3 at 1. rewrite <- A3. rewrite Ep3. cbn [bind fst snd]. clear Ep3.
  (* second recursive call *)
  set (s4 := mkmach fr3 (plan s3) (mm s3) (qs s3) (buf0 s3) (buf1 s3) (buf2 s3) (retc s3)).
  assert (EL : smeq (K := CF) 2 (low (mm s2 (AT2i i)) 0 (n + n + 1) (n + n)) (low (mm s2 (AT2i i)) n (n + n + 1) n)).
  { intros a b l Ha Hb. unfold low. destruct (Nat.leb_spec l n) as [Hl|Hl].
    - destruct (Nat.leb_spec l (n + n)); [|lia]. f_equal. lia.
    - destruct (Nat.leb_spec l (n + n)) as [Hl2|]; [|reflexivity]. cbn [Nat.add].
      rewrite F2i.
      + apply W4; [lia|lia].
      + intros d Hd. destruct (Nat.lt_trichotomy d (a * 2 + b)) as [H|[H|H]].
        * right. assert ((d + 1) * (n + n + 1) <= (a * 2 + b) * (n + n + 1))%nat by (apply Nat.mul_le_mono_r; lia). lia.
        * left. subst d. lia.
        * left. assert ((a * 2 + b + 1) * (n + n + 1) <= d * (n + n + 1))%nat by (apply Nat.mul_le_mono_r; lia). lia. }
  destruct (IH (i + 1)%nat s4 c3 (fun a b l => c2 * Y a b l) (S fuel)) as (s5 & Er2 & O2); [lia| |].
  { constructor; unfold s4, s3, c3; cbn [frames f_pos f_deg plan buf0 buf1 buf2 mm qs fst snd f_T f_Ts f_Ti f_Tis f_q]; auto.
    - rewrite A3. split; [exact P5L|exact P5].
    - lia.
    - cbn. lia.
    - rewrite mset_same. fold n. change (@length (car CF) r1) with (@length C r1) in Lr1. rewrite Lr1, M2a by (try discriminate; cbn; lia). rewrite W1. lia.
    - intros ia io [= <- <-]. split; [cbn; lia|]. split; [discriminate|]. fold n. split; [lia|]. rewrite mset_other by discriminate.
      rewrite M2a by (try discriminate; cbn; lia). rewrite W2. lia.
    - discriminate.
    - fold n. rewrite A6. lia.
    - intros l Hl. destruct (A8 l Hl) as [V1 V2 V3 V4]. constructor; rewrite mset_other by (intros E; try discriminate E; injection E as E; lia); assumption.
    - intros a l Ha Hl. fold n in Hl |- *. rewrite mset_same. rewrite smmul_scal_r'.
      transitivity (low r1 0 (2 * (n + n) + 1) (2 * (n + n)) a 0 (n + l)%nat).
      { unfold low. destruct (Nat.leb_spec l n); [|lia]. destruct (Nat.leb_spec (n + l) (2 * (n + n))); [|lia]. f_equal. lia. }
      rewrite (Hr1 a 0%nat (n + l)%nat Ha ltac:(lia)).
      transitivity (smmul (K := CF) 2 (low (mm s2 (AT2i i)) n (n + n + 1) n) (smmul (K := CF) 2 (prod (f_q f + n)%nat n) Y1) a 0%nat (n + l)%nat).
      { apply (smmul_trunc (K := CF) (n + n)%nat); [lia| |].
        - intros b l0 Hb Hl0'. apply EL; assumption.
        - intros b l0 Hb Hl0'. rewrite M2a by (try apply (proj2 (proj2 (Nta i (le_n _)))); rewrite Nat.add_1_r; apply old_S; exact P7).
          etransitivity; [apply P13; [exact Hb|lia]|]. unfold Y1.
          rewrite <- (smmul_assoc (K := CF) 2 (prod (f_q f + n)%nat n) (prod (f_q f) n) Y b 0%nat l0 Hb ltac:(lia)).
          apply (smmul_ext (K := CF) 2); [exact Hprod|apply smeq_refl|exact Hb|lia]. }
      rewrite <- (smmul_assoc (K := CF) 2 _ _ Y1 a 0%nat (n + l)%nat Ha ltac:(lia)).
      transitivity (smmul (K := CF) 2 (zI (K := CF) c2 n) Y1 a 0%nat (n + l)%nat).
      { apply (smmul_ext (K := CF) 2); [exact Hinv2|apply smeq_refl|exact Ha|lia]. }
      rewrite zI_l by exact Ha. destruct (Nat.ltb_spec (n + l) n); [lia|]. replace (n + l - n)%nat with l by lia. reflexivity.
    - apply Cmult_neq_0; [exact Hc2|exact P14]. }
  rewrite Er2. clear Er2. destruct O2 as [B1 B2 B3 B4 B5 B6 B7 B8 B9 B10].
  unfold s4, s3, c3 in B1, B3, B4, B5, B6, B7, B9, B10. cbn [frames f_pos f_deg plan buf0 buf1 buf2 mm qs retc fst snd f_T f_Ts f_Ti f_Tis f_q] in B1, B3, B4, B5, B6, B7, B9, B10. fold n in B7, B10.
  destruct (B10 (AT1i i) 0%nat eq_refl) as (L1i & Hinv1 & F1i). rewrite mset_other in L1i by discriminate.
  rewrite M2a in L1i by (try discriminate; cbn; lia).
  assert (M5a : forall a, old (i + 1) a -> a <> AT1i i -> mm s5 a = mset (mm s2) (AT1 i) r1 a).
  { intros a Ha Hne. apply B9; [exact Ha|]. intros io E. injection E as E _. symmetry in E. contradiction. }
  assert (E5_2 : mm s5 (AT2i i) = mm s2 (AT2i i)) by (rewrite M5a by (try discriminate; cbn; lia); apply mset_other; discriminate).
  assert (E5_old : forall a, old i a -> mm s5 a = mm s a).
  { intros a Ha. assert (Na : a <> AT1 i /\ a <> AT1i i /\ a <> AT2i i) by (destruct a; cbn in Ha; repeat split; intros E; try discriminate E; injection E as E; lia).
    rewrite M5a by (try tauto; rewrite Nat.add_1_r; apply old_S; exact Ha). rewrite mset_other by (apply not_eq_sym; tauto).
    apply M2a; [rewrite Nat.add_1_r; apply old_S; exact Ha|tauto]. }
  assert (Wi : forall m, (forall a, ~ old i a -> m a = mm s5 a) -> forall l, (i <= l <= K)%nat -> wfm m l).
  { intros m Hm l Hl. destruct (Nat.eq_dec l i) as [->|Nl].
    - constructor; rewrite Hm by (cbn; lia); rewrite ?EKi, ?E2, ?Eh.
      + rewrite M5a by (try discriminate; cbn; lia). rewrite mset_same. change (@length (car CF) r1) with (@length C r1) in Lr1. rewrite Lr1, M2a by (try discriminate; cbn; lia). rewrite W1. lia.
      + rewrite L1i. exact W2.
      + rewrite E5_2, L2i. exact W3.
      + intros ij y Hij Hy. rewrite E5_2. rewrite F2i; [apply W4; assumption|].
        intros d Hd. destruct (Nat.lt_trichotomy d ij) as [H|[H|H]].
        * right. assert ((d + 1) * (n + n + 1) <= ij * (n + n + 1))%nat by (apply Nat.mul_le_mono_r; lia). lia.
        * left. subst d. lia.
        * left. assert ((ij + 1) * (n + n + 1) <= d * (n + n + 1))%nat by (apply Nat.mul_le_mono_r; lia). lia.
    - destruct (B8 l ltac:(lia)) as [V1 V2 V3 V4]. constructor; rewrite Hm by (cbn; lia); assumption. }
  assert (Hq : forall t, nth t (qs s5) (RtoC 0) = if andb (f_q f <=? t)%nat (t <? f_q f + (n + n))%nat then x t else nth t (qs s) (RtoC 0)).
  { intros t. rewrite B7, A7.
    destruct (Nat.leb_spec (f_q f) t), (Nat.ltb_spec t (f_q f + n)), (Nat.leb_spec (f_q f + n) t), (Nat.ltb_spec t (f_q f + n + n)), (Nat.ltb_spec t (f_q f + (n + n)));
      cbn [andb]; try reflexivity; lia. }
  replace (pop (i + 1)) with (At i) by (rewrite Nat.add_1_r; reflexivity).
  rewrite run_S. unfold FinvModel.pass at 1. rewrite (aget_frame s5 i (set_pos f 2)); [|exact B2|lia|rewrite B1 by lia; exact Ni3]. cbn [bind].
  change (f_pos (set_pos f 2)) with 2%nat. cbn [Nat.eqb]. unfold step4.
  change (f_Ti (set_pos f 2)) with (f_Ti f). change (f_deg (set_pos f 2)) with (f_deg f). change (f_Tis (set_pos f 2)) with (f_Tis f).
  destruct (f_Ti f) as [[ia io]|] eqn:ETi.
  2: { cbn [bind fst snd]. exists s5. split; [reflexivity|]. constructor; auto.
    - intros j Hj. rewrite B1 by lia. rewrite No3 by exact Hj. unfold s3. cbn [frames]. rewrite A1 by lia. apply No1. exact Hj.
    - rewrite B3, A3. reflexivity.
    - lia.
    - rewrite B5. destruct k; reflexivity.
    - congruence.
    - rewrite E2. exact Hq.
    - intros ia io E. rewrite ETi in E. discriminate E. }
  destruct (P9 ia io eq_refl) as (Oia & Nia & Hio & Lia).
  rewrite P4, Eh, B3, A3. rewrite (aget_nth (plan s) (0%nat, 0%nat) (i + 1)) by lia. cbn [bind]. rewrite P5 by lia.
  assert (Hli1 : two_polys_len n = Ret (lens (i + 1))) by (rewrite <- (Hlens (i + 1)%nat ltac:(lia)); f_equal; unfold n; f_equal; lia).
  pose proof (Hlen0 (i + 1)%nat ltac:(lia)) as Hl1. destruct B4 as (B4a & B4b & B4c).
  destruct (mult2x2_spec n (mm s5 (AT1i i)) 0 (n + 1) (mm s5 (AT2i i)) n (n + n + 1) (mm s5 ia) io (f_Tis f)
     (buf0 s5) (buf1 s5) (buf2 s5) (lens (i + 1)%nat) Hli1) as (r2 & d0 & d1 & d2 & Em & Lr2 & Ld0 & Ld1 & Ld2 & Hr2 & Fr2).
  { rewrite L1i, W2. lia. } { rewrite E5_2, L2i, W3. lia. } { lia. } { rewrite E5_old by exact Oia. exact Lia. } { lia. } { lia. } { lia. }
  rewrite Em. cbn [bind fst snd]. clear Em.
  eexists. split; [reflexivity|].
  constructor; cbn [frames plan mm qs buf0 buf1 buf2 retc].
  - intros j Hj. rewrite B1 by lia. rewrite No3 by exact Hj. unfold s3. cbn [frames]. rewrite A1 by lia. apply No1. exact Hj.
  - exact B2.
  - reflexivity.
  - lia.
  - reflexivity.
  - congruence.
  - rewrite E2. exact Hq.
  - apply Wi. intros a Ha. apply mset_other. intros <-. contradiction.
  - intros a Ha Hna. rewrite mset_other; [apply E5_old; exact Ha|]. intros <-. exact (Hna io ETi).
  - intros ia' io' E. rewrite ETi in E. injection E as <- <-. rewrite mset_same. rewrite E2.
    change (@length (car CF) r2) with (@length C r2) in Lr2. split; [rewrite Lr2, E5_old by exact Oia; reflexivity|]. split.
    + apply (invof_ext (K := CF) (n + n) (smmul (K := CF) 2 (low (mm s5 (AT1i i)) 0 (n + 1) n) (low (mm s5 (AT2i i)) n (n + n + 1) n)) _
               (smmul (K := CF) 2 (prod (f_q f + n)%nat n) (prod (f_q f) n))).
      * apply smeq_sym. replace (n + n)%nat with (2 * n)%nat by lia. rewrite E5_2 in Hr2. rewrite E5_2. replace (2 * n + 1)%nat with (n + n + 1)%nat by lia. exact Hr2.
      * apply smeq_sym. exact Hprod.
      * apply invof_mul; [exact Hinv1|]. rewrite E5_2. exists c2. split; [exact Hc2|exact Hinv2].
    + intros y Hy. rewrite <- (E5_old ia Oia). apply Fr2. intros d Hd. specialize (Hy d Hd). lia.
Qed.
End Run.
