(** * Theorems about the numeric helpers of fnft__misc (C07-C10, C59) *)
From Coq Require Import Reals Lra Psatz.
From Coquelicot Require Import Coquelicot.
From Verif Require Import MiscNumModel.

(** ** C07: vector normalisation *)
Section Normalize.
Local Open Scope R_scope.

Lemma max_abs_spec len (v : list C) : (len <= length v)%nat ->
  exists m, max_abs_loop len v = Ret m /\ 0 <= m /\ (forall i, (i < len)%nat -> Cmod (nth i v (RtoC 0)) <= m)
    /\ (0 < m -> exists i, (i < len)%nat /\ Cmod (nth i v (RtoC 0)) = m).
Proof.
  intros L. unfold max_abs_loop.
  destruct (for_inv (fun k m => 0 <= m /\ (forall i, (i < k)%nat -> Cmod (nth i v (RtoC 0)) <= m)
    /\ (0 < m -> exists i, (i < k)%nat /\ Cmod (nth i v (RtoC 0)) = m))
    (fun i max_abs => x <- aget v i ;; let cur_abs := Cmod x in Ret (if Rlt_dec max_abs cur_abs then cur_abs else max_abs)) len 0 0)
    as (m & E & H).
  - split; [lra|]. split; [intros; lia|lra].
  - intros i st Hi (H0 & H1 & H2). rewrite (aget_nth v (RtoC 0)) by lia. cbn [bind]. eexists. split; [reflexivity|].
    destruct (Rlt_dec st (Cmod (nth i v (RtoC 0)))) as [Hlt|Hge].
    + split; [lra|]. split.
      * intros j Hj. destruct (Nat.eq_dec j i) as [->|]; [lra|]. specialize (H1 j ltac:(lia)). lra.
      * intros _. exists i. split; [lia|reflexivity].
    + split; [exact H0|]. split.
      * intros j Hj. destruct (Nat.eq_dec j i) as [->|]; [lra|]. apply H1. lia.
      * intros Hp. destruct (H2 Hp) as (j & Hj & Ej). exists j. split; [lia|exact Ej].
  - exists m. split; [exact E|]. exact H.
Qed.

Lemma floor_log2 m : 0 < m -> let a := floorZ (log2 m) in powerRZ 2 a <= m < 2 * powerRZ 2 a.
Proof.
  intros Hm a. assert (Hl2 : 0 < ln 2) by (rewrite <- ln_1; apply ln_increasing; lra).
  destruct (archimed (log2 m)) as [H1 H2].
  assert (Ha1 : IZR a <= log2 m) by (unfold a, floorZ; rewrite minus_IZR; lra).
  assert (Ha2 : log2 m < IZR a + 1) by (unfold a, floorZ; rewrite minus_IZR; lra).
  assert (Em : m = exp (log2 m * ln 2)).
  { unfold log2, Rdiv. rewrite Rmult_assoc, Rinv_l, Rmult_1_r, exp_ln; lra. }
  rewrite powerRZ_Rpower by lra. unfold Rpower. split.
  - rewrite Em at 1. destruct (Rle_lt_or_eq_dec _ _ Ha1) as [H|H].
    + left. apply exp_increasing. now apply Rmult_lt_compat_r.
    + rewrite H. lra.
  - rewrite Em at 1. replace (2 * exp (IZR a * ln 2)) with (exp (ln 2 + IZR a * ln 2)) by (rewrite exp_plus, exp_ln; lra).
    apply exp_increasing. replace (ln 2 + IZR a * ln 2) with ((IZR a + 1) * ln 2) by ring.
    now apply Rmult_lt_compat_r.
Qed.

Theorem misc_normalize_vector_power_of_two len (v : list C) : (len <= length v)%nat ->
  exists a v', misc_normalize_vector len v = Ret (a, v') /\ length v' = length v
    /\ (forall i, (i < len)%nat -> nth i v' (RtoC 0) = Cmult (nth i v (RtoC 0)) (RtoC (powerRZ 2 (- a))))
    /\ (forall i, (len <= i)%nat -> nth i v' (RtoC 0) = nth i v (RtoC 0))
    /\ ((forall i, (i < len)%nat -> nth i v (RtoC 0) = RtoC 0) -> a = 0%Z /\ v' = v)
    /\ ((exists i, (i < len)%nat /\ nth i v (RtoC 0) <> RtoC 0) ->
          (forall i, (i < len)%nat -> Cmod (nth i v' (RtoC 0)) < 2)
          /\ (exists i, (i < len)%nat /\ 1 <= Cmod (nth i v' (RtoC 0)))).
Proof.
  intros L. unfold misc_normalize_vector. destruct (max_abs_spec len v L) as (m & -> & H0 & H1 & H2). cbn [bind].
  destruct (Req_EM_T m 0) as [Em|Em].
  - exists 0%Z, v. split; [reflexivity|]. split; [reflexivity|]. split; [|split; [|split]].
    + intros i Hi. simpl. now rewrite Cmult_1_r.
    + reflexivity.
    + auto.
    + intros (i & Hi & Hne). exfalso. apply Hne. apply Cmod_eq_0. pose proof (Cmod_ge_0 (nth i v (RtoC 0))).
      specialize (H1 i Hi). lra.
  - assert (Hm : 0 < m) by lra. pose proof (floor_log2 m Hm) as Hf. cbn zeta in Hf.
    set (a := floorZ (log2 m)) in *.
    set (scl := powerRZ 2 (- a)).
    assert (Hpa : 0 < powerRZ 2 a) by (apply powerRZ_lt; lra).
    assert (Hscl : scl * powerRZ 2 a = 1).
    { unfold scl. rewrite <- powerRZ_add by lra. now rewrite Z.add_opp_diag_l. }
    assert (Hs0 : 0 < scl) by (apply powerRZ_lt; lra).
    destruct (for_inv (fun k w => length w = length v /\ forall i, nth i w (RtoC 0) =
        if (i <? k)%nat then Cmult (nth i v (RtoC 0)) (RtoC scl) else nth i v (RtoC 0))
        (fun i v => x <- aget v i ;; aset v i (Cmult x (RtoC scl))) len 0 v) as (w & E & Lw & Nw).
    { split; [reflexivity|]. intros i. now destruct (Nat.ltb_spec i 0). }
    { intros i w Hi [Lw Nw]. rewrite (aget_nth w (RtoC 0)) by lia. cbn [bind]. rewrite aset_upd by lia.
      eexists. split; [reflexivity|]. split; [now rewrite upd_length|]. intros j. rewrite nth_upd by lia.
      rewrite (Nw j), (Nw i). destruct (Nat.eqb_spec j i) as [->|].
      - destruct (Nat.ltb_spec i i); [lia|]. destruct (Nat.ltb_spec i (S i)); [reflexivity|lia].
      - destruct (Nat.ltb_spec j i), (Nat.ltb_spec j (S i)); try lia; reflexivity. }
    rewrite E. cbn [bind]. cbn [Nat.add] in Nw.
    assert (Hin : forall i, (i < len)%nat -> nth i w (RtoC 0) = Cmult (nth i v (RtoC 0)) (RtoC scl)).
    { intros i Hi. rewrite Nw. destruct (Nat.ltb_spec i len); [reflexivity|lia]. }
    exists a, w. split; [reflexivity|]. split; [exact Lw|]. split; [exact Hin|]. split; [|split].
    + intros i Hi. rewrite Nw. destruct (Nat.ltb_spec i len); [lia|reflexivity].
    + intros Hz. exfalso. destruct (H2 Hm) as (i & Hi & Ei). rewrite (Hz i Hi), Cmod_0 in Ei. lra.
    + intros _. split.
      * intros i Hi. rewrite (Hin i Hi), Cmod_mult, Cmod_R, (Rabs_pos_eq scl) by lra. specialize (H1 i Hi).
        pose proof (Cmod_ge_0 (nth i v (RtoC 0))). nra.
      * destruct (H2 Hm) as (i & Hi & Ei). exists i. split; [exact Hi|].
        rewrite (Hin i Hi), Cmod_mult, Cmod_R, (Rabs_pos_eq scl), Ei by lra. nra.
Qed.
End Normalize.

(** ** C08: matrix products *)
Section MatMult.
Context {K : cfield}.
Add Field KF : (cfield_th K).
Local Open Scope cf_scope.

(** row-by-column product: entry (r,c) of A (n x m) times B (m x p) *)
Definition row_col (m p : nat) (A B : list K) (r c : nat) : K :=
  fsum m (fun k => nth (r * m + k) A 0 * nth (k * p + c) B 0).

Lemma rc_idx r c p k c' : (c < p)%nat -> (c' < p)%nat -> (r * p + c = k * p + c')%nat -> r = k /\ c = c'.
Proof. intros. assert (r = k) by nia. subst. lia. Qed.

Theorem misc_matrix_mult_row_by_column n m p (A B C : list K) :
  length A = (n * m)%nat -> length B = (m * p)%nat -> (n * p <= length C)%nat ->
  exists C', misc_matrix_mult n m p A B C = Ret C' /\ length C' = length C
    /\ (forall r c, (r < n)%nat -> (c < p)%nat -> nth (r * p + c) C' 0 = row_col m p A B r c)
    /\ (forall i, (n * p <= i)%nat -> nth i C' 0 = nth i C 0).
Proof.
  intros LA LB LC. unfold misc_matrix_mult.
  match goal with |- exists _, for_ _ _ ?body _ = _ /\ _ => set (body1 := body) end.
  destruct (for_inv (fun k C' => length C' = length C
      /\ (forall r c, (r < k)%nat -> (c < p)%nat -> nth (r * p + c) C' 0 = row_col m p A B r c)
      /\ (forall i, (n * p <= i)%nat -> nth i C' 0 = nth i C 0)) body1 n 0 C) as (C' & E & H).
  - split; [reflexivity|]. split; [intros; lia|reflexivity].
  - intros cn C1 Hcn (L1 & H1 & H2). unfold body1.
    match goal with |- exists _, for_ _ _ ?body _ = _ /\ _ => set (body2 := body) end.
    destruct (for_inv (fun q C' => length C' = length C
      /\ (forall r c, (r < cn)%nat -> (c < p)%nat -> nth (r * p + c) C' 0 = row_col m p A B r c)
      /\ (forall c, (c < q)%nat -> nth (cn * p + c) C' 0 = row_col m p A B cn c)
      /\ (forall i, (n * p <= i)%nat -> nth i C' 0 = nth i C 0)) body2 p 0 C1) as (C2 & E2 & L2 & H3 & H4 & H5).
    + split; [exact L1|]. split; [exact H1|]. split; [intros; lia|exact H2].
    + intros cp C2 Hcp (L2 & H3 & H4 & H5). unfold body2.
      assert (Hix : (cn * p + cp < n * p)%nat) by nia.
      rewrite aset_upd by lia. cbn [bind].
      match goal with |- exists _, for_ _ _ ?body _ = _ /\ _ => set (body3 := body) end.
      destruct (for_inv (fun q C' => length C' = length C
         /\ (forall i, i <> (cn * p + cp)%nat -> nth i C' 0 = nth i C2 0)
         /\ nth (cn * p + cp) C' 0 = fsum q (fun k => nth (cn * m + k) A 0 * nth (k * p + cp) B 0)) body3 m 0 (upd C2 (cn * p + cp) 0))
         as (C3 & E3 & L3 & H6 & H7).
      * split; [now rewrite upd_length|]. split.
        -- intros i Hi. rewrite nth_upd by lia. now destruct (Nat.eqb_spec i (cn * p + cp)).
        -- rewrite nth_upd by lia. now rewrite Nat.eqb_refl.
      * intros cm C3 Hcm (L3 & H6 & H7). unfold body3.
        rewrite (aget_nth C3 0) by lia. rewrite (aget_nth A 0) by nia. rewrite (aget_nth B 0) by nia. cbn [bind].
        rewrite aset_upd by lia. eexists. split; [reflexivity|]. split; [now rewrite upd_length|]. split.
        -- intros i Hi. rewrite nth_upd by lia. destruct (Nat.eqb_spec i (cn * p + cp)); [contradiction|]. now apply H6.
        -- rewrite nth_upd by lia. rewrite Nat.eqb_refl. rewrite H7. reflexivity.
      * exists C3. split; [exact E3|]. split; [exact L3|]. split; [|split].
        -- intros r c Hr Hc. rewrite H6; [now apply H3|]. intros Heq. apply rc_idx in Heq; lia.
        -- intros c Hc. destruct (Nat.eq_dec c cp) as [->|Hne]; [exact H7|]. rewrite H6 by lia. apply H4. lia.
        -- intros i Hi. rewrite H6 by lia. now apply H5.
    + exists C2. split; [exact E2|]. split; [exact L2|]. split; [|exact H5].
      intros r c Hr Hc. destruct (Nat.eq_dec r cn) as [->|]; [apply H4; lia|]. apply H3; lia.
  - exists C'. split; [exact E|]. exact H.
Qed.

Theorem misc_mat_mult_sq_product s (U T : list K) : (0 < s)%nat -> length U = (s * s)%nat -> length T = (s * s)%nat ->
  exists T', misc_mat_mult_sq s U T = Ret T' /\ length T' = (s * s)%nat
    /\ forall r c, (r < s)%nat -> (c < s)%nat -> nth (r * s + c) T' 0 = row_col s s U T r c.
Proof.
  intros Hs LU LT. unfold misc_mat_mult_sq.
  destruct (misc_matrix_mult_row_by_column s s s U T (repeat 0 (s * s))) as (TM & E & L & H & _); auto.
  { rewrite repeat_length. lia. }
  rewrite repeat_length in L. rewrite E. cbn [bind]. rewrite (rd_tab TM 0 (s * s) 0) by lia. cbn [bind].
  destruct (wr_ok T 0 (tabulate (s * s) (fun i => nth (0 + i) TM 0)) 0) as (T' & E' & L' & N').
  { rewrite tabulate_length. lia. }
  exists T'. split; [exact E'|]. split; [lia|]. intros r c Hr Hc. rewrite N', tabulate_length. cbn [Nat.leb andb Nat.add].
  destruct (Nat.ltb_spec (r * s + c) (s * s)); [|nia]. rewrite Nat.sub_0_r, nth_tabulate by assumption. now apply H.
Qed.

Corollary misc_mat_mult_2x2_product (u11 u12 u21 u22 t11 t12 t21 t22 : K) :
  misc_mat_mult_2x2 [u11; u12; u21; u22] [t11; t12; t21; t22]
  = Ret [u11 * t11 + u12 * t21; u11 * t12 + u12 * t22; u21 * t11 + u22 * t21; u21 * t12 + u22 * t22].
Proof. cbv -[fadd fmul f0 car]. apply f_equal. repeat (apply f_equal2; [ring|]). reflexivity. Qed.

Corollary misc_mat_mult_4x4_product (U T : list K) : length U = 16%nat -> length T = 16%nat ->
  exists T', misc_mat_mult_4x4 U T = Ret T' /\ length T' = 16%nat
    /\ forall r c, (r < 4)%nat -> (c < 4)%nat -> nth (r * 4 + c) T' 0 = row_col 4 4 U T r c.
Proof. intros. exact (misc_mat_mult_sq_product 4 U T ltac:(lia) H H0). Qed.
End MatMult.

(** ** C09: Legendre polynomials *)
Section Legendre.
Local Open Scope R_scope.
(** the Legendre polynomials at x: P_0 = 1, P_1 = x, Bonnet's recursion *)
Definition legendre_values (x : R) (P : nat -> R) : Prop :=
  P 0%nat = 1 /\ P 1%nat = x /\
  forall n, (1 <= n)%nat -> INR (n + 1) * P (n + 1)%nat = (2 * INR n + 1) * x * P n - INR n * P (n - 1)%nat.

Theorem misc_legendre_poly_bonnet n x P : legendre_values x P -> misc_legendre_poly n x = Ret (P n).
Proof.
  intros (H0 & H1 & HB). unfold misc_legendre_poly.
  destruct (Nat.eqb_spec n 0) as [->|Hn0]; [now rewrite H0|].
  destruct (Nat.eqb_spec n 1) as [->|Hn1]; [now rewrite H1|].
  match goal with |- context [for_ _ _ ?b _] => set (body := b) end.
  destruct (for_inv (fun i (st : option R * R * R) =>
      (i = 2%nat /\ st = (None, x, 1)) \/ ((2 < i)%nat /\ st = (Some (P (i - 1)%nat), P (i - 1)%nat, P (i - 2)%nat)))
      body (n - 1)%nat 2%nat (None, x, 1)) as (st & E & H).
  - left. auto.
  - intros i st Hi Hst.
    assert (Est : exists o, st = (o, P (i - 1)%nat, P (i - 2)%nat)).
    { destruct Hst as [[-> ->]|[_ ->]]; [|eauto]. exists None. simpl. now rewrite H0, H1. }
    destruct Est as (o & ->). unfold body. eexists. split; [reflexivity|]. right. split; [lia|].
    assert (Hi0 : INR i <> 0) by (apply not_0_INR; lia).
    pose proof (HB (i - 1)%nat ltac:(lia)) as Hb. replace (i - 1 + 1)%nat with i in Hb by lia.
    replace (i - 1 - 1)%nat with (i - 2)%nat in Hb by lia. rewrite minus_INR in Hb by lia. simpl (INR 1) in Hb.
    assert (EP : (2 * INR i - 1) * x * P (i - 1)%nat / INR i - (INR i - 1) * P (i - 2)%nat / INR i = P i).
    { apply Rmult_eq_reg_l with (INR i); [|exact Hi0]. rewrite Hb. field. exact Hi0. }
    rewrite EP. replace (S i - 1)%nat with i by lia. replace (S i - 2)%nat with (i - 1)%nat by lia. reflexivity.
  - rewrite E. cbn [bind]. destruct H as [[H _]|[_ ->]]; [lia|]. do 2 f_equal. lia.
Qed.

(** such a family exists for every x *)
Fixpoint leg (n : nat) (x : R) : R * R :=   (* (P_n, P_{n-1}) *)
  match n with
  | O => (1, 0)
  | S O => (x, 1)
  | S m => let '(p, q) := leg m x in (((2 * INR m + 1) * x * p - INR m * q) / INR (m + 1), p)
  end.
Lemma leg_SS m x : (1 <= m)%nat -> leg (S m) x = let '(p, q) := leg m x in (((2 * INR m + 1) * x * p - INR m * q) / INR (m + 1), p).
Proof. destruct m; [lia|reflexivity]. Qed.
Lemma leg_snd n x : (1 <= n)%nat -> snd (leg n x) = fst (leg (n - 1) x).
Proof.
  destruct n as [|[|n]]; intros H; [lia|reflexivity|]. rewrite leg_SS by lia. replace (S (S n) - 1)%nat with (S n) by lia.
  now destruct (leg (S n) x).
Qed.
Theorem legendre_values_exist x : legendre_values x (fun n => fst (leg n x)).
Proof.
  split; [reflexivity|]. split; [reflexivity|]. intros n Hn.
  replace (n + 1)%nat with (S n) by lia. rewrite leg_SS by exact Hn. pose proof (leg_snd n x Hn) as Hs.
  destruct (leg n x) as [p q]; simpl in Hs |- *. rewrite Hs. replace (n + 1)%nat with (S n) by lia.
  change (match n with 0%nat => 1 | S _ => INR n + 1 end) with (INR (S n)). field. apply not_0_INR. lia.
Qed.

Lemma leg_uniq x P Q : legendre_values x P -> legendre_values x Q -> forall n, P n = Q n.
Proof.
  intros HP HQ n. pose proof (misc_legendre_poly_bonnet n x P HP) as E1.
  rewrite (misc_legendre_poly_bonnet n x Q HQ) in E1. now injection E1.
Qed.

Corollary misc_legendre_poly_at_one n : misc_legendre_poly n 1 = Ret 1.
Proof.
  apply (misc_legendre_poly_bonnet n 1 (fun _ => 1)). split; [reflexivity|]. split; [reflexivity|].
  intros m Hm. rewrite plus_INR. simpl (INR 1). ring.
Qed.
Corollary misc_legendre_poly_parity n x : exists P, misc_legendre_poly n x = Ret P /\ misc_legendre_poly n (- x) = Ret ((-1) ^ n * P).
Proof.
  pose proof (legendre_values_exist x) as H. exists (fst (leg n x)). split; [now apply (misc_legendre_poly_bonnet n x (fun n => fst (leg n x)))|].
  apply (misc_legendre_poly_bonnet n (- x) (fun n => (-1) ^ n * fst (leg n x))).
  destruct H as (H0 & H1 & HB). split; [simpl; ring|]. split; [simpl; ring|].
  intros m Hm. specialize (HB m Hm). cbv beta in HB.
  transitivity ((-1) ^ (m + 1) * (INR (m + 1) * fst (leg (m + 1) x))); [ring|]. rewrite HB.
  destruct m as [|m]; [lia|]. replace (S m - 1)%nat with m by lia. rewrite Nat.add_1_r. cbn [pow]. ring.
Qed.
Corollary misc_legendre_poly_at_minus_one n : misc_legendre_poly n (-1) = Ret ((-1) ^ n).
Proof.
  destruct (misc_legendre_poly_parity n 1) as (P & E1 & E2). rewrite misc_legendre_poly_at_one in E1. injection E1 as <-.
  replace (-1) with (- (1)) by ring. rewrite E2. f_equal. replace (- (1)) with (-1) by ring. ring.
Qed.
Example legendre_ex : misc_legendre_poly 3 2 = Ret 17.   (* (5*8 - 3*2)/2 *)
Proof. unfold misc_legendre_poly; simpl. f_equal. field. Qed.
End Legendre.

Example normalize_ex : exists v', misc_normalize_vector 2 [RtoC 5; RtoC 0] = Ret (2%Z, v').
Proof.
  destruct (misc_normalize_vector_power_of_two 2 [RtoC 5; RtoC 0] ltac:(simpl; lia)) as (a & v' & E & _ & H & _ & _ & Hn).
  assert (Ha : a = 2%Z).
  { destruct Hn as [H1 (i & Hi & H2)].
    { exists 0%nat. split; [lia|]. simpl. intros E0. injection E0. lra. }
    assert (P : (0 < powerRZ 2 (- a))%R) by (apply powerRZ_lt; lra).
    pose proof (H1 0%nat ltac:(lia)) as B1. rewrite (H 0%nat) in B1 by lia. cbn [nth] in B1.
    assert (i = 0%nat).
    { destruct i as [|[|i]]; [reflexivity| |lia]. rewrite (H 1%nat) in H2 by lia. cbn [nth] in H2. rewrite Cmult_0_l, Cmod_0 in H2. lra. }
    subst i. rewrite (H 0%nat) in H2 by lia. cbn [nth] in H2.
    rewrite Cmod_mult, !Cmod_R, !Rabs_pos_eq in B1, H2 by lra.
    assert (E1 : powerRZ 2 (- a) = (/ 4 * powerRZ 2 (2 - a))%R).
    { replace (2 - a)%Z with (2 + - a)%Z by lia. rewrite powerRZ_add by lra. simpl. field. }
    rewrite E1 in B1, H2.
    assert (HP : forall k : Z, (1 <= k)%Z -> (2 <= powerRZ 2 k)%R).
    { intros k Hk. replace k with (1 + Z.of_nat (Z.to_nat (k - 1)))%Z by lia. rewrite powerRZ_add, <- pow_powerRZ by lra.
      simpl (powerRZ 2 1). assert (1 <= 2 ^ Z.to_nat (k - 1))%R by (apply pow_R1_Rle; lra). lra. }
    destruct (Z.lt_trichotomy (2 - a) 0) as [Hl|[He|Hg]]; [|lia|].
    - exfalso. specialize (HP (- (2 - a))%Z ltac:(lia)).
      assert (powerRZ 2 (2 - a) * powerRZ 2 (- (2 - a)) = 1)%R by (rewrite <- powerRZ_add by lra; rewrite Z.add_opp_diag_r; reflexivity).
      assert (0 < powerRZ 2 (2 - a))%R by (apply powerRZ_lt; lra). nra.
    - exfalso. specialize (HP (2 - a)%Z ltac:(lia)). lra. }
  subst a. eauto.
Qed.
Print Assumptions misc_normalize_vector_power_of_two.
Print Assumptions misc_matrix_mult_row_by_column.
Print Assumptions misc_legendre_poly_bonnet.
