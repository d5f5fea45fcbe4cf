(** * Manakov fast scattering: C35 and the link to the degree table (C25) *)
From Coq Require Import Reals List QArith Qreals ZArith Lia Lra.
From Coquelicot Require Import Coquelicot.
From Verif Require Import Base Loop Fields PolySpec MatSpec CField CExp CDeriv MiscNumModel ErrModel KissProof KissProps PolyFmultModel PolyFmultProof PolyFmultProps
  DiscTables DiscSpec DiscModel DiscProps FftAppProps FscatterTab FscatterSpec FscatterAlg FscatterModel FscatterProof FscatterOrder FscatterProps
  ManFscSpec ManFscTab ManFscAlg ManFscModel ManFscProof ManFscSample.
Import ListNotations.
Local Open Scope C_scope.

(** z is the library's lambda_to_z *)
Theorem man_lambda_to_z_tau d us (eps_t : R) (vals : list C) : man_scheme_of d = Some us ->
  exists vals' : list C, man_lambda_to_z (@length C vals) eps_t vals d = Ret (SUCCESS, vals') /\ @length C vals' = @length C vals /\
    forall i, (i < @length C vals)%nat -> nth i vals' (RtoC 0) = Cexp (Ci * nth i vals (RtoC 0) * RtoC (man_tau d eps_t)).
Proof.
  intros H. assert (F : name_fast (man_name d) = true) by (destruct d; cbn [man_scheme_of] in H; try discriminate H; vm_compute; reflexivity).
  destruct (man_pair d F) as (Hs & H1 & _). destruct (H1 (@length C vals) eps_t vals (le_n _)) as (v & E & L & N & _).
  exists v. split; [exact E|]. split; [exact L|]. intros i Hi. rewrite N by exact Hi. f_equal.
  assert (Et : man_tau d eps_t = (2 * eps_t / man_s d)%R) by (destruct d; try reflexivity; unfold man_tau, man_s; field).
  rewrite Et. unfold Rdiv. rewrite !RtoC_mult, RtoC_inv by lra. field. apply RtoC_neq0'. lra.
Qed.
(** expB3 is the matrix exponential of B *)
Theorem expB3_is_exponential q1 q2 r1 r2 : expB3 q1 q2 r1 r2 0 = m3one /\
  (forall s t, expB3 q1 q2 r1 r2 (s + t) = m3mul (expB3 q1 q2 r1 r2 s) (expB3 q1 q2 r1 r2 t)) /\
  forall t i j, (i < 3)%nat -> (j < 3)%nat ->
    Cderive (fun t => entry3 (expB3 q1 q2 r1 r2 t) i j) t (entry3 (m3mul (Bmat3 q1 q2 r1 r2) (expB3 q1 q2 r1 r2 t)) i j).
Proof. exact (conj (expB3_0 q1 q2 r1 r2) (conj (expB3_plus q1 q2 r1 r2) (expB3_derive q1 q2 r1 r2))). Qed.
(** the splittings have the order in the name (4 for FTES4_4A and the Suzuki splitting), as formal series in two
   non-commuting letters; the letters of man_scheme_of d = (u, s) are in units of h/u *)
Definition man_name_order (d : man_disc) : nat :=
  match d with M_2SPLIT3A | M_2SPLIT3B => 3 | M_2SPLIT6B | M_4SPLIT6B => 6 | _ => 4 end.
Theorem man_splitting_order d u s : man_scheme_of d = Some (u, s) -> has_order u s (man_name_order d).
Proof.
  intros H. apply check_order_ok. destruct d; cbn [man_scheme_of] in H; try discriminate H; injection H as <- <-; vm_compute; reflexivity.
Qed.

(** ** The array of all samples *)
Lemma man_sample_shape d kappa eps_t q1n q2n ls : man_sample d kappa eps_t q1n q2n = Some ls ->
  length ls = 9%nat /\ forall l, In l ls -> length l = (man_degree d + 1)%nat.
Proof.
  destruct q1n as [[a1 b1] e1], q2n as [[a2 b2] e2]. intros H.
  assert (G : forall n (ls : list (list C)), (length ls = 9%nat /\ map (@length C) ls = repeat n 9) -> length ls = 9%nat /\ forall l, In l ls -> length l = n).
  { clear. intros n ls (L & H). split; [exact L|]. intros l Hl. apply (in_map (@length C)) in Hl. rewrite H in Hl. now apply repeat_spec in Hl. }
  apply G. clear G. destruct d; cbn [man_sample] in H; try discriminate H;
    match type of H with Some ?x = Some ls => assert (E : x = ls) by exact (f_equal (fun o => match o with Some y => y | None => [] end) H); clear H; rewrite <- E; clear E ls end;
    lazymatch goal with |- context [fold_left] => rewrite build_table, suzuki_fold | |- _ => idtac end; split; reflexivity.
Qed.
Lemma man_sample_defined d us kappa eps_t q1n q2n : man_scheme_of d = Some us -> exists ls, man_sample d kappa eps_t q1n q2n = Some ls.
Proof.
  destruct q1n as [[a1 b1] e1], q2n as [[a2 b2] e2]. intros H. destruct d; cbn [man_scheme_of] in H; try discriminate H; cbn [man_sample]; eexists; reflexivity.
Qed.
Lemma wr_blocks_ok n stride ls : (n <= stride)%nat -> forall off (p : list C), (forall l, In l ls -> length l = n) ->
  (off + (length ls - 1) * stride + n <= @length C p)%nat ->
  exists p', wr_blocks ls stride off p = Ret p' /\ @length C p' = @length C p /\
    (forall ab j, (ab < length ls)%nat -> (j < n)%nat -> nth (off + ab * stride + j) p' (RtoC 0) = nth j (nth ab ls []) (RtoC 0)) /\
    (forall i, (forall ab, (ab < length ls)%nat -> ~ (off + ab * stride <= i < off + ab * stride + n)%nat) -> nth i p' (RtoC 0) = nth i p (RtoC 0)).
Proof.
  intros Hn. induction ls as [|l ls IH]; intros off p Hl Hp.
  - exists p. split; [reflexivity|]. split; [reflexivity|]. split; [intros ab j Hab; cbn in Hab; lia|]. auto.
  - cbn [wr_blocks]. assert (Ll : length l = n) by (apply Hl; now left).
    destruct (wr_list_ok l off p) as (p1 & E1 & L1 & N1).
    { rewrite Ll. cbn [length] in Hp. lia. }
    rewrite E1. cbn [bind]. cbn [length] in Hp.
    destruct (Nat.eq_dec (length ls) 0) as [Z|Nz].
    { destruct ls; [|discriminate Z]. cbn [wr_blocks]. exists p1. split; [reflexivity|]. split; [exact L1|]. split.
      - intros ab j Hab Hj. cbn [length] in Hab. replace ab with 0%nat by lia. rewrite N1. cbn [nth Nat.mul]. split_ifs. f_equal. lia.
      - intros i Hi. rewrite N1. specialize (Hi 0%nat ltac:(cbn; lia)). split_ifs; [reflexivity|]. reflexivity. }
    destruct (IH (off + stride)%nat p1) as (p2 & E2 & L2 & N2 & N2').
    { intros l' Hl'. apply Hl. now right. } { rewrite L1. nia. }
    exists p2. split; [exact E2|]. split; [lia|]. split.
    + intros [|ab] j Hab Hj.
      * cbn [nth Nat.mul]. rewrite N2', N1 by (intros ab' Hab'; nia). split_ifs. f_equal. lia.
      * cbn [nth length] in *. replace (off + S ab * stride + j)%nat with (off + stride + ab * stride + j)%nat by lia. apply N2; lia.
    + intros i Hi. rewrite N2'.
      * rewrite N1. specialize (Hi 0%nat ltac:(cbn; lia)). split_ifs; reflexivity.
      * intros ab Hab. specialize (Hi (S ab) ltac:(cbn; lia)). cbn [Nat.mul] in Hi. lia.
Qed.
(** sample i of q with its neighbours; the first (last) sample is its own left (right) neighbour.  Only the FTES4 methods use them. *)
Definition triple_at (d : man_disc) (D : nat) (q : list C) (i : nat) : C * C * C :=
  let b := nth i q (RtoC 0) in
  if is_ftes d then ((if Nat.eqb i 0 then b else nth (i - 1) q (RtoC 0)), b, (if Nat.eqb i (D - 1) then b else nth (i + 1) q (RtoC 0))) else (b, b, b).
Lemma neighbours_ok d D (q : list C) i : (i < D)%nat -> (D <= @length C q)%nat -> neighbours d D q i = Ret (triple_at d D q i).
Proof.
  intros Hi HD. unfold neighbours, triple_at. rewrite (aget_nth q (RtoC 0)) by lia. cbn [bind]. destruct (is_ftes d); [|reflexivity].
  destruct (Nat.eqb_spec i 0) as [->|N0].
  - cbn [bind]. destruct (Nat.eqb_spec 0 (D - 1)) as [E|N1]; [reflexivity|]. rewrite (aget_nth q (RtoC 0)) by lia. reflexivity.
  - rewrite (aget_nth q (RtoC 0)) by lia. cbn [bind]. destruct (Nat.eqb_spec i (D - 1)) as [E|N1]; [reflexivity|]. rewrite (aget_nth q (RtoC 0)) by lia. reflexivity.
Qed.
Lemma block_index D n ab ab' k k' j i : (k < D)%nat -> (k' < D)%nat -> (j < n)%nat -> (i < n)%nat ->
  (ab * (D * n) + k * n + j = ab' * (D * n) + k' * n + i)%nat -> k = k'.
Proof.
  intros Hk Hk' Hj Hi E.
  assert (E0 : ((ab * D + k) * n + j = (ab' * D + k') * n + i)%nat) by (rewrite !Nat.mul_add_distr_r, <- !Nat.mul_assoc; exact E).
  assert (E1 : (ab * D + k = ab' * D + k')%nat).
  { transitivity (((ab * D + k) * n + j) / n)%nat; [apply Nat.div_unique with j; [exact Hj|rewrite (Nat.mul_comm n); reflexivity]|].
    rewrite E0. symmetry. apply Nat.div_unique with i; [exact Hi|rewrite (Nat.mul_comm n); reflexivity]. }
  transitivity ((ab * D + k) mod D)%nat; [apply Nat.mod_unique with ab; [exact Hk|rewrite (Nat.mul_comm D); reflexivity]|].
  rewrite E1. symmetry. apply Nat.mod_unique with ab'; [exact Hk'|rewrite (Nat.mul_comm D); reflexivity].
Qed.
Lemma man_sample_loop_ok d us kappa eps_t D (q1 q2 p : list C) : man_scheme_of d = Some us ->
  (1 <= D)%nat -> (D <= @length C q1)%nat -> (D <= @length C q2)%nat -> (9 * (D * (man_degree d + 1)) <= @length C p)%nat ->
  exists p', man_sample_loop d kappa eps_t D (D * man_upsampling_factor d) q1 q2 p = Ret (SUCCESS, p') /\ @length C p' = @length C p /\
    forall k ls ab j, (k < D)%nat -> (ab < 9)%nat -> (j < man_degree d + 1)%nat ->
      man_sample d kappa eps_t (triple_at d D q1 (D - 1 - k)) (triple_at d D q2 (D - 1 - k)) = Some ls ->
      nth (ab * (D * (man_degree d + 1)) + k * (man_degree d + 1) + j) p' (RtoC 0) = nth j (nth ab ls []) (RtoC 0).
Proof.
  intros Hd HD L1 L2 Lp. unfold man_sample_loop. set (n := (man_degree d + 1)%nat) in *.
  assert (Hc : (if is_ftes d then D * man_upsampling_factor d else D)%nat = D).
  { destruct d; cbn [is_ftes man_upsampling_factor]; lia. } rewrite Hc. clear Hc.
  set (body := fun (k : nat) (st : Z * list C) => _).
  destruct (for_inv (fun k (st : Z * list C) => fst st = SUCCESS /\ @length C (snd st) = @length C p /\
     forall k' ls ab j, (k' < k)%nat -> (ab < 9)%nat -> (j < n)%nat ->
      man_sample d kappa eps_t (triple_at d D q1 (D - 1 - k')) (triple_at d D q2 (D - 1 - k')) = Some ls ->
      nth (ab * (D * n) + k' * n + j) (snd st) (RtoC 0) = nth j (nth ab ls []) (RtoC 0)) body D 0 (SUCCESS, p)) as ((code & p') & E & H1 & H2 & H3).
  - split; [reflexivity|]. split; [reflexivity|]. intros; lia.
  - intros k [code pk] Hk (H1 & H2 & H3). cbn [fst snd] in H1, H2, H3. subst code. unfold body. cbn [Z.eqb SUCCESS].
    assert (Nb : forall q, (D <= @length C q)%nat -> neighbours d (D * man_upsampling_factor d) q (D - 1 - k) = Ret (triple_at d D q (D - 1 - k))).
    { intros q Lq. destruct (is_ftes d) eqn:F.
      - replace (D * man_upsampling_factor d)%nat with D by (destruct d; try discriminate F; cbn [man_upsampling_factor]; lia). apply neighbours_ok; lia.
      - unfold neighbours, triple_at. rewrite F, (aget_nth q (RtoC 0)) by lia. reflexivity. }
    rewrite !Nb by assumption. cbn [bind].
    destruct (man_sample_defined d us kappa eps_t (triple_at d D q1 (D - 1 - k)) (triple_at d D q2 (D - 1 - k)) Hd) as (ls & Els). rewrite Els.
    destruct (man_sample_shape _ _ _ _ _ _ Els) as (Ll & Hl). fold n in Hl.
    destruct (wr_blocks_ok n (D * n) ls ltac:(nia) (k * n) pk Hl) as (p' & E' & L' & N1 & N2).
    { rewrite Ll, H2. change (9 - 1)%nat with 8%nat. clear - Hk Lp. nia. }
    rewrite E'. cbn [bind]. eexists. split; [reflexivity|]. cbn [fst snd]. split; [reflexivity|]. split; [lia|].
    intros k' ls' ab j Hk' Hab Hj Els'. destruct (Nat.eq_dec k' k) as [->|Nk].
    + rewrite Els in Els'. injection Els' as <-. rewrite <- N1 by lia. f_equal. lia.
    + rewrite N2; [apply H3; auto; lia|]. intros ab' Hab' Hin. apply Nk.
      apply (block_index D n ab ab' k' k j (ab * (D * n) + k' * n + j - (k * n + ab' * (D * n)))); lia.
  - cbn [fst snd Nat.add] in *. subst code. exists p'. split; [exact E|]. split; [exact H2|]. intros k ls ab j Hk. apply H3. lia.
Qed.

(** ** Matrix products *)
Lemma entry3_mul X Y i j : (i < 3)%nat -> (j < 3)%nat -> entry3 (m3mul X Y) i j = nmmul (K := CF) 3 (entry3 X) (entry3 Y) i j.
Proof.
  intros Hi Hj. unfold nmmul. cbn [fsum]. destruct i as [|[|[|i]]]; destruct j as [|[|[|j]]]; try lia; cbn [entry3 m3mul c11 c12 c13 c21 c22 c23 c31 c32 c33];
  cbn [CF fadd fmul f0 car]; ring.
Qed.
Lemma m3prod_list_app l l' : fold_right m3mul m3one (l ++ l') = m3mul (fold_right m3mul m3one l) (fold_right m3mul m3one l').
Proof. induction l as [|x l IH]; [symmetry; apply m3mul_one_l|]. cbn [app fold_right]. now rewrite IH, m3mul_assoc. Qed.
Lemma descending3_list n M : fold_right m3mul m3one (map (fun t => M (n - 1 - t)%nat) (seq 0 n)) = descending3 n M.
Proof.
  induction n as [|n IH]; [reflexivity|]. cbn [descending3 seq map fold_right]. f_equal; [f_equal; lia|].
  rewrite <- IH. rewrite <- seq_shift, map_map. f_equal. apply map_ext. intros t. f_equal. lia.
Qed.
Lemma nmprod3_list n (M : nat -> mat3) i j : (i < 3)%nat -> (j < 3)%nat ->
  nmprod (K := CF) 3 n (fun t => entry3 (M t)) i j = entry3 (fold_right m3mul m3one (map M (seq 0 n))) i j.
Proof.
  revert i j. induction n as [|n IH]; intros i j Hi Hj.
  - cbn [nmprod seq map fold_right]. unfold nmone. destruct i as [|[|[|i]]]; destruct j as [|[|[|j]]]; try lia; reflexivity.
  - rewrite seq_S, map_app, m3prod_list_app. cbn [map fold_right Nat.add]. rewrite m3mul_one_r, entry3_mul by assumption.
    cbn [nmprod]. unfold nmmul. apply (fsum_ext (K := CF)). intros k Hk. now rewrite IH by assumption.
Qed.

Section Full.
Variable expo : list C -> Z.
Variables junk0 junk1 junk2 junkp : nat -> list C.
Hypothesis Hj0 : forall l, length (junk0 l) = l.
Hypothesis Hj1 : forall l, length (junk1 l) = l.
Hypothesis Hj2 : forall l, length (junk2 l) = l.
Hypothesis Hjp : forall l, length (junkp l) = l.
Local Notation fsc := (manakov_fscatter expo junk0 junk1 junk2 junkp).

(** C35.  For every implemented discretization the result holds, at offset (3i+j)(D deg+1), the coefficients of the
   entry (i,j) of M_(D-1)(z)...M_0(z), up to the factor 2^W that is reported (0 if W_ptr is NULL). *)
Theorem manakov_fscatter_product normalize D (q1 q2 res : list C) kappa (eps_t : R) d us numel :
  (2 <= D)%nat -> (Z.of_nat D <= 2147483647)%Z -> (0 < eps_t)%R -> (Z.abs kappa = 1)%Z -> man_scheme_of d = Some us ->
  (D <= @length C q1)%nat -> (D <= @length C q2)%nat -> man_fscatter_numel D d = Ret numel -> (numel <= @length C res)%nat ->
  exists r' W M, fsc normalize D (Some q1) (Some q2) kappa eps_t (Some res) true d = Ret (SUCCESS, Some (D * man_degree d)%nat, Some r', W) /\
    @length C r' = @length C res /\ (normalize = false -> W = 0%Z) /\
    (forall i, (i < D)%nat -> man_sample d kappa eps_t (triple_at d D q1 i) (triple_at d D q2 i) = Some (M i)) /\
    forall (z : C) i j, (i < 3)%nat -> (j < 3)%nat ->
      zpow (K := CF) (RtoC 2) W * peval (K := CF) (coeffs (K := CF) r' ((i * 3 + j) * (D * man_degree d + 1)) (D * man_degree d + 1)) z
      = entry3 (descending3 D (fun i => poly_mat3 (M i) z)) i j.
Proof.
  intros HD HD2 He Hk Hd Lq1 Lq2 Hnum Lres. unfold manakov_fscatter.
  assert (Hdeg : man_degree d <> 0%nat /\ (1 <= man_upsampling_factor d <= 2)%nat) by (destruct d; cbn [man_scheme_of] in Hd; try discriminate Hd; cbn; split; lia).
  destruct Hdeg as (Nd & Nu). assert (Bu : (D <= D * man_upsampling_factor d <= 2 * D)%nat) by (clear - Nu HD; nia).
  replace (orb (D =? 0)%nat (2147483647 <? Z.of_nat D)%Z) with false.
  2: { symmetry. apply Bool.orb_false_iff. split; [apply Nat.eqb_neq|apply Z.ltb_ge]; lia. }
  destruct (Rle_dec eps_t 0) as [Hle|_]; [lra|]. cbn [negb]. rewrite Hk. cbn [Z.eqb Pos.eqb negb].
  destruct (Nat.eqb_spec (man_upsampling_factor d) 0) as [Ez|_]; [lia|].
  assert (Hbig : exists len, man_fscatter_numel (D * man_upsampling_factor d) d = Ret len /\ (9 * (D * (man_degree d + 1)) <= len /\ fmult_numel (3 * 3) (man_degree d) D = Ret numel /\ numel <= len)%nat).
  { unfold man_fscatter_numel in *. destruct (Nat.eqb_spec (man_degree d) 0); [contradiction|].
    destruct (poly_fmult_numel_value 9 (man_degree d) (D * man_upsampling_factor d) ltac:(lia) ltac:(lia)) as (k & Ek & Hk1 & _).
    eexists. split; [exact Ek|]. split.
    - assert (Hk2 : (D <= 2 ^ k)%nat) by lia. clear - Hk2. nia.
    - split; [exact Hnum|]. destruct (poly_fmult_numel_value 9 (man_degree d) D ltac:(lia) ltac:(lia)) as (k' & Ek' & _ & Hmin). rewrite Hnum in Ek'. injection Ek' as ->.
      assert (k' <= k)%nat by (apply Hmin; lia). apply Nat.mul_le_mono_l. now apply Nat.pow_le_mono_r. }
  destruct Hbig as (len & Elen & Hbig & En1 & Hn1). rewrite Elen. cbn [bind].
  destruct (Nat.eqb_spec len 0) as [Ez|_]; [nia|].
  destruct (man_sample_defined d us kappa eps_t (RtoC 0, RtoC 0, RtoC 0) (RtoC 0, RtoC 0, RtoC 0) Hd) as (ls0 & E0). rewrite E0.
  destruct (man_sample_loop_ok d us kappa eps_t D q1 q2 (junkp len) Hd ltac:(lia) Lq1 Lq2) as (p & E & Lp & Hp). { rewrite Hjp. exact Hbig. }
  rewrite E. cbn [bind]. cbn [negb Z.eqb SUCCESS].
  destruct (poly_fmult3x3_product expo junk0 junk1 junk2 Hj0 Hj1 Hj2 normalize (man_degree d) D p res numel HD ltac:(lia) En1)
    as (p' & r' & W & E2 & _ & Lr' & HW & Hprod).
  { rewrite Lp, Hjp. exact Hn1. } { lia. }
  set (M := fun i => match man_sample d kappa eps_t (triple_at d D q1 i) (triple_at d D q2 i) with Some ls => ls | None => [] end).
  assert (HM : forall i, man_sample d kappa eps_t (triple_at d D q1 i) (triple_at d D q2 i) = Some (M i)).
  { intros i. unfold M. destruct (man_sample_defined d us kappa eps_t (triple_at d D q1 i) (triple_at d D q2 i) Hd) as (ls & ->). reflexivity. }
  rewrite E2. cbn [bind]. cbn [Z.eqb SUCCESS]. exists r', W, M. split; [reflexivity|]. split; [exact Lr'|]. split; [exact HW|]. split; [intros i _; apply HM|].
  intros z i j Hi Hj. etransitivity; [apply (Hprod z i j Hi Hj)|].
  rewrite <- descending3_list, <- nmprod3_list by assumption.
  apply (nmprod_ext (K := CF)); [|assumption..]. intros t a b Ht Ha Hb.
  pose proof (HM (D - 1 - t)%nat) as Es. destruct (man_sample_shape _ _ _ _ _ _ Es) as (Ll & Hl).
  assert (EC : forall ab, (ab < 9)%nat -> coeffs (K := CF) p (ab * (D * (man_degree d + 1)) + t * (man_degree d + 1)) (man_degree d + 1) = nth ab (M (D - 1 - t)%nat) []).
  { intros ab Hab. pose proof (mul_block t D (man_degree d + 1) Ht) as Bt.
    assert (Lc : length (coeffs (K := CF) p (ab * (D * (man_degree d + 1)) + t * (man_degree d + 1)) (man_degree d + 1)) = (man_degree d + 1)%nat).
    { unfold coeffs. rewrite firstn_length, skipn_length.
      assert (Lp2 : @length (car CF) p = len) by (etransitivity; [exact Lp|apply Hjp]). rewrite Lp2. clear - Hab Bt Hbig. nia. }
    apply (list_eq_nth _ _ (RtoC 0)).
    - etransitivity; [exact Lc|]. symmetry. apply Hl. apply nth_In. rewrite Ll. exact Hab.
    - intros j' Hj'. assert (Hj'' : (j' < man_degree d + 1)%nat) by (rewrite <- Lc; exact Hj').
      etransitivity; [exact (nth_coeffs (K := CF) p _ _ j' Hj'')|]. exact (Hp t _ ab j' Ht Hab Hj'' Es). }
  assert (Hab : (a * 3 + b < 9)%nat) by lia.
  etransitivity; [exact (f_equal (fun l => peval (K := CF) l z) (EC (a * 3 + b)%nat Hab))|].
  destruct a as [|[|[|a]]]; destruct b as [|[|[|b]]]; try lia; reflexivity.
Qed.
(** ... and in terms of the splittings: the whole transfer matrix *)
Theorem manakov_fscatter_transfer_matrix normalize D (q1 q2 res : list C) kappa (eps_t : R) d us numel :
  (2 <= D)%nat -> (Z.of_nat D <= 2147483647)%Z -> (0 < eps_t)%R -> (Z.abs kappa = 1)%Z -> man_scheme_of d = Some us ->
  (D <= @length C q1)%nat -> (D <= @length C q2)%nat -> man_fscatter_numel D d = Ret numel -> (numel <= @length C res)%nat ->
  (forall i, (i < D)%nat -> man_exact d kappa eps_t (triple_at d D q1 i) (triple_at d D q2 i)) ->
  exists r' W, fsc normalize D (Some q1) (Some q2) kappa eps_t (Some res) true d = Ret (SUCCESS, Some (D * man_degree d)%nat, Some r', W) /\
    forall (lam : C) i j, (i < 3)%nat -> (j < 3)%nat ->
      Cexp (- Ci * lam * RtoC (INR D * (INR (man_degree d) * man_tau d eps_t / 2))) * (zpow (K := CF) (RtoC 2) W *
        peval (K := CF) (coeffs (K := CF) r' ((i * 3 + j) * (D * man_degree d + 1)) (D * man_degree d + 1)) (Cexp (Ci * lam * RtoC (man_tau d eps_t))))
      = entry3 (descending3 D (fun i => man_step d kappa eps_t (triple_at d D q1 i) (triple_at d D q2 i) us lam)) i j.
Proof.
  intros HD HD2 He Hk Hd Lq1 Lq2 Hnum Lres Hx.
  destruct (manakov_fscatter_product normalize D q1 q2 res kappa eps_t d us numel HD HD2 He Hk Hd Lq1 Lq2 Hnum Lres) as (r' & W & M & E & _ & _ & HM & H).
  exists r', W. split; [exact E|]. intros lam i j Hi Hj. rewrite H by assumption. clear H E.
  set (g := Cexp (- Ci * lam * RtoC (INR (man_degree d) * man_tau d eps_t / 2))). set (z := Cexp (Ci * lam * RtoC (man_tau d eps_t))).
  assert (K : forall n, (n <= D)%nat -> descending3 n (fun i => man_step d kappa eps_t (triple_at d D q1 i) (triple_at d D q2 i) us lam)
     = m3scal (Cexp (- Ci * lam * RtoC (INR n * (INR (man_degree d) * man_tau d eps_t / 2)))) (descending3 n (fun i => poly_mat3 (M i) z))).
  { induction n as [|n IH]; intros Hn.
    - cbn [descending3]. change (INR 0) with 0%R. rewrite Rmult_0_l, Cmult_0_r, Cexp_0. m3ring.
    - cbn [descending3]. rewrite IH by lia. destruct (man_fscatter_is_splitting d us kappa eps_t (triple_at d D q1 n) (triple_at d D q2 n) lam Hd Hk He ltac:(apply Hx; lia)) as (ls & Els & ->).
      rewrite HM in Els by lia. injection Els as <-. fold z. fold g. rewrite m3scal_mul_l, m3scal_mul_r, m3scal_m3scal. f_equal. unfold g. rewrite <- Cexp_plus. f_equal.
      rewrite S_INR, !RtoC_mult, RtoC_plus. ring. }
  rewrite K by lia. destruct i as [|[|[|i]]]; destruct j as [|[|[|j]]]; try lia; reflexivity.
Qed.
(** all arguments valid except for the discretization *)
Theorem manakov_fscatter_unknown_discretization normalize D (q1 q2 res : list C) kappa (eps_t : R) d :
  (1 <= D)%nat -> (Z.of_nat D <= 2147483647)%Z -> (0 < eps_t)%R -> man_degree d = 0%nat ->
  fsc normalize D (Some q1) (Some q2) kappa eps_t (Some res) true d = Ret (EC_INVALID_ARGUMENT, None, Some res, 0%Z).
Proof.
  intros HD HD2 He Hd. unfold manakov_fscatter.
  replace (orb (D =? 0)%nat (2147483647 <? Z.of_nat D)%Z) with false.
  2: { symmetry. apply Bool.orb_false_iff. split; [apply Nat.eqb_neq|apply Z.ltb_ge]; lia. }
  destruct (Rle_dec eps_t 0) as [Hle|_]; [lra|]. cbn [negb]. destruct (Z.abs kappa =? 1)%Z; cbn [negb]; [|reflexivity].
  destruct (Nat.eqb (man_upsampling_factor d) 0); [reflexivity|]. unfold man_fscatter_numel. rewrite Hd. reflexivity.
Qed.
(** FTES4_4B: the degree tables report 8, but the fast scattering does not implement it and rejects it *)
Theorem manakov_fscatter_FTES4_4B_refuted normalize D (q1 q2 res : list C) kappa (eps_t : R) :
  (1 <= D)%nat -> (Z.of_nat D <= 2147483647)%Z -> (0 < eps_t)%R ->  (Z.abs kappa = 1)%Z ->
  man_degree M_FTES4_4B = 8%nat /\
  fsc normalize D (Some q1) (Some q2) kappa eps_t (Some res) true M_FTES4_4B = Ret (EC_INVALID_ARGUMENT, Some 8%nat, Some res, 0%Z).
Proof.
  intros HD HD2 He Hk. split; [reflexivity|]. unfold manakov_fscatter.
  replace (orb (D =? 0)%nat (2147483647 <? Z.of_nat D)%Z) with false.
  2: { symmetry. apply Bool.orb_false_iff. split; [apply Nat.eqb_neq|apply Z.ltb_ge]; lia. }
  destruct (Rle_dec eps_t 0) as [Hle|_]; [lra|]. cbn [negb]. rewrite Hk. cbn [Z.eqb Pos.eqb negb].
  change (man_upsampling_factor M_FTES4_4B) with 1%nat. cbn [Nat.eqb]. unfold man_fscatter_numel. change (man_degree M_FTES4_4B) with 8%nat. cbn [Nat.eqb].
  destruct (poly_fmult_numel_value 9 8 (D * 1) ltac:(lia) ltac:(lia)) as (k & Ek & _). rewrite Ek. cbn [bind].
  destruct (Nat.eqb_spec (9 * (8 + 1) * 2 ^ k) 0) as [Ez|_]; [pose proof (Nat.pow_nonzero 2 k); lia|]. reflexivity.
Qed.
(** every discretization other than FTES4_4B with a nonzero degree is implemented *)
Theorem manakov_fscatter_implemented d : d <> M_FTES4_4B -> man_degree d <> 0%nat -> exists us, man_scheme_of d = Some us.
Proof. intros N H. destruct d; try (exfalso; apply H; reflexivity); try (exfalso; apply N; reflexivity); eexists; reflexivity. Qed.
(** invalid arguments: error 2, nothing written *)
Theorem manakov_fscatter_invalid_arguments normalize D q1 q2 kappa (eps_t : R) res deg_ptr d :
  (D = 0%nat \/ (2147483647 < Z.of_nat D)%Z \/ q1 = None \/ q2 = None \/ (eps_t <= 0)%R \/ res = None \/ deg_ptr = false \/ Z.abs kappa <> 1%Z) ->
  fsc normalize D q1 q2 kappa eps_t res deg_ptr d = Ret (EC_INVALID_ARGUMENT, None, res, 0%Z).
Proof.
  intros H. unfold manakov_fscatter.
  destruct (Nat.eqb_spec D 0); [reflexivity|]. destruct (Z.ltb_spec 2147483647 (Z.of_nat D)); [reflexivity|]. cbn [orb].
  destruct q1; [|reflexivity]. destruct q2; [|reflexivity]. destruct (Rle_dec eps_t 0); [reflexivity|]. destruct res; [|reflexivity].
  destruct deg_ptr; [|reflexivity]. cbn [negb]. destruct (Z.eqb_spec (Z.abs kappa) 1) as [E|N]; [|reflexivity].
  exfalso. destruct H as [H|[H|[H|[H|[H|[H|[H|H]]]]]]]; try discriminate H; try lia; contradiction.
Qed.
(** a single sample: the product routine returns an uninitialised return code *)
Theorem manakov_fscatter_one_sample_refuted normalize (q1 q2 res : list C) kappa (eps_t : R) d us :
  (0 < eps_t)%R -> (Z.abs kappa = 1)%Z -> man_scheme_of d = Some us -> (1 <= @length C q1)%nat -> (1 <= @length C q2)%nat ->
  fsc normalize 1 (Some q1) (Some q2) kappa eps_t (Some res) true d = UB.
Proof.
  intros He Hk Hd L1 L2. unfold manakov_fscatter. cbn [Nat.eqb orb Z.ltb Z.of_nat Z.compare Pos.of_succ_nat Pos.compare Pos.compare_cont].
  destruct (Rle_dec eps_t 0) as [Hle|_]; [lra|]. cbn [negb]. rewrite Hk. cbn [Z.eqb Pos.eqb negb].
  assert (Hdeg : man_degree d <> 0%nat /\ (1 <= man_upsampling_factor d <= 2)%nat) by (destruct d; cbn [man_scheme_of] in Hd; try discriminate Hd; cbn; split; lia).
  destruct Hdeg as (Nd & Nu). destruct (Nat.eqb_spec (man_upsampling_factor d) 0) as [Ez|_]; [lia|]. unfold man_fscatter_numel.
  destruct (Nat.eqb_spec (man_degree d) 0) as [Ez|_]; [contradiction|].
  destruct (poly_fmult_numel_value 9 (man_degree d) (1 * man_upsampling_factor d) ltac:(lia) ltac:(lia)) as (k & Ek & Hk1 & _). rewrite Ek. cbn [bind].
  destruct (Nat.eqb_spec (9 * (man_degree d + 1) * 2 ^ k) 0) as [Ez|_]; [pose proof (Nat.pow_nonzero 2 k); nia|].
  destruct (man_sample_defined d us kappa eps_t (RtoC 0, RtoC 0, RtoC 0) (RtoC 0, RtoC 0, RtoC 0) Hd) as (ls0 & E0). rewrite E0.
  destruct (man_sample_loop_ok d us kappa eps_t 1 q1 q2 (junkp (9 * (man_degree d + 1) * 2 ^ k)%nat) Hd (le_n _) L1 L2) as (p & E & _).
  - rewrite Hjp. nia.
  - rewrite E. cbn [bind negb Z.eqb SUCCESS]. unfold poly_fmult3x3, poly_fmultM.
    change (np2 1) with (Ret 1%nat). cbn [bind]. change (1 <? 1)%nat with false. cbn [bind].
    destruct (two_polys_len _); reflexivity.
Qed.
End Full.

(** ** Concrete cases *)
Lemma exact_real kappa (x t : R) : (1 / 100 <= Rabs x)%R -> (1 / 1000 <= Rabs t)%R -> exact_at kappa (RtoC x) (RtoC 0) t.
Proof.
  intros Hx Ht. right. rewrite !Cmod_R. rewrite Rabs_R0, Rmult_0_l, Rplus_0_r, sqrt_square by apply Rabs_pos. split.
  - left. unfold EPSILON. lra.
  - apply Rle_trans with (1 / 1000 * (1 / 100))%R; [lra|]. apply Rmult_le_compat; lra.
Qed.
(** the samples 0, 1, 3 of q1 (q2 = 0), step size 1: the exactness conditions hold for all discretizations *)
Example ex_man_exact d us : man_scheme_of d = Some us -> man_exact d 1 1 (RtoC 0, RtoC 1, RtoC 3) (RtoC 0, RtoC 0, RtoC 0).
Proof.
  intros H. assert (Hq2 : forall c, (c * d1 0 0 / 12 + d2 0 0 0 / 48) * RtoC 1 = RtoC 0) by (intros; unfold d1, d2; field).
  split.
  - intros u s a Hs (c & w & Hw & Ha). apply exact_real; [rewrite Rabs_R1; lra|].
    assert (Hmin : Qle (1#2) (Qabs.Qabs a)).
    { apply Qle_bool_iff.
      assert (A : forallb (fun t : Q * word => forallb (fun f : letter * Q => orb (match fst f with LA => true | LB => false end) (Qle_bool (1#2) (Qabs.Qabs (snd f)))) (snd t)) s = true)
        by (destruct d; cbn [man_scheme_of] in Hs; try discriminate Hs; injection Hs as <- <-; vm_compute; reflexivity).
      rewrite forallb_forall in A. specialize (A _ Hw). rewrite forallb_forall in A. exact (A _ Ha). }
    assert (Hu : (1 <= INR u <= 48)%R).
    { replace 1%R with (INR 1) by reflexivity. replace 48%R with (INR 48) by (rewrite INR_IZR_INZ; reflexivity).
      split; apply le_INR; destruct d; cbn [man_scheme_of] in Hs; try discriminate Hs; injection Hs as <- <-; lia. }
    assert (Hr : (1/2 <= Rabs (Q2R a))%R).
    { apply Qle_Rle in Hmin. replace (Q2R (1#2)) with (1/2)%R in Hmin by (unfold Q2R; simpl; field).
      apply Rle_trans with (1 := Hmin). apply Qabs.Qabs_case; intros Hc; [apply Rle_abs|]. rewrite Q2R_opp, <- Rabs_Ropp. apply Rle_abs. }
    rewrite Rabs_mult. apply Rle_trans with (1/2 * / 48)%R; [lra|]. apply Rmult_le_compat; try lra.
    unfold Rdiv. rewrite Rmult_1_l, Rabs_pos_eq by (left; apply Rinv_0_lt_compat; lra). apply Rinv_le_contravar; lra.
  - intros _. split.
    + replace ((d1 0 3 / 12 + d2 0 1 3 / 48) * RtoC 1) with (RtoC (7 / 48)) by (unfold d1, d2; rewrite RtoC_div by lra; field).
      replace ((d1 0 0 / 12 + d2 0 0 0 / 48) * RtoC 1) with (RtoC 0) by (unfold d1, d2; field).
      apply exact_real; rewrite Rabs_pos_eq; lra.
    + replace ((- d1 0 3 / 12 + d2 0 1 3 / 48) * RtoC 1) with (RtoC (- (5 / 48))) by (unfold d1, d2; rewrite RtoC_opp, RtoC_div by lra; field).
      replace ((- d1 0 0 / 12 + d2 0 0 0 / 48) * RtoC 1) with (RtoC 0) by (unfold d1, d2; field).
      apply exact_real; [rewrite Rabs_Ropp|]; rewrite Rabs_pos_eq; lra.
Qed.
(** three samples, the Suzuki splitting, normalisation on: the hypotheses of the product theorem are met *)
Example ex_man_product : exists r' W,
  manakov_fscatter (fun _ => 1%Z) (repeat (RtoC 0)) (repeat (RtoC 0)) (repeat (RtoC 0)) (repeat Ci) true 3
    (Some [RtoC 1; Ci; RtoC 2]) (Some [- (1); Ci; - (2)]) (-1) (1/4) (Some (repeat (RtoC 0) 540)) true M_FTES4_suzuki
  = Ret (SUCCESS, Some 42%nat, Some r', W).
Proof.
  assert (L : forall x n, length (repeat (x : C) n) = n) by (intros; apply repeat_length).
  destruct (manakov_fscatter_product (fun _ => 1%Z) _ _ _ _ (L (RtoC 0)) (L (RtoC 0)) (L (RtoC 0)) (L Ci) true 3
    [RtoC 1; Ci; RtoC 2] [- (1); Ci; - (2)] (repeat (RtoC 0) 540) (-1) (1/4) M_FTES4_suzuki (48%nat, [(1%Q, suzuki)]) 540)
    as (r' & W & M & E & _); try (cbn [length]; lia); try lra; try reflexivity.
  exists r', W. exact E.
Qed.
Print Assumptions man_fscatter_is_splitting.
Print Assumptions man_lambda_to_z_tau.
Print Assumptions expB3_is_exponential.
Print Assumptions man_splitting_order.
Print Assumptions manakov_fscatter_product.
Print Assumptions manakov_fscatter_transfer_matrix.
Print Assumptions manakov_fscatter_unknown_discretization.
Print Assumptions manakov_fscatter_FTES4_4B_refuted.
Print Assumptions manakov_fscatter_implemented.
Print Assumptions manakov_fscatter_invalid_arguments.
Print Assumptions manakov_fscatter_one_sample_refuted.
