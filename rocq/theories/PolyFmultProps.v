(** * Theorems about fnft__poly_fmult* (C17-C21) *)
From Coq Require Import Reals Lra.
From Coquelicot Require Import Complex.
From Verif Require Import Base Mem MatSpec Series Dft Fields KissModel KissProof KissProps MiscModel
  PolyFmultModel PolyFmultTwo PolyFmultScript PolyFmultTree PolyFmultProof.
Local Open Scope nat_scope.
Local Arguments RtoC _%R_scope.

(** ** bridging lemmas: coefficient statements -> values at z *)
Section Bridge.
Context {K : cfield}.
Add Field KF : (cfield_th K).
Local Open Scope cf_scope.

Lemma coeffs_length (a : list K) off n : (off + n <= length a)%nat -> length (coeffs a off n) = n.
Proof. intros H. unfold coeffs. rewrite firstn_length, skipn_length. lia. Qed.
Lemma nth_coeffs (a : list K) off n i : (i < n)%nat -> nth i (coeffs a off n) 0 = nth (off + i) a 0.
Proof. intros H. unfold coeffs. rewrite nth_firstn by exact H. apply nth_skipn'. Qed.

Lemma peval_seval (a : list K) off deg z (f : nat -> K) : (off + (deg + 1) <= length a)%nat ->
  (forall l, (l <= deg)%nat -> f l = nth (off + l) a 0) ->
  peval (coeffs a off (deg + 1)) z = seval deg f z.
Proof.
  intros H Hf. unfold peval, seval. rewrite coeffs_length by exact H.
  replace (S deg) with (deg + 1)%nat by lia. apply fsum_ext. intros i Hi.
  rewrite nth_coeffs, Hf by lia. do 2 f_equal. lia.
Qed.

Lemma seval_scal c deg (f : nat -> K) z : seval deg (fun l => c * f l) z = c * seval deg f z.
Proof. unfold seval. rewrite <- fsum_scal. apply fsum_ext. intros; ring. Qed.
Lemma seval_ext deg (f g : nat -> K) z : (forall l, (l <= deg)%nat -> f l = g l) -> seval deg f z = seval deg g z.
Proof. intros H. apply fsum_ext. intros i Hi. rewrite H by lia. reflexivity. Qed.

Lemma mat_of_eval m (a : list K) stride deg t i j z :
  ((i * m + j) * stride + t * (deg + 1) + (deg + 1) <= length a)%nat ->
  smeval deg (mat_of m a stride deg t) z i j = peval (coeffs a ((i * m + j) * stride + t * (deg + 1)) (deg + 1)) z.
Proof.
  intros H. unfold smeval. symmetry. apply peval_seval; [exact H|].
  intros l Hl. unfold mat_of. destruct (Nat.leb_spec l deg); [reflexivity|lia].
Qed.

Lemma nmprod_ext m n (A B : nat -> @nmat K) : (forall t i j, (t < n)%nat -> (i < m)%nat -> (j < m)%nat -> A t i j = B t i j) ->
  forall i j, (i < m)%nat -> (j < m)%nat -> nmprod m n A i j = nmprod m n B i j.
Proof.
  induction n as [|n IH]; intros H i j Hi Hj; [reflexivity|]. cbn [nmprod]. unfold nmmul.
  apply fsum_ext. intros k Hk. rewrite IH, (H n k j) by (try lia; intros; apply H; lia). reflexivity.
Qed.

Lemma matrix_bridge m n d (p r : list K) (c : K) :
  (m * m * (n * (d + 1)) <= length p)%nat -> (m * m * (n * d + 1) <= length r)%nat ->
  smeq m (smscal c (mat_of m r (n * d + 1) (n * d) 0)) (smprod m n (mat_of m p (n * (d + 1)) d)) ->
  forall z i j, (i < m)%nat -> (j < m)%nat ->
  c * peval (coeffs r ((i * m + j) * (n * d + 1)) (n * d + 1)) z
  = nmprod m n (fun t a b => peval (coeffs p ((a * m + b) * (n * (d + 1)) + t * (d + 1)) (d + 1)) z) i j.
Proof.
  intros Lp Lr H z i j Hi Hj.
  assert (B : forall a b, (a < m)%nat -> (b < m)%nat -> (a * m + b + 1 <= m * m)%nat).
  { intros a b Ha Hb. pose proof (idx_lt m a b Ha Hb). lia. }
  transitivity (c * smeval (n * d) (mat_of m r (n * d + 1) (n * d) 0) z i j).
  { f_equal. rewrite mat_of_eval.
    - f_equal. f_equal. lia.
    - pose proof (Nat.mul_le_mono_r _ _ (n * d + 1) (B i j Hi Hj)). lia. }
  transitivity (smeval (n * d) (smprod m n (mat_of m p (n * (d + 1)) d)) z i j).
  { unfold smeval. rewrite <- seval_scal. apply seval_ext. intros l Hl. apply (H i j l Hi Hj). }
  rewrite smeval_prod; [|intros; apply mat_of_supp|assumption..].
  apply nmprod_ext; [|assumption..]. intros t a b Ht Ha Hb. apply mat_of_eval.
  pose proof (Nat.mul_le_mono_r _ _ (n * (d + 1)) (B a b Ha Hb)).
  assert ((t + 1) * (d + 1) <= n * (d + 1))%nat by (apply Nat.mul_le_mono_r; lia). lia.
Qed.
End Bridge.

(** lia up to the equality of the types car CF and C *)
Ltac clia := repeat match goal with
  | H : context [@length (car CF) ?x] |- _ => change (@length (car CF) x) with (@length C x) in H
  | |- context [@length (car CF) ?x] => change (@length (car CF) x) with (@length C x)
  end; lia.

(** ** KissFFT meets the FFT contract *)
Lemma kiss_fft_ok len : (1 <= len)%nat -> fft_ok (K := CF) kiss_fft len (wroot false len).
Proof.
  intros H. split; [apply wroot_proot; lia|]. split; intros x Hx;
    assert (Hx' : (len <= @length C x)%nat) by (apply Nat.eq_le_incl; symmetry; exact Hx).
  - rewrite kiss_fft_dft by assumption. reflexivity.
  - rewrite kiss_fft_dft by assumption. rewrite (wroot_inv false). reflexivity.
Qed.
Lemma two_C_neq0 : RtoC 2 <> @f0 CF.
Proof. intros H. apply RtoC_inj in H. apply (R1_neq_R0). lra. Qed.

(** fnft__poly_fmult_numel and friends *)
Theorem poly_fmult_numel_value mm deg n : (1 <= n)%nat -> (Z.of_nat n <= 2 ^ 63)%Z ->
  exists k, fmult_numel mm deg n = Ret (mm * (deg + 1) * 2 ^ k)%nat /\ (n <= 2 ^ k)%nat /\
    forall j, (n <= 2 ^ j)%nat -> (k <= j)%nat.
Proof.
  intros H1 H2. destruct (np2_ok n H1 H2) as (k & E & Hk & _ & Hm). exists k.
  unfold fmult_numel. rewrite E. auto.
Qed.

Section Theorems.
(** the exponent that is factored out after a product (FLOOR(LOG2(max))), arbitrary *)
Variable expo : list C -> Z.
(** contents of the freshly allocated buffers of length l *)
Variables junk0 junk1 junk2 : nat -> list C.
Hypothesis Hj0 : forall l, length (junk0 l) = l.
Hypothesis Hj1 : forall l, length (junk1 l) = l.
Hypothesis Hj2 : forall l, length (junk2 l) = l.

(** C17: n polynomials of degree d, n not necessarily a power of two, in an array of
   exactly poly_fmult_numel(d,n) elements.  [normalize] = (W_ptr != NULL). *)
Theorem poly_fmult_product normalize d n p numel :
  (2 <= n)%nat -> (Z.of_nat n <= 2 ^ 63)%Z -> fmult_numel 1 d n = Ret numel -> length p = numel ->
  exists p' W, poly_fmult (K := CF) kiss_fft expo (RtoC 2) junk0 junk1 junk2 normalize d n p = Ret (0%Z, (n * d)%nat, p', W) /\
    length p' = length p /\ (normalize = false -> W = 0%Z) /\
    forall x : C, Cmult (zpow (K := CF) (RtoC 2) W) (peval (K := CF) (coeffs (K := CF) p' 0 (n * d + 1)) x)
      = cprod (K := CF) n (fun t => peval (K := CF) (coeffs (K := CF) p (t * (d + 1)) (d + 1)) x).
Proof.
  intros Hn Hn2 Hnum Lp.
  destruct (poly_fmult_spec (K := CF) kiss_fft expo (RtoC 2) (fun len H => ex_intro _ _ (kiss_fft_ok len H)) two_C_neq0
    junk0 junk1 junk2 Hj0 Hj1 Hj2 normalize d n p numel Hn Hn2 Hnum ltac:(lia)) as (p' & W & E & L & HW & H).
  exists p', W. split; [exact E|]. split; [exact L|]. split; [exact HW|]. intros x.
  destruct (poly_fmult_numel_value 1 d n ltac:(lia) Hn2) as (k & Ek & Hk & _). rewrite Hnum in Ek. injection Ek as ->.
  assert (B1 : ((n * d + 1) <= length p')%nat) by (rewrite L, Lp; nia).
  assert (B2 : (n * (d + 1) <= length p)%nat) by (rewrite Lp; nia).
  transitivity (fmul (c := CF) (zpow (K := CF) (RtoC 2) W) (smeval (K := CF) (n * d) (mat_of 1 p' 0 (n * d) 0) x 0%nat 0%nat)).
  { rewrite (mat_of_eval 1) by lia. reflexivity. }
  transitivity (smeval (K := CF) (n * d) (smprod 1 n (mat_of 1 p 0 d)) x 0%nat 0%nat).
  { unfold smeval. rewrite <- (seval_scal (K := CF)). apply (seval_ext (K := CF)). intros l Hl.
    apply (H 0%nat 0%nat l); lia. }
  rewrite smeval_prod; [|intros; apply mat_of_supp|lia..].
  clear - B2. revert B2. induction n as [|n IH]; intros B2; [reflexivity|].
  cbn [nmprod cprod]. unfold nmmul. cbn [fsum].
  assert (B3 : (n * (d + 1) <= length p)%nat) by lia.
  rewrite (IH B3). rewrite (mat_of_eval 1) by lia.
  assert (Ei : ((0 * 1 + 0) * 0 + n * (d + 1) = n * (d + 1))%nat) by lia. rewrite Ei.
  generalize (cprod (K := CF) n (fun t => peval (K := CF) (coeffs (K := CF) p (t * (d + 1)) (d + 1)) x)); intros A.
  generalize (peval (K := CF) (coeffs (K := CF) p (n * (d + 1)) (d + 1)) x); intros B.
  cf_norm. ring.
Qed.

(** C18, C19: n m x m matrices of polynomials of degree d.  Input layout: entry (a,b) of
   matrix t starts at (a*m+b)*n*(d+1) + t*(d+1); output layout: entry (i,j) starts at
   (i*m+j)*(n*d+1).  p and result have at least poly_fmult2x2_numel / 3x3_numel elements. *)
Definition ordered_product (m : nat) (fmult : (nat -> list C) -> (nat -> list C) -> (nat -> list C) ->
    bool -> nat -> nat -> list C -> list C -> out (Z * nat * list C * list C * Z)) : Prop :=
  forall normalize d n p result numel,
  (2 <= n)%nat -> (Z.of_nat n <= 2 ^ 63)%Z -> fmult_numel (m * m) d n = Ret numel ->
  (numel <= length p)%nat -> (numel <= length result)%nat ->
  exists p' r' W, fmult junk0 junk1 junk2 normalize d n p result = Ret (0%Z, (n * d)%nat, p', r', W) /\
    length p' = length p /\ length r' = length result /\ (normalize = false -> W = 0%Z) /\
    forall (x : C) i j, (i < m)%nat -> (j < m)%nat ->
      Cmult (zpow (K := CF) (RtoC 2) W)
            (peval (K := CF) (coeffs (K := CF) r' ((i * m + j) * (n * d + 1)) (n * d + 1)) x)
      = nmprod (K := CF) m n (fun t a b =>
          peval (K := CF) (coeffs (K := CF) p ((a * m + b) * (n * (d + 1)) + t * (d + 1)) (d + 1)) x) i j.

Lemma ordered_product_script script m : m <> 0%nat -> script_ok m script ->
  ordered_product m (poly_fmultM (K := CF) kiss_fft expo (RtoC 2) script m).
Proof.
  intros Hm Hs normalize d n p result numel Hn Hn2 Hnum Lp Lr.
  destruct (poly_fmultM_spec (K := CF) kiss_fft expo (RtoC 2) (fun len H => ex_intro _ _ (kiss_fft_ok len H)) two_C_neq0
    junk0 junk1 junk2 Hj0 Hj1 Hj2 script m Hm Hs normalize d n p result numel Hn Hn2 Hnum
    Lp Lr)
    as (p' & r' & W & E & L & L' & HW & H).
  exists p', r', W. split; [exact E|]. split; [exact L|]. split; [exact L'|]. split; [exact HW|].
  destruct (poly_fmult_numel_value (m * m) d n ltac:(lia) Hn2) as (k & Ek & Hk & _). rewrite Hnum in Ek. injection Ek as ->.
  intros x i j Hi Hj. apply (matrix_bridge (K := CF) m n d p r' _); auto.
  - change (@length (car CF) p) with (@length C p). etransitivity; [|exact Lp]. rewrite <- (Nat.mul_assoc (m * m)). apply Nat.mul_le_mono_l. nia.
  - assert (Lr2 : (m * m * (d + 1) * 2 ^ k <= @length (car CF) r')%nat) by (etransitivity; [exact Lr|]; apply Nat.eq_le_incl; symmetry; exact L').
    etransitivity; [|exact Lr2]. rewrite <- (Nat.mul_assoc (m * m)). apply Nat.mul_le_mono_l. nia.
Qed.

Theorem poly_fmult2x2_product : ordered_product 2 (poly_fmult2x2 (K := CF) kiss_fft expo (RtoC 2)).
Proof. apply ordered_product_script; [lia|exact script2_ok]. Qed.
Theorem poly_fmult3x3_product : ordered_product 3 (poly_fmult3x3 (K := CF) kiss_fft expo (RtoC 2)).
Proof. apply ordered_product_script; [lia|exact script3_ok]. Qed.

(** a single polynomial (matrix): the functions return an uninitialised ret_code *)
Theorem poly_fmult_of_one_returns_uninitialised_code normalize d p :
  (d + 1 <= length p)%nat -> poly_fmult (K := CF) kiss_fft expo (RtoC 2) junk0 junk1 junk2 normalize d 1 p = UB.
Proof.
  intros _. unfold poly_fmult. change (np2 1) with (Ret 1%nat). cbn [bind Nat.sub pad1].
  destruct (two_polys_len (d * 1 / 2)) as [l|]; reflexivity.
Qed.
End Theorems.

(** C20: one product.  A polynomial of degree deg is multiplied with another one, either given
   or (NULL) left in the buffers, as its transform, by the previous call. *)
Section C20.
Variable deg : nat.
Local Notation two_polys := (two_polys (K := CF) kiss_fft).

(** no wrap-around: the transform length exceeds the degree of the product *)
Theorem two_polys_len_no_wrap_around :
  exists len, two_polys_len deg = Ret len /\ (2 * deg + 1 <= len < 2 * (2 * deg + 1))%nat.
Proof.
  unfold two_polys_len. destruct (next_fft_length_least (2 * (deg + 1) - 1)) as (r & E & H & _); [lia|].
  rewrite E. exists r. split; [reflexivity|]. lia.
Qed.

Variables (len : nat).
Hypothesis Hlen : two_polys_len deg = Ret len.
Lemma len_ge : (2 * deg + 1 <= len)%nat.
Proof. destruct two_polys_len_no_wrap_around as (l & E & H). rewrite Hlen in E. injection E as <-. lia. Qed.
Variables (res b0 b1 b2 : list C) (ro : nat).
Hypothesis L0 : length b0 = len.
Hypothesis L1 : length b1 = len.
Hypothesis L2 : length b2 = len.


(** result_eval r f: the coefficients r[ro..ro+2deg] are those of f *)
Definition product_at (r : list C) (p q : list C) : Prop :=
  forall x : C, peval (K := CF) (coeffs (K := CF) r ro (2 * deg + 1)) x
    = Cmult (peval (K := CF) p x) (peval (K := CF) q x).

Lemma ser_supp' (p : list C) : length p = (deg + 1)%nat -> forall i, (deg < i)%nat -> ser (K := CF) p i = @f0 CF.
Proof. intros HL i Hi. apply nth_overflow. change (@length (car CF) p) with (@length C p). lia. Qed.

Lemma product_at_smul r (p q : list C) : length p = (deg + 1)%nat -> length q = (deg + 1)%nat ->
  (ro + (2 * deg + 1) <= length r)%nat ->
  (forall k, (k < 2 * deg + 1)%nat -> nth (ro + k) r (RtoC 0) = smul (K := CF) (ser (K := CF) p) (ser (K := CF) q) k) ->
  product_at r p q.
Proof.
  intros Lp Lq Lr H x.
  assert (Ep : forall p : list C, length p = (deg + 1)%nat -> peval (K := CF) p x = seval (K := CF) deg (ser (K := CF) p) x).
  { intros p' Lp'. change (@length (car CF) p' = (deg + 1)%nat) in Lp'. unfold peval, seval, ser. rewrite Lp'. replace (S deg) with (deg + 1)%nat by lia.
    apply (fsum_ext (K := CF)). intros i Hi. do 2 f_equal. lia. }
  rewrite (Ep p Lp), (Ep q Lq).
  transitivity (seval (K := CF) (deg + deg) (smul (K := CF) (ser (K := CF) p) (ser (K := CF) q)) x).
  - rewrite (peval_seval (K := CF) r ro (2 * deg) x (smul (K := CF) (ser (K := CF) p) (ser (K := CF) q))).
    + f_equal. lia.
    + change (@length (car CF) r) with (@length C r). lia.
    + intros l Hl. symmetry. apply H. lia.
  - apply (seval_smul (K := CF)); now apply ser_supp'.
Qed.

Theorem two_polys_multiplies p q :
  length p = (deg + 1)%nat -> length q = (deg + 1)%nat -> (ro + (2 * deg + 1) <= length res)%nat ->
  exists res' b0' b1' b2', two_polys deg (Some p) (Some q) res ro b0 b1 b2 0 = Ret (res', b0', b1', b2') /\
    length res' = length res /\ product_at res' p q /\
    (forall i, (i < ro \/ ro + (2 * deg + 1) <= i)%nat -> nth i res' (RtoC 0) = nth i res (RtoC 0)) /\
    (* reuse of the transform of q: any further factor f, NULL for the second operand *)
    forall f res2, length f = (deg + 1)%nat -> (ro + (2 * deg + 1) <= length res2)%nat ->
      exists res2' c0 c1 c2, two_polys deg (Some f) None res2 ro b0' b1' b2' 0 = Ret (res2', c0, c1, c2) /\
        product_at res2' f q.
Proof.
  intros Lp Lq Lr. pose proof len_ge as Hge.
  destruct (two_polys_spec (K := CF) kiss_fft deg len (wroot false len) Hlen Hge (kiss_fft_ok len ltac:(lia))
    (Some p) (Some q) p q res ro b0 b1 b2 0%nat WAny (WCoef (smul (K := CF) (ser (K := CF) p) (ser (K := CF) q))))
    as (res' & b0' & b1' & b2' & E & Lr' & L0' & L1' & L2' & T2 & _ & Hw & F); try clia; try exact I; try reflexivity;
    try (split; [assumption|first [reflexivity|assumption]]); try (cbn [wsize]; clia).

  exists res', b0', b1', b2'. split; [exact E|]. split; [exact Lr'|]. split; [|split].
  - apply product_at_smul; auto. clia.
  - exact F.
  - intros f res2 Lf Lr2.
    destruct (two_polys_spec (K := CF) kiss_fft deg len (wroot false len) Hlen Hge (kiss_fft_ok len ltac:(lia))
      (Some f) None f q res2 ro b0' b1' b2' 0%nat WAny (WCoef (smul (K := CF) (ser (K := CF) f) (ser (K := CF) q))))
      as (r2 & c0 & c1 & c2 & E2 & Lr2' & _ & _ & _ & _ & _ & Hw2 & _); try clia; try exact I; try reflexivity;
    try (split; [assumption|first [reflexivity|assumption]]); try (cbn [wsize]; clia).

    exists r2, c0, c1, c2. split; [exact E2|]. apply product_at_smul; auto. clia.
Qed.

(** modes 2, 4, 3 in sequence (as the 3x3 code uses them when the result window holds len
   elements): the sum of three products with a single inverse transform *)
Theorem two_polys_accumulates p q p' q' p'' q'' :
  length p = (deg + 1)%nat -> length q = (deg + 1)%nat -> length p' = (deg + 1)%nat -> length q' = (deg + 1)%nat ->
  length p'' = (deg + 1)%nat -> length q'' = (deg + 1)%nat -> (ro + len <= length res)%nat ->
  exists r1 a0 a1 a2 r2 c0 c1 c2 r3 d0 d1 d2,
    two_polys deg (Some p) (Some q) res ro b0 b1 b2 2 = Ret (r1, a0, a1, a2) /\
    two_polys deg (Some p') (Some q') r1 ro a0 a1 a2 4 = Ret (r2, c0, c1, c2) /\
    two_polys deg (Some p'') (Some q'') r2 ro c0 c1 c2 3 = Ret (r3, d0, d1, d2) /\
    forall x : C, peval (K := CF) (coeffs (K := CF) r3 ro (2 * deg + 1)) x
      = Cplus (Cplus (Cmult (peval (K := CF) p x) (peval (K := CF) q x)) (Cmult (peval (K := CF) p' x) (peval (K := CF) q' x)))
              (Cmult (peval (K := CF) p'' x) (peval (K := CF) q'' x)).
Proof.
  intros Lp Lq Lp' Lq' Lp'' Lq'' Lr. pose proof len_ge as Hge.
  set (s1 := smul (K := CF) (ser (K := CF) p) (ser (K := CF) q)).
  set (s2 := smul (K := CF) (ser (K := CF) p') (ser (K := CF) q')).
  set (s3 := smul (K := CF) (ser (K := CF) p'') (ser (K := CF) q'')).
  destruct (two_polys_spec (K := CF) kiss_fft deg len (wroot false len) Hlen Hge (kiss_fft_ok len ltac:(lia))
    (Some p) (Some q) p q res ro b0 b1 b2 2%nat WAny (WFft s1))
    as (r1 & a0 & a1 & a2 & E1 & Lr1 & A0 & A1 & A2 & _ & _ & W1 & _); try clia; try exact I; try reflexivity;
    try (split; [assumption|first [reflexivity|assumption]]); try (cbn [wsize]; clia).

  destruct (two_polys_spec (K := CF) kiss_fft deg len (wroot false len) Hlen Hge (kiss_fft_ok len ltac:(lia))
    (Some p') (Some q') p' q' r1 ro a0 a1 a2 4%nat (WFft s1) (WFft (fun k => fadd (s1 k) (s2 k))))
    as (r2 & c0 & c1 & c2 & E2 & Lr2 & C0 & C1 & C2 & _ & _ & W2 & _); try clia; try exact W1; try reflexivity;
    try (split; [assumption|first [reflexivity|assumption]]); try (cbn [wsize]; clia).

  destruct (two_polys_spec (K := CF) kiss_fft deg len (wroot false len) Hlen Hge (kiss_fft_ok len ltac:(lia))
    (Some p'') (Some q'') p'' q'' r2 ro c0 c1 c2 3%nat (WFft (fun k => fadd (s1 k) (s2 k)))
    (WCoef (fun k => fadd (fadd (s1 k) (s2 k)) (s3 k))))
    as (r3 & d0 & d1 & d2 & E3 & Lr3 & _ & _ & _ & _ & _ & W3 & _); try clia; try exact W2; try reflexivity;
    try (split; [assumption|first [reflexivity|assumption]]); try (cbn [wsize]; clia).

  exists r1, a0, a1, a2, r2, c0, c1, c2, r3, d0, d1, d2. split; [exact E1|]. split; [exact E2|]. split; [exact E3|].
  intros x.
  rewrite (peval_seval (K := CF) r3 ro (2 * deg) x (fun k => fadd (c := CF) (fadd (c := CF) (s1 k) (s2 k)) (s3 k))).
  2:{ clia. } 2:{ intros l Hl. symmetry. apply W3. lia. }
  assert (Ep : forall p : list C, length p = (deg + 1)%nat -> peval (K := CF) p x = seval (K := CF) deg (ser (K := CF) p) x).
  { intros u Lu. change (@length (car CF) u = (deg + 1)%nat) in Lu. unfold peval, seval, ser. rewrite Lu. replace (S deg) with (deg + 1)%nat by lia.
    apply (fsum_ext (K := CF)). intros i Hi. do 2 f_equal. lia. }
  assert (Es : forall a b : list C, length a = (deg + 1)%nat -> length b = (deg + 1)%nat ->
     Cmult (peval (K := CF) a x) (peval (K := CF) b x) = seval (K := CF) (2 * deg) (smul (K := CF) (ser (K := CF) a) (ser (K := CF) b)) x).
  { intros a b La Lb. rewrite (Ep a La), (Ep b Lb). replace (2 * deg)%nat with (deg + deg)%nat by lia.
    symmetry. apply (seval_smul (K := CF)); now apply ser_supp'. }
  rewrite (Es p q Lp Lq), (Es p' q' Lp' Lq'), (Es p'' q'' Lp'' Lq'').
  unfold seval. change Cplus with (@fadd CF). rewrite <- !(fsum_add (K := CF)).
  apply (fsum_ext (K := CF)). intros i Hi. cf_norm. fold s1 s2 s3. ring.
Qed.
End C20.

(** C20, C21: one pair of matrices in the tree, in the layout of the tree level (h pairs, pair s),
   whatever the previous contents of result and of the buffers *)
Theorem two_polys_matrix_product script m deg p_stride h p r b0 b1 b2 s len :
  (script = script2 /\ m = 2%nat) \/ (script = script3 /\ m = 3%nat) ->
  two_polys_len deg = Ret len ->
  let r_stride := (h * (2 * deg + 1))%nat in
  (h * (2 * deg + 2) <= p_stride)%nat -> (s < h)%nat ->
  (m * m * p_stride <= length p)%nat -> (m * m * r_stride <= length r)%nat ->
  (len <= length b0)%nat -> (len <= length b1)%nat -> (len <= length b2)%nat ->
  exists r' b0' b1' b2',
    run_calls (K := CF) kiss_fft p (s * (2 * deg + 2)) (s * (2 * deg + 2) + (deg + 1)) p_stride deg
      (s * (2 * deg + 1)) r_stride (script (negb (r_stride - s * (2 * deg + 1) <? len)%nat)) r b0 b1 b2
      = Ret (r', b0', b1', b2') /\
    forall (x : C) i j, (i < m)%nat -> (j < m)%nat ->
      peval (K := CF) (coeffs (K := CF) r' ((i * m + j) * r_stride + s * (2 * deg + 1)) (2 * deg + 1)) x
      = nmmul (K := CF) m
          (fun a b => peval (K := CF) (coeffs (K := CF) p ((a * m + b) * p_stride + 2 * s * (deg + 1)) (deg + 1)) x)
          (fun a b => peval (K := CF) (coeffs (K := CF) p ((a * m + b) * p_stride + (2 * s + 1) * (deg + 1)) (deg + 1)) x) i j.
Proof.
  intros Hs Hlen r_stride Hps Hsh Lp Lr L0 L1 L2.
  assert (Hok : script_ok m script).
  { destruct Hs as [[-> ->]|[-> ->]]; [exact script2_ok|exact script3_ok]. }
  pose proof (len_ge deg len Hlen) as Hge.
  destruct (pair_spec (K := CF) (fun _ => 0%Z) kiss_fft script m Hok deg len (wroot false len) Hlen Hge (kiss_fft_ok len ltac:(lia))
    p_stride h Hps p r b0 b1 b2 s Hsh Lp Lr L0 L1 L2) as (r' & b0' & b1' & b2' & E & Lr' & _ & _ & _ & H & _).
  exists r', b0', b1', b2'. split; [exact E|]. intros x i j Hi Hj. fold r_stride in H.
  assert (B : forall a b, (a < m)%nat -> (b < m)%nat -> (a * m + b + 1 <= m * m)%nat).
  { intros a b Ha Hb. pose proof (idx_lt m a b Ha Hb). lia. }
  assert (Hsr : ((s + 1) * (2 * deg + 1) <= r_stride)%nat) by (apply Nat.mul_le_mono_r; lia).
  assert (Hsp : ((s + 1) * (2 * deg + 2) <= p_stride)%nat).
  { eapply Nat.le_trans; [|exact Hps]. apply Nat.mul_le_mono_r; lia. }
  rewrite (peval_seval (K := CF) r' _ (2 * deg) x
    (smmul (K := CF) m (mat_of m p p_stride deg (2 * s)) (mat_of m p p_stride deg (2 * s + 1)) i j)).
  - pose proof (smeval_mul (K := CF) m deg deg (mat_of m p p_stride deg (2 * s)) (mat_of m p p_stride deg (2 * s + 1)) x i j
      (mat_of_supp _ _ _ _ _) (mat_of_supp _ _ _ _ _) Hi Hj) as Em.
    replace (deg + deg)%nat with (2 * deg)%nat in Em by lia. unfold smeval at 1 in Em. rewrite Em.
    unfold nmmul. apply (fsum_ext (K := CF)). intros k Hk.
    pose proof (Nat.mul_le_mono_r _ _ p_stride (B i k Hi Hk)). pose proof (Nat.mul_le_mono_r _ _ p_stride (B k j Hk Hj)).
    f_equal; apply (mat_of_eval (K := CF)); nia.
  - pose proof (Nat.mul_le_mono_r _ _ r_stride (B i j Hi Hj)). lia.
  - intros l Hl. rewrite <- H by lia. f_equal. lia.
Qed.

(** ** A concrete run over Z/61 (fft = the exact DFT with a 60/len-th power of 2): product of
   three 2x2 matrices of linear polynomials, compared with the directly computed product *)
Definition fft61 (inv : bool) (len : nat) (x : list F61) : out (list F61) :=
  let w := fpow (K := F61) (z 2) (60 / len) in
  Ret (dft_list (K := F61) (if inv then finv w else w) len x).
Definition p61 : list F61 := map z [1;2; 3;4; 5;6;  7;8; 9;10; 11;12;  13;14; 15;16; 17;18;  19;20; 21;22; 23;24; 0;0;0;0;0;0;0;0]%Z.
Definition run61 :=
  poly_fmult2x2 (K := F61) fft61 (fun _ => 1%Z) (z 2) (fun l => repeat (z 7) l) (fun l => repeat (z 8) l)
    (fun l => repeat (z 9) l) true 1 3 p61 (repeat (z 5) 32).
Example poly_fmult2x2_run :
  match run61 with
  | Ret (code, d, _, r, W) => code = 0%Z /\ d = 3%nat /\ W = 3%Z /\
      forallb (fun x => forallb (fun i => forallb (fun j =>
        Z.eqb (show61 (fmul (zpow (K := F61) (z 2) W) (peval (K := F61) (coeffs (K := F61) r ((i * 2 + j) * 4) 4) (z (Z.of_nat x)))))
              (show61 (nmprod (K := F61) 2 3 (fun t a b => peval (K := F61) (coeffs (K := F61) p61 ((a * 2 + b) * 6 + t * 2) 2) (z (Z.of_nat x))) i j)))
        (seq 0 2)) (seq 0 2)) (seq 0 7) = true
  | UB => False
  end.
Proof. vm_compute. repeat split. Qed.

(** the hypotheses of the matrix theorem are met, e.g. by n = 3, d = 1 *)
Example poly_fmult2x2_hyps : exists p' r' W,
  poly_fmult2x2 (K := CF) kiss_fft (fun _ => 1%Z) (RtoC 2) (repeat (RtoC 0)) (repeat (RtoC 0)) (repeat (RtoC 0)) true 1 3
    (repeat Ci 32) (repeat (RtoC 0) 32) = Ret (0%Z, 3%nat, p', r', W) /\
  forall x i j, (i < 2)%nat -> (j < 2)%nat ->
    Cmult (zpow (K := CF) (RtoC 2) W) (peval (K := CF) (coeffs (K := CF) r' ((i * 2 + j) * 4) 4) x)
    = nmprod (K := CF) 2 3 (fun t a b => peval (K := CF) (coeffs (K := CF) (repeat Ci 32) ((a * 2 + b) * 6 + t * 2) 2) x) i j.
Proof.
  destruct (poly_fmult2x2_product (fun _ => 1%Z) (repeat (RtoC 0)) (repeat (RtoC 0)) (repeat (RtoC 0))
    (fun l => repeat_length _ l) (fun l => repeat_length _ l) (fun l => repeat_length _ l) true 1%nat 3%nat (repeat Ci 32) (repeat (RtoC 0) 32) 32%nat)
    as (p' & r' & W & E & _ & _ & _ & H); try lia; try reflexivity.
  exists p', r', W. split; [exact E|exact H].
Qed.

Print Assumptions poly_fmult_product.
Print Assumptions poly_fmult2x2_product.
Print Assumptions poly_fmult3x3_product.
Print Assumptions two_polys_multiplies.
Print Assumptions two_polys_accumulates.
Print Assumptions two_polys_matrix_product.
Print Assumptions poly_fmult_numel_value.
