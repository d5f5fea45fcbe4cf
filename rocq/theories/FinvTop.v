(** * From the machine to the routine *)
From Coq Require Import Reals ZArith List Lia Lra.
From Coquelicot Require Import Coquelicot.
From Verif Require Import Base Mem Loop Series Fields CField Dft FftUse MatSpec PolySpec ErrModel CExp KissModel KissProof PolyFmultModel PolyFmultTree FscatterModel FscatterSpec PolyFmultProps FinvModel FinvAlg FinvMult FinvRun.
Import ListNotations.
Local Open Scope C_scope.

Lemma cost_le k : (cost k <= 4 * 2 ^ k - 3)%nat.
Proof. induction k as [|k IH]; cbn [cost Nat.pow] in *; [lia|]. pose proof (Nat.pow_nonzero 2 k). lia. Qed.
Lemma level_pow K l : (l <= K)%nat -> level_deg (2 ^ K) l = (2 ^ (K - l))%nat.
Proof. intros H. unfold level_deg. replace K with (K - l + l)%nat at 1 by lia. rewrite Nat.pow_add_r. apply Nat.div_mul. apply Nat.pow_nonzero. lia. Qed.

Definition lensf (K l : nat) : nat := match two_polys_len (2 ^ (K - l)) with Ret n => n | UB => 0%nat end.
Lemma lensf_ok K l : two_polys_len (2 ^ (K - l)) = Ret (lensf K l) /\ (2 * 2 ^ (K - l) + 1 <= lensf K l)%nat.
Proof. unfold lensf. destruct (two_polys_len_spec (2 ^ (K - l))) as (n & E & H & _). rewrite E. split; [reflexivity|exact H]. Qed.
Lemma lensf_le K l : (lensf K l <= lensf K 0)%nat.
Proof.
  destruct (lensf_ok K l) as [E1 _], (lensf_ok K 0) as [E2 _]. refine (two_polys_len_mono _ _ _ _ _ E1 E2).
  apply Nat.pow_le_mono_r; lia.
Qed.
Lemma plans_ok K cnt : forall l, (l + cnt = S K)%nat ->
  exists pl, plans cnt l (2 ^ K) = Ret pl /\ length pl = cnt /\ forall i, (i < cnt)%nat -> nth i pl (0%nat, 0%nat) = (lensf K (l + i), 0%nat).
Proof.
  induction cnt as [|cnt IH]; intros l Hl; cbn [plans].
  - exists []. split; [reflexivity|]. split; [reflexivity|]. intros i Hi. lia.
  - rewrite level_pow by lia. destruct (lensf_ok K l) as [E H]. rewrite E. cbn [bind].
    destruct (IH (S l) ltac:(lia)) as (pl & E2 & L2 & N2). rewrite E2. cbn [bind].
    destruct (Nat.ltb_spec (2 ^ (K - l) + 1) (lensf K l)) as [_|H']; [|pose proof (Nat.pow_nonzero 2 (K - l)); lia].
    eexists. split; [reflexivity|]. split; [cbn [length]; lia|]. intros [|i] Hi; cbn [nth].
    + now rewrite Nat.add_0_r.
    + rewrite N2 by lia. f_equal. f_equal. lia.
Qed.

Lemma not_pow2_pow K : not_pow2 (2 ^ K) = false.
Proof.
  unfold not_pow2. apply Bool.negb_false_iff, Z.eqb_eq.
  replace (Z.of_nat (2 ^ K)) with (2 ^ Z.of_nat K)%Z by (rewrite Nat2Z.inj_pow; reflexivity).
  replace (2 ^ Z.of_nat K - 1)%Z with (Z.ones (Z.of_nat K)) by (rewrite Z.ones_equiv; lia).
  rewrite Z.land_ones by lia. apply Z_mod_same_full.
Qed.

Section Top.
Variables (junkm : arr -> nat -> list C) (junk0 junk1 junk2 : nat -> list C).
Hypothesis Hjm : forall a n, length (junkm a n) = n.
Hypothesis Hj0 : forall n, length (junk0 n) = n.
Hypothesis Hj1 : forall n, length (junk1 n) = n.
Hypothesis Hj2 : forall n, length (junk2 n) = n.
Variables (qfr : C -> C) (ret_r : bool) (eps_t : R) (kd : kind).
Variable K : nat.
Hypothesis HK : (1 <= K)%nat.
Variables (c Q R x : nat -> C).
Hypothesis Hc : forall k, c k <> 0.
Hypothesis HQ : forall k, (k < 2 ^ K)%nat -> qfr (R k) = Q k.
Hypothesis HQR : forall k, (k < 2 ^ K)%nat -> 1 - Q k * R k <> 0.
Hypothesis Hx : forall k, (k < 2 ^ K)%nat -> recover eps_t kd (if ret_r then R k else Q k) = Some (x k).

Lemma nth_repeat0 (n m : nat) : nth n (repeat (RtoC 0) m) (RtoC 0) = 0.
Proof. revert n. induction m as [|m IH]; intros [|n]; cbn; auto. Qed.

Theorem finvscatter_core (transpose : bool) (tm tm1 q : list C) (Y : nat -> nat -> nat -> C) :
  (if transpose then transpose_tm (2 ^ K) tm else Ret tm) = Ret tm1 ->
  (4 * (2 ^ K + 1) <= length tm1)%nat -> (2 ^ K <= length q)%nat -> Y 0%nat 0%nat 0%nat <> 0 ->
  (forall a l, (a < 2)%nat -> (l < 2 ^ K)%nat ->
    low tm1 0 (2 ^ K + 1) (2 ^ K) a 0 l = smmul (K := CF) 2 (Mdesc (K := CF) (M c Q R) 0 (2 ^ K)) Y a 0%nat l) ->
  exists q', length q' = length q /\ (forall n, nth n q' (RtoC 0) = if (n <? 2 ^ K)%nat then x n else nth n q (RtoC 0)) /\
    finvscatter junkm junk0 junk1 junk2 qfr ret_r transpose kd 1 (2 ^ K) tm q eps_t =
      (q'' <- (if transpose then reverse_q (2 ^ K) q' else Ret q') ;; Ret (SUCCESS, q'', tm1)).
Proof.
  intros Etr Ltm Lq HY Hcol. unfold finvscatter. cbn [Nat.eqb]. rewrite Nat.div_1_r.
  assert (H2 : (2 <= 2 ^ K)%nat) by (replace 2%nat with (2 ^ 1)%nat at 1 by reflexivity; apply Nat.pow_le_mono_r; lia).
  replace (orb (2 ^ K <? 2)%nat (not_pow2 (2 ^ K))) with false.
  2: { symmetry. rewrite not_pow2_pow. destruct (Nat.ltb_spec (2 ^ K) 2); [lia|reflexivity]. }
  rewrite Etr. cbn [bind].
  destruct (lensf_ok K 0) as [E0 _]. rewrite Nat.sub_0_r in E0. rewrite E0. cbn [bind].
  rewrite Nat.log2_pow2 by lia.
  destruct (plans_ok K (K + 1) 0 ltac:(lia)) as (pl & Epl & Lpl & Npl). rewrite Epl. cbn [bind].
  set (f0 := mkframe (2 ^ K) (TM, 0%nat) (2 ^ K + 1) None 0 0 0).
  set (s0 := mkmach _ _ _ _ _ _ _ _).
  pose proof (cost_le K) as Hcost.
  replace (4 * 2 ^ K)%nat with (cost K + (4 * 2 ^ K - cost K))%nat by lia.
  destruct (machine_run qfr ret_r eps_t kd K c Q R x Hc HQ HQR Hx (lensf K)) with (k := K) (i := 0%nat) (s := s0) (f := f0) (Y := Y) (fuel := (4 * 2 ^ K - cost K)%nat) as (s' & Er & P).
  - intros l _. apply (proj1 (lensf_ok K l)).
  - intros l _. apply lensf_le.
  - lia.
  - constructor; unfold s0, f0; cbn [frames f_pos f_deg plan buf0 buf1 buf2 mm qs retc fst snd f_T f_Ts f_Ti f_Tis f_q].
    + cbn [length]. rewrite repeat_length. lia.
    + reflexivity.
    + reflexivity.
    + reflexivity.
    + split; [lia|]. intros l Hl. rewrite Npl by lia. reflexivity.
    + rewrite Hj0, Hj1, Hj2. repeat split; apply le_n.
    + exact I.
    + unfold init_mem. lia.
    + intros ia io E. discriminate E.
    + intros _. exact HK.
    + split; [exact Lq|lia].
    + intros l Hl. constructor; unfold init_mem; rewrite ?Hjm, ?level_pow, ?repeat_length by lia; try reflexivity.
      intros ij y _ _. apply nth_repeat0.
    + exact Hcol.
    + exact HY.
  - rewrite Er. cbn [pop]. destruct P as [O1 O2 O3 O4 O5 O6 O7 O8 O9 O10].
    assert (Erun : forall fuel, run qfr ret_r eps_t kd fuel s' Finished = Ret (s', SUCCESS)).
    { intros fuel. destruct fuel; cbn [run]; rewrite O5; destruct (Nat.eqb_spec K 0); (lia || reflexivity). }
    rewrite Erun. cbn [bind]. change (negb (Z.eqb SUCCESS SUCCESS)) with false. cbv iota.
    exists (qs s'). split; [exact O6|]. split.
    + intros n. rewrite O7. unfold f0. cbn [f_q]. destruct (Nat.leb_spec 0 n); [|lia]. reflexivity.
    + rewrite O9; [reflexivity|exact I|intros io; discriminate].
Qed.
End Top.

(** ** Evaluation of polynomials stored lowest coefficient first *)
Section Leval.
Context {K : cfield}.
Add Field KF : (cfield_th K).
Local Open Scope cf_scope.
Definition leval (n : nat) (p : nat -> K) (z : K) : K := fsum (S n) (fun l => p l * z ^ l).
Lemma leval_ext n p q z : (forall l, (l <= n)%nat -> p l = q l) -> leval n p z = leval n q z.
Proof. intros H. apply fsum_ext. intros l Hl. rewrite H by lia. reflexivity. Qed.
Lemma leval_smul a b (p q : nat -> K) z : (forall i, (a < i)%nat -> p i = 0) -> (forall i, (b < i)%nat -> q i = 0) ->
  leval (a + b) (smul p q) z = leval a p z * leval b q z.
Proof.
  intros Hp Hq. unfold leval, smul.
  rewrite (fsum_ext (S (a + b)) _ (fun l => fsum (S l) (fun i => p i * q (l - i)%nat * z ^ (i + (l - i))))).
  2:{ intros l Hl. rewrite <- fsum_scal_r. apply fsum_ext. intros i Hi.
      replace (i + (l - i))%nat with l by lia. reflexivity. }
  rewrite (fsum_triangle (S (a + b)) (fun i j => p i * q j * z ^ (i + j))).
  replace (S (a + b)) with (S a + b)%nat at 1 by lia. rewrite fsum_split.
  rewrite (fsum_zero' b).
  2:{ intros i Hi. apply fsum_zero'. intros j Hj. rewrite Hp by lia. ring. }
  rewrite <- fsum_scal_r. 
  transitivity (fsum (S a) (fun i => fsum (S (a + b) - i) (fun j => p i * q j * z ^ (i + j))));
    [ring|].
  apply fsum_ext. intros i Hi. rewrite <- fsum_scal.
  replace (S (a + b) - i)%nat with (S b + (a - i))%nat by lia. rewrite fsum_split.
  rewrite (fsum_zero' (a - i)). 2:{ intros j Hj. rewrite Hq by lia. ring. }
  transitivity (fsum (S b) (fun j => p i * q j * z ^ (i + j))); [ring|].
  apply fsum_ext. intros j Hj. 
  rewrite fpow_add. ring.
Qed.
Lemma leval_plus n (p q : nat -> K) z : leval n (fun l => p l + q l) z = leval n p z + leval n q z.
Proof. unfold leval. rewrite <- fsum_add. apply fsum_ext. intros. ring. Qed.
Lemma leval_scal n c (p : nat -> K) z : leval n (fun l => c * p l) z = c * leval n p z.
Proof. unfold leval. rewrite <- fsum_scal. apply fsum_ext. intros. ring. Qed.
(** polynomials that agree at the roots of unity have the same coefficients *)
Lemma leval_id (w : K) n (p p' : nat -> K) : proot w (S n) -> (forall z, leval n p z = leval n p' z) -> forall l, (l <= n)%nat -> p l = p' l.
Proof.
  intros Hw H l Hl.
  assert (E : forall k, dft w (S n) p k = dft w (S n) p' k).
  { intros k. unfold dft. transitivity (leval n p (w ^ k)); [|rewrite H]; unfold leval; apply fsum_ext; intros j _;
    rewrite <- fpow_pow; now rewrite (Nat.mul_comm k j). }
  assert (E2 : fofnat (S n) * (p l) = fofnat (S n) * (p' l)).
  { rewrite <- !(dft_inversion w (S n) _ l Hw) by lia. unfold dft at 1 3. apply fsum_ext. intros k _. now rewrite E. }
  apply fmul_cancel_l in E2; [exact E2|]. apply Hw.
Qed.

Lemma Msamp_supp (c Q R : K) : ssupp 2 1 (Msamp c Q R).
Proof. intros i j l _ _ Hl. destruct i as [|[|i]], j as [|[|j]], l as [|[|l]]; try lia; reflexivity. Qed.
Lemma Mdesc_supp (M : nat -> smat (K := K)) lo n : (forall k, ssupp 2 1 (M k)) -> ssupp 2 n (Mdesc M lo n).
Proof.
  intros H. induction n as [|n IH]; cbn [Mdesc]; [apply smone_supp|].
  replace (S n) with (1 + n)%nat by lia. apply smmul_supp; [apply H|exact IH].
Qed.
Lemma leval_smmul a b (A B : smat (K := K)) z i j : ssupp 2 a A -> ssupp 2 b B -> (i < 2)%nat -> (j < 2)%nat ->
  leval (a + b) (smmul 2 A B i j) z = leval a (A i 0%nat) z * leval b (B 0%nat j) z + leval a (A i 1%nat) z * leval b (B 1%nat j) z.
Proof.
  intros HA HB Hi Hj. rewrite <- !leval_smul by (intros; (apply HA || apply HB); lia). rewrite <- leval_plus.
  apply leval_ext. intros l _. unfold smmul. cbn [fsum]. ring.
Qed.
End Leval.

Lemma leval_low (a : list C) o s n i j z : (o + (i * 2 + j) * s + (n + 1) <= length a)%nat ->
  leval (K := CF) n (low a o s n i j) z = peval (K := CF) (coeffs (K := CF) a (o + (i * 2 + j) * s) (n + 1)) z.
Proof.
  intros H. unfold leval, peval. rewrite coeffs_length by exact H. rewrite Nat.add_1_r. rewrite fsum_rev.
  apply fsum_ext. intros l Hl. unfold low. destruct (Nat.leb_spec (S n - 1 - l) n); [|lia].
  rewrite nth_coeffs by lia. change (f0 (c := CF)) with (RtoC 0).
  replace (n - (S n - 1 - l))%nat with l by lia. reflexivity.
Qed.
(** the matrix of one sample, with c Q R: c [1 Q; R 1] diag(1, z) *)
Definition sample_mat (c Q R : nat -> C) (z : C) (n : nat) : mat2 := mscal (c n) (mmul (M2 1 (Q n) (R n) 1) (M2 1 0 0 z)).
Lemma Mdesc_entry c Q R z n : forall i j, (i < 2)%nat -> (j < 2)%nat ->
  leval (K := CF) n (Mdesc (K := CF) (M c Q R) 0 n i j) z = entry (descending n (sample_mat c Q R z)) i j.
Proof.
  induction n as [|n IH]; intros i j Hi Hj.
  - cbn [Mdesc descending]. destruct i as [|[|i]], j as [|[|j]]; try lia; unfold leval; cbn; ring.
  - cbn [Mdesc descending]. replace (S n) with (1 + n)%nat by lia.
    rewrite (leval_smmul (K := CF)); [|apply Msamp_supp|apply Mdesc_supp; intros; apply Msamp_supp|exact Hi|exact Hj].
    rewrite !IH by lia. unfold sample_mat at 3, M. cbn [Nat.add].
    destruct i as [|[|i]], j as [|[|j]]; try lia; unfold leval; cbn [fsum Msamp fpow CF car fadd fmul f0 f1 entry mmul mscal a11 a12 a21 a22]; ring.
Qed.
