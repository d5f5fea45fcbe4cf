(** * Theorems about fnft__poly_chirpz (C22) and fnft__misc_resample (C11) *)
From Coq Require Import Reals Lra.
From Coquelicot Require Import Coquelicot.
From Verif Require Import ChirpzModel ChirpzProof ResampleModel ResampleProof.
Local Open Scope C_scope.

(** ** Small specification (independent of the model) *)
(** p[0] x^deg + ... + p[deg] *)
Fixpoint polyval (p : list C) (x : C) (acc : C) : C :=
  match p with [] => acc | c :: p' => polyval p' x (acc * x + c) end.
(** Cpown x n = x^n: CExp.v *)
(** sum_{j<n} f j *)
Fixpoint Rsum (n : nat) (f : nat -> R) : R := match n with O => 0%R | S k => (Rsum k f + f k)%R end.
(** sum of squared moduli of the first D entries *)
Definition l2 (D : nat) (q : list C) : R := Rsum D (fun j => (Cmod (nth j q 0) * Cmod (nth j q 0))%R).

Lemma peval_cons' {K : cfield} (c : K) p x :
  PolySpec.peval (c :: p) x = fadd (fmul c (fpow x (length p))) (PolySpec.peval p x).
Proof.
  unfold PolySpec.peval. cbn [length]. rewrite fsum_S_l. cbn [nth].
  replace (S (length p) - 1 - 0)%nat with (length p) by lia. f_equal.
  apply fsum_ext. intros i Hi. f_equal. f_equal. lia.
Qed.
Lemma Cpown_fpow x n : Cpown x n = fpow (K := CF) x n.
Proof. induction n as [|n IH]; [reflexivity|]. cbn [Cpown fpow]. now rewrite IH. Qed.
Lemma polyval_peval p x : forall acc, polyval p x acc = acc * Cpown x (length p) + PolySpec.peval (K := CF) p x.
Proof.
  induction p as [|c p IH]; intros acc.
  - cbn. ring.
  - cbn [polyval length]. rewrite IH. cbn [Cpown].
    pose proof (peval_cons' (K := CF) c p x) as E. rewrite <- Cpown_fpow in E.
    change (@length (car CF) p) with (@length C p) in E.
    change (PolySpec.peval (K := CF) (c :: p) x = Cplus (Cmult c (Cpown x (length p))) (PolySpec.peval (K := CF) p x)) in E.
    transitivity (acc * (x * Cpown x (length p)) + (c * Cpown x (length p) + PolySpec.peval (K := CF) p x)); [cf_ring|].
    f_equal. symmetry. exact E.
Qed.
Lemma Rsum_fsum n f : Rsum n f = fsum (K := RF) n f.
Proof. induction n as [|n IH]; [reflexivity|]. cbn [Rsum fsum]. now rewrite IH. Qed.

(** ** C22: result[n] = p(1/(A W^-n)) for all n < M, whatever the allocated buffers contain;
   entries from M on are untouched *)
Theorem poly_chirpz_evaluates junk deg p (A W : C) M result :
  (forall k n, length (junk k n) = n) -> A <> 0 -> W <> 0 -> (1 <= M)%nat ->
  length p = (deg + 1)%nat -> (M <= length result)%nat ->
  exists result', poly_chirpz junk deg (Some p) A W M (Some result) = Ret (0%Z, Some result')
    /\ length result' = length result
    /\ (forall n, (n < M)%nat -> nth n result' 0 = polyval p (/ (A * / Cpown W n)) 0)
    /\ (forall n, (M <= n)%nat -> nth n result' 0 = nth n result 0).
Proof.
  intros Hj HA HW HM Hp Hr. destruct (poly_chirpz_spec junk deg p A W M result Hj HA HW HM Hp Hr) as (r & E & L & H1 & H2).
  exists r. split; [exact E|]. split; [exact L|]. split; [|exact H2].
  intros n Hn. rewrite (H1 n Hn), polyval_peval, !Cpown_fpow, Cmult_0_l, Cplus_0_l. reflexivity.
Qed.

(** the FFT length avoids wrap-around: it is at least deg + M and less than twice that *)
Theorem poly_chirpz_fft_length deg M : (1 <= M)%nat ->
  exists L, next_fft_length ((deg + 1) + M - 1) = Some L /\ (deg + M <= L < 2 * (deg + M))%nat.
Proof.
  intros HM. destruct (next_fft_length_least (deg + 1 + M - 1) ltac:(lia)) as (L & EL & HL & _).
  exists L. split; [exact EL|]. lia.
Qed.

Theorem poly_chirpz_errors junk deg p A W M result :
  p = None \/ M = 0%nat \/ result = None -> poly_chirpz junk deg p A W M result = Ret (2%Z, result).
Proof.
  intros H. unfold poly_chirpz. destruct p as [p|]; [|reflexivity].
  destruct (Nat.eqb_spec M 0); [reflexivity|]. destruct result; [|reflexivity]. destruct H as [H|[H|H]]; now try discriminate.
Qed.

(** ** C11 *)
Section Resample.
Variable junk : nat -> nat -> list C.
Variable junkR : nat -> list R.
Hypothesis Hjunk : forall k n, length (junk k n) = n.
Hypothesis HjunkR : forall n, length (junkR n) = n.
Variables (D : nat) (eps_t : R).
Hypothesis HD : (2 < D)%nat.
Hypothesis Heps : eps_t <> 0%R.

(** [resampled delta q q']: fnft__misc_resample of q by delta succeeds and leaves q' in q_new,
   whatever q_new contained *)
Definition resampled (delta : R) (q q' : list C) : Prop :=
  length q' = D /\ forall q_new, length q_new = D ->
    misc_resample junk junkR D eps_t (Some q) delta (Some q_new) = Ret (0%Z, Some q').

Lemma resampled_spec delta q q' : length q = D -> resampled delta q q' ->
  forall j, (j < D)%nat -> nth j q' 0 = rs D (phase D eps_t delta) (fun i => nth i q 0) j.
Proof.
  intros Lq [Lq' H] j Hlt. specialize (H q' Lq').
  destruct (misc_resample_rs junk junkR D eps_t q delta q' Hjunk HjunkR HD Heps ltac:(lia) ltac:(lia)) as (r & E & _ & N & _).
  rewrite H in E. injection E as E. subst r. now apply N.
Qed.

Theorem misc_resample_total delta q : length q = D -> exists q', resampled delta q q'.
Proof.
  intros Lq.
  set (q' := tabulate D (rs D (phase D eps_t delta) (fun i => nth i q 0))).
  assert (Lq' : length q' = D) by apply tabulate_length.
  exists q'. split; [exact Lq'|]. intros q_new Ln.
  destruct (misc_resample_rs junk junkR D eps_t q delta q_new Hjunk HjunkR HD Heps ltac:(lia) ltac:(lia)) as (r & E & L & N & _).
  rewrite E. do 3 f_equal. apply (list_eq_nth _ _ (RtoC 0)); [lia|]. intros i Hi.
  rewrite N by lia. unfold q'. now rewrite nth_tabulate by lia.
Qed.

Theorem misc_resample_zero_shift q q' : length q = D -> resampled 0 q q' -> q' = q.
Proof.
  intros Lq H. apply (list_eq_nth _ _ (RtoC 0)); [rewrite Lq; exact (proj1 H)|]. intros i Hi. rewrite (proj1 H) in Hi.
  rewrite (resampled_spec _ _ _ Lq H i Hi). rewrite <- (rs_one D (fun i => nth i q 0) i Hi) at 1.
  apply rs_ext; [|reflexivity]. intros k Hk. apply phase_0.
Qed.

Theorem misc_resample_composes d1 d2 q q1 q2 : length q = D ->
  resampled d1 q q1 -> resampled d2 q1 q2 -> resampled (d1 + d2) q q2.
Proof.
  intros Lq H1 H2. destruct (misc_resample_total (d1 + d2) q Lq) as (q3 & H3).
  assert (E : q2 = q3); [|now rewrite E].
  apply (list_eq_nth _ _ (RtoC 0)); [rewrite (proj1 H3); exact (proj1 H2)|]. intros i Hi. rewrite (proj1 H2) in Hi.
  rewrite (resampled_spec _ _ _ (proj1 H1) H2 i Hi), (resampled_spec _ _ _ Lq H3 i Hi).
  rewrite (rs_ext D _ (phase D eps_t d2) _ (rs D (phase D eps_t d1) (fun i => nth i q 0)) i (fun _ _ => eq_refl)).
  2:{ intros k Hk. exact (resampled_spec _ _ _ Lq H1 k Hk). }
  rewrite rs_comp. apply rs_ext; [|reflexivity]. intros k Hk. apply phase_add.
Qed.

Theorem misc_resample_preserves_l2 delta q q' : length q = D -> resampled delta q q' -> l2 D q' = l2 D q.
Proof.
  intros Lq H. unfold l2. rewrite !Rsum_fsum.
  change (fsum (K := RF) D (fun j => (Cmod (nth j q 0) * Cmod (nth j q 0))%R)) with (energy D (fun i => nth i q 0)).
  rewrite <- (rs_energy D (phase D eps_t delta)); [|lia|intros; apply Cmod_cis].
  apply (fsum_ext (K := RF)). intros j Hlt. now rewrite (resampled_spec _ _ _ Lq H j Hlt).
Qed.

Theorem misc_resample_full_step_is_cyclic_shift q q' : length q = D -> resampled eps_t q q' ->
  forall j, (j < D)%nat -> nth j q' 0 = nth ((j + 1) mod D)%nat q 0.
Proof.
  intros Lq H j Hlt. rewrite (resampled_spec _ _ _ Lq H j Hlt).
  rewrite <- (rs_shift D (fun i => nth i q 0) j Hlt). apply rs_ext; [|reflexivity].
  intros k Hk. apply phase_step; [lia|exact Heps].
Qed.
End Resample.

Theorem misc_resample_errors junk junkR D eps_t q delta q_new :
  q = None \/ (D <= 2)%nat \/ q_new = None \/ eps_t = 0%R ->
  misc_resample junk junkR D eps_t q delta q_new = Ret (2%Z, q_new).
Proof.
  intros H. unfold misc_resample. destruct q as [q|]; [|reflexivity].
  destruct (Nat.leb_spec D 2); [reflexivity|]. destruct q_new; [|reflexivity].
  destruct (Req_EM_T eps_t 0); [reflexivity|]. destruct H as [H|[H|[H|H]]]; try discriminate; try lia; contradiction.
Qed.

(** Examples: hypotheses are satisfiable *)
Example chirpz_ex : exists result',
  poly_chirpz (fun _ n => repeat (RtoC 7) n) 2 (Some [RtoC 1; RtoC 2; RtoC 3]) (RtoC 2) Ci 2 (Some [RtoC 0; RtoC 0])
    = Ret (0%Z, Some result') /\ nth 0 result' 0 = RtoC (17 / 4).
Proof.
  destruct (poly_chirpz_evaluates (fun _ n => repeat (RtoC 7) n) 2 [RtoC 1; RtoC 2; RtoC 3] (RtoC 2) Ci 2 [RtoC 0; RtoC 0])
    as (r & E & _ & H & _).
  - intros; apply repeat_length.
  - exact C2_neq0.
  - exact Ci_neq0.
  - lia.
  - reflexivity.
  - simpl; lia.
  - exists r. split; [exact E|]. rewrite (H 0%nat) by lia. cbn [polyval Cpown].
    replace (/ (RtoC 2 * / 1)) with (RtoC (/ 2)).
    2:{ rewrite RtoC_inv by lra. field. split; [intros E'; injection E'; lra|exact C2_neq0]. }
    rewrite <- !RtoC_mult, <- !RtoC_plus, <- !RtoC_mult, <- !RtoC_plus, <- !RtoC_mult, <- !RtoC_plus. f_equal. field.
Qed.
Example resample_ex : exists q', resampled (fun _ n => repeat (RtoC 7) n) (fun n => repeat 5%R n) 3 (1/2) (1/2) [RtoC 1; RtoC 2; Ci] q'
  /\ q' = [RtoC 2; Ci; RtoC 1].
Proof.
  assert (HC : forall (k n : nat), length (repeat (RtoC 7) n) = n) by (intros; apply repeat_length).
  assert (HR : forall n : nat, length (repeat 5%R n) = n) by (intros; apply repeat_length).
  assert (He : (1 / 2)%R <> 0%R) by lra.
  destruct (misc_resample_total (fun _ n => repeat (RtoC 7) n) (fun n => repeat 5%R n) HC HR 3 (1/2) ltac:(lia) He (1/2) [RtoC 1; RtoC 2; Ci] eq_refl) as (q' & H).
  exists q'. split; [exact H|].
  apply (list_eq_nth _ _ (RtoC 0)); [exact (proj1 H)|]. intros i Hi. rewrite (proj1 H) in Hi.
  rewrite (misc_resample_full_step_is_cyclic_shift _ _ HC HR 3 (1/2) ltac:(lia) He [RtoC 1; RtoC 2; Ci] q' eq_refl H i Hi).
  destruct i as [|[|[|i]]]; try lia; reflexivity.
Qed.

Print Assumptions poly_chirpz_evaluates.
Print Assumptions misc_resample_composes.
Print Assumptions misc_resample_preserves_l2.
