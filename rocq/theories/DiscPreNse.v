(** * Preprocessing for NSE, KdV and Manakov (C31) *)
From Coq Require Import Reals Lra.
From Coquelicot Require Import Coquelicot.
From Verif Require Import DiscModel MiscProof ResampleProof FftAppProps DiscPreProof DiscProps DiscPreProps DiscWeightsTab DiscWeights.
Local Open Scope C_scope.

Lemma dot_csum w x n : dot w x n = csum n (fun c => w c * x c). Proof. reflexivity. Qed.

Lemma csum_conj n (f : nat -> C) : Cconj (csum n f) = csum n (fun i => Cconj (f i)).
Proof.
  induction n as [|n IH]; [apply Ceq; cbn; ring|].
  change (Cconj (csum n f + f n) = csum n (fun i => Cconj (f i)) + Cconj (f n)). rewrite <- IH. apply Ceq; cbn; ring.
Qed.
Lemma csum_opp n (f : nat -> C) : - csum n f = csum n (fun i => - f i).
Proof.
  induction n as [|n IH]; [apply Ceq; cbn; ring|].
  change (- (csum n f + f n) = csum n (fun i => - f i) + - f n). rewrite <- IH. ring.
Qed.

(** the weights of CF4_2 (4SPLIT) and CF4_3 are real *)
Lemma real_weights d w sw k : akns_method_weights d = inr (w, sw) -> (d = A_CF4_2 \/ d = A_CF4_3 \/ d = A_4SPLIT4A \/ d = A_4SPLIT4B) ->
  Cconj (nth k w 0) = nth k w 0.
Proof.
  assert (R0 : forall x : R, Cconj (RtoC x) = RtoC x) by (intros; apply Ceq; cbn; ring).
  intros E H. unfold akns_method_weights in E.
  destruct H as [H|[H|[H|H]]]; subst d; cbn [akns_weight_class] in E.
  2:{ apply (f_equal (fun r => match r with inr (x, _) => x | inl _ => w end)) in E. cbv beta iota in E.
      unfold normalise_rows in E. subst w. destruct (Nat.lt_ge_cases k 9) as [Hk|Hk].
      2:{ rewrite nth_overflow by (rewrite tabulate_length; lia). apply R0. }
      rewrite nth_tabulate by lia.
      assert (Q : forall j, exists x : R, nth j cf43_qr 0 = RtoC x).
      { intros j. destruct (Nat.lt_ge_cases j 9) as [Hj|Hj].
        - unfold cf43_qr. rewrite nth_tabulate by lia. eexists. reflexivity.
        - exists 0%R. rewrite nth_overflow by (unfold cf43_qr; rewrite tabulate_length; lia). reflexivity. }
      destruct (Q k) as [x ->]. destruct (Q (3 * (k / 3))%nat) as [a ->]. destruct (Q (3 * (k / 3) + 1)%nat) as [b ->]. destruct (Q (3 * (k / 3) + 2)%nat) as [c ->].
      rewrite <- !RtoC_plus. unfold Cdiv. rewrite Cmult_conj, R0. f_equal. apply Ceq; cbn; unfold Rdiv; ring. }
  all: injection E as <- _; destruct k as [|[|[|[|k]]]]; cbn [nth]; try apply R0; destruct k; apply R0.
Qed.

Section NSE.
Variables (junk : nat -> nat -> list C) (junkR : nat -> list R).
Hypothesis Hjunk : forall k n, length (junk k n) = n.
Hypothesis HjunkR : forall n, length (junkR n) = n.
Variables (D Dsub0 : nat) (q : list C) (eps_t : R).
Hypothesis Lq : length q = D.
Hypothesis Heps : (0 < eps_t)%R.

(** NSE: r = -kappa*conj(q) for every sample (for all methods with real weights; CF5_3 and CF6_4 use complex weights,
   for which r is the weighted sum of -kappa*conj(samples), akns_preprocess_commutator_free) *)
Theorem nse_preprocess_conjugate kappa (d : nse_disc) : (3 <= D)%nat -> d <> N_other -> d <> N_CF5_3 -> d <> N_CF6_4 -> (kappa = 1 \/ kappa = -1)%Z ->
  exists nskip o, nse_preprocess junk junkR D (Some q) eps_t kappa Dsub0 d = Ret (inr o)
   /\ grid_ok D Dsub0 nskip o
   /\ length (po_q o) = (nse_upsampling_factor d * po_Dsub o)%nat /\ length (po_r o) = length (po_q o)
   /\ forall i, (i < length (po_q o))%nat -> nth i (po_r o) 0 = - RtoC (IZR kappa) * Cconj (nth i (po_q o) 0).
Proof.
  intros HD H0 H5 H6 Hk.
  assert (Hr : forall x, nse_r_from_q kappa x = - RtoC (IZR kappa) * Cconj x).
  { intros x. unfold nse_r_from_q. destruct Hk; subst kappa; cbn [Z.eqb Pos.eqb]; apply Ceq; cbn; ring. }
  assert (Ha : exists a, nse_to_akns d = Some a /\ akns_implemented a /\ a <> A_CF5_3 /\ a <> A_CF6_4 /\ nse_upsampling_factor d = akns_upsampling_factor a).
  { destruct d; try congruence; eexists; (split; [reflexivity|]); unfold akns_implemented; repeat split; try discriminate. }
  destruct Ha as (a & Ea & Ia & A5 & A6 & Eu). rewrite Eu. unfold nse_preprocess. rewrite Ea.
  set (rf := fun _ : nat => nse_r_from_q kappa).
  assert (Cases : akns_upsampling_factor a = 1%nat \/ (a = A_ES4 \/ a = A_TES4) \/ (a = A_CF4_2 \/ a = A_CF4_3 \/ a = A_4SPLIT4A \/ a = A_4SPLIT4B)).
  { destruct Ia as (I1 & I2 & I3 & I4). destruct a; try congruence; auto 10. }
  destruct Cases as [U|[S|F]].
  - destruct (akns_preprocess_plain junk junkR Hjunk HjunkR D Dsub0 q rf eps_t Lq Heps a ltac:(lia) U) as (s & o & E & G & L1 & L2 & N).
    rewrite E. cbn [bind]. exists s, o. split; [reflexivity|]. split; [exact G|]. rewrite U. split; [lia|]. split; [lia|].
    intros i Hi. destruct (N i ltac:(lia)) as [-> ->]. apply Hr.
  - destruct (akns_preprocess_derivatives junk junkR Hjunk HjunkR D Dsub0 q rf eps_t Lq Heps a ltac:(lia) S) as (s & o & E & G & L1 & L2 & N).
    rewrite E. cbn [bind]. exists s, o. split; [reflexivity|]. split; [exact G|].
    assert (U : akns_upsampling_factor a = 3%nat) by (destruct S; subst; reflexivity). rewrite U. split; [lia|]. split; [lia|].
    intros i Hi. cbv zeta in N. destruct (N (i / 3)%nat) as (_ & _ & _ & N3). { apply Nat.div_lt_upper_bound; lia. }
    assert (M := Nat.mod_upper_bound i 3 ltac:(lia)). specialize (N3 (i mod 3)%nat M). rewrite <- Nat.div_mod in N3 by lia. rewrite N3. apply Hr.
  - assert (W : exists w sw, akns_method_weights a = inr (w, sw)) by (destruct F as [F|[F|[F|F]]]; subst a; eexists; eexists; reflexivity).
    destruct W as (w & sw & W). assert (U : (2 <= akns_upsampling_factor a)%nat) by (destruct F as [F|[F|[F|F]]]; subst a; cbn; lia).
    destruct (akns_preprocess_commutator_free junk junkR Hjunk HjunkR D Dsub0 q rf eps_t Lq Heps a w sw HD W U) as (n & s & o & cols & E & Hn & Lw & G & L1 & L2 & Rc & N).
    rewrite E. cbn [bind]. exists s, o. split; [reflexivity|]. split; [exact G|]. split; [exact L1|]. split; [lia|]. intros i Hi.
    set (u := akns_upsampling_factor a) in *. assert (Hu0 : u <> 0%nat) by lia.
    destruct (N (i / u)%nat (i mod u)%nat) as [N1 N2]. { apply Nat.div_lt_upper_bound; lia. } { now apply Nat.mod_upper_bound. }
    rewrite <- Nat.div_mod in N1, N2 by exact Hu0. rewrite N1, N2, !dot_csum, csum_conj.
    rewrite <- csum_scal. apply csum_ext. intros c Hc. unfold rf. rewrite Hr, Cmult_conj, (real_weights a w sw _ W F). ring.
Qed.

(** KdV: r = -1 (and its derivatives 0) for every method *)
Theorem kdv_preprocess_r_is_minus_one (d : kdv_disc) a : (3 <= D)%nat -> kdv_to_akns d = Some a -> akns_implemented a ->
  exists nskip o, kdv_preprocess junk junkR D (Some q) eps_t Dsub0 d = Ret (inr o)
   /\ grid_ok D Dsub0 nskip o
   /\ length (po_q o) = (kdv_upsampling_factor d * po_Dsub o)%nat /\ length (po_r o) = length (po_q o)
   /\ forall i, (i < length (po_q o))%nat ->
        nth i (po_r o) 0 = (if match a with A_ES4 | A_TES4 => negb (i mod 3 =? 0)%nat | _ => false end then RtoC 0 else - (1)).
Proof.
  intros HD Ea Ia.
  assert (Eu : kdv_upsampling_factor d = akns_upsampling_factor a) by (destruct d; try discriminate; injection Ea as <-; reflexivity).
  rewrite Eu. unfold kdv_preprocess. rewrite Ea.
  assert (Cases : akns_upsampling_factor a = 1%nat \/ (a = A_ES4 \/ a = A_TES4) \/ (2 <= akns_upsampling_factor a /\ exists w sw, akns_method_weights a = inr (w, sw) /\ a <> A_ES4 /\ a <> A_TES4)%nat).
  { destruct Ia as (I1 & I2 & I3 & I4).
    destruct a; try congruence; auto 10; right; right; (split; [cbn; lia|]); do 2 eexists; (split; [reflexivity|split; discriminate]). }
  destruct Cases as [U|[S|(U & w & sw & W & A1 & A2)]].
  - destruct (akns_preprocess_plain junk junkR Hjunk HjunkR D Dsub0 q kdv_r_from_q eps_t Lq Heps a ltac:(lia) U) as (s & o & E & G & L1 & L2 & N).
    rewrite E. cbn [bind]. exists s, o. split; [reflexivity|]. split; [exact G|]. rewrite U. split; [lia|]. split; [lia|].
    intros i Hi. destruct (N i ltac:(lia)) as [_ ->]. destruct a; cbn in U; try lia; reflexivity.
  - destruct (akns_preprocess_derivatives junk junkR Hjunk HjunkR D Dsub0 q kdv_r_from_q eps_t Lq Heps a ltac:(lia) S) as (s & o & E & G & L1 & L2 & N).
    rewrite E. cbn [bind]. exists s, o. split; [reflexivity|]. split; [exact G|].
    assert (U : akns_upsampling_factor a = 3%nat) by (destruct S; subst; reflexivity). rewrite U. split; [lia|]. split; [lia|].
    intros i Hi. cbv zeta in N. destruct (N (i / 3)%nat) as (_ & _ & _ & N3). { apply Nat.div_lt_upper_bound; lia. }
    assert (M := Nat.mod_upper_bound i 3 ltac:(lia)). specialize (N3 (i mod 3)%nat M). rewrite <- Nat.div_mod in N3 by lia. rewrite N3.
    destruct S; subst a; destruct (i mod 3)%nat as [|[|[|]]]; try lia; reflexivity.
  - destruct (akns_preprocess_commutator_free junk junkR Hjunk HjunkR D Dsub0 q kdv_r_from_q eps_t Lq Heps a w sw HD W U) as (n & s & o & cols & E & Hn & Lw & G & L1 & L2 & Rc & N).
    rewrite E. cbn [bind]. exists s, o. split; [reflexivity|]. split; [exact G|]. split; [exact L1|]. split; [lia|]. intros i Hi.
    destruct (method_weights_rows_sum_to_one a w sw W U) as (Lw' & _ & Hrow).
    set (u := akns_upsampling_factor a) in *. assert (Hu0 : u <> 0%nat) by lia.
    assert (En : n = ncol_of a) by nia. subst n.
    assert (Hmod : (i mod u < u)%nat) by now apply Nat.mod_upper_bound.
    destruct (N (i / u)%nat (i mod u)%nat) as [_ N2]. { apply Nat.div_lt_upper_bound; lia. } { exact Hmod. }
    rewrite <- Nat.div_mod in N2 by exact Hu0. rewrite N2, dot_csum.
    transitivity (- csum (ncol_of a) (fun c => nth (i mod u * ncol_of a + c) w 0)).
    { rewrite csum_opp. apply csum_ext. intros c Hc. cbn [kdv_r_from_q]. ring. }
    rewrite Hrow by exact Hmod. destruct a; try reflexivity; congruence.
Qed.
End NSE.

(** *** Manakov *)
Lemma resampled_scale junk junkR (Hjunk : forall k n, length (junk k n) = n) (HjunkR : forall n, length (junkR n) = n) D (e1 e2 c : R) q q' :
  (2 < D)%nat -> (0 < e1)%R -> (0 < e2)%R -> length q = D ->
  resampled junk junkR D e1 (c * e1) q q' -> resampled junk junkR D e2 (c * e2) q q'.
Proof.
  intros HD H1 H2 Lq R1.
  destruct (misc_resample_total junk junkR Hjunk HjunkR D e2 HD ltac:(lra) (c * e2) q Lq) as (q2 & R2).
  assert (E : q' = q2); [|rewrite E; exact R2].
  apply (list_eq_nth _ _ (RtoC 0)); [rewrite (proj1 R2); exact (proj1 R1)|]. intros i Hi. rewrite (proj1 R1) in Hi.
  rewrite (resampled_spec junk junkR Hjunk HjunkR D e1 HD ltac:(lra) _ q q' Lq R1 i Hi).
  rewrite (resampled_spec junk junkR Hjunk HjunkR D e2 HD ltac:(lra) _ q q2 Lq R2 i Hi).
  assert (HDR : INR D <> 0%R) by (apply not_0_INR; lia).
  assert (P : forall k, phase D e1 (c * e1) k = phase D e2 (c * e2) k).
  { intros k. unfold phase. f_equal. unfold freq_of. destruct (k <? D / 2)%nat; field; split; try split; lra. }
  unfold rs. f_equal. apply (dft_ext (K := CF)). intros k Hk. now rewrite P.
Qed.

Section Manakov.
Variables (junk : nat -> nat -> list C) (junkR : nat -> list R).
Hypothesis Hjunk : forall k n, length (junk k n) = n.
Hypothesis HjunkR : forall n, length (junkR n) = n.
Variables (D Dsub0 : nat) (q1 q2 : list C) (eps_t : R).
Hypothesis Lq1 : length q1 = D.
Hypothesis Lq2 : length q2 = D.
Hypothesis Heps : (0 < eps_t)%R.
Hypothesis HD : (2 <= D)%nat.

Lemma man_entry (d : man_disc) : man_upsampling_factor d <> 0%nat ->
  exists nskip Dsub, (1 <= nskip)%nat /\ (2 <= Dsub)%nat /\ ((Dsub - 1) * nskip < D)%nat /\ downsample_sizes D Dsub0 = Ret (nskip, Dsub)
   /\ (Dsub0 = D -> nskip = 1%nat /\ Dsub = D).
Proof.
  intros Hu. destruct (sizes_spec D Dsub0 HD) as (s & m & E & H1 & H2 & H3). exists s, m. split; [exact H1|]. split; [exact H2|]. split; [exact H3|].
  split; [exact E|]. intros ->. rewrite sizes_full in E by exact HD. injection E as <- <-. split; reflexivity.
Qed.

Theorem man_preprocess_plain (d : man_disc) : man_upsampling_factor d = 1%nat ->
  exists nskip o, man_preprocess junk junkR D (Some q1) (Some q2) eps_t Dsub0 d = Ret (inr o)
    /\ grid_ok D Dsub0 nskip o /\ length (po_q o) = po_Dsub o /\ length (po_r o) = po_Dsub o
    /\ forall k, (k < po_Dsub o)%nat -> nth k (po_q o) 0 = nth (k * nskip) q1 0 /\ nth k (po_r o) 0 = nth (k * nskip) q2 0.
Proof.
  intros Hu. destruct (man_entry d ltac:(lia)) as (s & m & H1 & H2 & H3 & Es & H4).
  unfold man_preprocess. destruct (Nat.ltb_spec D 2); [lia|]. destruct (Rle_dec eps_t 0); [lra|]. rewrite Es. cbn [bind]. rewrite Hu.
  cbn [Nat.eqb]. assert (Hc : man_pre_class d = Some P_plain) by (destruct d; vm_compute in Hu; try discriminate; reflexivity).
  rewrite Hc, Nat.mul_1_r.
  destruct (plain_loop_spec m s q1 q2 (fun x => x) (fun x => x) (junk 0%nat m) (junk 1%nat m)) as (a & b & E & La & Lb & N).
  { apply Hjunk. } { apply Hjunk. } { intros k Hk. assert (k * s <= (m - 1) * s)%nat by (apply Nat.mul_le_mono_r; lia). lia. }
  rewrite E. cbn [bind fst snd Z.eqb].
  eexists s, _. split; [reflexivity|]. cbn [po_q po_r po_Dsub]. split; [unfold grid_ok; cbn; auto 10|].
  split; [exact La|]. split; [exact Lb|]. exact N.
Qed.

(** 4SPLIT and CF4_2 with at least three steps: with x1, x2 the signals at the steps resampled by
   (1/2 -+ sqrt 3/6) of the step size, entry 2k is a1*x1 + a2*x2 and entry 2k+1 is a2*x1 + a1*x2 *)
Theorem man_preprocess_two_stage (d : man_disc) : man_upsampling_factor d = 2%nat ->
  (forall nskip Dsub, downsample_sizes D Dsub0 = Ret (nskip, Dsub) -> 3 <= Dsub)%nat ->
  exists (nskip : nat) (o : pre_out) (s1 s2 x1 x2 y1 y2 : list C), man_preprocess junk junkR D (Some q1) (Some q2) eps_t Dsub0 d = Ret (inr o)
    /\ grid_ok D Dsub0 nskip o /\ length (po_q o) = (2 * po_Dsub o)%nat /\ length (po_r o) = (2 * po_Dsub o)%nat
    /\ length s1 = po_Dsub o /\ length s2 = po_Dsub o
    /\ (forall k, (k < po_Dsub o)%nat -> nth k s1 0 = nth (k * nskip) q1 0 /\ nth k s2 0 = nth (k * nskip) q2 0)
    /\ (let h := (eps_t * INR nskip)%R in let c1 := (1/2 - sqrt 3 / 6)%R in let c2 := (1/2 + sqrt 3 / 6)%R in
        resampled junk junkR (po_Dsub o) h (c1 * h) s1 x1 /\ resampled junk junkR (po_Dsub o) h (c2 * h) s1 x2
        /\ resampled junk junkR (po_Dsub o) h (c1 * h) s2 y1 /\ resampled junk junkR (po_Dsub o) h (c2 * h) s2 y2)
    /\ forall k, (k < po_Dsub o)%nat ->
         let a1 := RtoC (1/4 + sqrt 3 / 6) in let a2 := RtoC (1/4 - sqrt 3 / 6) in
         nth (2 * k) (po_q o) 0 = a1 * nth k x1 0 + a2 * nth k x2 0 /\ nth (2 * k + 1) (po_q o) 0 = a2 * nth k x1 0 + a1 * nth k x2 0
      /\ nth (2 * k) (po_r o) 0 = a1 * nth k y1 0 + a2 * nth k y2 0 /\ nth (2 * k + 1) (po_r o) 0 = a2 * nth k y1 0 + a1 * nth k y2 0.
Proof.
  intros Hu HDs. destruct (man_entry d ltac:(lia)) as (s & m & H1 & H2 & H3 & Es & H4). specialize (HDs s m Es).
  unfold man_preprocess. destruct (Nat.ltb_spec D 2); [lia|]. destruct (Rle_dec eps_t 0); [lra|]. rewrite Es. cbn [bind]. rewrite Hu.
  cbn [Nat.eqb]. assert (Hc : man_pre_class d = Some P_CF4_2) by (destruct d; vm_compute in Hu; try discriminate; reflexivity).
  rewrite Hc.
  assert (Hk : forall k, (k < m)%nat -> (k * s < D)%nat).
  { intros k Hk. assert (k * s <= (m - 1) * s)%nat by (apply Nat.mul_le_mono_r; lia). lia. }
  assert (Fs : forall q j, length q = D -> exists qs, fill m 0 (fun k => aget q (k * s)) (junk j m) = Ret qs /\ length qs = m
      /\ forall k, (k < m)%nat -> nth k qs 0 = nth (k * s) q 0).
  { intros q j Lq. destruct (fill_ok (fun k => nth (k * s) q 0) (RtoC 0) m 0 (fun k => aget q (k * s)) (junk j m)) as (qs & E & L & N).
    { rewrite Hjunk. lia. } { intros i Hi. apply aget_nth. rewrite Lq. apply Hk. lia. }
    exists qs. split; [exact E|]. split; [now rewrite L|]. intros k Hkm. rewrite N. cbn [Nat.leb andb Nat.add]. destruct (Nat.ltb_spec k m); [reflexivity|lia]. }
  destruct (Fs q1 6%nat Lq1) as (s1 & E1 & L1 & N1). destruct (Fs q2 7%nat Lq2) as (s2 & E2 & L2 & N2).
  rewrite E1. cbn [bind]. rewrite E2. cbn [bind].
  assert (Hs : (0 < INR s)%R) by (apply lt_0_INR; lia).
  assert (He : (0 < eps_t / INR s)%R) by (now apply Rdiv_lt_0_compat).
  assert (Hh : (0 < eps_t * INR s)%R) by (now apply Rmult_lt_0_compat).
  assert (Rs : forall k qs c, length qs = m -> exists x, resample_new junk junkR k m (eps_t / INR s) qs (c * (eps_t / INR s)) = Ret (0%Z, x)
     /\ length x = m /\ resampled junk junkR m (eps_t * INR s) (c * (eps_t * INR s)) qs x).
  { intros k qs c Lqs. destruct (resample_new_spec junk junkR k m (eps_t / INR s) qs (c * (eps_t / INR s)) Hjunk HjunkR ltac:(lia) ltac:(lra) Lqs) as (x & E & L & R0).
    exists x. split; [exact E|]. split; [exact L|]. apply (resampled_scale junk junkR Hjunk HjunkR m (eps_t / INR s) (eps_t * INR s) c qs x); [lia|exact He|exact Hh|exact Lqs|]. now apply R0. }
  destruct (Rs 2%nat s1 (1/2 - sqrt 3 / 6)%R L1) as (x1 & Ex1 & Lx1 & Rx1). destruct (Rs 3%nat s1 (1/2 + sqrt 3 / 6)%R L1) as (x2 & Ex2 & Lx2 & Rx2).
  destruct (Rs 4%nat s2 (1/2 - sqrt 3 / 6)%R L2) as (y1 & Ey1 & Ly1 & Ry1). destruct (Rs 5%nat s2 (1/2 + sqrt 3 / 6)%R L2) as (y2 & Ey2 & Ly2 & Ry2).
  cbv zeta. rewrite Ex1. cbn [bind]. rewrite Ex2. cbn [bind]. rewrite Ey1. cbn [bind]. rewrite Ey2. cbn [bind fst snd].
  set (a1 := RtoC (1/4 + sqrt 3 / 6)). set (a2 := RtoC (1/4 - sqrt 3 / 6)).
  match goal with |- context [for_ m 0 ?b ?st] => set (body := b); set (st0 := st) end.
  destruct (for_inv (fun n (st : list C * list C) => length (fst st) = (2 * m)%nat /\ length (snd st) = (2 * m)%nat /\
     forall k, (k < n)%nat -> nth (2 * k) (fst st) 0 = a1 * nth k x1 0 + a2 * nth k x2 0 /\ nth (2 * k + 1) (fst st) 0 = a2 * nth k x1 0 + a1 * nth k x2 0
      /\ nth (2 * k) (snd st) 0 = a1 * nth k y1 0 + a2 * nth k y2 0 /\ nth (2 * k + 1) (snd st) 0 = a2 * nth k y1 0 + a1 * nth k y2 0)
      body m 0 st0) as ([a b] & E & La & Lb & N).
  - unfold st0. cbn [fst snd]. rewrite !Hjunk. split; [lia|]. split; [lia|]. intros; lia.
  - intros k [a b] Hkm (La & Lb & N). cbn [fst snd] in *. unfold body.
    rewrite (aget_nth x1 0) by lia. rewrite (aget_nth x2 0) by lia. rewrite (aget_nth y1 0) by lia. rewrite (aget_nth y2 0) by lia. cbn [bind fst snd].
    do 4 (rewrite aset_upd by (rewrite ?upd_length; lia); cbn [bind]).
    eexists. split; [reflexivity|]. cbn [fst snd]. rewrite !upd_length. split; [exact La|]. split; [exact Lb|].
    intros k' Hk'. rewrite !nth_upd by (rewrite ?upd_length; lia).
    destruct (Nat.eqb_spec (2 * k') (2 * k + 1)); [lia|]. destruct (Nat.eqb_spec (2 * k' + 1) (2 * k)); [lia|].
    destruct (Nat.eqb_spec (2 * k') (2 * k)) as [Ek|Ek], (Nat.eqb_spec (2 * k' + 1) (2 * k + 1)) as [Ek2|Ek2]; try lia.
    + replace k' with k by lia. auto.
    + apply N. lia.
  - change (for_ m 0 body st0) with (for_ m 0 body st0) in *. rewrite E. cbn [bind fst snd Z.eqb].
    eexists s, _, s1, s2, x1, x2, y1, y2. split; [reflexivity|]. cbn [po_q po_r po_Dsub]. split; [unfold grid_ok; cbn; auto 10|].
    split; [exact La|]. split; [exact Lb|]. split; [exact L1|]. split; [exact L2|]. split; [intros k Hkm; split; auto|].
    split; [exact (conj Rx1 (conj Rx2 (conj Ry1 Ry2)))|]. exact N.
Qed.

(** With two steps the resampling fails, its error code is not looked at, and the routine reports success with
   values computed from uninitialised memory: the result depends on the contents of fresh memory. *)
Theorem man_preprocess_two_steps_refuted :
  exists junk' : nat -> nat -> list C, (forall k n, length (junk' k n) = n) /\
  exists o o', man_preprocess (fun _ n => repeat (RtoC 0) n) junkR 2 (Some [RtoC 1; RtoC 1]) (Some [RtoC 1; RtoC 1]) eps_t 2 M_CF4_2 = Ret (inr o)
    /\ man_preprocess junk' junkR 2 (Some [RtoC 1; RtoC 1]) (Some [RtoC 1; RtoC 1]) eps_t 2 M_CF4_2 = Ret (inr o')
    /\ po_q o <> po_q o'.
Proof.
  exists (fun _ n => repeat (RtoC 1) n). split; [intros; apply repeat_length|].
  unfold man_preprocess. cbn [Nat.ltb Nat.leb]. destruct (Rle_dec eps_t 0); [lra|].
  cbn. eexists. eexists. split; [reflexivity|]. split; [reflexivity|]. cbn. intros E. injection E as E _ _ _ _ _ _. lra.
Qed.
End Manakov.

(** *** Concrete cases *)
Example nse_preprocess_ex : exists nskip o,
  nse_preprocess (fun _ n => repeat (RtoC 7) n) (fun n => repeat 5%R n) 4 (Some [RtoC 1; Ci; RtoC 2; - Ci]) (1/2) (-1) 4 N_CF4_3 = Ret (inr o)
  /\ grid_ok 4 4 nskip o /\ length (po_q o) = (3 * po_Dsub o)%nat /\ length (po_r o) = length (po_q o)
  /\ forall i, (i < length (po_q o))%nat -> nth i (po_r o) 0 = - RtoC (IZR (-1)) * Cconj (nth i (po_q o) 0).
Proof.
  apply (nse_preprocess_conjugate (fun _ n => repeat (RtoC 7) n) (fun n => repeat 5%R n)); try (intros; apply repeat_length);
  try reflexivity; try discriminate; try lia; try lra.
Qed.
(** every second of four samples *)
Example akns_preprocess_ex : exists o,
  akns_preprocess (fun _ n => repeat (RtoC 7) n) (fun n => repeat 5%R n) 4 (Some [RtoC 1; Ci; RtoC 2; - Ci]) (fun _ x => - Cconj x) (1/2) 2 A_BO = Ret (inr o)
  /\ po_q o = [RtoC 1; RtoC 2] /\ po_last o = 2%nat.
Proof.
  unfold akns_preprocess. cbn [Nat.ltb Nat.leb]. destruct (Rle_dec (1/2) 0); [lra|]. cbn. eexists. split; [reflexivity|]. split; reflexivity.
Qed.
Example weights_ex : exists w sw, akns_method_weights A_CF5_3 = inr (w, sw) /\ (2 <= akns_upsampling_factor A_CF5_3)%nat.
Proof. do 2 eexists. split; [reflexivity|cbn; lia]. Qed.
Example two_stage_ex : forall nskip Dsub, downsample_sizes 4 4 = Ret (nskip, Dsub) -> (3 <= Dsub)%nat.
Proof. intros s m E. vm_compute in E. injection E as <- <-. lia. Qed.

Print Assumptions akns_preprocess_plain.
Print Assumptions akns_preprocess_commutator_free.
Print Assumptions akns_preprocess_derivatives.
Print Assumptions akns_preprocess_errors.
Print Assumptions nse_preprocess_conjugate.
Print Assumptions kdv_preprocess_r_is_minus_one.
Print Assumptions man_preprocess_plain.
Print Assumptions man_preprocess_two_stage.
Print Assumptions man_preprocess_two_steps_refuted.
Print Assumptions method_weights_rows_sum_to_one.
Print Assumptions commutator_free_order_conditions.
Print Assumptions cf6_4_order_conditions_rounded.
Print Assumptions commutator_free_time_symmetry.
