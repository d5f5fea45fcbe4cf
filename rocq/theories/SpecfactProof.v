(** * Proofs about the spectral factorisation *)
From Coq Require Import Reals Lra.
From Coquelicot Require Import Coquelicot.
From Verif Require Export SpecfactModel SpecfactSpec CMean.
Local Open Scope C_scope.

Local Notation "x ^^ n" := (fpow (K := CF) x n) (at level 30, right associativity).
Lemma node_pow M l : M <> 0%nat -> node M l = (wroot true M ^^ l : C).
Proof. intros H. rewrite (wroot_pow true M l H). unfold node, cis. cbv zeta. f_equal; f_equal; field; apply not_0_INR; exact H. Qed.
Lemma node_conj M l : M <> 0%nat -> Cconj (node M l) = (wroot false M ^^ l : C).
Proof.
  intros H. rewrite (wroot_pow false M l H). unfold node, cis, Cconj. cbv zeta. cbn [fst snd]. rewrite <- cos_neg, <- sin_neg.
  f_equal; f_equal; field; apply not_0_INR; exact H.
Qed.
Lemma node_add M a b : M <> 0%nat -> node M (a + b) = node M a * node M b.
Proof. intros H. rewrite !node_pow by exact H. apply (fpow_add (K := CF)). Qed.
Lemma node_mul M a b : M <> 0%nat -> node M (a * b) = (node M a ^^ b : C).
Proof. intros H. rewrite !node_pow by exact H. apply (fpow_pow (K := CF)). Qed.
Lemma node_M M k : M <> 0%nat -> node M (M * k) = 1.
Proof.
  intros H. rewrite node_pow by exact H. rewrite (fpow_pow (K := CF)). rewrite (wroot_order true M H). apply (fpow_one (K := CF)).
Qed.
Lemma node_0 M : M <> 0%nat -> node M 0 = 1. Proof. intros H. now rewrite node_pow. Qed.
Lemma node_neq0 M l : M <> 0%nat -> node M l <> 0.
Proof.
  intros H E. unfold node in E. injection E as E1 E2. pose proof (sin2_cos2 (2 * PI * INR l / INR M)) as Q.
  unfold Rsqr in Q. rewrite E1, E2 in Q. lra.
Qed.
Lemma node_mod M l : Cmod (node M l) = 1%R.
Proof. unfold node, Cmod. cbn [fst snd]. rewrite <- sqrt_1. f_equal. rewrite <- (sin2_cos2 (2 * PI * INR l / INR M)). unfold Rsqr. ring. Qed.
Lemma node_conj_inv M l : M <> 0%nat -> Cconj (node M l) = / node M l.
Proof.
  intros H. pose proof (node_neq0 M l H) as N.
  assert (E : node M l * Cconj (node M l) = 1).
  { unfold node, Cconj, Cmult. cbn [fst snd]. apply Ceq; cbn [fst snd RtoC].
    - rewrite <- (sin2_cos2 (2 * PI * INR l / INR M)). unfold Rsqr. ring.
    - ring. }
  rewrite <- (Cmult_1_l (Cconj (node M l))), <- (Cinv_l (node M l) N), <- Cmult_assoc, E. ring.
Qed.
(** the mirrored bin *)
Lemma node_mirror M k l : M <> 0%nat -> (k <= M)%nat -> node M ((M - k) * l) = Cconj (node M (k * l)).
Proof.
  intros H Hk. rewrite node_conj_inv by exact H.
  assert (E : node M ((M - k) * l) * node M (k * l) = 1).
  { rewrite <- node_add by exact H. rewrite <- (node_M M l H). f_equal. nia. }
  pose proof (node_neq0 M (k * l) H) as N. rewrite <- (Cmult_1_r (node M ((M - k) * l))), <- (Cinv_r (node M (k * l)) N), Cmult_assoc, E. ring.
Qed.

Lemma Clog_pos (a : R) : (0 < a)%R -> Clog (RtoC a) = RtoC (ln a).
Proof.
  intros H. assert (E : RtoC a = Cexp (RtoC (ln a))).
  { unfold Cexp. cbn [fst snd RtoC]. rewrite cos_0, sin_0, exp_ln by exact H. apply Ceq; cbn; ring. }
  rewrite E. apply Clog_exp. cbn. pose proof PI_RGT_0. lra.
Qed.
Lemma ln_sqrt (a : R) : (0 < a)%R -> ln (sqrt a) = (/ 2 * ln a)%R.
Proof.
  intros H. pose proof (sqrt_lt_R0 a H) as P. rewrite <- (sqrt_def a) at 2 by lra. rewrite ln_mult by exact P. lra.
Qed.
Lemma specfact_x_ok kappa v : well_posed kappa (Cmod v) -> specfact_x kappa v = Some (RtoC (ln (target kappa (Cmod v)))).
Proof.
  unfold well_posed, specfact_x, target. intros [(-> & H)|[(-> & H)|(-> & H)]]; cbn [Z.eqb Pos.eqb].
  - now rewrite Clog_pos.
  - assert (0 < 1 + Cmod v * Cmod v)%R by nra. rewrite Clog_pos, ln_sqrt, RtoC_mult by assumption. reflexivity.
  - assert (0 < 1 - Cmod v * Cmod v)%R by nra. replace (1 - 1 * (Cmod v * Cmod v))%R with (1 - Cmod v * Cmod v)%R by ring.
    rewrite Clog_pos, ln_sqrt, RtoC_mult by assumption. reflexivity.
Qed.
Lemma target_pos kappa a : well_posed kappa a -> (0 < target kappa a)%R.
Proof.
  unfold well_posed, target. intros [(-> & H)|[(-> & H)|(-> & H)]]; cbn [Z.eqb Pos.eqb]; [exact H|apply sqrt_lt_R0; nra|apply sqrt_lt_R0; nra].
Qed.

(** the transform of the zero-padded coefficients has the modulus of the polynomial *)
Lemma pad_dft (poly : list C) deg M l : length poly = (deg + 1)%nat -> (deg + 1 <= M)%nat ->
  Cmod (dft (K := CF) (wroot false M) M (fun i => if (i <? deg + 1)%nat then nth i poly 0 else RtoC 0) l)
  = Cmod (peval (K := CF) poly (node M l)).
Proof.
  intros L HM. assert (H : M <> 0%nat) by lia.
  assert (E : peval (K := CF) poly (node M l) = node M (l * deg) *
     dft (K := CF) (wroot false M) M (fun i => if (i <? deg + 1)%nat then nth i poly 0 else RtoC 0) l).
  { unfold dft, peval. change (@length (car CF) poly) with (@length C poly). rewrite L.
    match goal with |- context [fsum M ?f] => replace (fsum M f) with (fsum (K := CF) ((deg + 1) + (M - (deg + 1))) f) by (f_equal; lia) end. rewrite (fsum_split (K := CF) (deg + 1) (M - (deg + 1))).
    rewrite (fsum_zero' (K := CF) (M - (deg + 1))).
    2: { intros i Hi. rewrite (proj2 (Nat.ltb_ge _ _)) by lia. apply Cmult_0_l. }
    change (@fadd CF) with Cplus. change (@f0 CF) with (RtoC 0). rewrite Cplus_0_r. rewrite <- (fsum_scal (K := CF)). apply (fsum_ext (K := CF)).
    intros i Hi. rewrite (proj2 (Nat.ltb_lt i (deg + 1))) by exact Hi. change (@fmul CF) with Cmult.
    rewrite <- node_mul by exact H. rewrite <- node_conj, node_conj_inv by exact H.
    replace (l * deg)%nat with (l * (deg + 1 - 1 - i) + i * l)%nat by nia. rewrite node_add by exact H.
    change (@eq (car CF)) with (@eq C); change (@nth (car CF)) with (@nth C); change (@f0 CF) with (RtoC 0); field. now apply node_neq0. }
  rewrite E, Cmod_mult, node_mod. ring.
Qed.

Lemma fill_read (f : C -> C) cnt lo (a : list C) : (lo + cnt <= length a)%nat ->
  exists a', fill cnt lo (fun i => b <- aget a i ;; Ret (f b)) a = Ret a' /\ length a' = length a /\
    forall i, nth i a' 0 = if (lo <=? i)%nat && (i <? lo + cnt)%nat then f (nth i a 0) else nth i a 0.
Proof.
  intros H. apply (fill_ok (fun i => f (nth i a 0)) 0); [exact H|]. intros i Hi. rewrite (aget_nth a 0) by lia. reflexivity.
Qed.
Lemma scale_back (m e : C) : m <> 0 -> m * (e / m) = e. Proof. intros H. field. exact H. Qed.

Theorem poly_specfact_spec junk deg (poly result : list C) os kappa :
  (forall k n, length (junk k n) = n) -> (1 <= deg)%nat -> length poly = (deg + 1)%nat -> (deg + 1 <= length result)%nat -> (1 <= os)%nat ->
  exists M, next_fft_length ((deg + 1) * os) = Some M /\ ((deg + 1) * os <= M)%nat /\
  ((forall l, (l < M)%nat -> well_posed kappa (Cmod (peval (K := CF) poly (node M l)))) ->
   exists (h : list C) result', poly_specfact junk deg (Some poly) (Some result) os kappa = Ret (0%Z, Some result')
     /\ length h = M /\ length result' = length result
     /\ (forall i, (i <= deg)%nat -> nth i result' 0 = Cconj (nth (deg - i) h 0))
     /\ (forall i, (deg < i)%nat -> nth i result' 0 = nth i result 0)
     /\ (let x := fun l => ln (target kappa (Cmod (peval (K := CF) poly (node M l)))) in
         forall l, (l < M)%nat ->
           fsum (K := CF) M (fun j => nth j h 0 * Cconj (node M (j * l))) = Cexp (RtoC (x l) - Ci * code_hilbert M x l))).
Proof.
  intros Hj Hd Lp Lr Hos.
  destruct (next_fft_length_least ((deg + 1) * os) ltac:(nia)) as (M & EM & HM & _).
  exists M. split; [exact EM|]. split; [lia|]. intros WP.
  assert (HMd : (deg + 1 <= M)%nat) by nia. assert (HM2 : (2 <= M)%nat) by lia. assert (HM0 : M <> 0%nat) by lia.
  unfold poly_specfact. destruct (Nat.eqb_spec deg 0) as [?|_]; [lia|]. destruct (Nat.eqb_spec os 0) as [?|_]; [lia|].
  rewrite EM. cbn [opt bind].
  destruct (fill_ok (fun i => nth i poly 0) 0 (deg + 1) 0 (fun i => aget poly i) (junk 0%nat M)) as (b1 & E1 & L1 & N1); [rewrite Hj; lia| |].
  { intros i Hi. apply aget_nth. lia. }
  rewrite E1. cbn [bind].
  destruct (fill_ok (fun _ => RtoC 0) 0 (M - (deg + 1)) (deg + 1) (fun _ => Ret (RtoC 0)) b1) as (b2 & E2 & L2 & N2); [rewrite L1, Hj; lia|reflexivity|].
  rewrite E2. cbn [bind].
  destruct (fft_exec_spec false M b2 (junk 1%nat M) (fun i => if (i <? deg + 1)%nat then nth i poly 0 else RtoC 0)) as (b3 & E3 & L3 & N3);
    [lia|rewrite L2, L1, Hj; lia|rewrite Hj; lia| |].
  { intros k Hk. rewrite N2, N1. destruct (Nat.leb_spec (deg + 1) k), (Nat.ltb_spec k (deg + 1)); cbn [andb]; try lia.
    - rewrite (proj2 (Nat.ltb_lt k (deg + 1 + (M - (deg + 1))))) by lia. reflexivity.
    - cbn [Nat.leb andb Nat.add]. rewrite (proj2 (Nat.ltb_lt k (deg + 1))) by lia. reflexivity. }
  rewrite E3. cbn [bind].
  set (x := fun l => ln (target kappa (Cmod (peval (K := CF) poly (node M l))))).
  assert (X0 : exists c, specfact_x kappa (RtoC 0) = Some c).
  { destruct (WP 0%nat ltac:(lia)) as [(-> & _)|[(-> & _)|(-> & _)]]; eexists; reflexivity. }
  destruct X0 as (c0 & ->).
  destruct (fill_ok (fun l => RtoC (x l)) 0 M 0 (fun i => v <- aget b3 i ;; opt (specfact_x kappa v)) (junk 2%nat M)) as (bx & E4 & L4 & N4); [rewrite Hj; lia| |].
  { intros i Hi. rewrite (aget_nth b3 0) by (rewrite L3, Hj; lia). cbn [bind]. rewrite N3 by lia.
    rewrite specfact_x_ok; rewrite pad_dft by assumption; [reflexivity|apply WP; lia]. }
  rewrite E4. cbn [bind]. rewrite Hj in L4, L3, L1.
  assert (N4' : forall l, (l < M)%nat -> nth l bx 0 = RtoC (x l)).
  { intros l Hl. rewrite N4. cbn [Nat.leb andb Nat.add]. now rewrite (proj2 (Nat.ltb_lt l M)). }
  destruct (fft_exec_spec false M bx b2 (fun l => RtoC (x l))) as (b5 & E5 & L5 & N5); [lia|lia|lia|exact N4'|].
  rewrite E5. cbn [bind]. rewrite aset_upd by lia. cbn [bind].
  destruct (fill_read (fun b => b * (- Ci / RtoC (INR M))) (M / 2 - 1 - 1) 1 (upd b5 0 (RtoC 0))) as (b6 & E6 & L6 & N6).
  { rewrite upd_length, L5, L2, L1. pose proof (Nat.div_lt M 2). lia. }
  rewrite E6. cbn [bind]. rewrite upd_length in L6. pose proof (Nat.div_lt M 2 ltac:(lia) ltac:(lia)) as Hd2.
  assert (Hd1 : (1 <= M / 2)%nat) by (apply Nat.div_le_lower_bound; lia).
  rewrite aset_upd by lia. cbn [bind].
  destruct (fill_read (fun b => b * (Ci / RtoC (INR M))) (M - M / 2) (M / 2) (upd b6 (M / 2 - 1) (RtoC 0))) as (b7 & E7 & L7 & N7).
  { rewrite upd_length. lia. }
  rewrite E7. cbn [bind]. rewrite upd_length in L7.
  assert (N7' : forall k, (k < M)%nat -> nth k b7 0 = rdft M x k * code_multiplier M k).
  { intros k Hk. rewrite N7, nth_upd by lia. rewrite N6, nth_upd by lia. rewrite N5 by exact Hk.
    assert (ED : dft (K := CF) (wroot false M) M (fun l => RtoC (x l)) k = rdft M x k).
    { unfold dft, rdft. apply (fsum_ext (K := CF)). intros l Hl. rewrite node_conj by exact HM0. reflexivity. }
    rewrite ED. unfold code_multiplier. replace (M / 2 + (M - M / 2))%nat with M by lia. rewrite (proj2 (Nat.ltb_lt k M)) by exact Hk.
    rewrite Bool.andb_true_r.
    destruct (Nat.eqb_spec k 0) as [->|N0].
    - destruct (Nat.leb_spec (M / 2) 0); [lia|]. cbn [Nat.leb andb]. destruct (Nat.eqb_spec 0 (M / 2 - 1)); ring.
    - destruct (Nat.leb_spec (M / 2) k).
      + destruct (Nat.eqb_spec k (M / 2 - 1)); [lia|]. destruct (Nat.ltb_spec k (M / 2 - 1)); [lia|].
        destruct (Nat.leb_spec 1 k); [|lia]. destruct (Nat.ltb_spec k (1 + (M / 2 - 1 - 1))); [lia|]. cbn [andb]. ring.
      + destruct (Nat.eqb_spec k (M / 2 - 1)).
        * destruct (Nat.ltb_spec k (M / 2 - 1)); [lia|]. ring.
        * destruct (Nat.ltb_spec k (M / 2 - 1)); [|lia]. destruct (Nat.leb_spec 1 k); [|lia].
          destruct (Nat.ltb_spec k (1 + (M / 2 - 1 - 1))); [|lia]. cbn [andb]. ring. }
  destruct (fft_exec_spec true M b7 b3 (fun k => rdft M x k * code_multiplier M k)) as (b8 & E8 & L8 & N8); [lia|lia|lia|exact N7'|].
  rewrite E8. cbn [bind].
  assert (N8' : forall l, (l < M)%nat -> nth l b8 0 = code_hilbert M x l).
  { intros l Hl. rewrite N8 by exact Hl. unfold dft, code_hilbert. apply (fsum_ext (K := CF)). intros k Hk. now rewrite node_pow by exact HM0. }
  destruct (fill_ok (fun l => Cexp (RtoC (x l) - Ci * code_hilbert M x l) / RtoC (INR M)) 0 M 0
     (fun i => x <- aget bx i ;; y <- aget b8 i ;; Ret (Cexp (x - Ci * y) / RtoC (INR M))) b7) as (b9 & E9 & L9 & N9); [lia| |].
  { intros i Hi. rewrite (aget_nth bx 0) by lia. cbn [bind]. rewrite (aget_nth b8 0) by lia. cbn [bind].
    rewrite N4', N8' by lia. reflexivity. }
  rewrite E9. cbn [bind].
  destruct (fft_exec_spec true M b9 b8 (fun l => Cexp (RtoC (x l) - Ci * code_hilbert M x l) / RtoC (INR M))) as (h & E10 & L10 & N10); [lia|lia|lia| |].
  { intros k Hk. rewrite N9. cbn [Nat.leb andb Nat.add]. now rewrite (proj2 (Nat.ltb_lt k M)). }
  rewrite E10. cbn [bind].
  destruct (fill_ok (fun i => Cconj (nth (deg - i) h 0)) 0 (deg + 1) 0 (fun i => b <- aget h (deg - i) ;; Ret (Cconj b)) result) as (r' & E11 & L11 & N11); [lia| |].
  { intros i Hi. rewrite (aget_nth h 0) by lia. reflexivity. }
  rewrite E11. cbn [bind]. exists h, r'. split; [reflexivity|]. split; [lia|]. split; [exact L11|].
  split. { intros i Hi. rewrite N11. cbn [Nat.leb andb Nat.add]. now rewrite (proj2 (Nat.ltb_lt i (deg + 1))) by lia. }
  split. { intros i Hi. rewrite N11. cbn [Nat.leb andb Nat.add]. now rewrite (proj2 (Nat.ltb_ge i (deg + 1))) by lia. }
  intros l Hl.
  pose proof (dft_inversion' (K := CF) (wroot false M) M (fun l => Cexp (RtoC (x l) - Ci * code_hilbert M x l) / RtoC (INR M)) l (fft_nodes M ltac:(lia)) Hl) as Inv.
  change (@finv CF) with Cinv in Inv. rewrite <- (wroot_inv false) in Inv. cbn [negb] in Inv.
  transitivity (dft (K := CF) (wroot false M) M (dft (K := CF) (wroot true M) M (fun l => Cexp (RtoC (x l) - Ci * code_hilbert M x l) / RtoC (INR M))) l).
  - unfold dft at 1. apply (fsum_ext (K := CF)). intros j Hjm. rewrite N10 by exact Hjm. rewrite node_conj by exact HM0. reflexivity.
  - rewrite Inv, fofnat_C. change (@fmul CF) with Cmult. exact (scale_back _ _ (INR_C_neq0 M HM0)).
Qed.
