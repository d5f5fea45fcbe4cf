(** * The grid searches: theorems *)
From Coq Require Import Reals Lra.
From Coquelicot Require Import Coquelicot.
From Verif Require Export GridProof.
Local Open Scope C_scope.

Lemma phi_bad_fin a b : (a < b)%R -> phi_bad (Fin a, Fin b) = false.
Proof. intros H. unfold phi_bad. cbn. destruct (Rlt_dec a b); [reflexivity|contradiction]. Qed.
Lemma grid_eps_pos phi0 phi1 M : (phi0 < phi1)%R -> (2 <= M)%nat -> (0 < grid_eps phi0 phi1 M)%R.
Proof.
  intros H HM. unfold grid_eps. apply Rdiv_lt_0_compat; [lra|]. apply lt_0_INR. lia.
Qed.
Lemma angle_eps phi0 phi1 M j : angle phi0 phi1 M j = (phi0 + INR j * grid_eps phi0 phi1 M)%R.
Proof. reflexivity. Qed.
Lemma angle_step phi0 phi1 M i : (1 <= i)%nat -> angle phi0 phi1 M i = (angle phi0 phi1 M (i - 1) + grid_eps phi0 phi1 M)%R.
Proof. intros H. rewrite !angle_eps. rewrite minus_INR by lia. simpl INR. ring. Qed.
Lemma chirp_node (phi0 eps rho : R) n : (rho <> 0)%R ->
  / (RtoC rho * cis (- phi0) * / (cis eps ^^ n)) = RtoC (/ rho) * eitheta (phi0 + INR n * eps).
Proof.
  intros H. rewrite !cis_e, e_pow, e_plus, e_opp, RtoC_inv by exact H.
  assert (RtoC rho <> 0) by (intros E; apply H; now injection E).
  field. repeat split; try apply e_neq0; assumption.
Qed.

(** where the linear interpolant of two values of opposite sign vanishes *)
Lemma interp_range (fa fb a e : R) : (0 < e)%R -> (fa * fb <= 0)%R -> (fa <> fb)%R ->
  (a <= a - fa * e / (fb - fa) <= a + e)%R.
Proof.
  intros He H N.
  assert (B : (0 <= - fa / (fb - fa) <= 1)%R).
  { destruct (Rtotal_order fa fb) as [L|[L|L]]; [|lra|].
    - assert (fa <= 0)%R by (destruct (Rle_dec fa 0); [assumption|nra]). assert (0 <= fb)%R by (destruct (Rle_dec 0 fb); [assumption|nra]).
      split; [apply Rdiv_le_0_compat; lra|]. apply (Rdiv_le_1 (- fa) (fb - fa)); lra.
    - assert (0 <= fa)%R by (destruct (Rle_dec 0 fa); [assumption|nra]). assert (fb <= 0)%R by (destruct (Rle_dec fb 0); [assumption|nra]).
      replace (- fa / (fb - fa))%R with (fa / (fa - fb))%R by (field; lra).
      split; [apply Rdiv_le_0_compat; lra|]. apply (Rdiv_le_1 fa (fa - fb)); lra. }
  replace (a - fa * e / (fb - fa))%R with (a + e * (- fa / (fb - fa)))%R by (field; lra). nra.
Qed.

(** the loop that removes the phase factor *)
Lemma phase_loop_ok (w : nat -> C) M (roots : list C) : (M <= length roots)%nat ->
  exists r', for_ M 0 (fun i r => x <- aget r i ;; aset r i (x * w i)) roots = Ret r' /\ length r' = length roots
    /\ forall j, nth j r' 0 = if (j <? M)%nat then nth j roots 0 * w j else nth j roots 0.
Proof.
  intros HL.
  destruct (for_inv (fun i (r : list C) => length r = length roots /\
     forall j, nth j r 0 = if (j <? i)%nat then nth j roots 0 * w j else nth j roots 0)
     (fun i r => x <- aget r i ;; aset r i (x * w i)) M 0 roots) as (r' & E & L & H).
  - split; [reflexivity|]. intros j. reflexivity.
  - intros i r Hi (L & H). rewrite (aget_nth r 0) by lia. cbn [bind]. rewrite aset_upd by lia. eexists. split; [reflexivity|].
    split; [now rewrite upd_length|]. intros j. rewrite nth_upd by lia. destruct (Nat.eqb_spec j i) as [->|N].
    + rewrite (proj2 (Nat.ltb_lt i (S i))) by lia. rewrite H. destruct (Nat.ltb_spec i i); [lia|reflexivity].
    + rewrite H. destruct (Nat.ltb_spec j i), (Nat.ltb_spec j (S i)); try lia; reflexivity.
  - exists r'. auto.
Qed.

(** ** poly_roots_fftgridsearch_paraherm *)
Theorem gridsearch_paraherm_result junk (deg m : nat) (p : list C) (M : nat) (phi0 phi1 : R) (roots : list C) :
  (forall k n, length (junk k n) = n) -> deg = (2 * m)%nat -> (1 <= m)%nat -> length p = (deg + 1)%nat -> paraherm p ->
  (2 <= M)%nat -> (phi0 < phi1)%R -> (M <= length roots)%nat ->
  let f := fun i => fst (phase_free p (angle phi0 phi1 M i)) in
  exists n roots' idx,
    poly_roots_fftgridsearch_paraherm junk deg (Some p) (Some M) (Some (Fin phi0, Fin phi1)) (Some roots)
      = Ret (0%Z, Some n, Some roots')
    /\ length roots' = length roots /\ (forall j, (M <= j)%nat -> nth j roots' 0 = nth j roots 0)
    /\ n = length idx /\ (n <= M - 1)%nat /\ increasing idx
    (* one report per cell [angle (i-1), angle i] whose end values have opposite signs or a zero *)
    /\ (forall i, In i idx <-> (1 <= i <= M - 1)%nat /\ (f (i - 1)%nat * f i <= 0)%R)
    (* the report is the zero of the linear interpolant, it is in the cell, and so is a true root *)
    /\ (forall k, (k < n)%nat -> let i := nth k idx 0%nat in
          exists t, nth k roots' 0 = eitheta t /\ (angle phi0 phi1 M (i - 1) <= t <= angle phi0 phi1 M i)%R
            /\ (f (i - 1)%nat * (angle phi0 phi1 M i - t) + f i * (t - angle phi0 phi1 M (i - 1)) = 0)%R
            /\ exists s, (angle phi0 phi1 M (i - 1) <= s <= angle phi0 phi1 M i)%R /\ peval (K := CF) p (eitheta s) = RtoC 0).
Proof.
  intros Hj Hd Hm Hp Hh HM Hphi HL f.
  unfold poly_roots_fftgridsearch_paraherm.
  assert (Em : (deg mod 2 = 0)%nat) by (subst deg; rewrite Nat.mul_comm; now apply Nat.mod_mul). rewrite Em.
  destruct (Nat.ltb_spec deg 2) as [?|_]; [lia|]. cbn [Nat.eqb orb].
  destruct (Nat.ltb_spec M 2) as [?|_]; [lia|]. rewrite phi_bad_fin by exact Hphi. cbn [fst snd phi_val].
  set (eps := grid_eps phi0 phi1 M). assert (He : (0 < eps)%R) by (now apply grid_eps_pos).
  destruct (poly_chirpz_spec junk deg p (cis (- phi0)) (cis eps) M roots) as (r1 & E1 & L1 & N1 & U1); auto; try (apply Cexp_neq0); try lia.
  rewrite E1. cbn [bind]. change (0 =? 0)%Z with true. cbn [negb].
  assert (Ed : (deg / 2 = m)%nat) by (subst deg; rewrite Nat.mul_comm; now apply Nat.div_mul).
  rewrite Ed. replace (m + 1 - 1)%nat with m by lia.
  destruct (phase_loop_ok (fun i => Cexp (- Ci * RtoC (phi0 + eps * INR i) * RtoC (INR m))) M r1) as (r2 & E2 & L2 & N2); [lia|].
  cbv zeta. rewrite E2. cbn [bind].
  set (g := fun j => phase_free p (angle phi0 phi1 M j)).
  assert (Hlen : length p = (2 * m + 1)%nat) by lia.
  assert (Hg : forall j, (j < M)%nat -> nth j r2 0 = g j).
  { intros j Hjm. rewrite N2. rewrite (proj2 (Nat.ltb_lt j M)) by exact Hjm. rewrite N1 by exact Hjm.
    unfold g, phase_free. rewrite Hlen.
    replace ((2 * m + 1 - 1) / 2)%nat with m by (replace (2 * m + 1 - 1)%nat with (m * 2)%nat by lia; now rewrite Nat.div_mul).
    change (@fmul CF) with Cmult. f_equal.
    - f_equal. rewrite <- (Cmult_1_l (cis (- phi0))). rewrite (chirp_node phi0 eps 1) by lra.
      rewrite Rinv_1, Cmult_1_l. reflexivity.
    - rewrite <- cis_e. unfold cis. f_equal. rewrite angle_eps. fold eps. rewrite !RtoC_opp, !RtoC_mult, !RtoC_plus, !RtoC_mult. ring. }
  destruct (ph_loop_ok phi0 eps g M (M - 1) 1 0 r2 []) as (n & r3 & E3 & L3 & (En & Hv) & U3); auto; try lia.
  { intros j Hjm. apply Hg. lia. }
  rewrite E3. cbn [bind].
  cbn [app] in En, Hv. set (idx := filter (fun j => rle (fst (g (j - 1)%nat) * fst (g j)) 0) (seq 1 (M - 1))) in *.
  assert (Hin : forall i, In i idx <-> (1 <= i <= M - 1)%nat /\ (f (i - 1)%nat * f i <= 0)%R).
  { intros i. unfold idx. rewrite filter_In, in_seq. unfold rle. fold (f (i - 1)%nat) (f i). unfold g. fold (f (i - 1)%nat) (f i).
    destruct (Rle_dec (f (i - 1)%nat * f i) 0) as [Q|Q]; split; intros (A & B); (split; [lia|]); auto; try discriminate; contradiction. }
  exists n, r3, idx. split; [reflexivity|]. split; [lia|].
  split. { intros j Hjm. rewrite U3 by lia. rewrite N2. destruct (Nat.ltb_spec j M); [lia|]. now apply U1. }
  split; [exact En|]. split.
  { rewrite En. unfold idx. etransitivity; [apply filter_len|]. now rewrite seq_length. }
  split; [apply increasing_filter|]. split; [exact Hin|].
  intros k Hk. set (i := nth k idx 0%nat). assert (Hi : In i idx) by (apply nth_In; rewrite <- En; exact Hk).
  apply Hin in Hi as (Hi & Hs). rewrite (Hv k Hk). fold i.
  exists (cell_phi phi0 eps g i). rewrite cis_e. split; [reflexivity|].
  assert (Ea : angle phi0 phi1 M (i - 1) = (phi0 + eps * INR (i - 1))%R) by (rewrite angle_eps; fold eps; ring).
  assert (Eb : angle phi0 phi1 M i = (angle phi0 phi1 M (i - 1) + eps)%R) by (apply angle_step; lia).
  assert (Rg : forall j, snd (g j) = 0%R) by (intros j; now apply (phase_free_real p _ m)).
  unfold cell_phi. fold eps. cbv zeta. rewrite <- Ea. set (a := angle phi0 phi1 M (i - 1)) in *.
  replace (a + eps - a)%R with eps by ring.
  change (fst (g i - g (i - 1)%nat)) with (f i + - f (i - 1)%nat)%R. change (fst (g (i - 1)%nat)) with (f (i - 1)%nat).
  assert (T : exists s, (a <= s <= angle phi0 phi1 M i)%R /\ peval (K := CF) p (eitheta s) = RtoC 0).
  { apply (sign_change_root p m); auto. rewrite Eb. lra. }
  unfold ceq. destruct (Ceq_dec (g (i - 1)%nat) (g i)) as [Q|Q]; cbn [negb].
  - assert (Q' : f (i - 1)%nat = f i) by (exact (f_equal fst Q)). rewrite Eb.
    assert (Z : f i = 0%R) by (rewrite Q' in Hs; nra).
    rewrite Eb in T. split; [lra|]. split; [rewrite Q', Z; ring|exact T].
  - assert (Q' : f (i - 1)%nat <> f i).
    { intros E. apply Q. apply Ceq; [exact E|]. now rewrite !Rg. }
    pose proof (interp_range _ _ a eps He Hs Q') as B. unfold Rminus at 2 in B.
    rewrite Eb in T |- *. split; [unfold Rminus at 2 in B; exact B|]. split; [field; lra|exact T].
Qed.
