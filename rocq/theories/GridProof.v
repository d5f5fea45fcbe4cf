(** * Proofs about the grid searches *)
From Coq Require Import Reals Lra.
From Coquelicot Require Import Coquelicot.
From Verif Require Export GridModel GridSpec ChirpzProof CConj CMean.
Local Open Scope C_scope.

Lemma cis_e phi : cis phi = eitheta phi.
Proof.
  unfold cis, eitheta, Cexp. cbn [Cmult Ci RtoC fst snd]. apply Ceq; cbn [fst snd].
  - replace (0 * phi - 1 * 0)%R with 0%R by ring. rewrite exp_0. replace (0 * 0 + 1 * phi)%R with phi by ring. ring.
  - replace (0 * phi - 1 * 0)%R with 0%R by ring. rewrite exp_0. replace (0 * 0 + 1 * phi)%R with phi by ring. ring.
Qed.
Lemma e_plus a b : eitheta (a + b) = eitheta a * eitheta b.
Proof. rewrite <- !cis_e. unfold cis. rewrite <- Cexp_plus. f_equal. rewrite RtoC_plus. ring. Qed.
Lemma e_0 : eitheta 0 = 1. Proof. unfold eitheta. now rewrite cos_0, sin_0. Qed.
Lemma e_neq0 a : eitheta a <> 0. Proof. rewrite <- cis_e. apply Cexp_neq0. Qed.
Lemma e_opp a : eitheta (- a) = / eitheta a.
Proof. rewrite <- !cis_e. unfold cis. rewrite RtoC_opp, <- Cexp_opp. f_equal. ring. Qed.
Lemma e_pow a n : (eitheta a ^^ n : C) = eitheta (INR n * a).
Proof.
  induction n as [|n IH]; [cbn [INR]; rewrite Rmult_0_l; now rewrite e_0|].
  change (eitheta a ^^ S n) with (eitheta a * (eitheta a ^^ n)). rewrite IH, <- e_plus. f_equal. rewrite S_INR. ring.
Qed.
Lemma e_conj a : Cconj (eitheta a) = eitheta (- a).
Proof. unfold eitheta. rewrite cos_neg, sin_neg. reflexivity. Qed.
Lemma e_mod a : Cmod (eitheta a) = 1%R.
Proof. rewrite <- cis_e. unfold cis. rewrite Cmod_Cexp. cbn. replace (0 * a - 1 * 0)%R with 0%R by ring. apply exp_0. Qed.

(** ** Phase-free values of a para-hermitian polynomial *)
Lemma Cconj_fsum n (f : nat -> C) : Cconj (fsum (K := CF) n f) = fsum (K := CF) n (fun i => Cconj (f i)).
Proof.
  induction n as [|n IH]; [apply Cconj_R|]. cbn [fsum]. change (@fadd CF) with Cplus. now rewrite Cplus_conj, IH.
Qed.
Lemma phase_free_sum p phi (m : nat) : length p = (2 * m + 1)%nat ->
  phase_free p phi = fsum (K := CF) (2 * m + 1) (fun k => nth k p 0 * eitheta ((INR m - INR k) * phi)).
Proof.
  intros L. unfold phase_free, peval. change (@length (car CF) p) with (@length C p). rewrite L.
  replace ((2 * m + 1 - 1) / 2)%nat with m by (replace (2 * m + 1 - 1)%nat with (m * 2)%nat by lia; now rewrite Nat.div_mul).
  etransitivity; [symmetry; apply (fsum_scal_r (K := CF))|]. apply (fsum_ext (K := CF)). intros k Hk.
  change (@fmul CF) with Cmult. rewrite e_pow, <- Cmult_assoc, <- e_plus. f_equal. f_equal.
  replace (2 * m + 1 - 1 - k)%nat with (2 * m - k)%nat by lia. rewrite minus_INR, mult_INR by lia. simpl INR. ring.
Qed.
Lemma phase_free_real p phi (m : nat) : length p = (2 * m + 1)%nat -> paraherm p -> snd (phase_free p phi) = 0%R.
Proof.
  intros L H. assert (E : Cconj (phase_free p phi) = phase_free p phi).
  { rewrite (phase_free_sum p phi m L), Cconj_fsum, (fsum_rev (K := CF)). apply (fsum_ext (K := CF)). intros k Hk.
    rewrite Cmult_conj, e_conj. unfold paraherm in H. rewrite L in H. specialize (H (2 * m + 1 - 1 - k)%nat ltac:(lia)).
    replace (2 * m + 1 - 1 - (2 * m + 1 - 1 - k))%nat with k in H by lia. rewrite <- H. f_equal. f_equal.
    replace (2 * m + 1 - 1 - k)%nat with (2 * m - k)%nat by lia. rewrite minus_INR, mult_INR by lia. simpl INR. ring. }
  apply (f_equal snd) in E. unfold Cconj in E. cbn [snd] in E. lra.
Qed.
Lemma fst_fsum n (f : nat -> C) : fst (fsum (K := CF) n f) = fsum (K := RF) n (fun i => fst (f i)).
Proof. induction n as [|n IH]; [reflexivity|]. cbn [fsum]. change (@fadd CF) with Cplus. cbn [Cplus fst]. now rewrite IH. Qed.
Lemma phase_free_cont p (m : nat) : length p = (2 * m + 1)%nat -> continuity (fun phi => fst (phase_free p phi)).
Proof.
  intros L.
  assert (E : forall phi, fst (phase_free p phi) = fsum (K := RF) (2 * m + 1) (fun k =>
     (fst (nth k p 0) * cos ((INR m - INR k) * phi) - snd (nth k p 0) * sin ((INR m - INR k) * phi))%R)).
  { intros phi. rewrite (phase_free_sum p phi m L), fst_fsum. apply (fsum_ext (K := RF)). reflexivity. }
  intros x. apply (continuity_pt_ext (fun phi => fsum (K := RF) (2 * m + 1) (fun k =>
     (fst (nth k p 0) * cos ((INR m - INR k) * phi) - snd (nth k p 0) * sin ((INR m - INR k) * phi))%R))).
  { intros t. now rewrite E. }
  clear E L. induction (2 * m + 1)%nat as [|n IH].
  - cbn [fsum]. apply continuity_pt_const. intros a b. reflexivity.
  - cbn [fsum]. apply continuity_pt_plus; [exact IH|]. reg.
Qed.
Lemma phase_free_zero p phi (m : nat) : length p = (2 * m + 1)%nat -> paraherm p ->
  fst (phase_free p phi) = 0%R -> peval (K := CF) p (eitheta phi) = RtoC 0.
Proof.
  intros L H Z. assert (E : phase_free p phi = 0).
  { apply Ceq; [exact Z|]. now apply (phase_free_real p phi m). }
  unfold phase_free in E. destruct (Ceq_dec (peval (K := CF) p (eitheta phi)) (RtoC 0)) as [|N]; [assumption|].
  exfalso. revert E. apply Cmult_neq_0; [exact N|apply e_neq0].
Qed.
(** a sign change of the real function encloses a root of the polynomial *)
Lemma sign_change_root p (m : nat) (a b : R) : length p = (2 * m + 1)%nat -> paraherm p -> (a <= b)%R ->
  (fst (phase_free p a) * fst (phase_free p b) <= 0)%R ->
  exists t, (a <= t <= b)%R /\ peval (K := CF) p (eitheta t) = RtoC 0.
Proof.
  intros L H Hab S. destruct (IVT_cor (fun phi => fst (phase_free p phi)) a b (phase_free_cont p m L) Hab S) as (t & Ht & Z).
  exists t. split; [exact Ht|]. now apply (phase_free_zero p t m).
Qed.

(** ** The loop of the para-hermitian search.  g j: the original values. *)
Definition cell_phi (phi0 eps : R) (g : nat -> C) (i : nat) : R :=
  let phi1 := (phi0 + eps * INR (i - 1))%R in
  if negb (ceq (g (i - 1)%nat) (g i)) then (phi1 - fst (g (i - 1)%nat) * (phi1 + eps - phi1) / fst (g i - g (i - 1)%nat)%C)%R
  else (/ 2 * (phi1 + (phi1 + eps)))%R.
Lemma ph_loop_ok phi0 eps (g : nat -> C) M cnt : forall i nroots (roots : list C) (done : list nat),
  (i + cnt = M)%nat -> (1 <= i)%nat -> (M <= length roots)%nat -> (nroots <= i - 1)%nat -> nroots = length done ->
  (forall j, (i - 1 <= j < M)%nat -> nth j roots 0 = g j) ->
  (forall m, (m < nroots)%nat -> nth m roots 0 = cis (cell_phi phi0 eps g (nth m done 0%nat))) ->
  exists n' roots', ph_loop cnt i phi0 eps nroots roots = Ret (n', roots') /\ length roots' = length roots
    /\ (let idx := done ++ filter (fun j => rle (fst (g (j - 1)%nat) * fst (g j)) 0) (seq i cnt) in
        n' = length idx /\ (forall m, (m < n')%nat -> nth m roots' 0 = cis (cell_phi phi0 eps g (nth m idx 0%nat))))
    /\ (forall j, (M <= j)%nat -> nth j roots' 0 = nth j roots 0).
Proof.
  induction cnt as [|cnt IH]; intros i nroots roots done Hi H1 HL Hn Hd Hg Hr.
  - exists nroots, roots. split; [reflexivity|]. split; [reflexivity|]. cbn [seq filter]. rewrite app_nil_r. auto.
  - cbn [ph_loop]. rewrite (aget_nth roots 0) by lia. cbn [bind]. rewrite (aget_nth roots 0) by lia. cbn [bind].
    rewrite !Hg by lia. cbn [seq filter]. destruct (rle (fst (g (i - 1)%nat) * fst (g i)) 0) eqn:Er.
    + rewrite aset_upd by lia. cbn [bind].
      destruct (IH (S i) (S nroots) (upd roots nroots (cis (cell_phi phi0 eps g i))) (done ++ [i])) as (n' & r' & E & L' & (En & Hv) & Hu).
      * lia. * lia. * rewrite upd_length. lia. * lia. * rewrite app_length. cbn. lia.
      * intros j Hj. rewrite nth_upd by lia. destruct (Nat.eqb_spec j nroots); [lia|]. apply Hg. lia.
      * intros m Hm. rewrite nth_upd by lia. destruct (Nat.eqb_spec m nroots) as [->|Hne].
        -- rewrite app_nth2 by lia. rewrite Hd, Nat.sub_diag. reflexivity.
        -- rewrite app_nth1 by lia. apply Hr. lia.
      * exists n', r'. split; [exact E|]. split; [rewrite L'; apply upd_length|]. rewrite <- app_assoc in En, Hv. split; [split; [exact En|exact Hv]|].
        intros j Hj. rewrite Hu by lia. rewrite nth_upd by lia. destruct (Nat.eqb_spec j nroots); [lia|reflexivity].
    + apply IH; auto; try lia. intros j Hj. apply Hg. lia.
Qed.
Lemma increasing_filter f lo n : increasing (filter f (seq lo n)).
Proof.
  revert lo. induction n as [|n IH]; intros lo; [exact I|]. cbn [seq filter]. destruct (f lo); [|apply IH].
  cbn [increasing]. split; [|apply IH]. destruct (filter f (seq (S lo) n)) as [|j l] eqn:E; [exact I|].
  assert (In j (filter f (seq (S lo) n))) by (rewrite E; now left). apply filter_In in H as (H & _). apply in_seq in H. lia.
Qed.
Lemma filter_len {A} (f : A -> bool) l : (length (filter f l) <= length l)%nat.
Proof. induction l as [|a l IH]; [auto|]. cbn [filter]. destruct (f a); cbn [length]; lia. Qed.
