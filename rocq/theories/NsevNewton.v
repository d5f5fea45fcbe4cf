(** * Newton's method in fnft_nsev (C46) *)
From Coq Require Import Reals Lra.
From Coquelicot Require Import Coquelicot.
From Verif Require Import Loop CExp MiscSpec DiscProps DiscPreProps NsevSpec NsevProps NsevSafe NsevSafe2 NsevSafe3 NsevEnv NsevRefuted.
Local Open Scope C_scope.

(** the values of a and a' that the subroutine computes at the call site s for the given signal *)
Definition computes_at (E : env) (s D : nat) (q r : list C) (T : R * R) (norm : bool) (d : nse_disc) (f f' : C -> C) : Prop :=
  forall lam, exists b Ws, e_sbs E s D q r T 1 [lam] norm d true = Ret (SUCCESS, [f lam], [f' lam], b, Ws).
(** number of Newton steps that are allowed: (niter+1)/2, rounded down, because the loop counter advances twice per step *)
Definition allowed (niter : nat) : nat := ((niter + 1) / 2)%nat.
(** the reasons for which the iteration ends after n steps *)
Inductive newton_ends (f f' : C -> C) (bb : xbox) (tol : R) (nmax : nat) (lam : C) (n : nat) : Z -> Prop :=
| all_steps : n = nmax -> newton_ends f f' bb tol nmax lam n SUCCESS
| exact_zero : (n < nmax)%nat -> f (newton_iterate f f' n lam) = 0 -> newton_ends f f' bb tol nmax lam n SUCCESS
| flat : (n < nmax)%nat -> f (newton_iterate f f' n lam) <> 0 -> f' (newton_iterate f f' n lam) = 0 -> newton_ends f f' bb tol nmax lam n EC_DIV_BY_ZERO
| outside m : n = S m -> ~ in_box bb (newton_iterate f f' n lam) -> newton_ends f f' bb tol nmax lam n SUCCESS
| converged m : n = S m -> let l := newton_iterate f f' m lam in
    (Cmod (f l / f' l)%C <= tol \/ Cmod (f l) <= tol)%R -> newton_ends f f' bb tol nmax lam n SUCCESS.

Lemma left_box_spec bb v : left_box bb v = false <-> in_box bb v.
Proof. unfold left_box, in_box. rewrite !orb_false_iff. tauto. Qed.
Lemma small_spec z t : small z t = true <-> (Cmod z <= t)%R.
Proof. unfold small. destruct (Rle_dec (Cmod z) t); split; auto; discriminate. Qed.

Lemma newton_loop_exact E s D q r T norm d f f' nit tl bb : computes_at E s D q r T norm d f f' ->
  forall fuel iter n lam, (nit - iter < fuel)%nat -> allowed nit = (n + allowed (nit - iter))%nat ->
  (forall m, (m < n)%nat -> newton_goes_on f f' bb tl lam m) ->
  exists code k calls, newton_loop E fuel iter s D q r T d nit tl bb norm (newton_iterate f f' n lam) = Ret (code, newton_iterate f f' k lam, calls)
    /\ (n <= k <= allowed nit)%nat /\ newton_ends f f' bb tl (allowed nit) lam k code
    /\ (forall m, (S m < k)%nat -> newton_goes_on f f' bb tl lam m)
    /\ (n + calls <= k + 1)%nat /\ (n + calls <= allowed nit)%nat.
Proof.
  intros Hc. induction fuel as [|fuel IH]; intros iter n lam Hf Hn Hgo; [lia|]. cbn [newton_loop].
  destruct (Nat.ltb_spec iter nit) as [Hi|Hi]; cbn [negb].
  2:{ exists SUCCESS, n, O. assert (E0 : allowed (nit - iter) = O) by (unfold allowed; replace (nit - iter)%nat with O by lia; reflexivity).
      split; [reflexivity|]. split; [lia|]. split; [apply all_steps; lia|]. split; [intros m Hm; apply Hgo; lia|]. split; lia. }
  set (l := newton_iterate f f' n lam). destruct (Hc l) as (b & Ws & ->). cbn [bind Z.eqb negb SUCCESS aget nth_error].
  change (Z.eqb SUCCESS SUCCESS) with true. cbn [negb].
  assert (E1 : (S (allowed (nit - S (S iter))) = allowed (nit - iter))%nat).
  { unfold allowed. destruct (Nat.eq_dec (nit - iter) 1) as [H1|N]; [rewrite H1; replace (nit - S (S iter))%nat with O by lia; reflexivity|].
    replace (nit - iter + 1)%nat with ((nit - S (S iter) + 1) + 1 * 2)%nat by lia. rewrite Nat.div_add by lia. lia. }
  unfold ceq at 1. destruct (Ceq_dec (f l) 0) as [Ez|Nz].
  { exists SUCCESS, n, 1%nat. split; [reflexivity|]. split; [lia|]. split; [apply exact_zero; [lia|exact Ez]|]. split; [intros m Hm; apply Hgo; lia|]. split; lia. }
  unfold ceq at 1. destruct (Ceq_dec (f' l) 0) as [Ez'|Nz'].
  { exists EC_DIV_BY_ZERO, n, 1%nat. split; [reflexivity|]. split; [lia|]. split; [apply flat; [lia|exact Nz|exact Ez']|]. split; [intros m Hm; apply Hgo; lia|]. split; lia. }
  change (l - f l / f' l) with (newton_iterate f f' (S n) lam).
  destruct (left_box bb (newton_iterate f f' (S n) lam)) eqn:Eb.
  { exists SUCCESS, (S n), 1%nat. split; [reflexivity|]. split; [lia|]. split; [apply (outside _ _ _ _ _ _ _ n); [reflexivity|]; rewrite <- left_box_spec; congruence|].
    split; [intros m Hm; apply Hgo; lia|]. split; lia. }
  destruct (small (f l / f' l) tl || small (f l) tl) eqn:Es.
  { exists SUCCESS, (S n), 1%nat. split; [reflexivity|]. split; [lia|]. split; [apply (converged _ _ _ _ _ _ _ n); [reflexivity|]; rewrite <- !small_spec; apply orb_true_iff; exact Es|].
    split; [intros m Hm; apply Hgo; lia|]. split; lia. }
  apply orb_false_iff in Es. destruct Es as [Es1 Es2].
  destruct (IH (S (S iter)) (S n) lam) as (code & k & calls & -> & Hk & Hend & Hg & Hcl & Hcl2); [lia|lia| |].
  { intros m Hm. destruct (Nat.eq_dec m n) as [->|N]; [|apply Hgo; lia]. unfold newton_goes_on. fold l.
    split; [exact Nz|]. split; [exact Nz'|]. split; [now apply left_box_spec|].
    split; apply Rnot_le_lt; rewrite <- small_spec; congruence. }
  cbn [bind]. exists code, k, (S calls). split; [reflexivity|]. split; [lia|]. split; [exact Hend|]. split; [exact Hg|]. split; lia.
Qed.

(** For every function that the subroutine computes, the refined value is a Newton iterate of the start value: after
   the number of steps that is allowed, or earlier for one of the documented reasons.  At most (niter+1)/2 evaluations. *)
Theorem newton_refinement_is_newton E s D q r T norm d f f' niter tl bb lam : computes_at E s D q r T norm d f f' ->
  exists code k calls, newton_loop E (S niter) 0 s D q r T d niter tl bb norm lam = Ret (code, newton_iterate f f' k lam, calls)
    /\ (k <= allowed niter)%nat /\ (calls <= allowed niter)%nat /\ newton_ends f f' bb tl (allowed niter) lam k code.
Proof.
  intros Hc. destruct (newton_loop_exact E s D q r T norm d f f' niter tl bb Hc (S niter) 0 0 lam) as (code & k & calls & E0 & Hk & He & _ & _ & H2); [lia|rewrite Nat.sub_0_r; reflexivity|lia|].
  exists code, k, calls. split; [exact E0|]. split; [lia|]. split; [lia|exact He].
Qed.

(** If nothing stops the iteration, exactly (niter+1)/2 steps are made. *)
Theorem newton_all_allowed_steps E s D q r T norm d f f' niter tl bb lam : computes_at E s D q r T norm d f f' ->
  (forall m, (m < allowed niter)%nat -> newton_goes_on f f' bb tl lam m) ->
  exists calls, newton_loop E (S niter) 0 s D q r T d niter tl bb norm lam = Ret (SUCCESS, newton_iterate f f' (allowed niter) lam, calls).
Proof.
  intros Hc Hgo. destruct (newton_loop_exact E s D q r T norm d f f' niter tl bb Hc (S niter) 0 0 lam) as (code & k & calls & E0 & Hk & He & _ & _ & _); [lia|rewrite Nat.sub_0_r; reflexivity|lia|].
  exists calls. cbn [newton_iterate] in E0. rewrite E0.
  destruct (Nat.eq_dec k (allowed niter)) as [->|N].
  - destruct He; try reflexivity. lia.
  - exfalso. destruct He as [Hm|_ Hz|_ Hz Hz'|m Hm Hb|m Hm l Hb].
    + contradiction.
    + destruct (Hgo k) as (H1 & _); [lia|]. contradiction.
    + destruct (Hgo k) as (_ & H1 & _); [lia|]. contradiction.
    + destruct (Hgo m) as (_ & _ & H1 & _); [lia|]. rewrite Hm in Hb. contradiction.
    + destruct (Hgo m) as (_ & _ & _ & H1 & H2); [lia|]. unfold l in Hb. destruct Hb; lra.
Qed.

(** The option niter is documented as the number of Newton iterations; only about half of them are made. *)
Definition Esq : env := {|
  e_alloc := e_alloc E0; e_junk := e_junk E0; e_pre := e_pre E0; e_fscatter := e_fscatter E0; e_smat := e_smat E0; e_chirpz := e_chirpz E0;
  e_sbs := fun s D q r T K bs norm d skip => Ret (SUCCESS, map (fun l => l * l) bs, map (fun l => l + l) bs, repeat (RtoC 1) K, repeat 0%Z K);
  e_roots := e_roots E0 |}.
Definition nobox : xbox := {| x0 := Inf false; x1 := Inf true; x2 := Inf false; x3 := Inf true |}.
Lemma Esq_computes s D q r T norm d : computes_at Esq s D q r T norm d (fun l => l * l) (fun l => l + l).
Proof. intros lam. eexists _, _. reflexivity. Qed.
Lemma sq_iterate n : newton_iterate (fun l => l * l) (fun l => l + l) n 1 = RtoC ((/ 2) ^ n)%R.
Proof.
  induction n as [|n IH]; [reflexivity|]. cbn [newton_iterate pow]. rewrite IH.
  assert (Hp : ((/ 2) ^ n)%R <> 0%R) by (apply pow_nonzero; lra).
  assert (Hp2 : RtoC ((/ 2) ^ n) <> 0) by (intros H; apply Hp; apply (f_equal fst) in H; exact H).
  assert (Hp3 : RtoC ((/ 2) ^ n) + RtoC ((/ 2) ^ n) <> 0).
  { intros H. apply (f_equal fst) in H. cbn in H. lra. }
  rewrite RtoC_mult, RtoC_inv by lra. set (z := RtoC _) in *. replace (RtoC 2) with (RtoC 1 + RtoC 1) by (rewrite <- RtoC_plus; f_equal; lra).
  assert (H2 : RtoC 1 + RtoC 1 <> 0) by (rewrite <- RtoC_plus; intros H; apply (f_equal fst) in H; cbn in H; lra).
  field. split; assumption.
Qed.
Theorem newton_niter_steps_refuted : exists E s D q r T norm d f f' tl bb lam,
  computes_at E s D q r T norm d f f' /\ (forall m, newton_goes_on f f' bb tl lam m) /\
  forall code l calls, newton_loop E 5 0 s D q r T d 4 tl bb norm lam = Ret (code, l, calls) -> l <> newton_iterate f f' 4 lam.
Proof.
  exists Esq, O, 2%nat, (qs 2), (qs 2), (0, 1)%R, false, N_BO, (fun l => l * l), (fun l => l + l), 0%R, nobox, (RtoC 1).
  split; [apply Esq_computes|].
  assert (Hgo : forall m, newton_goes_on (fun l => l * l) (fun l => l + l) nobox 0 1 m).
  { intros m. unfold newton_goes_on. rewrite sq_iterate. set (p := ((/ 2) ^ m)%R). assert (Hp : (0 < p)%R) by (apply pow_lt; lra).
    assert (H1 : RtoC p * RtoC p <> 0) by (rewrite <- RtoC_mult; intros H; apply (f_equal fst) in H; cbn in H; nra).
    assert (H2 : RtoC p + RtoC p <> 0) by (rewrite <- RtoC_plus; intros H; apply (f_equal fst) in H; cbn in H; lra).
    split; [exact H1|]. split; [exact H2|]. split.
    - unfold in_box. cbn. auto.
    - split; apply Cmod_gt_0; [|exact H1]. intros H. apply H1. replace (RtoC p * RtoC p) with (RtoC p * RtoC p / (RtoC p + RtoC p) * (RtoC p + RtoC p)) by (field; exact H2).
      rewrite H. ring. }
  split; [exact Hgo|]. intros code l calls El.
  destruct (newton_all_allowed_steps Esq 0 2 (qs 2) (qs 2) (0, 1)%R false N_BO _ _ 4 0 nobox 1 (Esq_computes _ _ _ _ _ _ _) (fun m _ => Hgo m)) as (calls' & El').
  rewrite El' in El. assert (El2 : newton_iterate (fun l => l * l) (fun l => l + l) (allowed 4) 1 = l) by congruence.
  intros Hl. rewrite <- El2 in Hl. change (allowed 4) with 2%nat in Hl. rewrite !sq_iterate in Hl. apply (f_equal fst) in Hl. cbn in Hl. lra.
Qed.
