(** * The refinement of the main spectrum in fnft_nsep (C49) *)
From Coq Require Import Reals Lra.
From Coquelicot Require Import Coquelicot.
From Verif Require Import Loop NsevSpec NsevProps NsevSafe NsevSafe2 NsepSpec.
Local Open Scope C_scope.

Lemma ceq_true a b : ceq a b = true <-> a = b.
Proof. unfold ceq. destruct (Ceq_dec a b); split; congruence. Qed.
Lemma ceq_false a b : ceq a b = false <-> a <> b.
Proof. unfold ceq. destruct (Ceq_dec a b); split; congruence. Qed.
Lemma in_boxb_spec bb z : in_boxb bb z = true <-> within bb z.
Proof. unfold in_boxb, within. rewrite !andb_true_iff. tauto. Qed.

Lemma main_f_value E s D q r eps_t kappa d norm rhs f f' lam : mono_computes E s D q r eps_t kappa d norm rhs f f' ->
  main_f E s D q r eps_t kappa d norm rhs lam = Ret (inr (f lam, f' lam)).
Proof.
  intros H. destruct (H lam) as (M & W & EM & LM & Hf & Hf'). unfold main_f. rewrite EM. cbn [bind].
  change (Z.eqb SUCCESS SUCCESS) with true. cbn [negb].
  do 9 (destruct M as [|? M]; try discriminate LM). cbn [aget nth_error bind]. cbn [nth] in Hf, Hf'. rewrite Hf, Hf'. reflexivity.
Qed.

Lemma trial_one f f' z : trial f f' z 1 = z - f z / f' z.
Proof. unfold trial. change (INR 1) with 1%R. now rewrite Cmult_1_l. Qed.

(** The line search *)
Lemma try_steps_best f f' (F : C -> out (Z + C * C)) tol z : (forall x, F x = Ret (inr (f x, f' x))) ->
  exists m, best_order f f' tol z m /\
  try_steps F 2 1 z (f z / f' z) tol None 1 (f z) (f' z) = Ret (inr (m, f (trial f f' z m), f' (trial f f' z m), evals f f' tol z)).
Proof.
  intros HF. cbn [try_steps]. rewrite !HF. cbn [bind]. fold (trial f f' z 1) (trial f f' z 2). unfold evals.
  destruct (xlt (Fin (Cmod (f (trial f f' z 1)))) tol) eqn:E1.
  - exists 1%nat. split; [left; auto|]. reflexivity.
  - cbn [bind]. destruct (Rlt_dec (Cmod (f (trial f f' z 2))) (Cmod (f (trial f f' z 1)))) as [H|H].
    + exists 2%nat. split; [right; auto|]. destruct (xlt (Fin (Cmod (f (trial f f' z 2)))) tol); reflexivity.
    + exists 1%nat. split; [left; split; [reflexivity|right; lra]|]. reflexivity.
Qed.
Lemma evals_bound f f' tol z : (1 <= evals f f' tol z <= 2)%nat.
Proof. unfold evals. destruct (xlt _ _); lia. Qed.

Lemma main_loop_refines f f' (F : C -> out (Z + C * C)) tol bb : (forall x, F x = Ret (inr (f x, f' x))) ->
  forall fuel nevals max_evals z, (max_evals < fuel + nevals)%nat -> (1 <= nevals)%nat ->
  exists c y n, main_loop F fuel nevals max_evals tol bb z (f z) (f' z) = Ret (c, y, n) /\ refines f f' tol bb (max_evals + 1 - nevals) c z y n.
Proof.
  intros HF. induction fuel as [|fuel IH]; intros nevals max_evals z Hfuel Hn; cbn [main_loop].
  - destruct (Nat.leb_spec nevals max_evals); [lia|]. cbn [negb]. replace (max_evals + 1 - nevals)%nat with O by lia.
    eexists _, _, _. split; [reflexivity|constructor].
  - destruct (Nat.leb_spec nevals max_evals) as [Hle|Hgt]; cbn [negb].
    2:{ replace (max_evals + 1 - nevals)%nat with O by lia. eexists _, _, _. split; [reflexivity|constructor]. }
    replace (max_evals + 1 - nevals)%nat with (S (max_evals - nevals)) by lia.
    destruct (ceq (f' z) 0) eqn:E0. { apply ceq_true in E0. eexists _, _, _. split; [reflexivity|now constructor]. }
    apply ceq_false in E0. destruct (try_steps_best f f' F tol z HF) as (m & Hm & Et). rewrite Et. cbn [bind].
    change (z - RtoC (INR m) * (f z / f' z)) with (trial f f' z m).
    destruct (xsmall _ tol || xsmall _ tol) eqn:Ec.
    + assert (Hc : converged f f' tol z m) by (apply orb_true_iff in Ec; exact Ec).
      destruct (ceq (f' (trial f f' z m)) 0) eqn:E1.
      * apply ceq_true in E1. eexists _, _, _. split; [reflexivity|]. now apply rf_converged_flat.
      * apply ceq_false in E1. eexists _, _, _. split; [reflexivity|]. rewrite <- trial_one. now apply rf_converged.
    + assert (Hc : ~ converged f f' tol z m).
      { apply orb_false_iff in Ec. unfold xsmall in Ec. intros [H|H]; rewrite H in Ec; destruct Ec; discriminate. }
      destruct (in_boxb bb (trial f f' z m)) eqn:Eb; cbn [negb].
      * apply in_boxb_spec in Eb. pose proof (evals_bound f f' tol z).
        destruct (IH (nevals + evals f f' tol z)%nat max_evals (trial f f' z m)) as (c & y & n & El & Hr); [lia|lia|].
        rewrite El. cbn [bind]. eexists _, _, _. split; [reflexivity|]. apply rf_step with (m := m); auto.
        replace (S (max_evals - nevals) - evals f f' tol z)%nat with (max_evals + 1 - (nevals + evals f f' tol z))%nat by lia. exact Hr.
      * assert (Hb : ~ within bb (trial f f' z m)) by (intros H; apply in_boxb_spec in H; congruence).
        eexists _, _, _. split; [reflexivity|]. now apply rf_outside.
Qed.
Lemma refines_bound f f' tol bb b c z y n : refines f f' tol bb b c z y n -> (n <= b + 1)%nat.
Proof.
  intros H. enough ((b = O -> n = O) /\ (n <= b + 1)%nat) by tauto.
  induction H; try match goal with |- context [evals f f' tol ?z] => pose proof (evals_bound f f' tol z) end; lia.
Qed.

(** A point of the main spectrum is refined by Newton's method with the line search, within the stated number of evaluations *)
Theorem nsep_refinement_is_newton E s D q r eps_t kappa d norm rhs f f' max_evals tol bb lam :
  mono_computes E s D q r eps_t kappa d norm rhs f f' -> (1 <= max_evals)%nat ->
  exists code y n, refine_main_point (main_f E s D q r eps_t kappa d norm rhs) max_evals tol bb lam = Ret (code, y, n) /\
    refines f f' tol bb max_evals code lam y (n - 1) /\ (1 <= n <= max_evals + 2)%nat.
Proof.
  intros H Hm. unfold refine_main_point. assert (HF : forall x, main_f E s D q r eps_t kappa d norm rhs x = Ret (inr (f x, f' x))) by (intros x; now apply main_f_value).
  rewrite HF. cbn [bind]. destruct (main_loop_refines f f' _ tol bb HF max_evals 1 max_evals lam) as (c & y & n & El & Hr); [lia|lia|].
  rewrite El. cbn [bind]. eexists _, _, _. split; [reflexivity|]. replace (max_evals + 1 - 1)%nat with max_evals in Hr by lia.
  cbn [Nat.sub]. rewrite Nat.sub_0_r. split; [exact Hr|]. apply refines_bound in Hr. lia.
Qed.
(** max_evals evaluations are not enough for the code: with max_evals = 1, three are made *)
Definition E_line (E : penv) : penv := {| pe_alloc := pe_alloc E; pe_junk := pe_junk E; pe_junkK := pe_junkK E; pe_pre := pe_pre E; pe_fscatter := pe_fscatter E; pe_roots := pe_roots E;
  pe_mono := fun _ _ _ _ _ _ lam _ _ => Ret (SUCCESS, [lam; RtoC 0; RtoC 0; RtoC 0; RtoC 1; RtoC 0; RtoC 0; RtoC 0], 0%Z); pe_grid := pe_grid E |}.
Theorem nsep_max_evals_refuted E bb : exists y,
  refine_main_point (main_f (E_line E) 0 2 [RtoC 1; RtoC 1] [RtoC 1; RtoC 1] 1 1 N_BO false 0) 1 (Fin 0) bb 1 = Ret (SUCCESS, y, 3%nat).
Proof.
  assert (HC : mono_computes (E_line E) 0 2 [RtoC 1; RtoC 1] [RtoC 1; RtoC 1] 1 1 N_BO false 0 (fun x => x) (fun _ => RtoC 1)).
  { intros lam. eexists _, _. split; [reflexivity|]. split; [reflexivity|]. cbn [nth]. split; ring. }
  assert (HF : forall x, main_f (E_line E) 0 2 [RtoC 1; RtoC 1] [RtoC 1; RtoC 1] 1 1 N_BO false 0 x = Ret (inr (x, RtoC 1))) by (intros x; now apply main_f_value with (f := fun x => x) (f' := fun _ => RtoC 1)).
  unfold refine_main_point. rewrite HF. cbn [bind]. cbn [main_loop Nat.leb negb].
  assert (H10 : RtoC 1 <> 0) by (intros H; apply (f_equal fst) in H; cbn in H; lra). apply ceq_false in H10. rewrite H10. apply ceq_false in H10.
  cbn [try_steps]. rewrite !HF. cbn [bind]. change (INR 1) with 1%R.
  assert (Z1 : (1 - 1 * (1 / 1))%C = 0) by (field; apply H10). rewrite Z1, Cmod_0. cbn [xlt]. destruct (Rlt_dec 0 0); [lra|]. cbn [bind].
  match goal with |- context [Rlt_dec (Cmod ?x) 0] => destruct (Rlt_dec (Cmod x) 0) as [Hlt|_]; [pose proof (Cmod_ge_0 x); lra|] end.
  cbn [bind]. change (INR 1) with 1%R. rewrite Z1. assert (Hs : xsmall (1 * (1 / 1)) (Fin 0) || xsmall 1 (Fin 0) = false).
  { unfold xsmall, xle. replace (1 * (1 / 1))%C with (RtoC 1) by (field; apply H10). rewrite Cmod_1. destruct (Rle_dec 1 0); [lra|reflexivity]. }
  change (INR 1) with 1%R. rewrite Hs. destruct (in_boxb bb 0); cbn [negb Nat.add Nat.leb bind]; eexists; reflexivity.
Qed.
(** ... and a point that is exactly in the main spectrum but where the derivative vanishes (a double point) gives an error *)
Theorem nsep_double_point_refuted E s D q r eps_t kappa d norm rhs f f' max_evals tol bb lam :
  mono_computes E s D q r eps_t kappa d norm rhs f f' -> (1 <= max_evals)%nat -> f lam = 0 -> f' lam = 0 ->
  refine_main_point (main_f E s D q r eps_t kappa d norm rhs) max_evals tol bb lam = Ret (EC_DIV_BY_ZERO, lam, 1%nat).
Proof.
  intros H Hm H0 H1. unfold refine_main_point. rewrite (main_f_value E s D q r eps_t kappa d norm rhs f f' lam H). cbn [bind].
  destruct max_evals as [|n]; [lia|]. cbn [main_loop]. change (1 <=? S n)%nat with true. cbn [negb].
  rewrite H1. assert (Hz : ceq 0 0 = true) by now apply ceq_true. rewrite Hz. reflexivity.
Qed.

(** Auxiliary spectrum: the ordinary Newton iteration for b; f and f' are M12 and M12' *)
Definition aux_computes (E : penv) (s D : nat) (q r : list C) (eps_t : R) (kappa : Z) (d : nse_disc) (norm : bool) (f f' : C -> C) : Prop :=
  forall lam, exists M W, pe_mono E s D q r eps_t kappa lam norm d = Ret (SUCCESS, M, W) /\ length M = 8%nat /\ f lam = nth 1 M 0 /\ f' lam = nth 5 M 0.
(** the reasons for which the iteration from lam ends after n steps *)
Inductive aux_ends (f f' : C -> C) (tol : xreal) (bb : xbox) (max_evals : nat) (lam : C) (n : nat) : Z -> Prop :=
| ae_all : n = max_evals -> aux_ends f f' tol bb max_evals lam n SUCCESS
| ae_flat : (n < max_evals)%nat -> f' (newton_iterate f f' n lam) = 0 -> aux_ends f f' tol bb max_evals lam n EC_DIV_BY_ZERO
| ae_small m : n = S m -> (let z := newton_iterate f f' m lam in xle (Fin (Cmod (f z / f' z)%C)) tol = true \/ xle (Fin (Cmod (f z))) tol = true) ->
    aux_ends f f' tol bb max_evals lam n SUCCESS
| ae_outside m : n = S m -> ~ within bb (newton_iterate f f' n lam) -> aux_ends f f' tol bb max_evals lam n SUCCESS.
Lemma newton_iterate_S f f' n z : newton_iterate f f' (S n) z = newton_iterate f f' n (z - f z / f' z).
Proof. induction n as [|n IH]; [reflexivity|]. cbn [newton_iterate] in *. now rewrite <- IH. Qed.
Theorem nsep_aux_refinement_is_newton E s D q r eps_t kappa d norm f f' tol bb :
  aux_computes E s D q r eps_t kappa d norm f f' -> forall max_evals lam,
  exists code n k, refine_aux_point (aux_f E s D q r eps_t kappa d norm) max_evals tol bb lam = Ret (code, newton_iterate f f' n lam, k) /\
    (n <= k <= max_evals)%nat /\ aux_ends f f' tol bb max_evals lam n code.
Proof.
  intros H. assert (HF : forall x, aux_f E s D q r eps_t kappa d norm x = Ret (inr (f x, f' x))).
  { intros x. destruct (H x) as (M & W & EM & LM & Hf & Hf'). unfold aux_f. rewrite EM. cbn [bind].
    change (Z.eqb SUCCESS SUCCESS) with true. cbn [negb]. do 9 (destruct M as [|? M]; try discriminate LM). cbn [aget nth_error bind]. cbn [nth] in Hf, Hf'. now rewrite Hf, Hf'. }
  induction max_evals as [|k IH]; intros lam; cbn [refine_aux_point].
  - exists SUCCESS, O, O. split; [reflexivity|]. split; [lia|]. now constructor.
  - rewrite HF. cbn [bind]. destruct (ceq (f' lam) 0) eqn:E0.
    { apply ceq_true in E0. exists EC_DIV_BY_ZERO, O, 1%nat. split; [reflexivity|]. split; [lia|]. apply ae_flat; [lia|exact E0]. }
    destruct (xsmall _ tol || xsmall _ tol) eqn:Ec.
    { exists SUCCESS, 1%nat, 1%nat. split; [reflexivity|]. split; [lia|]. apply orb_true_iff in Ec. apply (ae_small _ _ _ _ _ _ _ O); auto. }
    destruct (in_boxb bb (lam - f lam / f' lam)) eqn:Eb; cbn [negb].
    + destruct (IH (lam - f lam / f' lam)) as (c & n & m & El & Hn & He). rewrite El. cbn [bind].
      exists c, (S n), (S m). rewrite newton_iterate_S. split; [reflexivity|]. split; [lia|].
      destruct He as [He|He He2|j He He2|j He He2].
      * apply ae_all. lia.
      * apply ae_flat; [lia|]. now rewrite newton_iterate_S.
      * apply (ae_small _ _ _ _ _ _ _ (S j)); [lia|]. now rewrite newton_iterate_S.
      * apply (ae_outside _ _ _ _ _ _ _ (S j)); [lia|]. now rewrite newton_iterate_S.
    + exists SUCCESS, 1%nat, 1%nat. split; [reflexivity|]. split; [lia|]. apply (ae_outside _ _ _ _ _ _ _ O); [reflexivity|].
      intros Hw. apply in_boxb_spec in Hw. cbn [newton_iterate] in Hw. congruence.
Qed.
