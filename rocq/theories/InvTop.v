(** * fnft_nsev_inverse without continuous spectrum: the output consists of samples of the potential with the given discrete spectrum *)
From Coq Require Import Reals ZArith List Lia Lra Permutation.
From Coquelicot Require Import Coquelicot.
From Verif Require Import CDeriv CExp CField CConj NsevProps NsevSafe NsevSpec InvModel InvSpec InvDarboux InvSoliton InvSolCode InvPerm InvSort InvArgs.
Import ListNotations.
Local Open Scope C_scope.

Lemma time_eq T D n : time T ((snd T - fst T) / INR (D - 1)) n = sample_time T D n.
Proof. unfold time, sample_time. unfold Rdiv. ring. Qed.
Lemma rd_all {A} (l : list A) : rd l 0 (length l) = Ret l.
Proof. unfold rd. cbn [plus]. rewrite Nat.leb_refl. cbn [skipn]. now rewrite firstn_all. Qed.
Lemma map_fst_combine (a b : list C) : length a = length b -> map fst (combine a b) = a.
Proof. revert b. induction a as [|x a IH]; intros [|y b] H; cbn in *; try lia; [reflexivity|]. f_equal. apply IH. lia. Qed.
Lemma map_snd_combine (a b : list C) : length a = length b -> map snd (combine a b) = b.
Proof. revert b. induction a as [|x a IH]; intros [|y b] H; cbn in *; try lia; [reflexivity|]. f_equal. apply IH. lia. Qed.
Lemma combine_nth_in (a b : list C) i : length a = length b -> (i < length a)%nat -> In (nth i a (RtoC 0), nth i b (RtoC 0)) (combine a b).
Proof. intros H Hi. rewrite <- combine_nth by exact H. apply nth_In. rewrite combine_length. lia. Qed.
Lemma soliton_reflectionless (bs bc : list C) : length bc = length bs -> sol_valid (combine bs bc) -> reflectionless (soliton (combine bs bc)) bs bc.
Proof.
  intros L V. assert (F : map fst (combine bs bc) = bs) by (apply map_fst_combine; auto). split; [|split].
  - intros l Hl. rewrite <- F at 2. now apply soliton_a.
  - intros xi. now apply soliton_b.
  - intros i Hi. apply soliton_norming_constant; [exact V|]. apply combine_nth_in; auto.
Qed.

(** memory is available *)
Definition plenty (E : ienv) : Prop := forall i, ie_alloc E i = true.
Lemma perm_nodup ds ds' : Permutation ds ds' -> NoDup (map (@fst C C) ds) -> NoDup (map fst ds').
Proof. intros P. apply Permutation_NoDup. now apply Permutation_map. Qed.
Lemma no_double bs : NoDup bs -> has_double (length bs) bs = Ret false.
Proof.
  intros N. destruct (has_double_spec bs) as (r & E & H). rewrite E. destruct r; [exfalso|reflexivity]. destruct (proj1 H eq_refl) as (i & Hi & Q).
  assert (S i = i) by (apply (proj1 (NoDup_nth bs (RtoC 0)) N); auto; lia). lia.
Qed.
(** the pure soliton case for norming constants *)
Lemma ads_shape E ds D q T o : plenty E -> (2 <= D)%nat -> NoDup (map fst ds) -> i_meth o <> IM_SEED -> i_ds o <> ID_RESIDUES ->
  exists ds', Permutation ds ds' /\ sorted ds' /\
  add_discrete_spectrum E (length ds) (map fst ds) (map snd ds) D q T false o =
  (q <- multi_soliton (length ds') (map fst ds') (map snd ds') T ((snd T - fst T) / INR (D - 1)) D q ;; Ret (SUCCESS, q)).
Proof.
  intros HE HD ND Hm Hd. destruct (sort_bs_spec ds) as (ds' & Es & P & S). exists ds'. split; [exact P|]. split; [exact S|].
  assert (L := Permutation_length P). unfold add_discrete_spectrum, step. destruct (Nat.leb_spec D 1); [lia|]. cbn [bind]. rewrite !HE. cbn [negb orb].
  rewrite <- (map_length fst ds) at 1. rewrite rd_all. cbn [bind]. rewrite <- (map_length snd ds) at 1. rewrite rd_all. cbn [bind]. rewrite Es. cbn [bind].
  rewrite L. rewrite <- (map_length fst ds') at 1. rewrite no_double by (eapply perm_nodup; eauto). cbn [bind].
  destruct (i_ds o); [|congruence|]; cbn [bind]; change (Z.eqb SUCCESS SUCCESS) with true; cbn [negb andb]; destruct (i_meth o); try congruence; reflexivity.
Qed.
Lemma perm_valid ds ds' : Permutation ds ds' -> sol_valid ds -> sol_valid ds'.
Proof. intros P [F N]. split; [|eapply perm_nodup; eauto]. eapply Permutation_Forall; eauto. Qed.

Lemma accepted_D M cs XI K bs nc D q T kappa o : accepted M cs XI K bs nc D q T kappa o -> (2 <= D)%nat.
Proof. intros A. destruct (ac_D _ _ _ _ _ _ _ _ _ _ _ A) as (k & Hk & ->). change 2%nat with (2 ^ 1)%nat at 1. apply Nat.pow_le_mono_r; lia. Qed.
Lemma accepted_up M cs XI bs nc D q T kappa o : accepted M cs XI (length bs) (Some bs) nc D q T kappa o -> List.Forall (fun l : C => 0 < snd l)%R bs.
Proof.
  intros A. apply Forall_forall. intros x Hx. destruct (In_nth_error _ _ Hx) as (i & Hi).
  apply (ac_bs _ _ _ _ _ _ _ _ _ _ _ A bs i x eq_refl); [|exact Hi]. apply nth_error_Some. congruence.
Qed.
Lemma valid_combine (bs nc : list C) : length nc = length bs -> List.Forall (fun l : C => 0 < snd l)%R bs -> List.Forall (fun b : C => b <> RtoC 0) nc -> NoDup bs -> sol_valid (combine bs nc).
Proof.
  intros L P B N. split; [|now rewrite map_fst_combine]. apply Forall_forall. intros [l b] H. cbn [fst snd]. rewrite Forall_forall in P, B.
  split; [apply P; eapply in_combine_l; eauto|apply B; eapply in_combine_r; eauto].
Qed.

Section Top.
Variables (E : ienv) (M : nat) (XI : option (R * R)) (bs nc : list C) (D : nat) (q : list C) (T : R * R) (kappa : Z) (o : iopts).
Hypothesis HE : plenty E.
Hypothesis Ac : accepted M None XI (length bs) (Some bs) (Some nc) D (Some q) (Some T) kappa o.
Hypothesis Ln : length nc = length bs.
Hypothesis Hm : i_meth o <> IM_SEED.
Hypothesis ND : NoDup bs.
Hypothesis Nz : List.Forall (fun b : C => b <> RtoC 0) nc.
Let run := fnft_nsev_inverse E M None XI (length bs) (Some bs) (Some nc) D (Some q) (Some T) kappa (Some o).

Lemma K_pos : (0 < length bs)%nat. Proof. destruct (ac_some _ _ _ _ _ _ _ _ _ _ _ Ac) as [H|H]; [congruence|exact H]. Qed.
Lemma run_eq : run = (x <- add_discrete_spectrum E (length bs) bs nc D q T false o ;; let '(code, q) := (x : Z * list C) in
    check code (None, Some q) (Ret (SUCCESS, (None, Some q)))).
Proof.
  unfold run. rewrite inverse_accepted; [|intros l Hl; injection Hl as <-; lia|exact Ac]. cbn [bind]. change (Z.eqb SUCCESS SUCCESS) with true. cbn [negb].
  destruct (Nat.ltb_spec 0 (length bs)); [|generalize K_pos; lia]. cbn [deref bind no_ptr negb]. reflexivity.
Qed.
Lemma run_shape : i_ds o <> ID_RESIDUES -> exists ds', Permutation (combine bs nc) ds' /\ sorted ds' /\
  run = (q <- multi_soliton (length ds') (map fst ds') (map snd ds') T ((snd T - fst T) / INR (D - 1)) D q ;; Ret (SUCCESS, (None, Some q))).
Proof.
  intros Hd. destruct (ads_shape E (combine bs nc) D q T o HE) as (ds' & P & S & Ea); auto; [eapply accepted_D; eauto|now rewrite map_fst_combine|].
  exists ds'. split; [exact P|]. split; [exact S|]. rewrite run_eq. rewrite map_fst_combine, map_snd_combine, combine_length, Ln, Nat.min_id in Ea by auto.
  rewrite Ea. destruct (multi_soliton _ _ _ _ _ _ _); reflexivity.
Qed.
(** Any result is the right one: code SUCCESS and samples of the potential with this discrete spectrum.  No result means that the computation
   contains a division by zero. *)
Theorem nsev_inverse_solitons x : i_ds o <> ID_RESIDUES -> run = Ret x ->
  exists q' (u : R -> C), x = (SUCCESS, (None, Some q')) /\ length q' = length q /\ (forall n, (n < D)%nat -> nth n q' (RtoC 0) = u (sample_time T D n)) /\
  (forall n, (D <= n)%nat -> nth n q' (RtoC 0) = nth n q (RtoC 0)) /\ reflectionless u bs nc.
Proof.
  intros Hd H. destruct (run_shape Hd) as (ds' & P & S & R). rewrite R in H. apply bind_Ret in H. destruct H as (q' & Em & Ex). injection Ex as <-.
  assert (V : sol_valid (combine bs nc)) by (apply valid_combine; auto; eapply accepted_up; eauto).
  destruct (multi_soliton_partial _ _ _ _ _ _ Em) as (_ & L & N). exists q', (soliton (combine bs nc)). split; [reflexivity|]. split; [exact L|]. split; [|split].
  - intros n Hn. rewrite N. destruct (Nat.ltb_spec n D); [|lia]. rewrite time_eq. symmetry. now apply soliton_perm.
  - intros n Hn. rewrite N. destruct (Nat.ltb_spec n D); [lia|reflexivity].
  - now apply soliton_reflectionless.
Qed.

(** residues: r = b / a' *)
Lemma blaschke_perm ls ls' l : Permutation ls ls' -> blaschke ls l = blaschke ls' l.
Proof. induction 1; unfold blaschke in *; cbn [fold_right]; [reflexivity|now f_equal| |congruence]. ring. Qed.
Theorem nsev_inverse_solitons_residues x : i_ds o = ID_RESIDUES -> run = Ret x ->
  exists q' (u : R -> C) (bc : list C), x = (SUCCESS, (None, Some q')) /\ length q' = length q /\ (forall n, (n < D)%nat -> nth n q' (RtoC 0) = u (sample_time T D n)) /\
  (forall n, (D <= n)%nat -> nth n q' (RtoC 0) = nth n q (RtoC 0)) /\ length bc = length bs /\ reflectionless u bs bc /\
  forall i, (i < length bs)%nat -> exists a' : C, Cderive (blaschke bs) (nth i bs (RtoC 0)) a' /\ a' <> RtoC 0 /\ nth i nc (RtoC 0) = nth i bc (RtoC 0) / a'.
Proof.
  intros Hd H. rewrite run_eq in H. set (ds := combine bs nc). assert (F : map fst ds = bs) by (apply map_fst_combine; auto).
  assert (F2 : map snd ds = nc) by (apply map_snd_combine; auto). assert (L : length ds = length bs) by (unfold ds; rewrite combine_length; lia).
  assert (HD := accepted_D _ _ _ _ _ _ _ _ _ _ _ Ac). assert (Up := accepted_up _ _ _ _ _ _ _ _ _ _ Ac).
  destruct (sort_bs_spec ds) as (ds' & Es & P & S). assert (L' := Permutation_length P). rewrite F, F2, L in Es.
  assert (ND' : NoDup (map fst ds')) by (eapply perm_nodup; [exact P|]; now rewrite F).
  assert (PF : Permutation bs (map fst ds')) by (rewrite <- F; now apply Permutation_map).
  assert (Up' : List.Forall (fun l : C => 0 < snd l)%R (map fst ds')) by (eapply Permutation_Forall; eauto).
  destruct (to_norm_consts_ok (map fst ds') (map snd ds') (fun _ => RtoC 1) (fun _ => RtoC 0)) as (nc' & En & Ln' & Hn); [now rewrite !map_length|exact Up'|intros; apply Cderive_const|].
  rewrite map_length in En, Ln', Hn. replace (map (fun _ : C => RtoC 1) (map fst ds')) with (repeat (RtoC 1) (length bs)) in En.
  2:{ rewrite <- L, L'. generalize ds'. clear. induction ds' as [|x l IH]; cbn; [reflexivity|]. now f_equal. }
  rewrite <- L', L in En.
  assert (Sh : add_discrete_spectrum E (length bs) bs nc D q T false o =
    (q <- multi_soliton (length bs) (map fst ds') nc' T ((snd T - fst T) / INR (D - 1)) D q ;; Ret (SUCCESS, q))).
  { unfold add_discrete_spectrum, step. destruct (Nat.leb_spec D 1); [lia|]. cbn [bind]. rewrite !HE. cbn [negb orb].
    rewrite rd_all. cbn [bind]. rewrite <- Ln at 1. rewrite rd_all. cbn [bind]. rewrite Es. cbn [bind].
    assert (HD' := no_double _ ND'). rewrite map_length, <- L', L in HD'. rewrite HD'. cbn [bind]. rewrite Hd, En. cbn [bind]. change (Z.eqb SUCCESS SUCCESS) with true. cbn [negb andb].
    destruct (i_meth o); try congruence; reflexivity. }
  rewrite Sh in H. apply bind_Ret in H. destruct H as ([c q'] & Em & Ex). apply bind_Ret in Em. destruct Em as (q1 & Em & Eq). injection Eq as <- <-.
  cbn in Ex. injection Ex as <-.
  (* back to the order of the caller *)
  assert (PT : exists trip, ds = map fst trip /\ Permutation (combine ds' nc') trip).
  { apply Permutation_map_inv. replace (map fst (combine ds' nc')) with ds'; [exact P|]. symmetry. generalize (eq_sym Ln'). clear. revert nc'. induction ds' as [|x l IH]; intros [|y n] H; cbn in *; try lia; [reflexivity|]. f_equal. apply IH. lia. }
  destruct PT as (trip & Et & PT). set (bc := map snd trip).
  assert (Lt : length trip = length bs) by (rewrite <- L, Et, map_length; reflexivity).
  assert (Hp : forall i, (i < length bs)%nat -> exists da : C, Cderive (blaschke bs) (nth i bs (RtoC 0)) da /\ da <> RtoC 0 /\ nth i bc (RtoC 0) = nth i nc (RtoC 0) * da).
  { intros i Hi. set (d0 := ((RtoC 0, RtoC 0), RtoC 0)).
    assert (Hin : In (nth i trip d0) (combine ds' nc')) by (apply (Permutation_in _ (Permutation_sym PT)); apply nth_In; lia).
    destruct (In_nth _ _ d0 Hin) as (j & Hj & Ej). rewrite combine_length, Ln', Nat.min_id in Hj.
    unfold d0 in Ej. rewrite combine_nth in Ej by (symmetry; exact Ln'). destruct (Hn j Hj) as (da & Cd & Nn & Hb). exists da.
    assert (B0 : nth i bs (RtoC 0) = fst (fst (nth i trip d0))) by (rewrite <- F, Et, map_map; rewrite (nth_map_lt _ trip i d0) by lia; reflexivity).
    assert (R0 : nth i nc (RtoC 0) = snd (fst (nth i trip d0))) by (rewrite <- F2, Et, map_map; rewrite (nth_map_lt _ trip i d0) by lia; reflexivity).
    assert (C0 : nth i bc (RtoC 0) = snd (nth i trip d0)) by (unfold bc; rewrite (nth_map_lt _ trip i d0) by lia; reflexivity).
    unfold d0 in B0, R0, C0. rewrite <- Ej in B0, R0, C0. cbn [fst snd] in B0, R0, C0. rewrite B0, R0, C0.
    rewrite (nth_map_lt fst ds' j (RtoC 0, RtoC 0)) in Cd by exact Hj. rewrite (nth_map_lt snd ds' j (RtoC 0, RtoC 0)) in Hb by exact Hj.
    split; [|split; [|exact Hb]].
    - eapply Cderive_ext; [|exact Cd]. intros z. cbv beta. rewrite (blaschke_perm bs _ z PF). ring.
    - apply Nn; [exact ND'|exact C1_nz]. }
  assert (Lbc : length bc = length bs) by (unfold bc; now rewrite map_length).
  assert (V : sol_valid (combine bs bc)).
  { apply valid_combine; auto. apply Forall_forall. intros b Hb. destruct (In_nth _ _ (RtoC 0) Hb) as (i & Hi & <-). rewrite Lbc in Hi.
    destruct (Hp i Hi) as (da & _ & Nd & ->). apply Cmult_neq0; [|exact Nd]. rewrite Forall_forall in Nz. apply Nz, nth_In. lia. }
  set (ds2 := combine (map fst ds') nc').
  assert (P2 : Permutation ds2 (combine bs bc)).
  { assert (E2 : ds2 = map (fun x : C * C * C => (fst (fst x), snd x)) (combine ds' nc')).
    { unfold ds2. generalize nc'. clear. induction ds' as [|x l IH]; intros [|y n]; cbn; try reflexivity. f_equal. apply IH. }
    assert (E3 : combine bs bc = map (fun x : C * C * C => (fst (fst x), snd x)) trip).
    { rewrite <- F, Et. unfold bc. generalize trip. clear. induction trip as [|x l IH]; cbn; [reflexivity|]. f_equal. exact IH. }
    rewrite E2, E3. now apply Permutation_map. }
  assert (Lm : length (map fst ds') = length nc') by (rewrite map_length; lia).
  assert (L2 : length ds2 = length bs) by (unfold ds2; rewrite combine_length, map_length, Ln'; lia).
  rewrite <- L2 in Em. rewrite <- (map_fst_combine (map fst ds') nc' Lm) in Em at 1. rewrite <- (map_snd_combine (map fst ds') nc' Lm) in Em at 2. fold ds2 in Em.
  destruct (multi_soliton_partial _ _ _ _ _ _ Em) as (_ & Lq & N). exists q1, (soliton (combine bs bc)), bc. split; [reflexivity|]. split; [exact Lq|]. split; [|split; [|split; [exact Lbc|split]]].
  - intros n Hn'. rewrite N. destruct (Nat.ltb_spec n D); [|lia]. rewrite time_eq. apply soliton_perm; [exact P2|]. eapply perm_valid; [apply Permutation_sym; exact P2|exact V].
  - intros n Hn'. rewrite N. destruct (Nat.ltb_spec n D); [lia|reflexivity].
  - now apply soliton_reflectionless.
  - intros i Hi. destruct (Hp i Hi) as (da & Cd & Nd & ->). exists da. split; [exact Cd|]. split; [exact Nd|]. field. exact Nd.
Qed.
(** the division by zero does not happen if the intermediate vectors have no zero component in the order of decreasing imaginary parts *)
Theorem nsev_inverse_solitons_total : i_ds o <> ID_RESIDUES -> (D <= length q)%nat ->
  (forall ds', Permutation (combine bs nc) ds' -> sorted ds' -> all_regular ds' T ((snd T - fst T) / INR (D - 1)) D) -> exists x, run = Ret x.
Proof.
  intros Hd Lq Hr. destruct (run_shape Hd) as (ds' & P & S & R). rewrite R. destruct (multi_soliton_total ds' T ((snd T - fst T) / INR (D - 1)) D q Lq (Hr ds' P S)) as (q' & -> & _). eexists. reflexivity.
Qed.
End Top.

(** ** One soliton *)
Lemma regular_one fw (l b : C) t : b <> RtoC 0 -> regular fw (free_at [(l, b)] t).
Proof.
  intros Hb i j Hij. cbn [free_at map length] in Hij. assert (i = 0%nat) by lia. assert (j = 0%nat) by lia. subst. rewrite v_zero. cbn [free_at map nth snd].
  unfold free_vec. cbn [fst snd]. destruct fw; cbn [comp fst snd].
  - apply Cexp_neq0.
  - apply Cmult_neq0; [|apply Cexp_neq0]. intros Q. apply Hb. replace b with (- - b) by ring. rewrite Q. ring.
Qed.
Lemma all_regular_one (l b : C) T e D : b <> RtoC 0 -> all_regular [(l, b)] T e D.
Proof. intros Hb. split; [intros; now apply regular_one|]. intros _. constructor; [exact Hb|constructor]. Qed.
Theorem nsev_inverse_one_soliton E M XI (l b : C) D q T kappa o : plenty E ->
  accepted M None XI 1 (Some [l]) (Some [b]) D (Some q) (Some T) kappa o -> (D <= length q)%nat ->
  i_meth o <> IM_SEED -> i_ds o <> ID_RESIDUES -> b <> RtoC 0 ->
  exists q', fnft_nsev_inverse E M None XI 1 (Some [l]) (Some [b]) D (Some q) (Some T) kappa (Some o) = Ret (SUCCESS, (None, Some q')) /\
  forall n, (n < D)%nat -> nth n q' (RtoC 0) = one_soliton l b (sample_time T D n).
Proof.
  intros HE Ac Lq Hm Hd Hb.
  assert (ND : NoDup [l]) by (constructor; [now intros []|constructor]).
  destruct (run_shape E M XI [l] [b] D q T kappa o HE Ac eq_refl Hm ND Hd) as (ds' & P & S & R). cbn [combine] in P. apply Permutation_length_1_inv in P. subst ds'.
  cbn [length map fst snd] in R. rewrite R.
  destruct (multi_soliton_total [(l, b)] T ((snd T - fst T) / INR (D - 1)) D q Lq (all_regular_one _ _ _ _ _ Hb)) as (q' & Em & L & N).
  cbn [length map fst snd] in Em. rewrite Em. cbn [bind]. exists q'. split; [reflexivity|]. intros n Hn. rewrite N. destruct (Nat.ltb_spec n D); [|lia]. rewrite time_eq. now apply one_soliton_form.
Qed.
