(** * nsev_inverse: concrete cases for the hypotheses, and calls where the routine does not do what one expects *)
From Coq Require Import Reals ZArith List Lia Lra Permutation.
From Coquelicot Require Import Coquelicot.
From Verif Require Import CExp CField CConj NsevProps NsevSafe NsevSpec InvModel InvSpec InvDarboux InvSoliton InvSolCode InvPerm InvSort InvArgs InvTop InvUnique InvGrid InvPre.
Import ListNotations.
Local Open Scope C_scope.

(** subroutines that work: memory is filled with zeros, the spectral factor is 1, inverse scattering returns 0 *)
Definition good_env : ienv := {| ie_alloc := fun _ => true; ie_junk := fun _ n => repeat (RtoC 0) n; ie_plan := fun _ => SUCCESS;
  ie_specfact := fun _ deg p _ _ => Ret (SUCCESS, repeat (RtoC 0) deg ++ [RtoC 1]);
  ie_finv := fun deg tm q e k d => Ret (SUCCESS, repeat (RtoC 0) (length q));
  ie_sbs := fun D q r T K bs => Ret (SUCCESS, repeat (RtoC 1) K, repeat 0%Z K) |}.
Lemma good_plenty : plenty good_env. Proof. intros i. reflexivity. Qed.

Definition I1 : C := (0%R, 1%R).
Definition I2 : C := (0%R, 2%R).
Lemma accepted_two nc q : accepted 0 None None 2 (Some [I2; I1]) (Some nc) 2 (Some q) (Some (0, 1)%R) 1 inverse_default_opts.
Proof.
  split; try (intros; congruence).
  - right. lia.
  - lia.
  - exists 1%nat. split; [lia|reflexivity].
  - exists 0%R, 1%R. split; [reflexivity|lra].
  - left. reflexivity.
  - intros _. split; discriminate.
  - intros l i x E Hi H. injection E as <-. destruct i as [|[|i]]; cbn in H; try lia; injection H as <-; cbn; lra.
  - left. reflexivity.
Qed.
Lemma accepted_one (l b : C) q : (0 < snd l)%R -> accepted 0 None None 1 (Some [l]) (Some [b]) 4 (Some q) (Some (-1, 1)%R) 1 inverse_default_opts.
Proof.
  intros Hl. split; try (intros; congruence).
  - right. lia.
  - lia.
  - exists 2%nat. split; [lia|reflexivity].
  - exists (-1)%R, 1%R. split; [reflexivity|lra].
  - left. reflexivity.
  - intros _. split; discriminate.
  - intros l' i x E Hi H. injection E as <-. destruct i as [|i]; cbn in H; try lia; injection H as <-; exact Hl.
  - left. reflexivity.
Qed.
Lemma nodup_two : NoDup [I2; I1].
Proof. constructor; [intros [H|[]]; injection H as H; lra|]. constructor; [now intros []|constructor]. Qed.

(** regularity for two bound states *)
Definition rho_at (fw : bool) (t : R) (x : C * C) : C :=
  if fw then snd x * Cexp (2 * Ci * fst x * RtoC t) else snd (inv_nc x) * Cexp (- (2) * Ci * fst (inv_nc x) * RtoC t).
Lemma free_rep fw t (x : C * C) : snd x <> RtoC 0 -> exists c : C, c <> RtoC 0 /\ free_vec t x = rep fw c (rho_at fw t x).
Proof.
  intros H. destruct fw; eexists; (split; [|first [apply rep_fw|apply rep_bw; exact H]]).
  - apply Cexp_neq0.
  - apply Cmult_neq0; [|apply Cexp_neq0]. intros Q. apply H. replace (snd x) with (- - snd x) by ring. rewrite Q. ring.
Qed.
Theorem two_regular fw t (x y : C * C) : snd x <> RtoC 0 -> snd y <> RtoC 0 ->
  (regular fw (free_at [x; y] t) <-> rho_den (fst x) (fst y) (rho_at fw t x) (rho_at fw t y) <> 0).
Proof.
  intros Hx Hy. destruct (free_rep fw t x Hx) as (c & Nc & Ec), (free_rep fw t y Hy) as (d & Nd & Ed).
  assert (V1 : v_ (free_at [x; y] t) 1 1 = mv (shifted (fst y) (darboux_S (fst x) (rep fw c (rho_at fw t x)))) (rep fw d (rho_at fw t y))).
  { rewrite v_next by (cbn; lia). rewrite !v_zero. cbn [free_at map nth fst snd]. now rewrite Ec, Ed. }
  assert (W : comp fw (v_ (free_at [x; y] t) 1 1) = d * rho_den (fst x) (fst y) (rho_at fw t x) (rho_at fw t y)).
  { rewrite V1, step_vec by exact Nc. destruct fw; reflexivity. }
  split.
  - intros G N. apply (G 1%nat 1%nat); [cbn; lia|]. rewrite W, N. ring.
  - intros N i j Hij. cbn in Hij. assert (Q : (i = 0 \/ i = 1)%nat) by lia. destruct Q as [-> | ->].
    + rewrite v_zero. assert (Q : (j = 0 \/ j = 1)%nat) by lia. destruct Q as [-> | ->]; cbn [free_at map nth snd]; rewrite ?Ec, ?Ed, comp_rep; assumption.
    + assert (j = 1%nat) by lia. subst j. rewrite W. now apply Cmult_neq0.
Qed.
(** bound states 2i and i with real norming constants *)
Lemma den_imag (r s : R) : rho_den I2 I1 (RtoC r) (RtoC s) = RtoC ((3 * (r * r) - 1 - 4 * (r * s)) / (1 + r * r)) * Ci.
Proof.
  assert (H : (1 + r * r <> 0)%R) by nra. unfold rho_den, fcoef. cbn [snd I2]. rewrite Cmod_R. assert (A : (Rabs r * Rabs r = r * r)%R) by (rewrite <- Rabs_mult; apply Rabs_pos_eq; nra). rewrite A.
  apply Ceq; unfold I1, I2, Cconj, Cdiv, Cinv; cbn; field; lra.
Qed.
Lemma rho_real fw (eta b t : R) : b <> 0%R -> rho_at fw t ((0%R, eta), RtoC b) = RtoC ((if fw then b else / b) * exp (if fw then - (2 * eta * t) else 2 * eta * t)).
Proof.
  intros Hb. unfold rho_at, inv_nc. cbn [fst snd].
  assert (X : forall s : R, Cexp (RtoC s) = RtoC (exp s)) by (intros s; unfold Cexp; cbn; rewrite sin_0, cos_0; apply Ceq; cbn; ring).
  destruct fw.
  - rewrite RtoC_mult, <- X. f_equal. f_equal. apply Ceq; cbn; ring.
  - rewrite RtoC_mult, <- X. f_equal; [|f_equal; apply Ceq; cbn; ring]. apply Ceq; unfold Cdiv, Cinv; cbn; field; exact Hb.
Qed.

(** valid arguments for which the computation divides by zero: bound states 2i and i, norming constants 1 and 1/2, a sample at t = 0 *)
Theorem nsev_inverse_division_by_zero_refuted : exists bs nc q T,
  accepted 0 None None (length bs) (Some bs) (Some nc) 2 (Some q) (Some T) 1 inverse_default_opts /\ length nc = length bs /\ NoDup bs /\
  List.Forall (fun b : C => b <> RtoC 0) nc /\ length q = 2%nat /\
  fnft_nsev_inverse good_env 0 None None (length bs) (Some bs) (Some nc) 2 (Some q) (Some T) 1 (Some inverse_default_opts) = UB.
Proof.
  exists [I2; I1], [RtoC 1; RtoC (1 / 2)], [RtoC 0; RtoC 0], (0, 1)%R. set (q := [RtoC 0; RtoC 0]). set (nc := [RtoC 1; RtoC (1 / 2)]).
  assert (Nz : List.Forall (fun b : C => b <> RtoC 0) nc) by (repeat constructor; intros H; injection H as H; lra).
  split; [apply accepted_two|]. split; [reflexivity|]. split; [exact nodup_two|]. split; [exact Nz|]. split; [reflexivity|].
  destruct (run_shape good_env 0 None [I2; I1] nc 2 q (0, 1)%R 1 inverse_default_opts good_plenty (accepted_two _ _) eq_refl ltac:(discriminate) nodup_two ltac:(discriminate)) as (ds' & P & S & R).
  rewrite R. cbn [combine nc] in P. apply Permutation_length_2_inv in P.
  destruct P as [-> | ->].
  2:{ exfalso. specialize (S 0%nat 1%nat ltac:(cbn; lia)). cbn in S. lra. }
  match goal with |- bind ?m _ = _ => destruct m as [q'|] eqn:E; [exfalso|reflexivity] end.
  apply multi_soliton_partial in E. destruct E as ([G _] & _). specialize (G 0%nat ltac:(lia)).
  assert (T0 : time (0, 1)%R ((snd (0, 1) - fst (0, 1)) / INR (2 - 1)) 0 = 0%R) by (unfold time; cbn; lra). rewrite T0 in G.
  assert (Q : rho_den I2 I1 (rho_at (forward (0, 1)%R ((snd (0, 1) - fst (0, 1)) / INR (2 - 1)) 2 0) 0 (I2, RtoC 1)) (rho_at (forward (0, 1)%R ((snd (0, 1) - fst (0, 1)) / INR (2 - 1)) 2 0) 0 (I1, RtoC (1 / 2))) = 0).
  { assert (F : forward (0, 1)%R ((snd (0, 1) - fst (0, 1)) / INR (2 - 1)) 2 0 = true).
    { unfold forward, zc_point. cbn [seq find]. destruct (Rle_dec 0 _) as [_|N]; [reflexivity|]. exfalso. apply N. rewrite T0. lra. }
    rewrite F. unfold I1, I2. rewrite !rho_real by lra. cbv iota. fold I1 I2. rewrite den_imag.
    replace (exp (- (2 * 2 * 0))) with 1%R by (rewrite <- exp_0; f_equal; ring). replace (exp (- (2 * 1 * 0))) with 1%R by (rewrite <- exp_0; f_equal; ring).
    apply Ceq; cbn; field. }
  apply two_regular in G; [|cbn; intros X; injection X as X; lra|cbn; intros X; injection X as X; lra]. apply G. exact Q.
Qed.
(** ... and norming constants 1 and -1 for which it does not: the hypotheses of nsev_inverse_solitons hold *)
Example nsev_inverse_solitons_ex : exists bs nc q T x,
  accepted 0 None None (length bs) (Some bs) (Some nc) 2 (Some q) (Some T) 1 inverse_default_opts /\ length nc = length bs /\ length bs = 2%nat /\ NoDup bs /\
  List.Forall (fun b : C => b <> RtoC 0) nc /\
  fnft_nsev_inverse good_env 0 None None (length bs) (Some bs) (Some nc) 2 (Some q) (Some T) 1 (Some inverse_default_opts) = Ret x.
Proof.
  exists [I2; I1], [RtoC 1; RtoC (-1)], [RtoC 0; RtoC 0], (0, 1)%R. set (q := [RtoC 0; RtoC 0]). set (nc := [RtoC 1; RtoC (-1)]).
  assert (Nz : List.Forall (fun b : C => b <> RtoC 0) nc) by (repeat constructor; intros H; injection H as H; lra).
  destruct (nsev_inverse_solitons_total good_env 0 None [I2; I1] nc 2 q (0, 1)%R 1 inverse_default_opts good_plenty (accepted_two _ _) eq_refl ltac:(discriminate) nodup_two) as (x & Ex).
  - discriminate.
  - cbn. lia.
  - intros ds' P S. cbn [combine nc] in P. apply Permutation_length_2_inv in P. destruct P as [-> | ->].
    2:{ exfalso. specialize (S 0%nat 1%nat ltac:(cbn; lia)). cbn in S. lra. }
    split; [|intros _; repeat constructor; cbn; intros H; injection H as H; lra].
    intros n Hn. set (e := ((snd (0, 1) - fst (0, 1)) / INR (2 - 1))%R).
    assert (He : e = 1%R) by (unfold e; cbn; lra).
    apply two_regular; [cbn; intros H; injection H as H; lra|cbn; intros H; injection H as H; lra|].
    assert (Tn : time (0, 1)%R e n = INR n) by (unfold time; rewrite He; cbn; ring). rewrite Tn.
    assert (F : forward (0, 1)%R e 2 n = true).
    { unfold forward, zc_point. cbn [seq find]. destruct (Rle_dec 0 _) as [_|N]; [apply Nat.leb_le; lia|]. exfalso. apply N. unfold time. cbn. lra. }
    rewrite F. unfold I1, I2. cbn [fst]. rewrite !rho_real by lra. cbv iota. fold I1 I2. rewrite den_imag.
    set (y := exp (- (2 * 2 * INR n))). set (z := exp (- (2 * 1 * INR n))).
    assert (Ny : (3 * (1 * y * (1 * y)) - 1 - 4 * (1 * y * (-1 * z)) <> 0)%R).
    { assert (Q : (n = 0 \/ n = 1)%nat) by lia. destruct Q as [-> | ->].
      - unfold y, z. replace (- (2 * 2 * INR 0))%R with 0%R by (cbn; ring). replace (- (2 * 1 * INR 0))%R with 0%R by (cbn; ring). rewrite exp_0. lra.
      - assert (Py := exp_pos (- (2 * 2 * INR 1))). fold y in Py. assert (Pz := exp_pos (- (2 * 1 * INR 1))). fold z in Pz.
        assert (Hz : (z < 1 / 3)%R).
        { unfold z. cbn [INR]. replace (- (2 * 1 * 1))%R with (- (2))%R by ring. rewrite exp_Ropp. assert (L := exp_ineq1 2 ltac:(lra)).
          apply Rmult_lt_reg_r with (exp 2); [lra|]. rewrite Rinv_l by lra. lra. }
        assert (Hy : y = (z * z)%R) by (unfold y, z; rewrite <- exp_plus; f_equal; cbn; ring).
        assert (Hy2 : (y < 1 / 9)%R) by (rewrite Hy; nra).
        assert (y * y < 1 / 81)%R by nra. assert (y * z < 1 / 27)%R by nra. nra. }
    intros Q. apply (f_equal snd) in Q. cbn in Q. apply Ny.
    assert (Dn : (1 + 1 * y * (1 * y) <> 0)%R) by nra. apply Rmult_eq_reg_r with (/ (1 + 1 * y * (1 * y)))%R; [|now apply Rinv_neq_0_compat].
    unfold Rdiv in Q. lra.
  - exists x. split; [apply accepted_two|]. split; [reflexivity|]. split; [reflexivity|]. split; [exact nodup_two|]. split; [exact Nz|exact Ex].
Qed.
Example nsev_inverse_one_soliton_ex : accepted 0 None None 1 (Some [I1]) (Some [RtoC 3]) 4 (Some (repeat (RtoC 0) 4)) (Some (-1, 1)%R) 1 inverse_default_opts /\
  plenty good_env /\ i_meth inverse_default_opts <> IM_SEED /\ i_ds inverse_default_opts <> ID_RESIDUES.
Proof. split; [apply accepted_one; cbn; lra|]. split; [exact good_plenty|]. split; discriminate. Qed.

(** the test for multiple bound states only looks at neighbours: 1+i, 2+i, 1+i pass it *)
Theorem nsev_inverse_double_bound_state_refuted : exists bs : list C, ~ NoDup bs /\ exists bs' nc', sort_bs 3 (bs, repeat (RtoC 1) 3) = Ret (bs', nc') /\ has_double 3 bs' = Ret false.
Proof.
  set (a := (1%R, 1%R) : C). set (b := (2%R, 1%R) : C). exists [a; b; a]. split.
  { intros N. apply (proj1 (NoDup_nth _ (RtoC 0))) with (i := 0%nat) (j := 2%nat) in N; [lia|cbn; lia|cbn; lia|reflexivity]. }
  exists [a; b; a], (repeat (RtoC 1) 3). split.
  - unfold sort_bs. cbn [for_ Nat.sub plus Nat.add]. unfold sort_step. cbn [aget bind repeat]. destruct (Rlt_dec (snd a) (snd b)) as [H|_]; [cbn in H; lra|]. cbn [bind].
    unfold aget; cbn [nth_error bind]; repeat (match goal with |- context [Rlt_dec ?x ?y] => destruct (Rlt_dec x y) as [H|_]; [cbn in H; lra|]; cbn [bind]; unfold aget; cbn [nth_error bind] end). reflexivity.
  - unfold has_double. cbn [for_ Nat.sub Nat.add aget bind]. unfold ceq. destruct (Ceq_dec b a) as [H|_]; [unfold a, b in H; injection H as H; lra|]. cbn [bind].
    unfold aget; cbn [nth_error bind]; repeat (match goal with |- context [Ceq_dec ?x ?y] => destruct (Ceq_dec x y) as [H|_]; [unfold a, b in H; injection H as H; lra|]; cbn [bind]; unfold aget; cbn [nth_error bind] end). reflexivity.
Qed.
(** the grid: M = 8, D = 4 *)
Example inverse_XI_grid_ex : nse_to_akns N_2SPLIT2A <> None /\ nse_degree N_2SPLIT2A = 1%nat /\ nse_upsampling_factor N_2SPLIT2A = 1%nat /\
  nse_degree N_2SPLIT2_MODAL = 1%nat /\ nse_upsampling_factor N_2SPLIT2_MODAL = 1%nat.
Proof. repeat split; discriminate. Qed.

Print Assumptions nsev_inverse_solitons.
Print Assumptions nsev_inverse_solitons_residues.
Print Assumptions nsev_inverse_one_soliton.
Print Assumptions nsev_inverse_rejects.
Print Assumptions nft_a_unique.
Print Assumptions norming_constant_unique.
Print Assumptions inverse_XI_grid.
Print Assumptions precompensate_ok.
Print Assumptions nsev_inverse_division_by_zero_refuted.
