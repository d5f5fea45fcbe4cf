(** * C95: a concrete call *)
From Coq Require Import Reals Lra Lia List ZArith QArith Qreals.
From Coquelicot Require Import Coquelicot.
From Verif Require Import Base Loop Mem Fields ErrModel CExp CField DiscTables DiscModel PolySpec FscatterSpec FscatterProps ScatterRun ScatterProps NsevSpec NsevModel NsevProps NsevSafe NftSpec NsevFast NsevLib NsevCsEx NsepModel NsepSpec.
From Verif Require Import NsepFloq NsepGrid NsepGridTop.
Import ListNotations.
Local Close Scope Q_scope.
Local Open Scope C_scope.
(** a root finder that tries the points 1 and -1 *)
Definition G11 (s deg : nat) (p : list C) (K : nat) (PHI : xreal * xreal) (roots : list C) : out (Z * nat * list C) :=
  if Rle_dec (Cmod (peval (K := CF) p (RtoC 1))) 0 then Ret (SUCCESS, 1%nat, RtoC 1 :: skipn 1 roots) else
  if Rle_dec (Cmod (peval (K := CF) p (RtoC (-1)))) 0 then Ret (SUCCESS, 1%nat, RtoC (-1) :: skipn 1 roots) else
  Ret (SUCCESS, 0%nat, roots).
Definition G11' (s deg : nat) (p : list C) (K : nat) (PHI : xreal * xreal) (roots : list C) : out (Z * nat * list C) :=
  match K with O => Ret (SUCCESS, 0%nat, roots) | _ => G11 s deg p K PHI roots end.
Lemma G11_ok : finder_ok G11' 0 /\ finder_total G11'.
Proof.
  split; [constructor|].
  - intros s deg p K PHI roots H1 H2 H3. destruct K as [|K]; [eexists _, _, _; split; [reflexivity|]; split; [codes|]; auto|]. unfold G11', G11.
    assert (Lr : forall x : C, length (x :: skipn 1 roots) = S K) by (intros x; cbn [length]; rewrite skipn_length; lia).
    destruct (Rle_dec _ 0); [|destruct (Rle_dec _ 0)]; (eexists _, _, _; split; [reflexivity|]; split; [codes|]; split; [auto|intros _; lia]).
  - intros s deg p K PHI roots K' v H1 H2 H i Hi. destruct K as [|K]; [cbn in H; injection H as <- _; lia|]. unfold G11', G11 in H.
    destruct (Rle_dec _ 0) as [H0|_]; [|destruct (Rle_dec _ 0) as [H0|_]]; injection H as <- <-; try lia; (assert (i = 0%nat) as -> by lia); cbn [nth]; (split; [intros E; apply RtoC_inj in E; lra|exact H0]).
  - intros s deg p K PHI roots c K' v H1 H2 H. destruct K as [|K]; [injection H as <- <- _; split; [reflexivity|lia]|]. unfold G11', G11 in H.
    destruct (Rle_dec _ 0) as [H0|_]; [|destruct (Rle_dec _ 0) as [H0|_]]; injection H as <- <- _; (split; [reflexivity|lia]).
Qed.
Definition po : popts := {| p_loc := PL_GRIDSEARCH; p_filt := PF_NONE; p_box := {| x0 := Inf false; x1 := Inf true; x2 := Inf false; x3 := Inf true |};
  p_max_evals := 50; p_disc := N_2SPLIT2_MODAL; p_norm := false; p_floquet := (-1, 1)%R; p_points := 2; p_Dsub := 0; p_tol := Fin (-1) |}.
Definition q5 : list C := [RtoC (/ 5); Ci * RtoC (/ 5)].
Definition w5 : pouts := {| w_K := Some 3%nat; w_main := Some (repeat (RtoC 7) 3); w_M := Some 2%nat; w_aux := Some (repeat (RtoC 7) 2) |}.
Lemma negative_modal (h : R) (q : C) : RtoC h * q * (RtoC h * (- Cconj q)) <> 1.
Proof.
  intros E. apply (f_equal fst) in E. destruct q as [x y]. cbn in E.
  assert (E2 : (- ((h * x) * (h * x) + (h * y) * (h * y)) = 1)%R) by (rewrite <- E; ring). pose proof (Rle_0_sqr (h * x)). pose proof (Rle_0_sqr (h * y)). unfold Rsqr in *. lra.
Qed.
Theorem nsep_gridsearch_call : exists w' user' dflt',
  fnft_nsep (plib_env L7 G11') 2 (Some q5) (Some (0, 1)%R) (1 / 10)%R false 1 (Some po) nsep_default_opts w5 = Ret (SUCCESS, w', user', dflt') /\
  let shift := (- (1 / 10) / (2 * (1 - 0)))%R in
  let M := scattering A_2SPLIT2_MODAL (weights A_2SPLIT2_MODAL) ((1 - 0) / INR 2) (nthC (demodulated 2 (0, 1)%R shift q5)) (nthC (map (nse_r_from_q 1) (demodulated 2 (0, 1)%R shift q5))) 2 in
    (forall l i, w_main w' = Some l -> (i < pcap w')%nat -> let lam := nth i l 0 - RtoC shift in a11 (M lam) + a22 (M lam) = RtoC 2 \/ a11 (M lam) + a22 (M lam) = RtoC (-2)) /\
    (forall l i, w_aux w' = Some l -> (i < acap w')%nat -> a12 (M (nth i l 0 - RtoC shift)) = 0).
Proof.
  destruct G11_ok as [GO GT].
  destruct (nsep_gridsearch_solves_floquet L7 L7_ok G11' 0 GO 2 q5 (0, 1)%R (1 / 10)%R 1 (Some po) nsep_default_opts w5 A_2SPLIT2_MODAL) as (p & Ep & Hpl & H); try reflexivity.
  { constructor; try discriminate.
    - constructor; cbn; auto; try discriminate; [exists 1%nat; split; [lia|reflexivity]|]. exists 0%R, 1%R. split; [reflexivity|lra].
    - intros l E. injection E as <-. reflexivity.
    - constructor; intros l E; injection E as <-; cbn; lia. }
  { left. reflexivity. }
  { right. reflexivity. }
  { cbn. lia. }
  destruct (Hpl eq_refl) as [Eq Er]. cbv zeta in H. rewrite Eq, Er in H. cbn [akns_upsampling_factor Nat.mul Nat.add] in H.
  set (qd := demodulated 2 (0, 1)%R (- (1 / 10) / (2 * (snd (0, 1)%R - fst (0, 1)%R))) q5) in *.
  destruct H as [H1 H2].
  - intros j Hj. cbn [fast_exact]. unfold nthC. rewrite (nth_indep (map (nse_r_from_q 1) qd) (RtoC 0) (nse_r_from_q 1 0)) by (rewrite map_length; unfold qd, demodulated; rewrite map_length, seq_length; lia).
    rewrite map_nth. unfold nse_r_from_q. cbn [Z.eqb Pos.eqb]. apply negative_modal.
  - intros _ E. discriminate E.
  - destruct (H2 GT eq_refl) as (w' & user' & dflt' & E). exists w', user', dflt'. split; [exact E|].
    destruct (H1 w' user' dflt' E) as (W & _ & HM & HA). cbn [fst snd] in *. fold qd. cbv zeta. split.
    + intros l i El Hi. destruct (HM l El i Hi) as (s & Hs & Hle). rewrite Rmult_0_l in Hle.
      assert (Z0 : a11 (scattering A_2SPLIT2_MODAL (weights A_2SPLIT2_MODAL) ((1 - 0) / INR 2) (nthC qd) (nthC (map (nse_r_from_q 1) qd)) 2 (nth i l 0 - RtoC (- (1 / 10) / (2 * (1 - 0))))) +
                   a22 (scattering A_2SPLIT2_MODAL (weights A_2SPLIT2_MODAL) ((1 - 0) / INR 2) (nthC qd) (nthC (map (nse_r_from_q 1) qd)) 2 (nth i l 0 - RtoC (- (1 / 10) / (2 * (1 - 0))))) - RtoC s = 0).
      { apply Cmod_eq_0. apply Rle_antisym; [|apply Cmod_ge_0]. eapply Rmult_le_reg_r; [apply exp_pos|]. rewrite Rmult_0_l. exact Hle. }
      destruct Hs as [-> | ->]; [left|right]; (match type of Z0 with ?x - ?y = _ => transitivity (x - y + y); [ring|rewrite Z0; ring] end).
    + intros l i El Hi. specialize (HA l El i Hi). unfold aux_point in HA. rewrite Rmult_0_l in HA.
      apply Cmod_eq_0. apply Rle_antisym; [|apply Cmod_ge_0]. eapply Rmult_le_reg_r; [apply exp_pos|]. rewrite Rmult_0_l. exact HA.
Qed.
