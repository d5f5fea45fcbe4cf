(** * Refinement proofs for akns_scatter_bound_states: steps and loops *)
From Coq Require Import Reals Lra Lia List ZArith.
From Coquelicot Require Import Coquelicot.
From Verif Require Import Base Loop Mem Fields ErrModel CExp CField CDeriv CMean MiscNumModel MiscNumProps MiscMetricProps MiscSincBound
  DiscTables DiscModel DiscProps FscatterSpec FscatterProof FscatterModel FscatterProps ScatterSpec MatExp ScatterStep ScatterModel ScatterProof ScatterRun ScatterLoop BoundModel BoundSpec.
Import ListNotations.
Local Open Scope C_scope.

(** columns *)
Definition c2 (X : mat2) : list C := [a11 X; a21 X].
Definition r2 (X : mat2) : list C := [a12 X; a22 X].
Definition c4 (X X' : mat2) : list C := [a11 X; a21 X; a11 X'; a21 X'].
Ltac mmtac := cbv -[Cplus Cmult RtoC IZR]; f_equal; leq; cring.
Lemma mm221 M X : mm 2 2 1 (l4 M) (c2 X) = Ret (c2 (mmul M X)).
Proof. destruct M as [x1 x2 x3 x4], X as [y1 y2 y3 y4]. unfold l4, c2. cbn [a11 a12 a21 a22 mmul]. mmtac. Qed.
Lemma mm221r M X : mm 2 2 1 (l4 M) (r2 X) = Ret (r2 (mmul M X)).
Proof. destruct M as [x1 x2 x3 x4], X as [y1 y2 y3 y4]. unfold l4, r2. cbn [a11 a12 a21 a22 mmul]. mmtac. Qed.
Lemma mm441 M M' X X' : mm 4 4 1 (d16 M M') (c4 X X') = Ret (c4 (mmul M X) (madd (mmul M' X) (mmul M X'))).
Proof.
  destruct M as [x1 x2 x3 x4], X as [y1 y2 y3 y4], M' as [u1 u2 u3 u4], X' as [v1 v2 v3 v4]. unfold d16, c4. cbn [a11 a12 a21 a22 mmul madd]. mmtac.
Qed.
Lemma half4 M X X' : (x <- rd (c4 X X') 0 2 ;; y <- rd (c4 X X') 2 2 ;; x <- mm 2 2 1 (l4 M) x ;; y <- mm 2 2 1 (l4 M) y ;; Ret (x ++ y))
  = Ret (c4 (mmul M X) (mmul M X')).
Proof.
  change (rd (c4 X X') 0 2) with (Ret (c2 X)). cbn [bind]. change (rd (c4 X X') 2 2) with (Ret (c2 X')). cbn [bind].
  rewrite mm221. cbn [bind]. rewrite mm221. reflexivity.
Qed.
Lemma normv_c4 norm X X' : exists a, normv norm 4 (c4 X X') = Ret (a, c4 (mscal (p2 (- a)) X) (mscal (p2 (- a)) X')) /\ (norm = false -> a = 0%Z).
Proof.
  destruct norm; unfold normv.
  - destruct (norm_map (c4 X X') 4 eq_refl) as (a & -> & _). exists a. split; [reflexivity|discriminate].
  - exists 0%Z. split; [|reflexivity]. change (- 0)%Z with 0%Z. rewrite p2_0, !mscal_one. reflexivity.
Qed.
Lemma normv_r2 norm X : exists a, normv norm 2 (r2 X) = Ret (a, r2 (mscal (p2 (- a)) X)) /\ (norm = false -> a = 0%Z).
Proof.
  destruct norm; unfold normv.
  - destruct (norm_map (r2 X) 2 eq_refl) as (a & -> & _). exists a. split; [reflexivity|discriminate].
  - exists 0%Z. split; [|reflexivity]. change (- 0)%Z with 0%Z. rewrite p2_0, !mscal_one. reflexivity.
Qed.

(** products *)
Lemma descending_add a b V : descending (a + b) V = mmul (descending b (fun i => V (a + i)%nat)) (descending a V).
Proof.
  induction b as [|b IH]; cbn [descending]; [now rewrite Nat.add_0_r, mmul_one_l|].
  rewrite Nat.add_succ_r. cbn [descending]. rewrite IH. apply mmul_assoc.
Qed.
Lemma propagated_add a b V V' : propagated (a + b) V V' =
  madd (mmul (descending b (fun i => V (a + i)%nat)) (propagated a V V')) (mmul (propagated b (fun i => V (a + i)%nat) (fun i => V' (a + i)%nat)) (descending a V)).
Proof.
  induction b as [|b IH]; cbn [descending propagated]; [rewrite Nat.add_0_r; mring|].
  rewrite Nat.add_succ_r. cbn [propagated]. rewrite IH, descending_add. mring.
Qed.
Lemma rising_add a b n V : rising (a + b) n V = mmul (rising a n V) (rising b (n + a) V).
Proof.
  revert n. induction a as [|a IH]; intros n; [cbn [rising Nat.add]; now rewrite Nat.add_0_r, mmul_one_l|].
  change (S a + b)%nat with (S (a + b)). cbn [rising]. rewrite IH, <- mmul_assoc. do 3 f_equal. lia.
Qed.

Lemma bo_cases d : is_slow d -> stepper_of d = Some S_BO ->
  (forall w h qf rf i z, step_core d w h qf rf i z = X_BO (nth (i mod length w) w (RtoC 0) * h) z (qf i) (rf i)) /\
  (forall h qf rf i, step_outer d h qf rf i = None) /\ substeps d = akns_upsampling_factor d.
Proof. intros [->|[->|[->|[->|[->|[->| ->]]]]]] Es; cbn [stepper_of] in Es; try discriminate; repeat split; reflexivity. Qed.
Lemma es4_case d : is_slow d -> stepper_of d = Some S_ES4 -> d = A_ES4.
Proof. intros [->|[->|[->|[->|[->|[->| ->]]]]]] Es; cbn [stepper_of] in Es; congruence. Qed.
Lemma tes4_case d : is_slow d -> stepper_of d = Some S_TES4 -> d = A_TES4.
Proof. intros [->|[->|[->|[->|[->|[->| ->]]]]]] Es; cbn [stepper_of] in Es; congruence. Qed.
Section Steps.
Variables (D : nat) (q r : list C) (eps_t : R) (d : akns_disc) (pr : prep) (Dg : nat) (norm : bool) (l : C).
Hypothesis Hq : (D <= length q)%nat.
Hypothesis Hr : (D <= length r)%nat.
Hypothesis Hs : is_slow d.
Let ups := akns_upsampling_factor d.
Hypothesis HD : D = (Dg * ups)%nat.
Hypothesis Hp : prepared D q r eps_t d pr.
Let w := weights d.
Let h := RtoC eps_t.
Let qf := nthC q.
Let rf := nthC r.
Let sub := substeps d.

Definition fwd_fact (V V' : nat -> mat2) (ng : nat) : Prop := forall X X', exists a,
  let B := descending sub (fun i => V (ng * sub + i)%nat) in let B' := propagated sub (fun i => V (ng * sub + i)%nat) (fun i => V' (ng * sub + i)%nat) in
  fwd q r ups eps_t pr norm l ng (c4 X X') = Ret (a, c4 (mscal (p2 (- a)) (mmul B X)) (mscal (p2 (- a)) (madd (mmul B' X) (mmul B X')))) /\
  (norm = false -> a = 0%Z).
Definition bwd_fact (Vb : nat -> mat2) (ng : nat) : Prop := forall X, exists a,
  bwd D q r ups Dg eps_t pr norm l ng (r2 X) = Ret (a, r2 (mscal (p2 (- a)) (mmul (rising sub (ng * sub) Vb) X))) /\ (norm = false -> a = 0%Z).
Definition all_core : Prop := forall j, (j < Dg * sub)%nat -> core_ok d w h qf rf j l.

Lemma desc1 (V : nat -> mat2) : descending 1 V = V 0%nat. Proof. cbn [descending]. apply mmul_one_r. Qed.
Lemma prop1 (V V' : nat -> mat2) : propagated 1 V V' = V' 0%nat. Proof. cbn [propagated descending]. mring. Qed.
Lemma rise1 n (V : nat -> mat2) : rising 1 n V = V n. Proof. cbn [rising]. apply mmul_one_r. Qed.

Lemma steps_exist : all_core -> exists V V' Vb,
  (forall j, (j < Dg * sub)%nat -> approx_dstep d w h qf rf j l (V j) (V' j) /\ approx_step d w h qf rf j l (V j) /\ approx_back d w h qf rf j l (Vb j)) /\
  (forall ng, (ng < Dg)%nat -> fwd_fact V V' ng /\ bwd_fact Vb ng).
Proof.
  intros HC. unfold prepared in Hp. destruct (stepper_of d) as [s|] eqn:Es; [|contradiction].
  destruct s, pr as [es|t1 t2|t1 t2 t3 t4] eqn:Epr; try contradiction.
  - (* BO, CF *)
    destruct (weights_length D q r Hq Hr d Hs Es) as [Lw L0]. fold w ups in Lw, L0.
    destruct (bo_cases d Hs Es) as (EC0 & EO0 & ES). fold sub ups in ES.
    assert (EC : forall i z, step_core d w h qf rf i z = X_BO (nth (i mod length w) w (RtoC 0) * h) z (qf i) (rf i)) by (intros; apply EC0).
    assert (EO : forall i, step_outer d h qf rf i = None) by (intros; apply EO0).
    assert (HL : length w = ups) by exact Lw. assert (H0 : (0 < ups)%nat) by lia.
    set (hh := fun j => nth (j mod length w) w (RtoC 0) * h).
    set (V := fun j => cexp_at (kBO (qf j) (rf j) l (hh j)) (X_BO (hh j) l (qf j) (rf j))).
    set (V' := fun j => dBO (qf j) (rf j) l (hh j)).
    set (Vb := fun j => cexp_at (kBO (qf j) (rf j) l (- hh j)) (X_BO (- hh j) l (qf j) (rf j))).
    assert (EH : forall ng c, (c < ups)%nat -> aget es c = Ret (hh (ng * ups + c)%nat)).
    { intros ng c Hc. rewrite Hp, aget_nthC by (rewrite map_length; fold w; lia). unfold nthC, hh. fold w.
      rewrite (nth_indep (map (fun x => x * RtoC eps_t) w) _ (RtoC 0 * RtoC eps_t)) by (rewrite map_length; lia).
      rewrite (map_nth (fun x => x * RtoC eps_t)). fold h. do 3 f_equal. rewrite HL.
      rewrite Nat.add_comm, Nat.mod_add by lia. symmetry. now apply Nat.mod_small. }
    assert (HK : forall j, (j < D)%nat -> (1 / 100000000 <= Cmod (kBO (qf j) (rf j) l (hh j)))%R).
    { intros j Hj. assert (Hj' : (j < Dg * sub)%nat) by (rewrite ES; lia). specialize (HC j Hj'). unfold core_ok in HC. rewrite EC in HC. exact (det_root_bound _ _ (kBO_sq (qf j) (rf j) l (hh j)) HC). }
    exists V, V', Vb. split.
    + intros j Hj. rewrite ES, <- HD in Hj. split; [|split].
      * unfold approx_dstep. rewrite EO, EC. exists (V j), (V' j), mone, mone. split; [apply approx_cexp, kBO_sq|]. split; [|split; reflexivity].
        destruct (dBO_approx (qf j) (rf j) l (hh j) (HK j Hj)) as (E & HE & HE2). exists E. split.
        -- refine (Mderive_ext _ _ _ _ _ HE). intros t. now rewrite EC.
        -- rewrite EC. split; [apply HE2|]. intros dl Hdl. apply HE2. refine (Cderive_ext _ _ _ _ _ Hdl). intros t. now rewrite EC.
      * unfold approx_step. rewrite EO, EC. exists (V j), mone, mone. split; [apply approx_cexp, kBO_sq|reflexivity].
      * unfold approx_back. rewrite EO, EC. exists (Vb j), mone, mone. split; [|reflexivity].
        replace (mopp (X_BO (nth (j mod length w) w (RtoC 0) * h) l (qf j) (rf j))) with (X_BO (- hh j) l (qf j) (rf j)) by (unfold X_BO, mopp, hh; mring).
        apply approx_cexp, kBO_sq.
    + intros ng Hng. assert (Hn : (ng * ups + ups <= D)%nat) by nia. split.
      * intros X X'. rewrite ES. cbv zeta. unfold fwd. rewrite Epr.
        set (Vn := fun i => V (ng * ups + i)%nat). set (Vn' := fun i => V' (ng * ups + i)%nat).
        pose (P := fun (k : nat) (v : list C) => v = c4 (mmul (descending k Vn) X) (madd (mmul (propagated k Vn Vn') X) (mmul (descending k Vn) X'))).
        match goal with |- context [for_ ?n ?lo ?b ?s] => destruct (for_inv P b n lo s) as (v & E & Hv) end.
        { unfold P. cbn [descending propagated]. rewrite !mmul_one_l. f_equal. mring. }
        { intros c v Hc Hv. unfold P in Hv. rewrite Hv. rewrite !aget_nthC by lia. cbn [bind]. rewrite (EH ng) by lia. cbn [bind]. fold qf rf.
          rewrite U_BO_deriv by (apply neq0_of_le, HK; lia). cbn [bind]. fold (V (ng * ups + c)%nat) (V' (ng * ups + c)%nat).
          rewrite mm441. eexists. split; [reflexivity|]. unfold P. cbn [descending propagated]. fold (Vn c) (Vn' c). f_equal; mring. }
        rewrite E. cbn [bind]. change (0 + ups)%nat with ups in Hv. unfold P in Hv. rewrite Hv. destruct (normv_c4 norm (mmul (descending ups Vn) X) (madd (mmul (propagated ups Vn Vn') X) (mmul (descending ups Vn) X'))) as (a & -> & Na).
        exists a. split; [reflexivity|exact Na].
      * intros X. rewrite ES. unfold bwd. rewrite Epr.
        pose (P := fun (k : nat) (v : list C) => v = r2 (mmul (rising k (ng * ups + (ups - k)) Vb) X)).
        match goal with |- context [for_ ?n ?lo ?b ?s] => destruct (for_inv P b n lo s) as (v & E & Hv) end.
        { unfold P. cbn [rising]. now rewrite mmul_one_l. }
        { intros k v Hk Hv. unfold P in Hv. rewrite Hv. rewrite !aget_nthC by lia. cbn [bind]. rewrite (EH ng) by lia. cbn [bind]. fold qf rf.
          rewrite U_BO_value. cbn [bind]. fold (Vb (ng * ups + (ups - 1 - k))%nat). rewrite mm221r. eexists. split; [reflexivity|]. unfold P. cbn [rising].
          replace (ng * ups + (ups - S k))%nat with (ng * ups + (ups - 1 - k))%nat by lia.
          replace (S (ng * ups + (ups - 1 - k)))%nat with (ng * ups + (ups - k))%nat by lia. now rewrite mmul_assoc. }
        rewrite E. cbn [bind]. change (0 + ups)%nat with ups in Hv. unfold P in Hv. rewrite Hv. rewrite Nat.sub_diag, Nat.add_0_r.
        destruct (normv_r2 norm (mmul (rising ups (ng * ups) Vb) X)) as (a & -> & Na). exists a. split; [reflexivity|exact Na].
  - (* ES4 *)
    pose proof (es4_case d Hs Es) as Ed.
    assert (EU : ups = 3%nat) by (unfold ups; now rewrite Ed). assert (ES : sub = 1%nat) by (unfold sub; now rewrite Ed).
    destruct Hp as [A1 A2]. assert (HD3 : (D / 3 = Dg)%nat) by (rewrite HD, EU; apply Nat.div_mul; lia).
    set (q0 := fun i => qf (3 * i)%nat). set (q1 := fun i => qf (3 * i + 1)%nat). set (q2 := fun i => qf (3 * i + 2)%nat).
    set (r0 := fun i => rf (3 * i)%nat). set (r1 := fun i => rf (3 * i + 1)%nat). set (r2' := fun i => rf (3 * i + 2)%nat).
    set (t := fun i => es4_tmp1 eps_t (q0 i) (q1 i) (q2 i) (r0 i) (r1 i) (r2' i)).
    set (t' := fun i => es4_tmp2 eps_t (q0 i) (q1 i) (q2 i) (r0 i) (r1 i) (r2' i)).
    set (b1 := fun i => nth 0 (t i) (RtoC 0) + RtoC (eps_t * eps_t * eps_t) * (l * Ci * (q1 i - r1 i)) / 12).
    set (b2 := fun i => nth 1 (t i) (RtoC 0) - RtoC (eps_t * eps_t * eps_t) * l * (q1 i + r1 i) / 12).
    set (b3 := fun i => - RtoC eps_t * Ci * l + nth 2 (t i) (RtoC 0)).
    set (e1 := fun i => - nth 0 (t i) (RtoC 0) - RtoC (eps_t * eps_t * eps_t) * (l * Ci * (q1 i - r1 i)) / 12).
    set (e2 := fun i => - nth 1 (t i) (RtoC 0) + RtoC (eps_t * eps_t * eps_t) * l * (q1 i + r1 i) / 12).
    set (e3 := fun i => RtoC eps_t * Ci * l - nth 2 (t i) (RtoC 0)).
    assert (EX : forall i, pauli (b1 i) (b2 i) (b3 i) = X_ES4 h l (q0 i) (q1 i) (q2 i) (r0 i) (r1 i) (r2' i)) by (intros i; apply pauli_es4).
    assert (EXb : forall i, pauli (e1 i) (e2 i) (e3 i) = mopp (X_ES4 h l (q0 i) (q1 i) (q2 i) (r0 i) (r1 i) (r2' i))) by (intros i; apply pauli_es4_back).
    assert (EA : forall i, (i < Dg)%nat -> es4_args q r eps_t t1 l (3 * i) = Ret (b1 i, b2 i, b3 i)).
    { intros i Hi. unfold es4_args. rewrite !aget_nthC by lia. cbn [bind].
      replace (aget t1 (3 * i)) with (aget t1 (3 * i + 0)) by (f_equal; lia).
      rewrite !(arr_get D q r eps_t Hq Hr _ _ _ A1) by lia. cbn [bind]. reflexivity. }
    assert (EAb : forall i, (i < Dg)%nat -> es4_args_back q r eps_t t1 l (3 * i) = Ret (e1 i, e2 i, e3 i)).
    { intros i Hi. unfold es4_args_back. rewrite !aget_nthC by lia. cbn [bind].
      replace (aget t1 (3 * i)) with (aget t1 (3 * i + 0)) by (f_equal; lia).
      rewrite !(arr_get D q r eps_t Hq Hr _ _ _ A1) by lia. cbn [bind]. reflexivity. }
    assert (HK : forall j, (j < Dg)%nat -> (1 / 100000000 <= Cmod (kES (b1 j) (b2 j) (b3 j)))%R).
    { intros j Hj. assert (Hj' : (j < Dg * sub)%nat) by (rewrite ES; lia). specialize (HC j Hj'). unfold core_ok in HC. rewrite Ed in HC. cbn [step_core] in HC.
      fold (q0 j) (q1 j) (q2 j) (r0 j) (r1 j) (r2' j) in HC. rewrite <- EX in HC. exact (det_root_bound _ _ (kES_sq _ _ _) HC). }
    exists (fun i => cexp_at (kES (b1 i) (b2 i) (b3 i)) (pauli (b1 i) (b2 i) (b3 i))),
      (fun i => dES (b1 i) (b2 i) (b3 i) (nth 0 (t' i) (RtoC 0)) (nth 1 (t' i) (RtoC 0)) (nth 2 (t' i) (RtoC 0))),
      (fun i => cexp_at (kES (e1 i) (e2 i) (e3 i)) (pauli (e1 i) (e2 i) (e3 i))). split.
    + intros j Hj. rewrite ES, Nat.mul_1_r in Hj. rewrite Ed. split; [|split].
      * unfold approx_dstep. cbn [step_outer step_core]. do 2 eexists. exists mone, mone. split; [|split; [|split; reflexivity]].
        -- fold (q0 j) (q1 j) (q2 j) (r0 j) (r1 j) (r2' j). rewrite <- EX. apply approx_cexp, kES_sq.
        -- apply dES_approx; [symmetry; apply EX|apply pauli_es4_deriv|exact (HK j Hj)].
      * unfold approx_step. cbn [step_outer step_core]. eexists. exists mone, mone. split; [|reflexivity].
        fold (q0 j) (q1 j) (q2 j) (r0 j) (r1 j) (r2' j). rewrite <- EX. apply approx_cexp, kES_sq.
      * unfold approx_back. cbn [step_outer step_core]. eexists. exists mone, mone. split; [|reflexivity].
        fold (q0 j) (q1 j) (q2 j) (r0 j) (r1 j) (r2' j). rewrite <- EXb. apply approx_cexp, kES_sq.
    + intros ng Hng. split.
      * intros X X'. rewrite ES, desc1, prop1, Nat.mul_1_r, Nat.add_0_r. cbv zeta. unfold fwd. rewrite Epr. rewrite (EA ng Hng). cbn [bind].
        replace (aget t2 (3 * ng)) with (aget t2 (3 * ng + 0)) by (f_equal; lia).
        rewrite !(arr_get D q r eps_t Hq Hr _ _ _ A2) by lia. cbn [bind]. fold qf rf. fold (q0 ng) (q1 ng) (q2 ng) (r0 ng) (r1 ng) (r2' ng). fold (t' ng).
        rewrite U_ES4_deriv by (apply neq0_of_le, (HK ng Hng)). cbn [bind]. rewrite mm441. cbn [bind]. apply normv_c4.
      * intros X. rewrite ES, rise1, Nat.mul_1_r. unfold bwd. rewrite Epr. replace (D - 3 - 3 * (Dg - 1 - ng))%nat with (3 * ng)%nat by lia.
        rewrite (EAb ng Hng). cbn [bind]. rewrite U_ES4_value. cbn [bind]. rewrite mm221r. cbn [bind]. apply normv_r2.
  - (* TES4 *)
    pose proof (tes4_case d Hs Es) as Ed.
    assert (EU : ups = 3%nat) by (unfold ups; now rewrite Ed). assert (ES : sub = 1%nat) by (unfold sub; now rewrite Ed).
    destruct Hp as (A1 & A2 & A3 & A4). assert (HD3 : (D / 3 = Dg)%nat) by (rewrite HD, EU; apply Nat.div_mul; lia).
    set (q0 := fun i => qf (3 * i)%nat). set (q1 := fun i => qf (3 * i + 1)%nat). set (q2 := fun i => qf (3 * i + 2)%nat).
    set (r0 := fun i => rf (3 * i)%nat). set (r1 := fun i => rf (3 * i + 1)%nat). set (r2' := fun i => rf (3 * i + 2)%nat).
    set (u1 := fun i => tes4_tmp1 eps_t (q0 i) (q1 i) (q2 i) (r0 i) (r1 i) (r2' i)). set (u2 := fun i => tes4_tmp2 eps_t (q0 i) (q1 i) (q2 i) (r0 i) (r1 i) (r2' i)).
    set (u3 := fun i => tes4_tmp3 eps_t (q0 i) (q1 i) (q2 i) (r0 i) (r1 i) (r2' i)). set (u4 := fun i => tes4_tmp4 eps_t (q0 i) (q1 i) (q2 i) (r0 i) (r1 i) (r2' i)).
    pose (x0 := fun t : list C => nth 0 t (RtoC 0)). pose (x1 := fun t : list C => nth 1 t (RtoC 0)).
    pose (E := fun t : list C => cexp_at (kES (x0 t) (x1 t) (RtoC 0)) (pauli (x0 t) (x1 t) (RtoC 0))).
    assert (AE : forall t, approx_exp (pauli (x0 t) (x1 t) (RtoC 0)) (E t)) by (intros t; apply approx_cexp, kES_sq).
    assert (PE : forall i, pauli (x0 (u1 i)) (x1 (u1 i)) (RtoC 0) = X_TES4 (- (1)) h (q1 i) (q2 i) (r1 i) (r2' i) /\
       pauli (x0 (u2 i)) (x1 (u2 i)) (RtoC 0) = X_TES4 1 h (q1 i) (q2 i) (r1 i) (r2' i) /\
       pauli (x0 (u3 i)) (x1 (u3 i)) (RtoC 0) = mopp (X_TES4 1 h (q1 i) (q2 i) (r1 i) (r2' i)) /\
       pauli (x0 (u4 i)) (x1 (u4 i)) (RtoC 0) = mopp (X_TES4 (- (1)) h (q1 i) (q2 i) (r1 i) (r2' i))) by (intros i; exact (pauli_tes4 eps_t (q0 i) (q1 i) (q2 i) (r0 i) (r1 i) (r2' i))).
    assert (G : forall f tt, arr D q r eps_t f 2 tt -> forall i, (i < Dg)%nat ->
       aget tt (3 * i) = Ret (x0 (f eps_t (q0 i) (q1 i) (q2 i) (r0 i) (r1 i) (r2' i))) /\ aget tt (3 * i + 1) = Ret (x1 (f eps_t (q0 i) (q1 i) (q2 i) (r0 i) (r1 i) (r2' i)))).
    { intros f tt A i Hi. split; [replace (3 * i)%nat with (3 * i + 0)%nat by lia|]; now rewrite (arr_get D q r eps_t Hq Hr _ _ _ A) by lia. }
    set (Vc := fun i => cexp_at (kBO (q0 i) (r0 i) l h) (X_BO h l (q0 i) (r0 i))). set (Vcb := fun i => cexp_at (kBO (q0 i) (r0 i) l (- h)) (X_BO (- h) l (q0 i) (r0 i))).
    set (Vc' := fun i => dBO (q0 i) (r0 i) l h).
    assert (HK : forall j, (j < Dg)%nat -> (1 / 100000000 <= Cmod (kBO (q0 j) (r0 j) l h))%R).
    { intros j Hj. assert (Hj' : (j < Dg * sub)%nat) by (rewrite ES; lia). specialize (HC j Hj'). unfold core_ok in HC. rewrite Ed in HC. cbn [step_core] in HC. exact (det_root_bound _ _ (kBO_sq _ _ _ _) HC). }
    exists (fun i => mmul (E (u2 i)) (mmul (Vc i) (E (u1 i)))), (fun i => mmul (E (u2 i)) (mmul (Vc' i) (E (u1 i)))), (fun i => mmul (E (u4 i)) (mmul (Vcb i) (E (u3 i)))). split.
    + intros j Hj. rewrite ES, Nat.mul_1_r in Hj. rewrite Ed. destruct (PE j) as (P1 & P2 & P3 & P4).
      assert (B1 := AE (u1 j)). assert (B2 := AE (u2 j)). assert (B3 := AE (u3 j)). assert (B4 := AE (u4 j)). rewrite P1 in B1. rewrite P2 in B2. rewrite P3 in B3. rewrite P4 in B4.
      split; [|split].
      * unfold approx_dstep. cbn [step_outer step_core]. exists (Vc j), (Vc' j), (E (u2 j)), (E (u1 j)). split; [apply approx_cexp, kBO_sq|].
        split; [exact (dBO_approx (q0 j) (r0 j) l h (HK j Hj))|]. split; [exact B2|]. split; [exact B1|]. split; reflexivity.
      * unfold approx_step. cbn [step_outer step_core]. exists (Vc j), (E (u2 j)), (E (u1 j)). split; [apply approx_cexp, kBO_sq|]. split; [exact B2|]. split; [exact B1|reflexivity].
      * unfold approx_back. cbn [step_outer step_core]. exists (Vcb j), (E (u3 j)), (E (u4 j)). split; [|split; [exact B3|split; [exact B4|reflexivity]]].
        replace (mopp (X_BO h l (qf (3 * j)%nat) (rf (3 * j)%nat))) with (X_BO (- h) l (qf (3 * j)%nat) (rf (3 * j)%nat)) by (unfold X_BO, mopp; mring). apply approx_cexp, kBO_sq.
    + intros ng Hng. destruct (G _ _ A1 ng Hng) as [G1 G1']. destruct (G _ _ A2 ng Hng) as [G2 G2']. destruct (G _ _ A3 ng Hng) as [G3 G3']. destruct (G _ _ A4 ng Hng) as [G4 G4'].
      fold (u1 ng) in G1, G1'. fold (u2 ng) in G2, G2'. fold (u3 ng) in G3, G3'. fold (u4 ng) in G4, G4'. split.
      * intros X X'. rewrite ES, desc1, prop1, Nat.mul_1_r, Nat.add_0_r. cbv zeta. unfold fwd. rewrite Epr. rewrite G1, G1', G2, G2'. cbn [bind]. rewrite U_ES4_value. cbn [bind]. fold (E (u1 ng)).
        rewrite half4. cbn [bind]. rewrite !aget_nthC by lia. cbn [bind]. rewrite U_BO_deriv by (apply neq0_of_le, (HK ng Hng)). cbn [bind].
        fold qf rf. fold (q0 ng) (r0 ng) h (Vc ng) (Vc' ng). rewrite mm441. cbn [bind].
        destruct (normv_c4 norm (mmul (Vc ng) (mmul (E (u1 ng)) X)) (madd (mmul (Vc' ng) (mmul (E (u1 ng)) X)) (mmul (Vc ng) (mmul (E (u1 ng)) X')))) as (a & -> & Na). cbn [bind].
        rewrite U_ES4_value. cbn [bind]. fold (E (u2 ng)). rewrite half4. cbn [bind]. exists a. split; [|exact Na]. f_equal. f_equal. f_equal; mring.
      * intros X. rewrite ES, rise1, Nat.mul_1_r. unfold bwd. rewrite Epr. replace (D - 3 - 3 * (Dg - 1 - ng))%nat with (3 * ng)%nat by lia.
        rewrite G3, G3', G4, G4'. cbn [bind]. rewrite U_ES4_value. cbn [bind]. fold (E (u3 ng)). rewrite mm221r. cbn [bind].
        rewrite !aget_nthC by lia. cbn [bind]. rewrite U_BO_value. cbn [bind]. fold qf rf. fold (q0 ng) (r0 ng) h (Vcb ng). rewrite mm221r. cbn [bind].
        destruct (normv_r2 norm (mmul (Vcb ng) (mmul (E (u3 ng)) X))) as (a & -> & Na). cbn [bind].
        rewrite U_ES4_value. cbn [bind]. fold (E (u4 ng)). rewrite mm221r. cbn [bind]. exists a. split; [|exact Na]. f_equal. f_equal. f_equal. mring.
Qed.
End Steps.
