(** * Refinement proofs for akns_scatter_bound_states: selection of b, one bound state *)
From Coq Require Import Reals Lra Lia List ZArith.
From Coquelicot Require Import Coquelicot.
From Verif Require Import Base Loop Mem Fields ErrModel CExp CField CConj CDeriv CMean MiscNumModel MiscNumProps MiscMetricProps MiscSincBound
  DiscTables DiscModel DiscProps FscatterSpec FscatterProof FscatterModel FscatterProps ScatterSpec MatExp ScatterStep ScatterModel ScatterProof ScatterRun ScatterLoop BoundModel BoundSpec BoundProof BoundRun.
Import ListNotations.
Local Open Scope C_scope.

Definition is_kdv (pde : akns_pde) : bool := match pde with PDE_KdV => true | _ => false end.
Lemma part_p2 pde a x : part pde (p2 a * x) = p2 a * part pde x.
Proof. destruct pde; cbn [part]; try reflexivity. destruct x as [x y]. unfold p2, RtoC, Cmult. cbn [fst snd]. f_equal; ring. Qed.
Lemma ipart_p2 pde a x : ipart pde (p2 a * x) = p2 a * ipart pde x.
Proof. destruct pde; cbn [ipart]; try reflexivity. destruct x as [x y]. unfold p2, RtoC, Ci, Cmult. cbn [fst snd]. f_equal; ring. Qed.
Lemma part_if pde x : (if is_kdv pde then RtoC (fst x) else x) = part pde x. Proof. destruct pde; reflexivity. Qed.
Lemma ipart_if pde x : (if is_kdv pde then Ci * RtoC (snd x) else x) = ipart pde x. Proof. destruct pde; reflexivity. Qed.
Lemma nz_true x : nz x = true -> x <> 0. Proof. unfold nz. destruct (Ceq_dec x 0); [discriminate|auto]. Qed.
Lemma nz_false x : nz x = false -> x = 0. Proof. unfold nz. destruct (Ceq_dec x 0); [auto|discriminate]. Qed.
Lemma nz_p2 a x : nz (p2 a * x) = nz x.
Proof.
  unfold nz. destruct (Ceq_dec (p2 a * x) 0) as [E|N], (Ceq_dec x 0) as [E'|N']; try reflexivity.
  - exfalso. apply (Cmult_neq_0 (p2 a) x); [apply p2_neq0|exact N'|exact E].
  - exfalso. apply N. rewrite E'. ring.
Qed.

Section BLoop.
Variables (pde : akns_pde) (Dg : nat) (norm : bool) (mem : list C) (Pi : mat2) (PH PS : nat -> mat2) (w1 w2 : nat -> Z) (W1 W2 : option (list Z)).
Hypothesis H1 : forall m, (m <= Dg)%nat -> at_ mem (2 + 4 * m) (c2 (mscal (p2 (- w1 m)) (PH m))).
Hypothesis H2 : forall m, (m <= Dg)%nat -> at_ mem (4 * m) (r2 (mscal (p2 (- w2 m)) (PS m))).
Hypothesis N1 : norm = false -> forall m, w1 m = 0%Z.
Hypothesis N2 : norm = false -> forall m, w2 m = 0%Z.
Hypothesis S1 : norm = true -> isSome W1 = true.
Hypothesis S2 : norm = true -> isSome W2 = true.
Hypothesis L1 : lenw W1 (Dg + 1).
Hypothesis L2 : lenw W2 (Dg + 1).
Hypothesis E1 : norm = true -> entries W1 1 (Dg + 1) w1.
Hypothesis E2 : norm = true -> entries W2 0 Dg w2.
Let phi n := mmul Pi (PH n).
Let psi n := mmul Pi (PS n).
Hypothesis Z1 : a21 (phi 0%nat) = 0.
Hypothesis Z2 : a12 (psi Dg) = 0.

Lemma scale_ok n : (n <= Dg)%nat -> exists s, (if norm then match W1, W2 with Some w1, Some w2 => x <- aget w1 n ;; y <- aget w2 n ;; Ret (RtoC (powerRZ 2 (x - y)))
       | _, _ => UB end else Ret (RtoC 1)) = Ret s /\ ((0 < n < Dg)%nat -> s = p2 (w1 n - w2 n)).
Proof.
  intros Hn. destruct norm.
  - destruct W1 as [u|]; [|specialize (S1 eq_refl); discriminate]. destruct W2 as [v|]; [|specialize (S2 eq_refl); discriminate].
    cbn [lenw] in L1, L2. rewrite (aget_nth u 0%Z) by lia. cbn [bind]. rewrite (aget_nth v 0%Z) by lia. cbn [bind]. eexists. split; [reflexivity|].
    intros Hn'. specialize (E1 eq_refl). specialize (E2 eq_refl). cbn [entries] in E1, E2. rewrite E1 by lia. rewrite E2 by lia. reflexivity.
  - eexists. split; [reflexivity|]. intros _. rewrite (N1 eq_refl), (N2 eq_refl). reflexivity.
Qed.

Lemma b_loop_ok b : exists b' em, b_loop Dg norm (l4 Pi) mem (is_kdv pde) W1 W2 b = Ret (b', em) /\ selected_b pde phi psi Dg b b'.
Proof.
  unfold b_loop.
  pose (P := fun (k : nat) (st : C * option R) => 
    (exists n, (n < k)%nat /\ usable pde phi psi n /\ st = (f0 pde phi n / g0 pde psi n, Some (discrepancy pde phi psi n)) /\
       forall m, (m < k)%nat -> usable pde phi psi m -> (discrepancy pde phi psi n <= discrepancy pde phi psi m)%R)
    \/ ((forall n, (n < k)%nat -> ~ usable pde phi psi n) /\ st = (b, None))).
  match goal with |- context [for_ ?n ?lo ?bo ?s] => destruct (for_inv P bo n lo s) as (st & E & R) end.
  - right. split; [intros n Hn; lia|reflexivity].
  - intros n [b0' em] Hn HP. cbn [plus] in Hn.
    rewrite (at_rd _ _ _ 2 (H1 n ltac:(lia)) eq_refl). cbn [bind]. rewrite (at_rd _ _ _ 2 (H2 n ltac:(lia)) eq_refl). cbn [bind].
    rewrite mm221, mm221r. cbn [bind]. rewrite !mmul_mscal_r. fold (phi n) (psi n).
    cbn [aget c2 r2 nth_error bind mscal a11 a12 a21 a22]. rewrite !part_if, !part_p2.
    fold (f0 pde phi n) (f1 pde phi n) (g0 pde psi n) (g1 pde psi n).
    destruct (scale_ok n ltac:(lia)) as (s & -> & Hs). cbn [bind].
    rewrite !nz_p2.
    destruct (nz (f0 pde phi n) && nz (f1 pde phi n) && nz (g0 pde psi n) && nz (g1 pde psi n)) eqn:EN.
    + apply andb_prop in EN. destruct EN as [EN X4]. apply andb_prop in EN. destruct EN as [EN X3]. apply andb_prop in EN. destruct EN as [X1 X2].
      apply nz_true in X1, X2, X3, X4.
      assert (Hn' : (0 < n < Dg)%nat).
      { assert (n <> 0%nat). { intros ->. apply X2. unfold f1. rewrite Z1. destruct pde; reflexivity. }
        assert (n <> Dg). { intros ->. apply X3. unfold g0. rewrite Z2. destruct pde; reflexivity. } lia. }
      rewrite (Hs Hn').
      assert (EB : forall f g : C, g <> 0 -> p2 (- w1 n) * f / (p2 (- w2 n) * g) * p2 (w1 n - w2 n) = f / g).
      { intros f g Ng. unfold Zminus. rewrite p2_add.
        replace (p2 (- w1 n) * f / (p2 (- w2 n) * g) * (p2 (w1 n) * p2 (- w2 n))) with (p2 (w1 n) * p2 (- w1 n) * f / g).
        - rewrite p2_opp. field. exact Ng.
        - field. split; [exact Ng|apply p2_neq0]. }
      rewrite !EB by assumption.
      set (B0 := f0 pde phi n / g0 pde psi n). set (B1 := f1 pde phi n / g1 pde psi n).
      assert (EM : metric B0 B1 = discrepancy pde phi psi n) by reflexivity. rewrite EM.
      destruct (negb (is_kdv pde) || (if Rlt_dec 0 (fst (B0 * B1)) then true else false)) eqn:EK.
      * assert (US : usable pde phi psi n).
        { refine (conj X1 (conj X2 (conj X3 (conj X4 _)))). intros Ep. rewrite Ep in EK. cbn [is_kdv negb orb] in EK. fold B0 B1. destruct (Rlt_dec 0 (fst (B0 * B1))) as [G|]; [exact G|discriminate]. }
        destruct (less (discrepancy pde phi psi n) em) eqn:EL.
        -- eexists. split; [reflexivity|]. left. exists n. split; [lia|]. split; [exact US|]. split; [reflexivity|].
           intros m Hm Um. destruct (Nat.eq_dec m n) as [->|Nm]; [lra|]. destruct HP as [(n0 & Hn0 & U0 & Est & M0)|[NU Est]].
           ++ injection Est as _ ->. cbn [less] in EL. destruct (Rlt_dec _ _) in EL; [|discriminate]. specialize (M0 m ltac:(lia) Um). lra.
           ++ exfalso. apply (NU m); [lia|exact Um].
        -- eexists. split; [reflexivity|]. destruct HP as [(n0 & Hn0 & U0 & Est & M0)|[NU Est]].
           ++ left. exists n0. split; [lia|]. split; [exact U0|]. split; [exact Est|]. intros m Hm Um. destruct (Nat.eq_dec m n) as [->|Nm]; [|apply M0; [lia|exact Um]].
              injection Est as _ ->. cbn [less] in EL. destruct (Rlt_dec _ _) in EL; [discriminate|]. lra.
           ++ injection Est as _ ->. discriminate EL.
      * assert (NU : ~ usable pde phi psi n).
        { intros (_ & _ & _ & _ & K). apply Bool.orb_false_elim in EK. destruct EK as [EK1 EK2].
          assert (Ep : pde = PDE_KdV) by (clear - EK1; destruct pde; try discriminate; reflexivity). specialize (K Ep). fold B0 B1 in K.
          destruct (Rlt_dec 0 (fst (B0 * B1))) as [|NG]; [discriminate|]. exact (NG K). }
        eexists. split; [reflexivity|]. destruct HP as [(n0 & Hn0 & U0 & Est & M0)|[NU' Est]].
        -- left. exists n0. split; [lia|]. split; [exact U0|]. split; [exact Est|]. intros m Hm Um. destruct (Nat.eq_dec m n) as [->|Nm]; [contradiction|apply M0; [lia|exact Um]].
        -- right. split; [|exact Est]. intros m Hm. destruct (Nat.eq_dec m n) as [->|Nm]; [exact NU|apply NU'; lia].
    + assert (NU : ~ usable pde phi psi n).
      { intros (Y1 & Y2 & Y3 & Y4 & _). assert (Q : forall x : C, x <> 0 -> nz x = true) by (intros x Nx; unfold nz; destruct (Ceq_dec x 0); [contradiction|reflexivity]).
        rewrite !Q in EN by assumption. discriminate. }
      eexists. split; [reflexivity|]. destruct HP as [(n0 & Hn0 & U0 & Est & M0)|[NU' Est]].
      * left. exists n0. split; [lia|]. split; [exact U0|]. split; [exact Est|]. intros m Hm Um. destruct (Nat.eq_dec m n) as [->|Nm]; [contradiction|apply M0; [lia|exact Um]].
      * right. split; [|exact Est]. intros m Hm. destruct (Nat.eq_dec m n) as [->|Nm]; [exact NU|apply NU'; lia].
  - cbn [Nat.add] in R. rewrite E. destruct R as [(n & Hn & U & -> & M)|[NU ->]].
    + eexists _, _. split; [reflexivity|]. left. exists n. split; [lia|]. split; [exact U|]. split; [reflexivity|]. intros m Hm. apply M. lia.
    + eexists _, _. split; [reflexivity|]. right. split; [|reflexivity]. intros n Hn. apply NU. lia.
Qed.
End BLoop.

Lemma ex_split (z : C) (v : Z) : Cexp (Ci * RtoC (snd z) + RtoC ((fst z / ln 2 - IZR v) * ln 2)) * p2 v = Cexp z.
Proof.
  assert (L : ln 2 <> 0%R) by (assert (H := ln_lt_2); lra).
  assert (E : p2 v = Cexp (RtoC (IZR v * ln 2))).
  { unfold p2, Cexp, RtoC. cbn [fst snd]. rewrite cos_0, sin_0. unfold Cmult. cbn [fst snd].
    replace (exp (IZR v * ln 2)) with (powerRZ 2 v).
    - f_equal; ring.
    - rewrite powerRZ_Rpower by lra. unfold Rpower. reflexivity. }
  rewrite E, <- Cexp_plus. f_equal. destruct z as [x y]. unfold Ci, RtoC, Cplus, Cmult. cbn [fst snd]. f_equal; field; exact L.
Qed.

Section One.
Variables (D : nat) (q r : list C) (T0 T1 eps_t bc : R) (d : akns_disc) (pr : prep) (Dg : nat) (norm : bool) (pde : akns_pde) (vanilla skip_b : bool).
Hypothesis Hq : (D <= length q)%nat.
Hypothesis Hr : (D <= length r)%nat.
Hypothesis Hs : is_slow d.
Let ups := akns_upsampling_factor d.
Hypothesis HD : D = (Dg * ups)%nat.
Hypothesis Hp : prepared D q r eps_t d pr.
Let w := weights d.
Let h := RtoC eps_t.
Let qf := nthC q.
Let rf := nthC r.
Let sub := substeps d.
Let tm := (T0 - eps_t * bc)%R.
Let tp := (T1 + eps_t * bc)%R.

Lemma one_bound_ok mem W1 W2 l b_old : pde_ok pde l -> all_core q r eps_t d Dg l -> length mem = (4 * (Dg + 1) + 2)%nat ->
  lenw W1 (Dg + 1) -> lenw W2 (Dg + 1) -> (norm = true -> skip_b = false -> isSome W1 = true /\ isSome W2 = true) ->
  exists a ap W b mem' W1' W2', one_bound D q r T0 T1 ups Dg eps_t bc pr norm d pde vanilla skip_b mem W1 W2 l b_old = Ret (SUCCESS, (a, ap, W, b), (mem', W1', W2')) /\
    length mem' = length mem /\ isSome W1' = isSome W1 /\ isSome W2' = isSome W2 /\ lenw W1' (Dg + 1) /\ lenw W2' (Dg + 1) /\
    bound_state_result d pde vanilla w h qf rf Dg tm tp skip_b l a ap (if norm then W else 0%Z) b_old b.
Proof.
  intros Hpde HC Lm LW1 LW2 HSm.
  destruct (steps_exist D q r eps_t d pr Dg norm l Hq Hr Hs HD Hp HC) as (V & V' & Vb & HV & HFB).
  assert (HF : forall ng, (ng < Dg)%nat -> fwd_fact q r eps_t d pr norm l V V' ng) by (intros; now apply HFB).
  assert (HB : forall ng, (ng < Dg)%nat -> bwd_fact D q r eps_t d pr Dg norm l Vb ng) by (intros; now apply HFB).
  destruct (basis_derive pde vanilla l Hpde) as (_ & _ & PiP).
  set (P := basisP pde vanilla l) in *. set (P' := dbasisP pde vanilla). set (Pi := minv P) in *. set (Pi' := dminvP pde vanilla l).
  unfold one_bound. fold tm tp.
  set (em := Cexp (- Ci * l * RtoC tm)).
  set (Xm' := M2 (em * (- Ci * RtoC tm)) 0 0 0).
  assert (Ew : a11 (waves tm l) = em) by reflexivity.
  rewrite (from_S_slow d true l eps_t vanilla pde Hs Hpde : akns_from_S (repeat (RtoC 0) 16) _ _ _ _ _ _ = _). cbn [bind packed Z.eqb negb]. fold P P'.
  change [em; RtoC 0; em * (- Ci * RtoC tm); RtoC 0] with (c4 (waves tm l) Xm'). rewrite mm441. cbn [bind].
  set (X := mmul P (waves tm l)). set (X' := madd (mmul P' (waves tm l)) (mmul P Xm')).
  destruct (wr_at mem 2 (c4 X X')) as (mem1 & -> & L1 & A1 & _). { cbn [length c4]. lia. }
  cbn [bind].
  destruct (fwd_loop_ok D q r eps_t d pr Dg norm l Hs HD Hp V V' Vb HF HB mem1 W1 X X' ltac:(lia) A1 LW1)
    as (mem2 & W1' & w1 & E2 & L2 & Nw1 & Zw1 & A2 & S1' & LW1' & EW1').
  fold ups in E2. rewrite E2. cbn [bind].
  (* final value of phi *)
  assert (FIN : forall mem3, at_ mem3 (2 + 4 * Dg) (c4 (mscal (p2 (- w1 Dg)) (Phi d V X Dg)) (mscal (p2 (- w1 Dg)) (Phi' d V V' X X' Dg))) ->
    (phi <- rd mem3 (2 + 4 * Dg) 4 ;; mm 4 4 1 (d16 Pi Pi') phi) =
    Ret (c4 (mscal (p2 (- w1 Dg)) (mmul Pi (Phi d V X Dg))) (mscal (p2 (- w1 Dg)) (madd (mmul Pi' (Phi d V X Dg)) (mmul Pi (Phi' d V V' X X' Dg)))))).
  { intros mem3 A3. rewrite (at_rd _ _ _ 4 A3 eq_refl). cbn [bind]. rewrite mm441. f_equal. f_equal; mring. }
  set (N := (Dg * substeps d)%nat).
  set (SS := based pde vanilla l (descending N V)). set (SS' := dbased pde vanilla l (descending N V) (propagated N V V')).
  assert (Ea : a11 (mmul Pi (Phi d V X Dg)) = em * a11 SS).
  { assert (E : mmul Pi (Phi d V X Dg) = mmul SS (waves tm l)) by (unfold SS, based, Phi, X; fold P Pi; fold N; rewrite !mmul_assoc; reflexivity).
    rewrite E. cbn [mmul a11 waves a21]. fold em. ring. }
  assert (Ea' : a11 (madd (mmul Pi' (Phi d V X Dg)) (mmul Pi (Phi' d V V' X X' Dg))) = em * a11 SS' + (- Ci * RtoC tm) * (em * a11 SS)).
  { assert (E : madd (mmul Pi' (Phi d V X Dg)) (mmul Pi (Phi' d V V' X X' Dg)) = madd (mmul SS' (waves tm l)) (mmul SS Xm')).
    { unfold SS, SS', based, dbased, Phi, Phi', X, X'. fold P Pi P' Pi'. fold N. mring. }
    rewrite E. cbn [mmul madd a11 waves a21 Xm']. unfold Xm'. cbn [a11 a21]. fold em. ring. }
  assert (Eexp : Cexp (Ci * l * RtoC tp) * em = Cexp (Ci * l * RtoC (tp - tm))).
  { unfold em. rewrite <- Cexp_plus. f_equal. rewrite RtoC_minus. ring. }
  (* values *)
  set (ex0 := Ci * l * RtoC tp). set (v := roundZ (fst ex0 / ln 2)).
  set (ex := Cexp (Ci * RtoC (snd ex0) + RtoC ((fst ex0 / ln 2 - IZR v) * ln 2))).
  assert (Hex : ex * p2 v = Cexp ex0) by apply ex_split.
  set (F0 := p2 (- w1 Dg) * a11 (mmul Pi (Phi d V X Dg))).
  set (F2 := p2 (- w1 Dg) * a11 (madd (mmul Pi' (Phi d V X Dg)) (mmul Pi (Phi' d V V' X X' Dg)))).
  set (a := part pde (if norm then F0 * ex else F0 * Cexp ex0)).
  set (ap := ipart pde (if norm then (F2 + Ci * RtoC tp * F0) * ex else F2 * Cexp ex0 + Ci * RtoC tp * (if norm then F0 * ex else F0 * Cexp ex0))).
  set (W := (v + w1 Dg)%Z).
  assert (RA : RtoC (powerRZ 2 (if norm then W else 0)) * a = part pde (Cexp (Ci * l * RtoC (tp - tm)) * a11 SS)).
  { fold (p2 (if norm then W else 0%Z)). unfold a. rewrite <- part_p2. f_equal. unfold F0. rewrite Ea, <- Eexp. fold ex0. destruct norm.
    - unfold W. rewrite p2_add, <- Hex. replace (p2 v * p2 (w1 Dg) * (p2 (- w1 Dg) * (em * a11 SS) * ex)) with (p2 (w1 Dg) * p2 (- w1 Dg) * (ex * p2 v * em * a11 SS)) by ring.
      rewrite p2_opp. ring.
    - rewrite (Nw1 eq_refl). change (- 0)%Z with 0%Z. rewrite p2_0. ring. }
  assert (RAP : RtoC (powerRZ 2 (if norm then W else 0)) * ap = ipart pde (Cexp (Ci * l * RtoC (tp - tm)) * a11 SS' + Ci * RtoC (tp - tm) * (Cexp (Ci * l * RtoC (tp - tm)) * a11 SS))).
  { fold (p2 (if norm then W else 0%Z)). unfold ap. rewrite <- ipart_p2. f_equal. unfold F0, F2. rewrite Ea, Ea', <- Eexp. fold ex0. rewrite RtoC_minus. destruct norm.
    - unfold W. rewrite p2_add, <- Hex.
      match goal with |- ?L = ?R => replace L with (p2 (w1 Dg) * p2 (- w1 Dg) * R) by ring end. rewrite p2_opp. ring.
    - rewrite (Nw1 eq_refl). change (- 0)%Z with 0%Z. rewrite p2_0. ring. }
  assert (Ejp : forall n, mmul Pi (Phi d V X n) = jost_phi d pde vanilla V tm l n).
  { intros n. unfold jost_phi, Phi, based, X. fold P Pi. rewrite !mmul_assoc. reflexivity. }
  destruct skip_b.
  - (* b skipped *)
    cbn [bind]. rewrite (to_S_slow d true l eps_t vanilla pde Hs Hpde : akns_to_S (repeat (RtoC 0) 16) _ _ _ _ _ _ = _). cbn [bind]. change (SUCCESS =? SUCCESS)%Z with true. cbn [negb bind packed]. fold P Pi Pi'.
    specialize (FIN mem2 (A2 Dg ltac:(lia))).
    rewrite (at_rd _ _ _ 4 (A2 Dg ltac:(lia)) eq_refl) in *. cbn [bind] in *. rewrite FIN. cbn [bind].
    cbn [aget c4 nth_error bind mscal a11]. fold F0 F2. fold (is_kdv pde). rewrite part_if, ipart_if. fold ex0. fold v. fold ex. fold a ap W.
    exists a, ap, W, b_old, mem2, W1', W2. split; [reflexivity|]. split; [congruence|]. split; [exact S1'|]. split; [reflexivity|]. split; [exact LW1'|]. split; [exact LW2|].
    exists V, V', Vb. split; [exact HV|]. cbv zeta. fold N SS SS'. split; [exact RA|]. split; [exact RAP|reflexivity].
  - rewrite (from_S_slow d false l eps_t vanilla pde Hs Hpde : akns_from_S (repeat (RtoC 0) 4) _ _ _ _ _ _ = _). cbn [bind packed Z.eqb negb]. fold P.
    change [RtoC 0; Cexp ex0] with (r2 (waves tp l)). rewrite mm221r. cbn [bind].
    set (Y := mmul P (waves tp l)).
    destruct (wr_at mem2 (4 * Dg) (r2 Y)) as (mem3 & -> & L3 & A3 & F3). { cbn [length r2]. lia. }
    cbn [bind].
    destruct (bwd_loop_ok D q r eps_t d pr Dg norm l HD V V' Vb HF HB mem3 W2 Y ltac:(lia) A3 LW2) as (mem4 & acc & W2' & w2 & E4 & L4 & Nw2 & Zw2 & A4 & K4 & G4 & S2' & LW2' & EW2').
    { intros En. apply (HSm En eq_refl). }
    fold ups in E4. rewrite E4. cbn [bind Z.eqb negb]. change (SUCCESS =? SUCCESS)%Z with true. cbn [negb bind].
    assert (B1 : forall m, (m <= Dg)%nat -> at_ mem4 (2 + 4 * m) (c2 (mscal (p2 (- w1 m)) (Phi d V X m)))).
    { intros m Hm. apply K4; [exact Hm|reflexivity|]. apply F3; [eapply at_c2; apply A2; exact Hm|]. cbn [length c2 r2]. lia. }
    assert (B2 : at_ mem4 (2 + 4 * Dg) (c4 (mscal (p2 (- w1 Dg)) (Phi d V X Dg)) (mscal (p2 (- w1 Dg)) (Phi' d V V' X X' Dg)))).
    { apply G4; [reflexivity|]. apply F3; [apply A2; lia|]. cbn [length c4 r2]. lia. }
    rewrite (to_S_slow d true l eps_t vanilla pde Hs Hpde : akns_to_S (repeat (RtoC 0) 16) _ _ _ _ _ _ = _). cbn [bind]. change (SUCCESS =? SUCCESS)%Z with true. cbn [negb bind packed]. fold P Pi Pi'.
    specialize (FIN mem4 B2). rewrite (at_rd _ _ _ 4 B2 eq_refl) in *. cbn [bind] in *. rewrite FIN. cbn [bind].
    cbn [aget c4 nth_error bind mscal a11]. fold F0 F2. fold (is_kdv pde). rewrite part_if, ipart_if. fold ex0. fold v. fold ex. fold a ap W.
    rewrite (to_S_slow d false l eps_t vanilla pde Hs Hpde : akns_to_S (repeat (RtoC 0) 4) _ _ _ _ _ _ = _). cbn [bind]. change (SUCCESS =? SUCCESS)%Z with true. cbn [negb bind packed]. fold P Pi.
    assert (Ejs : forall n, mmul Pi (Psi d Dg Vb Y n) = jost_psi d pde vanilla Vb Dg tp l n).
    { intros n. unfold jost_psi, Psi, based, Y. fold P Pi. rewrite !mmul_assoc. reflexivity. }
    destruct (b_loop_ok pde Dg norm mem4 Pi (Phi d V X) (Psi d Dg Vb Y) w1 w2 W1' W2') with (b := b_old) as (b & em' & -> & SEL); try assumption.
    + intros En. rewrite S1'. apply (HSm En eq_refl).
    + intros En. rewrite S2'. apply (HSm En eq_refl).
    + rewrite Ejp. unfold jost_phi. cbn [Nat.mul descending]. unfold based. fold P Pi. rewrite mmul_one_l, PiP, mmul_one_l. reflexivity.
    + rewrite Ejs. unfold jost_psi. rewrite Nat.sub_diag. cbn [Nat.mul rising]. unfold based. fold P Pi. rewrite mmul_one_l, PiP, mmul_one_l. reflexivity.
    + cbn [bind]. exists a, ap, W, b, mem4, W1', W2'. split; [reflexivity|]. split; [congruence|]. split; [exact S1'|]. split; [exact S2'|]. split; [exact LW1'|]. split; [exact LW2'|].
      exists V, V', Vb. split; [exact HV|]. cbv zeta. fold N SS SS'. split; [exact RA|]. split; [exact RAP|].
      destruct SEL as [(n & Hn & U & Eb & M)|[NU Eb]].
      * left. exists n. unfold usable, f0, f1, g0, g1, discrepancy in *. cbv beta in *.
        assert (M' : forall m, (m <= Dg)%nat -> _) by exact M. clear M.
        rewrite (Ejp n), (Ejs n) in *. split; [exact Hn|]. split; [exact U|]. split; [exact Eb|].
        intros m Hm. specialize (M' m Hm). unfold f0, f1, g0, g1 in *. rewrite (Ejp m), (Ejs m), (Ejp n), (Ejs n) in M'. exact M'.
      * right. split; [|exact Eb]. intros n Hn. specialize (NU n Hn). unfold usable, f0, f1, g0, g1 in *. rewrite (Ejp n), (Ejs n) in NU. exact NU.
Qed.
End One.
