(** * Multi-solitons have the prescribed scattering data *)
From Coq Require Import Reals List Lra Lia.
From Coquelicot Require Import Coquelicot.
From Verif Require Import CExp CField CConj FscatterSpec FscatterProof InvSpec InvDarboux.
Import ListNotations.
Local Open Scope C_scope.

Lemma darboux_snoc vs x q : darboux (vs ++ [x]) q = dstep (darboux vs q) x.
Proof. unfold darboux. now rewrite fold_left_app. Qed.
(** simple points in the upper half plane, non-zero vectors *)
Definition dvalid (vs : list (C * (C * C))) : Prop := List.Forall (fun x => snd x <> vzero /\ (0 < snd (fst x))%R) vs /\ NoDup (map fst vs).
Lemma dvalid_snoc vs x : dvalid (vs ++ [x]) -> dvalid vs /\ snd x <> vzero /\ (0 < snd (fst x))%R /\ ~ In (fst x) (map fst vs).
Proof.
  intros [A B]. apply List.Forall_app in A. destruct A as [A A']. inversion A' as [|? ? [X Y]]; subst.
  rewrite map_app in B. cbn [map] in B. apply NoDup_remove in B. destruct B as [B B']. rewrite app_nil_r in B, B'. repeat split; auto.
Qed.
Lemma C1_nz : RtoC 1 <> RtoC 0.
Proof. intros H. injection H. lra. Qed.
Lemma Csub_0 (a b : C) : a - b = 0 -> b = a.
Proof. intros E. transitivity (a - (a - b)); [ring|]. rewrite E. ring. Qed.
Definition quad (ls : list C) (l : C) : C := fold_right (fun k p => (l - k) * (l - Cconj k) * p) 1 ls.
Lemma quad_snoc ls x l : quad (ls ++ [x]) l = (l - x) * (l - Cconj x) * quad ls l.
Proof. induction ls as [|k ls IH]; cbn; [ring|]. fold (quad (ls ++ [x]) l) (quad ls l). rewrite IH. ring. Qed.
Lemma quad_neq0 ls l : (0 < snd l)%R -> List.Forall (fun k => 0 < snd k)%R ls -> ~ In l ls -> quad ls l <> 0.
Proof.
  intros Hl. induction ls as [|k ls IH]; intros H N; cbn; [apply C1_nz|]. fold (quad ls l).
  inversion H; subst. repeat apply Cmult_neq_0.
  - intros E. apply N. left. now apply Csub_0.
  - intros E. apply (f_equal snd) in E. cbn in E. lra.
  - apply IH; [assumption|]. intros F. apply N. now right.
Qed.
Lemma dvalid_pos vs : dvalid vs -> List.Forall (fun k : C => 0 < snd k)%R (map fst vs).
Proof. intros [A _]. apply List.Forall_map. eapply List.Forall_impl; [|exact A]. now intros x [_ H]. Qed.
Lemma darboux_det vs q l : dvalid vs -> mdet (fst (darboux vs q) l) = quad (map fst vs) l.
Proof.
  revert l. induction vs as [|x vs IH] using rev_ind; intros l H.
  - cbn. unfold mdet; cbn. ring.
  - destruct (dvalid_snoc _ _ H) as (H0 & X & P & N). rewrite darboux_snoc. unfold dstep. cbn [fst]. rewrite mdet_mmul, map_app. cbn [map]. rewrite quad_snoc.
    rewrite shifted_det, IH; [reflexivity|exact H0|].
    apply mv_neq0; [|exact X]. rewrite IH by exact H0. apply quad_neq0; auto. now apply dvalid_pos.
Qed.
Lemma darboux_vec vs q x : dvalid (vs ++ [x]) -> mv (fst (darboux vs q) (fst x)) (snd x) <> vzero.
Proof.
  intros H. destruct (dvalid_snoc _ _ H) as (H0 & X & P & N). apply mv_neq0; [|exact X]. rewrite darboux_det by exact H0.
  apply quad_neq0; auto. now apply dvalid_pos.
Qed.
Lemma shifted_kernel l v : v <> vzero -> mv (shifted l (darboux_S l v)) v = vzero.
Proof.
  intros H. destruct (darboux_S_eigen l v H) as [E _]. apply pair_equal_spec in E. destruct E as [E1 E2].
  unfold mv in *. unfold shifted, vzero. cbn [a11 a12 a21 a22 fst snd] in *. f_equal.
  - transitivity (l * fst v - (a11 (darboux_S l v) * fst v + a12 (darboux_S l v) * snd v)); [ring|]. rewrite E1. ring.
  - transitivity (l * snd v - (a21 (darboux_S l v) * fst v + a22 (darboux_S l v) * snd v)); [ring|]. rewrite E2. ring.
Qed.
Lemma mv_zero A : mv A vzero = vzero. Proof. unfold mv, vzero. cbn [fst snd]. f_equal; ring. Qed.
Lemma darboux_kernel vs q x : dvalid vs -> In x vs -> mv (fst (darboux vs q) (fst x)) (snd x) = vzero.
Proof.
  induction vs as [|y vs IH] using rev_ind; intros H I; [destruct I|].
  rewrite darboux_snoc. unfold dstep. cbn [fst]. rewrite mv_mmul. apply in_app_iff in I. destruct I as [I|[->|[]]].
  - rewrite IH; [apply mv_zero| |exact I]. now apply dvalid_snoc in H.
  - apply shifted_kernel. now apply darboux_vec.
Qed.

(** ** Functions of time *)
Definition at_ (t : R) (vs : list (C * (R -> C * C))) : list (C * (C * C)) := map (fun x => (fst x, snd x t)) vs.
Lemma at_snoc t vs x : at_ t (vs ++ [x]) = at_ t vs ++ [(fst x, snd x t)]. Proof. unfold at_. now rewrite map_app. Qed.
Lemma zs_ext l q q' v v' : (forall s, q s = q' s) -> (forall s, v s = v' s) -> zs_solution l q v -> zs_solution l q' v'.
Proof.
  intros Hq Hv H t. rewrite <- (Hq t), <- (Hv t). destruct (H t) as [A B].
  split; (eapply tderive_ext; [|first [exact A|exact B]]; intros s; cbv beta; now rewrite Hv).
Qed.
(** Darboux transforms map solutions to solutions: any number of points *)
Theorem darboux_many (q : R -> C) (vs : list (C * (R -> C * C))) :
  List.Forall (fun x => zs_solution (fst x) q (snd x)) vs -> (forall t, dvalid (at_ t vs)) ->
  forall l w, zs_solution l q w ->
  zs_solution l (fun t => snd (darboux (at_ t vs) (q t))) (fun t => mv (fst (darboux (at_ t vs) (q t)) l) (w t)).
Proof.
  induction vs as [|x vs IH] using rev_ind; intros HS HV l w Hw.
  - eapply zs_ext; [| |exact Hw]; intros s; [reflexivity|]. cbn. unfold mv. cbn [a11 a12 a21 a22 mone fst snd]. destruct (w s). cbn [fst snd]. f_equal; ring.
  - apply List.Forall_app in HS. destruct HS as [HS Hx]. inversion Hx as [|? ? Hx' _]; subst.
    assert (HV' : forall t, dvalid (at_ t vs)). { intros t. specialize (HV t). rewrite at_snoc in HV. now apply dvalid_snoc in HV. }
    specialize (IH HS HV').
    assert (H := darboux_one _ _ _ _ _ (IH _ _ Hx') ltac:(intros t; specialize (HV t); rewrite at_snoc in HV; exact (darboux_vec _ _ _ HV)) (IH _ _ Hw)).
    eapply zs_ext; [| |exact H]; intros s; rewrite at_snoc, darboux_snoc; unfold dstep; cbn [fst snd]; [reflexivity|now rewrite mv_mmul].
Qed.

(** ** Limits *)
Lemma tlim_ext f g p l : (forall x, f x = g x) -> tlim f p l -> tlim g p l.
Proof. intros H [A B]. split; [eapply is_lim_ext; [|exact A]|eapply is_lim_ext; [|exact B]]; intros x; cbn; now rewrite H. Qed.
Lemma tlim_eq f p l l' : tlim f p l -> l = l' -> tlim f p l'. Proof. now intros H <-. Qed.
Lemma tlim_const c p : tlim (fun _ => c) p c. Proof. split; apply is_lim_const. Qed.
Lemma tlim_plus f g p a b : tlim f p a -> tlim g p b -> tlim (fun x => f x + g x) p (a + b).
Proof. intros [A1 A2] [B1 B2]. split; cbn. - exact (is_lim_plus' _ _ _ _ _ A1 B1). - exact (is_lim_plus' _ _ _ _ _ A2 B2). Qed.
Lemma tlim_opp f p a : tlim f p a -> tlim (fun x => - f x) p (- a).
Proof. intros [A1 A2]. split; cbn. - exact (is_lim_opp _ _ _ A1). - exact (is_lim_opp _ _ _ A2). Qed.
Lemma tlim_minus f g p a b : tlim f p a -> tlim g p b -> tlim (fun x => f x - g x) p (a - b).
Proof. intros A B. apply tlim_plus; [exact A|]. now apply tlim_opp. Qed.
Lemma rlim_mult (f g : R -> R) p (a b : R) : is_lim f p a -> is_lim g p b -> is_lim (fun x => f x * g x)%R p (a * b)%R.
Proof. intros A B. apply (is_lim_mult f g p a b A B). exact I. Qed.
Lemma tlim_mult f g p a b : tlim f p a -> tlim g p b -> tlim (fun x => f x * g x) p (a * b).
Proof.
  intros [A1 A2] [B1 B2]. split; cbn.
  - exact (is_lim_minus' _ _ _ _ _ (rlim_mult _ _ _ _ _ A1 B1) (rlim_mult _ _ _ _ _ A2 B2)).
  - exact (is_lim_plus' _ _ _ _ _ (rlim_mult _ _ _ _ _ A1 B2) (rlim_mult _ _ _ _ _ A2 B1)).
Qed.
Lemma tlim_conj f p a : tlim f p a -> tlim (fun x => Cconj (f x)) p (Cconj a).
Proof. intros [A1 A2]. split; cbn; [exact A1|]. exact (is_lim_opp _ _ _ A2). Qed.
Lemma tlim_inv f p a : tlim f p a -> a <> 0 -> tlim (fun x => / f x) p (/ a).
Proof.
  intros [A1 A2] N. assert (P := sq_pos _ N).
  assert (L := is_lim_plus' _ _ _ _ _ (rlim_mult _ _ _ _ _ A1 A1) (rlim_mult _ _ _ _ _ A2 A2)).
  assert (Li : is_lim (fun y => / (fst (f y) * fst (f y) + snd (f y) * snd (f y)))%R p (/ (fst a * fst a + snd a * snd a))%R).
  { apply (is_lim_inv _ _ _ L). intros E. injection E. lra. }
  split; cbn.
  - eapply is_lim_ext; [|replace (fst a / (fst a * (fst a * 1) + snd a * (snd a * 1)))%R with (fst a * / (fst a * fst a + snd a * snd a))%R;
      [exact (rlim_mult _ _ _ _ _ A1 Li)|unfold Rdiv; f_equal; f_equal; ring]].
    intros y. cbv beta. unfold Rdiv. f_equal. f_equal. ring.
  - eapply is_lim_ext; [|replace (- snd a / (fst a * (fst a * 1) + snd a * (snd a * 1)))%R with (- snd a * / (fst a * fst a + snd a * snd a))%R;
      [exact (rlim_mult _ _ _ _ _ (is_lim_opp _ _ _ A2) Li)|unfold Rdiv; f_equal; f_equal; ring]].
    intros y. cbv beta. unfold Rdiv. f_equal. f_equal. ring.
Qed.
Lemma tlim_div f g p a b : tlim f p a -> tlim g p b -> b <> 0 -> tlim (fun x => f x / g x) p (a / b).
Proof. intros A B N. apply tlim_mult; [exact A|]. now apply tlim_inv. Qed.
(** squeeze *)
Lemma tlim_squeeze f p (g : R -> R) : (forall x, (Cmod (f x) <= g x)%R) -> is_lim g p 0%R -> tlim f p 0.
Proof.
  intros H G. split; cbn.
  - apply (is_lim_le_le_loc (fun x => - g x)%R g); [|replace 0%R with (- 0)%R by ring; exact (is_lim_opp _ _ _ G)|exact G].
    apply filter_forall. intros x. assert (A := Rabs_le_Cmod_re (f x)). specialize (H x). revert A. unfold Rabs. destruct (Rcase_abs _); lra.
  - apply (is_lim_le_le_loc (fun x => - g x)%R g); [|replace 0%R with (- 0)%R by ring; exact (is_lim_opp _ _ _ G)|exact G].
    apply filter_forall. intros x. assert (A := Rabs_le_Cmod_im (f x)). specialize (H x). revert A. unfold Rabs. destruct (Rcase_abs _); lra.
Qed.
Lemma tlim_unit f p (u : R -> C) : tlim f p 0 -> (forall x, Cmod (u x) = 1%R) -> tlim (fun x => u x * f x) p 0.
Proof.
  intros [A B] U. apply (tlim_squeeze _ _ (fun x => Rabs (fst (f x)) + Rabs (snd (f x)))%R).
  - intros x. rewrite Cmod_mult, U, Rmult_1_l. apply Cmod_le_sum.
  - replace 0%R with (Rabs 0 + Rabs 0)%R by (rewrite Rabs_R0; ring).
    apply is_lim_plus'; [exact (is_lim_Rabs _ _ _ A)|exact (is_lim_Rabs _ _ _ B)].
Qed.
Lemma exp_decay_p (c : R) : (0 < c)%R -> is_lim (fun t => exp (- (c * t))) p_infty 0%R.
Proof.
  intros Hc. apply (is_lim_comp exp (fun t => - (c * t))%R p_infty 0%R m_infty); [exact is_lim_exp_m| |now exists 0%R].
  replace m_infty with (Rbar_opp p_infty) by reflexivity. apply is_lim_opp.
  replace p_infty with (Rbar_mult c p_infty) at 2.
  - apply is_lim_scal_l. apply is_lim_id.
  - cbn. destruct (Rle_dec 0 c) as [h|h]; [|lra]. destruct (Rle_lt_or_eq_dec 0 c h); [reflexivity|lra].
Qed.
Lemma exp_decay_m (c : R) : (0 < c)%R -> is_lim (fun t => exp (c * t)) m_infty 0%R.
Proof.
  intros Hc. apply (is_lim_comp exp (fun t => c * t)%R m_infty 0%R m_infty); [exact is_lim_exp_m| |now exists 0%R].
  replace m_infty with (Rbar_mult c m_infty) at 2.
  - apply is_lim_scal_l. apply is_lim_id.
  - cbn. destruct (Rle_dec 0 c) as [h|h]; [|lra]. destruct (Rle_lt_or_eq_dec 0 c h); [reflexivity|lra].
Qed.
(** e^(2 i l t) -> 0 for t -> +oo, e^(-2 i l t) -> 0 for t -> -oo, Im l > 0 *)
Lemma tlim_exp_p (l : C) : (0 < snd l)%R -> tlim (fun t => Cexp (2 * Ci * l * RtoC t)) p_infty 0.
Proof.
  intros H. apply (tlim_squeeze _ _ (fun t => exp (- (2 * snd l * t)))%R); [|apply exp_decay_p; lra].
  intros t. rewrite Cmod_Cexp. apply Req_le. f_equal. cbn. ring.
Qed.
Lemma tlim_exp_m (l : C) : (0 < snd l)%R -> tlim (fun t => Cexp (- (2) * Ci * l * RtoC t)) m_infty 0.
Proof.
  intros H. apply (tlim_squeeze _ _ (fun t => exp (2 * snd l * t))%R); [|apply exp_decay_m; lra].
  intros t. rewrite Cmod_Cexp. apply Req_le. f_equal. cbn. ring.
Qed.

Definition mlim (F : R -> mat2) (p : Rbar) (L : mat2) : Prop :=
  tlim (fun t => a11 (F t)) p (a11 L) /\ tlim (fun t => a12 (F t)) p (a12 L) /\ tlim (fun t => a21 (F t)) p (a21 L) /\ tlim (fun t => a22 (F t)) p (a22 L).
Definition vlim (v : R -> C * C) (p : Rbar) (x : C * C) : Prop := tlim (fun t => fst (v t)) p (fst x) /\ tlim (fun t => snd (v t)) p (snd x).
Lemma tlim_pm f g h k p a b c d : tlim f p a -> tlim g p b -> tlim h p c -> tlim k p d -> tlim (fun t => f t * g t + h t * k t) p (a * b + c * d).
Proof. intros A B D E. exact (tlim_plus _ _ _ _ _ (tlim_mult _ _ _ _ _ A B) (tlim_mult _ _ _ _ _ D E)). Qed.
Lemma mlim_mul F G p L K : mlim F p L -> mlim G p K -> mlim (fun t => mmul (F t) (G t)) p (mmul L K).
Proof.
  intros (A & B & D & E) (A' & B' & D' & E'). split; [|split; [|split]].
  - exact (tlim_pm _ _ _ _ _ _ _ _ _ A A' B D'). - exact (tlim_pm _ _ _ _ _ _ _ _ _ A B' B E').
  - exact (tlim_pm _ _ _ _ _ _ _ _ _ D A' E D'). - exact (tlim_pm _ _ _ _ _ _ _ _ _ D B' E E').
Qed.
Lemma mlim_mv F v p L x : mlim F p L -> vlim v p x -> vlim (fun t => mv (F t) (v t)) p (mv L x).
Proof. intros (A & B & D & E) (A' & B'). split. - exact (tlim_pm _ _ _ _ _ _ _ _ _ A A' B B'). - exact (tlim_pm _ _ _ _ _ _ _ _ _ D A' E B'). Qed.
Lemma mlim_shifted F p L l : mlim F p L -> mlim (fun t => shifted l (F t)) p (shifted l L).
Proof.
  intros (A & B & D & E). assert (K := tlim_const l p). split; [|split; [|split]].
  - exact (tlim_minus _ _ _ _ _ K A). - exact (tlim_opp _ _ _ B). - exact (tlim_opp _ _ _ D). - exact (tlim_minus _ _ _ _ _ K E).
Qed.
Lemma mlim_S l v p x : vlim v p x -> x <> vzero -> mlim (fun t => darboux_S l (v t)) p (darboux_S l x).
Proof.
  intros (A & B) N. assert (Nn := norm2_neq0 _ N).
  assert (Ac := tlim_conj _ _ _ A). assert (Bc := tlim_conj _ _ _ B).
  assert (AA := tlim_mult _ _ _ _ _ A Ac). assert (BB := tlim_mult _ _ _ _ _ B Bc).
  assert (AB := tlim_mult _ _ _ _ _ A Bc). assert (BA := tlim_mult _ _ _ _ _ B Ac).
  assert (Ln := tlim_plus _ _ _ _ _ AA BB).
  assert (K1 := tlim_const l p). assert (K2 := tlim_const (Cconj l) p). assert (K3 := tlim_const (l - Cconj l) p).
  split; [|split; [|split]].
  - exact (tlim_div _ _ _ _ _ (tlim_plus _ _ _ _ _ (tlim_mult _ _ _ _ _ K1 AA) (tlim_mult _ _ _ _ _ K2 BB)) Ln Nn).
  - exact (tlim_div _ _ _ _ _ (tlim_mult _ _ _ _ _ K3 AB) Ln Nn).
  - exact (tlim_div _ _ _ _ _ (tlim_mult _ _ _ _ _ K3 BA) Ln Nn).
  - exact (tlim_div _ _ _ _ _ (tlim_plus _ _ _ _ _ (tlim_mult _ _ _ _ _ K1 BB) (tlim_mult _ _ _ _ _ K2 AA)) Ln Nn).
Qed.

(** ** Multi-solitons *)
Definition sol_valid (ds : list (C * C)) : Prop := List.Forall (fun x : C * C => (0 < snd (fst x))%R /\ snd x <> RtoC 0) ds /\ NoDup (map fst ds).
Definition free_at (ds : list (C * C)) (t : R) : list (C * (C * C)) := map (fun x => (fst x, free_vec t x)) ds.
Definition sol_T (ds : list (C * C)) (t : R) : C -> mat2 := fst (darboux (free_at ds t) 0).
Definition roots (ls : list C) (l : C) : C := fold_right (fun k p => (l - k) * p) 1 ls.
Definition croots (ls : list C) (l : C) : C := fold_right (fun k p => (l - Cconj k) * p) 1 ls.
Lemma sol_valid_snoc ds x : sol_valid (ds ++ [x]) -> sol_valid ds /\ (0 < snd (fst x))%R /\ snd x <> RtoC 0 /\ ~ In (fst x) (map fst ds).
Proof.
  intros [A B]. apply List.Forall_app in A. destruct A as [A A']. inversion A' as [|? ? [X Y]]; subst.
  rewrite map_app in B. cbn [map] in B. apply NoDup_remove in B. destruct B as [B B']. rewrite app_nil_r in B, B'. repeat split; auto.
Qed.
Lemma free_vec_neq0 t x : free_vec t x <> vzero.
Proof. intros E. apply pair_equal_spec in E. destruct E as [E _]. now apply Cexp_neq0 in E. Qed.
Lemma sol_dvalid ds t : sol_valid ds -> dvalid (free_at ds t).
Proof.
  intros [A B]. split.
  - apply List.Forall_map. eapply List.Forall_impl; [|exact A]. intros x [H1 H2]. split; [|exact H1]. apply free_vec_neq0.
  - unfold free_at. rewrite map_map. exact B.
Qed.
Lemma free_at_snoc ds x t : free_at (ds ++ [x]) t = free_at ds t ++ [(fst x, free_vec t x)]. Proof. unfold free_at. now rewrite map_app. Qed.
Lemma roots_snoc ls x l : roots (ls ++ [x]) l = (l - x) * roots ls l.
Proof. induction ls as [|k ls IH]; cbn; [ring|]. fold (roots (ls ++ [x]) l) (roots ls l). rewrite IH. ring. Qed.
Lemma croots_snoc ls x l : croots (ls ++ [x]) l = (l - Cconj x) * croots ls l.
Proof. induction ls as [|k ls IH]; cbn; [ring|]. fold (croots (ls ++ [x]) l) (croots ls l). rewrite IH. ring. Qed.
Lemma roots_neq0 ls (l : C) : ~ In l ls -> roots ls l <> 0.
Proof.
  induction ls as [|k ls IH]; intros N; cbn; [apply C1_nz|]. fold (roots ls l). apply Cmult_neq_0.
  - intros E. apply N. left. now apply Csub_0.
  - apply IH. intros F. apply N. now right.
Qed.
Lemma croots_neq0 ls (l : C) : (0 <= snd l)%R -> List.Forall (fun k : C => 0 < snd k)%R ls -> croots ls l <> 0.
Proof.
  intros Hl. induction ls as [|k ls IH]; intros N; cbn; [apply C1_nz|]. fold (croots ls l). inversion N; subst. apply Cmult_neq_0.
  - intros E. apply (f_equal snd) in E. cbn in E. lra.
  - now apply IH.
Qed.
Lemma mv_vscal A c v : mv A (vscal c v) = vscal c (mv A v).
Proof. unfold mv, vscal. cbn [fst snd]. f_equal; ring. Qed.
Lemma tlim_scal c f p a : tlim f p a -> tlim (fun x => c * f x) p (c * a).
Proof. intros A. exact (tlim_mult _ _ _ _ _ (tlim_const c p) A). Qed.
Lemma S_diag1 l (A : C) : A <> 0 -> darboux_S l (A, RtoC 0) = M2 l 0 0 (Cconj l).
Proof.
  intros N. assert (N' : Cconj A <> 0) by (intros E; apply N; now apply Cconj_0). unfold darboux_S, norm2. cbn [fst snd].
  assert (E : Cconj 0 = 0) by (apply Ceq; cbn; ring). rewrite E. f_equal; field; split; assumption.
Qed.
Lemma S_diag2 l (B : C) : B <> 0 -> darboux_S l (RtoC 0, B) = M2 (Cconj l) 0 0 l.
Proof.
  intros N. assert (N' : Cconj B <> 0) by (intros E; apply N; now apply Cconj_0). unfold darboux_S, norm2. cbn [fst snd].
  assert (E : Cconj 0 = 0) by (apply Ceq; cbn; ring). rewrite E. f_equal; field; split; assumption.
Qed.
Lemma mlim_ext F G p L : (forall t, F t = G t) -> mlim F p L -> mlim G p L.
Proof. intros H (A & B & D & E). split; [|split; [|split]]; (eapply tlim_ext; [|first [exact A|exact B|exact D|exact E]]; intros t; cbv beta; now rewrite H). Qed.
Lemma mlim_eq F p L L' : mlim F p L -> L = L' -> mlim F p L'. Proof. now intros H <-. Qed.
Lemma mlim_const L p : mlim (fun _ => L) p L. Proof. repeat split; apply is_lim_const. Qed.
(** the exponential factor that normalises the free solution *)
Lemma free_scaled_p t x : vscal (Cexp (Ci * fst x * RtoC t)) (free_vec t x) = (RtoC 1, - snd x * Cexp (2 * Ci * fst x * RtoC t)).
Proof.
  unfold vscal, free_vec. cbn [fst snd]. f_equal.
  - rewrite <- Cexp_plus. rewrite <- Cexp_0. f_equal. ring.
  - replace (2 * Ci * fst x * RtoC t) with (Ci * fst x * RtoC t + Ci * fst x * RtoC t) by ring. rewrite Cexp_plus. ring.
Qed.
Lemma free_scaled_m t x : vscal (Cexp (- Ci * fst x * RtoC t)) (free_vec t x) = (Cexp (- (2) * Ci * fst x * RtoC t), - snd x).
Proof.
  unfold vscal, free_vec. cbn [fst snd]. f_equal.
  - replace (- (2) * Ci * fst x * RtoC t) with (- Ci * fst x * RtoC t + - Ci * fst x * RtoC t) by ring. now rewrite Cexp_plus.
  - transitivity (- snd x * (Cexp (- Ci * fst x * RtoC t) * Cexp (Ci * fst x * RtoC t))); [ring|]. rewrite <- Cexp_plus.
    replace (- Ci * fst x * RtoC t + Ci * fst x * RtoC t) with (RtoC 0) by ring. rewrite Cexp_0. ring.
Qed.
Lemma sol_T_snoc ds x t l : sol_T (ds ++ [x]) t l = mmul (shifted l (darboux_S (fst x) (mv (sol_T ds t (fst x)) (free_vec t x)))) (sol_T ds t l).
Proof. unfold sol_T. rewrite free_at_snoc, darboux_snoc. reflexivity. Qed.
Lemma sol_vec_neq0 ds x t : sol_valid (ds ++ [x]) -> mv (sol_T ds t (fst x)) (free_vec t x) <> vzero.
Proof. intros H. apply (sol_dvalid _ t) in H. rewrite free_at_snoc in H. exact (darboux_vec _ 0 _ H). Qed.
Lemma sol_lim_p ds l : sol_valid ds -> mlim (fun t => sol_T ds t l) p_infty (M2 (roots (map fst ds) l) 0 0 (croots (map fst ds) l)).
Proof.
  revert l. induction ds as [|x ds IH] using rev_ind; intros l H; [apply mlim_const|].
  destruct (sol_valid_snoc _ _ H) as (H0 & P & B & N).
  assert (V : vlim (fun t => mv (sol_T ds t (fst x)) (vscal (Cexp (Ci * fst x * RtoC t)) (free_vec t x))) p_infty (roots (map fst ds) (fst x), RtoC 0)).
  { replace (roots (map fst ds) (fst x), RtoC 0) with (mv (M2 (roots (map fst ds) (fst x)) 0 0 (croots (map fst ds) (fst x))) (RtoC 1, RtoC 0))
      by (unfold mv; cbn [a11 a12 a21 a22 fst snd]; f_equal; ring).
    apply mlim_mv; [now apply IH|]. split; cbn [fst snd].
    - eapply tlim_ext; [intros t; rewrite free_scaled_p; reflexivity|]. apply tlim_const.
    - eapply tlim_ext; [intros t; rewrite free_scaled_p; reflexivity|]. cbn [snd].
      eapply tlim_eq; [apply tlim_scal; exact (tlim_exp_p _ P)|]. ring. }
  assert (NA := roots_neq0 _ _ N).
  assert (L := mlim_mul _ _ _ _ _ (mlim_shifted _ _ _ l (mlim_S (fst x) _ _ _ V ltac:(intros E; apply pair_equal_spec in E; now destruct E))) (IH l H0)).
  eapply mlim_eq; [eapply mlim_ext; [|exact L]|].
  - intros t. cbv beta. rewrite sol_T_snoc. f_equal. f_equal. rewrite mv_vscal. apply darboux_S_scal; [apply Cexp_neq0|]. now apply sol_vec_neq0.
  - rewrite S_diag1 by exact NA. rewrite map_app. cbn [map]. rewrite roots_snoc, croots_snoc. unfold shifted, mmul. cbn [a11 a12 a21 a22]. f_equal; ring.
Qed.
Lemma sol_lim_m ds l : sol_valid ds -> mlim (fun t => sol_T ds t l) m_infty (M2 (croots (map fst ds) l) 0 0 (roots (map fst ds) l)).
Proof.
  revert l. induction ds as [|x ds IH] using rev_ind; intros l H; [apply mlim_const|].
  destruct (sol_valid_snoc _ _ H) as (H0 & P & B & N).
  assert (V : vlim (fun t => mv (sol_T ds t (fst x)) (vscal (Cexp (- Ci * fst x * RtoC t)) (free_vec t x))) m_infty (RtoC 0, - snd x * roots (map fst ds) (fst x))).
  { replace (RtoC 0, - snd x * roots (map fst ds) (fst x)) with (mv (M2 (croots (map fst ds) (fst x)) 0 0 (roots (map fst ds) (fst x))) (RtoC 0, - snd x))
      by (unfold mv; cbn [a11 a12 a21 a22 fst snd]; f_equal; ring).
    apply mlim_mv; [now apply IH|]. split; cbn [fst snd].
    - eapply tlim_ext; [intros t; rewrite free_scaled_m; reflexivity|]. cbn [fst]. exact (tlim_exp_m _ P).
    - eapply tlim_ext; [intros t; rewrite free_scaled_m; reflexivity|]. cbn [snd]. apply tlim_const. }
  assert (NA : - snd x * roots (map fst ds) (fst x) <> 0).
  { apply Cmult_neq_0; [|now apply roots_neq0]. intros E. apply B. replace (snd x) with (- - snd x) by ring. rewrite E. ring. }
  assert (L := mlim_mul _ _ _ _ _ (mlim_shifted _ _ _ l (mlim_S (fst x) _ _ _ V ltac:(intros E; apply pair_equal_spec in E; now destruct E))) (IH l H0)).
  eapply mlim_eq; [eapply mlim_ext; [|exact L]|].
  - intros t. cbv beta. rewrite sol_T_snoc. f_equal. f_equal. rewrite mv_vscal. apply darboux_S_scal; [apply Cexp_neq0|]. now apply sol_vec_neq0.
  - rewrite S_diag2 by exact NA. rewrite map_app. cbn [map]. rewrite roots_snoc, croots_snoc. unfold shifted, mmul. cbn [a11 a12 a21 a22]. f_equal; ring.
Qed.

Lemma zs_scal c l q v : zs_solution l q v -> zs_solution l q (fun t => vscal c (v t)).
Proof.
  intros H t. destruct (H t) as [A B]. unfold vscal. cbn [fst snd]. split.
  - eapply tderive_eq; [exact (tderive_scal c _ _ _ A)|]. ring.
  - eapply tderive_eq; [exact (tderive_scal c _ _ _ B)|]. ring.
Qed.
Lemma Cconj0 : Cconj 0 = 0. Proof. apply Ceq; cbn; ring. Qed.
Lemma free_zs (l a b : C) : zs_solution l (fun _ => 0) (fun t => (a * Cexp (- Ci * l * RtoC t), b * Cexp (Ci * l * RtoC t))).
Proof.
  intros t. cbn [fst snd]. rewrite Cconj0. split.
  - eapply tderive_eq; [apply tderive_scal; apply tderive_exp|]. ring.
  - eapply tderive_eq; [apply tderive_scal; apply tderive_exp|]. ring.
Qed.
Lemma sol_zs ds l (a b : C) : sol_valid ds ->
  zs_solution l (soliton ds) (fun t => mv (sol_T ds t l) (a * Cexp (- Ci * l * RtoC t), b * Cexp (Ci * l * RtoC t))).
Proof.
  intros H. assert (E : forall t, at_ t (map (fun x => (fst x, fun t => free_vec t x)) ds) = free_at ds t).
  { intros t. unfold at_, free_at. now rewrite map_map. }
  assert (M := darboux_many (fun _ => 0) (map (fun x => (fst x, fun t => free_vec t x)) ds)).
  eapply zs_ext; [| |apply M; [| |apply (free_zs l a b)]].
  - intros t. cbv beta. now rewrite E.
  - intros t. cbv beta. now rewrite E.
  - apply List.Forall_map. apply Forall_forall. intros x _. cbn [fst snd].
    eapply zs_ext; [| |apply (free_zs (fst x) 1 (- snd x))]; intros s; [reflexivity|]. unfold free_vec. f_equal; ring.
  - intros t. rewrite E. now apply sol_dvalid.
Qed.
Lemma exp_cancel (l : C) t : Cexp (Ci * l * RtoC t) * Cexp (- Ci * l * RtoC t) = 1.
Proof. rewrite <- Cexp_plus, <- Cexp_0. f_equal. ring. Qed.
Lemma sol_pos ds : sol_valid ds -> List.Forall (fun k : C => 0 < snd k)%R (map fst ds).
Proof. intros [A _]. apply List.Forall_map. eapply List.Forall_impl; [|exact A]. now intros x [H _]. Qed.
Definition sol_phi ds (l : C) (t : R) : C * C :=
  vscal (/ croots (map fst ds) l) (mv (sol_T ds t l) (1 * Cexp (- Ci * l * RtoC t), 0 * Cexp (Ci * l * RtoC t))).
Definition sol_psi ds (l : C) (t : R) : C * C :=
  vscal (/ croots (map fst ds) l) (mv (sol_T ds t l) (0 * Cexp (- Ci * l * RtoC t), 1 * Cexp (Ci * l * RtoC t))).
Lemma phi_1 ds l t : Cexp (Ci * l * RtoC t) * fst (sol_phi ds l t) = / croots (map fst ds) l * a11 (sol_T ds t l).
Proof.
  unfold sol_phi, vscal, mv. cbn [fst snd]. transitivity (/ croots (map fst ds) l * a11 (sol_T ds t l) * (Cexp (Ci * l * RtoC t) * Cexp (- Ci * l * RtoC t))); [ring|].
  rewrite exp_cancel. ring.
Qed.
Lemma phi_2 ds l t : Cexp (Ci * l * RtoC t) * snd (sol_phi ds l t) = / croots (map fst ds) l * a21 (sol_T ds t l).
Proof.
  unfold sol_phi, vscal, mv. cbn [fst snd]. transitivity (/ croots (map fst ds) l * a21 (sol_T ds t l) * (Cexp (Ci * l * RtoC t) * Cexp (- Ci * l * RtoC t))); [ring|].
  rewrite exp_cancel. ring.
Qed.
Lemma psi_1 ds l t : Cexp (- Ci * l * RtoC t) * fst (sol_psi ds l t) = / croots (map fst ds) l * a12 (sol_T ds t l).
Proof.
  unfold sol_psi, vscal, mv. cbn [fst snd]. transitivity (/ croots (map fst ds) l * a12 (sol_T ds t l) * (Cexp (Ci * l * RtoC t) * Cexp (- Ci * l * RtoC t))); [ring|].
  rewrite exp_cancel. ring.
Qed.
Lemma psi_2 ds l t : Cexp (- Ci * l * RtoC t) * snd (sol_psi ds l t) = / croots (map fst ds) l * a22 (sol_T ds t l).
Proof.
  unfold sol_psi, vscal, mv. cbn [fst snd]. transitivity (/ croots (map fst ds) l * a22 (sol_T ds t l) * (Cexp (Ci * l * RtoC t) * Cexp (- Ci * l * RtoC t))); [ring|].
  rewrite exp_cancel. ring.
Qed.
Lemma phi_jost ds l : sol_valid ds -> (0 <= snd l)%R -> jost_left l (soliton ds) (sol_phi ds l).
Proof.
  intros H Hl. assert (N := croots_neq0 _ _ Hl (sol_pos _ H)). destruct (sol_lim_m ds l H) as (A & _ & D & _). cbn [a11 a21] in A, D.
  split; [|split].
  - unfold sol_phi. apply zs_scal. now apply sol_zs.
  - eapply tlim_ext; [intros t; symmetry; apply phi_1|]. eapply tlim_eq; [apply tlim_scal; exact A|]. field. exact N.
  - eapply tlim_ext; [intros t; symmetry; apply phi_2|]. eapply tlim_eq; [apply tlim_scal; exact D|]. ring.
Qed.
Lemma psi_jost ds l : sol_valid ds -> (0 <= snd l)%R -> jost_right l (soliton ds) (sol_psi ds l).
Proof.
  intros H Hl. assert (N := croots_neq0 _ _ Hl (sol_pos _ H)). destruct (sol_lim_p ds l H) as (_ & B & _ & D). cbn [a12 a22] in B, D.
  split; [|split].
  - unfold sol_psi. apply zs_scal. now apply sol_zs.
  - eapply tlim_ext; [intros t; symmetry; apply psi_1|]. eapply tlim_eq; [apply tlim_scal; exact B|]. ring.
  - eapply tlim_ext; [intros t; symmetry; apply psi_2|]. eapply tlim_eq; [apply tlim_scal; exact D|]. field. exact N.
Qed.
Lemma blaschke_eq ls (l : C) : (0 <= snd l)%R -> List.Forall (fun k : C => 0 < snd k)%R ls -> blaschke ls l = / croots ls l * roots ls l.
Proof.
  intros Hl. induction ls as [|k ls IH]; intros H; cbn; [field; apply C1_nz|]. fold (blaschke ls l) (croots ls l) (roots ls l). inversion H; subst.
  rewrite IH by assumption. assert (N := croots_neq0 ls l Hl ltac:(assumption)). field. split; [exact N|].
  intros E. apply (f_equal snd) in E. cbn in E. lra.
Qed.
(** ** The scattering data of the multi-soliton *)
Theorem soliton_a ds (l : C) : sol_valid ds -> (0 <= snd l)%R -> nft_a (soliton ds) l (blaschke (map fst ds) l).
Proof.
  intros H Hl. exists (sol_phi ds l). split; [now apply phi_jost|]. destruct (sol_lim_p ds l H) as (A & _). cbn [a11] in A.
  eapply tlim_ext; [intros t; symmetry; apply phi_1|]. eapply tlim_eq; [apply tlim_scal; exact A|]. symmetry. apply blaschke_eq; [exact Hl|now apply sol_pos].
Qed.
Theorem soliton_b ds (xi : R) : sol_valid ds -> nft_b (soliton ds) xi 0.
Proof.
  intros H. exists (sol_phi ds (RtoC xi)). split; [apply phi_jost; [exact H|cbn; lra]|]. destruct (sol_lim_p ds (RtoC xi) H) as (_ & _ & D & _). cbn [a21] in D.
  eapply tlim_ext; [|apply (tlim_unit (fun t => / croots (map fst ds) (RtoC xi) * a21 (sol_T ds t (RtoC xi))) _
    (fun t => Cexp (- Ci * RtoC xi * RtoC t) * Cexp (- Ci * RtoC xi * RtoC t)))].
  - intros t. cbv beta. rewrite <- phi_2.
    transitivity (Cexp (- Ci * RtoC xi * RtoC t) * snd (sol_phi ds (RtoC xi) t) * (Cexp (Ci * RtoC xi * RtoC t) * Cexp (- Ci * RtoC xi * RtoC t))); [ring|].
    rewrite exp_cancel. ring.
  - eapply tlim_eq; [apply tlim_scal; exact D|]. ring.
  - intros t. rewrite Cmod_mult, !Cmod_Cexp, <- exp_plus, <- exp_0. f_equal. cbn. ring.
Qed.
Theorem soliton_norming_constant ds l b : sol_valid ds -> In (l, b) ds -> norming_constant (soliton ds) l b.
Proof.
  intros H I. assert (Hl : (0 < snd l)%R). { destruct H as [A _]. rewrite Forall_forall in A. now destruct (A _ I). }
  exists (sol_phi ds l), (sol_psi ds l). split; [apply phi_jost; [exact H|lra]|]. split; [apply psi_jost; [exact H|lra]|]. intros t.
  assert (K := darboux_kernel (free_at ds t) 0 (l, free_vec t (l, b)) (sol_dvalid _ t H) (in_map (fun x => (fst x, free_vec t x)) _ _ I)).
  cbn [fst snd] in K. fold (sol_T ds t l) in K. unfold sol_phi, sol_psi, vscal, mv, free_vec, vzero in *. cbn [fst snd] in *.
  apply pair_equal_spec in K. destruct K as [K1 K2]. split.
  - apply Csub_0. transitivity (- / croots (map fst ds) l * (a11 (sol_T ds t l) * Cexp (- Ci * l * RtoC t) + a12 (sol_T ds t l) * (- b * Cexp (Ci * l * RtoC t)))); [ring|].
    rewrite K1. ring.
  - apply Csub_0. transitivity (- / croots (map fst ds) l * (a21 (sol_T ds t l) * Cexp (- Ci * l * RtoC t) + a22 (sol_T ds t l) * (- b * Cexp (Ci * l * RtoC t)))); [ring|].
    rewrite K2. ring.
Qed.
