(** * C96: concrete calls, and Newton's method without evaluations *)
From Coq Require Import Reals Lra Lia List ZArith QArith Qreals.
From Coquelicot Require Import Coquelicot.
From Verif Require Import Base Loop Mem Fields ErrModel CExp CField CConj CDeriv DiscTables DiscModel DiscProps DiscPreProps DiscPreNse PolySpec MatSpec FscatterSpec FscatterModel FscatterProof FscatterProps
  ScatterSpec ScatterModel MatExp ScatterProof ScatterLoop ScatterRun ScatterProps ScatterMatProps ScatterNse PolyFmultProof NsevSpec NsevModel NsevProps NsevSafe NsevSafe2 NsevSafe3 NftSpec NsevFast NsevLib NsevCs NsevCsTop NsepModel NsepSpec NsepNewton NsepSafe NsepSafe2 NsepSafe3 NsepTop.
From Verif Require Import NsepFloq NsepGrid NsepGridTop NsevNc NsevCsEx NsepGridEx.
From Verif Require Import NsepSub NsepSub2 NsepSub3 NsepSubTop.
Import ListNotations.
Local Close Scope Q_scope.
Local Open Scope C_scope.

Lemma newton_blocks_none E De q r h K kappa o : p_max_evals o = O -> forall cnt nval main, newton_blocks E cnt nval De q r h K kappa o main = Ret (SUCCESS, main).
Proof. intros H. induction cnt as [|k IH]; intros nval main; [reflexivity|]. cbn [newton_blocks]. unfold refine_mainspec. rewrite H. cbn [Nat.eqb bind]. apply IH. Qed.

(** NEWTON with max_evals = 0 and no filtering always succeeds, and returns the guesses, moved by shift *)
Theorem nsep_newton_without_evaluations L (HL : lib_ok L) G D q T phase_shift kappa user dflt w d :
  let o := match user with Some o => o | None => dflt end in
  nsep_safe_call D (Some q) (Some T) false kappa o w -> p_loc o = PL_NEWTON -> p_filt o = PF_NONE -> p_max_evals o = O ->
  nse_to_akns (p_disc o) = Some d -> ((3 <= D)%nat \/ akns_upsampling_factor d = 1%nat) ->
  let shift := (- phase_shift / (2 * (snd T - fst T)))%R in
  exists w' user' dflt', fnft_nsep (plib_env L G) D (Some q) (Some T) phase_shift false kappa user dflt w = Ret (SUCCESS, w', user', dflt') /\
    (forall g, w_main w = Some g -> pcap w' = (pcap w * p_points o)%nat /\ exists l, w_main w' = Some l /\ forall i, (i < pcap w')%nat -> nth i l 0 = nth i g 0 + RtoC shift) /\
    (forall g, w_aux w = Some g -> acap w' = acap w /\ exists l, w_aux w' = Some l /\ forall i, (i < acap w')%nat -> nth i l 0 = nth i g 0 + RtoC shift).
Proof.
  intros o HS Hloc Hflt Hev Hd H3 shift. pose proof (sp_valid _ _ _ _ _ _ _ HS) as HV. destruct HS as [V Lq Hsz HDsz Room]. destruct V as [VD _ VT Vk VK VM Vs Vf]. specialize (Lq q eq_refl).
  destruct VT as (t0 & t1 & ET & HT). injection ET as ->. cbn [fst snd] in shift. destruct VD as (k & Hk & ED).
  assert (HD2 : (2 <= D)%nat) by (rewrite ED; apply (Nat.pow_le_mono_r 2 1 k); lia).
  set (qp := demodulated D (t0, t1) shift q). assert (Lqp : length qp = D) by (unfold qp, demodulated; now rewrite map_length, seq_length).
  set (h := ((t1 - t0) / INR D)%R). assert (Hh : (0 < h)%R) by (apply Rdiv_lt_0_compat; [lra|apply lt_0_INR; lia]).
  destruct (pre_exists L HL D qp h kappa _ d Hd Lqp Hh HD2 H3) as (p & Ep & PD & _).
  destruct (w_K w) as [K|] eqn:EK; [|contradiction]. destruct (w_M w) as [MM|] eqn:EM; [|contradiction].
  assert (Nu : nse_upsampling_factor (p_disc o) <> O).
  { unfold nse_upsampling_factor, via. rewrite Hd. apply ups_pos. destruct (p_disc o); try discriminate Hd; injection Hd as <-; repeat split; discriminate. }
  assert (Eo1 : shift_box o (- shift) = o) by (unfold shift_box; now rewrite Hflt).
  assert (Eo2 : forall c, update_box h c o = o) by (intros c; unfold update_box; now rewrite Hflt).
  set (t := {| t_o := o; t_K := K; t_main := w_main w; t_M := MM; t_aux := w_aux w |}).
  set (t' := {| t_o := o; t_K := match w_main w with Some _ => (K * p_points o)%nat | None => K end; t_main := w_main w; t_M := MM; t_aux := w_aux w |}).
  assert (EN : nsep_newton (plib_env L G) D qp (t0, t1) kappa t = Ret (SUCCESS, t')).
  { unfold nsep_newton. cbv zeta. cbn [t t_o fst snd]. destruct (Nat.eqb_spec (nse_upsampling_factor (p_disc o)) 0); [contradiction|]. fold h. cbn [plib_env pe_pre]. rewrite Ep. cbn [bind].
    rewrite PD, Nat.eqb_refl. cbn [negb]. rewrite Eo2. cbn [set_to t_main t_K t_aux t_M t_o]. fold (plib_env L G). unfold t'.
    unfold t. cbn [t_main t_K t_aux t_M t_o]. destruct (w_main w) as [g|]; cbv beta iota; [rewrite newton_blocks_none by exact Hev; cbn [bind]; change (negb (SUCCESS =? SUCCESS)%Z) with false; cbv iota; unfold pfilter; cbn [set_to set_tmain t_o t_K t_main t_M t_aux]; rewrite Hflt; cbn [bind]; unfold check; change (SUCCESS =? SUCCESS)%Z with true; cbv iota
      |]; cbn [bind set_counts set_to set_tmain t_o t_K t_main t_M t_aux]; change (SUCCESS =? SUCCESS)%Z with true; cbn [negb];
    (destruct (w_aux w) as [a|]; [|reflexivity]); unfold refine_auxspec; rewrite Hev; cbn [Nat.eqb bind]; unfold check; change (SUCCESS =? SUCCESS)%Z with true; cbv iota; unfold pfilter; rewrite ?Hflt; reflexivity. }
  destruct Room as [R1 R2]. unfold main_size, pcap, acap in R1, R2. rewrite Hloc, EK in R1. rewrite EM in R2.
  assert (ShL : forall n l, (forall v, l = Some v -> (n <= length v)%nat) -> exists l', shift_points n shift l = Ret l' /\ forall g, l = Some g -> exists v, l' = Some v /\ forall i, (i < n)%nat -> nth i v 0 = nth i g 0 + RtoC shift).
  { intros n l Hl. unfold shift_points. destruct l as [g|]; [|eexists; split; [reflexivity|discriminate]]. specialize (Hl g eq_refl).
    destruct (for_inv (fun k (v : list C) => length v = length g /\ (forall i, (i < k)%nat -> nth i v 0 = nth i g 0 + RtoC shift) /\ forall i, (k <= i)%nat -> nth i v 0 = nth i g 0) (fun i l => v <- aget l i ;; aset l i (v + RtoC shift)) n 0 g) as (v & Ev & Lv & Hv & _).
    - repeat split; lia.
    - intros i v Hi (Lv & A & B). rewrite (aget_nth v (RtoC 0)) by lia. cbn [bind]. rewrite aset_upd by lia. eexists. split; [reflexivity|]. split; [now rewrite upd_length|]. split.
      + intros j Hj. rewrite nth_upd by lia. destruct (Nat.eqb_spec j i) as [->|N]; [rewrite B by lia; reflexivity|apply A; lia].
      + intros j Hj. rewrite nth_upd by lia. destruct (Nat.eqb_spec j i); [lia|apply B; lia].
    - rewrite Ev. cbn [bind]. eexists. split; [reflexivity|]. intros g' E. injection E as <-. exists v. split; [reflexivity|]. exact Hv. }
  destruct (ShL (t_K t') (t_main t')) as (m' & Em' & Hm'). { cbn [t' t_K t_main]. intros v Ev. rewrite Ev. now apply R1. }
  destruct (ShL (t_M t') (t_aux t')) as (a' & Ea' & Ha'). { cbn [t' t_M t_aux]. exact R2. }
  assert (Run : nsep_run (plib_env L G) D (Some q) (Some (t0, t1)) phase_shift false kappa o w = Ret (SUCCESS, (shift_box o shift, to_outs (set_taux (set_tmain t' m') a')))).
  { unfold nsep_run. cbv zeta. rewrite (proj2 (proj1 (nsep_check_valid D (Some q) (Some (t0, t1)) false kappa o w)) HV).
    change (negb (SUCCESS =? SUCCESS)%Z) with false. cbv iota. cbn [deref bind]. rewrite EK, EM. cbn [deref bind plib_env pe_alloc negb].
    assert (ES : lam_shift (t0, t1) phase_shift = shift) by (unfold lam_shift, shift; cbn [fst snd]; field; lra). rewrite ES.
    rewrite (demod_loop D (t0, t1) shift q Lq). cbn [bind]. fold qp. rewrite Eo1. fold t. unfold nsep_locate. cbn [t t_o]. rewrite Hloc. fold t. fold (plib_env L G). rewrite EN. cbn [bind].
    unfold check. change (SUCCESS =? SUCCESS)%Z with true. cbv iota. cbn [bind]. change (SUCCESS =? SUCCESS)%Z with true. cbn [negb]. rewrite Em'. cbn [bind]. rewrite Ea'. reflexivity. }
  exists (to_outs (set_taux (set_tmain t' m') a')).
  assert (EF : exists user' dflt', fnft_nsep (plib_env L G) D (Some q) (Some (t0, t1)) phase_shift false kappa user dflt w = Ret (SUCCESS, to_outs (set_taux (set_tmain t' m') a'), user', dflt')).
  { unfold fnft_nsep. subst o. destruct user as [o|]; rewrite Run; cbn [bind]; eexists _, _; reflexivity. }
  destruct EF as (user' & dflt' & EF). exists user', dflt'. split; [exact EF|]. unfold pcap, acap. rewrite EK, EM. cbn [to_outs w_K w_M w_main w_aux set_taux set_tmain t_K t_M t_main t_aux].
  split; intros g Eg.
  - cbn [t' t_K t_main] in *. rewrite Eg in *. split; [reflexivity|]. exact (Hm' g eq_refl).
  - cbn [t' t_M t_aux] in *. split; [reflexivity|]. exact (Ha' g Eg).
Qed.

(** the options of NsepGridEx with another localization method *)
Definition pnew : popts := {| p_loc := PL_NEWTON; p_filt := PF_NONE; p_box := p_box po; p_max_evals := 0; p_disc := N_BO; p_norm := false; p_floquet := (-1, 1)%R; p_points := 2; p_Dsub := 0; p_tol := Fin (-1) |}.
Definition wnew : pouts := {| w_K := Some 1%nat; w_main := Some [RtoC 1; RtoC 2]; w_M := Some 1%nat; w_aux := Some [RtoC 3] |}.
Lemma pnew_call : nsep_safe_call 2 (Some q5) (Some (0, 1)%R) false 1 pnew wnew.
Proof.
  constructor; try discriminate.
  - constructor; cbn; auto; try discriminate; [exists 1%nat; split; [lia|reflexivity]|]. exists 0%R, 1%R. split; [reflexivity|lra].
  - intros l E. injection E as <-. reflexivity.
  - constructor; intros l E; injection E as <-; cbn; lia.
Qed.
(** "the guesses are guesses for the spectrum": a call that may not evaluate anything returns the guesses.  It does not when phase_shift <> 0 *)
Theorem nsep_newton_returns_guesses_refuted :
  ~ (forall L G, lib_ok L -> forall D q T phase_shift kappa o dflt w w' user' dflt', nsep_safe_call D (Some q) (Some T) false kappa o w -> p_loc o = PL_NEWTON -> p_max_evals o = O -> p_points o = 1%nat ->
     fnft_nsep (plib_env L G) D (Some q) (Some T) phase_shift false kappa (Some o) dflt w = Ret (SUCCESS, w', user', dflt') ->
     forall g l, w_aux w = Some g -> w_aux w' = Some l -> forall i, (i < acap w')%nat -> (i < acap w)%nat -> nth i l 0 = nth i g 0).
Proof.
  intros H. set (o1 := {| p_loc := PL_NEWTON; p_filt := PF_NONE; p_box := p_box po; p_max_evals := 0; p_disc := N_BO; p_norm := false; p_floquet := (-1, 1)%R; p_points := 1; p_Dsub := 0; p_tol := Fin (-1) |}).
  assert (HS : nsep_safe_call 2 (Some q5) (Some (0, 1)%R) false 1 o1 wnew) by (destruct pnew_call as [V A B F' R]; destruct V, R; constructor; [constructor; auto| | | |constructor; intros l E; injection E as <-; cbn; lia]; auto).
  destruct (nsep_newton_without_evaluations L7 L7_ok G11' 2 q5 (0, 1)%R 2 1 (Some o1) nsep_default_opts wnew A_BO HS eq_refl eq_refl eq_refl eq_refl (or_intror eq_refl)) as (w' & u' & d' & E & _ & Ha).
  destruct (Ha [RtoC 3] eq_refl) as (Ec & l & El & Hl). cbn [acap wnew w_M] in Ec. specialize (Hl 0%nat ltac:(lia)).
  specialize (H L7 G11' L7_ok _ _ _ _ _ _ _ _ _ _ _ HS eq_refl eq_refl eq_refl E _ l eq_refl El 0%nat ltac:(lia) ltac:(cbn; lia)). rewrite Hl in H. cbn [nth fst snd] in H.
  apply (f_equal fst) in H. cbn in H. lra.
Qed.
