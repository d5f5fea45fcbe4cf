(** * C96: a successful call with SUBSAMPLE_AND_REFINE *)
From Coq Require Import Reals Lra Lia List ZArith QArith Qreals.
From Coquelicot Require Import Coquelicot.
From Verif Require Import Base Loop Mem Fields ErrModel CExp CField CConj CDeriv DiscTables DiscModel DiscProps DiscPreProps DiscPreNse PolySpec MatSpec FscatterSpec FscatterModel FscatterProof FscatterProps
  ScatterSpec ScatterModel MatExp ScatterProof ScatterLoop ScatterRun ScatterProps ScatterMatProps ScatterNse PolyFmultProof NsevSpec NsevModel NsevProps NsevSafe NsevSafe2 NsevSafe3 NftSpec NsevFast NsevLib NsevCs NsevCsTop NsepModel NsepSpec NsepNewton NsepSafe NsepSafe2 NsepSafe3 NsepTop.
From Verif Require Import NsepFloq NsepGrid NsepGridTop NsevNc NsevCsEx NsepGridEx.
From Verif Require Import NsepSub NsepSub2 NsepSub3 NsepSubTop NsepSubEx.
Import ListNotations.
Local Close Scope Q_scope.
Local Open Scope C_scope.

(** a root finder that tries the point 1 *)
Definition roots1 (deg : nat) (p buf : list C) : out (Z * list C) :=
  if Ceq_dec (peval (K := CF) p (RtoC 1)) (RtoC 0) then Ret (SUCCESS, repeat (RtoC 1) deg ++ skipn deg buf) else Ret (EC_OTHER, buf).
Definition with_roots (L : lib) : lib := {| l_junk := l_junk L; l_junkR := l_junkR L; l_junkZ := l_junkZ L; l_junk1 := l_junk1 L; l_expo := l_expo L; l_0 := l_0 L; l_1 := l_1 L; l_2 := l_2 L; l_p := l_p L; l_roots := roots1 |}.
Definition L1 : lib := with_roots L7.
Lemma L1_ok : lib_ok L1.
Proof. constructor; intros; apply repeat_length. Qed.
Lemma C1_neq : RtoC 1 <> RtoC 0.
Proof. intros E. apply RtoC_inj in E. lra. Qed.
Lemma L1_eigen : eigen_ok L1 0.
Proof.
  intros deg p buf c v H1 H2 H3 H. cbn in H. unfold roots1 in H. destruct (Ceq_dec _ _) as [E|_]; injection H as <- <-.
  - split; [rewrite app_length, repeat_length, skipn_length; lia|]. intros _ i Hi. rewrite app_nth1 by (rewrite repeat_length; exact Hi). rewrite (nth_indep _ _ (RtoC 1)) by (rewrite repeat_length; exact Hi). rewrite nth_repeat.
    split; [exact C1_neq|]. rewrite E, Cmod_0. lra.
  - split; [reflexivity|discriminate].
Qed.
Lemma roots1_success deg (p buf : list C) : (deg <= length buf)%nat -> (peval (K := CF) p (RtoC 1) : C) = RtoC 0 -> exists v, roots1 deg p buf = Ret (SUCCESS, v) /\ length v = length buf.
Proof. intros H E. unfold roots1. destruct (Ceq_dec _ _); [|contradiction]. eexists. split; [reflexivity|]. rewrite app_length, repeat_length, skipn_length. lia. Qed.

Section Success.
Variable G : nat -> nat -> list C -> nat -> xreal * xreal -> list C -> out (Z * nat * list C).
Let E := plib_env L1 G.
Variables (D : nat) (T : R * R) (kappa : Z) (t : pst) (d : akns_disc) (q : list C) (pp ps : pre_out) (Dsub0 ns m : nat).
Hypothesis HT : (fst T < snd T)%R.
Hypothesis Hkap : kappa = 1%Z \/ kappa = (-1)%Z.
Hypothesis Hd : nse_to_akns (p_disc (t_o t)) = Some d.
Hypothesis Hf : is_fast d.
Let ups := akns_upsampling_factor d.
Let h := ((snd T - fst T) / INR D)%R.
Let hs := (INR ns * h)%R.
Let N := (m * ups)%nat.
Hypothesis Hm2 : (2 <= m)%nat.
Hypothesis Hns : (1 <= ns)%nat.
Hypothesis Hprod : (m * ns = D)%nat.
Hypothesis Heven : exists j, m = (2 * j)%nat.
Hypothesis HN : (Z.of_nat N <= 2147483647)%Z.
Hypothesis Hpre : nse_preprocess (l_junk L1) (l_junkR L1) D (Some q) h kappa D (p_disc (t_o t)) = Ret (inr pp).
Hypothesis Hch : choose_Dsub D (p_Dsub (t_o t)) = Ret Dsub0.
Hypothesis Hpres : nse_preprocess (l_junk L1) (l_junkR L1) D (Some q) h kappa Dsub0 (p_disc (t_o t)) = Ret (inr ps).
Hypothesis HDs : po_Dsub ps = m.
Hypothesis Hfirst : po_first ps = O.
Hypothesis Hlast : po_last ps = ((m - 1) * ns)%nat.
Hypothesis Lq : length (po_q ps) = N.
Hypothesis Lr : length (po_r ps) = N.
Hypothesis Hr : forall i, (i < N)%nat -> nthC (po_r ps) i = - RtoC (IZR kappa) * Cconj (nthC (po_q ps) i).
Hypothesis Hmod : d = A_2SPLIT2_MODAL -> kappa = (-1)%Z -> forall i, (i < N)%nat -> (Rabs (step_size d hs) * Cmod (nthC (po_q ps) i) < 1)%R.
Hypothesis Hx : forall j, (j < N)%nat -> fast_exact d (step_size d hs) (nthC (po_q ps) j) (nthC (po_r ps) j).
Let S lam := scattering d (weights d) hs (nthC (po_q ps)) (nthC (po_r ps)) N lam.
Hypothesis Hfilt : p_filt (t_o t) = PF_NONE.
Hypothesis Hev : p_max_evals (t_o t) = O.
Hypothesis Hpts : p_points (t_o t) = 1%nat.
Hypothesis Htr : a11 (S 0) + a22 (S 0) = RtoC (spine_rhs (t_o t) 0).
Hypothesis Hnorm : p_norm (t_o t) = false.

Lemma subsample_success : (forall l, t_main t = Some l -> (t_K t <= length l)%nat) -> (forall l, t_aux t = Some l -> (t_M t <= length l)%nat) -> t_main t <> None ->
  exists t', nsep_subsample E false D q T kappa t = Ret (SUCCESS, t') /\ t_K t' = Nat.min (t_K t) (N * akns_degree d) /\ t_main t' <> None /\
   (forall l, t_main t' = Some l -> (t_K t' <= length l)%nat) /\ (forall l, t_aux t' = Some l -> (t_M t' <= length l)%nat).
Proof.
  intros Hmain Haux Hnn. unfold nsep_subsample. cbv zeta. pose proof (sub_ups t d Hd Hf) as Hu12. fold ups in Hu12. assert (Hu : ups <> O) by lia.
  assert (Hh : (0 < h)%R) by (apply Rdiv_lt_0_compat; [lra|apply lt_0_INR; nia]). assert (Hhs : (0 < hs)%R) by (apply Rmult_lt_0_compat; [apply lt_0_INR; lia|assumption]).
  assert (Eu : nse_upsampling_factor (p_disc (t_o t)) = ups) by (unfold nse_upsampling_factor, via; now rewrite Hd). rewrite Eu.
  set (rd := if Nat.eqb ups 2 then N_CF4_2 else _). clearbody rd.
  destruct (Nat.eqb_spec ups 0); [contradiction|]. fold h. cbn [E plib_env pe_pre]. rewrite Hpre. cbn [bind]. rewrite Hch. cbn [bind]. rewrite Hpres. cbn [bind]. rewrite HDs.
  destruct (Nat.eqb_spec m 0); [lia|].
  assert (Hdiv : (D / m = ns)%nat) by (rewrite <- Hprod, Nat.mul_comm; apply Nat.div_mul; lia). rewrite Hdiv, Hfirst, Hlast.
  assert (Hl : ((m - 1) * ns + ns = D)%nat) by nia. rewrite Hl, !Nat.eqb_refl. cbn [negb orb]. fold N hs.
  pose proof (degree_pos d Hf) as Nd. assert (HN2 : (2 <= N)%nat) by (unfold N; nia).
  unfold nse_fscatter_numel, nse_degree, via. rewrite Hd. destruct (Nat.eqb_spec (akns_degree d) 0); [contradiction|].
  destruct (poly_fmult_numel_value 4 (akns_degree d) N ltac:(lia) ltac:(lia)) as (k & Ek & Hk2 & _). match type of Ek with ?l = _ => change (fmult_numel 4 (akns_degree d) N) with l end. rewrite Ek. cbn [bind].
  set (numel := (4 * (akns_degree d + 1) * 2 ^ k)%nat) in *.
  destruct (Nat.eqb_spec numel 0) as [E0|_]; [pose proof (Nat.pow_nonzero 2 k); unfold numel in E0; nia|]. cbn [negb E plib_env pe_alloc pe_fscatter pe_junk].
  destruct (nfscatter_entries (l_expo L1) (l_0 L1) (l_1 L1) (l_2 L1) (l_p L1) (lk_0 L1 L1_ok) (lk_1 L1 L1_ok) (lk_2 L1 L1_ok) (lk_p L1 L1_ok) (p_norm (t_o t)) N (po_q ps) (po_r ps) (l_junk L1 0 numel) hs (p_disc (t_o t)) d numel Hd Hf HN2 HN Hhs)
    as (tm & W & -> & Lt & L4 & HW & Hent); try lia; try exact Hx.
  { unfold akns_fscatter_numel. destruct (Nat.eqb_spec (akns_degree d) 0); [contradiction|exact Ek]. }
  { rewrite (lk_junk L1 L1_ok). lia. }
  cbn [bind or_nil]. unfold check. change (Z.eqb SUCCESS SUCCESS) with true. cbv iota. specialize (HW Hnorm). rewrite Hnorm, HW in *.
  set (deg := (N * akns_degree d)%nat) in *.
  assert (Edeg : exists j, (deg = 2 * j)%nat /\ (deg / 2 = j)%nat).
  { destruct Heven as (j & Ej). exists (j * ups * akns_degree d)%nat. assert (X : (deg = 2 * (j * ups * akns_degree d))%nat) by (unfold deg, N; rewrite Ej; ring). split; [exact X|]. rewrite X, Nat.mul_comm. apply Nat.div_mul. lia. }
  destruct Edeg as (mm & Edeg & Em). assert (Hdeg1 : (1 <= deg)%nat) by (unfold deg; nia).
  assert (Eo : forall c, update_box hs c (t_o t) = t_o t) by (intros c; unfold update_box; now rewrite Hfilt). rewrite Eo. set (tol := xscale _ _). clearbody tol.
  cbn [t_main set_to t_aux t_K t_M t_o].
  set (roots := skipn (3 * (deg + 1)) tm). assert (Lro : (deg <= length roots)%nat) by (unfold roots; rewrite skipn_length; lia).
  assert (Hs0 : hs <> 0%R) by lra.
  destruct (t_main t) as [l0|]; [|contradiction]. cbv beta iota. specialize (Hmain l0 eq_refl).
  destruct (trace_poly_value deg tm ltac:(lia)) as (p0 & Ep & Lp0 & V0). rewrite Ep. cbn [bind]. rewrite Em. rewrite (aget_nth p0 (RtoC 0)) by lia. cbn [bind]. rewrite Hpts.
  cbn [spine_loop]. rewrite Em, aset_upd by lia. cbn [bind]. set (p1 := upd p0 mm _). fold (plib_env L1 G).
  assert (Z1 : zmap d hs 0 = 1).
  { unfold zmap. replace (2 * Ci * 0 * RtoC hs / RtoC (INR (akns_degree d) * INR (akns_upsampling_factor d))) with (RtoC 0) by (unfold Cdiv; ring). apply Cexp_0. }
  assert (P1 : (peval (K := CF) p1 (RtoC 1) : C) = RtoC 0).
  { rewrite <- Z1. assert (X : RtoC (powerRZ 2 0) * peval (K := CF) p1 (zmap d hs 0) = Cexp (Ci * 0 * RtoC (INR N * step_size d hs)) * (a11 (S 0) + a22 (S 0) + - RtoC (spine_rhs (t_o t) 0))).
    { apply (trace_value (IZR kappa) d hs (nthC (po_q ps)) (nthC (po_r ps)) N) with (tm := tm) (m := mm); auto; try lia.
      - destruct Hkap as [-> | ->]; [now left|now right].
      - intros E1 E2. apply Hmod; [exact E1|]. now apply eq_IZR.
      - unfold p1. rewrite upd_length. exact Lp0.
      - intros lam. specialize (Hent lam 0%nat 0%nat ltac:(lia) ltac:(lia)). cbn [Nat.mul Nat.add skipn entry] in Hent. rewrite (proj1 (shifted_diag _ _ _ _)) in Hent. exact Hent.
      - fold deg. intros i Hi. unfold p1. rewrite nth_upd by lia. destruct (Nat.eqb_spec i mm) as [->|Ni]; [rewrite V0 by lia; rewrite RtoC_mult; change (- 0)%Z with 0%Z; ring|rewrite V0 by lia; ring]. }
    rewrite Htr in X. change (powerRZ 2 0) with 1%R in X. rewrite Cmult_1_l in X. rewrite X. ring. }
  assert (Lp1 : length p1 = (deg + 1)%nat) by (unfold p1; rewrite upd_length; exact Lp0).
  unfold sub_roots at 1. cbn [E plib_env pe_roots L1 with_roots l_roots]. destruct (roots1_success deg p1 roots Lro P1) as (v & -> & Lv). cbn [bind]. change (negb (SUCCESS =? SUCCESS)%Z) with false. cbv iota.
  destruct (z2l_value deg hs v _ d Hd Nd Hu ltac:(lia) Hs0) as (v1 & -> & Lv1 & _). cbn [bind]. change (negb (SUCCESS =? SUCCESS)%Z) with false. cbv iota.
  unfold pfilter. rewrite Hfilt. unfold pfilter_real. cbn [bind]. change (negb (SUCCESS =? SUCCESS)%Z) with false. cbv iota. cbn [bind]. change (negb (SUCCESS =? SUCCESS)%Z) with false. cbv iota. cbn [bind]. change (negb (SUCCESS =? SUCCESS)%Z) with false. cbv iota.
  unfold sub_refine at 1, refine_mainspec, pfilter, pfilter_real. rewrite Hev, Hfilt. cbn [Nat.eqb bind]. change (negb (SUCCESS =? SUCCESS)%Z) with false. cbv iota. cbn [bind Nat.add]. change (negb (SUCCESS =? SUCCESS)%Z) with false. cbv iota. cbn [bind]. change (negb (SUCCESS =? SUCCESS)%Z) with false. cbv iota.
  cbn [bind]. change (negb (SUCCESS =? SUCCESS)%Z) with false. cbv iota.
  set (k1 := Nat.min (t_K t) deg).
  assert (EM : exists l1, (if (t_K t <? deg)%nat then main <- copy (t_K t - 0) 0 v1 l0;; Ret (SUCCESS, (t_K t, main, v1)) else main <- copy deg 0 v1 l0;; Ret (SUCCESS, (deg, main, v1))) = Ret (SUCCESS, (k1, l1, v1)) /\ length l1 = length l0).
  { unfold k1. destruct (Nat.ltb_spec (t_K t) deg); (edestruct (copy_seg) as (l1 & E1 & Hs1 & _); [| |rewrite E1; cbn [bind]; exists l1; rewrite ?Nat.min_l, ?Nat.min_r by lia; split; [reflexivity|now apply seg_length in Hs1]]); lia. }
  destruct EM as (l1 & -> & Ll1). cbn [bind]. change (negb (SUCCESS =? SUCCESS)%Z) with false. cbv iota. cbn [t_aux set_tmain set_to t_M t_o t_K t_main].
  destruct (t_aux t) as [a0|]; cbv beta iota.
  2:{ cbn [bind]. change (negb (SUCCESS =? SUCCESS)%Z) with false. cbv iota. eexists. split; [reflexivity|]. cbn. split; [reflexivity|]. split; [discriminate|]. split; [|discriminate]. intros l El. injection El as <-. unfold k1. lia. }
  specialize (Haux a0 eq_refl).
  assert (ER : exists c v2, roots1 deg (firstn (deg + 1) (skipn (deg + 1) tm)) v1 = Ret (c, v2) /\ length v2 = length v1).
  { unfold roots1. destruct (Ceq_dec _ _); eexists _, _; (split; [reflexivity|]); [rewrite app_length, repeat_length, skipn_length; lia|reflexivity]. }
  destruct ER as (c & v2 & -> & Lv2). cbn [bind].
  destruct (z2l_value deg hs v2 _ d Hd Nd Hu ltac:(lia) Hs0) as (v3 & -> & Lv3 & _). cbn [bind]. change (negb (SUCCESS =? SUCCESS)%Z) with false. cbv iota. cbn [bind]. change (negb (SUCCESS =? SUCCESS)%Z) with false. cbv iota.
  unfold refine_auxspec. cbn [Nat.eqb bind]. change (negb (SUCCESS =? SUCCESS)%Z) with false. cbv iota. cbn [bind]. change (negb (SUCCESS =? SUCCESS)%Z) with false. cbv iota. cbn [bind]. change (negb (SUCCESS =? SUCCESS)%Z) with false. cbv iota.
  set (M' := if (t_M t <? deg)%nat then t_M t else deg). assert (HM : (M' <= t_M t)%nat /\ (M' <= deg)%nat) by (unfold M'; destruct (Nat.ltb_spec (t_M t) deg); lia).
  destruct (copy_seg M' 0 v3 a0) as (l2 & E2 & Hs2 & _); [lia|lia|]. rewrite E2. cbn [bind]. change (negb (SUCCESS =? SUCCESS)%Z) with false. cbv iota.
  eexists. split; [reflexivity|]. cbn. split; [reflexivity|]. split; [discriminate|]. apply seg_length in Hs2. split; intros l El; injection El as <-; unfold k1; lia.
Qed.
End Success.

Lemma Csqrt_zero : Csqrt 0 = 0.
Proof. unfold Csqrt. destruct (Ceq_dec 0 0); [reflexivity|contradiction]. Qed.
Lemma zero_step h : fast_step A_2SPLIT2A h 0 0 0 = mone.
Proof.
  cbn [fast_step]. assert (EA : expA 0 (h / 2) = mone).
  { unfold expA. replace (- Ci * 0 * RtoC (h / 2)) with (RtoC 0) by ring. replace (Ci * 0 * RtoC (h / 2)) with (RtoC 0) by ring. rewrite Cexp_0. reflexivity. }
  assert (EB : expB 0 0 (RtoC h) = mone).
  { unfold expB. replace (0 * 0) with (RtoC 0) by ring. rewrite Csqrt_zero. unfold expB_at, mone. apply mat2_eq; cbn [a11 a12 a21 a22]; try ring; (replace (0 * RtoC h) with (RtoC 0) by ring); unfold Ccosh; (replace (- 0) with (RtoC 0) by ring); rewrite Cexp_0; field; intros E; apply RtoC_inj in E; lra. }
  rewrite EA, EB. unfold mone. mring.
Qed.
Lemma zero_scattering w h (q r : nat -> C) n : (forall j, (j < n)%nat -> q j = 0 /\ r j = 0) -> scattering A_2SPLIT2A w h q r n 0 = mone.
Proof.
  intros H. unfold scattering. cbn [akns_degree]. induction n as [|n IH]; [reflexivity|]. cbn [descending]. rewrite IH by (intros j Hj; apply H; lia). destruct (H n ltac:(lia)) as [-> ->]. rewrite zero_step. unfold mone. mring.
Qed.

Definition psub : popts := {| p_loc := PL_SUBSAMPLE_AND_REFINE; p_filt := PF_NONE; p_box := p_box po; p_max_evals := 0; p_disc := N_2SPLIT2A; p_norm := false; p_floquet := (1, 1)%R; p_points := 1; p_Dsub := 4; p_tol := Fin (-1) |}.
Definition q0 : list C := repeat (RtoC 0) 8.
Lemma psub_call : nsep_safe_call 8 (Some q0) (Some (0, 1)%R) false 1 psub w5.
Proof.
  constructor; try discriminate.
  - constructor; cbn; auto; try discriminate; [exists 3%nat; split; [lia|reflexivity]|]. exists 0%R, 1%R. split; [reflexivity|lra].
  - intros l E. injection E as <-. reflexivity.
  - constructor; intros l E; injection E as <-; cbn; lia.
Qed.
Lemma demod_zero D T s (k : nat) : nth k (demodulated D T s (repeat (RtoC 0) D)) 0 = 0.
Proof.
  destruct (Nat.lt_ge_cases k D) as [Hk|Hk]; [|apply nth_overflow; unfold demodulated; rewrite map_length, seq_length; exact Hk].
  unfold demodulated. match goal with |- nth k (map ?f _) _ = _ => rewrite (nth_indep _ _ (f 0%nat)) by (rewrite map_length, seq_length; exact Hk); rewrite (map_nth f) end.
  rewrite seq_nth by exact Hk. cbn [Nat.add]. rewrite nth_repeat. ring.
Qed.
Theorem nsep_subsample_call (phase_shift : R) : exists w' user' dflt',
  fnft_nsep (plib_env L1 G11') 8 (Some q0) (Some (0, 1)%R) phase_shift false 1 (Some psub) nsep_default_opts w5 = Ret (SUCCESS, w', user', dflt') /\ (1 <= pcap w')%nat.
Proof.
  set (shift := (- phase_shift / (2 * (1 - 0)))%R). set (qp := demodulated 8 (0, 1)%R shift q0). set (h := ((1 - 0) / INR 8)%R).
  assert (Lqp : length qp = 8%nat) by (unfold qp, demodulated; now rewrite map_length, seq_length).
  assert (Hh : (0 < h)%R) by (unfold h; apply Rdiv_lt_0_compat; [lra|apply lt_0_INR; lia]).
  assert (Hfast : is_fast A_2SPLIT2A) by (right; discriminate).
  destruct (pre_exists L1 L1_ok 8 qp h 1 N_2SPLIT2A A_2SPLIT2A eq_refl Lqp Hh ltac:(lia) (or_intror eq_refl)) as (p & Ep & PD & _).
  destruct (choose_Dsub_pow 8 4) as (j & Ech); [lia|cbn; lia|cbn; lia|].
  destruct (pre_sub L1 L1_ok G11' 8 qp h 1 N_2SPLIT2A A_2SPLIT2A (2 ^ j) eq_refl Hfast Lqp ltac:(lia) Hh (or_introl eq_refl)) as (ns & ps & Eps & Esz & Ef & El & Lsq & Lsr & Hrs & Hpls).
  destruct (pow2_sizes 3 j ltac:(lia)) as (ns' & m & Esz' & N1 & M2 & Prod). change (2 ^ 3)%nat with 8%nat in Esz', Prod. rewrite Esz in Esz'. injection Esz' as <- EDs. rewrite EDs in *. cbn [akns_upsampling_factor] in *.
  assert (Hz : forall i, (i < m * 1)%nat -> nthC (po_q ps) i = 0 /\ nthC (po_r ps) i = 0).
  { intros i Hi. assert (E0 : nthC (po_q ps) i = 0) by (rewrite Hpls by (auto; lia); apply demod_zero). split; [exact E0|]. rewrite Hrs, E0 by exact Hi. apply Ceq; cbn; ring. }
  set (t := {| t_o := psub; t_K := 3; t_main := w_main w5; t_M := 2; t_aux := w_aux w5 |}).
  assert (Hmn : (m <= 8)%nat) by (clear - Prod N1; nia).
  destruct (subsample_success G11' 8 (0, 1)%R 1 t A_2SPLIT2A qp p ps (2 ^ j) ns m) as (t' & ES & EK' & Hnn & Hmain & Haux); try reflexivity; try assumption; cbn [t t_o psub p_disc p_Dsub fst snd akns_upsampling_factor]; try assumption; try lra; try (left; reflexivity); try discriminate.
  { apply (even_factor 3 m ns); [exact Prod|exact M2]. }
  { clear - Hmn. lia. }
  { intros i Hi. cbn [fast_exact]. destruct (Hz i Hi) as [-> ->]. intros s tt f _ _ _ _. left. replace (- 0 * 0) with (RtoC 0) by ring. rewrite Csqrt_zero. ring. }
  { rewrite zero_scattering by exact Hz. unfold spine_rhs. cbn. apply Ceq; cbn; lra. }
  { intros l E. injection E as <-. cbn. lia. }
  { intros l E. injection E as <-. cbn. lia. }
  destruct (shift_points_safe (t_K t') shift (t_main t') Hmain) as (main & Emain & _).
  destruct (shift_points_safe (t_M t') shift (t_aux t') Haux) as (aux & Eaux & _).
  eexists _, _, _. split.
  - unfold fnft_nsep, nsep_run. cbv zeta. rewrite (proj2 (proj1 (nsep_check_valid _ _ _ _ _ _ _)) (sp_valid _ _ _ _ _ _ _ psub_call)).
    change (negb (SUCCESS =? SUCCESS)%Z) with false. cbv iota. cbn [deref bind w5 w_K w_M plib_env pe_alloc negb fst snd].
    assert (EL : lam_shift (0, 1)%R phase_shift = shift) by (unfold lam_shift, shift; cbn [fst snd]; field; lra). rewrite EL.
    rewrite (demod_loop 8 (0, 1)%R shift q0 eq_refl : for_ 8 0 (fun i l => x <- aget q0 i ;; Ret (l ++ [x * Cexp (RtoC 2 * Ci * RtoC shift * RtoC (0 + (1 - 0) / INR 8 * INR i))])) [] = _). cbn [bind]. fold qp.
    change (shift_box psub (- shift)) with psub. fold t. unfold nsep_locate. cbn [t t_o psub p_loc]. fold psub. change {| t_o := _ |} with t. fold (plib_env L1 G11'). rewrite ES. cbn [bind]. unfold check. change (SUCCESS =? SUCCESS)%Z with true. cbv iota. cbn [bind].
    change (SUCCESS =? SUCCESS)%Z with true. cbn [negb]. rewrite Emain. cbn [bind]. rewrite Eaux. cbn [bind]. reflexivity.
  - unfold pcap. cbn [to_outs w_K set_taux set_tmain t_K]. rewrite EK'. change (t_K t) with 3%nat. set (dg := akns_degree A_2SPLIT2A). assert (1 <= dg)%nat by (unfold dg; cbn; lia). clearbody dg. apply Nat.min_glb; [lia|]. clear - M2 H. cbn [akns_upsampling_factor]. nia.
Qed.
