(** * Richardson extrapolation of the continuous spectrum in fnft_kdvv (C66) *)
From Coq Require Import Reals Lra.
From Coquelicot Require Import Coquelicot.
From Verif Require Import Loop MiscSpec MiscProof MiscProps PolyFmultProof DiscProps DiscPreProps NsevSpec NsevProps NsevSafe NsevSafe2 NsevSafe3 NsevSafe4 NsevSafe5 NsevDisc2 NsevRich
  NsevEnv NsevRefuted KdvvSpec KdvvProps KdvvSafe KdvvGrid KdvvSafe2 KdvvSafe3 KdvvNewton KdvvTop KdvvEnv.
Local Open Scope C_scope.

Lemma kbase_cs E s D q r T M XI o u u' cs : fnft_kdvv_base E s D q r T M XI o u = Ret (SUCCESS, u') -> u_cs u = Some cs ->
  u_bs u = None -> u_K u = None -> exists cs', u' = set_cs u (Some cs').
Proof.
  intros H Ec Eb EK. unfold fnft_kdvv_base in H. cbv zeta in H. destruct (args_bad _ _ _ _ _ _); [discriminate|].
  destruct (Nat.eqb (kdv_upsampling_factor (k_disc o)) 0); [discriminate|].
  inv_bind H. inv_bind H. destruct (_ && _) in H; [discriminate|]. inv_bind H. destruct x1 as [[[c deg] tm] W].
  apply check_success in H. destruct H as [Hc H]. inv_bind H. destruct x1 as [c1 u1]. apply check_success in H. destruct H as [Hc1 H].
  rewrite Ec in Hx2. assert (Hu1 : exists cs', u1 = set_cs u (Some cs')).
  { destruct (0 <? M)%nat; [inv_bind Hx2; injection Hx2 as _ <-; eauto|]. injection Hx2 as _ <-. exists cs. destruct u; unfold set_cs; cbn in *; subst; reflexivity. }
  destruct Hu1 as (cs' & ->). cbn [set_cs u_bs u_K] in H. rewrite Eb, EK in H. injection H as <-. eauto.
Qed.

Definition kset_rflag (o : kopts) (n : nat) : kopts :=
  {| k_loc := k_loc o; k_niter := k_niter o; k_ds := k_ds o; k_cs := k_cs o; k_norm := k_norm o; k_disc := k_disc o; k_rich := n; k_grid := k_grid o |}.
Lemma kbase_rflag E s D q r T M XI o n u : fnft_kdvv_base E s D q r T M XI (kset_rflag o n) u = fnft_kdvv_base E s D q r T M XI o u.
Proof. reflexivity. Qed.

(** A successful call with Richardson extrapolation for the continuous spectrum returns, at the low frequencies, the
   extrapolation of the result of the same call without it and of the result for about half the samples; elsewhere
   the former.  The second result is what fnft_kdvv_base computes from every nskip-th sample, h' = nskip h. *)
Theorem kdvv_richardson_contspec E D q T M XI o dflt u u' user' dflt' cs : kenv_ok E ->
  kdvv_safe_call D (Some q) (Some T) M (Some XI) o u ->
  k_rich o = 1%nat -> k_ds o = DS_NORMING_CONSTANTS ->
  u_cs u = Some cs -> (2 <= M)%nat -> u_bs u = None -> u_K u = None -> u_nc u = None ->
  fnft_kdvv E D (Some q) (Some T) M (Some XI) (Some o) dflt u = Ret (SUCCESS, u', user', dflt') ->
  let h := ((snd T - fst T) / INR (D - 1))%R in
  exists (cs' cs1 cs2 : list C) nskip m p v, u_cs u' = Some cs' /\
  fnft_kdvv E D (Some q) (Some T) M (Some XI) (Some (kset_rflag o 0)) dflt u = Ret (SUCCESS, set_cs u (Some cs1), Some (kset_rflag o 0), dflt) /\
  downsample_sizes D (D / 2) = Ret (nskip, m) /\ (2 <= nskip)%nat /\ ke_pre E 2 D q h (D / 2) (k_disc o) = Ret (inr p) /\
  fnft_kdvv_base E 2 (m * kdv_upsampling_factor (k_disc o)) (po_q p) (po_r p) (fst T + INR 0 * h, fst T + INR ((m - 1) * nskip) * h)%R M (Some XI)
    (kset_loc o KB_NEWTON) {| u_cs := Some (ke_junk E 0 (cs_values (k_cs o) * M)); u_K := Some O; u_bs := None; u_nc := None |} = Ret (SUCCESS, v) /\
  u_cs v = Some cs2 /\
  forall i b, (i < M)%nat -> (b < cs_values (k_cs o))%nat -> let j := (i + b * M)%nat in
  (low_frequency XI M i (INR nskip * h) -> nth j cs' 0 = extrapolate h (INR nskip * h) (kdv_method_order (k_disc o)) (nth j cs1 0) (nth j cs2 0)) /\
  (~ low_frequency XI M i (INR nskip * h) -> nth j cs' 0 = nth j cs1 0).
Proof.
  intros HE HS Hr Hd Ecs HM Eb EK En H h.
  destruct HS as [HV HRd Hsz HR HM1 Hrich]. pose proof (check_valid _ _ _ _ _ _ _ HV HRd) as Hck. destruct HRd as [Hlen _ _]. destruct HV as [V1 V2 V3 V4 V5 V6 V7 V8 V9]. destruct (Hrich Hr) as (HD3 & _).
  specialize (Hlen q eq_refl). destruct V4 as (t0 & t1 & ET & HT). injection ET as ->. cbn [fst snd] in *.
  pose proof (proj1 (kups _) V9) as Hu. set (ups := kdv_upsampling_factor (k_disc o)) in *.
  assert (Hep : (0 < h)%R) by (apply step_pos; [lra|exact V1]).
  assert (Hplain : forall p0 cs1, ke_pre E 0 D q h D (k_disc o) = Ret (inr p0) ->
     fnft_kdvv_base E 1 (D * ups) (po_q p0) (po_r p0) (t0, t1) M (Some XI) o u = Ret (SUCCESS, set_cs u (Some cs1)) ->
     fnft_kdvv E D (Some q) (Some (t0, t1)) M (Some XI) (Some (kset_rflag o 0)) dflt u = Ret (SUCCESS, set_cs u (Some cs1), Some (kset_rflag o 0), dflt)).
  { intros p0 cs1 Ep0 Eb1. unfold fnft_kdvv, kdvv_run. cbv zeta. change (kdvv_check D (Some q) (Some (t0, t1)) M (Some XI) (kset_rflag o 0) u) with (kdvv_check D (Some q) (Some (t0, t1)) M (Some XI) o u). rewrite Hck.
    cbn [bind Z.eqb SUCCESS negb]. change (k_disc (kset_rflag o 0)) with (k_disc o).
    fold ups. destruct (Nat.eqb_spec ups 0); [contradiction|]. cbn [deref bind fst snd]. rewrite step_ok by exact V1. fold h. cbn [bind].
    change (Nat.eqb (k_rich (kset_rflag o 0)) 1) with false. cbn [andb bind].
    change (k_disc (kset_rflag o 0)) with (k_disc o). rewrite Ep0. cbn [bind]. rewrite kbase_rflag, Eb1. cbn [bind check]. reflexivity. }
  unfold fnft_kdvv in H. unfold kdvv_run in H. cbv zeta in H. rewrite Hck in H. cbn [bind] in H. change (Z.eqb SUCCESS SUCCESS) with true in H. cbn [negb] in H.
  fold ups in H. destruct (Nat.eqb_spec ups 0); [contradiction|]. cbn [deref bind fst snd] in H.
  rewrite step_ok in H by exact V1. fold h in H. cbn [bind] in H.
  rewrite Hr, Hd in H. change (Nat.eqb 1 1) with true in H. cbn [andb] in H. cbn [bind] in H.
  destruct (kk_pre E HE 0 D q h D (k_disc o) V1 Hlen Hep) as (p0 & Ep0 & Hp0). rewrite Ep0 in H. cbn [bind] in H.
  destruct p0 as [c|p0]. { exfalso. inv_bind H. inv_bind Hx. destruct x as [c0 [o0 u0]]. injection Hx as <- _ _. injection H as Hc _ _ _. eapply E_SUB_nonzero; [apply Hp0|exact Hx0|exact Hc]. }
  inv_bind H. inv_bind Hx. destruct x0 as [c1 u1]. destruct x as [c0 [o0 u0]]. injection H as -> -> _ _.
  apply check_success in Hx. destruct Hx as [-> Hx].
  assert (RT0 : room 1 M (sizes o) u) by exact HR.
  destruct Hp0 as (ns0 & Es0 & _ & _ & Lq0 & Lr0). rewrite sizes_full in Es0 by exact V1. injection Es0 as <- EDs. rewrite <- EDs in Lq0, Lr0. fold ups in Lq0, Lr0.
  destruct (kbase_safe E 1 (D * ups) D (po_q p0) (po_r p0) (t0, t1) M (Some XI) o u) as (c' & u1' & Eb' & _ & Cu & _); auto.
  { intros _ l K Hl. congruence. }
  rewrite Hx0 in Eb'. injection Eb' as <- <-.
  destruct (kbase_cs _ _ _ _ _ _ _ _ _ _ _ _ Hx0 Ecs Eb EK) as (cs1 & ->).
  pose proof (c_cs _ _ _ _ Cu) as K1. rewrite Ecs in K1. cbn in K1.
  assert (Lcs : (cs_values (k_cs o) * M <= length cs)%nat) by (apply (r_cs _ _ _ _ HR); exact Ecs).
  assert (Lcs1 : (cs_values (k_cs o) * M <= length cs1)%nat) by (rewrite (kept_length _ _ _ K1); exact Lcs).
  (* the second part *)
  unfold kdvv_richardson in Hx. cbv zeta in Hx. cbn [set_cs u_cs u_bs u_K u_nc no_ptr negb] in Hx. rewrite Eb in Hx. cbn [no_ptr negb] in Hx.
  destruct (Nat.ltb_spec 0 M) as [_|]; [|lia]. cbn [andb] in Hx.
  set (bad := match k_cs o with CS_bad => true | _ => false end) in Hx. destruct bad; [discriminate|].
  destruct (ke_alloc E 3 0); [|discriminate]. cbn [negb bind andb] in Hx.
  destruct (Nat.eqb_spec (kdv_method_order (k_disc o)) 0) as [|Hord]; [discriminate|].
  destruct (kk_pre E HE 2 D q h (D / 2) (k_disc o) V1 Hlen Hep) as (p & Ep & Hp). rewrite Ep in Hx. cbn [bind] in Hx.
  destruct p as [c|p]; [exfalso; inv_bind Hx; injection Hx as Hc _ _; eapply E_SUB_nonzero; [apply Hp|eassumption|exact Hc]|].
  destruct Hp as (nskip & Es & Pf & Pl & Lpq & Lpr). destruct (half_sizes D HD3) as (ns & m & Es' & Hns & Hm). rewrite Es in Es'. injection Es' as <- Em.
  rewrite Em in *. inv_bind Hx. rename x into es. inv_bind Hx. destruct x as [c v].
  destruct (Z.eqb_spec c SUCCESS) as [->|Nc].
  2:{ exfalso. cbn [negb] in Hx. inv_bind Hx. injection Hx as Hc _ _. eapply E_SUB_nonzero; [exact Nc|eassumption|exact Hc]. }
  cbn [negb deref bind] in Hx. inv_bind Hx. injection Hx as _ <-.
  rewrite Pf, Pl in *. cbn [fst snd] in *.
  assert (Hmm : (1 <= INR (m - 1))%R) by (clear - Hm; apply (le_INR 1); lia). assert (Hnn : (2 <= INR nskip)%R) by (apply (le_INR 2); exact Hns).
  assert (Hm2 : (2 <= m)%nat) by (clear - Hm; lia). assert (Hmu : (Z.of_nat (m * ups) <= 2 ^ 63)%Z) by (fold ups in Hsz; clear - Hsz Hm; nia).
  assert (Hes : es = (INR nskip * h)%R). { clear - Hx1 Hmm Hm2. rewrite step_ok in Hx1 by exact Hm2. injection Hx1 as <-. rewrite mult_INR. simpl (INR 0). field. lra. }
  rewrite Hes in *. inv_bind Hx3. rename x0 into cs2. destruct (u_cs v) as [cs2'|] eqn:Ev; [|discriminate]. injection Hx as ->. inv_bind Hx3. injection Hx3 as <-. rename x0 into cs'.
  set (sn := ((INR nskip * h / h) ^ kdv_method_order (k_disc o))%R) in *.
  assert (Hsn : (sn - 1)%R <> 0%R).
  { unfold sn. clear - Hnn Hep Hord. replace (INR nskip * h / h)%R with (INR nskip) by (field; lra). destruct (kdv_method_order (k_disc o)) as [|k]; [congruence|].
    assert (1 <= INR nskip ^ k)%R by (apply pow_R1_Rle; lra). cbn [pow]. nra. }
  set (v0 := {| u_cs := Some (ke_junk E 0 _); u_K := _; u_bs := _; u_nc := _ |}) in Hx2.
  destruct (kbase_safe E 2 (m * ups) m (po_q p) (po_r p) (t0 + INR 0 * h, t0 + INR ((m - 1) * nskip) * h)%R M (Some XI) (kset_loc o KB_NEWTON) v0)
    as (c' & v' & Eb' & _ & Cv & _); auto.
  { cbn [fst snd]. clear - Hep Hmm Hnn. rewrite mult_INR. simpl (INR 0). assert (0 < INR (m - 1) * INR nskip * h)%R by (apply Rmult_lt_0_compat; [apply Rmult_lt_0_compat; lra|exact Hep]). lra. }
  { intros _. clear - HM. lia. }
  { constructor; unfold v0; cbn; try congruence. intros l Hl. injection Hl as <-. rewrite (kk_junk E HE). clear. destruct (k_cs o); cbn; lia. }
  { intros _ l K Hl. unfold v0 in Hl. cbn in Hl. discriminate. }
  rewrite Hx2 in Eb'. injection Eb' as <- <-.
  pose proof (c_cs _ _ _ _ Cv) as K2. unfold v0 in K2. cbn in K2. rewrite Ev in K2.
  assert (Lcs2 : (cs_values (k_cs o) * M <= length cs2)%nat) by (rewrite (kept_length _ _ _ K2), (kk_junk E HE); clear; destruct (k_cs o); cbn; lia).
  rewrite Nat.div_mul in Hx by (clear - HM; lia). rewrite cs_blocks_values in *.
  exists cs', cs1, cs2, nskip, m, p, v. split; [reflexivity|]. split; [apply (Hplain p0); auto|].
  split; [exact Es|]. split; [exact Hns|]. split; [exact Ep|]. split; [exact Hx2|]. split; [exact Ev|].
  intros i b Hi Hb. destruct (richardson_cs_spec _ _ _ _ _ _ _ _ _ Hsn Lcs2 Lcs1 Hx i b Hi Hb) as [G1 G2]. split; [exact G1|exact G2].
Qed.

(** Both approximations have the leading error term only: the extrapolated continuous spectrum is exact at the low frequencies. *)
Corollary kdvv_richardson_exact E D q T M XI o dflt u u' user' dflt' cs (exact err : nat -> C) : kenv_ok E ->
  kdvv_safe_call D (Some q) (Some T) M (Some XI) o u ->
  k_rich o = 1%nat -> k_ds o = DS_NORMING_CONSTANTS ->
  u_cs u = Some cs -> (2 <= M)%nat -> u_bs u = None -> u_K u = None -> u_nc u = None ->
  fnft_kdvv E D (Some q) (Some T) M (Some XI) (Some o) dflt u = Ret (SUCCESS, u', user', dflt') ->
  let h := ((snd T - fst T) / INR (D - 1))%R in
  let p := kdv_method_order (k_disc o) in
  (forall v cs1 o' d', fnft_kdvv E D (Some q) (Some T) M (Some XI) (Some (kset_rflag o 0)) dflt u = Ret (SUCCESS, v, o', d') -> u_cs v = Some cs1 ->
     forall j, (j < cs_values (k_cs o) * M)%nat -> nth j cs1 0 = error_term (exact j) (err j) h p) ->
  (forall D' qq rr T' w v cs2, fnft_kdvv_base E 2 D' qq rr T' M (Some XI) (kset_loc o KB_NEWTON) w = Ret (SUCCESS, v) -> u_cs v = Some cs2 ->
     forall j, (j < cs_values (k_cs o) * M)%nat ->
     nth j cs2 0 = error_term (exact j) (err j) ((snd T' - fst T') / INR (D' / kdv_upsampling_factor (k_disc o) - 1))%R p) ->
  exists cs' nskip m, u_cs u' = Some cs' /\ downsample_sizes D (D / 2) = Ret (nskip, m) /\
  forall i b, (i < M)%nat -> (b < cs_values (k_cs o))%nat -> low_frequency XI M i (INR nskip * h) ->
  nth (i + b * M) cs' 0 = exact (i + b * M)%nat.
Proof.
  intros HE HS Hr Hd Ecs HM Eb EK En H h p H1 H2. pose proof HS as HS0. destruct HS0 as [HV _ _ _ _ Hrich]. destruct (Hrich Hr) as (HD3 & _).
  destruct HV as [V1 _ _ V3 _ _ _ _ V7]. destruct V3 as (t0 & t1 & ET & HT). injection ET as ->. cbn [fst snd] in *.
  assert (Hep : (0 < h)%R) by (apply step_pos; [lra|exact V1]).
  destruct (kdvv_richardson_contspec E D q (t0, t1) M XI o dflt u u' user' dflt' cs HE HS Hr Hd Ecs HM Eb EK En H)
    as (cs' & cs1 & cs2 & nskip & m & pp & v & Ec' & Er1 & Es & Hns & Ep & Er2 & Ev & Hex). cbn [fst snd] in Ec', Er1, Es, Hns, Ep, Er2, Ev, Hex. fold h in Er2, Hex, Ep.
  exists cs', nskip, m. split; [exact Ec'|]. split; [exact Es|]. intros i b Hi Hb HL.
  destruct (Hex i b Hi Hb) as [G _]. rewrite (G HL). clear G Hex.
  assert (Hj : (i + b * M < cs_values (k_cs o) * M)%nat) by nia.
  rewrite (H1 _ cs1 _ _ Er1 eq_refl _ Hj), (H2 _ _ _ _ _ _ _ Er2 Ev _ Hj). cbn [fst snd].
  destruct (half_sizes D HD3) as (ns & m' & Es' & _ & Hm). rewrite Es in Es'. injection Es' as <- <-.
  pose proof (proj1 (kups _) V7) as Hu. rewrite Nat.div_mul by exact Hu.
  assert (Hmm : (1 <= INR (m - 1))%R) by (apply (le_INR 1); lia). assert (Hnn : (2 <= INR nskip)%R) by (apply (le_INR 2); exact Hns).
  replace ((t0 + INR ((m - 1) * nskip) * h - (t0 + INR 0 * h)) / INR (m - 1))%R with (INR nskip * h)%R by (rewrite mult_INR; simpl (INR 0); field; lra).
  apply extrapolate_exact; [exact Hep| |apply (korder_pos _ V7)].
  assert (0 < (INR nskip - 1) * h)%R by (apply Rmult_lt_0_compat; lra). lra.
Qed.
