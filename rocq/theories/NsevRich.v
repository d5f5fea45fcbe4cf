(** * Richardson extrapolation in fnft_nsev (C47) *)
From Coq Require Import Reals Lra.
From Coquelicot Require Import Coquelicot.
From Verif Require Import Loop CExp MiscSpec MiscProof DiscProps DiscPreProps NsevSpec NsevProps NsevSafe NsevSafe2 NsevSafe3 NsevSafe4 NsevSafe5 NsevEnv NsevRefuted NsevDisc NsevDisc2.
Local Open Scope C_scope.

(** the extrapolated value from the values v (step size h) and w (step size h') of a method of order p *)
Definition extrapolate (h h' : R) (p : nat) (v w : C) : C :=
  let s := ((h' / h) ^ p)%R in (RtoC s * v - w) / RtoC (s - 1).
(** If the errors of the two values are exactly c h^p and c h'^p, the extrapolated value is exact. *)
Theorem extrapolate_exact exact c h h' p : (0 < h)%R -> (h < h')%R -> p <> O ->
  extrapolate h h' p (error_term exact c h p) (error_term exact c h' p) = exact.
Proof.
  intros Hh Hh' Hp. unfold extrapolate, error_term. cbv zeta. unfold Rdiv. rewrite Rpow_mult_distr, pow_inv.
  assert (H1 : (0 < h ^ p)%R) by (apply pow_lt; exact Hh).
  assert (H2 : (h ^ p < h' ^ p)%R).
  { destruct p as [|p]; [congruence|]. clear H1 Hp. induction p as [|p IH]; [lra|]. change (h * h ^ S p < h' * h' ^ S p)%R. assert (0 < h ^ S p)%R by (apply pow_lt; lra). apply Rmult_le_0_lt_compat; lra. }
  set (a := (h ^ p)%R) in *. set (b := (h' ^ p)%R) in *.
  rewrite RtoC_minus, RtoC_mult, RtoC_inv by lra.
  assert (Ha : RtoC a <> 0) by (intros H; apply (f_equal fst) in H; cbn in H; lra).
  assert (Hab : RtoC b - RtoC a <> 0) by (rewrite <- RtoC_minus; intros H; apply (f_equal fst) in H; cbn in H; lra).
  field. split; [exact Ha|exact Hab].
Qed.

(** frequencies at which the extrapolation is applied *)
Definition low_frequency (XI : R * R) (M i : nat) (h' : R) : Prop :=
  (Rabs (fst XI + (snd XI - fst XI) / INR (M - 1) * INR i) < 9 / 10 * PI / (2 * h'))%R.

Lemma richardson_cs_spec M blocks XI h' sn sd (sub cs l : list C) : sd <> 0%R -> (blocks * M <= length sub)%nat -> (blocks * M <= length cs)%nat ->
  richardson_cs M blocks XI h' sn sd sub cs = Ret l ->
  forall i b, (i < M)%nat -> (b < blocks)%nat ->
  (low_frequency XI M i h' -> nth (i + b * M) l 0 = (RtoC sn * nth (i + b * M) cs 0 - nth (i + b * M) sub 0) / RtoC sd) /\
  (~ low_frequency XI M i h' -> nth (i + b * M) l 0 = nth (i + b * M) cs 0).
Proof.
  intros Hsd Ls Lc H. unfold richardson_cs in H. cbv zeta in H.
  set (g := fun j => (RtoC sn * nth j cs (RtoC 0) - nth j sub (RtoC 0)) / RtoC sd).
  set (P := fun (n bb : nat) (l : list C) => length l = length cs /\ forall i b, (i < M)%nat -> (b < blocks)%nat ->
     let j := (i + b * M)%nat in
     (low_frequency XI M i h' -> nth j l (RtoC 0) = if (i <? n)%nat || (Nat.eqb i n && (b <? bb)%nat) then g j else nth j cs (RtoC 0)) /\
     (~ low_frequency XI M i h' -> nth j l (RtoC 0) = nth j cs (RtoC 0))).
  match type of H with for_ M 0 ?f cs = _ => destruct (for_inv (fun n => P n O) f M 0%nat cs) as (l' & El & Ll & Hl) end.
  - split; [reflexivity|]. intros i b Hi Hb. cbv zeta. split; [|auto]. intros _. destruct (Nat.ltb_spec i 0); [lia|]. destruct (Nat.ltb_spec b 0); [lia|]. rewrite andb_false_r. reflexivity.
  - intros n st Hn [Ls0 Hst]. fold (low_frequency XI M n h'). destruct (Rlt_dec _ _) as [Hlow|Hhigh].
    + match goal with |- context [for_ blocks 0 ?f st] => destruct (for_inv (fun bb => P n bb) f blocks 0%nat st) as (st' & Est & Hst') end.
      * split; [exact Ls0|exact Hst].
      * intros b st1 Hb [Ls1 Hst1]. assert (Hj : (n + b * M < blocks * M)%nat) by nia.
        rewrite (aget_nth st1 (RtoC 0)) by lia. cbn [bind]. rewrite (aget_nth sub (RtoC 0)) by lia. cbn [bind]. rewrite cdivr_ok by exact Hsd. cbn [bind].
        rewrite aset_upd by lia. eexists. split; [reflexivity|]. split; [now rewrite upd_length|].
        intros i b' Hi Hb'. cbv zeta. rewrite nth_upd by lia. specialize (Hst1 i b' Hi Hb'). cbv zeta in Hst1.
        destruct (Nat.eqb_spec (i + b' * M) (n + b * M)) as [Ej|Nj].
        -- assert (Eb : b' = b) by nia. assert (Ei : i = n) by (subst b'; lia). subst i b'. split; [|intros HH; contradiction].
           intros _. rewrite Nat.eqb_refl. destruct (Nat.ltb_spec n n); [lia|]. destruct (Nat.ltb_spec b (S b)); [|lia]. cbn [orb andb]. unfold g. f_equal. f_equal. f_equal.
           destruct Hst1 as [Hst1 _]. rewrite (Hst1 Hlow). rewrite Nat.eqb_refl. destruct (Nat.ltb_spec n n); [lia|]. destruct (Nat.ltb_spec b b); [lia|]. reflexivity.
        -- destruct Hst1 as [G1 G2]. split; [|exact G2]. intros HL. rewrite (G1 HL). destruct (Nat.ltb_spec i n); [reflexivity|]. cbn [orb].
           destruct (Nat.eqb_spec i n) as [->|]; [|reflexivity]. cbn [andb]. destruct (Nat.ltb_spec b' b), (Nat.ltb_spec b' (S b)); try reflexivity; [lia|]. exfalso. apply Nj. f_equal. f_equal. lia.
      * exists st'. split; [exact Est|]. destruct Hst' as [L' H']. split; [exact L'|]. intros i b Hi Hb. specialize (H' i b Hi Hb). cbv zeta in *. destruct H' as [G1 G2]. split; [|exact G2].
        intros HL. rewrite (G1 HL). destruct (Nat.ltb_spec i n), (Nat.ltb_spec i (S n)), (Nat.eqb_spec i n), (Nat.eqb_spec i (S n)), (Nat.ltb_spec b (0 + blocks)), (Nat.ltb_spec b 0); cbn; try reflexivity; lia.
    + exists st. split; [reflexivity|]. split; [exact Ls0|]. intros i b Hi Hb. specialize (Hst i b Hi Hb). cbv zeta in *. destruct Hst as [G1 G2]. split; [|exact G2].
      intros HL. rewrite (G1 HL). assert (Ni : i <> n) by (intros ->; contradiction).
      destruct (Nat.ltb_spec i n), (Nat.ltb_spec i (S n)), (Nat.eqb_spec i n), (Nat.eqb_spec i (S n)), (Nat.ltb_spec b 0); cbn; try reflexivity; lia.
  - rewrite El in H. injection H as <-. intros i b Hi Hb. specialize (Hl i b Hi Hb). cbv zeta in Hl. destruct Hl as [G1 G2]. split; [|exact G2].
    intros HL. rewrite (G1 HL). destruct (Nat.ltb_spec i (0 + M)); [|lia]. reflexivity.
Qed.

Lemma base_cs E s D q r T M XI kappa o u u' cs : fnft_nsev_base E s D q r T M XI kappa o u = Ret (SUCCESS, u') -> u_cs u = Some cs ->
  u_bs u = None -> u_K u = None -> exists cs', u' = set_cs u (Some cs').
Proof.
  intros H Ec Eb EK. unfold fnft_nsev_base in H. cbv zeta in H. destruct (args_bad _ _ _ _ _ _); [discriminate|].
  destruct (Nat.eqb (nse_upsampling_factor (discretization o)) 0); [discriminate|].
  inv_bind H. inv_bind H. destruct (_ && _) in H; [discriminate|]. inv_bind H. destruct x1 as [[[c deg] tm] W].
  apply check_success in H. destruct H as [Hc H]. inv_bind H. destruct x1 as [c1 u1]. apply check_success in H. destruct H as [Hc1 H].
  rewrite Ec in Hx2. assert (Hu1 : exists cs', u1 = set_cs u (Some cs')).
  { destruct (0 <? M)%nat; [inv_bind Hx2; injection Hx2 as _ <-; eauto|]. injection Hx2 as _ <-. exists cs. destruct u; unfold set_cs; cbn in *; subst; reflexivity. }
  destruct Hu1 as (cs' & ->). cbn [set_cs u_bs u_K] in H. rewrite Eb, EK in H. injection H as <-. eauto.
Qed.

(** ** The whole call, continuous spectrum only *)
Definition set_rflag (o : opts) (n : nat) : opts :=
  {| bound_state_filtering := bound_state_filtering o; bound_state_localization := bound_state_localization o; niter := niter o; tol := tol o;
     o_Dsub := o_Dsub o; discspec_type := discspec_type o; contspec_type := contspec_type o;
     normalization_flag := normalization_flag o; discretization := discretization o; richardson_extrapolation_flag := n; bounding_box := bounding_box o |}.
Lemma base_rflag E s D q r T M XI kappa o n u : fnft_nsev_base E s D q r T M XI kappa (set_rflag o n) u = fnft_nsev_base E s D q r T M XI kappa o u.
Proof. reflexivity. Qed.

(** A successful call with Richardson extrapolation for the continuous spectrum returns, at the low frequencies, the
   extrapolation of the result of the same call without it and of the result for about half the samples; elsewhere
   the former.  The second result is what fnft_nsev_base computes from every nskip-th sample, h' = nskip h. *)
Theorem nsev_richardson_contspec E D q T M XI kappa o dflt u u' user' dflt' cs : env_ok E ->
  safe_call E D (Some q) (Some T) M (Some XI) kappa o u ->
  richardson_extrapolation_flag o = 1%nat -> discspec_type o = DS_NORMING_CONSTANTS ->
  u_cs u = Some cs -> (2 <= M)%nat -> u_bs u = None -> u_K u = None -> u_nc u = None ->
  fnft_nsev E D (Some q) (Some T) M (Some XI) kappa (Some o) dflt u = Ret (SUCCESS, u', user', dflt') ->
  let h := ((snd T - fst T) / INR (D - 1))%R in
  exists cs' cs1 cs2 nskip m p v, u_cs u' = Some cs' /\
  fnft_nsev E D (Some q) (Some T) M (Some XI) kappa (Some (set_rflag o 0)) dflt u = Ret (SUCCESS, set_cs u (Some cs1), Some (set_rflag o 0), dflt) /\
  downsample_sizes D (D / 2) = Ret (nskip, m) /\ (2 <= nskip)%nat /\ e_pre E 2 D q h kappa (D / 2) (discretization o) = Ret (inr p) /\
  fnft_nsev_base E 2 (m * nse_upsampling_factor (discretization o)) (po_q p) (po_r p) (fst T + INR 0 * h, fst T + INR ((m - 1) * nskip) * h)%R M (Some XI) kappa
    (set_bsloc o BL_NEWTON) {| u_cs := Some (e_junk E 0 (cs_values (contspec_type o) * M)); u_K := Some O; u_bs := None; u_nc := None |} = Ret (SUCCESS, v) /\
  u_cs v = Some cs2 /\
  forall i b, (i < M)%nat -> (b < cs_values (contspec_type o))%nat -> let j := (i + b * M)%nat in
  (low_frequency XI M i (INR nskip * h) -> nth j cs' 0 = extrapolate h (INR nskip * h) (nse_method_order (discretization o)) (nth j cs1 0) (nth j cs2 0)) /\
  (~ low_frequency XI M i (INR nskip * h) -> nth j cs' 0 = nth j cs1 0).
Proof.
  intros HE HS Hr Hd Ecs HM Eb EK En H h. 
  destruct HS as [HV Hlen Hsz HR HM1 HDs Hrich]. destruct HV as [V1 V2 V3 V4 V5 V6 V7 V8]. destruct (Hrich Hr) as (HD3 & _).
  specialize (Hlen q eq_refl). destruct V3 as (t0 & t1 & ET & HT). injection ET as ->. cbn [fst snd] in *.
  pose proof (known_ups _ V7) as Hu. set (ups := nse_upsampling_factor (discretization o)) in *.
  assert (Hep : (0 < h)%R) by (apply step_pos; [lra|exact V1]).
  assert (Hplain : forall p0 cs1, e_pre E 0 D q h kappa D (discretization o) = Ret (inr p0) ->
     fnft_nsev_base E 1 (D * ups) (po_q p0) (po_r p0) (t0, t1) M (Some XI) kappa o u = Ret (SUCCESS, set_cs u (Some cs1)) ->
     args_bad D (Some q) (Some (t0, t1)) (Some XI) kappa u = false -> disc_class (discretization o) <> None ->
     fnft_nsev E D (Some q) (Some (t0, t1)) M (Some XI) kappa (Some (set_rflag o 0)) dflt u = Ret (SUCCESS, set_cs u (Some cs1), Some (set_rflag o 0), dflt)).
  { intros p0 cs1 Ep0 Eb1 Ea Edc. unfold fnft_nsev, nsev_run. cbv zeta. rewrite Ea. change (discretization (set_rflag o 0)) with (discretization o).
    destruct (disc_class (discretization o)) as [fast|]; [|congruence]. rewrite Eb. cbn [no_ptr negb]. rewrite !andb_false_r.
    fold ups. destruct (Nat.eqb_spec ups 0); [contradiction|]. cbn [deref bind fst snd]. rewrite step_ok by exact V1. fold h. cbn [bind].
    change (Nat.eqb (richardson_extrapolation_flag (set_rflag o 0)) 1) with false. cbn [andb bind].
    change (discretization (set_rflag o 0)) with (discretization o). rewrite Ep0. cbn [bind]. rewrite base_rflag, Eb1. cbn [bind check]. reflexivity. }
  unfold fnft_nsev in H. unfold nsev_run in H. cbv zeta in H.
  destruct (args_bad D (Some q) (Some (t0, t1)) (Some XI) kappa u) eqn:Ea; [discriminate|].
  destruct (disc_class (discretization o)) as [fast|] eqn:Edc; [|discriminate].
  rewrite Eb in H. cbn [no_ptr negb] in H. rewrite !andb_false_r in H. cbn [andb] in H.
  fold ups in H. destruct (Nat.eqb_spec ups 0); [contradiction|]. cbn [deref bind fst snd] in H.
  rewrite step_ok in H by exact V1. fold h in H. cbn [bind] in H.
  rewrite Hr, Hd in H. change (Nat.eqb 1 1) with true in H. cbn [andb] in H. cbn [bind] in H.
  destruct (k_pre E HE 0 D q h kappa D (discretization o) V1 Hlen Hep) as (p0 & Ep0 & Hp0). rewrite Ep0 in H. cbn [bind] in H.
  destruct p0 as [c|p0]. { exfalso. inv_bind H. inv_bind Hx. destruct x as [c0 [o0 u0]]. injection Hx as <- _ _. injection H as Hc _ _ _. eapply E_SUB_nonzero; [apply Hp0|exact Hx0|exact Hc]. }
  inv_bind H. inv_bind Hx. destruct x0 as [c1 u1]. destruct x as [c0 [o0 u0]]. injection H as -> -> _ _.
  apply check_success in Hx. destruct Hx as [-> Hx].
  assert (RT0 : room kappa M o u) by exact HR.
  destruct Hp0 as (ns0 & Es0 & _ & _ & Lq0 & Lr0). rewrite sizes_full in Es0 by exact V1. injection Es0 as <- EDs. rewrite <- EDs in Lq0, Lr0. fold ups in Lq0, Lr0.
  destruct (base_safe E 1 (D * ups) D (po_q p0) (po_r p0) (t0, t1) M (Some XI) kappa o u) as (c' & u1' & Eb' & _ & Cu & _); auto.
  rewrite Hx0 in Eb'. injection Eb' as <- <-.
  destruct (base_cs _ _ _ _ _ _ _ _ _ _ _ _ _ Hx0 Ecs Eb EK) as (cs1 & ->).
  pose proof (c_cs _ _ _ _ Cu) as K1. rewrite Ecs in K1. cbn in K1.
  assert (Lcs : (cs_values (contspec_type o) * M <= length cs)%nat) by (apply (r_cs _ _ _ _ HR); exact Ecs).
  assert (Lcs1 : (cs_values (contspec_type o) * M <= length cs1)%nat) by (rewrite (kept_length _ _ _ K1); exact Lcs).
  (* the second part *)
  unfold nsev_richardson in Hx. cbv zeta in Hx. cbn [set_cs u_cs u_bs u_K u_nc no_ptr negb] in Hx. rewrite Eb in Hx. cbn [no_ptr negb] in Hx. rewrite andb_false_r in Hx.
  destruct (Nat.ltb_spec 0 M) as [_|]; [|lia]. cbn [andb] in Hx.
  set (bad := match contspec_type o with CS_bad => true | _ => false end) in Hx. destruct bad; [discriminate|].
  destruct (e_alloc E 3 0); [|discriminate]. cbn [negb bind andb] in Hx.
  destruct (Nat.eqb_spec (nse_method_order (discretization o)) 0) as [|Hord]; [discriminate|].
  destruct (k_pre E HE 2 D q h kappa (D / 2) (discretization o) V1 Hlen Hep) as (p & Ep & Hp). rewrite Ep in Hx. cbn [bind] in Hx.
  destruct p as [c|p]; [exfalso; inv_bind Hx; injection Hx as Hc _ _; eapply E_SUB_nonzero; [apply Hp|eassumption|exact Hc]|].
  destruct Hp as (nskip & Es & Pf & Pl & Lpq & Lpr). destruct (half_sizes D HD3) as (ns & m & Es' & Hns & Hm). rewrite Es in Es'. injection Es' as <- Em.
  rewrite Em in *. inv_bind Hx. rename x into es. inv_bind Hx. destruct x as [c v].
  destruct (Z.eqb_spec c SUCCESS) as [->|Nc].
  2:{ exfalso. cbn [negb] in Hx. inv_bind Hx. injection Hx as Hc _ _. eapply E_SUB_nonzero; [exact Nc|eassumption|exact Hc]. }
  cbn [negb deref bind] in Hx. inv_bind Hx. injection Hx as _ <-.
  rewrite Pf, Pl in *. cbn [fst snd] in *.
  assert (Hmm : (1 <= INR (m - 1))%R) by (apply (le_INR 1); lia). assert (Hnn : (2 <= INR nskip)%R) by (apply (le_INR 2); exact Hns).
  assert (Hes : es = (INR nskip * h)%R). { rewrite step_ok in Hx1 by lia. injection Hx1 as <-. rewrite mult_INR. simpl (INR 0). field. lra. }
  rewrite Hes in *. inv_bind Hx3. rename x0 into cs2. destruct (u_cs v) as [cs2'|] eqn:Ev; [|discriminate]. injection Hx as ->. inv_bind Hx3. injection Hx3 as <-. rename x0 into cs'.
  set (sn := ((INR nskip * h / h) ^ nse_method_order (discretization o))%R) in *.
  assert (Hsn : (sn - 1)%R <> 0%R).
  { unfold sn. replace (INR nskip * h / h)%R with (INR nskip) by (field; lra). destruct (nse_method_order (discretization o)) as [|k]; [congruence|].
    assert (1 <= INR nskip ^ k)%R by (apply pow_R1_Rle; lra). cbn [pow]. nra. }
  set (v0 := {| u_cs := Some (e_junk E 0 _); u_K := _; u_bs := _; u_nc := _ |}) in Hx2.
  destruct (base_safe E 2 (m * ups) m (po_q p) (po_r p) (t0 + INR 0 * h, t0 + INR ((m - 1) * nskip) * h)%R M (Some XI) kappa (set_bsloc o BL_NEWTON) v0)
    as (c' & v' & Eb' & _ & Cv & _); auto; try lia.
  { fold ups in Hsz. nia. }
  { cbn [fst snd]. rewrite mult_INR. simpl (INR 0). assert (0 < INR (m - 1) * INR nskip * h)%R by (apply Rmult_lt_0_compat; [apply Rmult_lt_0_compat; lra|exact Hep]). lra. }
  { constructor; unfold v0; cbn; try congruence. intros l Hl. injection Hl as <-. rewrite (k_junk E HE). destruct (contspec_type o); cbn; lia. }
  rewrite Hx2 in Eb'. injection Eb' as <- <-.
  pose proof (c_cs _ _ _ _ Cv) as K2. unfold v0 in K2. cbn in K2. rewrite Ev in K2.
  assert (Lcs2 : (cs_values (contspec_type o) * M <= length cs2)%nat) by (rewrite (kept_length _ _ _ K2), (k_junk E HE); destruct (contspec_type o); cbn; lia).
  rewrite Nat.div_mul in Hx by lia. rewrite cs_blocks_values in *.
  exists cs', cs1, cs2, nskip, m, p, v. split; [reflexivity|]. split; [apply (Hplain p0); auto; congruence|].
  split; [exact Es|]. split; [exact Hns|]. split; [exact Ep|]. split; [exact Hx2|]. split; [exact Ev|].
  intros i b Hi Hb. destruct (richardson_cs_spec _ _ _ _ _ _ _ _ _ Hsn Lcs2 Lcs1 Hx i b Hi Hb) as [G1 G2]. split; [exact G1|exact G2].
Qed.

(** Both approximations have the leading error term only: the extrapolated continuous spectrum is exact at the low frequencies. *)
Corollary nsev_richardson_exact E D q T M XI kappa o dflt u u' user' dflt' cs (exact err : nat -> C) : env_ok E ->
  safe_call E D (Some q) (Some T) M (Some XI) kappa o u ->
  richardson_extrapolation_flag o = 1%nat -> discspec_type o = DS_NORMING_CONSTANTS ->
  u_cs u = Some cs -> (2 <= M)%nat -> u_bs u = None -> u_K u = None -> u_nc u = None ->
  fnft_nsev E D (Some q) (Some T) M (Some XI) kappa (Some o) dflt u = Ret (SUCCESS, u', user', dflt') ->
  let h := ((snd T - fst T) / INR (D - 1))%R in
  let p := nse_method_order (discretization o) in
  (forall v cs1 o' d', fnft_nsev E D (Some q) (Some T) M (Some XI) kappa (Some (set_rflag o 0)) dflt u = Ret (SUCCESS, v, o', d') -> u_cs v = Some cs1 ->
     forall j, (j < cs_values (contspec_type o) * M)%nat -> nth j cs1 0 = error_term (exact j) (err j) h p) ->
  (forall D' qq rr T' w v cs2, fnft_nsev_base E 2 D' qq rr T' M (Some XI) kappa (set_bsloc o BL_NEWTON) w = Ret (SUCCESS, v) -> u_cs v = Some cs2 ->
     forall j, (j < cs_values (contspec_type o) * M)%nat ->
     nth j cs2 0 = error_term (exact j) (err j) ((snd T' - fst T') / INR (D' / nse_upsampling_factor (discretization o) - 1))%R p) ->
  exists cs' nskip m, u_cs u' = Some cs' /\ downsample_sizes D (D / 2) = Ret (nskip, m) /\
  forall i b, (i < M)%nat -> (b < cs_values (contspec_type o))%nat -> low_frequency XI M i (INR nskip * h) ->
  nth (i + b * M) cs' 0 = exact (i + b * M)%nat.
Proof.
  intros HE HS Hr Hd Ecs HM Eb EK En H h p H1 H2. pose proof HS as HS0. destruct HS0 as [HV _ _ _ _ _ Hrich]. destruct (Hrich Hr) as (HD3 & _).
  destruct HV as [V1 _ V3 _ _ _ V7 _]. destruct V3 as (t0 & t1 & ET & HT). injection ET as ->. cbn [fst snd] in *.
  assert (Hep : (0 < h)%R) by (apply step_pos; [lra|exact V1]).
  destruct (nsev_richardson_contspec E D q (t0, t1) M XI kappa o dflt u u' user' dflt' cs HE HS Hr Hd Ecs HM Eb EK En H)
    as (cs' & cs1 & cs2 & nskip & m & pp & v & Ec' & Er1 & Es & Hns & Ep & Er2 & Ev & Hex). cbn [fst snd] in Ec', Er1, Es, Hns, Ep, Er2, Ev, Hex. fold h in Er2, Hex, Ep.
  exists cs', nskip, m. split; [exact Ec'|]. split; [exact Es|]. intros i b Hi Hb HL.
  destruct (Hex i b Hi Hb) as [G _]. rewrite (G HL). clear G Hex.
  assert (Hj : (i + b * M < cs_values (contspec_type o) * M)%nat) by nia.
  rewrite (H1 _ cs1 _ _ Er1 eq_refl _ Hj), (H2 _ _ _ _ _ _ _ Er2 Ev _ Hj). cbn [fst snd].
  destruct (half_sizes D HD3) as (ns & m' & Es' & _ & Hm). rewrite Es in Es'. injection Es' as <- <-.
  pose proof (known_ups _ V7) as Hu. rewrite Nat.div_mul by exact Hu.
  assert (Hmm : (1 <= INR (m - 1))%R) by (apply (le_INR 1); lia). assert (Hnn : (2 <= INR nskip)%R) by (apply (le_INR 2); exact Hns).
  replace ((t0 + INR ((m - 1) * nskip) * h - (t0 + INR 0 * h)) / INR (m - 1))%R with (INR nskip * h)%R by (rewrite mult_INR; simpl (INR 0); field; lra).
  apply extrapolate_exact; [exact Hep| |apply (order_pos _ V7)].
  assert (0 < (INR nskip - 1) * h)%R by (apply Rmult_lt_0_compat; lra). lra.
Qed.

(** With two samples the second computation uses the same samples: the extrapolation divides by zero *)
Theorem nsev_richardson_two_samples_refuted : goes_wrong E0 2 (qs 2) 2 T01 (-1) (set_rich plain) {| u_cs := Some [RtoC 0; RtoC 0]; u_K := None; u_bs := None; u_nc := None |}.
Proof.
  wrong. unfold fnft_nsev, nsev_run. match goal with |- context [args_bad ?a ?b ?c ?d ?e ?f] => assert (Ha : args_bad a b c d e f = false) by args_ok end.
  rewrite Ha. cbn -[fnft_nsev_base Rdiv Rminus Rplus Rmult INR nsev_richardson].
  unfold fnft_nsev_base at 1. match goal with |- context [args_bad ?a ?b ?c ?d ?e ?f] => assert (Hb : args_bad a b c d e f = false) by args_ok end. rewrite Hb.
  cbn -[nsev_compute_contspec Rdiv Rminus Rplus Rmult INR nsev_richardson].
  unfold nsev_compute_contspec at 1. cbn -[Rdiv Rminus Rplus Rmult INR rho_loop nsev_richardson]. unfold rho_loop at 1. cbn [aget nth_error bind]. rewrite !ceq_ne by apply C1_ne.
  cbn -[Rdiv Rminus Rplus Rmult INR Cmult Cdiv Cexp nsev_richardson].
  match goal with |- context [set_cs _ (Some [?a; ?b])] => set (z0 := a); set (z1 := b) end. clearbody z0 z1.
  unfold nsev_richardson. cbn -[fnft_nsev_base Rdiv Rminus Rplus Rmult INR pow richardson_cs].
  set (es := ((0 + INR 1 * ((1 - 0) / INR 1) - (0 + INR 0 * ((1 - 0) / INR 1))) / INR 1)%R).
  assert (Hes : es = 1%R) by (unfold es; cbn [INR]; field).
  set (Tsub := (_, _)). assert (Hs : (fst Tsub < snd Tsub)%R) by (unfold Tsub; cbn [fst snd INR]; lra). clearbody Tsub es. subst es.
  unfold fnft_nsev_base. match goal with |- context [args_bad ?a ?b ?c ?d ?e ?f] => assert (Hc : args_bad a b c d e f = false) end.
  { apply (args_bad_spec _ _ _ _ _ plain). split; [lia|]. split; [discriminate|]. split; [exists (fst Tsub), (snd Tsub); destruct Tsub; auto|].
    split; [intros _; apply proper01|]. split; [auto|]. split; [intros Hc; now contradiction Hc|reflexivity]. }
  rewrite Hc. cbn -[nsev_compute_contspec Rdiv Rminus Rplus Rmult INR pow richardson_cs].
  unfold nsev_compute_contspec. cbn -[Rdiv Rminus Rplus Rmult INR rho_loop pow richardson_cs]. unfold rho_loop. cbn [aget nth_error bind]. rewrite !ceq_ne by apply C1_ne.
  cbn -[Rdiv Rminus Rplus Rmult INR Cmult Cdiv Cexp pow richardson_cs].
  match goal with |- context [richardson_cs ?a ?b ?c ?d ?e ?f ?g ?h] => assert (HU : richardson_cs a b c d e f g h = UB) end; [|rewrite HU; reflexivity].
  unfold richardson_cs. cbn -[Rdiv Rminus Rplus Rmult INR Cmult Cdiv Cexp pow cdivr].
  destruct (Rlt_dec _ _) as [_|N].
  2:{ exfalso. apply N. cbn [INR]. replace (0 + (1 - 0) / 1 * 0)%R with 0%R by field. rewrite Rabs_R0. pose proof PI_RGT_0. lra. }
  cbn -[Rdiv Rminus Rplus Rmult INR Cmult Cdiv Cexp pow cdivr]. unfold cdivr. destruct (Req_EM_T _ 0) as [_|N]; [reflexivity|].
  exfalso. apply N. cbn [INR]. field.
Qed.
Print Assumptions nsev_richardson_contspec.
Print Assumptions nsev_richardson_exact.
Print Assumptions nsev_richardson_two_samples_refuted.

(** The hypotheses are met: three samples, two frequencies, a call that succeeds *)
Definition rich_call : outs := {| u_cs := Some [RtoC 0; RtoC 0]; u_K := None; u_bs := None; u_nc := None |}.
Example rich_call_safe : safe_call E0 3 (Some (qs 3)) T01 2 T01 (-1) (set_rich plain) rich_call.
Proof.
  constructor; [valid_call; cbn; congruence|intros l Hl; now injection Hl as <-|vm_compute; discriminate|room_ok|discriminate|cbn; lia|].
  intros _. split; [lia|]. split; [discriminate|]. split; [discriminate|discriminate].
Qed.
Ltac cs_eval := unfold nsev_compute_contspec at 1; cbn -[fnft_nsev_base Rdiv Rminus Rplus Rmult INR rho_loop nsev_richardson pow richardson_cs]; unfold rho_loop at 1; cbn [aget nth_error bind]; rewrite !ceq_ne by apply C1_ne.
Example rich_call_succeeds : exists u' o' d', fnft_nsev E0 3 (Some (qs 3)) T01 2 T01 (-1) (Some (set_rich plain)) nsev_default_opts rich_call = Ret (SUCCESS, u', o', d').
Proof.
  unfold fnft_nsev, nsev_run. match goal with |- context [args_bad ?a ?b ?c ?d ?e ?f] => assert (Ha : args_bad a b c d e f = false) by args_ok end.
  rewrite Ha. cbn -[fnft_nsev_base Rdiv Rminus Rplus Rmult INR nsev_richardson].
  unfold fnft_nsev_base at 1. match goal with |- context [args_bad ?a ?b ?c ?d ?e ?f] => assert (Hb : args_bad a b c d e f = false) by args_ok end. rewrite Hb.
  cbn -[nsev_compute_contspec Rdiv Rminus Rplus Rmult INR nsev_richardson]. cs_eval.
  cbn -[Rdiv Rminus Rplus Rmult INR Cmult Cdiv Cexp nsev_richardson].
  match goal with |- context [set_cs _ (Some [?a; ?b])] => set (z0 := a); set (z1 := b) end. clearbody z0 z1.
  unfold nsev_richardson. cbn -[fnft_nsev_base Rdiv Rminus Rplus Rmult INR pow richardson_cs].
  match goal with |- context [richardson_cs 2 1 _ ?e _ _] => set (es := e) end.
  assert (Hes : es = 1%R) by (unfold es; rewrite !S_INR; cbn [INR]; field).
  set (Tsub := (_, _)). assert (Hs : (fst Tsub < snd Tsub)%R) by (unfold Tsub; cbn [fst snd]; rewrite !S_INR; cbn [INR]; lra). clearbody Tsub es. subst es.
  unfold fnft_nsev_base. match goal with |- context [args_bad ?a ?b ?c ?d ?e ?f] => assert (Hc : args_bad a b c d e f = false) end.
  { apply (args_bad_spec _ _ _ _ _ plain). split; [lia|]. split; [discriminate|]. split; [exists (fst Tsub), (snd Tsub); destruct Tsub; auto|].
    split; [intros _; apply proper01|]. split; [auto|]. split; [intros Hc; now contradiction Hc|reflexivity]. }
  rewrite Hc. cbn -[nsev_compute_contspec Rdiv Rminus Rplus Rmult INR pow richardson_cs]. cs_eval.
  cbn -[Rdiv Rminus Rplus Rmult INR Cmult Cdiv Cexp pow richardson_cs].
  match goal with |- context [richardson_cs ?a ?b ?c ?d ?e ?f ?g ?h] => destruct (richardson_cs_safe a b c d e f g h) as (l & -> & _) end; [|cbn; lia|cbn; lia|].
  { rewrite !S_INR; cbn [INR]. match goal with |- (?x ^ 2 - 1)%R <> 0%R => replace x with 2%R by field end. cbn. lra. }
  eexists _, _, _. reflexivity.
Qed.
(** and for C45: the default options, bound states and continuous spectrum, room for four bound states *)
Definition full_call : outs := {| u_cs := Some (qs 2); u_K := Some 4%nat; u_bs := Some (qs 4); u_nc := Some (qs 4) |}.
Example full_call_safe : safe_call E0 4 (Some (qs 4)) T01 2 T01 1 nsev_default_opts full_call.
Proof.
  constructor; [valid_call; cbn; congruence|intros l Hl; now injection Hl as <-|vm_compute; discriminate|room_ok|discriminate|cbn; lia|discriminate].
Qed.
Print Assumptions nsev_stays_in_bounds.
Print Assumptions nsev_bound_states_filtered.
Print Assumptions nsev_newton_bound_states.
Print Assumptions nsev_rejects_invalid_arguments.
Print Assumptions nsev_restores_options.
