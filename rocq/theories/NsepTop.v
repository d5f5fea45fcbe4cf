(** * fnft_nsep: arguments, options, memory, filtering, counts (C48, C67-C70) *)
From Coq Require Import Reals Lra.
From Coquelicot Require Import Coquelicot.
From Verif Require Import Loop MiscSpec MiscProof MiscProps PolyFmultProof DiscProps DiscPreProps NsevSpec NsevProps NsevSafe NsevSafe2 NsevSafe3 NsevSafe5 NsevEnv NsepSpec NsepNewton NsepSafe NsepSafe2 NsepSafe3 NsepSafe4.
Local Open Scope C_scope.

(** ** C48 *)
Lemma power_of_two D : (2 <= D)%nat -> Nat.land D (D - 1) = O <-> exists k, (1 <= k)%nat /\ D = (2 ^ k)%nat.
Proof.
  intros HD. split.
  - intros H. set (k := Nat.log2 D). destruct (Nat.log2_spec D ltac:(lia)) as [K1 K2]. fold k in K1, K2.
    assert (Hk : (1 <= k)%nat) by (destruct k; [cbn in K2; lia|lia]). exists k. split; [exact Hk|].
    destruct (Nat.eq_dec D (2 ^ k)) as [E|N]; [exact E|exfalso].
    assert (HL : Nat.log2 (D - 1) = k) by (apply Nat.log2_unique; lia).
    assert (HB : Nat.testbit (Nat.land D (D - 1)) k = true).
    { rewrite Nat.land_spec. unfold k at 1. rewrite Nat.bit_log2 by lia. rewrite <- HL. rewrite Nat.bit_log2 by lia. reflexivity. }
    rewrite H, Nat.bits_0 in HB. discriminate.
  - intros (k & Hk & ->). replace (2 ^ k - 1)%nat with (Nat.ones k) by (rewrite Nat.ones_equiv; lia).
    rewrite Nat.land_ones. apply Nat.mod_same. apply Nat.pow_nonzero. lia.
Qed.
Lemma bad_interval_spec I : bad_interval I = false <-> proper_interval I.
Proof.
  unfold proper_interval. destruct I as [[a b]|]; cbn.
  - destruct (Rle_dec b a) as [H|H]; split; try discriminate; intros H'.
    + destruct H' as (a' & b' & E & Hl). injection E as <- <-. lra.
    + exists a, b. split; [reflexivity|lra].
    + reflexivity.
  - split; [discriminate|]. intros (a & b & E & _). discriminate.
Qed.
Lemma no_ptr_spec {A} (p : option A) : no_ptr p = false <-> p <> None.
Proof. destruct p; cbn; split; congruence. Qed.
(** the check of the arguments lets exactly the documented combinations pass *)
Lemma nsep_check_valid D q T sheet kappa o w :
  (nsep_check D q T sheet kappa o w = SUCCESS <-> nsep_valid D q T sheet kappa o w) /\
  (nsep_check D q T sheet kappa o w = SUCCESS \/ nsep_check D q T sheet kappa o w = EC_INVALID_ARGUMENT \/
   (sheet = true /\ nsep_check D q T sheet kappa o w = EC_NOT_YET_IMPLEMENTED)).
Proof.
  unfold nsep_check.
  assert (HF : forall (P : Prop), (P -> False) -> (EC_INVALID_ARGUMENT = SUCCESS <-> P) /\ (EC_INVALID_ARGUMENT = SUCCESS \/ EC_INVALID_ARGUMENT = EC_INVALID_ARGUMENT \/ (sheet = true /\ EC_INVALID_ARGUMENT = EC_NOT_YET_IMPLEMENTED))).
  { intros P HP. split; [split; [discriminate|tauto]|auto]. }
  destruct ((D <? 2)%nat || negb (Nat.eqb (Nat.land D (D - 1)) 0)) eqn:E1.
  { apply HF. intros [(k & Hk & HD) _ _ _ _ _ _ _]. assert (H2 : (2 <= D)%nat) by (rewrite HD; apply (Nat.pow_le_mono_r 2 1 k); lia).
    apply orb_true_iff in E1. destruct E1 as [E1|E1]; [apply Nat.ltb_lt in E1; lia|]. apply negb_true_iff, Nat.eqb_neq in E1. apply E1. apply power_of_two; [exact H2|eauto]. }
  apply orb_false_iff in E1. destruct E1 as [E1 E1']. apply Nat.ltb_ge in E1. apply negb_false_iff, Nat.eqb_eq in E1'. apply power_of_two in E1'; [|exact E1].
  destruct (no_ptr q) eqn:E2. { apply HF. intros H. apply vp_q in H. apply no_ptr_spec in H. congruence. } apply no_ptr_spec in E2.
  destruct (bad_interval T) eqn:E3. { apply HF. intros H. apply vp_T in H. apply bad_interval_spec in H. congruence. } apply bad_interval_spec in E3.
  destruct (Z.eqb_spec (Z.abs kappa) 1) as [E4|E4]; cbn [negb]. 2:{ apply HF. intros H. apply vp_kappa in H. lia. }
  destruct (no_ptr (w_K w)) eqn:E5. { apply HF. intros H. apply vp_K in H. apply no_ptr_spec in H. congruence. } apply no_ptr_spec in E5.
  destruct (no_ptr (w_M w)) eqn:E6. { apply HF. intros H. apply vp_M in H. apply no_ptr_spec in H. congruence. } apply no_ptr_spec in E6.
  destruct sheet. { split; [split; [discriminate|intros H; apply vp_sheet in H; discriminate]|auto]. }
  destruct (match p_filt o with PF_NONE => false | _ => true end && no_ptr (w_main w) && negb (no_ptr (w_aux w))) eqn:E7.
  { apply HF. intros H. apply andb_true_iff in E7. destruct E7 as [E7 E9]. apply andb_true_iff in E7. destruct E7 as [E7 E8].
    assert (Hw : w_aux w = None). { apply (vp_filt _ _ _ _ _ _ _ H); [destruct (p_filt o); congruence|destruct (w_main w); [discriminate|reflexivity]]. }
    rewrite Hw in E9. discriminate. }
  split; [|auto]. split; [intros _|auto]. constructor; auto; [lia|].
  intros Hf Hm. rewrite Hm in E7. cbn in E7. destruct (w_aux w); [|reflexivity]. destruct (p_filt o); try discriminate. congruence.
Qed.

(** the options that are in force *)
Definition p_opts_of (user : option popts) (dflt : popts) : popts := match user with Some o => o | None => dflt end.

(** Every argument combination that the documentation excludes is rejected, and nothing at all is changed: arrays, counts, options, default options. *)
Theorem nsep_rejects_invalid_arguments E D q T phase_shift sheet kappa user dflt w :
  ~ nsep_valid D q T sheet kappa (p_opts_of user dflt) w ->
  exists code, fnft_nsep E D q T phase_shift sheet kappa user dflt w = Ret (code, w, user, dflt) /\
    (code = EC_INVALID_ARGUMENT \/ (sheet = true /\ code = EC_NOT_YET_IMPLEMENTED)).
Proof.
  intros H. set (o := p_opts_of user dflt). destruct (nsep_check_valid D q T sheet kappa o w) as [H1 H2].
  set (code := nsep_check D q T sheet kappa o w) in *. assert (Hn : code <> SUCCESS) by tauto.
  assert (HR : nsep_run E D q T phase_shift sheet kappa o w = Ret (code, (o, w))).
  { unfold nsep_run. cbv zeta. fold code. destruct (Z.eqb_spec code SUCCESS); [contradiction|reflexivity]. }
  exists code. split; [|tauto]. unfold fnft_nsep. unfold o in HR. destruct user; cbn [p_opts_of] in HR; rewrite HR; reflexivity.
Qed.
(** The subsampled signal: the test "(Dsub-1)*nskip + nskip == D" never fails *)
Theorem nsep_subsampling_fits E skip k D q T kappa t : penv_ok E -> (1 <= k)%nat -> D = (2 ^ k)%nat -> length q = D -> (fst T < snd T)%R ->
  (Z.of_nat (D * nse_upsampling_factor (p_disc (t_o t))) <= 2 ^ 63)%Z -> (Z.of_nat (p_Dsub (t_o t)) <= 2 ^ 63)%Z ->
  (forall l, t_main t = Some l -> (t_K t <= length l)%nat) -> (forall l, t_aux t = Some l -> (t_M t <= length l)%nat) ->
  exists c t', nsep_subsample E skip D q T kappa t = Ret (c, t') /\ c <> EC_ASSERTION_FAILED.
Proof.
  intros HE Hk HD Lq HT Hs Hds Hm Ha. destruct (subsample_safe E skip k D q T kappa t HE Hk HD Lq HT Hs Hds Hm Ha) as (c & t' & H1 & H2 & _). eauto.
Qed.
(** ... and the size is a power of two that divides D, whatever Dsub the user asks for (0 = automatic) *)
Theorem nsep_subsampled_size k Dsub : (1 <= k)%nat -> (Z.of_nat (2 ^ k) <= 2 ^ 63)%Z -> (Z.of_nat Dsub <= 2 ^ 63)%Z ->
  exists n nskip m, choose_Dsub (2 ^ k) Dsub = Ret n /\ downsample_sizes (2 ^ k) n = Ret (nskip, m) /\ (2 <= m)%nat /\ (m * nskip = 2 ^ k)%nat /\ exists j, m = (2 ^ j)%nat.
Proof.
  intros Hk Hs Hd. assert (HD : (2 <= 2 ^ k)%nat) by (apply (Nat.pow_le_mono_r 2 1 k); lia).
  destruct (choose_Dsub_pow (2 ^ k) Dsub HD Hs Hd) as (j & Ej). destruct (pow2_sizes k j Hk) as (ns & m & Es & H1 & H2 & H3).
  exists (2 ^ j)%nat, ns, m. split; [exact Ej|]. split; [exact Es|]. split; [exact H2|]. split; [exact H3|].
  assert (HL : Nat.land m (m - 1) = O \/ exists j, m = (2 ^ j)%nat).
  { right. clear - H3 H1. revert ns m H3 H1. induction k as [|k IH]; intros ns m H3 H1.
    - cbn in H3. exists O. cbn. nia.
    - destruct (Nat.Even_or_Odd m) as [[a Ha]|[a Ha]].
      + destruct (IH ns a) as (j & ->); [cbn in H3; nia|exact H1|]. exists (S j). cbn. lia.
      + destruct (Nat.Even_or_Odd ns) as [[b Hb]|[b Hb]].
        * destruct (IH b m) as (j & ->); [cbn in H3; nia|lia|]. eauto.
        * exfalso. cbn in H3. nia. }
  destruct HL as [HL|HL]; [|exact HL]. apply power_of_two in HL; [|exact H2]. destruct HL as (j' & _ & ->). eauto.
Qed.

(** ** The complete run *)
Lemma xadd_back a x : xadd (xadd a (- x)) x = a.
Proof. destruct a; cbn; try reflexivity. f_equal. ring. Qed.
Lemma shift_box_filt o x : p_filt (shift_box o x) = p_filt o /\ p_disc (shift_box o x) = p_disc o /\ p_loc (shift_box o x) = p_loc o /\ p_points (shift_box o x) = p_points o /\ p_Dsub (shift_box o x) = p_Dsub o.
Proof. unfold shift_box. destruct (p_filt o) eqn:Ef; cbn; auto. Qed.
Lemma shift_box_back o L : shift_box (shift_box o (- L)) L = o.
Proof.
  unfold shift_box. destruct (p_filt o) eqn:Ef; cbn [p_filt set_pbox]; rewrite ?Ef; try reflexivity. unfold set_pbox. cbn. rewrite !xadd_back. destruct o as [? ? [] ? ? ? ? ? ? ?]. reflexivity.
Qed.
Lemma shift_points_safe n x l : (forall v, l = Some v -> (n <= length v)%nat) ->
  exists l', shift_points n x l = Ret l' /\ seg_opt 0 n l l' /\ forall P, (forall v, l = Some v -> all_in P 0 n v) -> forall v, l' = Some v -> all_in (fun z => P (z - RtoC x)) 0 n v.
Proof.
  intros H. unfold shift_points. destruct l as [v|]; [|eexists; split; [reflexivity|]; split; [exact I|discriminate]]. specialize (H v eq_refl).
  destruct (for_inv (fun k v' => seg 0 k v v' /\ forall i z, (i < k)%nat -> nth_error v i = Some z -> nth_error v' i = Some (z + RtoC x)) (fun i l => v <- aget l i ;; aset l i (v + RtoC x)) n 0 v) as (v' & Ev & Hs & Hv).
  { split; [apply seg_refl|lia]. }
  { intros i v1 Hi [Hs Hv]. pose proof (seg_length _ _ _ _ Hs) as L1. destruct (aget_ex v1 i ltac:(lia)) as (y & Ey). rewrite Ey. cbn [bind].
    destruct (aset_seg v1 i (y + RtoC x)) as (v2 & E2 & Hs2 & Hy); [lia|]. exists v2. split; [exact E2|]. split.
    - eapply seg_trans; [eapply seg_mono; [| |exact Hs]; lia|]. eapply seg_mono; [| |exact Hs2]; lia.
    - intros j z Hj Hz. destruct (Nat.eq_dec j i) as [->|N].
      + rewrite Hy. destruct Hs as [_ Hs]. rewrite <- Hs in Hz by lia. rewrite (aget_nth v1 y) in Ey by lia. injection Ey as Ey. rewrite (nth_error_nth' v1 y) in Hz by lia. congruence.
      + destruct Hs2 as [_ Hs2]. rewrite Hs2 by lia. apply Hv; [lia|exact Hz]. }
  rewrite Ev. cbn [bind]. eexists. split; [reflexivity|]. split; [exact Hs|]. intros P HP v0 E0. injection E0 as <-. intros i z Hi Hz. cbn in Hs.
  assert (Hi' : (i < length v)%nat) by lia. destruct (nth_error v i) as [y|] eqn:Ey; [|apply nth_error_None in Ey; lia].
  rewrite (Hv i y) in Hz; [|lia|exact Ey]. injection Hz as <-. replace (y + RtoC x - RtoC x) with y by ring. apply (HP v eq_refl i y); [lia|exact Ey].
Qed.

(** what a call with valid arguments does *)
Record nsep_result (D : nat) (T : R * R) (ps : R) (o : popts) (w : pouts) (c : Z) (o' : popts) (w' : pouts) : Prop := {
  nr_code : ok_code c;
  nr_contained : nsep_contained o w w';
  nr_same : same_but_box o o';
  nr_back : c = SUCCESS -> p_filt o <> PF_AUTO -> o' = o;
  nr_K : c = SUCCESS -> w_main w <> None -> (pcap w' <= main_size o w)%nat;
  nr_M : c = SUCCESS -> (acap w' <= acap w)%nat;
  nr_main : c = SUCCESS -> forall l, w_main w' = Some l -> all_in (nsep_allowed D T ps o) 0 (pcap w') l;
  nr_aux : c = SUCCESS -> forall l, w_aux w' = Some l -> all_in (nsep_allowed D T ps o) 0 (acap w') l }.

Lemma fine_allowed D T ps o z : (fst T < snd T)%R -> (2 <= D)%nat ->
  fine ((snd T - fst T) / INR D) (shift_box o (- lam_shift T ps)) (z - RtoC (lam_shift T ps)) -> nsep_allowed D T ps o z.
Proof.
  intros HT HD. unfold nsep_allowed. set (h := ((snd T - fst T) / INR D)%R). assert (Hh : (0 < h)%R) by (apply Rdiv_lt_0_compat; [lra|apply lt_0_INR; lia]).
  assert (EL : lam_shift T ps = (- ps / (2 * (snd T - fst T)))%R) by (unfold lam_shift; field; lra). rewrite <- EL. set (L := lam_shift T ps).
  unfold fine, passes, update_box. destruct (shift_box_filt o (- L)) as (Ef & Ed & _). rewrite Ef, Ed. destruct (p_filt o) eqn:Eo; cbn [p_filt set_pbox p_box]; rewrite ?Ef; auto.
  - unfold shift_box. rewrite Eo. cbn [p_box set_pbox]. unfold within. cbn [x0 x1 x2 x3]. destruct z as [a b]. cbn [fst snd Cminus Cplus Copp RtoC].
    replace (b + - 0)%R with b by ring. intros (H1 & H2 & H3 & H4). repeat split; auto.
    + destruct (x0 (p_box o)) as [r| |]; cbn in *; auto. destruct (Rle_dec (r + - L) (a + - L)) as [Hr|]; [|discriminate]. destruct (Rle_dec r a); [reflexivity|lra].
    + destruct (x1 (p_box o)) as [r| |]; cbn in *; auto. destruct (Rle_dec (a + - L) (r + - L)) as [Hr|]; [|discriminate]. destruct (Rle_dec a r); [reflexivity|lra].
  - set (mc := match map_coeff (p_disc o) with None => 1%R | Some m => if Req_EM_T m 0 then 1%R else m end).
    assert (Hm : Rabs mc = auto_coeff (p_disc o) /\ (0 < auto_coeff (p_disc o))%R).
    { unfold mc, map_coeff, auto_coeff. destruct (nse_degree (p_disc o)) as [|n]; cbn [Nat.eqb]; [rewrite Rabs_R1; lra|].
      assert (0 < 2 / INR (S n))%R by (apply Rdiv_lt_0_compat; [lra|apply lt_0_INR; lia]). destruct (Req_EM_T (2 / INR (S n)) 0); [lra|]. rewrite Rabs_pos_eq; lra. }
    destruct Hm as [-> Hm]. assert (El : (- ln (1 / 10) = ln 10)%R) by (replace (1 / 10)%R with (/ 10)%R by field; rewrite ln_Rinv by lra; ring). rewrite El.
    unfold within. cbn [x0 x1 x2 x3 xle]. destruct z as [a b]. cbn [fst snd Cminus Cplus Copp RtoC].
    replace (b + - 0)%R with b by ring. intros (H1 & H2 & H3 & H4).
    repeat match goal with H : (if Rle_dec ?x ?y then true else false) = true |- _ => destruct (Rle_dec x y); [clear H|discriminate] end.
    split; apply Rabs_le; lra.
Qed.

Lemma nsep_run_safe E D q T ps sheet kappa o w : penv_ok E -> nsep_safe_call D q T sheet kappa o w ->
  exists c o' w', nsep_run E D q T ps sheet kappa o w = Ret (c, (o', w')) /\ forall T0, T = Some T0 -> nsep_result D T0 ps o w c o' w'.
Proof.
  intros HE [HV HL Hsz Hds [HRm HRa]]. unfold nsep_run. cbv zeta.
  destruct (nsep_check_valid D q T sheet kappa o w) as [[_ Hchk] _]. rewrite (Hchk HV). change (Z.eqb SUCCESS SUCCESS) with true. cbn [negb].
  destruct HV as [(k & Hk & HDk) Hq (T0 & T1 & ET & HT) Hkap HK HM _ _]. destruct q as [q|]; [|congruence]. specialize (HL q eq_refl). subst T.
  assert (HD : (2 <= D)%nat) by (rewrite HDk; apply (Nat.pow_le_mono_r 2 1 k); lia).
  destruct (w_K w) as [K|] eqn:EK; [|congruence]. destruct (w_M w) as [M|] eqn:EM; [|congruence]. cbn [deref bind]. clear HK HM Hq.
  set (T := (T0, T1)) in *. assert (HT' : (fst T < snd T)%R) by exact HT. set (L := lam_shift T ps).
  assert (Epc : pcap w = K) by (unfold pcap; now rewrite EK). assert (Eac : acap w = M) by (unfold acap; now rewrite EM).
  assert (Ems : main_size o w = room_of o K) by (unfold main_size, room_of; now rewrite Epc).
  destruct (negb _).
  { eexists _, _, _. split; [reflexivity|]. intros T' ET. constructor; try (intros; discriminate).
    - codes.
    - constructor; try apply kept_opt_refl. rewrite EK, EM. split; discriminate.
    - exists (p_box o). destruct o; reflexivity. }
  match goal with |- context [for_ D 0 ?f []] => destruct (for_inv (fun i (l : list C) => length l = i) f D 0 []) as (qp & Eqp & Lqp) end.
  { reflexivity. }
  { intros i l Hi Hl. destruct (aget_ex q i ltac:(lia)) as (x & ->). cbn [bind]. eexists. split; [reflexivity|]. rewrite app_length. cbn. lia. }
  rewrite Eqp. cbn [bind]. clear Eqp. cbn in Lqp.
  set (o1 := shift_box o (- L)). destruct (shift_box_filt o (- L)) as (F1 & F2 & F3 & F4 & F5). fold o1 in F1, F2, F3, F4, F5.
  assert (Er : room_of o1 K = room_of o K) by (unfold room_of; now rewrite F3, F4).
  set (t := {| t_o := o1; t_K := K; t_main := w_main w; t_M := M; t_aux := w_aux w |}).
  destruct (locate_safe E k D qp T kappa t HE Hk HDk Lqp HT') as (c & t1 & -> & [P1 P2 P3 P4 P5 P6 P7 P8]).
  { cbn. now rewrite F2. } { cbn. now rewrite F5. }
  { cbn. intros l El. rewrite Er, <- Ems. now apply HRm. } { cbn. intros l El. rewrite <- Eac. now apply HRa. }
  cbn [bind]. cbn [t t_o t_K t_main t_M t_aux] in P2, P3, P4, P5, P6, P7, P8. rewrite Er, <- Ems in P3, P5. rewrite <- Eac in P4, P6.
  assert (Hsame : forall x, same_but_box o (shift_box (t_o t1) x) /\ same_but_box o (t_o t1)).
  { intros x. assert (H0 : same_but_box o o) by (exists (p_box o); clear; destruct o; reflexivity).
    assert (H1 : same_but_box o o1) by (unfold o1, shift_box; destruct (p_filt o); try exact H0; eexists; reflexivity).
    assert (H2 : same_but_box o (t_o t1)) by (destruct H1 as (b1 & H1); rewrite H1 in P2; destruct P2 as [->|[_ (b & ->)]]; eexists; reflexivity).
    split; [|exact H2]. destruct H2 as (b & ->). unfold shift_box. destruct (p_filt (set_pbox o b)); eexists; reflexivity. }
  destruct (Z.eqb_spec c SUCCESS) as [Hs|Hn]; cbn [negb].
  2:{ eexists _, _, _. split; [reflexivity|]. intros T' ET. constructor; try (intros; congruence); try apply (Hsame 0%R).
      constructor; cbn; [apply seg_opt_kept; exact P3|apply seg_opt_kept; exact P4|split; discriminate]. }
  specialize (P5 Hs). specialize (P6 Hs). specialize (P7 Hs). specialize (P8 Hs).
  assert (Hm1 : forall v, t_main t1 = Some v -> (t_K t1 <= length v)%nat).
  { intros v Ev. rewrite Ev in P3. destruct (w_main w) as [m0|] eqn:Em0; [|contradiction]. cbn in P3. rewrite (seg_length _ _ _ _ P3).
    specialize (HRm m0 eq_refl). assert (Some m0 <> None) by discriminate. specialize (P5 (or_intror H)). lia. }
  assert (Ha1 : forall v, t_aux t1 = Some v -> (t_M t1 <= length v)%nat).
  { intros v Ev. rewrite Ev in P4. destruct (w_aux w) as [m0|] eqn:Em0; [|contradiction]. cbn in P4. rewrite (seg_length _ _ _ _ P4). specialize (HRa m0 eq_refl). lia. }
  destruct (shift_points_safe (t_K t1) L (t_main t1) Hm1) as (main' & -> & Sm & Qm). cbn [bind].
  destruct (shift_points_safe (t_M t1) L (t_aux t1) Ha1) as (aux' & -> & Sa & Qa). cbn [bind].
  eexists _, _, _. split; [reflexivity|]. intros T' ET. injection ET as <-. constructor; cbn.
  - codes.
  - constructor; cbn; [| |split; discriminate].
    + apply seg_opt_kept. destruct (w_main w) as [m0|] eqn:Em0.
      * assert (Hn0 : Some m0 <> None) by discriminate. specialize (P5 (or_intror Hn0)). eapply seg_opt_trans; [exact P3|]. eapply seg_opt_mono; [| |exact Sm]; lia.
      * destruct (t_main t1); [contradiction|]. exact Sm.
    + apply seg_opt_kept. eapply seg_opt_trans; [exact P4|]. eapply seg_opt_mono; [| |exact Sa]; lia.
  - apply Hsame.
  - intros _ Hf. destruct P2 as [->|[Hf' _]]; [|congruence]. apply shift_box_back.
  - intros _ Hn. apply P5. now right.
  - intros _. exact P6.
  - intros _ l El. unfold pcap. cbn. eapply all_in_impl; [|exact (Qm _ P7 l El)]. intros z Hz. now apply fine_allowed.
  - intros _ l El. unfold acap. cbn. eapply all_in_impl; [|exact (Qa _ P8 l El)]. intros z Hz. now apply fine_allowed.
Qed.

Lemma nsep_result_ex E D q T ps sheet kappa user dflt w : penv_ok E -> nsep_safe_call D q T sheet kappa (p_opts_of user dflt) w ->
  exists code w' user' dflt', fnft_nsep E D q T ps sheet kappa user dflt w = Ret (code, w', user', dflt') /\
    (forall T0, T = Some T0 -> nsep_result D T0 ps (p_opts_of user dflt) w code (p_opts_of user' dflt') w') /\
    (user = None <-> user' = None) /\ (user <> None -> dflt' = dflt).
Proof.
  intros HE HS. unfold fnft_nsep. destruct user as [o|]; cbn [p_opts_of] in *.
  - destruct (nsep_run_safe E D q T ps sheet kappa o w HE HS) as (c & o' & w' & -> & H). cbn [bind]. eexists _, _, _, _. split; [reflexivity|]. cbn. split; [exact H|]. split; [split; discriminate|auto].
  - destruct (nsep_run_safe E D q T ps sheet kappa dflt w HE HS) as (c & o' & w' & -> & H). cbn [bind]. eexists _, _, _, _. split; [reflexivity|]. cbn. split; [exact H|]. split; [tauto|congruence].
Qed.

(** ** C68: for every signal, all options and all behaviours of the subroutines, no access outside the arrays and no
   undefined operation; only the documented parts of the arrays of the caller are written. *)
Theorem nsep_stays_in_bounds E D q T phase_shift sheet kappa user dflt w : penv_ok E -> nsep_safe_call D q T sheet kappa (p_opts_of user dflt) w ->
  exists code w' user' dflt', fnft_nsep E D q T phase_shift sheet kappa user dflt w = Ret (code, w', user', dflt') /\ ok_code code /\
    nsep_contained (p_opts_of user dflt) w w'.
Proof.
  intros HE HS. destruct (nsep_result_ex E D q T phase_shift sheet kappa user dflt w HE HS) as (c & w' & u' & d' & H & HR & _).
  destruct (vp_T _ _ _ _ _ _ _ (sp_valid _ _ _ _ _ _ _ HS)) as (a & b & ET & _). destruct (HR _ ET). eexists _, _, _, _. eauto.
Qed.

(** ** C67: a call changes at most the bounding box; without automatic filtering a successful call changes nothing. *)
Theorem nsep_keeps_options E D q T phase_shift sheet kappa user dflt w code w' user' dflt' : penv_ok E -> nsep_safe_call D q T sheet kappa (p_opts_of user dflt) w ->
  fnft_nsep E D q T phase_shift sheet kappa user dflt w = Ret (code, w', user', dflt') ->
  same_but_box (p_opts_of user dflt) (p_opts_of user' dflt') /\ (user <> None -> dflt' = dflt) /\
  (code = SUCCESS -> p_filt (p_opts_of user dflt) <> PF_AUTO -> user' = user /\ dflt' = dflt).
Proof.
  intros HE HS H. destruct (nsep_result_ex E D q T phase_shift sheet kappa user dflt w HE HS) as (c & w1 & u1 & d1 & H' & HR & Hu & Hd).
  rewrite H in H'. injection H' as <- <- <- <-.
  destruct (vp_T _ _ _ _ _ _ _ (sp_valid _ _ _ _ _ _ _ HS)) as (a & b & ET & _). destruct (HR _ ET) as [_ _ R3 R4 _ _ _ _]. split; [exact R3|]. split; [exact Hd|].
  intros Hs Hf. specialize (R4 Hs Hf). destruct user as [o|], user' as [o'|]; cbn in *.
  - subst o'. split; [reflexivity|]. apply Hd. discriminate.
  - destruct Hu as [_ Hu]. discriminate (Hu eq_refl).
  - destruct Hu as [Hu _]. discriminate (Hu eq_refl).
  - subst dflt'. auto.
Qed.

(** ** C69: after success every returned point of the main and of the auxiliary spectrum has passed the filter. *)
Theorem nsep_points_filtered E D q T phase_shift sheet kappa user dflt w w' user' dflt' T0 : penv_ok E -> nsep_safe_call D q T sheet kappa (p_opts_of user dflt) w ->
  T = Some T0 -> fnft_nsep E D q T phase_shift sheet kappa user dflt w = Ret (SUCCESS, w', user', dflt') ->
  (forall K main i z, w_K w' = Some K -> w_main w' = Some main -> (i < K)%nat -> nth_error main i = Some z -> nsep_allowed D T0 phase_shift (p_opts_of user dflt) z) /\
  (forall M aux i z, w_M w' = Some M -> w_aux w' = Some aux -> (i < M)%nat -> nth_error aux i = Some z -> nsep_allowed D T0 phase_shift (p_opts_of user dflt) z).
Proof.
  intros HE HS ET H. destruct (nsep_result_ex E D q T phase_shift sheet kappa user dflt w HE HS) as (c & w1 & u1 & d1 & H' & HR & _).
  rewrite H in H'. injection H' as <- <- <- <-. destruct (HR _ ET) as [_ _ _ _ _ _ R7 R8]. split.
  - intros K main i z EK Em Hi Hz. apply (R7 eq_refl main Em i z); [unfold pcap; rewrite EK; lia|exact Hz].
  - intros M aux i z EM Ea Hi Hz. apply (R8 eq_refl aux Ea i z); [unfold acap; rewrite EM; lia|exact Hz].
Qed.

(** ** C70: the counts never exceed the capacities *)
Theorem nsep_counts E D q T phase_shift sheet kappa user dflt w w' user' dflt' : penv_ok E -> nsep_safe_call D q T sheet kappa (p_opts_of user dflt) w ->
  fnft_nsep E D q T phase_shift sheet kappa user dflt w = Ret (SUCCESS, w', user', dflt') ->
  (forall K, w_main w <> None -> w_K w' = Some K -> (K <= main_size (p_opts_of user dflt) w)%nat) /\
  (forall M, w_M w' = Some M -> (M <= acap w)%nat).
Proof.
  intros HE HS H. destruct (nsep_result_ex E D q T phase_shift sheet kappa user dflt w HE HS) as (c & w1 & u1 & d1 & H' & HR & _).
  rewrite H in H'. injection H' as <- <- <- <-.
  destruct (vp_T _ _ _ _ _ _ _ (sp_valid _ _ _ _ _ _ _ HS)) as (a & b & ET & _). destruct (HR _ ET) as [_ _ _ _ R5 R6 _ _]. split.
  - intros K Hn EK. specialize (R5 eq_refl Hn). unfold pcap in R5. now rewrite EK in R5.
  - intros M EM. specialize (R6 eq_refl). unfold acap at 1 in R6. now rewrite EM in R6.
Qed.
