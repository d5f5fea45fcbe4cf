(** * fnft_nsep with SUBSAMPLE_AND_REFINE and with NEWTON: what the returned points are (C96) *)
From Coq Require Import Reals Lra Lia List ZArith QArith Qreals.
From Coquelicot Require Import Coquelicot.
From Verif Require Import Base Loop Mem Fields ErrModel CExp CField CConj CDeriv DiscTables DiscModel DiscProps DiscPreProps DiscPreNse PolySpec MatSpec FscatterSpec FscatterModel FscatterProof FscatterProps
  ScatterSpec ScatterModel MatExp ScatterProof ScatterLoop ScatterRun ScatterProps ScatterMatProps ScatterNse PolyFmultProof NsevSpec NsevModel NsevProps NsevSafe NsevSafe2 NsevSafe3 NftSpec NsevFast NsevLib NsevCs NsevCsTop NsepModel NsepSpec NsepNewton NsepSafe NsepSafe2 NsepSafe3 NsepTop.
From Verif Require Import NsepFloq NsepGrid NsepGridTop NsevNc.
From Verif Require Import NsepSub NsepSub2 NsepSub3.
Import ListNotations.
Local Close Scope Q_scope.
Local Open Scope C_scope.

(** the v-th of n equidistant values of 2 Delta between 2 r0 and 2 r1: the right-hand sides trace M = .. of the spines *)
Definition floquet_value (r : R * R) (n v : nat) : R :=
  if (n <=? 1)%nat then (2 * fst r)%R else (2 * (fst r + INR v * ((snd r - fst r) / INR (n - 1))))%R.
Lemma spine_rhs_value o v : (v < p_points o)%nat -> spine_rhs o v = floquet_value (p_floquet o) (p_points o) v.
Proof.
  intros Hv. unfold spine_rhs, floquet_value. destruct (Nat.ltb_spec 1 (p_points o)), (Nat.leb_spec (p_points o) 1); try lia; [reflexivity|].
  replace v with 0%nat by lia. cbn [INR]. ring.
Qed.
(** the box in which the refinement is carried out: that of the options, moved by -shift, resp. the automatic one *)
Definition refine_box (o : popts) (nd : nse_disc) (h shift : R) : xbox := p_box (update_box h (map_coeff nd) (shift_box o (- shift))).

Lemma odd_factor k : forall a b, (a * b = 2 ^ k)%nat -> Nat.odd a = true -> a = 1%nat.
Proof.
  induction k as [|k IH]; intros a b E O; [cbn in E; now apply Nat.mul_eq_1 in E|].
  assert (Nat.even b = true) as Eb.
  { assert (X : Nat.even (a * b) = true) by (rewrite E, Nat.pow_succ_r', Nat.even_mul; reflexivity). rewrite Nat.even_mul in X. rewrite <- Nat.negb_odd, O in X. exact X. }
  apply Nat.even_spec in Eb. destruct Eb as (c & ->). apply (IH a c); [|exact O]. rewrite Nat.pow_succ_r' in E. nia.
Qed.
Lemma even_factor k a b : (a * b = 2 ^ k)%nat -> (2 <= a)%nat -> exists j, a = (2 * j)%nat.
Proof.
  intros E H. destruct (Nat.odd a) eqn:O; [apply (odd_factor k a b E) in O; lia|]. rewrite <- Nat.negb_even in O. destruct (Nat.even a) eqn:Ev; [|discriminate]. apply Nat.even_spec in Ev. exact Ev.
Qed.

(** the sizes that preprocessing uses *)
Lemma nse_preprocess_sizes junk junkR D q eps kappa Ds nd p : nse_preprocess junk junkR D (Some q) eps kappa Ds nd = Ret (inr p) ->
  exists ns, downsample_sizes D Ds = Ret (ns, po_Dsub p) /\ po_first p = 0%nat /\ po_last p = ((po_Dsub p - 1) * ns)%nat.
Proof.
  unfold nse_preprocess. destruct (nse_to_akns nd); [|discriminate]. intros H. inv_bind H. destruct x as [c|p']; [discriminate|]. injection H as ->.
  unfold akns_preprocess in Hx. destruct (D <? 2)%nat; [discriminate|]. destruct (Rle_dec eps 0); [discriminate|]. inv_bind Hx. destruct x as [ns m]. cbv zeta in Hx.
  destruct (Nat.eqb _ 0); [discriminate|]. inv_bind Hx. destruct (Z.eqb (fst x) 0); [|discriminate]. injection Hx as <-. exists ns. cbn. rewrite Hx0. auto.
Qed.

(** ** A successful call: the localization routine and the shift back *)
Lemma fnft_nsep_success L G D q T phase_shift kappa user dflt w w' user' dflt' :
  let o := match user with Some o => o | None => dflt end in
  nsep_safe_call D (Some q) (Some T) false kappa o w ->
  let shift := (- phase_shift / (2 * (snd T - fst T)))%R in
  fnft_nsep (plib_env L G) D (Some q) (Some T) phase_shift false kappa user dflt w = Ret (SUCCESS, w', user', dflt') ->
  exists K M t', w_K w = Some K /\ w_M w = Some M /\
    nsep_locate (plib_env L G) D (demodulated D T shift q) T kappa {| t_o := shift_box o (- shift); t_K := K; t_main := w_main w; t_M := M; t_aux := w_aux w |} = Ret (SUCCESS, t') /\
    shift_points (t_K t') shift (t_main t') = Ret (w_main w') /\ shift_points (t_M t') shift (t_aux t') = Ret (w_aux w') /\ pcap w' = t_K t' /\ acap w' = t_M t'.
Proof.
  intros o HS shift H. pose proof (sp_valid _ _ _ _ _ _ _ HS) as HV. destruct HS as [V Lq Hsz _ Room]. destruct V as [VD _ VT Vk VK VM Vs Vf]. specialize (Lq q eq_refl).
  destruct VT as (t0 & t1 & ET & HT). injection ET as ->.
  destruct (w_K w) as [K|] eqn:EK; [|contradiction]. destruct (w_M w) as [MM|] eqn:EM; [|contradiction].
  assert (HR : exists o', nsep_run (plib_env L G) D (Some q) (Some (t0, t1)) phase_shift false kappa o w = Ret (SUCCESS, (o', w'))).
  { unfold fnft_nsep in H. subst o. destruct user as [o|]; inv_bind H; destruct x as [code [o1 u1]]; injection H as -> -> _ _; eauto. }
  destruct HR as (o' & HR). clear H. unfold nsep_run in HR. cbv zeta in HR. rewrite (proj2 (proj1 (nsep_check_valid D (Some q) (Some (t0, t1)) false kappa o w)) HV) in HR.
  change (negb (SUCCESS =? SUCCESS)%Z) with false in HR. cbv iota in HR. cbn [deref bind] in HR. rewrite EK, EM in HR. cbn [deref bind plib_env pe_alloc negb] in HR.
  assert (ES : lam_shift (t0, t1) phase_shift = shift) by (unfold lam_shift, shift; cbn [fst snd]; field; lra). rewrite ES in HR.
  rewrite (demod_loop D (t0, t1) shift q Lq) in HR. cbn [bind] in HR. fold (plib_env L G) in HR. inv_bind HR. destruct x as [c t'].
  exists K, MM, t'. split; [reflexivity|]. split; [reflexivity|].
  destruct (Z.eqb_spec c SUCCESS) as [->|N]; cbn [negb] in HR; [|injection HR as HR _; contradiction].
  split; [exact Hx|]. inv_bind HR. inv_bind HR. injection HR as _ <-. cbn. auto.
Qed.
Lemma check_success c (t t' : pst) : check c t (Ret (SUCCESS, t)) = Ret (SUCCESS, t') -> c = SUCCESS /\ t = t'.
Proof.
  intros H. apply check_Ret in H. destruct H as [(-> & HX)|(Hne & _ & _ & Hcode)]; [injection HX as <-; auto|]. exfalso. cbn [fst] in Hcode. symmetry in Hcode. now apply abs_nonzero in Hcode.
Qed.
(** what holds for the points before the shift *)
Lemma shifted_all P n x l l' : shift_points n x l = Ret l' -> (forall v, l = Some v -> (n <= length v)%nat /\ all_in P 0 n v) ->
  forall v i, l' = Some v -> (i < n)%nat -> P (nth i v 0 - RtoC x).
Proof.
  intros H HP v i Ev Hi. destruct (shift_points_safe n x l) as (l2 & E & Hs & Hv). { intros u Eu. now destruct (HP u Eu). }
  rewrite E in H. injection H as ->. assert (HA := Hv P (fun u Eu => proj2 (HP u Eu)) v Ev). rewrite Ev in Hs. destruct l as [u|]; [|destruct Hs]. destruct (HP u eq_refl) as [Lu _].
  apply seg_length in Hs. apply (HA i (nth i v 0)); [lia|]. apply nth_error_nth'. lia.
Qed.

Section Top.
Variable L : lib.
Hypothesis HL : lib_ok L.
Variable G : nat -> nat -> list C -> nat -> xreal * xreal -> list C -> out (Z * nat * list C).

(** preprocessing to any size that misc_downsample accepts *)
Lemma pre_sub D q eps kappa nd d Ds : nse_to_akns nd = Some d -> is_fast d -> length q = D -> (3 <= D)%nat -> (0 < eps)%R -> kappa = 1%Z \/ kappa = (-1)%Z ->
  exists ns p, nse_preprocess (l_junk L) (l_junkR L) D (Some q) eps kappa Ds nd = Ret (inr p) /\ downsample_sizes D Ds = Ret (ns, po_Dsub p) /\ po_first p = 0%nat /\ po_last p = ((po_Dsub p - 1) * ns)%nat /\
    length (po_q p) = (po_Dsub p * akns_upsampling_factor d)%nat /\ length (po_r p) = (po_Dsub p * akns_upsampling_factor d)%nat /\
    (forall i, (i < po_Dsub p * akns_upsampling_factor d)%nat -> nthC (po_r p) i = - RtoC (IZR kappa) * Cconj (nthC (po_q p) i)) /\
    (akns_upsampling_factor d = 1%nat -> forall k, (k < po_Dsub p)%nat -> nthC (po_q p) k = nth (k * ns) q 0).
Proof.
  intros Hd Hf Lq HD He Vk.
  destruct (nse_preprocess_conjugate (l_junk L) (l_junkR L) (lk_junk L HL) (lk_junkR L HL) D Ds q eps Lq He kappa nd) as (ns' & p & Ep & Gr & L1 & L2 & Hc); try assumption.
  { intros E. rewrite E in Hd. discriminate. }
  { intros E. rewrite E in Hd. injection Hd as <-. destruct Hf as [Hf|Hf]; [discriminate|now apply Hf]. }
  { intros E. rewrite E in Hd. injection Hd as <-. destruct Hf as [Hf|Hf]; [discriminate|now apply Hf]. }
  assert (Eu : nse_upsampling_factor nd = akns_upsampling_factor d) by (unfold nse_upsampling_factor, via; now rewrite Hd). rewrite Eu in L1.
  destruct (nse_preprocess_sizes _ _ _ _ _ _ _ _ _ Ep) as (ns & E1 & E2 & E3). exists ns, p. split; [exact Ep|]. split; [exact E1|]. split; [exact E2|]. split; [exact E3|]. split; [lia|]. split; [lia|]. split.
  - intros i Hi. unfold nthC. apply Hc. lia.
  - intros U k Hk. unfold nse_preprocess in Ep. rewrite Hd in Ep.
    destruct (akns_preprocess_plain (l_junk L) (l_junkR L) (lk_junk L HL) (lk_junkR L HL) D Ds q (fun _ => nse_r_from_q kappa) eps Lq He d ltac:(lia) U) as (s & o & E & G' & _ & _ & N).
    rewrite E in Ep. cbn [bind] in Ep. injection Ep as ->. unfold nthC. destruct (N k Hk) as [-> _]. f_equal. f_equal.
    destruct G' as (_ & G2 & _ & _ & G5 & _). rewrite E3 in G5. apply Nat.mul_cancel_l in G5; lia.
Qed.

Variable delta : R.
Hypothesis HG : eigen_ok L delta.

Lemma shift_fields o x : p_disc (shift_box o x) = p_disc o /\ p_norm (shift_box o x) = p_norm o /\ p_loc (shift_box o x) = p_loc o /\ p_points (shift_box o x) = p_points o /\
  p_Dsub (shift_box o x) = p_Dsub o /\ refine_tol (shift_box o x) = refine_tol o /\ p_max_evals (shift_box o x) = p_max_evals o /\ forall n, spine_rhs (shift_box o x) n = spine_rhs o n.
Proof. unfold shift_box. destruct (p_filt o); repeat split. Qed.

(** C96, SUBSAMPLE_AND_REFINE.  With a root finder whose points are zeros up to delta, every point lam of the main spectrum results from a point z with
   |trace S(z) - v| exp(-Im z (T1 - T0)) <= delta 2^W, where S is the monodromy matrix of the m-point subsampled signal and v one of the requested values,
   by the modified Newton iteration applied to trace M - v with its derivative, M the monodromy matrix of the full signal; every point of the auxiliary
   spectrum results from an approximate zero of S12 by Newton's iteration applied to M12.  The points are moved by shift on return *)
Theorem nsep_subsample_refines D q T phase_shift kappa user dflt w d :
  let o := match user with Some o => o | None => dflt end in
  nsep_safe_call D (Some q) (Some T) false kappa o w -> p_loc o = PL_SUBSAMPLE_AND_REFINE ->
  nse_to_akns (p_disc o) = Some d -> is_fast d -> (3 <= D)%nat -> (Z.of_nat (D * akns_upsampling_factor d) <= 2147483647)%Z ->
  let h := ((snd T - fst T) / INR D)%R in
  let shift := (- phase_shift / (2 * (snd T - fst T)))%R in
  let ups := akns_upsampling_factor d in
  exists p ps m ns Ds, (2 <= m)%nat /\ (m * ns = D)%nat /\ po_Dsub p = D /\ po_Dsub ps = m /\ choose_Dsub D (p_Dsub o) = Ret Ds /\
    nse_preprocess (l_junk L) (l_junkR L) D (Some (demodulated D T shift q)) h kappa D (p_disc o) = Ret (inr p) /\
    nse_preprocess (l_junk L) (l_junkR L) D (Some (demodulated D T shift q)) h kappa Ds (p_disc o) = Ret (inr ps) /\
    (ups = 1%nat -> (forall k, (k < D)%nat -> nthC (po_q p) k = nth k (demodulated D T shift q) 0) /\ forall k, (k < m)%nat -> nthC (po_q ps) k = nth (k * ns) (demodulated D T shift q) 0) /\
  let rd := refine_disc d in
  let hs := (INR ns * h)%R in
  let M lam := scattering rd (weights rd) h (nthC (po_q p)) (nthC (po_r p)) (D * ups) lam in
  let S lam := scattering d (weights d) hs (nthC (po_q ps)) (nthC (po_r ps)) (m * ups) lam in
  let value := floquet_value (p_floquet o) (p_points o) in
  let box := refine_box o (p_disc o) hs shift in
  ((forall j, (j < m * ups)%nat -> fast_exact d (step_size d hs) (nthC (po_q ps) j) (nthC (po_r ps) j)) ->
   (d = A_2SPLIT2_MODAL -> kappa = (-1)%Z -> forall i, (i < m * ups)%nat -> (hs * Cmod (nthC (po_q ps) i) < 1)%R) ->
   exists F F' X X',
     (forall v, (v < p_points o)%nat -> newton_data false rd h (nthC (po_q p)) (nthC (po_r p)) (D * ups) (fun lam => a11 (M lam) + a22 (M lam) - RtoC (value v)) (F v) (F' v)) /\
     newton_data (p_norm o) rd h (nthC (po_q p)) (nthC (po_r p)) (D * ups) (fun lam => a12 (M lam)) X X' /\
     forall w' user' dflt', fnft_nsep (plib_env L G) D (Some q) (Some T) phase_shift false kappa user dflt w = Ret (SUCCESS, w', user', dflt') ->
     exists W : Z, (p_norm o = false -> W = 0%Z) /\
       (forall l i, w_main w' = Some l -> (i < pcap w')%nat -> exists v z, (v < p_points o)%nat /\
          trace_near S (snd T - fst T) (delta * powerRZ 2 W) (value v) z /\ refined (F v) (F' v) (refine_tol o) box (p_max_evals o) z (nth i l 0 - RtoC shift)) /\
       (eigen_total L -> forall l i, w_aux w' = Some l -> (i < acap w')%nat -> exists z,
          aux_point S (snd T - fst T + (if half_shifted d then step_size d hs else 0)) (delta * powerRZ 2 W) z /\ iterated X X' (refine_tol o) box (p_max_evals o) z (nth i l 0 - RtoC shift))).
Proof.
  intros o HS Hloc Hd Hf H3 H31 h shift ups. pose proof HS as HS0. destruct HS as [V Lq Hsz HDsz Room]. destruct V as [VD _ VT Vk VK VM Vs Vf]. specialize (Lq q eq_refl).
  destruct VT as (t0 & t1 & ET & HT). injection ET as ->. cbn [fst snd] in h, shift. destruct VD as (k & Hk & ED).
  set (qp := demodulated D (t0, t1) shift q). assert (Lqp : length qp = D) by (unfold qp, demodulated; now rewrite map_length, seq_length).
  assert (Hh : (0 < h)%R) by (apply Rdiv_lt_0_compat; [lra|apply lt_0_INR; lia]).
  destruct (pre_exists L HL D qp h kappa _ d Hd Lqp Hh ltac:(lia) (or_introl H3)) as (p & Ep & PD & Pq & Pr & Ppl).
  assert (Eu : nse_upsampling_factor (p_disc o) = ups) by (unfold nse_upsampling_factor, via; now rewrite Hd). rewrite Eu in Hsz.
  assert (Hu : ups = 1%nat \/ ups = 2%nat).
  { unfold ups. clear - Hf Hd. destruct (p_disc o); try discriminate Hd; injection Hd as <-; cbn; auto; exfalso; revert Hf; unfold is_fast; intuition discriminate. }
  destruct (choose_Dsub_pow D (p_Dsub o)) as (j & Ech); [lia| |exact HDsz|]. { eapply Z.le_trans; [|exact Hsz]. destruct Hu as [-> | ->]; lia. }
  destruct (pre_sub D qp h kappa _ d (2 ^ j) Hd Hf Lqp H3 Hh Vk) as (ns & ps & Eps & Esz & Ef & El & Lsq & Lsr & Hrs & Hpls).
  destruct (pow2_sizes k j Hk) as (ns' & m & Esz' & N1 & M2 & Prod). rewrite <- ED in Esz', Prod. rewrite Esz in Esz'. injection Esz' as <- EDs. rewrite EDs in *.
  exists p, ps, m, ns, (2 ^ j)%nat. split; [exact M2|]. split; [exact Prod|]. split; [exact PD|]. split; [exact EDs|]. split; [exact Ech|]. split; [exact Ep|]. split; [exact Eps|].
  split. { intros U. split; [|now apply Hpls]. destruct (Ppl U) as [-> _]. reflexivity. }
  intros rd hs M S value box Hx Hm.
  assert (Hmodal : d = A_2SPLIT2_MODAL -> kappa = (-1)%Z -> forall i, (i < m * akns_upsampling_factor d)%nat -> (Rabs (step_size d (INR ns * h)) * Cmod (nthC (po_q ps) i) < 1)%R).
  { intros E1 E2 i Hi. unfold step_size. rewrite E1. cbn [akns_upsampling_factor INR]. rewrite Rdiv_1, Rabs_pos_eq; [|apply Rmult_le_pos; [apply pos_INR|lra]]. apply Hm; assumption. }
  destruct (shift_fields o (- shift)) as (So1 & So2 & So3 & So4 & So5 & So6 & So7 & So8).
  set (nrd := if Nat.eqb ups 2 then N_CF4_2 else N_BO).
  assert (Erd : nse_to_akns nrd = Some rd) by (unfold nrd, rd, refine_disc; fold ups; destruct Hu as [-> | ->]; reflexivity).
  assert (Srd : is_slow rd) by (unfold rd, refine_disc, is_slow; fold ups; destruct Hu as [-> | ->]; cbn; tauto).
  assert (Mrd : match rd with A_ES4 | A_TES4 => (D * ups mod 3 = 0)%nat | _ => True end) by (unfold rd, refine_disc; fold ups; destruct Hu as [-> | ->]; exact I).
  assert (N1' : (1 <= D * ups)%nat) by nia.
  exists (fun v => mF L G (D * ups) (po_q p) (po_r p) h kappa nrd (p_norm o) (spine_rhs o v)), (fun v => mF' L G (D * ups) (po_q p) (po_r p) h kappa nrd (p_norm o) (spine_rhs o v)),
    (xF L G (D * ups) (po_q p) (po_r p) h kappa nrd (p_norm o)), (xF' L G (D * ups) (po_q p) (po_r p) h kappa nrd (p_norm o)).
  split. { intros v Hv. unfold value. rewrite <- spine_rhs_value by exact Hv. apply (trace_data L HL G 0 _ _ _ _ _ _ nrd rd); auto; unfold ups; lia. }
  split. { apply (entry_data L HL G 0 _ _ _ _ _ _ nrd rd); auto; unfold ups; lia. }
  intros w' user' dflt' H. destruct (fnft_nsep_success L G D q (t0, t1) phase_shift kappa user dflt w w' user' dflt' HS0 H) as (K & MM & t' & EK & EM & HLoc & Hsm & Hsa & EpK & EpM).
  cbn [fst snd] in HLoc, Hsm, Hsa. fold o shift qp in HLoc, Hsm, Hsa.
  set (t := {| t_o := _ |}) in HLoc. unfold nsep_locate in HLoc. unfold t in HLoc at 1. cbn [t_o] in HLoc. rewrite So3, Hloc in HLoc. inv_bind HLoc. destruct x as [c t2]. apply check_success in HLoc. destruct HLoc as [-> ->].
  destruct Room as [R1 R2]. unfold main_size, pcap, acap in R1, R2. rewrite Hloc, EK in R1. rewrite EM in R2.
  destruct (subsample_inv L HL G delta HG D (t0, t1) kappa t d qp p ps (2 ^ j) ns m) with (skip := false) (t' := t') as (W & HW & HPm & HPa); try assumption; cbn [t t_o t_main t_K t_M t_aux fst snd]; rewrite ?So1, ?So5; try assumption.
  { apply (even_factor k m ns); [lia|exact M2]. }
  { unfold ups in *. nia. }
  unfold main_refined, aux_refined in HPm, HPa. cbn [t t_o t_main t_K t_M t_aux fst snd] in HW, HPm, HPa. rewrite So1, So2, So4, So6, So7 in HPm. rewrite So1, So2, So6, So7 in HPa. rewrite So2 in HW.
  exists W. split; [exact HW|]. split.
  - intros l i El' Hi. rewrite EpK in Hi. pose proof (shifted_all _ _ _ _ _ Hsm HPm l i El' Hi) as (v & z & Hv & H1 & H2). rewrite So8 in H1, H2. exists v, z. split; [exact Hv|].
    split; [unfold value; rewrite <- spine_rhs_value by exact Hv; exact H1|exact H2].
  - intros Et l i El' Hi. rewrite EpM in Hi. pose proof (shifted_all _ _ _ _ _ Hsa (fun v Ev => conj (proj1 (HPa v Ev)) (proj2 (HPa v Ev) Et)) l i El' Hi) as (z & H1 & H2). exists z. split; [exact H1|exact H2].
Qed.

(** C96, NEWTON.  Every point lam returned as main spectrum results from one of the caller's guesses for the value v (the v-th block of K entries of main_spec)
   by the modified Newton iteration applied to trace M - v with its derivative, every point of the auxiliary spectrum from one of the caller's guesses by Newton's
   iteration applied to M12; the result is moved by shift, the guesses are not *)
Theorem nsep_newton_refines D q T phase_shift kappa user dflt w d :
  let o := match user with Some o => o | None => dflt end in
  nsep_safe_call D (Some q) (Some T) false kappa o w -> p_loc o = PL_NEWTON ->
  nse_to_akns (p_disc o) = Some d -> is_slow d -> ((3 <= D)%nat \/ akns_upsampling_factor d = 1%nat) ->
  let h := ((snd T - fst T) / INR D)%R in
  let shift := (- phase_shift / (2 * (snd T - fst T)))%R in
  let n := (D * akns_upsampling_factor d)%nat in
  exists p, nse_preprocess (l_junk L) (l_junkR L) D (Some (demodulated D T shift q)) h kappa D (p_disc o) = Ret (inr p) /\
    (akns_upsampling_factor d = 1%nat -> po_q p = demodulated D T shift q /\ po_r p = map (nse_r_from_q kappa) (demodulated D T shift q)) /\
  let M lam := scattering d (weights d) h (nthC (po_q p)) (nthC (po_r p)) n lam in
  let value := floquet_value (p_floquet o) (p_points o) in
  let box := refine_box o (p_disc o) h shift in
   exists F F' X X',
     (forall v, (v < p_points o)%nat -> newton_data false d h (nthC (po_q p)) (nthC (po_r p)) n (fun lam => a11 (M lam) + a22 (M lam) - RtoC (value v)) (F v) (F' v)) /\
     newton_data (p_norm o) d h (nthC (po_q p)) (nthC (po_r p)) n (fun lam => a12 (M lam)) X X' /\
     forall w' user' dflt', fnft_nsep (plib_env L G) D (Some q) (Some T) phase_shift false kappa user dflt w = Ret (SUCCESS, w', user', dflt') ->
       (forall l i, w_main w' = Some l -> (i < pcap w')%nat -> exists g v j, w_main w = Some g /\ (v < p_points o)%nat /\ (j < pcap w)%nat /\
          refined (F v) (F' v) (refine_tol o) box (p_max_evals o) (nth (v * pcap w + j) g 0) (nth i l 0 - RtoC shift)) /\
       (forall l i, w_aux w' = Some l -> (i < acap w')%nat -> exists g j, w_aux w = Some g /\ (j < acap w)%nat /\
          iterated X X' (refine_tol o) box (p_max_evals o) (nth j g 0) (nth i l 0 - RtoC shift)).
Proof.
  intros o HS Hloc Hd Hs H3 h shift n. pose proof HS as HS0. destruct HS as [V Lq Hsz HDsz Room]. destruct V as [VD _ VT Vk VK VM Vs Vf]. specialize (Lq q eq_refl).
  destruct VT as (t0 & t1 & ET & HT). injection ET as ->. cbn [fst snd] in h, shift. destruct VD as (k & Hk & ED).
  assert (HD2 : (2 <= D)%nat) by (rewrite ED; apply (Nat.pow_le_mono_r 2 1 k); lia).
  set (qp := demodulated D (t0, t1) shift q). assert (Lqp : length qp = D) by (unfold qp, demodulated; now rewrite map_length, seq_length).
  assert (Hh : (0 < h)%R) by (apply Rdiv_lt_0_compat; [lra|apply lt_0_INR; lia]).
  destruct (pre_exists L HL D qp h kappa _ d Hd Lqp Hh HD2 H3) as (p & Ep & PD & Pq & Pr & Ppl).
  assert (Eu : nse_upsampling_factor (p_disc o) = akns_upsampling_factor d) by (unfold nse_upsampling_factor, via; now rewrite Hd).
  exists p. split; [exact Ep|]. split; [exact Ppl|]. intros M value box.
  destruct (shift_fields o (- shift)) as (So1 & So2 & So3 & So4 & So5 & So6 & So7 & So8).
  assert (Nu : akns_upsampling_factor d <> O) by (apply ups_pos; destruct (p_disc o); try discriminate Hd; injection Hd as <-; repeat split; discriminate).
  assert (N1 : (1 <= n)%nat) by (unfold n; nia).
  assert (Mrd : match d with A_ES4 | A_TES4 => (n mod 3 = 0)%nat | _ => True end) by (unfold n; destruct d; try exact I; apply Nat.mod_mul; lia).
  exists (fun v => mF L G n (po_q p) (po_r p) h kappa (p_disc o) (p_norm o) (spine_rhs o v)), (fun v => mF' L G n (po_q p) (po_r p) h kappa (p_disc o) (p_norm o) (spine_rhs o v)),
    (xF L G n (po_q p) (po_r p) h kappa (p_disc o) (p_norm o)), (xF' L G n (po_q p) (po_r p) h kappa (p_disc o) (p_norm o)).
  split. { intros v Hv. unfold value. rewrite <- spine_rhs_value by exact Hv. apply (trace_data L HL G 0 _ _ _ _ _ _ (p_disc o) d); auto; unfold n; lia. }
  split. { apply (entry_data L HL G 0 _ _ _ _ _ _ (p_disc o) d); auto; unfold n; lia. }
  intros w' user' dflt' H. destruct (fnft_nsep_success L G D q (t0, t1) phase_shift kappa user dflt w w' user' dflt' HS0 H) as (K & MM & t' & EK & EM & HLoc & Hsm & Hsa & EpK & EpM).
  cbn [fst snd] in HLoc, Hsm, Hsa. fold o shift qp in HLoc, Hsm, Hsa.
  set (t := {| t_o := _ |}) in HLoc. unfold nsep_locate in HLoc. unfold t in HLoc at 1. cbn [t_o] in HLoc. rewrite So3, Hloc in HLoc. inv_bind HLoc. destruct x as [c t2]. apply check_success in HLoc. destruct HLoc as [-> ->].
  destruct Room as [R1 R2]. unfold main_size, pcap, acap in R1, R2. rewrite Hloc, EK in R1. rewrite EM in R2.
  destruct (newton_inv L G D (t0, t1) kappa t qp p) with (t' := t') as (HPm & HPa); cbn [t t_o t_main t_K t_M t_aux fst snd]; rewrite ?So1, ?So4; try assumption.
  unfold guess_refined, guess_iterated in HPm, HPa. cbn [t t_o t_main t_K t_M t_aux fst snd] in HPm, HPa. rewrite So1, Eu, So2, So4, So6, So7 in HPm. rewrite So1, Eu, So2, So6, So7 in HPa.
  assert (EKw : pcap w = K) by (unfold pcap; now rewrite EK). assert (EMw : acap w = MM) by (unfold acap; now rewrite EM). rewrite EKw, EMw. split.
  - intros l i El' Hi. rewrite EpK in Hi. destruct (w_main w) as [g|] eqn:Eg.
    + assert (HPm' : forall v, t_main t' = Some v -> (t_K t' <= length v)%nat /\ all_in (fun lam => exists v j, (v < p_points o)%nat /\ (j < K)%nat /\
        refined (mF L G n (po_q p) (po_r p) h kappa (p_disc o) (p_norm o) (spine_rhs o v)) (mF' L G n (po_q p) (po_r p) h kappa (p_disc o) (p_norm o) (spine_rhs o v)) (refine_tol o) box (p_max_evals o) (nth (v * K + j) g 0) lam) 0 (t_K t') v).
      { intros v Ev. destruct (HPm v Ev) as (l0 & E0 & A1 & A2). injection E0 as <-. split; [exact A1|]. eapply all_in_impl; [|exact A2]. intros lam (v' & j & B1 & B2 & B3). rewrite So8 in B3. exists v', j. auto. }
      pose proof (shifted_all _ _ _ _ _ Hsm HPm' l i El' Hi) as (v & j & A1 & A2 & A3). exists g, v, j. auto.
    + exfalso. destruct (t_main t') as [u|] eqn:Eu'; [destruct (HPm u eq_refl) as (l0 & E0 & _); discriminate|]. rewrite El' in Hsm. discriminate Hsm.
  - intros l i El' Hi. rewrite EpM in Hi. destruct (w_aux w) as [g|] eqn:Eg.
    + assert (HPa' : forall v, t_aux t' = Some v -> (t_M t' <= length v)%nat /\ all_in (fun lam => exists j, (j < MM)%nat /\
        iterated (xF L G n (po_q p) (po_r p) h kappa (p_disc o) (p_norm o)) (xF' L G n (po_q p) (po_r p) h kappa (p_disc o) (p_norm o)) (refine_tol o) box (p_max_evals o) (nth j g 0) lam) 0 (t_M t') v).
      { intros v Ev. destruct (HPa v Ev) as (l0 & E0 & A1 & A2). injection E0 as <-. split; [exact A1|exact A2]. }
      pose proof (shifted_all _ _ _ _ _ Hsa HPa' l i El' Hi) as (j & A1 & A2). exists g, j. auto.
    + exfalso. destruct (t_aux t') as [u|] eqn:Eu'; [destruct (HPa u eq_refl) as (l0 & E0 & _); discriminate|]. rewrite El' in Hsa. discriminate Hsa.
Qed.
End Top.
