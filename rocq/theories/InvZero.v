(** * C102: a case for the safety theorem of fnft_nsev_inverse, and two calls outside of it *)
From Coq Require Import Reals ZArith List Lia Lra.
From Coquelicot Require Import Coquelicot.
From Verif Require Import CExp CField CConj Loop Mem PolySpec MatSpec FscatterSpec NsevProps NsevSafe NsevSpec InvModel InvArgs InvSpec FinvModel FinvProps InvCsSpec InvPeelTop InvCsTop InvEx InvCsEx InvTop.
From Verif Require Import InvSafe.
Import ListNotations.
Local Open Scope C_scope.

(** a case for the hypotheses: the model of nse_finvscatter, whatever the outcomes of the allocations, focusing case *)
Definition real_env (al : nat -> bool) : ienv := {| ie_alloc := al; ie_junk := ie_junk env1; ie_plan := ie_plan env1; ie_specfact := ie_specfact env1; ie_finv := ie_finv env1; ie_sbs := ie_sbs env1 |}.
Lemma real_ienv_ok al : ienv_ok (real_env al) 1.
Proof.
  split; cbn [real_env ie_junk ie_plan].
  - intros. apply repeat_length.
  - intros. apply ok_SUCCESS.
  - intros s deg p os _. cbn [real_env ie_specfact env1]. apply ends_ret. cbn [fst snd]. assert (L : length (j0 deg) = deg) by apply repeat_length.
    split; [apply ok_SUCCESS|]. rewrite app_length, L. split; [reflexivity|]. intros _. rewrite app_nth2 by lia. rewrite L, Nat.sub_diag. intros Z; apply (f_equal fst) in Z; cbn in Z; lra.
  - intros k deg tm q eps_t d Hk -> He Hd Lt Nt Lq. destruct env1_finv as (junkm & junk0 & junk1 & junk2 & Hjm & Hj0 & Hj1 & Hj2 & HFi).
    assert (Es : exists s, d = disc_of s) by (destruct Hd as [-> | ->]; [now exists Split2A|now exists Modal]). destruct Es as (s & ->).
    destruct (nse_finvscatter_focusing junkm junk0 junk1 junk2 Hjm Hj0 Hj1 Hj2 s k eps_t tm q Hk He Lq ltac:(lia) Nt) as (qv & q' & _ & _ & Eq & L' & N').
    change (ie_finv (real_env al)) with (ie_finv env1). rewrite HFi, Eq. cbn [bind]. apply ends_ret. cbn [fst snd]. split; [apply ok_SUCCESS|]. split; [exact L'|].
    intros i Hi. destruct (Nat.lt_ge_cases i (length q)) as [A|A].
    + rewrite !(nth_error_nth' _ (RtoC 0)) by lia. rewrite N'. destruct (Nat.ltb_spec i (2 ^ k)); [lia|reflexivity].
    + now rewrite (proj2 (nth_error_None q' i)), (proj2 (nth_error_None q i)) by lia.
Qed.
Example safe_case al cs q : length cs = 8%nat -> length q = 4%nat -> exists code cs' q',
  fnft_nsev_inverse (real_env al) 8 (Some cs) (Some (-1, 1)%R) 0 None None 4 (Some q) (Some (-1, 1)%R) 1 None = Ret (code, (cs', q')) /\ code <> INT_MIN.
Proof.
  intros Lc Lq. destruct (nsev_inverse_safe (real_env al) 8 (Some cs) (Some (-1, 1)%R) None None 4 (Some q) (Some (-1, 1)%R) 1 None (real_ienv_ok al)) as (code & cs' & q' & E & N & _).
  - intros l H. injection H as <-. lia.
  - intros l H. injection H as <-. lia.
  - intros l i _ _ H. discriminate H.
  - exists code, cs', q'. now split.
Qed.

(** all iterations of the loop are skipped, and no error is reported *)
Definition zero_iter_opts : iopts := {| i_disc := N_2SPLIT2_MODAL; i_cs := IC_REFLECTION_COEFFICIENT; i_meth := IM_AB_FROM_ITER; i_ds := ID_NORMING_CONSTANTS; i_maxiter := 0; i_os := 8 |}.
(** memory from malloc for the coefficients of A(z) and B(z): 0, 1 and x, 0 *)
Definition mem_env (x : R) : ienv := {| ie_alloc := ie_alloc env0;
  ie_junk := fun s n => if Nat.eqb n 2 then if Nat.eqb s 23 then [RtoC 0; RtoC 1] else if Nat.eqb s 24 then [RtoC x; RtoC 0] else j0 n else j0 n;
  ie_plan := ie_plan env0; ie_specfact := ie_specfact env0; ie_finv := ie_finv env0; ie_sbs := ie_sbs env0 |}.
Lemma mem_junk x s n : length (ie_junk (mem_env x) s n) = n.
Proof. cbn. destruct (Nat.eqb_spec n 2) as [->|]; [|apply repeat_length]. destruct (Nat.eqb s 23); [reflexivity|]. destruct (Nat.eqb s 24); reflexivity. Qed.
Lemma mem_well x : well (mem_env x).
Proof. split; [intros i; reflexivity|]. split; [apply mem_junk|reflexivity]. Qed.
Lemma mem_finv x : runs_finvscatter (mem_env x). Proof. exact env0_finv. Qed.

Lemma zero_accepted (cs q : list C) XI : accepted 2 (Some cs) (Some XI) 0 None None 2 (Some q) (Some (0, 1)%R) (-1) zero_iter_opts.
Proof.
  split; try (intros; congruence).
  - left. discriminate.
  - intros _. split; [now exists 1%nat|lia].
  - exists 1%nat. split; [lia|reflexivity].
  - exists 0%R, 1%R. split; [reflexivity|lra].
  - right. split; reflexivity.
  - intros H. lia.
  - right. reflexivity.
Qed.
Definition zero_tm (x : R) : list C :=
  [RtoC 0; RtoC 0; RtoC 1; - RtoC (-1) * Cconj (RtoC 0); - RtoC (-1) * Cconj (RtoC x); RtoC 0; RtoC 0; RtoC x; RtoC 0; RtoC 1; RtoC 0; RtoC 0].
Lemma zero_reflection x : same_reflection Modal (-1) 1 (fun n => match n with O => RtoC x | _ => RtoC 0 end) 2 (tm11 (zero_tm x) 2) (tm21 (zero_tm x) 2).
Proof.
  exists []. intros z.
  assert (A : a11 (transfer Modal (-1) 1 (fun n => match n with O => RtoC x | _ => RtoC 0 end) 2 z) * (RtoC x * z)
    - a21 (transfer Modal (-1) 1 (fun n => match n with O => RtoC x | _ => RtoC 0 end) 2 z) * 1 = 0).
  { cbn [transfer sample]. generalize (Csqrt (1 - RtoC 1 * RtoC 0 * (RtoC 1 * (- RtoC (-1) * Cconj (RtoC 0))))) as c0. generalize (Csqrt (1 - RtoC 1 * RtoC x * (RtoC 1 * (- RtoC (-1) * Cconj (RtoC x))))) as c1.
    intros c1 c0. rewrite !Cconj_R. cbn [mmul mscal mone a11 a12 a21 a22]. unfold Cdiv. replace (RtoC (-1)) with (- RtoC 1) by (apply Ceq; cbn; ring). ring. }
  assert (F1 : tm21 (zero_tm x) 2 z = RtoC x * z) by (unfold tm21, coeffs, peval, zero_tm; cbn; ring).
  assert (F2 : tm11 (zero_tm x) 2 z = RtoC 1) by (unfold tm11, coeffs, peval, zero_tm; cbn; ring).
  rewrite F1, F2, A. cbn. ring.
Qed.

(** C102.  With max_iter = 0 the call reports success and returns what happened to be in memory: for each x other than 1 and -1 there is a content of the uninitialised
    memory for which the samples are x, 0, whatever the reflection coefficient. *)
Theorem nsev_inverse_zero_iterations_refuted : forall x : R, (x * x <> 1)%R -> exists E, well E /\ runs_finvscatter E /\
  forall cs q XI, length cs = 2%nat -> length q = 2%nat -> exists cs',
  fnft_nsev_inverse E 2 (Some cs) (Some XI) 0 None None 2 (Some q) (Some (0, 1)%R) (-1) (Some zero_iter_opts) = Ret (SUCCESS, (Some cs', Some [RtoC x; RtoC 0])).
Proof.
  intros x Hx. exists (mem_env x). split; [apply mem_well|]. split; [apply mem_finv|]. intros cs q XI Lc Lq.
  rewrite inverse_accepted by (try apply zero_accepted; intros; discriminate).
  destruct (ends_remove_boundary (-1) 2 2 (0, 1)%R zero_iter_opts ltac:(lia) ltac:(lia) ltac:(now exists 1%nat) ltac:(now right) cs (j0 2) XI ltac:(lia) eq_refl) as ([c [cs' re]] & Eb & _ & _ & _ & Hc & _).
  specialize (Hc eq_refl). cbn [fst] in Hc. subst c.
  destruct (mem_finv x) as (junkm & junk0 & junk1 & junk2 & Hjm & Hj0 & Hj1 & Hj2 & HFi).
  destruct (nse_finvscatter_recovers junkm junk0 junk1 junk2 Hjm Hj0 Hj1 Hj2 Modal (-1) 1 1 (fun n => match n with O => RtoC x | _ => RtoC 0 end) (zero_tm x) q) as (q' & Eq & L' & N').
  { now right. } { lia. } { lra. } { cbn. lia. } { cbn. lia. } { cbn. intros Z; apply (f_equal fst) in Z; cbn in Z; lra. }
  { intros n Hn. unfold in_range. destruct n as [|n].
    - rewrite Rmult_1_l. intros Z. apply Hx. rewrite Cmod_R in Z. replace (Rabs x ^ 2)%R with (x * x)%R in Z by (rewrite <- Rsqr_pow2, <- Rsqr_abs; reflexivity). lra.
    - rewrite Cmod_0. lra. }
  { apply zero_reflection. }
  assert (Q' : q' = [RtoC x; RtoC 0]).
  { assert (N0 := N' 0%nat). assert (N1 := N' 1%nat). cbn in N0, N1. rewrite Lq in L'. destruct q' as [|y0 [|y1 [|? ?]]]; try discriminate L'. cbn in N0, N1. now rewrite N0, N1. }
  assert (Et : tm_ab_from_iter (mem_env x) 2 cs XI 2 (0, 1)%R 2 (j0 12) (-1) zero_iter_opts = Ret (SUCCESS, (cs', zero_tm x))).
  { unfold tm_ab_from_iter. change (ie_junk (mem_env x) 20 2) with (j0 2). change (ie_junk (mem_env x) 23 2) with [RtoC 0; RtoC 1]. change (ie_junk (mem_env x) 24 2) with [RtoC x; RtoC 0].
    change (not_power_of_two 2) with false. cbn [Nat.eqb negb Z.eqb Pos.eqb]. cbn [mem_env ie_alloc env0 negb orb ie_plan]. unfold check at 1 2. change (Z.eqb SUCCESS SUCCESS) with true. cbv iota.
    rewrite Eb. cbn [bind]. unfold check. change (Z.eqb SUCCESS SUCCESS) with true. cbv iota. cbn [zero_iter_opts i_maxiter iter_loop bind]. change (negb (Z.eqb SUCCESS SUCCESS)) with false. cbv iota. reflexivity. }
  assert (Ei : invert_contspec (mem_env x) 2 cs (Some XI) 0 None 2 q (0, 1)%R (-1) zero_iter_opts = Ret (SUCCESS, (cs', q'))).
  { unfold invert_contspec. change (nse_degree (i_disc zero_iter_opts)) with 1%nat. change (2 * 1)%nat with 2%nat. change (Nat.eqb 2 0) with false. change (ie_alloc (mem_env x) 0) with true. cbv zeta. cbn [negb].
    change (ie_junk (mem_env x) 0 (4 * (2 + 1))) with (j0 12). change (i_cs zero_iter_opts) with IC_REFLECTION_COEFFICIENT. cbv iota. cbn [deref bind Nat.eqb]. 
    unfold tm_from_reflection_coefficient. change (i_meth zero_iter_opts) with IM_AB_FROM_ITER. cbv iota. rewrite Et. cbn [bind]. unfold check. rewrite step_ok by lia. cbn [bind]. replace ((snd (0, 1) - fst (0, 1)) / INR (2 - 1))%R with 1%R by (cbn; field).
    change (i_disc zero_iter_opts) with (disc_of Modal). do 3 (change (Z.eqb SUCCESS SUCCESS) with true; cbn [negb]; cbv iota; cbn [bind]). rewrite HFi. change (2 ^ 1)%nat with 2%nat in Eq. rewrite Eq. cbn [bind]. reflexivity. }
  exists cs'. rewrite Ei. cbn [bind]. change (negb (Z.eqb SUCCESS SUCCESS)) with false. cbv iota. cbn [Nat.ltb Nat.leb]. now rewrite Q'.
Qed.

(** C102.  A reflection coefficient of modulus one is accepted; the iteration divides by sqrt(1 - 1). *)
Definition one_iter_opts : iopts := {| i_disc := N_2SPLIT2_MODAL; i_cs := IC_REFLECTION_COEFFICIENT; i_meth := IM_AB_FROM_ITER; i_ds := ID_NORMING_CONSTANTS; i_maxiter := 1; i_os := 8 |}.
Theorem nsev_inverse_unit_reflection_refuted : forall E cs q XI, well E -> length cs = 2%nat -> length q = 2%nat -> (forall i, (i < 2)%nat -> Cmod (nth i cs (RtoC 0)) = 1%R) ->
  fnft_nsev_inverse E 2 (Some cs) (Some XI) 0 None None 2 (Some q) (Some (0, 1)%R) (-1) (Some one_iter_opts) = UB.
Proof.
  intros E cs q XI (Hp & Hj & Hpl) Lc Lq Hm.
  assert (Ac : accepted 2 (Some cs) (Some XI) 0 None None 2 (Some q) (Some (0, 1)%R) (-1) one_iter_opts) by (destruct (zero_accepted cs q XI); now constructor).
  rewrite inverse_accepted by (try exact Ac; intros; discriminate).
  destruct (ends_remove_boundary (-1) 2 2 (0, 1)%R one_iter_opts ltac:(lia) ltac:(lia) ltac:(now exists 1%nat) ltac:(now right) cs (ie_junk E 20 2) XI ltac:(lia) (Hj 20%nat 2%nat)) as ([c [cs' re]] & Eb & _ & [_ Hs] & Lr & Hc & Hr).
  specialize (Hc eq_refl). cbn [fst snd] in *. subst c. specialize (Hr eq_refl).
  assert (M0 : Cmod (nth 0 re (RtoC 0)) = 1%R). { destruct (Hr 0%nat ltac:(lia)) as (j & Hj' & ->). rewrite Hs by exact Hj'. now apply Hm. }
  assert (Ef : forall fin0 : list C, length fin0 = 2%nat -> fill 2 0 (fun i => q <- aget re i ;; let x := (1 + IZR (-1) * (Cmod q * Cmod q))%R in
    if Rlt_dec x 0 then UB else z <- cdivr q (sqrt x) ;; Ret (z / RtoC (INR 2))) fin0 = UB).
  { intros fin0 _. cbn [fill]. rewrite (aget_nth re (RtoC 0)) by lia. cbn [bind]. rewrite M0. replace (1 + -1 * (1 * 1))%R with 0%R by ring.
    destruct (Rlt_dec 0 0) as [H|_]; [lra|]. rewrite sqrt_0. unfold cdivr. destruct (Req_EM_T 0 0); [reflexivity|lra]. }
  assert (Et : forall tm, tm_ab_from_iter E 2 cs XI 2 (0, 1)%R 2 tm (-1) one_iter_opts = UB).
  { intros tm. unfold tm_ab_from_iter. change (not_power_of_two 2) with false. cbn [Nat.eqb negb Z.eqb Pos.eqb]. rewrite !Hp. cbn [negb orb]. rewrite !Hpl. unfold check at 1 2. change (Z.eqb SUCCESS SUCCESS) with true. cbv iota.
    rewrite Eb. cbn [bind]. unfold check. change (Z.eqb SUCCESS SUCCESS) with true. cbv iota. cbn [one_iter_opts i_maxiter iter_loop]. unfold iter_pass. cbn [ib_re ib_in]. rewrite Ef by apply Hj. reflexivity. }
  unfold invert_contspec. change (nse_degree (i_disc one_iter_opts)) with 1%nat. change (2 * 1)%nat with 2%nat. change (Nat.eqb 2 0) with false. rewrite Hp. cbv zeta. cbn [negb].
  change (i_cs one_iter_opts) with IC_REFLECTION_COEFFICIENT. cbv iota. cbn [deref bind Nat.eqb].
  unfold tm_from_reflection_coefficient. change (i_meth one_iter_opts) with IM_AB_FROM_ITER. cbv iota. rewrite Et. reflexivity.
Qed.
