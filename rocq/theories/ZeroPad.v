(** * C101: zero padding does not change the continuous spectrum computed by fnft_nsev *)
From Coq Require Import Reals Lra QArith Qreals.
From Coquelicot Require Import Coquelicot.
From Verif Require Import Loop CExp CConj CMean CField DiscTables DiscModel FscatterSpec FscatterProof ScatterSpec ScatterRun MatExp ScatterMatProps BoundProof
  NsevModel NsevSpec NftSpec NsevLib NsevCsTop NsevEnergy StepNft KdvEnergy.
From Verif Require Import Symm Symm2 SymmTop.
Local Open Scope C_scope.

(** ** The step of a vanishing sample is exp(h A) *)
Definition a_total (w : word) : Q := fold_right (fun f s => match fst f with LA => Qplus (snd f) s | LB => s end) 0%Q w.
Definition consistent (deg : nat) (s : scheme) : bool :=
  Qeq_bool (fold_right (fun t x => Qplus (fst t) x) 0%Q s) 1 && forallb (fun t => Qeq_bool (a_total (snd t)) (inject_Z (Z.of_nat deg))) s.
Lemma expA_mul lam x y : mmul (expA lam x) (expA lam y) = expA lam (x + y).
Proof.
  unfold expA; apply mat2_eq; cbn [a11 a12 a21 a22 mmul];
    rewrite ?(Cmult_0_l), ?Cmult_0_r, ?Cplus_0_l, ?Cplus_0_r, <- ?Cexp_plus; try reflexivity; f_equal; rewrite RtoC_plus; ring.
Qed.
Lemma expA_time0 lam : expA lam 0 = mone.
Proof. unfold expA. rewrite !Cmult_0_r, Cexp_0. reflexivity. Qed.
Lemma Csqrt_0 : Csqrt 0 = 0.
Proof. unfold Csqrt. destruct (Ceq_dec 0 0); [reflexivity|contradiction]. Qed.
Lemma Csqrt_1 : Csqrt 1 = 1.
Proof.
  unfold Csqrt. destruct (Ceq_dec 1 0) as [E|_]; [apply RtoC_inj in E; lra|].
  assert (E : Clog 1 = 0).
  { unfold Clog, Carg. rewrite Cmod_1, ln_1. cbn [fst snd RtoC]. destruct (Rle_dec 0 0) as [_|N]; [|exfalso; lra].
    replace (1 / 1)%R with 1%R by field. now rewrite acos_1. }
  rewrite E, Cmult_0_r. apply Cexp_0.
Qed.
Lemma expB_zero t : expB 0 0 t = mone.
Proof.
  unfold expB, expB_at. rewrite Cmult_0_l, Csqrt_0. destruct (Ceq_dec 0 0) as [_|N]; [|contradiction].
  rewrite Cmult_0_l, Ccosh_0. apply mat2_eq; cbn [a11 a12 a21 a22 mone]; ring.
Qed.
Lemma word_zero lam (h : R) w : word_val (fun a => expA lam (Q2R a * h)) (fun a => expB 0 0 (RtoC (Q2R a * h))) w = expA lam (Q2R (a_total w) * h).
Proof.
  induction w as [|[[|] a] w IH]; cbn [word_val a_total fold_right fst snd].
  - unfold Q2R. cbn. rewrite Rmult_0_l, Rmult_0_l. now rewrite expA_time0.
  - fold (word_val (fun a => expA lam (Q2R a * h)) (fun a => expB 0 0 (RtoC (Q2R a * h))) w). rewrite IH, expA_mul. fold (a_total w). rewrite Q2R_plus. f_equal. ring.
  - fold (word_val (fun a => expA lam (Q2R a * h)) (fun a => expB 0 0 (RtoC (Q2R a * h))) w). rewrite IH, expB_zero, mmul_one_l. reflexivity.
Qed.
Lemma splitting_zero lam (h : R) deg s : (deg <> 0)%nat -> consistent deg s = true -> splitting lam 0 0 h deg s = expA lam h.
Proof.
  intros Nd H. apply andb_prop in H. destruct H as [H1 H2]. apply Qeq_bool_eq in H1. rewrite forallb_forall in H2. unfold splitting, scheme_val.
  assert (G : forall s', (forall t, In t s' -> In t s) -> fold_right (fun t M => madd (mscal (RtoC (Q2R (fst t))) (word_val (fun a => expA lam (Q2R a * (h / INR deg))) (fun a => expB 0 0 (RtoC (Q2R a * (h / INR deg)))) (snd t))) M) mzero s'
    = mscal (RtoC (Q2R (fold_right (fun t x => Qplus (fst t) x) 0%Q s'))) (expA lam h)).
  { induction s' as [|t s' IH]; intros Hin; cbn [fold_right].
    - unfold Q2R. cbn. rewrite Rmult_0_l. apply mat2_eq; cbn [a11 a12 a21 a22 mscal mzero]; ring.
    - rewrite IH by (intros; apply Hin; now right). rewrite word_zero, Q2R_plus, RtoC_plus.
      assert (Et : (Q2R (a_total (snd t)) * (h / INR deg) = h)%R).
      { pose proof (H2 t (Hin t (or_introl eq_refl))) as E. apply Qeq_bool_eq in E. rewrite (Qeq_eqR _ _ E). unfold Q2R, inject_Z. cbn [Qnum Qden].
        rewrite Rinv_1, Rmult_1_r, <- INR_IZR_INZ. field. apply not_0_INR. exact Nd. }
      rewrite Et. apply mat2_eq; cbn [a11 a12 a21 a22 mscal madd]; ring. }
  rewrite G by auto. rewrite (Qeq_eqR _ _ H1). unfold Q2R. cbn. rewrite Rinv_1, Rmult_1_l. apply mat2_eq; cbn [a11 a12 a21 a22 mscal]; ring.
Qed.

(** the step of a method without resampling *)
Definition one_step (d : akns_disc) (h : R) (q r lam : C) : mat2 :=
  match d with A_BO => mexp (X_BO (RtoC h) lam q r) | _ => fast_step d h q r lam end.
Lemma scattering_steps d h q r n lam : akns_upsampling_factor d = 1%nat ->
  scattering d (weights d) h q r n lam = descending n (fun j => one_step d h (q j) (r j) lam).
Proof.
  intros U. unfold scattering. rewrite U. assert (E1 : (h / INR 1 = h)%R) by (cbn; field). rewrite E1.
  destruct (up1 d U) as [[N Hf]|EB].
  - destruct (akns_degree d) as [|m] eqn:Ed; [contradiction|]. destruct d; try reflexivity. discriminate Ed.
  - subst d. cbn [akns_degree slow_steps one_step]. induction n as [|n IH]; cbn [descending]; [reflexivity|]. rewrite IH. f_equal.
    unfold slow_step, sandwich. cbn [step_outer]. f_equal. unfold step_core.
    assert (EW : weights A_BO = [RtoC 1]) by reflexivity. rewrite EW. change (length [RtoC 1]) with 1%nat. rewrite Nat.mod_1_r. cbn [nth]. f_equal. ring.
Qed.
(** the methods without resampling whose weights add up to 1: all but 2SPLIT7A and 2SPLIT7B, where one weight is a rounded number *)
Lemma step_zero d h lam : akns_upsampling_factor d = 1%nat -> d <> A_2SPLIT7A -> d <> A_2SPLIT7B -> one_step d h 0 0 lam = expA lam h.
Proof.
  intros U N1 N2. assert (Eh : (h / 2 + h / 2 = h)%R) by field.
  destruct d; try discriminate U; try contradiction; cbn [one_step fast_step scheme_of];
    try (apply splitting_zero; [discriminate|vm_compute; reflexivity]).
  all: try (rewrite expB_zero, mmul_one_l, expA_mul, Eh; reflexivity).
  - unfold modal. rewrite !Cmult_0_r. replace (1 - 0) with (RtoC 1) by ring. rewrite Csqrt_1.
    replace (mscal (1 / 1) (M2 1 0 0 1)) with mone by (apply mat2_eq; cbn [a11 a12 a21 a22 mscal mone]; field; intros E; apply RtoC_inj in E; lra).
    now rewrite mmul_one_l, expA_mul, Eh.
  - apply mexp_free.
Qed.
Lemma steps_zero d h lam n M : (forall j, (j < n)%nat -> M j = one_step d h 0 0 lam) -> akns_upsampling_factor d = 1%nat -> d <> A_2SPLIT7A -> d <> A_2SPLIT7B ->
  descending n M = expA lam (INR n * h).
Proof.
  intros E U N1 N2. induction n as [|n IH]; cbn [descending]; [now rewrite Rmult_0_l, expA_time0|].
  rewrite IH by auto. rewrite E, step_zero, expA_mul by auto. rewrite S_INR. f_equal. ring.
Qed.

Section Pad.
Variable L : lib.
Hypothesis HL : lib_ok L.
Definition zero_padded (m n : nat) (q : list C) : list C := repeat (RtoC 0) m ++ q ++ repeat (RtoC 0) n.
Lemma nth_padded m n q j : nthC (zero_padded m n q) j = if ((m <=? j) && (j <? m + length q))%nat then nthC q (j - m) else RtoC 0.
Proof.
  unfold nthC, zero_padded. destruct (Nat.leb_spec m j) as [H1|H1]; cbn [andb].
  - rewrite app_nth2 by (rewrite repeat_length; exact H1). rewrite repeat_length. destruct (Nat.ltb_spec j (m + length q)) as [H2|H2].
    + now rewrite app_nth1 by lia.
    + rewrite app_nth2 by lia. apply nth_repeat.
  - rewrite app_nth1 by (rewrite repeat_length; exact H1). apply nth_repeat.
Qed.
(** m zero samples before the signal and n zero samples after it, on the time window extended accordingly; if the
   Boffetta-Osborne method is used, the frequencies are in the range where the steps of the zero samples are computed exactly *)
Theorem nsev_zero_padding D q T M XI kappa user dflt u cs d m n :
  let o := match user with Some o => o | None => dflt end in
  cs_call D q T M XI kappa o u cs d -> d <> A_2SPLIT7A -> d <> A_2SPLIT7B -> (Z.of_nat (m + (D + n)) <= 2147483647)%Z ->
  (d = A_BO -> forall i, (i < M)%nat -> grid_point XI M i = 0%R \/ (1 / 100000000 <= Rabs (spacing T D * grid_point XI M i))%R) ->
  related o M kappa u (succeeds L D q T M XI kappa user dflt u)
    (succeeds L (m + (D + n)) (zero_padded m n q) (fst T - INR m * spacing T D, snd T + INR n * spacing T D)%R M XI kappa user dflt u)
    (fun a1 b1 a2 b2 => forall i, (i < M)%nat -> a2 i = a1 i /\ b2 i = b1 i).
Proof.
  intros o Hc N1 N2 HZ HBO. set (h := spacing T D) in *. set (T' := (fst T - INR m * h, snd T + INR n * h)%R). set (D' := (m + (D + n))%nat). set (q' := zero_padded m n q).
  pose proof (cc_len _ _ _ _ _ _ _ _ _ _ Hc) as Lq. pose proof (cc_up _ _ _ _ _ _ _ _ _ _ Hc) as Hu.
  assert (V1 : (2 <= D)%nat) by (destruct Hc as [V _ _ _ _ _ _ _ _ _ _]; apply V).
  assert (He : (0 < h)%R) by (destruct Hc as [V _ _ _ _ _ _ _ _ _ _]; destruct V as [_ _ (t0 & t1 & E & Ht) _ _ _ _ _]; injection E as ->; apply spacing_pos; assumption).
  assert (Esp : spacing T' D' = h).
  { assert (P1 : (2 <= INR D)%R) by (apply (le_INR 2); exact V1). pose proof (pos_INR m). pose proof (pos_INR n).
    assert (ET : (snd T - fst T = h * (INR D - 1))%R) by (unfold h, spacing; rewrite minus_INR by lia; cbn [INR]; field; lra).
    unfold spacing, T'. cbn [fst snd]. replace (snd T + INR n * h - (fst T - INR m * h))%R with (snd T - fst T + (INR n + INR m) * h)%R by ring. rewrite ET.
    replace (INR (D' - 1)) with (INR m + INR D + INR n - 1)%R; [field; lra|]. unfold D'. rewrite minus_INR by lia. rewrite !plus_INR. cbn [INR]. ring. }
  assert (Lq' : length q' = D') by (unfold q', zero_padded, D'; rewrite !app_length, !repeat_length; lia).
  assert (R0 : nse_r_from_q kappa 0 = 0) by (unfold nse_r_from_q; destruct (kappa =? 1)%Z; rewrite Cconj_R; ring).
  assert (Eq : forall j, (j < D')%nat -> ((j < m)%nat \/ (m + D <= j)%nat -> nthC q' j = 0 /\ nthC (map (nse_r_from_q kappa) q') j = 0) /\
    ((m <= j)%nat -> (j < m + D)%nat -> nthC q' j = nthC q (j - m) /\ nthC (map (nse_r_from_q kappa) q') j = nthC (map (nse_r_from_q kappa) q) (j - m))).
  { intros j Hj. rewrite (nth_r kappa q' j) by (rewrite Lq'; exact Hj). unfold q'. rewrite !nth_padded, Lq. split; intros A.
    - replace ((m <=? j) && (j <? m + D))%nat with false; [split; [reflexivity|exact R0]|]. symmetry. apply Bool.andb_false_iff.
      destruct A as [A|A]; [left; apply Nat.leb_gt; exact A|right; apply Nat.ltb_ge; exact A].
    - intros B. replace ((m <=? j) && (j <? m + D))%nat with true; [|symmetry; apply andb_true_intro; split; [now apply Nat.leb_le|now apply Nat.ltb_lt]].
      split; [reflexivity|]. symmetry. apply nth_r. lia. }
  assert (G : forall lam, Sof d T' D' q' kappa lam = mmul (expA lam (INR n * h)) (mmul (Sof d T D q kappa lam) (expA lam (INR m * h)))).
  { intros lam. unfold Sof. rewrite Esp, !scattering_steps by exact Hu. fold h. unfold D'. rewrite !descending_add, mmul_assoc. f_equal; [f_equal|].
    - apply (steps_zero d); try assumption. intros j Hj. destruct (Eq (m + (D + j))%nat) as [E _]; [unfold D'; lia|]. destruct E as [-> ->]; [right; lia|reflexivity].
    - assert (Dext : forall k (F G : nat -> mat2), (forall j, (j < k)%nat -> F j = G j) -> descending k F = descending k G).
      { induction k as [|k IH]; intros F G E; cbn [descending]; [reflexivity|]. rewrite E, (IH F G) by auto. reflexivity. }
      apply Dext. intros j Hj. destruct (Eq (m + j)%nat) as [_ E]; [unfold D'; lia|]. destruct E as [-> ->]; [lia|lia|]. now replace (m + j - m)%nat with j by lia.
    - apply (steps_zero d); try assumption. intros j Hj. destruct (Eq j) as [E _]; [unfold D'; lia|]. destruct E as [-> ->]; [left; lia|reflexivity]. }
  assert (Ha : forall lam, nft_a_of (Sof d T' D' q' kappa lam) T' h lam = nft_a_of (Sof d T D q kappa lam) T h lam).
  { intros lam. rewrite G. unfold nft_a_of, expA, T'. cbn [a11 a12 a21 a22 mmul fst snd]. set (x := a11 _).
    rewrite !Cmult_0_l, !Cmult_0_r, !Cplus_0_r.
    match goal with |- ?e1 * (x * ?e2) * ?e3 * ?e4 = _ => transitivity (x * (e1 * e2 * e3 * e4)); [ring|] end.
    rewrite <- !Cmult_assoc, <- !Cexp_plus. do 2 f_equal. unfold Rminus. rewrite !RtoC_plus, !RtoC_opp, !RtoC_mult. ring. }
  assert (Hb : forall lam, nft_b_of (Sof d T' D' q' kappa lam) T' h lam = nft_b_of (Sof d T D q kappa lam) T h lam).
  { intros lam. rewrite G. unfold nft_b_of, expA, T'. cbn [a11 a12 a21 a22 mmul fst snd]. set (x := a21 (Sof _ _ _ _ _ _)).
    rewrite !Cmult_0_l, !Cmult_0_r, !Cplus_0_r, !Cplus_0_l.
    match goal with |- ?e1 * (x * ?e2) * ?e3 * ?e4 = _ => transitivity (x * (e1 * e2 * e3 * e4)); [ring|] end.
    rewrite <- !Cmult_assoc, <- !Cexp_plus. do 2 f_equal. unfold Rminus. rewrite !RtoC_plus, !RtoC_opp, !RtoC_mult. ring. }
  eapply call_pair; [exact HL|exact Hc| | |].
  - destruct Hc as [V _ HM Ecs Lcs Hct Hr Hdd _ Hint Hx]. constructor; try assumption.
    + destruct V as [W1 W2 W3 W4 W5 W6 W7 W8]. constructor; try assumption; [unfold D'; lia|discriminate|].
      destruct W3 as (t0 & t1 & E & Ht). injection E as E. exists (fst T')%R, (snd T')%R. split; [reflexivity|]. unfold T'. rewrite E. cbn [fst snd].
      pose proof (Rmult_le_pos _ _ (pos_INR m) (Rlt_le _ _ He)). pose proof (Rmult_le_pos _ _ (pos_INR n) (Rlt_le _ _ He)). lra.
    + intros i Hi. specialize (Hx i Hi). unfold scattering_exact in *. rewrite Esp, Hu in *. fold h in Hx.
      assert (E1 : (h / INR 1 = h)%R) by (cbn; field). rewrite E1 in *.
      destruct (up1 d Hu) as [[Nf Hf]|EB].
      * assert (Z0 : fast_exact d h 0 0).
        { assert (Q0 : - 0 * 0 = RtoC 0) by ring. unfold fast_exact. clear - Q0. destruct d;
            try (intros s t f _ _ _ _; left; rewrite Q0, Csqrt_0; ring);
            rewrite !Cmult_0_r; intros E; apply RtoC_inj in E; lra. }
        destruct (akns_degree d) as [|dm] eqn:Edg; [contradiction|]. intros j Hj. destruct (Eq j Hj) as [Ez Es].
        destruct (Nat.lt_ge_cases j m) as [A|A]; [|destruct (Nat.lt_ge_cases j (m + D)) as [B|B]].
        { destruct (Ez (or_introl A)) as [-> ->]. exact Z0. }
        { destruct (Es A B) as [-> ->]. apply Hx. lia. }
        { destruct (Ez (or_intror B)) as [-> ->]. exact Z0. }
      * clear N1 N2 Ha Hb G. subst d. cbn [akns_degree slow_steps] in *. intros j Hj. destruct (Eq j Hj) as [Ez Es].
        assert (EX : forall q r j lam, step_core A_BO (weights A_BO) (RtoC h) q r j lam = X_BO (RtoC h) lam (q j) (r j)).
        { intros. unfold step_core. assert (EW : weights A_BO = [RtoC 1]) by reflexivity. rewrite EW. change (length [RtoC 1]) with 1%nat. rewrite Nat.mod_1_r. cbn [nth]. f_equal. ring. }
        split; [|exact I]. rewrite EX. set (y := grid_point XI M i) in *.
        assert (Z0 : sinc_exact (X_BO (RtoC h) (RtoC y) 0 0)).
        { assert (Em : mdet (X_BO (RtoC h) (RtoC y) 0 0) = RtoC (h * y * (h * y))) by (unfold mdet, X_BO, mscal, akns_A; cbn [a11 a12 a21 a22]; rewrite !RtoC_mult; apply Ceq; cbn; ring).
          unfold sinc_exact; rewrite Em. destruct (HBO eq_refl i Hi) as [Y|Y]; fold y in Y; [left; rewrite Y; f_equal; ring|right].
          rewrite Cmod_R, Rabs_mult. generalize dependent (Rabs (h * y)). clear. intros z Hz.
          replace (1 / 10000000000000000)%R with (1 / 100000000 * (1 / 100000000))%R by field. apply Rmult_le_compat; lra. }
        destruct (Nat.lt_ge_cases j m) as [A|A]; [|destruct (Nat.lt_ge_cases j (m + D)) as [B|B]].
        { destruct (Ez (or_introl A)) as [-> ->]. exact Z0. }
        { destruct (Es A B) as [-> ->]. destruct (Hx (j - m)%nat) as [K _]; [lia|]. rewrite EX in K. exact K. }
        { destruct (Ez (or_intror B)) as [-> ->]. exact Z0. }
  - intros i Hi. fold h. rewrite Esp. split; [apply Ha|apply Hb].
  - intros i Hi. exists i. split; [exact Hi|]. cbv beta. fold h. now rewrite Esp, Ha.
Qed.
End Pad.
