(** * C100: symmetries of the continuous spectrum computed by fnft_nsev *)
From Coq Require Import Reals Lra.
From Coquelicot Require Import Coquelicot.
From Verif Require Import Loop CExp CConj CMean CField DiscTables DiscModel FscatterSpec FscatterProof ScatterSpec ScatterRun MatExp ScatterMatProps
  NsevModel NsevSpec NftSpec NsevLib NsevCsTop NsevEnergy KdvEnergy.
From Verif Require Import Symm Symm2.
Local Open Scope C_scope.

Section Sym.
Variable L : lib.
Hypothesis HL : lib_ok L.

(** a call for the continuous spectrum to which C86 applies, for a method that works on the given samples: the samples
   q_0, ..., q_(D-1) on T, the frequencies are M points on XI *)
Record cs_call (D : nat) (q : list C) (T : R * R) (M : nat) (XI : R * R) (kappa : Z) (o : opts) (u : outs) (cs : list C) (d : akns_disc) : Prop := {
  cc_valid : nsev_valid D (Some q) (Some T) (Some XI) kappa o u;
  cc_len : length q = D;
  cc_M : (2 <= M)%nat;
  cc_cs : u_cs u = Some cs;
  cc_room : (cs_values (contspec_type o) * M <= length cs)%nat;
  cc_type : contspec_type o <> CS_bad;
  cc_rich : richardson_extrapolation_flag o <> 1%nat;
  cc_disc : nse_to_akns (discretization o) = Some d;
  cc_up : akns_upsampling_factor d = 1%nat;
  cc_int : (Z.of_nat D <= 2147483647)%Z;
  cc_exact : forall i, (i < M)%nat ->
    scattering_exact d (weights d) (spacing T D) (nthC q) (nthC (map (nse_r_from_q kappa) q)) D (RtoC (grid_point XI M i)) }.
(** the call with these arguments returns SUCCESS and the outputs u' *)
Definition succeeds (D : nat) (q : list C) (T : R * R) (M : nat) (XI : R * R) (kappa : Z) (user : option opts) (dflt : opts) (u u' : outs) : Prop :=
  exists user' dflt', fnft_nsev (lib_env L) D (Some q) (Some T) M (Some XI) kappa user dflt u = Ret (SUCCESS, u', user', dflt').
Definition no_bound_states (kappa : Z) (u : outs) : Prop := u_bs u = None \/ kappa = (-1)%Z.
(** the two calls return spectra that are related by rel, and one succeeds if the other does *)
Definition related (o : opts) (M : nat) (kappa : Z) (u : outs) (run1 run2 : outs -> Prop) (rel : (nat -> C) -> (nat -> C) -> (nat -> C) -> (nat -> C) -> Prop) : Prop :=
  (forall u1 u2, run1 u1 -> run2 u2 -> exists cs1 cs2 a1 b1 a2 b2, u_cs u1 = Some cs1 /\ u_cs u2 = Some cs2 /\
     spectrum_is (contspec_type o) M a1 b1 cs1 /\ spectrum_is (contspec_type o) M a2 b2 cs2 /\ rel a1 b1 a2 b2) /\
  (no_bound_states kappa u -> (exists u1, run1 u1) -> exists u2, run2 u2).

Definition Sof (d : akns_disc) (T : R * R) (D : nat) (q : list C) (kappa : Z) (lam : C) : mat2 :=
  scattering d (weights d) (spacing T D) (nthC q) (nthC (map (nse_r_from_q kappa) q)) D lam.
Lemma call_spectrum D q T M XI kappa user dflt u cs d :
  let o := match user with Some o => o | None => dflt end in
  cs_call D q T M XI kappa o u cs d ->
  let xi i := RtoC (grid_point XI M i) in
  let a i := nft_a_of (Sof d T D q kappa (xi i)) T (spacing T D) (xi i) in
  let b i := nft_b_of (Sof d T D q kappa (xi i)) T (spacing T D) (xi i) in
  (forall u', succeeds D q T M XI kappa user dflt u u' -> exists cs', u_cs u' = Some cs' /\ spectrum_is (contspec_type o) M a b cs') /\
  (no_bound_states kappa u -> (contspec_type o = CS_AB \/ forall i, (i < M)%nat -> a i <> 0) -> exists u', succeeds D q T M XI kappa user dflt u u').
Proof.
  intros o Hc xi a b. destruct Hc as [V Lq HM Ecs Lcs Hct Hr Hd Hu Hint Hx].
  destruct (nsev_contspec_is_discrete_nft L HL D q T M XI kappa user dflt u cs d V Lq HM Ecs Lcs Hct Hr Hd (or_intror Hu)) as (p & _ & Hp & H).
  { rewrite Hu, Nat.mul_1_r. exact Hint. }
  destruct (Hp Hu) as [E1 E2]. rewrite E1, E2, Hu, Nat.mul_1_r in H. cbv zeta in H. specialize (H Hx). destruct H as [H1 H2]. split.
  - intros u' (user' & dflt' & E). destruct (H1 u' user' dflt' E) as (cs' & F1 & F2 & _). exists cs'. split; [exact F1|exact F2].
  - intros N A. destruct (H2 N A) as (u' & user' & dflt' & E). exists u', user', dflt'. exact E.
Qed.
Lemma spectrum_nz t M a b l : spectrum_is t M a b l -> t = CS_AB \/ forall j, (j < M)%nat -> a j <> 0.
Proof. unfold spectrum_is. destruct t; intros F; first [contradiction|left; reflexivity|right; intros j Hj; apply (F j Hj)]. Qed.
(** if a2 vanishes only where a1 does *)
Lemma call_pair D q T XI D' q' T' XI' M kappa user dflt u cs d (rel : (nat -> C) -> (nat -> C) -> (nat -> C) -> (nat -> C) -> Prop) :
  let o := match user with Some o => o | None => dflt end in
  cs_call D q T M XI kappa o u cs d -> cs_call D' q' T' M XI' kappa o u cs d ->
  let a D T XI q i := nft_a_of (Sof d T D q kappa (RtoC (grid_point XI M i))) T (spacing T D) (RtoC (grid_point XI M i)) in
  let b D T XI q i := nft_b_of (Sof d T D q kappa (RtoC (grid_point XI M i))) T (spacing T D) (RtoC (grid_point XI M i)) in
  rel (a D T XI q) (b D T XI q) (a D' T' XI' q') (b D' T' XI' q') ->
  (forall i, (i < M)%nat -> exists j, (j < M)%nat /\ (a D T XI q j <> 0 -> a D' T' XI' q' i <> 0)) ->
  related o M kappa u (succeeds D q T M XI kappa user dflt u) (succeeds D' q' T' M XI' kappa user dflt u) rel.
Proof.
  intros o H1 H2 a b Hrel Ha. destruct (call_spectrum D q T M XI kappa user dflt u cs d H1) as [S1 _].
  destruct (call_spectrum D' q' T' M XI' kappa user dflt u cs d H2) as [S2 X2]. split.
  - intros u1 u2 R1 R2. destruct (S1 u1 R1) as (cs1 & E1 & F1). destruct (S2 u2 R2) as (cs2 & E2 & F2).
    exists cs1, cs2, (a D T XI q), (b D T XI q), (a D' T' XI' q'), (b D' T' XI' q'). split; [exact E1|]. split; [exact E2|]. split; [exact F1|]. split; [exact F2|exact Hrel].
  - intros N (u1 & R1). apply X2; [exact N|]. destruct (S1 u1 R1) as (cs1 & E1 & F1).
    assert (G : contspec_type o = CS_AB \/ forall j, (j < M)%nat -> a D T XI q j <> 0).
    { exact (spectrum_nz _ _ _ _ _ F1). }
    destruct G as [G|G]; [left; exact G|right]. intros i Hi. destruct (Ha i Hi) as (j & Hj & K). apply K, G, Hj.
Qed.

Lemma nth_r kappa q j : (j < length q)%nat -> nthC (map (nse_r_from_q kappa) q) j = nse_r_from_q kappa (nthC q j).
Proof. intros Hj. unfold nthC. rewrite (nth_indep _ _ (nse_r_from_q kappa (RtoC 0))) by (rewrite map_length; exact Hj). apply map_nth. Qed.
Lemma nth_map (f : C -> C) q j : (j < length q)%nat -> nthC (map f q) j = f (nthC q j).
Proof. intros Hj. unfold nthC. rewrite (nth_indep _ _ (f (RtoC 0))) by (rewrite map_length; exact Hj). apply map_nth. Qed.
Lemma unit_nz c : Cmod c = 1%R -> c <> 0 /\ / c = Cconj c.
Proof.
  intros E. assert (N : c <> 0) by (intros ->; rewrite Cmod_0 in E; lra). split; [exact N|].
  assert (P : Cconj c * c = 1). { apply Ceq; cbn; pose proof (Cmod_sq c) as S; rewrite E in S; lra. }
  transitivity (Cconj c * c * / c); [rewrite P; ring|]. field. exact N.
Qed.

(** ** Phase rotation: multiplying the signal by c, |c| = 1, leaves a unchanged and multiplies b by conj c *)
Theorem nsev_phase_rotation D q T M XI kappa user dflt u cs d c :
  let o := match user with Some o => o | None => dflt end in
  cs_call D q T M XI kappa o u cs d -> Cmod c = 1%R ->
  related o M kappa u (succeeds D q T M XI kappa user dflt u) (succeeds D (map (Cmult c) q) T M XI kappa user dflt u)
    (fun a1 b1 a2 b2 => forall i, (i < M)%nat -> a2 i = a1 i /\ b2 i = Cconj c * b1 i).
Proof.
  intros o Hc Ec. destruct (unit_nz c Ec) as [Nc Ic].
  assert (G : forall lam, twist c (Sof d T D q kappa lam) = Sof d T D (map (Cmult c) q) kappa lam /\
    (scattering_exact d (weights d) (spacing T D) (nthC q) (nthC (map (nse_r_from_q kappa) q)) D lam ->
     scattering_exact d (weights d) (spacing T D) (nthC (map (Cmult c) q)) (nthC (map (nse_r_from_q kappa) (map (Cmult c) q))) D lam)).
  { intros lam. destruct Hc as [_ Lq _ _ _ _ _ _ Hu _ _].
    assert (Er : forall j, (j < D)%nat -> nthC (map (Cmult c) q) j = c * nthC q j /\ nthC (map (nse_r_from_q kappa) (map (Cmult c) q)) j = / c * nthC (map (nse_r_from_q kappa) q) j).
    { intros j Hj. rewrite <- Lq in Hj. rewrite nth_r by (rewrite map_length; exact Hj). rewrite nth_r, nth_map by exact Hj. split; [reflexivity|].
      rewrite Ic. unfold nse_r_from_q. destruct (kappa =? 1)%Z; rewrite Cmult_conj; ring. }
    unfold Sof. apply co_scattering; [exact Hu|apply twist_morph; exact Nc|apply twist_dets; exact Nc| |].
    - intros j Hj. destruct (Er j Hj) as [-> ->]. apply twist_cov. exact Nc.
    - intros _ j Hj. destruct (Er j Hj) as [-> ->]. unfold modal. set (h := spacing T D). set (r := nthC (map (nse_r_from_q kappa) q) j).
      replace (1 - RtoC h * (c * nthC q j) * (RtoC h * (/ c * r))) with (1 - RtoC h * nthC q j * (RtoC h * r)) by (field; exact Nc).
      apply mat2_eq; cbn [a11 a12 a21 a22 mscal twist]; ring. }
  assert (Ha : forall lam, nft_a_of (Sof d T D (map (Cmult c) q) kappa lam) T (spacing T D) lam = nft_a_of (Sof d T D q kappa lam) T (spacing T D) lam).
  { intros lam. rewrite <- (proj1 (G lam)). reflexivity. }
  eapply call_pair; [exact Hc| | |].
  - destruct Hc as [V Lq HM Ecs Lcs Hct Hr Hd Hu Hint Hx]. constructor; try assumption.
    + destruct V. constructor; try assumption. discriminate.
    + now rewrite map_length.
    + intros i Hi. apply (proj2 (G _)), Hx, Hi.
  - intros i Hi. split; [apply Ha|]. rewrite <- (proj1 (G _)), <- Ic. unfold nft_b_of, twist. cbn [a21]. ring.
  - intros i Hi. exists i. split; [exact Hi|]. cbv beta. now rewrite Ha.
Qed.

(** ** Dilation: the signal s q(s t), s > 0, has the spectrum of q at the frequencies divided by s *)
Theorem nsev_dilation D q T M XI kappa user dflt u cs d (s : R) :
  let o := match user with Some o => o | None => dflt end in
  cs_call D q T M XI kappa o u cs d -> (0 < s)%R ->
  related o M kappa u (succeeds D q T M XI kappa user dflt u)
    (succeeds D (map (Cmult (RtoC s)) q) (fst T / s, snd T / s)%R M (s * fst XI, s * snd XI)%R kappa user dflt u)
    (fun a1 b1 a2 b2 => forall i, (i < M)%nat -> a2 i = a1 i /\ b2 i = b1 i).
Proof.
  intros o Hc Hs. set (T' := (fst T / s, snd T / s)%R). set (XI' := (s * fst XI, s * snd XI)%R).
  assert (Ns : RtoC s <> 0) by (intros E; apply RtoC_inj in E; lra).
  assert (Esp : spacing T' D = (spacing T D / s)%R) by (unfold spacing, T'; cbn [fst snd]; unfold Rdiv; ring).
  assert (Egr : forall i, grid_point XI' M i = (s * grid_point XI M i)%R) by (intros; unfold grid_point, spacing, XI'; cbn [fst snd]; unfold Rdiv; ring).
  assert (G : forall lam, Sof d T D q kappa lam = Sof d T' D (map (Cmult (RtoC s)) q) kappa (RtoC s * lam) /\
    (scattering_exact d (weights d) (spacing T D) (nthC q) (nthC (map (nse_r_from_q kappa) q)) D lam ->
     scattering_exact d (weights d) (spacing T' D) (nthC (map (Cmult (RtoC s)) q)) (nthC (map (nse_r_from_q kappa) (map (Cmult (RtoC s)) q))) D (RtoC s * lam))).
  { intros lam. destruct Hc as [_ Lq _ _ _ _ _ _ Hu _ _].
    assert (Er : forall j, (j < D)%nat -> nthC (map (Cmult (RtoC s)) q) j = RtoC s * nthC q j /\ nthC (map (nse_r_from_q kappa) (map (Cmult (RtoC s)) q)) j = RtoC s * nthC (map (nse_r_from_q kappa) q) j).
    { intros j Hj. rewrite <- Lq in Hj. rewrite nth_r by (rewrite map_length; exact Hj). rewrite nth_r, nth_map by exact Hj. split; [reflexivity|].
      unfold nse_r_from_q. destruct (kappa =? 1)%Z; rewrite Cmult_conj, Cconj_R; ring. }
    unfold Sof. apply (co_scattering d (fun X => X)); [exact Hu|apply id_morph|apply id_dets| |].
    - intros j Hj. destruct (Er j Hj) as [-> ->]. rewrite Esp. unfold Rdiv. rewrite RtoC_mult, RtoC_inv by lra. apply scale_cov. exact Ns.
    - intros _ j Hj. destruct (Er j Hj) as [-> ->]. rewrite Esp. unfold modal, Rdiv. rewrite RtoC_mult, RtoC_inv by lra.
      set (h := RtoC (spacing T D)). set (r := nthC (map (nse_r_from_q kappa) q) j).
      assert (E : forall x : C, h * / RtoC s * (RtoC s * x) = h * x) by (intros; field; exact Ns). now rewrite !E. }
  assert (Et : forall x y : R, (x / s - y / s / 2 = (x - y / 2) / s)%R /\ (x / s + y / s / 2 = (x + y / 2) / s)%R) by (intros; split; unfold Rdiv; ring).
  assert (Ex : forall (z lam : C) (t : R), z * (RtoC s * lam) * RtoC (t / s) = z * lam * RtoC t).
  { intros. unfold Rdiv. rewrite RtoC_mult, RtoC_inv by lra. field. exact Ns. }
  assert (Ha : forall lam, nft_a_of (Sof d T' D (map (Cmult (RtoC s)) q) kappa (RtoC s * lam)) T' (spacing T' D) (RtoC s * lam) = nft_a_of (Sof d T D q kappa lam) T (spacing T D) lam).
  { intros lam. rewrite <- (proj1 (G lam)), Esp. unfold nft_a_of, T'. cbn [fst snd]. rewrite (proj1 (Et _ _)), (proj2 (Et _ _)), !Ex. reflexivity. }
  assert (Hb : forall lam, nft_b_of (Sof d T' D (map (Cmult (RtoC s)) q) kappa (RtoC s * lam)) T' (spacing T' D) (RtoC s * lam) = nft_b_of (Sof d T D q kappa lam) T (spacing T D) lam).
  { intros lam. rewrite <- (proj1 (G lam)), Esp. unfold nft_b_of, T'. cbn [fst snd]. rewrite (proj1 (Et _ _)), (proj2 (Et _ _)), !Ex. reflexivity. }
  eapply call_pair; [exact Hc| | |].
  - destruct Hc as [V Lq HM Ecs Lcs Hct Hr Hd Hu Hint Hx]. constructor; try assumption.
    + destruct V as [V1 V2 V3 V4 V5 V6 V7 V8]. constructor; try assumption; [discriminate| |].
      * destruct V3 as (t0 & t1 & E & Ht). injection E as ->. exists (t0 / s)%R, (t1 / s)%R. split; [reflexivity|]. cbn [fst snd] in *. apply Rmult_lt_compat_r; [now apply Rinv_0_lt_compat|exact Ht].
      * intros N. destruct (V4 N) as (t0 & t1 & E & Ht). injection E as ->. exists (s * t0)%R, (s * t1)%R. split; [reflexivity|]. cbn [fst snd] in *. now apply Rmult_lt_compat_l.
    + now rewrite map_length.
    + intros i Hi. rewrite Egr, RtoC_mult. apply (proj2 (G _)), Hx, Hi.
  - intros i Hi. rewrite Egr, RtoC_mult. split; [apply Ha|apply Hb].
  - intros i Hi. exists i. split; [exact Hi|]. cbv beta. now rewrite Egr, RtoC_mult, Ha.
Qed.

(** ** Complex conjugation: conj q has the conjugate spectrum at the negative frequencies *)
Lemma Csqrt_positive (v : R) : (0 < v)%R -> Cconj (Csqrt (RtoC v)) = Csqrt (RtoC v).
Proof.
  intros Hv. pose proof (Csqrt_sq (RtoC v)) as E. destruct (Csqrt (RtoC v)) as [x y]. injection E as E1 E2. cbn in E1, E2.
  assert (Exy : (x * y = 0)%R) by lra. apply Rmult_integral in Exy. destruct Exy as [->| ->]; [nra|]. apply Ceq; cbn; ring.
Qed.
Theorem nsev_conjugation D q T M XI kappa user dflt u cs d :
  let o := match user with Some o => o | None => dflt end in
  cs_call D q T M XI kappa o u cs d ->
  (d = A_2SPLIT2_MODAL -> kappa = (-1)%Z -> forall j, (j < D)%nat -> (spacing T D * Cmod (nth j q 0) < 1)%R) ->
  related o M kappa u (succeeds D q T M XI kappa user dflt u)
    (succeeds D (map Cconj q) T M (- snd XI, - fst XI)%R kappa user dflt u)
    (fun a1 b1 a2 b2 => forall i, (i < M)%nat -> a2 i = Cconj (a1 (M - 1 - i)%nat) /\ b2 i = Cconj (b1 (M - 1 - i)%nat)).
Proof.
  intros o Hc Hmod. set (XI' := (- snd XI, - fst XI)%R).
  assert (Egr : forall i, (i < M)%nat -> grid_point XI' M i = (- grid_point XI M (M - 1 - i))%R).
  { intros i Hi. pose proof (cc_M _ _ _ _ _ _ _ _ _ _ Hc) as HM. unfold grid_point, spacing, XI'. cbn [fst snd]. rewrite (minus_INR (M - 1) i) by lia.
    assert (INR (M - 1) <> 0)%R by (apply not_0_INR; lia). field. assumption. }
  assert (G : forall lam, mconj (Sof d T D q kappa lam) = Sof d T D (map Cconj q) kappa (- Cconj lam) /\
    (scattering_exact d (weights d) (spacing T D) (nthC q) (nthC (map (nse_r_from_q kappa) q)) D lam ->
     scattering_exact d (weights d) (spacing T D) (nthC (map Cconj q)) (nthC (map (nse_r_from_q kappa) (map Cconj q))) D (- Cconj lam))).
  { intros lam. destruct Hc as [V Lq _ _ _ _ _ _ Hu _ _].
    assert (He : (0 < spacing T D)%R) by (destruct V as [V1 _ (t0 & t1 & E & Ht) _ _ _ _ _]; injection E as ->; apply spacing_pos; assumption).
    assert (Er : forall j, (j < D)%nat -> nthC (map Cconj q) j = Cconj (nthC q j) /\ nthC (map (nse_r_from_q kappa) (map Cconj q)) j = Cconj (nthC (map (nse_r_from_q kappa) q) j)).
    { intros j Hj. rewrite <- Lq in Hj. rewrite nth_r by (rewrite map_length; exact Hj). rewrite nth_r, nth_map by exact Hj. split; [reflexivity|].
      unfold nse_r_from_q. destruct (kappa =? 1)%Z; rewrite ?Cconj_opp, !Cconj_conj; reflexivity. }
    unfold Sof. apply co_scattering; [exact Hu|apply conj_morph|apply conj_dets| |].
    - intros j Hj. destruct (Er j Hj) as [-> ->]. apply conj_cov.
    - intros Em j Hj. specialize (Hmod Em). destruct (Er j Hj) as [-> ->]. rewrite nth_r by now rewrite Lq. unfold modal. set (h := spacing T D) in *. set (x := nthC q j).
      assert (P : exists v : R, (0 < v)%R /\ 1 - RtoC h * x * (RtoC h * nse_r_from_q kappa x) = RtoC v).
      { assert (Exx : x * Cconj x = RtoC (Cmod x * Cmod x)) by (apply Ceq; cbn; rewrite ?Cmod_sq; ring).
        pose proof (Cmod_ge_0 x) as Px. destruct V as [_ _ _ _ [Hk|Hk] _ _ _]; subst kappa; [change (nse_r_from_q 1 x) with (- Cconj x)|change (nse_r_from_q (-1) x) with (Cconj x)].
        - exists (1 + h * Cmod x * (h * Cmod x))%R. split; [nra|]. transitivity (1 + RtoC h * RtoC h * (x * Cconj x)); [ring|]. rewrite Exx, !RtoC_plus, !RtoC_mult. ring.
        - specialize (Hmod eq_refl j Hj). fold h in Hmod. change (nth j q 0) with x in Hmod.
          exists (1 - h * Cmod x * (h * Cmod x))%R. split; [assert (0 <= h * Cmod x)%R by (apply Rmult_le_pos; lra); clear - Hmod H; nra|]. transitivity (1 - RtoC h * RtoC h * (x * Cconj x)); [ring|]. rewrite Exx, !RtoC_minus, !RtoC_mult. ring. }
      destruct P as (v & Hv & Ev).
      replace (1 - RtoC h * Cconj x * (RtoC h * Cconj (nse_r_from_q kappa x))) with (RtoC v).
      2:{ rewrite <- (Cconj_R v), <- Ev, Cconj_minus, !Cmult_conj, !Cconj_R. reflexivity. }
      rewrite Ev. assert (N : Csqrt (RtoC v) <> 0). { intros E. pose proof (Csqrt_sq (RtoC v)) as K. rewrite E in K. assert (RtoC v = 0) as K2 by (rewrite <- K; ring). apply RtoC_inj in K2. lra. }
      apply mat2_eq; cbn [a11 a12 a21 a22 mscal mconj]; unfold Cdiv; rewrite !Cmult_conj, Cconj_inv, Csqrt_positive by assumption; rewrite ?Cmult_conj, ?Cconj_R; ring. }
  assert (Ei : Cconj Ci = - Ci) by (apply Ceq; cbn; ring).
  assert (Ha : forall l : R, nft_a_of (Sof d T D (map Cconj q) kappa (RtoC (- l))) T (spacing T D) (RtoC (- l)) = Cconj (nft_a_of (Sof d T D q kappa (RtoC l)) T (spacing T D) (RtoC l))).
  { intros l. pose proof (proj1 (G (RtoC l))) as E. rewrite Cconj_R, <- RtoC_opp in E. rewrite <- E. unfold nft_a_of. cbn [a11 mconj].
    rewrite !Cmult_conj, <- !Cexp_conj, !Cmult_conj, Cconj_opp, Ei, !Cconj_R, !RtoC_opp. f_equal; [f_equal|]; f_equal; ring. }
  assert (Hb : forall l : R, nft_b_of (Sof d T D (map Cconj q) kappa (RtoC (- l))) T (spacing T D) (RtoC (- l)) = Cconj (nft_b_of (Sof d T D q kappa (RtoC l)) T (spacing T D) (RtoC l))).
  { intros l. pose proof (proj1 (G (RtoC l))) as E. rewrite Cconj_R, <- RtoC_opp in E. rewrite <- E. unfold nft_b_of. cbn [a21 mconj].
    rewrite !Cmult_conj, <- !Cexp_conj, !Cmult_conj, Cconj_opp, Ei, !Cconj_R, !RtoC_opp. f_equal; [f_equal|]; f_equal; ring. }
  eapply call_pair; [exact Hc| | |].
  - destruct Hc as [V Lq HM Ecs Lcs Hct Hr Hd Hu Hint Hx]. constructor; try assumption.
    + destruct V as [V1 V2 V3 V4 V5 V6 V7 V8]. constructor; try assumption; [discriminate|].
      intros N. destruct (V4 N) as (t0 & t1 & E & Ht). injection E as ->. exists (- t1)%R, (- t0)%R. split; [reflexivity|lra].
    + now rewrite map_length.
    + intros i Hi. rewrite Egr by exact Hi. rewrite RtoC_opp, <- (Cconj_R (grid_point XI M (M - 1 - i))). apply (proj2 (G _)), Hx. lia.
  - intros i Hi. rewrite Egr by exact Hi. split; [apply Ha|apply Hb].
  - intros i Hi. exists (M - 1 - i)%nat. split; [lia|]. cbv beta. rewrite Egr, Ha by exact Hi. intros N E. apply N. now apply Cconj_0.
Qed.
End Sym.
