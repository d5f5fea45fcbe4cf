(** * C104: symmetries of the continuous spectrum computed by fnft_kdvv *)
From Coq Require Import Reals Lra List Lia.
From Coquelicot Require Import Coquelicot.
From Verif Require Import Loop CExp CConj CMean CField DiscTables DiscModel FscatterSpec FscatterProof ScatterSpec ScatterModel ScatterRun MatExp ScatterMatProps
  NsevModel NsevSpec KdvvSpec KdvvModel NftSpec NsevLib NsevCsTop NsevEnergy KdvFast KdvCsTop KdvEnergy.
From Verif Require Import Symm Symm2 SymmTop TimeRev TimeRevTop InvPeel.
Import ListNotations.
Local Open Scope C_scope.

Section KSym.
Variable L : lib.
Variables (tiny : R) (below : R -> R).
Hypothesis HL : lib_ok L.

(** a call for the continuous spectrum to which C91 applies, for a method that works on the given samples: the real samples
   q_0, ..., q_(D-1) on T, the frequencies are M points on XI *)
Record kcs_call (D : nat) (q : list C) (T : R * R) (M : nat) (XI : R * R) (o : kopts) (u : outs) (cs : list C) (d : akns_disc) (v : bool) : Prop := {
  kc_valid : kdvv_valid D (Some q) (Some T) M (Some XI) o u;
  kc_read : kdvv_readable D (Some q) M (Some XI) u;
  kc_M : (2 <= M)%nat;
  kc_cs : u_cs u = Some cs;
  kc_room : (cs_values (k_cs o) * M <= length cs)%nat;
  kc_type : k_cs o <> CS_bad;
  kc_rich : k_rich o <> 1%nat;
  kc_disc : kdv_to_akns (k_disc o) = Some d;
  kc_van : kdv_vanilla_flag (k_disc o) = Some v;
  kc_up : akns_upsampling_factor d = 1%nat;
  kc_int : (Z.of_nat D <= 2147483647)%Z;
  kc_exact : forall i, (i < M)%nat ->
    kdv_exact d v (weights d) (spacing T D) (nthC q) (nthC (repeat (- (1)) D)) D (RtoC (grid_point XI M i)) }.
(** the call with these arguments returns SUCCESS and the outputs u' *)
Definition ksucceeds (D : nat) (q : list C) (T : R * R) (M : nat) (XI : R * R) (user : option kopts) (dflt : kopts) (u u' : outs) : Prop :=
  exists user' dflt', fnft_kdvv (klib_env L tiny below) D (Some q) (Some T) M (Some XI) user dflt u = Ret (SUCCESS, u', user', dflt').
(** the two calls return spectra that are related by rel, and the second succeeds if the first does and no bound states are asked for *)
Definition krelated (o : kopts) (M : nat) (u : outs) (run1 run2 : outs -> Prop) (rel : (nat -> C) -> (nat -> C) -> (nat -> C) -> (nat -> C) -> Prop) : Prop :=
  (forall u1 u2, run1 u1 -> run2 u2 -> exists cs1 cs2 a1 b1 a2 b2, u_cs u1 = Some cs1 /\ u_cs u2 = Some cs2 /\
     spectrum_is (k_cs o) M a1 b1 cs1 /\ spectrum_is (k_cs o) M a2 b2 cs2 /\ rel a1 b1 a2 b2) /\
  (u_bs u = None \/ u_K u = Some O -> (exists u1, run1 u1) -> exists u2, run2 u2).

Definition KSof (d : akns_disc) (v : bool) (T : R * R) (D : nat) (q : list C) (lam : C) : mat2 :=
  kdv_S d v (weights d) (spacing T D) (nthC q) (nthC (repeat (- (1)) D)) D lam.
Lemma kcall_spectrum D q T M XI user dflt u cs d v :
  let o := match user with Some o => o | None => dflt end in
  kcs_call D q T M XI o u cs d v ->
  let xi i := RtoC (grid_point XI M i) in
  let a i := nft_a_of (KSof d v T D q (xi i)) T (spacing T D) (xi i) in
  let b i := nft_b_of (KSof d v T D q (xi i)) T (spacing T D) (xi i) in
  (forall u', ksucceeds D q T M XI user dflt u u' -> exists cs', u_cs u' = Some cs' /\ spectrum_is (k_cs o) M a b cs') /\
  (u_bs u = None \/ u_K u = Some O -> (k_cs o = CS_AB \/ forall i, (i < M)%nat -> a i <> 0) -> exists u', ksucceeds D q T M XI user dflt u u').
Proof.
  intros o Hc xi a b. destruct Hc as [V Rd HM Ecs Lcs Hct Hr Hd Hv Hu Hint Hx].
  destruct (kdvv_contspec_is_discrete_nft L tiny below HL D q T M XI user dflt u cs d v V Rd HM Ecs Lcs Hct Hr Hd Hv (or_intror Hu)) as (p & _ & Hp & H).
  { rewrite Hu, Nat.mul_1_r. exact Hint. }
  destruct (Hp Hu) as [E1 E2]. rewrite E1, E2, Hu, Nat.mul_1_r in H. cbv zeta in H. specialize (H Hx). destruct H as [H1 H2]. split.
  - intros u' (user' & dflt' & E). destruct (H1 u' user' dflt' E) as (cs' & F1 & F2 & _). exists cs'. split; [exact F1|exact F2].
  - intros N A. destruct (H2 N A) as (u' & user' & dflt' & E). exists u', user', dflt'. exact E.
Qed.
Lemma kcall_pair D q T XI D' q' T' XI' M user dflt u cs d v (rel : (nat -> C) -> (nat -> C) -> (nat -> C) -> (nat -> C) -> Prop) :
  let o := match user with Some o => o | None => dflt end in
  kcs_call D q T M XI o u cs d v -> kcs_call D' q' T' M XI' o u cs d v ->
  let a D T XI q i := nft_a_of (KSof d v T D q (RtoC (grid_point XI M i))) T (spacing T D) (RtoC (grid_point XI M i)) in
  let b D T XI q i := nft_b_of (KSof d v T D q (RtoC (grid_point XI M i))) T (spacing T D) (RtoC (grid_point XI M i)) in
  rel (a D T XI q) (b D T XI q) (a D' T' XI' q') (b D' T' XI' q') ->
  (k_cs o = CS_AB \/ forall i, (i < M)%nat -> exists j, (j < M)%nat /\ (a D T XI q j <> 0 -> a D' T' XI' q' i <> 0)) ->
  krelated o M u (ksucceeds D q T M XI user dflt u) (ksucceeds D' q' T' M XI' user dflt u) rel.
Proof.
  intros o H1 H2 a b Hrel Ha. destruct (kcall_spectrum D q T M XI user dflt u cs d v H1) as [S1 _].
  destruct (kcall_spectrum D' q' T' M XI' user dflt u cs d v H2) as [S2 X2]. split.
  - intros u1 u2 R1 R2. destruct (S1 u1 R1) as (cs1 & E1 & F1). destruct (S2 u2 R2) as (cs2 & E2 & F2).
    exists cs1, cs2, (a D T XI q), (b D T XI q), (a D' T' XI' q'), (b D' T' XI' q'). split; [exact E1|]. split; [exact E2|]. split; [exact F1|]. split; [exact F2|exact Hrel].
  - intros N (u1 & R1). apply X2; [exact N|]. destruct Ha as [Ha|Ha]; [left; exact Ha|]. destruct (S1 u1 R1) as (cs1 & E1 & F1).
    destruct (spectrum_nz _ _ _ _ _ F1) as [G|G]; [left; exact G|right]. intros i Hi. destruct (Ha i Hi) as (j & Hj & K). apply K, G, Hj.
Qed.

Lemma kspacing D q T M XI o u cs d v : kcs_call D q T M XI o u cs d v -> (0 < spacing T D)%R.
Proof. intros Hc. destruct (kc_valid _ _ _ _ _ _ _ _ _ _ Hc) as [V1 _ _ (t0 & t1 & E & Ht) _ _ _ _ _]. injection E as ->. apply spacing_pos; assumption. Qed.
Lemma klen D q T M XI o u cs d v : kcs_call D q T M XI o u cs d v -> length q = D.
Proof. intros Hc. now apply (rk_q _ _ _ _ _ (kc_read _ _ _ _ _ _ _ _ _ _ Hc)). Qed.
Lemma kreal D q T M XI o u cs d v : kcs_call D q T M XI o u cs d v -> forall j, (j < D)%nat -> exists x : R, nthC q j = RtoC x.
Proof.
  clear HL tiny below L. intros Hc j Hj. pose proof (klen _ _ _ _ _ _ _ _ _ _ Hc) as Lq. exists (fst (nthC q j)). apply Ceq; [reflexivity|]. cbn.
  apply (vk_real _ _ _ _ _ _ _ (kc_valid _ _ _ _ _ _ _ _ _ _ Hc) q j (nthC q j) eq_refl Hj). apply nth_error_nth'. lia.
Qed.
Lemma nth_m1 D j : (j < D)%nat -> nthC (repeat (- (1)) D) j = - (1).
Proof. intros Hj. unfold nthC. rewrite (nth_indep _ _ (- (1))) by (rewrite repeat_length; exact Hj). apply nth_repeat. Qed.


(** ** The change of basis *)
Lemma lam_nz_facts (lam : C) : lam <> 0 -> Ci <> 0 /\ RtoC 2 <> 0.
Proof. intros _. split; [exact Ci_neq0|exact C2_neq0]. Qed.
Lemma based_twist (v : bool) (s lam : C) X : s <> 0 -> lam <> 0 -> based PDE_KdV v (s * lam) (twist (if v then s else / s) X) = based PDE_KdV v lam X.
Proof.
  intros Ns N. destruct (lam_nz_facts lam N) as [N1 N2]. unfold based, minv, mdet, twist.
  destruct v; apply mat2_eq; cbn [basisP a11 a12 a21 a22 mmul mscal]; field [Ci_sqr]; repeat split; auto.
Qed.
Lemma based_conj (v : bool) (l : R) X : l <> 0%R -> based PDE_KdV v (RtoC (- l)) (mconj X) = mconj (based PDE_KdV v (RtoC l) X).
Proof.
  intros Nl. assert (N : RtoC l <> 0) by (intros E; apply RtoC_inj in E; contradiction). destruct (lam_nz_facts _ N) as [N1 N2].
  assert (E : basisP PDE_KdV v (RtoC (- l)) = mconj (basisP PDE_KdV v (RtoC l))).
  { rewrite RtoC_opp. destruct v; apply mat2_eq; cbn [basisP a11 a12 a21 a22 mconj]; rewrite ?Cmult_conj, ?Cconj_opp, ?Cmult_conj, ?conj_Ci, ?Cconj_R; ring. }
  unfold based. rewrite E, !mconj_mul. f_equal. unfold minv. rewrite mdet_conj. apply mat2_eq; cbn [a11 a12 a21 a22 mconj mscal]; rewrite Cmult_conj, (Cconj_inv _ (minv_det_ok v l Nl)), ?Cconj_opp; reflexivity.
Qed.
Lemma based_flip (v : bool) (lam : C) X : lam <> 0 -> let K := based PDE_KdV v lam X in
  based PDE_KdV v (- lam) (flip X) = M2 (a22 K) (- a12 K) (- a21 K) (a11 K).
Proof.
  intros N K. destruct (lam_nz_facts lam N) as [N1 N2]. unfold K, based, minv, mdet, flip.
  destruct v; apply mat2_eq; cbn [basisP a11 a12 a21 a22 mmul mscal]; field; repeat split; auto.
Qed.
Lemma kgrid XI M i : KdvvSpec.grid_point XI M i = grid_point XI M i.
Proof. unfold KdvvSpec.grid_point, grid_point, spacing. ring. Qed.
Lemma grid_nz D q T M XI o u cs d v : kcs_call D q T M XI o u cs d v -> forall i, (i < M)%nat -> grid_point XI M i <> 0%R.
Proof. intros Hc i Hi. rewrite <- kgrid. exact (vk_zero _ _ _ _ _ _ _ (kc_valid _ _ _ _ _ _ _ _ _ _ Hc) XI i eq_refl (kc_M _ _ _ _ _ _ _ _ _ _ Hc) Hi). Qed.

(** ** Dilation: the signal s^2 q(s t), s > 0, has at the frequencies s xi the spectrum of q at xi *)
Theorem kdvv_dilation D q T M XI user dflt u cs d v (s : R) :
  let o := match user with Some o => o | None => dflt end in
  kcs_call D q T M XI o u cs d v -> (0 < s)%R ->
  krelated o M u (ksucceeds D q T M XI user dflt u)
    (ksucceeds D (map (Cmult (RtoC (s * s))) q) (fst T / s, snd T / s)%R M (s * fst XI, s * snd XI)%R user dflt u)
    (fun a1 b1 a2 b2 => forall i, (i < M)%nat -> a2 i = a1 i /\ b2 i = b1 i).
Proof.
  intros o Hc Hs. set (T' := (fst T / s, snd T / s)%R). set (XI' := (s * fst XI, s * snd XI)%R). set (q' := map (Cmult (RtoC (s * s))) q).
  assert (Ns : RtoC s <> 0) by (intros E; apply RtoC_inj in E; lra).
  assert (Esp : spacing T' D = (spacing T D / s)%R) by (unfold spacing, T'; cbn [fst snd]; unfold Rdiv; ring).
  assert (Egr : forall i, grid_point XI' M i = (s * grid_point XI M i)%R) by (intros; unfold grid_point, spacing, XI'; cbn [fst snd]; unfold Rdiv; ring).
  pose proof (klen _ _ _ _ _ _ _ _ _ _ Hc) as Lq. pose proof (kc_up _ _ _ _ _ _ _ _ _ _ Hc) as Hu.
  assert (Eq : forall j, (j < D)%nat -> nthC q' j = RtoC s * RtoC s * nthC q j) by (intros j Hj; unfold q'; rewrite nth_map by lia; now rewrite RtoC_mult).
  set (m1 := repeat (- (1)) D : list C) in *.
  assert (Nf : (if v then RtoC s else / RtoC s) <> 0) by (destruct v; [exact Ns|intros E; apply (f_equal (Cmult (RtoC s))) in E; rewrite Cinv_r, Cmult_0_r in E by exact Ns; apply RtoC_inj in E; lra]).
  assert (G : forall lam, twist (if v then RtoC s else / RtoC s) (scattering d (weights d) (spacing T D) (if v then nthC q else nthC m1) (if v then nthC m1 else nthC q) D lam)
      = scattering d (weights d) (spacing T' D) (if v then nthC q' else nthC m1) (if v then nthC m1 else nthC q') D (RtoC s * lam) /\
    (kdv_exact d v (weights d) (spacing T D) (nthC q) (nthC m1) D lam -> kdv_exact d v (weights d) (spacing T' D) (nthC q') (nthC m1) D (RtoC s * lam))).
  { intros lam. unfold kdv_exact. apply co_scattering; [exact Hu|apply twist_morph; exact Nf|apply twist_dets; exact Nf| |].
    - intros j Hj. rewrite Esp. unfold Rdiv. rewrite RtoC_mult, RtoC_inv by lra.
      destruct v; rewrite (Eq j Hj); constructor; apply mat2_eq; cbn [a11 a12 a21 a22 mscal twist akns_A offd]; field; repeat split; auto.
    - intros Em j Hj. rewrite Esp. unfold modal, Rdiv. rewrite RtoC_mult, RtoC_inv by lra. destruct v; rewrite (Eq j Hj).
      + replace (1 - RtoC (spacing T D) * / RtoC s * (RtoC s * RtoC s * nthC q j) * (RtoC (spacing T D) * / RtoC s * nthC m1 j))
          with (1 - RtoC (spacing T D) * nthC q j * (RtoC (spacing T D) * nthC m1 j)) by (field; exact Ns).
        apply mat2_eq; cbn [a11 a12 a21 a22 mscal twist]; set (z := Csqrt _); clearbody z; unfold Cdiv; generalize (/ z); intros z'; field; exact Ns.
      + replace (1 - RtoC (spacing T D) * / RtoC s * nthC m1 j * (RtoC (spacing T D) * / RtoC s * (RtoC s * RtoC s * nthC q j)))
          with (1 - RtoC (spacing T D) * nthC m1 j * (RtoC (spacing T D) * nthC q j)) by (field; exact Ns).
        apply mat2_eq; cbn [a11 a12 a21 a22 mscal twist]; set (z := Csqrt _); clearbody z; unfold Cdiv; generalize (/ z); intros z'; field; repeat split; auto using C1n0. }
  assert (GK : forall l : R, l <> 0%R -> KSof d v T' D q' (RtoC (s * l)) = KSof d v T D q (RtoC l)).
  { intros l Nl. unfold KSof, kdv_S. fold m1. rewrite RtoC_mult, <- (proj1 (G (RtoC l))). apply based_twist; [exact Ns|]. intros E. apply RtoC_inj in E. contradiction. }
  pose proof (grid_nz _ _ _ _ _ _ _ _ _ _ Hc) as Hnz.
  assert (Et : forall x y : R, (x / s - y / s / 2 = (x - y / 2) / s)%R /\ (x / s + y / s / 2 = (x + y / 2) / s)%R) by (intros; split; unfold Rdiv; ring).
  assert (Ex : forall (z : C) (l t : R), z * RtoC (s * l) * RtoC (t / s) = z * RtoC l * RtoC t).
  { intros. unfold Rdiv. rewrite !RtoC_mult, RtoC_inv by lra. field. exact Ns. }
  assert (Ha : forall l : R, l <> 0%R -> nft_a_of (KSof d v T' D q' (RtoC (s * l))) T' (spacing T' D) (RtoC (s * l)) = nft_a_of (KSof d v T D q (RtoC l)) T (spacing T D) (RtoC l)).
  { intros l Nl. rewrite GK, Esp by exact Nl. unfold nft_a_of, T'. cbn [fst snd]. rewrite (proj1 (Et _ _)), (proj2 (Et _ _)), !Ex. reflexivity. }
  assert (Hb : forall l : R, l <> 0%R -> nft_b_of (KSof d v T' D q' (RtoC (s * l))) T' (spacing T' D) (RtoC (s * l)) = nft_b_of (KSof d v T D q (RtoC l)) T (spacing T D) (RtoC l)).
  { intros l Nl. rewrite GK, Esp by exact Nl. unfold nft_b_of, T'. cbn [fst snd]. rewrite (proj1 (Et _ _)), (proj2 (Et _ _)), !Ex. reflexivity. }
  eapply kcall_pair; [exact Hc| | |].
  - destruct Hc as [V Rd HM Ecs Lcs Hct Hr Hd Hv _ Hint Hx]. constructor; try assumption.
    + destruct V as [V1 V2 V3 V4 V5 V6 V7 V8 V9]. constructor; try assumption; [discriminate| | | |].
      * intros l i x E Hi Eex. injection E as <-. unfold q' in Eex. rewrite nth_error_map in Eex. destruct (nth_error q i) as [y|] eqn:Ey; [|discriminate]. injection Eex as <-.
        specialize (V3 q i y eq_refl Hi Ey). cbn. rewrite V3. ring.
      * destruct V4 as (t0 & t1 & E & Ht). injection E as ->. exists (t0 / s)%R, (t1 / s)%R. split; [reflexivity|]. cbn [fst snd] in *. apply Rmult_lt_compat_r; [now apply Rinv_0_lt_compat|exact Ht].
      * intros N. destruct (V5 N) as (t0 & t1 & E & Ht). injection E as ->. exists (s * t0)%R, (s * t1)%R. split; [reflexivity|]. cbn [fst snd] in *. now apply Rmult_lt_compat_l.
      * intros I i E H2 Hi. injection E as <-. rewrite kgrid, Egr. specialize (Hnz i Hi). intros E. apply Rmult_integral in E. lra.
    + destruct Rd as [R1 R2 R3]. constructor; try assumption; [|discriminate]. intros l E. injection E as <-. unfold q'. now rewrite map_length.
    + intros i Hi. rewrite Egr, RtoC_mult. apply (proj2 (G _)), Hx, Hi.
  - intros i Hi. rewrite !Egr. split; [apply Ha|apply Hb]; now apply Hnz.
  - right. intros i Hi. exists i. split; [exact Hi|]. cbv beta. rewrite Egr, Ha; auto.
Qed.

(** ** Reality: a and b at the negative frequencies are the complex conjugates *)
Lemma neg_grid XI M i : (2 <= M)%nat -> (i < M)%nat -> grid_point (- snd XI, - fst XI)%R M i = (- grid_point XI M (M - 1 - i))%R.
Proof.
  intros HM Hi. unfold grid_point, spacing. cbn [fst snd]. rewrite (minus_INR (M - 1) i) by lia.
  assert (INR (M - 1) <> 0)%R by (apply not_0_INR; lia). field. assumption.
Qed.
Lemma mconj_modal (h v : R) (x y : C) : (0 < v)%R -> 1 - RtoC h * x * (RtoC h * y) = RtoC v -> Cconj x = x -> Cconj y = y -> mconj (modal h x y) = modal h x y.
Proof.
  intros Hv Ev Hx Hy. unfold modal. rewrite Ev. assert (N : Csqrt (RtoC v) <> 0). { intros E. pose proof (Csqrt_sq (RtoC v)) as K. rewrite E in K. assert (RtoC v = 0) as K2 by (rewrite <- K; ring). apply RtoC_inj in K2. lra. }
  apply mat2_eq; cbn [a11 a12 a21 a22 mscal mconj]; unfold Cdiv; rewrite !Cmult_conj, Cconj_inv, Csqrt_positive by assumption; rewrite ?Cmult_conj, ?Hx, ?Hy, ?Cconj_R; ring.
Qed.
Definition modal_range (d : akns_disc) (h : R) (q : list C) (D : nat) : Prop := d = A_2SPLIT2_MODAL -> forall j, (j < D)%nat -> (0 < 1 + h * h * fst (nthC q j))%R.
Lemma kdv_conj D q T M XI o u cs d v : kcs_call D q T M XI o u cs d v -> modal_range d (spacing T D) q D -> forall l : R, l <> 0%R ->
  KSof d v T D q (RtoC (- l)) = mconj (KSof d v T D q (RtoC l)) /\
  (kdv_exact d v (weights d) (spacing T D) (nthC q) (nthC (repeat (- (1)) D)) D (RtoC l) -> kdv_exact d v (weights d) (spacing T D) (nthC q) (nthC (repeat (- (1)) D)) D (RtoC (- l))).
Proof.
  intros Hc Hmod l Nl. unfold KSof, kdv_S, kdv_exact. rewrite <- based_conj by exact Nl.
  assert (Em : forall j, (j < D)%nat -> Cconj (nthC (repeat (- (1)) D) j) = nthC (repeat (- (1)) D) j) by (intros j Hj; rewrite nth_m1 by exact Hj; now rewrite Cconj_opp, (Cconj_R 1)).
  assert (Eq : forall j, (j < D)%nat -> Cconj (nthC q j) = nthC q j) by (intros j Hj; destruct (kreal _ _ _ _ _ _ _ _ _ _ Hc j Hj) as [x ->]; apply Cconj_R).
  assert (G : forall q' r' : nat -> C, (forall j, (j < D)%nat -> Cconj (q' j) = q' j) -> (forall j, (j < D)%nat -> Cconj (r' j) = r' j) ->
    (d = A_2SPLIT2_MODAL -> forall j, (j < D)%nat -> exists v : R, (0 < v)%R /\ 1 - RtoC (spacing T D) * q' j * (RtoC (spacing T D) * r' j) = RtoC v) ->
    mconj (scattering d (weights d) (spacing T D) q' r' D (RtoC l)) = scattering d (weights d) (spacing T D) q' r' D (RtoC (- l)) /\
    (scattering_exact d (weights d) (spacing T D) q' r' D (RtoC l) -> scattering_exact d (weights d) (spacing T D) q' r' D (RtoC (- l)))).
  { intros q' r' Hq Hr Hm. apply co_scattering; [apply (kc_up _ _ _ _ _ _ _ _ _ _ Hc)|apply conj_morph|apply conj_dets| |].
    - intros j Hj. pose proof (conj_cov (spacing T D) (RtoC l) (q' j) (r' j)) as K. rewrite Hq, Hr, Cconj_R, <- RtoC_opp in K by exact Hj. exact K.
    - intros Emod j Hj. destruct (Hm Emod j Hj) as (w & Hw & Ew). apply (mconj_modal _ w); auto. }
  assert (Hm : d = A_2SPLIT2_MODAL -> forall j, (j < D)%nat -> exists w : R, (0 < w)%R /\ 1 - RtoC (spacing T D) * nthC q j * (RtoC (spacing T D) * nthC (repeat (- (1)) D) j) = RtoC w).
  { intros Emod j Hj. exists (1 + spacing T D * spacing T D * fst (nthC q j))%R. split; [now apply Hmod|]. rewrite nth_m1 by exact Hj.
    destruct (kreal _ _ _ _ _ _ _ _ _ _ Hc j Hj) as [x ->]. cbn [fst RtoC]. rewrite !RtoC_plus, !RtoC_mult. ring. }
  destruct v.
  - destruct (G (nthC q) (nthC (repeat (- (1)) D)) Eq Em Hm) as [G1 G2]. split; [now rewrite G1|exact G2].
  - destruct (G (nthC (repeat (- (1)) D)) (nthC q) Em Eq) as [G1 G2]; [|split; [now rewrite G1|exact G2]].
    intros Emod j Hj. destruct (Hm Emod j Hj) as (w & Hw & Ew). exists w. split; [exact Hw|]. rewrite <- Ew. ring.
Qed.
(** a validity statement shared by the calls on the negative grid and by the reversed signals *)
Lemma valid_change D q T M XI o u q' T' XI' : kdvv_valid D (Some q) (Some T) M (Some XI) o u ->
  (forall i x, (i < D)%nat -> nth_error q' i = Some x -> snd x = 0%R) -> (fst T' < snd T')%R -> (fst XI' < snd XI')%R ->
  (forall i, (2 <= M)%nat -> (i < M)%nat -> grid_point XI' M i <> 0%R) -> kdvv_valid D (Some q') (Some T') M (Some XI') o u.
Proof.
  intros [V1 V2 V3 V4 V5 V6 V7 V8 V9] H1 H2 H3 H4. constructor; try assumption; [discriminate| | | |].
  - intros l i x E Hi Eex. injection E as <-. exact (H1 i x Hi Eex).
  - exists (fst T'), (snd T'). split; [now destruct T'|exact H2].
  - intros _. exists (fst XI'), (snd XI'). split; [now destruct XI'|exact H3].
  - intros I i E HM Hi. injection E as <-. rewrite kgrid. now apply H4.
Qed.
Lemma kc_order D q T M XI o u cs d v : kcs_call D q T M XI o u cs d v -> (fst T < snd T)%R /\ (fst XI < snd XI)%R.
Proof.
  intros Hc. destruct (kc_valid _ _ _ _ _ _ _ _ _ _ Hc) as [_ _ _ V4 V5 _ _ _ _]. destruct V4 as (t0 & t1 & E & Ht). injection E as ->.
  destruct V5 as (x0 & x1 & E & Hx); [rewrite (kc_cs _ _ _ _ _ _ _ _ _ _ Hc); discriminate|]. injection E as ->. now split.
Qed.
Theorem kdvv_reality D q T M XI user dflt u cs d v :
  let o := match user with Some o => o | None => dflt end in
  kcs_call D q T M XI o u cs d v -> modal_range d (spacing T D) q D ->
  krelated o M u (ksucceeds D q T M XI user dflt u) (ksucceeds D q T M (- snd XI, - fst XI)%R user dflt u)
    (fun a1 b1 a2 b2 => forall i, (i < M)%nat -> a2 i = Cconj (a1 (M - 1 - i)%nat) /\ b2 i = Cconj (b1 (M - 1 - i)%nat)).
Proof.
  intros o Hc Hmod. set (XI' := (- snd XI, - fst XI)%R). pose proof (kc_M _ _ _ _ _ _ _ _ _ _ Hc) as HM. pose proof (grid_nz _ _ _ _ _ _ _ _ _ _ Hc) as Hnz.
  assert (Egr : forall i, (i < M)%nat -> grid_point XI' M i = (- grid_point XI M (M - 1 - i))%R) by (intros; now apply neg_grid).
  pose proof (kdv_conj _ _ _ _ _ _ _ _ _ _ Hc Hmod) as G.
  assert (Ha : forall l : R, l <> 0%R -> nft_a_of (KSof d v T D q (RtoC (- l))) T (spacing T D) (RtoC (- l)) = Cconj (nft_a_of (KSof d v T D q (RtoC l)) T (spacing T D) (RtoC l))).
  { intros l Nl. rewrite (proj1 (G l Nl)). unfold nft_a_of. cbn [a11 mconj].
    rewrite !Cmult_conj, <- !Cexp_conj, !Cmult_conj, Cconj_opp, conj_Ci, !Cconj_R, !RtoC_opp. f_equal; [f_equal|]; f_equal; ring. }
  assert (Hb : forall l : R, l <> 0%R -> nft_b_of (KSof d v T D q (RtoC (- l))) T (spacing T D) (RtoC (- l)) = Cconj (nft_b_of (KSof d v T D q (RtoC l)) T (spacing T D) (RtoC l))).
  { intros l Nl. rewrite (proj1 (G l Nl)). unfold nft_b_of. cbn [a21 mconj].
    rewrite !Cmult_conj, <- !Cexp_conj, !Cmult_conj, Cconj_opp, conj_Ci, !Cconj_R, !RtoC_opp. f_equal; [f_equal|]; f_equal; ring. }
  eapply kcall_pair; [exact Hc| | |].
  - destruct (kc_order _ _ _ _ _ _ _ _ _ _ Hc) as [O1 O2]. destruct Hc as [V Rd _ Ecs Lcs Hct Hr Hd Hv Hu Hint Hx]. constructor; try assumption.
    + apply (valid_change D q T M XI o u q T XI' V); [|exact O1|cbn; lra|].
      * intros i x Hi E. exact (vk_real _ _ _ _ _ _ _ V q i x eq_refl Hi E).
      * intros i _ Hi. rewrite Egr by exact Hi. apply Ropp_neq_0_compat, Hnz. lia.
    + destruct Rd as [R1 R2 R3]. constructor; try assumption. discriminate.
    + intros i Hi. rewrite Egr by exact Hi. apply (proj2 (G _ (Hnz (M - 1 - i)%nat ltac:(lia)))), Hx. lia.
  - intros i Hi. rewrite Egr by exact Hi. split; [apply Ha|apply Hb]; apply Hnz; lia.
  - right. intros i Hi. exists (M - 1 - i)%nat. split; [lia|]. cbv beta. rewrite Egr, Ha by (try apply Hnz; lia). intros N E. apply N. now apply Cconj_0.
Qed.

(** ** Time reversal: the samples in reverse order on (-T1, -T0) have the coefficients a (Boffetta-Osborne) and -conj b *)
Theorem kdvv_time_reversal D q T M XI user dflt u cs d v :
  let o := match user with Some o => o | None => dflt end in
  kcs_call D q T M XI o u cs d v -> reversible d -> modal_range d (spacing T D) q D -> (d = A_BO \/ k_cs o = CS_AB) ->
  krelated o M u (ksucceeds D q T M XI user dflt u) (ksucceeds D (rev q) (- snd T, - fst T)%R M XI user dflt u)
    (fun a1 b1 a2 b2 => forall i, (i < M)%nat -> (d = A_BO -> a2 i = a1 i) /\ b2 i = - Cconj (b1 i)).
Proof.
  intros o Hc Hrev Hmod Hab. set (T' := (- snd T, - fst T)%R). pose proof (kc_M _ _ _ _ _ _ _ _ _ _ Hc) as HM. pose proof (grid_nz _ _ _ _ _ _ _ _ _ _ Hc) as Hnz.
  pose proof (kc_up _ _ _ _ _ _ _ _ _ _ Hc) as Hu. pose proof (klen _ _ _ _ _ _ _ _ _ _ Hc) as Lq.
  assert (Esp : spacing T' D = spacing T D) by (unfold spacing, T'; cbn [fst snd]; f_equal; ring).
  set (m1 := repeat (- (1)) D : list C) in *.
  assert (Em : forall j, (j < D)%nat -> nthC m1 j = nthC m1 (D - 1 - j)) by (intros j Hj; unfold m1; now rewrite !nth_m1 by lia).
  assert (Eq : forall j, (j < D)%nat -> nthC (rev q) j = nthC q (D - 1 - j)) by (intros j Hj; rewrite <- Lq; apply nth_rev; lia).
  assert (GF : forall lam, flip (scattering d (weights d) (spacing T D) (if v then nthC q else nthC m1) (if v then nthC m1 else nthC q) D lam)
      = scattering d (weights d) (spacing T D) (if v then nthC (rev q) else nthC m1) (if v then nthC m1 else nthC (rev q)) D (- lam) /\
    (kdv_exact d v (weights d) (spacing T D) (nthC q) (nthC m1) D lam -> kdv_exact d v (weights d) (spacing T D) (nthC (rev q)) (nthC m1) D (- lam))).
  { intros lam. unfold kdv_exact. apply flip_scattering; [exact Hu|exact Hrev|]. intros j Hj. destruct v; split; auto. }
  pose proof (kdv_conj _ _ _ _ _ _ _ _ _ _ Hc Hmod) as G. fold m1 in G.
  (* the reversed samples at l from the given ones at -l, and these from the ones at l *)
  assert (GK : forall l : R, l <> 0%R -> let K := KSof d v T D q (RtoC l) in KSof d v T' D (rev q) (RtoC l) = M2 (Cconj (a22 K)) (- Cconj (a12 K)) (- Cconj (a21 K)) (Cconj (a11 K))).
  { intros l Nl K. unfold KSof. rewrite Esp. unfold kdv_S. fold m1. replace (RtoC l) with (- RtoC (- l)) at 2 by (rewrite RtoC_opp; ring).
    rewrite <- (proj1 (GF (RtoC (- l)))). replace (RtoC l) with (- RtoC (- l)) by (rewrite RtoC_opp; ring). rewrite based_flip by (intros E; apply RtoC_inj in E; lra).
    pose proof (proj1 (G l Nl)) as GG. unfold KSof, kdv_S in GG. fold m1 in GG. rewrite GG. unfold K, KSof, kdv_S. fold m1. reflexivity. }
  assert (GX : forall l : R, l <> 0%R -> kdv_exact d v (weights d) (spacing T D) (nthC q) (nthC m1) D (RtoC l) -> kdv_exact d v (weights d) (spacing T' D) (nthC (rev q)) (nthC m1) D (RtoC l)).
  { intros l Nl Hx. rewrite Esp. replace (RtoC l) with (- RtoC (- l)) by (rewrite RtoC_opp; ring). now apply (proj2 (GF _)), (proj2 (G l Nl)). }
  assert (Hb : forall l : R, l <> 0%R -> nft_b_of (KSof d v T' D (rev q) (RtoC l)) T' (spacing T' D) (RtoC l) = - Cconj (nft_b_of (KSof d v T D q (RtoC l)) T (spacing T D) (RtoC l))).
  { intros l Nl. rewrite GK, Esp by exact Nl. unfold nft_b_of, T'. cbn [fst snd a21]. rewrite !Cmult_conj, <- !Cexp_conj, !Cmult_conj, Cconj_opp, conj_Ci, !Cconj_R.
    set (S := a21 _). rewrite <- !Cmult_assoc, <- !Cexp_plus. match goal with |- _ * Cexp ?x = - (_ * Cexp ?y) => replace x with y by (unfold Rminus; rewrite ?RtoC_plus, ?RtoC_opp; ring) end. ring. }
  assert (Ha : d = A_BO -> forall l : R, l <> 0%R -> nft_a_of (KSof d v T' D (rev q) (RtoC l)) T' (spacing T' D) (RtoC l) = nft_a_of (KSof d v T D q (RtoC l)) T (spacing T D) (RtoC l)).
  { intros Ed l Nl. rewrite GK, Esp by exact Nl.
    assert (E22 : a22 (KSof d v T D q (RtoC l)) = Cconj (a11 (KSof d v T D q (RtoC l)))).
    { unfold KSof, kdv_S. fold m1. apply (fixed_based v l); [exact Nl|]. unfold scattering. rewrite Ed. cbn [akns_degree]. apply fx_descending. intros j Hj.
      apply (fixed_step v l A_BO (spacing T D) (nthC q) (nthC m1) D j); [left; reflexivity| | | |exact Hj].
      - exact I.
      - intros i Hi. destruct (kreal _ _ _ _ _ _ _ _ _ _ Hc i Hi) as [x ->]. apply Cconj_R.
      - intros i Hi. unfold m1. rewrite nth_m1 by exact Hi. reflexivity. }
    unfold nft_a_of, T'. cbn [fst snd a11]. rewrite E22, Cconj_conj. rewrite <- !Cmult_assoc, <- !Cexp_plus. f_equal. f_equal. unfold Rminus; rewrite ?RtoC_plus, ?RtoC_opp; ring. }
  eapply kcall_pair; [exact Hc| | |].
  - destruct (kc_order _ _ _ _ _ _ _ _ _ _ Hc) as [O1 O2]. pose proof (kreal _ _ _ _ _ _ _ _ _ _ Hc) as Hre. destruct Hc as [V Rd _ Ecs Lcs Hct Hr Hd Hv _ Hint Hx]. constructor; try assumption.
    + apply (valid_change D q T M XI o u (rev q) T' XI V); [|cbn; lra|exact O2|auto].
      intros i x Hi E. rewrite <- (nth_error_nth _ _ (RtoC 0) E). change (snd (nthC (rev q) i) = 0%R). rewrite Eq by exact Hi. destruct (Hre (D - 1 - i)%nat) as [y ->]; [lia|reflexivity].
    + destruct Rd as [R1 R2 R3]. constructor; try assumption. intros l E. injection E as <-. now rewrite rev_length.
    + intros i Hi. apply GX; [now apply Hnz|now apply Hx].
  - intros i Hi. split; [intros Ed; apply (Ha Ed)|apply Hb]; now apply Hnz.
  - destruct Hab as [Ed|E]; [right|left; exact E]. intros i Hi. exists i. split; [exact Hi|]. cbv beta. rewrite (Ha Ed); auto.
Qed.
End KSym.
