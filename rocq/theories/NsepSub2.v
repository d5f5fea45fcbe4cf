(** * fnft_nsep, SUBSAMPLE_AND_REFINE and NEWTON end to end (C96): what the points are *)
From Coq Require Import Reals Lra Lia List ZArith QArith Qreals.
From Coquelicot Require Import Coquelicot.
From Verif Require Import Base Loop Mem Fields ErrModel CExp CField CConj CDeriv DiscTables DiscModel DiscProps DiscPreProps DiscPreNse PolySpec MatSpec FscatterSpec FscatterModel FscatterProof FscatterProps
  ScatterSpec ScatterModel MatExp ScatterProof ScatterLoop ScatterRun ScatterProps ScatterMatProps ScatterNse PolyFmultProof NsevSpec NsevModel NsevProps NsevSafe NsevSafe2 NsevSafe3 NftSpec NsevFast NsevLib NsevCs NsevCsTop NsepModel NsepSpec NsepNewton NsepSafe NsepSafe2 NsepSafe3 NsepTop.
From Verif Require Import NsepFloq NsepGrid NsepGridTop NsevNc.
From Verif Require Import NsepSub.
Import ListNotations.
Local Close Scope Q_scope.
Local Open Scope C_scope.

(** ** What is required of poly_roots_fasteigen: it stays within its array, and the roots that it returns are nonzero approximate zeros *)
Definition eigen_ok (L : lib) (delta : R) : Prop :=
  forall deg p buf c v, (1 <= deg)%nat -> length p = (deg + 1)%nat -> (deg <= length buf)%nat -> l_roots L deg p buf = Ret (c, v) ->
    length v = length buf /\ (c = SUCCESS -> forall i, (i < deg)%nat -> nth i v 0 <> 0 /\ (Cmod (peval (K := CF) p (nth i v 0)) <= delta)%R).
(** it never reports an error *)
Definition eigen_total (L : lib) : Prop := forall deg p buf c v, l_roots L deg p buf = Ret (c, v) -> c = SUCCESS.

(** ** y is what the refinement makes of z with at most max_evals evaluations (0: nothing is done) *)
Definition refined (F F' : C -> C) (tol : xreal) (bb : xbox) (max_evals : nat) (z y : C) : Prop :=
  match max_evals with O => y = z | _ => exists n, refines F F' tol bb max_evals SUCCESS z y n end.
(** the ordinary Newton iteration, used for the auxiliary spectrum *)
Definition iterated (F F' : C -> C) (tol : xreal) (bb : xbox) (max_evals : nat) (z y : C) : Prop :=
  exists n, (n <= max_evals)%nat /\ y = newton_iterate F F' n z /\ aux_ends F F' tol bb max_evals z n SUCCESS.

Lemma all_in_nth (P : C -> Prop) off n (l : list C) : (off + n <= length l)%nat -> (forall i, (off <= i < off + n)%nat -> P (nth i l 0)) <-> all_in P off n l.
Proof.
  intros HL. split; intros H.
  - intros i z Hi Hz. apply (nth_error_nth _ _ (RtoC 0)) in Hz. rewrite <- Hz. now apply H.
  - intros i Hi. apply (H i (nth i l 0) Hi). apply nth_error_nth'. lia.
Qed.

Section Sub.
Variable L : lib.
Hypothesis HL : lib_ok L.
Variable G : nat -> nat -> list C -> nat -> xreal * xreal -> list C -> out (Z * nat * list C).
Variable delta : R.
Hypothesis HG : eigen_ok L delta.
Let E := plib_env L G.

Definition mF De q r h kappa nd norm rhs x := first_of (main_f E 0 De q r h kappa nd norm (- rhs) x).
Definition mF' De q r h kappa nd norm rhs x := second_of (main_f E 0 De q r h kappa nd norm (- rhs) x).
Definition xF De q r h kappa nd norm x := first_of (aux_f E 0 De q r h kappa nd norm x).
Definition xF' De q r h kappa nd norm x := second_of (aux_f E 0 De q r h kappa nd norm x).

Lemma refine_mainspec_inv s De q r h K off arr max rhs tol kappa nd bb norm arr' ns : (off + K <= length arr)%nat ->
  refine_mainspec E s De q r h K off arr max (- rhs) tol kappa nd bb norm = Ret (SUCCESS, arr', ns) ->
  seg off K arr arr' /\ forall j, (off <= j < off + K)%nat -> refined (mF De q r h kappa nd norm rhs) (mF' De q r h kappa nd norm rhs) tol bb max (nth j arr 0) (nth j arr' 0).
Proof.
  intros HK H. unfold refine_mainspec in H. destruct max as [|max]. { injection H as <- _. split; [apply seg_refl|reflexivity]. }
  cbn [Nat.eqb] in H. eapply refine_points_inv; [|exact HK|exact H]. intros z y n H1. unfold refined. exists (n - 1)%nat.
  eapply refine_main_point_inv; [| |exact H1].
  - intros x a b Hx. exact (of_inv _ x a b Hx).
  - intros x c Hx. exact (main_f_err L G _ _ _ _ _ _ _ _ _ _ _ Hx).
Qed.
Lemma refine_auxspec_inv s De q r h K arr max tol kappa nd bb norm arr' ns : (K <= length arr)%nat ->
  refine_auxspec E s De q r h K arr max tol kappa nd bb norm = Ret (SUCCESS, arr', ns) ->
  seg 0 K arr arr' /\ forall j, (j < K)%nat -> iterated (xF De q r h kappa nd norm) (xF' De q r h kappa nd norm) tol bb max (nth j arr 0) (nth j arr' 0).
Proof.
  intros HK H. unfold refine_auxspec in H. destruct max as [|max].
  { injection H as <- _. split; [apply seg_refl|]. intros j _. exists O. split; [lia|]. split; [reflexivity|now apply ae_all]. }
  cbn [Nat.eqb] in H. edestruct (refine_points_inv (refine_aux_point (aux_f E s De q r h kappa nd norm) (S max) tol bb) (iterated (xF De q r h kappa nd norm) (xF' De q r h kappa nd norm) tol bb (S max))) as [Q1 Q2]; [|exact (HK : (0 + K <= length arr)%nat)|exact H|].
  - intros z y n H1. edestruct (refine_aux_point_inv (xF De q r h kappa nd norm) (xF' De q r h kappa nd norm)) as (m & A1 & A2 & A3); [| |exact H1|].
    + intros x a b Hx. exact (of_inv _ x a b Hx).
    + intros x c Hx. exact (aux_f_err L G _ _ _ _ _ _ _ _ _ _ Hx).
    + exists m. auto.
  - split; [exact Q1|]. intros j Hj. apply Q2. lia.
Qed.

(** the filters only remove points *)
Lemma pfilter_inv o K vals K' v : (K <= length vals)%nat -> pfilter o K vals = Ret (SUCCESS, K', v) ->
  (K' <= K)%nat /\ length v = length vals /\ forall P, all_in P 0 K vals -> all_in P 0 K' v.
Proof.
  intros HK H. destruct (pfilter_safe o K vals HK) as (c & K1 & v1 & E1 & _ & H1 & H2 & H3). rewrite E1 in H. injection H as -> -> ->.
  apply kept_length in H2. destruct (H3 eq_refl). auto.
Qed.
Lemma pfilter_real_inv skip tol K vals K' v : (K <= length vals)%nat -> pfilter_real skip tol K vals = Ret (SUCCESS, K', v) ->
  (K' <= K)%nat /\ length v = length vals /\ forall P, all_in P 0 K vals -> all_in P 0 K' v.
Proof.
  intros HK H. destruct (pfilter_real_safe skip tol K vals HK) as (c & K1 & v1 & E1 & _ & H1 & H2 & H3). rewrite E1 in H. injection H as -> -> ->.
  apply kept_length in H2. auto.
Qed.
Lemma E_SUB_not code c : E_SUBROUTINE code = Ret c -> code <> SUCCESS -> c <> SUCCESS.
Proof. unfold E_SUBROUTINE. destruct (Z.eqb_spec code INT_MIN); [discriminate|]. intros H. injection H as <-. unfold SUCCESS. lia. Qed.

Ltac step_ok H := match type of H with (if negb (Z.eqb ?c SUCCESS) then _ else _) = _ =>
  destruct (Z.eqb_spec c SUCCESS) as [->|?N]; cbn [negb] in H;
  [|exfalso; inv_bind H; injection H; intros; subst; match goal with X : E_SUBROUTINE _ = Ret SUCCESS |- _ => apply E_SUB_not in X; [now apply X|assumption] end] end.

Lemma z2l_inv K h (v : list C) nd d c v1 : nse_to_akns nd = Some d -> akns_degree d <> O -> akns_upsampling_factor d <> O -> (K <= length v)%nat -> h <> 0%R ->
  nse_z_to_lambda K h v nd = Ret (c, v1) -> c = SUCCESS /\ length v1 = length v /\ forall i, (i < K)%nat -> nth i v 0 <> 0 -> zmap d h (nth i v1 0) = nth i v 0.
Proof. intros Hd Nd Nu HK Hh H. destruct (z2l_value K h v nd d Hd Nd Nu HK Hh) as (v2 & E2 & L2 & V2). rewrite E2 in H. injection H as <- <-. auto. Qed.

Lemma sub_roots_inv deg p roots hs skip tol o d K v : nse_to_akns (p_disc o) = Some d -> akns_degree d <> O -> akns_upsampling_factor d <> O -> hs <> 0%R ->
  (1 <= deg)%nat -> length p = (deg + 1)%nat -> (deg <= length roots)%nat -> sub_roots E deg p roots hs skip tol o = Ret (SUCCESS, K, v) ->
  (K <= deg)%nat /\ length v = length roots /\ all_in (fun lam => (Cmod (peval (K := CF) p (zmap d hs lam)) <= delta)%R) 0 K v.
Proof.
  intros Hd Nd Nu Hh H1 Lp Lr H. unfold sub_roots in H. inv_bind H. destruct x as [c v0]. destruct (HG deg p roots c v0 H1 Lp Lr Hx) as [L0 V0].
  step_ok H. specialize (V0 eq_refl).
  inv_bind H. destruct x as [c1 v1]. destruct (z2l_inv deg hs v0 _ d c1 v1 Hd Nd Nu ltac:(lia) Hh Hx0) as (-> & L1 & V1). cbn [Z.eqb negb] in H. change (negb (SUCCESS =? SUCCESS)%Z) with false in H. cbv iota in H.
  inv_bind H. destruct x as [[c2 K2] v2]. step_ok H. apply pfilter_inv in Hx1; [|lia]. destruct Hx1 as (HK2 & L2 & P2).
  inv_bind H. destruct x as [[c3 K3] v3]. step_ok H. injection H as <- <-. apply pfilter_real_inv in Hx1; [|lia]. destruct Hx1 as (HK3 & L3 & P3).
  split; [lia|]. split; [congruence|]. apply P3, P2. apply all_in_nth; [lia|]. intros i Hi. destruct (V0 i ltac:(lia)) as [Nz Hz]. rewrite V1 by (assumption || lia). exact Hz.
Qed.

Lemma sub_refine_inv s De q r h K roots rhs kappa nd skip tol o K' v (P : C -> Prop) : (K <= length roots)%nat -> all_in P 0 K roots ->
  sub_refine E s De q r h K roots rhs kappa nd skip tol o = Ret (SUCCESS, K', v) ->
  (K' <= K)%nat /\ length v = length roots /\
  all_in (fun y => exists z, P z /\ refined (mF De q r h kappa nd (p_norm o) rhs) (mF' De q r h kappa nd (p_norm o) rhs) (refine_tol o) (p_box o) (p_max_evals o) z y) 0 K' v.
Proof.
  intros HK HP H. unfold sub_refine in H. inv_bind H. destruct x as [[c v0] ns]. step_ok H. apply refine_mainspec_inv in Hx; [|lia]. destruct Hx as [S0 V0]. apply seg_length in S0.
  inv_bind H. destruct x as [[c2 K2] v2]. step_ok H. apply pfilter_inv in Hx; [|lia]. destruct Hx as (HK2 & L2 & P2).
  inv_bind H. destruct x as [[c3 K3] v3]. step_ok H. injection H as <- <-. apply pfilter_real_inv in Hx; [|lia]. destruct Hx as (HK3 & L3 & P3).
  split; [lia|]. split; [congruence|]. apply P3, P2. apply all_in_nth; [lia|]. intros i Hi. exists (nth i roots 0). split; [|apply V0; lia]. apply (all_in_nth P 0 K roots); [lia|exact HP|lia].
Qed.

(** the values of Floquet's right-hand side *)
Lemma spine_loop_inv De q r h deg m tr W hs kappa rd skip tol o Kmax d (coarse : nat -> C -> Prop) :
  nse_to_akns (p_disc o) = Some d -> akns_degree d <> O -> akns_upsampling_factor d <> O -> hs <> 0%R -> (1 <= deg)%nat -> (deg / 2 = m)%nat ->
  (forall nval (p : list C) (lam : C), length p = (deg + 1)%nat -> (forall i, (i <= deg)%nat -> nth i p 0 = tr i - (if Nat.eqb i m then RtoC (spine_rhs o nval * powerRZ 2 (- W)) else 0)) ->
     (Cmod (peval (K := CF) p (zmap d hs lam)) <= delta)%R -> coarse nval lam) ->
  let Q lam := exists nval z, (nval < p_points o)%nat /\ coarse nval z /\
    refined (mF De q r h kappa rd (p_norm o) (spine_rhs o nval)) (mF' De q r h kappa rd (p_norm o) (spine_rhs o nval)) (refine_tol o) (p_box o) (p_max_evals o) z lam in
  forall cnt nval (p : list C) K (main roots : list C) K' main' roots', (nval + cnt <= p_points o)%nat -> length p = (deg + 1)%nat -> (forall i, (i <= deg)%nat -> i <> m -> nth i p 0 = tr i) ->
  (deg <= length roots)%nat -> (K <= Kmax)%nat -> (Kmax <= length main)%nat -> all_in Q 0 K main ->
  spine_loop E cnt nval De q r h deg p (tr m) W hs kappa rd skip tol o Kmax K main roots = Ret (SUCCESS, (K', main', roots')) ->
  all_in Q 0 K' main' /\ (K' <= Kmax)%nat /\ length main' = length main /\ length roots' = length roots.
Proof.
  intros Hd Nd Nu Hh H1 Em Good Q. induction cnt as [|k IH]; intros nval p K main roots K' main' roots' Hn Lp Vp Lr HK Lm HQ H; cbn [spine_loop] in H.
  - injection H as <- <- <-. auto.
  - assert (Hm : (m <= deg)%nat) by (rewrite <- Em; pose proof (Nat.div_le_upper_bound deg 2 deg); lia).
    rewrite Em, aset_upd in H by lia. cbn [bind] in H. set (p1 := upd p m _) in H. assert (Lp1 : length p1 = (deg + 1)%nat) by (unfold p1; now rewrite upd_length).
    inv_bind H. destruct x as [[c1 K1] v1]. destruct (Z.eqb_spec c1 SUCCESS) as [->|N1]; cbn [negb] in H; [|injection H as -> _ _; contradiction].
    apply (sub_roots_inv deg p1 roots hs skip tol o d K1 v1 Hd Nd Nu Hh H1 Lp1 Lr) in Hx. destruct Hx as (HK1 & L1 & P1).
    inv_bind H. destruct x as [[c2 K2] v2]. destruct (Z.eqb_spec c2 SUCCESS) as [->|N2]; cbn [negb] in H; [|injection H as -> _ _; contradiction].
    apply (sub_refine_inv 0 De q r h K1 v1 (spine_rhs o nval) kappa rd skip tol o K2 v2 _ ltac:(lia) P1) in Hx. destruct Hx as (HK2 & L2 & P2).
    assert (PQ : all_in Q 0 K2 v2).
    { eapply all_in_impl; [|exact P2]. intros y (z & Hz & Hr). exists nval, z. split; [lia|]. split; [|exact Hr]. apply (Good nval p1); [exact Lp1| |exact Hz].
      intros i Hi. unfold p1. rewrite nth_upd by lia. destruct (Nat.eqb_spec i m) as [->|Ni]; [reflexivity|]. rewrite Vp by assumption. ring. }
    destruct (Nat.ltb_spec Kmax (K + K2)) as [Hlt|Hge].
    + destruct (copy_all_in Q (Kmax - K) K v2 main) as (main1 & E1 & Hs1 & HA1); [lia|lia|apply (all_in_le _ _ K2); [lia|exact PQ]|]. rewrite E1 in H. cbn [bind] in H. injection H as <- <- <-.
      split; [|split; [lia|split; [exact (seg_length _ _ _ _ Hs1)|congruence]]].
      replace Kmax with (K + (Kmax - K))%nat by lia. apply all_in_app; [|exact HA1]. eapply all_in_seg; [exact Hs1|lia|exact HQ].
    + destruct (copy_all_in Q K2 K v2 main) as (main1 & E1 & Hs1 & HA1); [lia|lia|exact PQ|]. rewrite E1 in H. cbn [bind] in H. pose proof (seg_length _ _ _ _ Hs1) as Ls.
      apply IH in H; try lia.
      * destruct H as (A1 & A2 & A3 & A4). split; [exact A1|]. split; [exact A2|]. split; congruence.
      * intros i Hi Ni. unfold p1. rewrite nth_upd by lia. destruct (Nat.eqb_spec i m); [contradiction|]. now apply Vp.
      * apply all_in_app; [|exact HA1]. eapply all_in_seg; [exact Hs1|lia|exact HQ].
Qed.
End Sub.
