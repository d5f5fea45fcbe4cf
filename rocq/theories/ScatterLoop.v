(** * Refinement proofs for the slow scattering: the loops over the samples and over lambda *)
From Coq Require Import Reals Lra Lia List ZArith.
From Coquelicot Require Import Coquelicot.
From Verif Require Import Base Loop Mem Fields ErrModel CExp CField CDeriv CMean MiscNumModel MiscNumProps MiscMetricProps MiscSincBound
  DiscTables DiscModel DiscProps FscatterSpec FscatterProof FscatterModel FscatterProps ScatterSpec MatExp ScatterStep ScatterModel ScatterProof ScatterRun.
Import ListNotations.
Local Open Scope C_scope.

Lemma C1_nz : RtoC 1 <> 0. Proof. intros E. apply RtoC_inj in E. lra. Qed.
Lemma finite_choice {A} (a0 : A) (P : nat -> A -> Prop) n : (forall i, (i < n)%nat -> exists x, P i x) -> exists f, forall i, (i < n)%nat -> P i (f i).
Proof.
  induction n as [|n IH]; intros H.
  - exists (fun _ => a0). intros i Hi. lia.
  - destruct IH as (f & Hf); [intros i Hi; apply H; lia|]. destruct (H n ltac:(lia)) as (x & Hx).
    exists (fun i => if Nat.eqb i n then x else f i). intros i Hi. destruct (Nat.eqb_spec i n) as [->|N]; [exact Hx|]. apply Hf. lia.
Qed.

(** ** Normalisation *)
Definition p2 (a : Z) : C := RtoC (powerRZ 2 a).
Lemma p2_add a b : p2 (a + b) = p2 a * p2 b.
Proof. unfold p2. rewrite powerRZ_add by lra. apply RtoC_mult. Qed.
Lemma p2_0 : p2 0 = 1. Proof. reflexivity. Qed.
Lemma p2_opp a : p2 a * p2 (- a) = 1.
Proof. rewrite <- p2_add, Z.add_opp_diag_r. reflexivity. Qed.
Lemma p2_neq0 a : p2 a <> 0.
Proof. intros E. pose proof (p2_opp a) as H. rewrite E in H. apply C1_nz. rewrite <- H. ring. Qed.
Definition small (v : list C) : Prop := Forall (fun x => (Cmod x < 2)%R) v.
Lemma norm_map (v : list C) n : length v = n -> exists a, misc_normalize_vector n v = Ret (a, map (fun x => p2 (- a) * x) v) /\ small (map (fun x => p2 (- a) * x) v).
Proof.
  intros L. destruct (misc_normalize_vector_power_of_two n v) as (a & v' & E & L' & N & _ & Z0 & S2); [lia|].
  assert (Ev : v' = map (fun x => p2 (- a) * x) v).
  { apply (list_eq_nth _ _ (RtoC 0)); [now rewrite map_length|]. intros i Hi. rewrite N by lia.
    rewrite (nth_indep (map _ v) _ (p2 (- a) * RtoC 0)) by (rewrite map_length; lia).
    rewrite (map_nth (fun x => p2 (- a) * x)). unfold p2. apply Cmult_comm. }
  exists a. rewrite <- Ev. split; [exact E|]. apply Forall_forall. intros x Hx. apply (In_nth _ _ (RtoC 0)) in Hx. destruct Hx as (i & Hi & <-).
  destruct (Classical_Prop.classic (exists i, (i < n)%nat /\ nth i v (RtoC 0) <> RtoC 0)) as [H|H].
  - apply S2; [exact H|lia].
  - destruct Z0 as [-> ->].
    + intros j Hj. destruct (Ceq_dec (nth j v (RtoC 0)) 0) as [Q|Q]; [exact Q|]. exfalso. apply H. now exists j.
    + assert (Q : nth i v (RtoC 0) = RtoC 0).
      { destruct (Ceq_dec (nth i v (RtoC 0)) 0) as [Q|Q]; [exact Q|]. exfalso. apply H. exists i. split; [lia|exact Q]. }
      rewrite Q, Cmod_0. lra.
Qed.
Lemma norm_l4 H : exists a, misc_normalize_vector 4 (l4 H) = Ret (a, l4 (mscal (p2 (- a)) H)) /\ small (l4 (mscal (p2 (- a)) H)).
Proof. apply (norm_map (l4 H) 4). reflexivity. Qed.
Lemma norm_d16 H H' : exists a, misc_normalize_vector 16 (d16 H H') = Ret (a, d16 (mscal (p2 (- a)) H) (mscal (p2 (- a)) H'))
  /\ small (d16 (mscal (p2 (- a)) H) (mscal (p2 (- a)) H')).
Proof.
  destruct (norm_map (d16 H H') 16) as (a & E & S2); [reflexivity|]. exists a.
  assert (Q : map (fun x => p2 (- a) * x) (d16 H H') = d16 (mscal (p2 (- a)) H) (mscal (p2 (- a)) H')).
  { unfold d16. cbn [map a11 a12 a21 a22 mscal]. leq; try reflexivity; ring. }
  rewrite Q in *. now split.
Qed.
Lemma eye2 : eye 2 = l4 mone. Proof. reflexivity. Qed.
Lemma eye4 : eye 4 = d16 mone mzero. Proof. reflexivity. Qed.

Lemma mmul_mscal_r c X Y : mmul X (mscal c Y) = mscal c (mmul X Y). Proof. mring. Qed.
Lemma mscal_mscal a b X : mscal a (mscal b X) = mscal (a * b) X. Proof. mring. Qed.
Lemma mscal_one X : mscal 1 X = X. Proof. mring. Qed.
Lemma mscal_add c X Y : mscal c (madd X Y) = madd (mscal c X) (mscal c Y). Proof. mring. Qed.

Section Loop.
Variables (D : nat) (q r : list C) (eps_t : R) (ups : nat) (pr : prep) (l : C) (V V' : nat -> mat2).
Let n := passes D pr.
Lemma loop_value norm : (forall i H, (i < n)%nat -> step q r eps_t false ups pr l i (l4 H) = Ret (l4 (mmul (V i) H))) ->
  exists H Wi, scat_loop D q r eps_t false norm ups pr l = Ret (l4 H, Wi) /\ mscal (p2 Wi) H = descending n V
    /\ (norm = false -> Wi = 0%Z) /\ (norm = true -> small (l4 H)).
Proof.
  intros Hst. unfold scat_loop. fold n. cbn [dimof]. rewrite eye2.
  pose (P := fun (k : nat) (st : list C * Z) => exists H Wi, st = (l4 H, Wi) /\ mscal (p2 Wi) H = descending k V
    /\ (norm = false -> Wi = 0%Z) /\ (norm = true -> small (l4 H))).
  match goal with |- exists H Wi, for_ ?n ?lo ?b ?s = _ /\ _ => destruct (for_inv P b n lo s) as (st & E & H & Wi & -> & R) end.
  - exists mone, 0%Z. split; [reflexivity|]. split; [apply mscal_one|]. split; [reflexivity|]. intros _.
    repeat constructor; cbn [a11 a12 a21 a22 mone]; rewrite Cmod_R, ?Rabs_R0, ?Rabs_R1; lra.
  - intros i st Hi (H & Wi & -> & E & N & _). rewrite Hst by lia. cbn [bind]. destruct norm.
    + change (2 * 2)%nat with 4%nat. destruct (norm_l4 (mmul (V i) H)) as (a & -> & S2). cbn [bind]. eexists. split; [reflexivity|].
      exists (mscal (p2 (- a)) (mmul (V i) H)), (Wi + a)%Z. split; [reflexivity|]. split; [|split; [discriminate|intros _; exact S2]].
      cbn [descending]. rewrite <- E, mmul_mscal_r, mscal_mscal, p2_add, <- Cmult_assoc, p2_opp, Cmult_1_r. reflexivity.
    + eexists. split; [reflexivity|]. eexists _, Wi. split; [reflexivity|]. split; [|split; [exact N|discriminate]].
      cbn [descending]. now rewrite <- E, mmul_mscal_r.
  - exists H, Wi. split; [exact E|]. exact R.
Qed.
Lemma loop_deriv norm : (forall i H H', (i < n)%nat -> step q r eps_t true ups pr l i (d16 H H') = Ret (d16 (mmul (V i) H) (madd (mmul (V' i) H) (mmul (V i) H')))) ->
  exists H H' Wi, scat_loop D q r eps_t true norm ups pr l = Ret (d16 H H', Wi)
    /\ mscal (p2 Wi) H = descending n V /\ mscal (p2 Wi) H' = propagated n V V' /\ (norm = false -> Wi = 0%Z) /\ (norm = true -> small (d16 H H')).
Proof.
  intros Hst. unfold scat_loop. fold n. cbn [dimof]. rewrite eye4.
  pose (P := fun (k : nat) (st : list C * Z) => exists H H' Wi, st = (d16 H H', Wi) /\ mscal (p2 Wi) H = descending k V
    /\ mscal (p2 Wi) H' = propagated k V V' /\ (norm = false -> Wi = 0%Z) /\ (norm = true -> small (d16 H H'))).
  match goal with |- exists H H' Wi, for_ ?n ?lo ?b ?s = _ /\ _ => destruct (for_inv P b n lo s) as (st & E & H & H' & Wi & -> & R) end.
  - exists mone, mzero, 0%Z. split; [reflexivity|]. split; [apply mscal_one|]. split; [apply mscal_one|]. split; [reflexivity|]. intros _.
    repeat constructor; cbn [a11 a12 a21 a22 mone mzero]; rewrite Cmod_R, ?Rabs_R0, ?Rabs_R1; lra.
  - intros i st Hi (H & H' & Wi & -> & E & E' & N & _). rewrite Hst by lia. cbn [bind]. destruct norm.
    + change (4 * 4)%nat with 16%nat. destruct (norm_d16 (mmul (V i) H) (madd (mmul (V' i) H) (mmul (V i) H'))) as (a & -> & S2). cbn [bind].
      eexists. split; [reflexivity|]. eexists _, _, (Wi + a)%Z. split; [reflexivity|].
      split; [|split; [|split; [discriminate|intros _; exact S2]]]; cbn [descending propagated].
      * rewrite <- E, mmul_mscal_r, mscal_mscal, p2_add, <- Cmult_assoc, p2_opp, Cmult_1_r. reflexivity.
      * rewrite <- E, <- E', mscal_mscal, p2_add, <- Cmult_assoc, p2_opp, Cmult_1_r. mring.
    + eexists. split; [reflexivity|]. eexists _, _, Wi. split; [reflexivity|].
      split; [|split; [|split; [exact N|discriminate]]]; cbn [descending propagated].
      * now rewrite <- E, mmul_mscal_r.
      * rewrite <- E, <- E'. mring.
  - exists H, H', Wi. split; [exact E|]. exact R.
Qed.
End Loop.

Lemma passes_steps d D q r eps_t pr : is_slow d -> multiple3 d D -> prepared D q r eps_t d pr -> passes D pr = slow_steps d D.
Proof.
  intros Hs Hm Hp. unfold prepared in Hp.
  destruct Hs as [->|[->|[->|[->|[->|[->| ->]]]]]]; cbn [stepper_of] in Hp; destruct pr; try contradiction; cbn [passes slow_steps multiple3] in *; try reflexivity.
  - apply triples_mul. pose proof (Nat.div_mod D 3). lia.
  - apply triples_mul. pose proof (Nat.div_mod D 3). lia.
Qed.

(** ** Change of basis *)
Definition pde_ok (pde : akns_pde) (l : C) : Prop := pde = PDE_NSE \/ (pde = PDE_KdV /\ l <> 0).
Lemma slow_classes d : is_slow d -> akns_to_S_kdv_class d = Some false /\ akns_from_S_kdv_class d = Some false /\
  akns_to_S_nse_class d = Some false /\ akns_from_S_nse_class d = Some false.
Proof. intros [->|[->|[->|[->|[->|[->| ->]]]]]]; repeat split; reflexivity. Qed.
Definition packed (df : bool) (X X' : mat2) : list C := if df then d16 X X' else l4 X.
Lemma to_S_slow d df l eps_t vanilla pde : is_slow d -> pde_ok pde l ->
  akns_to_S (repeat (RtoC 0) (dimof df * dimof df)) l df eps_t d vanilla pde = Ret (SUCCESS, packed df (minv (basisP pde vanilla l)) (dminvP pde vanilla l)).
Proof.
  intros Hs Hp. destruct (slow_classes d Hs) as (C1 & C2 & C3 & C4).
  assert (G : forall df, (dimof df * dimof df = size_of df * size_of df)%nat) by (intros []; reflexivity).
  unfold akns_to_S, basis_matrix. destruct Hp as [->|[-> Nl]].
  - rewrite C3. unfold id_writes. rewrite writes_spec by (rewrite repeat_length; apply G). f_equal. f_equal.
    assert (E : minv (basisP PDE_NSE vanilla l) = mone).
    { unfold minv, mdet. cbn [basisP mone a11 a12 a21 a22]. replace (1 * 1 - 0 * 0) with (RtoC 1) by ring.
      apply mat2_eq; cbn [a11 a12 a21 a22 mscal mone]; field; exact C1_nz. }
    unfold dminvP, mopp. rewrite E. cbn [dbasisP]. destruct df; unfold packed, blocks, d16, l4; cbn [a11 a12 a21 a22 mone mscal mmul mzero]; leq; try reflexivity; ring.
  - destruct (Ceq_dec l 0) as [Q|_]; [contradiction|]. rewrite C1. unfold to_S_kdv_writes.
    destruct vanilla; rewrite writes_spec by (rewrite repeat_length; apply G); f_equal; f_equal;
    unfold dminvP, mopp, minv; cbn [basisP dbasisP]; destruct df; unfold packed, blocks, d16, l4, mdet; cbn [a11 a12 a21 a22 mone mscal mmul mzero]; leq; try reflexivity;
    rewrite ?half_inv, ?mhalf_inv, ?Cm1; try (field [Ci_sqr]; auto using Ci_neq0).
Qed.
Lemma from_S_slow d df l eps_t vanilla pde : is_slow d -> pde_ok pde l ->
  akns_from_S (repeat (RtoC 0) (dimof df * dimof df)) l df eps_t d vanilla pde = Ret (SUCCESS, packed df (basisP pde vanilla l) (dbasisP pde vanilla)).
Proof.
  intros Hs Hp. destruct (slow_classes d Hs) as (C1 & C2 & C3 & C4).
  assert (G : forall df, (dimof df * dimof df = size_of df * size_of df)%nat) by (intros []; reflexivity).
  unfold akns_from_S, basis_matrix. destruct Hp as [->|[-> Nl]].
  - rewrite C4. unfold id_writes. rewrite writes_spec by (rewrite repeat_length; apply G). destruct df; reflexivity.
  - destruct (Ceq_dec l 0) as [Q|_]; [contradiction|]. rewrite C2. unfold from_S_kdv_writes.
    destruct vanilla; rewrite writes_spec by (rewrite repeat_length; apply G); destruct df; reflexivity.
Qed.
Lemma basis_derive pde vanilla l : pde_ok pde l -> Mderive (basisP pde vanilla) l (dbasisP pde vanilla) /\
  Mderive (fun z => minv (basisP pde vanilla z)) l (dminvP pde vanilla l) /\ mmul (minv (basisP pde vanilla l)) (basisP pde vanilla l) = mone.
Proof.
  intros Hp. assert (ENSE : forall z, minv (basisP PDE_NSE vanilla z) = mone).
  { intros z. unfold minv, mdet. cbn [basisP mone a11 a12 a21 a22]. replace (1 * 1 - 0 * 0) with (RtoC 1) by ring.
    apply mat2_eq; cbn [a11 a12 a21 a22 mscal mone]; field; exact C1_nz. }
  destruct Hp as [->|[-> Nl]].
  - split; [|split].
    + apply Mderive_const.
    + apply (Mderive_ext (fun _ => mone)); [intros t; symmetry; apply ENSE|]. eapply Mderive_eq; [apply Mderive_const|].
      unfold dminvP, mopp. rewrite ENSE. cbn [dbasisP]. mring.
    + rewrite ENSE. cbn [basisP]. apply mmul_one_l.
  - assert (N2 : 2 * Ci * l <> 0) by (apply Cmult_neq_0; [apply Cmult_neq_0; [exact C2_neq0|exact Ci_neq0]|exact Nl]).
    assert (DI : forall c : C, Cderive (fun z => c / z) l (- c / (l * l))).
    { intros c. eapply Cderive_eq; [apply Cderive_scal; apply Cderive_inv; exact Nl|]. field. exact Nl. }
    assert (CL : forall (f : C -> C) (c L : C), (forall z, f z = c) -> L = 0 -> Cderive f l L).
    { intros f c L E ->. apply (Cderive_ext (fun _ => c)); [intros z; symmetry; apply E|apply Cderive_const]. }
    assert (LIN : forall c : C, Cderive (fun z => c * z) l c).
    { intros c. eapply Cderive_eq; [apply Cderive_scal, Cderive_id|ring]. }
    split; [|split].
    + destruct vanilla; refine (conj _ (conj _ (conj _ _))); cbn [basisP dbasisP a11 a12 a21 a22];
        first [apply LIN | apply Cderive_const].
    + assert (REC : forall c (u g : C -> C) (g' L : C), (forall z, u z = c * z) -> c * l <> 0 -> Cderive g l g' ->
        L = - (c / (c * l * (c * l))) * g l + / (c * l) * g' -> Cderive (fun z => / u z * g z) l L).
      { intros c u g g' L Eu Nc Hg ->. eapply Cderive_eq; [apply (Cderive_mult (fun z => / u z) g); [|exact Hg]|].
        - assert (Nc0 : c <> 0) by (intros ->; apply Nc; ring).
          apply (Cderive_ext (fun z => / (c * z))); [intros z; now rewrite Eu|].
          apply (Cderive_comp (fun z => / z) (fun z => c * z)); [apply Cderive_inv; exact Nc|apply LIN].
        - rewrite Eu. field. split; [exact Nl|]. intros ->. apply Nc. ring. }
      assert (N2' : - (2) * Ci * l <> 0) by (intros E; apply N2; replace (2 * Ci * l) with (- (- (2) * Ci * l)) by ring; rewrite E; ring).
      destruct vanilla; refine (conj _ (conj _ (conj _ _))); unfold dminvP, mopp, minv, mdet; cbn [basisP dbasisP a11 a12 a21 a22 mscal mmul];
      [eapply (REC (2 * Ci)) | eapply (REC (2 * Ci)) | eapply (REC (2 * Ci)) | eapply (REC (2 * Ci)) |
       eapply (REC (- (2) * Ci)) | eapply (REC (- (2) * Ci)) | eapply (REC (- (2) * Ci)) | eapply (REC (- (2) * Ci))];
      try assumption; try (intros z; ring); first [apply LIN|apply Cderive_const|field; auto using Ci_neq0, C2_neq0].
    + destruct vanilla; unfold minv, mdet; cbn [basisP a11 a12 a21 a22]; apply mat2_eq; cbn [a11 a12 a21 a22 mscal mmul mone];
        field; auto using Ci_neq0, C2_neq0.
Qed.

(** ** One lambda *)
Lemma chkZ_success : chkZ SUCCESS = Ret SUCCESS. Proof. reflexivity. Qed.
Section One.
Variables (D : nat) (q r : list C) (eps_t : R) (d : akns_disc) (pr : prep) (pde : akns_pde) (vanilla : bool).
Hypothesis Hq : (D <= length q)%nat.
Hypothesis Hr : (D <= length r)%nat.
Hypothesis Hs : is_slow d.
Hypothesis Hm : multiple3 d D.
Hypothesis Hp : prepared D q r eps_t d pr.
Let n := slow_steps d D.
Let w := weights d.
Let h := RtoC eps_t.
Let ups := akns_upsampling_factor d.
Definition scattered (V V' : nat -> mat2) (df norm : bool) (l : C) (vals : list C) (Wi : Z) : Prop :=
  (norm = false -> Wi = 0%Z)
    /\ map (fun x => p2 Wi * x) vals = l4 (based pde vanilla l (descending n V)) ++
         (if df then l4 (dbased pde vanilla l (descending n V) (propagated n V V')) else [])
    /\ (norm = true -> pde = PDE_NSE -> small vals).
Definition steps_are (V V' : nat -> mat2) (l : C) : Prop :=
  forall j, (j < n)%nat -> approx_step d w h (nthC q) (nthC r) j l (V j) /\
     (forall H, step q r eps_t false ups pr l j (l4 H) = Ret (l4 (mmul (V j) H))) /\
     (core_ok d w h (nthC q) (nthC r) j l -> approx_dstep d w h (nthC q) (nthC r) j l (V j) (V' j) /\
       forall H H', step q r eps_t true ups pr l j (d16 H H') = Ret (d16 (mmul (V j) H) (madd (mmul (V' j) H) (mmul (V j) H')))).
Lemma steps_ok l : exists V V', steps_are V V' l.
Proof.
  destruct (finite_choice (mone, mone) (fun j VV => approx_step d w h (nthC q) (nthC r) j l (fst VV) /\
     (forall H, step q r eps_t false ups pr l j (l4 H) = Ret (l4 (mmul (fst VV) H))) /\
     (core_ok d w h (nthC q) (nthC r) j l -> approx_dstep d w h (nthC q) (nthC r) j l (fst VV) (snd VV) /\
       forall H H', step q r eps_t true ups pr l j (d16 H H') = Ret (d16 (mmul (fst VV) H) (madd (mmul (snd VV) H) (mmul (fst VV) H'))))) n) as (f & Hf).
  - intros i Hi. destruct (step_ok D q r eps_t Hq Hr d pr l i Hs Hm Hp Hi) as (V & A & B & C0).
    destruct (Classical_Prop.classic (core_ok d w h (nthC q) (nthC r) i l)) as [K|K].
    + destruct (C0 K) as (V' & C1). exists (V, V'). cbn [fst snd]. split; [exact A|]. split; [exact B|]. intros _. exact C1.
    + exists (V, mone). cbn [fst snd]. split; [exact A|]. split; [exact B|]. intros K'. contradiction.
  - exists (fun j => fst (f j)), (fun j => snd (f j)). exact Hf.
Qed.
Lemma based_scal c l M : based pde vanilla l (mscal c M) = mscal c (based pde vanilla l M). Proof. unfold based. mring. Qed.
Lemma dbased_scal c l M M' : dbased pde vanilla l (mscal c M) (mscal c M') = mscal c (dbased pde vanilla l M M'). Proof. unfold dbased. mring. Qed.
Lemma map_l4 c X : map (fun x => c * x) (l4 X) = l4 (mscal c X). Proof. reflexivity. Qed.
Lemma based_nse l M : based PDE_NSE vanilla l M = M.
Proof.
  unfold based. destruct (basis_derive PDE_NSE vanilla l) as (_ & _ & E); [now left|]. cbn [basisP] in *.
  rewrite mmul_one_r in E. rewrite E, mmul_one_r. apply mmul_one_l.
Qed.
Lemma dbased_nse l M M' : dbased PDE_NSE vanilla l M M' = M'.
Proof.
  unfold dbased, dminvP, mopp. destruct (basis_derive PDE_NSE vanilla l) as (_ & _ & E); [now left|]. cbn [basisP dbasisP] in *.
  rewrite mmul_one_r in E. rewrite E. mring.
Qed.
Lemma scat_one_ok V V' df norm l : steps_are V V' l -> pde_ok pde l ->
  (df = true -> forall j, (j < n)%nat -> core_ok d w h (nthC q) (nthC r) j l) ->
  exists vals Wi, scat_one D q r eps_t df norm ups pr d pde vanilla l = Ret (SUCCESS, vals, Wi) /\ length vals = (if df then 8 else 4)%nat
    /\ scattered V V' df norm l vals Wi.
Proof.
  intros HV Hpde Hc.
  assert (Hn : passes D pr = n) by exact (passes_steps d D q r eps_t pr Hs Hm Hp).
  unfold scat_one. rewrite (to_S_slow d df l eps_t vanilla pde Hs Hpde), (from_S_slow d df l eps_t vanilla pde Hs Hpde).
  destruct df.
  - destruct (loop_deriv D q r eps_t ups pr l V V' norm) as (H & H' & Wi & E & E1 & E2 & N & S2).
    { rewrite Hn. intros i H H' Hi. destruct (HV i Hi) as (_ & _ & Q). apply Q. now apply Hc. }
    rewrite Hn in *. rewrite E. cbn [bind dimof packed]. change (negb (Z.eqb SUCCESS SUCCESS)) with false. cbn iota.
    rewrite mm444. cbn [bind]. rewrite mm444. cbn [bind].
    set (X := mmul (mmul (minv (basisP pde vanilla l)) H) (basisP pde vanilla l)).
    set (X' := madd _ _).
    exists (l4 X ++ l4 X'), Wi.
    assert (HF : forall x : C, RtoC (1/2) * x + RtoC (1/2) * x = x) by (intros x; rewrite half_inv; field).
    split; [|split; [reflexivity|]].
    + unfold d16, l4. cbn [aget bind app]. rewrite !HF. reflexivity.
    + split; [exact N|].
      assert (EX : X = based pde vanilla l H) by (unfold X, based; symmetry; apply mmul_assoc).
      assert (EX' : X' = dbased pde vanilla l H H') by (unfold X', dbased; mring).
      split.
      * rewrite map_app, !map_l4, EX, EX', <- based_scal, <- dbased_scal, E1, E2. reflexivity.
      * intros Nt ->. specialize (S2 Nt). rewrite EX, EX', based_nse, dbased_nse. unfold small, d16, l4 in *. cbn [app].
        rewrite !Forall_cons_iff in S2. rewrite !Forall_cons_iff. intuition.
  - destruct (loop_value D q r eps_t ups pr l V V' norm) as (H & Wi & E & E1 & N & S2).
    { rewrite Hn. intros i H Hi. destruct (HV i Hi) as (_ & Q & _). apply Q. }
    rewrite Hn in *. rewrite E. cbn [bind dimof packed]. change (negb (Z.eqb SUCCESS SUCCESS)) with false. cbn iota.
    rewrite mm222. cbn [bind]. rewrite mm222. cbn [bind].
    set (X := mmul (mmul (minv (basisP pde vanilla l)) H) (basisP pde vanilla l)).
    exists (l4 X), Wi. split; [reflexivity|]. split; [reflexivity|].
    split; [exact N|].
    assert (EX : X = based pde vanilla l H) by (unfold X, based; symmetry; apply mmul_assoc).
    split.
    + rewrite app_nil_r, map_l4, EX, <- based_scal, E1. reflexivity.
    + intros Nt ->. rewrite EX, based_nse. exact (S2 Nt).
Qed.
End One.

(** ** All lambdas *)
Definition blk (df : bool) : nat := if df then 8%nat else 4%nat.
Definition isSome {A} (o : option A) : bool := match o with Some _ => true | None => false end.
Definition WI (W : option (list Z)) (i : nat) : Z := match W with Some w => nth i w 0%Z | None => 0%Z end.
Definition lenW (W : option (list Z)) (K : nat) : Prop := match W with Some w => (K <= length w)%nat | None => True end.
(** the entries of result for the i-th lambda *)
Definition slice (b : nat) (res : list C) (i : nat) : list C := tabulate b (fun j => nthC res (b * i + j)).
Section All.
Variables (D : nat) (q r : list C) (eps_t : R) (d : akns_disc) (pr : prep) (pde : akns_pde) (vanilla : bool).
Hypothesis Hq : (D <= length q)%nat.
Hypothesis Hr : (D <= length r)%nat.
Hypothesis Hs : is_slow d.
Hypothesis Hm : multiple3 d D.
Hypothesis Hp : prepared D q r eps_t d pr.
Lemma scat_all_ok (VV VV' : nat -> nat -> mat2) df K lam res W : (forall i, (i < K)%nat -> steps_are D q r eps_t d pr (VV i) (VV' i) (nthC lam i)) -> (K <= length lam)%nat -> (blk df * K <= length res)%nat -> lenW W K ->
  (forall i, (i < K)%nat -> pde_ok pde (nthC lam i)) ->
  (df = true -> forall i j, (i < K)%nat -> (j < slow_steps d D)%nat -> core_ok d (weights d) (RtoC eps_t) (nthC q) (nthC r) j (nthC lam i)) ->
  exists res' W', scat_all D q r eps_t df (akns_upsampling_factor d) pr d pde vanilla K lam res W = Ret (SUCCESS, res', W')
    /\ length res' = length res /\ isSome W' = isSome W /\ option_map (@length Z) W' = option_map (@length Z) W
    /\ (forall j, (blk df * K <= j)%nat -> nthC res' j = nthC res j)
    /\ (forall i, (K <= i)%nat -> WI W' i = WI W i)
    /\ forall i, (i < K)%nat -> scattered D d pde vanilla (VV i) (VV' i) df (isSome W) (nthC lam i) (slice (blk df) res' i) (WI W' i).
Proof.
  intros HVV HK Hres HW Hpde Hc. unfold scat_all.
  pose (P := fun (k : nat) (st : Z * list C * option (list Z)) => exists res' W', st = (SUCCESS, res', W')
    /\ length res' = length res /\ isSome W' = isSome W /\ option_map (@length Z) W' = option_map (@length Z) W
    /\ (forall j, (blk df * k <= j)%nat -> nthC res' j = nthC res j)
    /\ (forall i, (k <= i)%nat -> WI W' i = WI W i)
    /\ forall i, (i < k)%nat -> scattered D d pde vanilla (VV i) (VV' i) df (isSome W) (nthC lam i) (slice (blk df) res' i) (WI W' i)).
  match goal with |- exists res' W', for_ ?n ?lo ?b ?s = _ /\ _ => destruct (for_inv P b n lo s) as (st & E & res' & W' & -> & R) end.
  - exists res, W. split; [reflexivity|]. split; [reflexivity|]. split; [reflexivity|]. split; [reflexivity|]. split; [reflexivity|]. split; [reflexivity|]. intros i Hi. exfalso. lia.
  - intros i st Hi (res1 & W1 & -> & L1 & S1 & M1 & O1 & OW1 & K1). change (negb (Z.eqb SUCCESS SUCCESS)) with false. cbn iota.
    rewrite aget_nthC by lia. cbn [bind]. fold (isSome W1). rewrite S1.
    destruct (scat_one_ok D q r eps_t d pr pde vanilla Hs Hm Hp (VV i) (VV' i) df (isSome W) (nthC lam i)) as (vals & Wi & -> & Lv & Sc).
    { apply HVV. lia. }
    { apply Hpde. lia. }
    { intros Edf j Hj. apply Hc; [exact Edf|lia|exact Hj]. }
    cbn [bind].
    assert (EW : exists W2, (match W1 with Some w => w <- aset w i Wi ;; Ret (Some w) | None => Ret None end) = Ret W2 /\
      isSome W2 = isSome W1 /\ option_map (@length Z) W2 = option_map (@length Z) W1 /\
      (forall i', i' <> i -> WI W2 i' = WI W1 i') /\ (WI W2 i = Wi)).
    { destruct W1 as [w1|].
      - assert (i < length w1)%nat.
        { destruct W as [w0|]; [|discriminate]. cbn [option_map] in M1. injection M1 as M1. cbn [lenW] in HW. lia. }
        rewrite aset_upd by lia. cbn [bind]. eexists. split; [reflexivity|]. split; [reflexivity|]. split; [cbn; now rewrite upd_length|].
        split; [|cbn [WI]; rewrite nth_upd by lia; now rewrite Nat.eqb_refl].
        intros i' N. cbn [WI]. rewrite nth_upd by lia. destruct (Nat.eqb_spec i' i); [contradiction|reflexivity].
      - eexists. split; [reflexivity|]. split; [reflexivity|]. split; [reflexivity|]. split; [reflexivity|]. cbn [WI]. symmetry.
        destruct Sc as (N & _). apply N. rewrite <- S1. reflexivity. }
    destruct EW as (W2 & -> & S2 & M2 & O2 & V2). cbn [bind]. change (Z.eqb SUCCESS SUCCESS) with true. cbn iota.
    fold (blk df) in Lv |- *.
    destruct (wr_list_ok vals (blk df * i) res1) as (res2 & -> & L2 & N2); [rewrite Lv; nia|]. cbn [bind].
    eexists. split; [reflexivity|]. exists res2, W2. split; [reflexivity|]. split; [congruence|]. split; [congruence|]. split; [congruence|].
    split; [|split].
    + intros j Hj. unfold nthC. rewrite N2, Lv. destruct (Nat.leb_spec (blk df * i) j), (Nat.ltb_spec j (blk df * i + blk df)); cbn [andb]; try (apply O1; nia).
      exfalso. nia.
    + intros i' Hi'. rewrite O2 by lia. apply OW1. lia.
    + intros i' Hi'. destruct (Nat.eq_dec i' i) as [->|Ni].
      * rewrite V2. replace (slice (blk df) res2 i) with vals; [exact Sc|].
        apply (list_eq_nth _ _ (RtoC 0)).
        -- unfold slice. now rewrite tabulate_length.
        -- intros j Hj. unfold slice. rewrite nth_tabulate by lia. unfold nthC. rewrite N2, Lv.
           destruct (Nat.leb_spec (blk df * i) (blk df * i + j)), (Nat.ltb_spec (blk df * i + j) (blk df * i + blk df)); cbn [andb]; try (exfalso; lia).
           f_equal. lia.
      * rewrite O2 by exact Ni. replace (slice (blk df) res2 i') with (slice (blk df) res1 i'); [apply K1; lia|].
        unfold slice. apply tabulate_ext. intros j Hj. unfold nthC. rewrite N2, Lv.
        destruct (Nat.leb_spec (blk df * i) (blk df * i' + j)), (Nat.ltb_spec (blk df * i' + j) (blk df * i + blk df)); cbn [andb]; try reflexivity.
        exfalso. nia.
  - exists res', W'. split; [exact E|]. exact R.
Qed.
End All.
