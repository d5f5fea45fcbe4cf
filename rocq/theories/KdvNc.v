(** * The discrete spectrum of fnft_kdvv with the models of all subroutines: norming constants and residues (C99) *)
From Coq Require Import Reals Lra.
From Coquelicot Require Import Coquelicot.
From Verif Require Import Loop Mem CExp CField CDeriv CMean MiscProof DiscSpec DiscTables DiscModel DiscProps DiscPreProps FscatterSpec FscatterProof FscatterProps ScatterMatProps MatExp
  ScatterSpec ScatterModel ScatterRun ScatterLoop BoundModel BoundSpec BoundProps BoundExact NsevSpec NsevProps NsevSafe NsepSafe KdvvSpec KdvvProps KdvvSafe KdvvSafe3 NftSpec NsevLib NsevCsTop NsevEnergy NsevNc
  KdvvModel KdvFast KdvCsTop.
Local Open Scope C_scope.

(** ** Real matrices *)
Definition is_real (x : C) : Prop := snd x = 0%R.
Definition real_mat (M : mat2) : Prop := is_real (a11 M) /\ is_real (a12 M) /\ is_real (a21 M) /\ is_real (a22 M).
Lemma ir_R x : is_real x <-> x = RtoC (fst x).
Proof. unfold is_real, RtoC. destruct x as [x y]. cbn. split; [now intros ->|now intros [= ->]]. Qed.
Lemma ir_plus x y : is_real x -> is_real y -> is_real (x + y).
Proof. unfold is_real. cbn. intros -> ->. ring. Qed.
Lemma ir_mult x y : is_real x -> is_real y -> is_real (x * y).
Proof. unfold is_real. cbn. intros -> ->. ring. Qed.
Lemma ir_opp x : is_real x -> is_real (- x).
Proof. unfold is_real. cbn. intros ->. ring. Qed.
Lemma ir_inv x : is_real x -> is_real (/ x).
Proof. unfold is_real. cbn. intros ->. unfold Rdiv. rewrite Ropp_0. ring. Qed.
Lemma ir_RtoC x : is_real (RtoC x). Proof. reflexivity. Qed.
Lemma rm_mul X Y : real_mat X -> real_mat Y -> real_mat (mmul X Y).
Proof. intros (A & B & D & F) (A' & B' & D' & F'). repeat split; cbn [mmul a11 a12 a21 a22]; apply ir_plus; apply ir_mult; assumption. Qed.
Lemma rm_scal c X : is_real c -> real_mat X -> real_mat (mscal c X).
Proof. intros H (A & B & D & F). repeat split; cbn [mscal a11 a12 a21 a22]; apply ir_mult; assumption. Qed.
Lemma rm_add X Y : real_mat X -> real_mat Y -> real_mat (madd X Y).
Proof. intros (A & B & D & F) (A' & B' & D' & F'). repeat split; cbn [madd a11 a12 a21 a22]; apply ir_plus; assumption. Qed.
Lemma rm_one : real_mat mone. Proof. repeat split. Qed.
Lemma ir_det X : real_mat X -> is_real (mdet X).
Proof. intros (A & B & D & F). unfold mdet, Cminus. apply ir_plus; [|apply ir_opp]; apply ir_mult; assumption. Qed.
Lemma rm_inv X : real_mat X -> real_mat (minv X).
Proof. intros H. unfold minv. apply rm_scal; [now apply ir_inv, ir_det|]. destruct H as (A & B & D & F). repeat split; cbn [a11 a12 a21 a22]; try apply ir_opp; assumption. Qed.
Lemma rm_desc n V : (forall i, (i < n)%nat -> real_mat (V i)) -> real_mat (descending n V).
Proof. induction n as [|n IH]; intros H; [apply rm_one|]. cbn [descending]. apply rm_mul; [apply H; lia|apply IH; intros; apply H; lia]. Qed.
Lemma rm_rising k : forall n V, (forall i, (n <= i < n + k)%nat -> real_mat (V i)) -> real_mat (rising k n V).
Proof. induction k as [|k IH]; intros n V H; [apply rm_one|]. cbn [rising]. apply rm_mul; [apply H; lia|apply IH; intros; apply H; lia]. Qed.
Lemma rm_exp X : real_mat X -> real_mat (mexp X).
Proof.
  intros H. destruct (mexp_real X (fst (mdet X))) as (c & s & ->); [apply ir_R; now apply ir_det|].
  apply rm_add; apply rm_scal; try reflexivity; [apply rm_one|exact H].
Qed.
Lemma rm_basis v y : real_mat (basisP PDE_KdV v (0%R, y)).
Proof. destruct v; repeat split; cbn [basisP a11 a12 a21 a22]; unfold is_real; cbn; ring. Qed.
Lemma rm_based v y M : real_mat M -> real_mat (based PDE_KdV v (0%R, y) M).
Proof. intros H. unfold based. apply rm_mul; [apply rm_inv, rm_basis|]. apply rm_mul; [exact H|apply rm_basis]. Qed.
Lemma ir_exp x : is_real x -> is_real (Cexp x).
Proof. unfold is_real, Cexp. cbn. intros ->. rewrite sin_0. ring. Qed.
Lemma rm_waves t y : real_mat (waves t (0%R, y)).
Proof. repeat split; cbn [waves a11 a12 a21 a22]; apply ir_exp || reflexivity; unfold is_real; cbn; ring. Qed.

(** on the imaginary axis the derivative of a function that is real there is imaginary *)
Lemma imag_derive (f : C -> C) (y : R) (D1 : C) : (forall t : R, is_real (f (0%R, t))) -> Cderive f (0%R, y) D1 -> fst D1 = 0%R.
Proof.
  intros Hf Hd. apply Rabs_eq_0. apply Rle_antisym; [|apply Rabs_pos]. apply le_epsilon. intros e He. rewrite Rplus_0_l.
  destruct (Cderive_elim f _ _ Hd e He) as (dl & Hdl & B). set (t := (dl / 2)%R). assert (Ht : (0 < t)%R) by (unfold t; lra).
  specialize (B (0%R, (y + t)%R)). assert (E : ((0%R, (y + t)%R) : C) - (0%R, y) = (0%R, t)) by (apply Ceq; cbn; ring). rewrite E in B.
  assert (Cm : Cmod (0%R, t) = t) by (unfold Cmod; cbn [fst snd]; replace (0 ^ 2 + t ^ 2)%R with (t * t)%R by ring; apply sqrt_square; lra). rewrite Cm in B.
  specialize (B ltac:(unfold t; lra)). set (z := f (0%R, (y + t)%R) - f (0%R, y) - (0%R, t) * D1) in B.
  assert (Ez : snd z = (- (t * fst D1))%R).
  { unfold z. pose proof (Hf (y + t)%R) as H1. pose proof (Hf y) as H2. unfold is_real in H1, H2. cbn. rewrite H1, H2. ring. }
  assert (Hz : (Rabs (snd z) <= Cmod z)%R) by (eapply Rle_trans; [apply Rmax_r|apply Rmax_Cmod]).
  rewrite Ez, Rabs_Ropp, Rabs_mult, (Rabs_pos_eq t) in Hz by lra. apply (Rmult_le_reg_l t); [exact Ht|]. lra.
Qed.

(** a successful call has read K bound states *)
Lemma sbs_room_kdv junk j1 j2 D Dg q r T K lam a ap b W d v sk a' ap' b' W' :
  is_slow d -> (1 <= Dg)%nat -> D = (Dg * akns_upsampling_factor d)%nat -> (D <= length q)%nat -> (D <= length r)%nat -> (1 <= K)%nat ->
  akns_scatter_bound_states junk j1 j2 D (Some q) (Some r) (Some T) K (Some lam) a ap b W d PDE_KdV v sk = Ret (SUCCESS, a', ap', b', W') -> (K <= length lam)%nat.
Proof.
  intros Hs HDg HD Hq Hr HK H. unfold akns_scatter_bound_states in H. destruct (Nat.eqb D 0); [discriminate|]. destruct T as [T0 T1].
  destruct (Nat.eqb K 0); [discriminate|]. destruct a as [a|]; [|discriminate]. destruct ap as [ap|]; [|discriminate]. destruct (negb sk && _)%bool; [discriminate|].
  destruct (Nat.eqb_spec (akns_upsampling_factor d) 0) as [|U0]; [discriminate|]. rewrite (slow_bc d Hs) in H. destruct (negb _); [discriminate|].
  assert (Ed : (D / akns_upsampling_factor d = Dg)%nat) by (rewrite HD; now apply Nat.div_mul). rewrite Ed in H.
  destruct (prepare_ok D q r ((T1 - T0) / (INR Dg - 1)) Hq Hr d Hs (mult3 d D Dg HD)) as (pr & Ep & Hp). rewrite Ep in H. cbn [bind] in H.
  destruct K as [|k]; [lia|]. inv_bind H. rename x into st. apply for_last in Hx. destruct Hx as (s1 & _ & E). rewrite Nat.add_0_l in E.
  injection H as Hc _ _ _ _. destruct (Z.eqb_spec (bs_code s1) SUCCESS) as [Es|Ns].
  - cbn [negb] in E. inv_bind E. apply aget_Ret_lt in Hx. lia.
  - cbn [negb] in E. injection E as <-. contradiction.
Qed.

(** ** The coefficients *)
(** a and b of the slow method d as functions of lambda *)
Definition ka_of d v eps q r n T (z : C) : C := nft_a_of (kdv_S d v (weights d) eps q r n z) T eps z.
Definition kb_of d v eps q r n T (z : C) : C := nft_b_of (kdv_S d v (weights d) eps q r n z) T eps z.
(** the steps are real matrices on the imaginary axis *)
Definition real_steps (d : akns_disc) (v : bool) (eps : R) (q r : nat -> C) (D : nat) : Prop :=
  forall (y : R) j, (j < D * substeps d)%nat -> real_mat (slow_step d (weights d) (RtoC eps) (if v then q else r) (if v then r else q) j (0%R, y)).
(** from some sample on, the matrix of the remaining steps, in the basis of the waves, has no zero in the first row *)
Definition kreadable (d : akns_disc) (v : bool) (eps : R) (q r : nat -> C) (D : nat) (lam : C) : Prop :=
  exists n, (n <= D)%nat /\ let M := based PDE_KdV v lam (NsevNc.tail d (weights d) eps (if v then q else r) (if v then r else q) D n lam) in a11 M <> 0 /\ a12 M <> 0.
Definition ksteps_ok d (v : bool) eps q r D (lam : C) : Prop := steps_ok d eps (if v then q else r) (if v then r else q) D lam.
Definition kdsteps_ok d (v : bool) eps q r D (lam : C) : Prop := dsteps_ok d eps (if v then q else r) (if v then r else q) D lam.

Lemma slow_degree d : is_slow d -> akns_degree d = O.
Proof. intros [->|[->|[->|[->|[->|[->| ->]]]]]]; reflexivity. Qed.
Lemma ka_of_coeff d v eps q r D T z : is_slow d -> ka_of d v eps q r (D * akns_upsampling_factor d) T z
  = a_coeff d PDE_KdV v (weights d) (RtoC eps) (if v then q else r) (if v then r else q) (D * substeps d) (fst T - eps / 2) (snd T + eps / 2) z.
Proof.
  intros Hs. unfold ka_of, nft_a_of, kdv_S, scattering, a_coeff, slow_S, based. rewrite (slow_degree d Hs), (slow_steps_sub d D Hs).
  rewrite <- Cmult_assoc, <- Cexp_plus, Cmult_comm. f_equal. f_equal. rewrite !RtoC_minus, RtoC_plus. ring.
Qed.
Lemma kb_of_coeff d v eps q r D T z : is_slow d -> kb_of d v eps q r (D * akns_upsampling_factor d) T z
  = b_coeff d PDE_KdV v (weights d) (RtoC eps) (if v then q else r) (if v then r else q) (D * substeps d) (fst T - eps / 2) (snd T + eps / 2) z.
Proof.
  intros Hs. unfold kb_of, nft_b_of, kdv_S, scattering, b_coeff, slow_S, based. rewrite (slow_degree d Hs), (slow_steps_sub d D Hs).
  rewrite <- Cmult_assoc, <- Cexp_plus, Cmult_comm. f_equal. f_equal. rewrite !RtoC_plus. ring.
Qed.

Lemma based_inverse v (lam : C) X : lam <> 0 -> mdet X = 1 -> based PDE_KdV v lam (minv X) = minv (based PDE_KdV v lam X) /\ mdet (based PDE_KdV v lam X) = 1.
Proof.
  intros Hl HX. destruct (basis_derive PDE_KdV v lam (or_intror (conj eq_refl Hl))) as (_ & _ & E). set (P := basisP PDE_KdV v lam) in *.
  assert (Dt : mdet (minv P) * mdet P = 1) by (rewrite <- mdet_mul, E; unfold mdet; cbn [a11 a12 a21 a22 mone]; ring).
  assert (E' : mmul P (minv P) = mone) by (apply minv_r; intros Z; rewrite Z, Cmult_0_r in Dt; now apply C1_nz).
  assert (DB : mdet (based PDE_KdV v lam X) = 1) by (unfold based; fold P; rewrite !mdet_mul, HX, Cmult_1_l; exact Dt).
  split; [|exact DB]. apply left_inv; [|exact DB]. unfold based. fold P.
  transitivity (mmul (minv P) (mmul (mmul (minv X) (mmul (mmul P (minv P)) X)) P)); [now rewrite !mmul_assoc|]. rewrite E', mmul_one_l, minv_l, mmul_one_l; [exact E|apply det1_nz; exact HX].
Qed.

Section KJost.
Variables (d : akns_disc) (v : bool) (eps : R) (q r : nat -> C) (D : nat) (tl tr y : R).
Let w := weights d.
Let lam : C := (0%R, y).
Hypothesis Hy : y <> 0%R.
Let N := (D * substeps d)%nat.
Hypothesis HRe : forall j, (j < N)%nat -> real_mat (slow_step d w (RtoC eps) q r j lam).
Let SS := based PDE_KdV v lam (descending N (fun i => slow_step d w (RtoC eps) q r i lam)).
Lemma lam_nz : lam <> 0.
Proof. intros E. apply Hy. now apply (f_equal snd) in E. Qed.
Lemma S_real : real_mat SS.
Proof. apply rm_based, rm_desc. exact HRe. Qed.
Lemma b_real : is_real (b_coeff d PDE_KdV v w (RtoC eps) q r N tl tr lam).
Proof. unfold b_coeff. apply ir_mult; [apply ir_exp; unfold is_real, lam; cbn; ring|]. apply S_real. Qed.
Lemma psi_col n : (n <= D)%nat -> let t := based PDE_KdV v lam (NsevNc.tail d w eps q r D n lam) in let p := exact_psi d PDE_KdV v w (RtoC eps) q r D tr lam n in
  a12 p = - a12 t * Cexp (Ci * lam * RtoC tr) /\ a22 p = a11 t * Cexp (Ci * lam * RtoC tr) /\ real_mat p.
Proof.
  intros Hn t p.
  assert (E := rising_inverse ((D - n) * substeps d) (n * substeps d) (fun i => slow_step d w (RtoC eps) q r i lam) (fun i _ => slow_step_det d w (RtoC eps) q r i lam)).
  cbv beta in E. fold (NsevNc.tail d w eps q r D n lam) in E.
  assert (Dt : mdet (NsevNc.tail d w eps q r D n lam) = 1) by (apply descending_one; intros; apply slow_step_det).
  destruct (based_inverse v lam _ lam_nz Dt) as [EB DB]. fold t in EB, DB.
  assert (Ep : p = mmul (minv t) (waves tr lam)).
  { unfold p, exact_psi, jost_psi. rewrite (left_inv _ _ E Dt), EB. reflexivity. }
  assert (Rt : real_mat t).
  { apply rm_based. apply rm_desc. intros i Hi. apply HRe. unfold N. nia. }
  assert (E1 : / (RtoC 1) = 1) by (field; exact C1_nz).
  rewrite Ep. split; [|split].
  - unfold minv. rewrite DB, E1. cbn [mmul mscal a11 a12 a21 a22 waves]. ring.
  - unfold minv. rewrite DB, E1. cbn [mmul mscal a11 a12 a21 a22 waves]. ring.
  - apply rm_mul; [now apply rm_inv|apply rm_waves].
Qed.
Lemma part_id x : is_real x -> part PDE_KdV x = x.
Proof. intros H. cbn [part]. symmetry. now apply ir_R. Qed.
Lemma kusable n : (n <= D)%nat -> a11 SS = 0 -> let t := based PDE_KdV v lam (NsevNc.tail d w eps q r D n lam) in a11 t <> 0 -> a12 t <> 0 ->
  usable PDE_KdV (exact_phi d PDE_KdV v w (RtoC eps) q r tl lam) (exact_psi d PDE_KdV v w (RtoC eps) q r D tr lam) n.
Proof.
  intros Hn Z t N1 N2. destruct (psi_col n Hn) as (E1 & E2 & Rp). set (p := exact_psi d PDE_KdV v w (RtoC eps) q r D tr lam n) in *. fold t in E1, E2.
  destruct (jost_relation d PDE_KdV v (fun i => slow_step d w (RtoC eps) q r i lam) lam tl tr D (or_intror (conj eq_refl lam_nz)) (fun i => slow_step_det _ _ _ _ _ _ _) n Hn) as (Q & F1 & F2).
  fold N in F1. fold SS in F1. set (ph := exact_phi d PDE_KdV v w (RtoC eps) q r tl lam n) in *.
  change (jost_phi d PDE_KdV v (fun i => slow_step d w (RtoC eps) q r i lam) tl lam n) with ph in F1.
  change (jost_psi d PDE_KdV v (fun i => minv (slow_step d w (RtoC eps) q r i lam)) D tr lam n) with p in F2.
  assert (DS : mdet SS = 1) by (apply based_inverse; [exact lam_nz|]; apply descending_one; intros; apply slow_step_det).
  assert (N21 : a21 SS <> 0) by (intros E; unfold mdet in DS; rewrite Z, E in DS; apply C1_nz; rewrite <- DS; ring).
  assert (X : Cexp (Ci * lam * RtoC tr) <> 0) by apply Cexp_neq0.
  assert (G0 : a12 p <> 0).
  { rewrite E1. apply Cmult_neq_0; [|exact X]. intros E. apply N2. replace (a12 t) with (- - a12 t) by ring. rewrite E. ring. }
  assert (G1 : a22 p <> 0) by (rewrite E2; now apply Cmult_neq_0).
  set (b0 := b_coeff d PDE_KdV v w (RtoC eps) q r N tl tr lam).
  assert (Nb : b0 <> 0) by (unfold b0, b_coeff; apply Cmult_neq_0; [apply Cexp_neq0|exact N21]).
  assert (R0 : a11 ph = b0 * a12 p /\ a21 ph = b0 * a22 p).
  { rewrite F1, F2. unfold b0, b_coeff. change (slow_S d PDE_KdV v w (RtoC eps) q r N lam) with SS. cbn [mmul a11 a12 a21 a22 waves]. rewrite Z.
    assert (EE : Cexp (- Ci * lam * RtoC tl) = Cexp (- Ci * lam * RtoC (tl + tr)) * Cexp (Ci * lam * RtoC tr)) by (rewrite <- Cexp_plus; f_equal; rewrite RtoC_plus; ring).
    rewrite EE, (Rplus_comm tr tl). split; ring. }
  assert (Rb : is_real b0) by exact b_real.
  destruct R0 as [R0 R1]. destruct Rp as (_ & P12 & _ & P22).
  unfold usable, BoundSpec.f0, BoundSpec.f1, g0, g1. fold p ph. rewrite R0, R1, !part_id by (try apply ir_mult; assumption).
  split; [now apply Cmult_neq_0|]. split; [now apply Cmult_neq_0|]. split; [exact G0|]. split; [exact G1|]. intros _.
  replace (b0 * a12 p / a12 p * (b0 * a22 p / a22 p)) with (b0 * b0) by (field; split; assumption).
  rewrite (proj1 (ir_R b0) Rb). rewrite <- RtoC_mult. cbn [fst RtoC]. assert (Nf : fst b0 <> 0%R) by (intros E; apply Nb; rewrite (proj1 (ir_R b0) Rb), E; reflexivity).
  exact (Rsqr_pos_lt _ Nf).
Qed.
End KJost.

Section Nc.
Variable L : lib.
Hypothesis HL : lib_ok L.
Variables (tiny : R) (below : R -> R).
Let EV := klib_env L tiny below.

Lemma kcompute_normconsts_lib s D q r T K bs nc o nc' slow d v :
  kdv_slow_discretization (k_disc o) = Some slow -> kdv_to_akns slow = Some d -> kdv_vanilla_flag slow = Some v -> is_slow d -> (2 <= D)%nat ->
  let n := (D * akns_upsampling_factor d)%nat in let eps := spacing T D in
  (n <= length q)%nat -> (n <= length r)%nat -> (1 <= K)%nat ->
  kdvv_compute_normconsts EV s n q r T K bs nc o = Ret (SUCCESS, nc') ->
  (K <= length bs)%nat /\
  ((forall k, (k < K)%nat -> nth k bs 0 <> 0 /\ ksteps_ok d v eps (nthC q) (nthC r) D (nth k bs 0)) -> real_steps d v eps (nthC q) (nthC r) D ->
   forall k, (k < K)%nat -> let l := nth k bs 0 in fst l = 0%R ->
   ka_of d v eps (nthC q) (nthC r) n T l = 0 -> kreadable d v eps (nthC q) (nthC r) D l ->
   discspec_entry (k_ds o) K k nc' (fun x => x = kb_of d v eps (nthC q) (nthC r) n T l)
     (fun x => kdsteps_ok d v eps (nthC q) (nthC r) D l ->
       exists a', Cderive (ka_of d v eps (nthC q) (nthC r) n T) l a' /\ a' <> 0 /\ x = kb_of d v eps (nthC q) (nthC r) n T l / a')).
Proof.
  intros Hsl Hd Hv Hs HD n eps Hq Hr HK H. unfold kdvv_compute_normconsts in H. unfold EV in H. cbn [klib_env ke_alloc negb ke_sbs] in H. rewrite Bool.andb_false_r in H.
  destruct (Nat.eqb _ 0); [discriminate|]. rewrite Hsl in H. unfold kdv_scatter_bound_states in H. rewrite Hd, Hv in H.
  apply bind_Ret in H. destruct H as (x & Hx & H). apply bind_Ret in Hx. destruct Hx as ([[[[code a1] ap1] b1] W1] & Hx & Hx0). injection Hx0 as <-.
  apply bind_Ret in Hx. destruct Hx as ([[[[c0 av0] apv0] bv0] W0] & HS0 & Hx). apply bind_Ret in Hx. destruct Hx as (c1 & HC & Hx). injection Hx as -> -> -> -> ->.
  assert (HS : akns_scatter_bound_states (l_junk1 L) (l_junkZ L) (l_junkZ L) n (Some (if v then q else r)) (Some (if v then r else q)) (Some T) K (Some (firstn K bs)) (Some (l_junk L 5 K)) (Some (l_junk L 6 K)) (Some (l_junk L 7 K))
     (if k_norm o then Some (l_junkZ L K) else None) d PDE_KdV v false = Ret (c0, a1, ap1, b1, W1)) by (destruct v; exact HS0). clear HS0.
  set (q1 := if v then q else r) in *. set (r1 := if v then r else q) in *.
  assert (Hq1 : (n <= length q1)%nat) by (unfold q1; now destruct v). assert (Hr1 : (n <= length r1)%nat) by (unfold r1; now destruct v).
  assert (Nq : (if v then nthC q else nthC r) = nthC q1) by (unfold q1; now destruct v). assert (Nr : (if v then nthC r else nthC q) = nthC r1) by (unfold r1; now destruct v).
  cbv beta iota zeta in H. apply bind_Ret in H. destruct H as (nc1 & Hcp & H).
  apply check_Ret in H. destruct H as [(-> & H)|(Hne & _ & _ & Hcode)]; [|exfalso; cbn [fst] in Hcode; symmetry in Hcode; now apply abs_nonzero in Hcode].
  assert (c0 = SUCCESS). { unfold chkZ in HC. destruct (Z.eqb_spec c0 SUCCESS); [assumption|]. exfalso. eapply (E_SUB_nonzero c0); [|exact HC|reflexivity]. assumption. } subst c0. clear HC.
  pose proof HS as HS2. destruct T as [T0 T1]. assert (LK : (K <= length (firstn K bs))%nat) by (eapply sbs_room_kdv; [exact Hs| |reflexivity|exact Hq1|exact Hr1|exact HK|exact HS]; lia).
  assert (LB : (K <= length bs)%nat) by (rewrite firstn_length in LK; lia). split; [exact LB|]. intros Hok Hre k Hk l Hl Z Rd.
  unfold ksteps_ok in Hok. unfold kreadable in Rd. unfold real_steps in Hre. unfold kdsteps_ok. rewrite Nq, Nr in *.
  assert (Ee : ((T1 - T0) / (INR D - 1))%R = eps). { unfold eps, spacing. cbn [fst snd]. rewrite minus_INR by lia. reflexivity. }
  assert (EB : forall i, (i < K)%nat -> nth i (firstn K bs) (RtoC 0) = nth i bs 0) by (intros i Hi; now rewrite (Mem.nth_firstn)).
  assert (BV : bvalid n D q1 r1 ((T1 - T0) / (INR D - 1)) K (firstn K bs) (l_junk L 5 K) (l_junk L 6 K) (Some (l_junk L 7 K)) (if k_norm o then Some (l_junkZ L K) else None) d PDE_KdV false).
  { split; try assumption; try reflexivity; try (rewrite (lk_junk L HL); lia).
    - destruct (k_norm o); [rewrite (lk_junkZ L HL); lia|exact I].
    - right. split; [reflexivity|]. intros i Hi. rewrite (EB i Hi). now apply Hok.
    - intros i j Hi Hj. rewrite Ee, (EB i Hi). apply (proj2 (Hok i Hi) j Hj). }
  destruct (akns_bound_states_result (l_junk1 L) (l_junkZ L) (l_junkZ L) (lk_junk1 L HL) (lk_junkZ L HL) (lk_junkZ L HL) n D q1 r1 T0 T1 K _ _ _ _ _ d PDE_KdV v false BV) as (a2 & ap2 & b2 & W2 & E & _ & Lap & Lb & LW & _ & _ & R).
  rewrite E in HS2. injection HS2 as <- <- <- <-. clear E HS.
  specialize (R k Hk). rewrite Ee, (EB k Hk) in R. fold l in R.
  assert (Nl : l <> 0) by (apply Hok; exact Hk).
  assert (Ey : l = (0%R, snd l)) by (rewrite <- Hl; now destruct l). set (y := snd l) in *.
  assert (Ny : y <> 0%R) by (intros E; apply Nl; rewrite Ey, E; reflexivity).
  assert (Pd : pde_ok PDE_KdV l) by (right; split; [reflexivity|exact Nl]).
  assert (HE : forall j, (j < D * substeps d)%nat -> step_exact d (weights d) (RtoC eps) (nthC q1) (nthC r1) j l) by (intros j Hj; apply (proj2 (Hok k Hk) j Hj)).
  assert (Zs : a11 (slow_S d PDE_KdV v (weights d) (RtoC eps) (nthC q1) (nthC r1) (D * substeps d) l) = 0).
  { unfold n in Z. rewrite ka_of_coeff in Z by exact Hs. rewrite Nq, Nr in Z. unfold a_coeff in Z. apply Cmult_zero in Z. destruct Z as [Z|Z]; [|exact Z]. now apply Cexp_neq0 in Z. }
  destruct (bound_state_exact_b _ _ _ _ _ _ _ _ _ _ _ _ _ _ _ _ _ R Pd HE eq_refl Zs) as (_ & Gb & _).
  assert (Eb : nthO b2 k = kb_of d v eps (nthC q) (nthC r) n (T0, T1) l).
  { unfold n. rewrite kb_of_coeff by exact Hs. rewrite Nq, Nr. apply Gb.
    - intros _. rewrite Ey. apply b_real. intros j Hj. now apply Hre.
    - destruct Rd as (m & Hm & N1 & N2). exists m. split; [exact Hm|]. rewrite Ey in N1, N2, Zs |- *. apply kusable; try assumption. intros j Hj. now apply Hre. }
  destruct (copy_val _ _ _ _ _ Hcp) as [C1' _]. cbn [Nat.add] in C1'.
  assert (En : nth k nc1 0 = kb_of d v eps (nthC q) (nthC r) n (T0, T1) l). { rewrite C1' by exact Hk. rewrite <- Eb. now destruct b2. }
  assert (RES : forall off (u : list C), nth (off + k) u 0 = nth k nc1 0 -> residue_loop K 0 off ap2 (if k_norm o then Some (or_nil W2) else None) u = Ret (SUCCESS, nc') ->
     dsteps_ok d eps (nthC q1) (nthC r1) D l -> exists a', Cderive (ka_of d v eps (nthC q) (nthC r) n (T0, T1)) l a' /\ a' <> 0 /\ nth (off + k) nc' 0 = kb_of d v eps (nthC q) (nthC r) n (T0, T1) l / a').
  { intros off u Eu HR Hdx. destruct (proj2 (residue_value _ _ _ _ _ _ _ HR) k ltac:(lia)) as [Np Ev].
    destruct (bound_state_exact_aprime _ _ _ _ _ _ _ _ _ _ _ _ _ _ _ _ _ R Pd HE Hdx) as (D1 & HD1 & ED1).
    assert (HI : ipart PDE_KdV D1 = D1).
    { cbn [ipart]. assert (F0 : fst D1 = 0%R).
      { apply (imag_derive (a_coeff d PDE_KdV v (weights d) (RtoC eps) (nthC q1) (nthC r1) (D * substeps d) (T0 - eps / 2) (T1 + eps / 2)) y); [|rewrite <- Ey; exact HD1].
        intros t. unfold a_coeff. apply ir_mult; [apply ir_exp; unfold is_real; cbn; ring|]. apply rm_based, rm_desc. intros i Hi. now apply Hre. }
      apply Ceq; cbn; rewrite ?F0; ring. }
    rewrite HI in ED1.
    exists D1. split; [|].
    - eapply Cderive_ext; [|exact HD1]. intros z. symmetry. unfold n. rewrite ka_of_coeff by exact Hs. now rewrite Nq, Nr.
    - assert (EW : RtoC (match (if k_norm o then Some (or_nil W2) else None) with None => 1 | Some w => powerRZ 2 (nth k w 0%Z) end) = RtoC (powerRZ 2 (WI W2 k))).
      { destruct (k_norm o); cbn [option_map] in LW; destruct W2 as [w|]; cbn [option_map] in LW; try discriminate LW; reflexivity. }
      rewrite EW in Ev. cbn [or_nil] in Ev, Np.
      assert (NW : RtoC (powerRZ 2 (WI W2 k)) <> 0) by (intros E; apply RtoC_inj in E; revert E; apply powerRZ_NOR; lra).
      split; [rewrite <- ED1; now apply Cmult_neq_0|]. rewrite Ev, Eu, En, <- ED1. field. now split. }
  unfold discspec_entry. destruct (k_ds o).
  - injection H as <-. exact En.
  - intros Hdx. exact (RES 0%nat nc1 eq_refl H Hdx).
  - apply bind_Ret in H. destruct H as (nc2 & Hc2 & H). destruct (copy_val _ _ _ _ _ Hc2) as [C2 C3]. split.
    + rewrite (proj1 (residue_value _ _ _ _ _ _ _ H) k) by (left; lia). rewrite C3 by (left; lia). exact En.
    + intros Hdx. refine (RES K nc2 _ H Hdx). now apply C2.
  - discriminate H.
Qed.
Lemma kslow_akns kd d0 : kdv_to_akns kd = Some d0 -> exists slow d v, kdv_slow_discretization kd = Some slow /\ kdv_to_akns slow = Some d /\ kdv_vanilla_flag slow = Some v
  /\ kdv_vanilla_flag kd = Some v /\ is_slow d /\ akns_upsampling_factor d = akns_upsampling_factor d0 /\ (akns_upsampling_factor d0 = 1%nat -> d = A_BO).
Proof.
  intros Hd. destruct kd; try discriminate Hd; injection Hd as <-; (eexists _, _, _; do 4 (split; [reflexivity|]); (split; [unfold is_slow; tauto|]); split; [reflexivity|]; intros U; try reflexivity; discriminate U).
Qed.
(** real samples, no resampling: every step is real on the imaginary axis *)
Lemma bo_real_steps v eps (q r : nat -> C) D : (forall i, (i < D)%nat -> is_real (q i) /\ is_real (r i)) -> real_steps A_BO v eps q r D.
Proof.
  intros H y j Hj. cbn [substeps akns_upsampling_factor] in Hj. rewrite Nat.mul_1_r in Hj. destruct (H j Hj) as [Hq Hr]. unfold slow_step. cbn [step_outer sandwich step_core]. apply rm_exp. unfold X_BO.
  apply rm_scal.
  - apply ir_mult; [|apply ir_RtoC]. change (weights A_BO) with [RtoC 1]. cbn [length]. rewrite Nat.mod_1_r. cbn [nth]. apply ir_RtoC.
  - repeat split; cbn [akns_A a11 a12 a21 a22]; try (unfold is_real; cbn; ring); destruct v; assumption.
Qed.

Lemma kbase_nc s n q r T M XI o u u' nc K bs' : fnft_kdvv_base EV s n q r T M XI o u = Ret (SUCCESS, u') ->
  u_nc u = Some nc -> u_K u' = Some K -> u_bs u' = Some bs' -> (1 <= K)%nat ->
  exists nc', u_nc u' = Some nc' /\ kdvv_compute_normconsts EV s n q r T K bs' nc o = Ret (SUCCESS, nc').
Proof.
  intros H Enc EK Ebs HK. unfold fnft_kdvv_base in H. destruct (args_bad _ _ _ _ _ _); [discriminate|]. destruct (Nat.eqb _ 0); [discriminate|].
  apply bind_Ret in H. destruct H as (eps & _ & H). apply bind_Ret in H. destruct H as (i & _ & H). unfold EV at 1 in H. cbn [klib_env ke_alloc negb] in H. rewrite Bool.andb_false_r in H.
  apply bind_Ret in H. destruct H as ([[[c deg] tm] W] & _ & H).
  apply check_Ret in H. destruct H as [(-> & H)|(Hne & _ & _ & Hcode)]; [|exfalso; cbn [fst] in Hcode; symmetry in Hcode; now apply abs_nonzero in Hcode].
  apply bind_Ret in H. destruct H as ([c u1] & Hc & H).
  assert (E1 : u_nc u1 = u_nc u). { destruct (u_cs u); [destruct (0 <? M)%nat|]; [apply bind_Ret in Hc; destruct Hc as (x & _ & Hc)| |]; injection Hc as _ <-; reflexivity. }
  apply check_Ret in H. destruct H as [(-> & H)|(Hne & _ & _ & Hcode)]; [|exfalso; cbn [fst] in Hcode; symmetry in Hcode; now apply abs_nonzero in Hcode].
  assert (Ab : match u_K u1 with Some _ => set_K u1 (Some O) | None => u1 end = u' -> False).
  { intros E. destruct (u_K u1) as [k1|] eqn:Ek1; subst u'; [cbn [set_K u_K] in EK; injection EK as <-; lia|congruence]. }
  destruct (u_bs u1) as [bs|] eqn:Eb1; [|exfalso; injection H as H; exact (Ab H)].
  apply bind_Ret in H. destruct H as (K0 & _ & H). destruct (negb (K0 =? 0)%nat); [|exfalso; injection H as H; exact (Ab H)].
  apply bind_Ret in H. destruct H as ([c [K1 bs1]] & _ & H).
  apply check_Ret in H. destruct H as [(-> & H)|(Hne & _ & _ & Hcode)]; [|exfalso; cbn [fst] in Hcode; symmetry in Hcode; now apply abs_nonzero in Hcode].
  cbn [set_K set_bs u_nc] in H. rewrite E1, Enc in H. destruct (Nat.eqb_spec K1 0) as [->|N1]; cbn [negb] in H.
  - injection H as <-. cbn [set_K u_K] in EK. injection EK as <-. lia.
  - apply bind_Ret in H. destruct H as ([c nc'] & Hn & H). cbn [fst snd] in H.
    apply check_Ret in H. destruct H as [(-> & H)|(Hne & _ & _ & Hcode)]; [|exfalso; cbn [fst] in Hcode; symmetry in Hcode; now apply abs_nonzero in Hcode].
    injection H as <-. cbn [set_nc set_K set_bs u_K u_bs u_nc] in *. injection EK as ->. injection Ebs as ->. exists nc'. split; [reflexivity|exact Hn].
Qed.

(** C99.  The discrete spectrum of fnft_kdvv.  For real samples q(t_0), ..., q(t_(D-1)) on T, with qs, rs the samples of the
   discretisation as in C91, with d the slow companion of the method and a(lam), b(lam) the coefficients of the product of its steps
   in the basis in which the KdV is scattered: whenever the call returns SUCCESS with K > 0 bound states, then for each
   returned bound state on the imaginary axis that is a zero of a, the value stored for it is the norming constant
   b(lam_k) and/or the residue b(lam_k)/a'(lam_k), in the documented layout; a' is the complex derivative of a.
   (For the methods without resampling the steps are real on the imaginary axis.) *)
Theorem kdvv_discspec_is_discrete_nft D q T M XI user dflt u nc d0 :
  let o := match user with Some o => o | None => dflt end in
  kdvv_valid D (Some q) (Some T) M XI o u -> kdvv_readable D (Some q) M XI u -> u_bs u <> None -> u_nc u = Some nc ->
  k_rich o <> 1%nat ->
  kdv_to_akns (k_disc o) = Some d0 -> ((3 <= D)%nat \/ akns_upsampling_factor d0 = 1%nat) ->
  let eps := spacing T D in
  exists p slow d v, kdv_preprocess (l_junk L) (l_junkR L) D (Some q) eps D (k_disc o) = Ret (inr p) /\
  kdv_slow_discretization (k_disc o) = Some slow /\ kdv_to_akns slow = Some d /\ kdv_vanilla_flag (k_disc o) = Some v /\ is_slow d /\
  let n := (D * akns_upsampling_factor d)%nat in let qs := nthC (po_q p) in let rs := nthC (po_r p) in
  let a := ka_of d v eps qs rs n T in let b := kb_of d v eps qs rs n T in
  (akns_upsampling_factor d0 = 1%nat -> po_q p = q /\ po_r p = repeat (- (1))%C D /\ d = A_BO /\ real_steps d v eps qs rs D) /\
  forall u' user' dflt' K bs', fnft_kdvv (klib_env L tiny below) D (Some q) (Some T) M XI user dflt u = Ret (SUCCESS, u', user', dflt') ->
  u_K u' = Some K -> u_bs u' = Some bs' -> (1 <= K)%nat ->
  exists nc', u_nc u' = Some nc' /\ (K <= length bs')%nat /\
  ((forall k, (k < K)%nat -> nth k bs' 0 <> 0 /\ ksteps_ok d v eps qs rs D (nth k bs' 0)) -> real_steps d v eps qs rs D ->
   forall k, (k < K)%nat -> let l := nth k bs' 0 in fst l = 0%R -> a l = 0 -> kreadable d v eps qs rs D l ->
   discspec_entry (k_ds o) K k nc' (fun x => x = b l)
     (fun x => kdsteps_ok d v eps qs rs D l -> exists a', Cderive a l a' /\ a' <> 0 /\ x = b l / a')).
Proof.
  intros o V R Hbs Enc Hr Hd H3 eps. pose proof (check_valid D (Some q) (Some T) M XI o u V R) as Hck.
  destruct V as [VD Vq Vre VT VX Vz VK Vg Vd]. destruct VT as (t0 & t1 & ET & HT). injection ET as ->.
  assert (Lq : length q = D) by (destruct R as [R1 _ _]; now apply R1).
  assert (He : (0 < eps)%R) by (apply spacing_pos; [exact HT|exact VD]).
  destruct (kpre_exists L HL D q eps _ d0 Hd Lq He VD H3) as (p & Ep & _ & L1 & L2 & Hpl).
  destruct (kslow_akns _ _ Hd) as (slow & d & v & Hsl & Hda & Hv & Hv0 & Hs & Hu & Hbo).
  exists p, slow, d, v. do 5 (split; [assumption|]). intros n qs rs a b. split.
  { intros U. destruct (Hpl U) as [E1 E2]. split; [exact E1|]. split; [exact E2|]. rewrite (Hbo U). split; [reflexivity|]. unfold qs, rs. rewrite E1, E2. apply bo_real_steps. intros i Hi.
    split.
    - unfold nthC. destruct (nth_error q i) as [x|] eqn:Ex.
      + rewrite (nth_error_nth _ _ _ Ex). eapply Vre; [reflexivity|exact Hi|exact Ex].
      + apply nth_error_None in Ex. lia.
    - unfold nthC. rewrite nth_indep with (d' := (- (1))%C) by (rewrite repeat_length; exact Hi). rewrite nth_repeat. unfold is_real. cbn. ring. }
  intros u' user' dflt' K bs' H EK Ebs HK.
  assert (Eu : kdv_upsampling_factor (k_disc o) = akns_upsampling_factor d) by (unfold kdv_upsampling_factor, via; now rewrite Hd, Hu).
  unfold fnft_kdvv in H. fold o in H. inv_bind H. destruct x as [code [o1 u1]]. injection H as -> -> _ _. rename Hx into HR.
  unfold kdvv_run in HR. rewrite Hck in HR. cbn [bind] in HR. change (negb (SUCCESS =? SUCCESS)%Z) with false in HR. cbv iota in HR. rewrite Eu in HR.
  destruct (Nat.eqb _ 0); [discriminate|]. cbn [deref bind fst snd] in HR. rewrite (step_spacing (t0, t1) D VD : step (t1 - t0) D = _) in HR.
  cbn [bind] in HR. fold eps in HR. destruct (Nat.eqb_spec (k_rich o) 1) as [|_]; [contradiction|]. cbn [andb bind] in HR. cbn [klib_env ke_pre] in HR. rewrite Ep in HR. cbn [bind] in HR.
  apply bind_Ret in HR. destruct HR as ([c w] & HB & HR). apply check_Ret in HR. destruct HR as [(-> & HR)|(Hne & _ & _ & Hcode)]; [|exfalso; cbn [fst] in Hcode; symmetry in Hcode; now apply abs_nonzero in Hcode].
  injection HR as <- <-. fold EV in HB. destruct (kbase_nc _ _ _ _ _ _ _ _ _ _ _ _ _ HB Enc EK Ebs HK) as (nc' & En & Hn). exists nc'. split; [exact En|].
  apply (kcompute_normconsts_lib 1 D (po_q p) (po_r p) (t0, t1) K bs' nc o nc' slow d v); try assumption; rewrite Hu; lia.
Qed.
End Nc.
