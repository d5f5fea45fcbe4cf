(** * The discrete spectrum of fnft_nsev with the models of all subroutines: norming constants and residues *)
From Coq Require Import Reals Lra.
From Coquelicot Require Import Coquelicot.
From Verif Require Import Loop CExp CField CDeriv MiscProof DiscSpec DiscTables DiscModel DiscProps DiscPreProps DiscPreNse FscatterSpec FscatterProof FscatterProps ScatterMatProps
  ScatterSpec ScatterModel ScatterRun ScatterLoop BoundModel BoundSpec BoundProps BoundExact NsevSpec NsevProps NsevSafe NsepSafe NftSpec NsevLib NsevCsTop.
Local Open Scope C_scope.

(** the entries that belong to bound state k of K in the array of the documented layout: norming constant nc, residue res *)
Definition discspec_entry (t : dstype) (K k : nat) (arr : list C) (nc res : C -> Prop) : Prop :=
  match t with
  | DS_NORMING_CONSTANTS => nc (nth k arr 0)
  | DS_RESIDUES => res (nth k arr 0)
  | DS_BOTH => nc (nth k arr 0) /\ res (nth (K + k) arr 0)
  | DS_bad => False
  end.

Lemma for_last {A} n lo (f : nat -> A -> out A) (s s' : A) : for_ (S n) lo f s = Ret s' -> exists s1, for_ n lo f s = Ret s1 /\ f (lo + n)%nat s1 = Ret s'.
Proof.
  revert lo s. induction n as [|n IH]; intros lo s H.
  - cbn in H. exists s. split; [reflexivity|]. rewrite Nat.add_0_r. destruct (f lo s) as [x|]; [exact H|discriminate].
  - cbn [for_] in H |- *. destruct (f lo s) as [x|]; [|discriminate]. cbn [bind] in H |- *. destruct (IH (S lo) x H) as (s1 & E1 & E2). exists s1. split; [exact E1|]. now rewrite <- plus_n_Sm.
Qed.
(** a successful call has read K bound states *)
Lemma sbs_room junk j1 j2 D Dg q r T K lam a ap b W d v sk a' ap' b' W' :
  is_slow d -> (1 <= Dg)%nat -> D = (Dg * akns_upsampling_factor d)%nat -> (D <= length q)%nat -> (D <= length r)%nat -> (1 <= K)%nat ->
  akns_scatter_bound_states junk j1 j2 D (Some q) (Some r) (Some T) K (Some lam) a ap b W d PDE_NSE v sk = Ret (SUCCESS, a', ap', b', W') -> (K <= length lam)%nat.
Proof.
  intros Hs HDg HD Hq Hr HK H. unfold akns_scatter_bound_states in H. destruct (Nat.eqb D 0); [discriminate|]. destruct T as [T0 T1].
  destruct (Nat.eqb K 0); [discriminate|]. destruct a as [a|]; [|discriminate]. destruct ap as [ap|]; [|discriminate]. destruct (negb sk && _)%bool; [discriminate|].
  destruct (Nat.eqb_spec (akns_upsampling_factor d) 0) as [|U0]; [discriminate|]. rewrite (slow_bc d Hs) in H. destruct (negb _); [discriminate|].
  assert (Ed : (D / akns_upsampling_factor d = Dg)%nat) by (rewrite HD; now apply Nat.div_mul). rewrite Ed in H.
  destruct (prepare_ok D q r ((T1 - T0) / (INR Dg - 1)) Hq Hr d Hs (mult3 d D Dg HD)) as (pr & Ep & Hp). rewrite Ep in H. cbn [bind] in H.
  destruct K as [|k]; [lia|]. inv_bind H. rename x into st. apply for_last in Hx. destruct Hx as (s1 & _ & E). rewrite Nat.add_0_l in E.
  injection H as Hc _ _ _ _. destruct (Z.eqb_spec (bs_code s1) SUCCESS) as [Es|Ns].
  - cbn [negb] in E. inv_bind E. apply aget_Ret_lt in Hx. lia.
  - cbn [negb] in E. injection E as <-. contradiction.
Qed.
Lemma aget_val {A} (l : list A) i (d x : A) : aget l i = Ret x -> nth i l d = x /\ (i < length l)%nat.
Proof. intros H. pose proof (aget_Ret_lt _ _ _ H) as Hl. split; [|exact Hl]. rewrite (aget_nth l d) in H by exact Hl. now injection H. Qed.
Lemma aset_val {A} (l l' : list A) i (v : A) : aset l i v = Ret l' -> l' = upd l i v /\ (i < length l)%nat.
Proof. intros H. destruct (Nat.lt_ge_cases i (length l)) as [Hl|Hl]; [|rewrite aset_UB in H by exact Hl; discriminate]. rewrite aset_upd in H by exact Hl. injection H as <-. auto. Qed.
Lemma residue_value cnt : forall i off ap Ws (nc nc' : list C), residue_loop cnt i off ap Ws nc = Ret (SUCCESS, nc') ->
  (forall j, (j < off + i \/ off + i + cnt <= j)%nat -> nth j nc' 0 = nth j nc 0) /\ forall k, (i <= k < i + cnt)%nat ->
  nth k ap 0 <> 0 /\ nth (off + k) nc' 0 = nth (off + k) nc 0 / nth k ap 0 / RtoC (match Ws with None => 1 | Some w => powerRZ 2 (nth k w 0%Z) end).
Proof.
  induction cnt as [|n IH]; intros i off ap Ws nc nc' H; cbn [residue_loop] in H; [injection H as <-; split; [auto|lia]|].
  inv_bind H. rename x into ap_i. destruct (aget_val _ _ (RtoC 0) _ Hx) as [Ea _]. destruct (ceq ap_i 0) eqn:Ec; [discriminate|]. unfold ceq in Ec; destruct (Ceq_dec ap_i 0) as [|Ne]; [discriminate|]; clear Ec; rename Ne into Ec.
  inv_bind H. rename x into xv. destruct (aget_val _ _ (RtoC 0) _ Hx0) as [Ex Lx]. inv_bind H. apply aset_val in Hx1. destruct Hx1 as [-> _].
  inv_bind H. rename x into nc2.
  assert (N2 : forall j, nth j nc2 0 = if Nat.eqb j (off + i) then xv / ap_i / RtoC (match Ws with None => 1 | Some w => powerRZ 2 (nth i w 0%Z) end) else nth j nc 0).
  { destruct Ws as [w|].
    - inv_bind Hx1. destruct (aget_val _ _ 0%Z _ Hx2) as [-> _]. inv_bind Hx1. destruct (aget_val _ _ (RtoC 0) _ Hx3) as [<- _]. apply aset_val in Hx1. destruct Hx1 as [-> _].
      intros j. rewrite nth_upd by (rewrite upd_length; exact Lx). rewrite !nth_upd by exact Lx. rewrite Nat.eqb_refl. destruct (Nat.eqb j (off + i)); reflexivity.
    - injection Hx1 as <-. intros j. rewrite nth_upd by exact Lx. destruct (Nat.eqb j (off + i)); [|reflexivity]. field. exact Ec. }
  destruct (IH _ _ _ _ _ _ H) as [I1 I2]. split.
  - intros j Hj. rewrite I1 by lia. rewrite N2. destruct (Nat.eqb_spec j (off + i)); [lia|reflexivity].
  - intros k Hk. destruct (Nat.eq_dec k i) as [->|Hki].
    + split; [rewrite Ea; exact Ec|]. rewrite I1 by lia. rewrite N2, Nat.eqb_refl, Ex, Ea. reflexivity.
    + destruct (I2 k ltac:(lia)) as [I3 ->]. split; [exact I3|]. rewrite N2. destruct (Nat.eqb_spec (off + k) (off + i)); [lia|reflexivity].
Qed.

(** the product of the steps from sample n on *)
Definition tail (d : akns_disc) (w : list C) (eps : R) (q r : nat -> C) (D n : nat) (lam : C) : mat2 :=
  descending ((D - n) * substeps d) (fun i => slow_step d w (RtoC eps) q r (n * substeps d + i) lam).
Lemma based_nse v lam M : based PDE_NSE v lam M = M.
Proof. assert (E : minv mone = mone) by (unfold minv, mdet, mone, mscal; cbn; apply mat2_eq; cbn; field; exact C1_nz). unfold based. cbn [basisP]. rewrite E, mmul_one_l, mmul_one_r. reflexivity. Qed.
Lemma descending_one n M : (forall i, (i < n)%nat -> mdet (M i) = 1) -> mdet (descending n M) = 1.
Proof. intros H. rewrite (descending_det n M 1 H). induction n as [|n IH]; [reflexivity|]. cbn [Cpown]. rewrite IH; [ring|]. intros i Hi. apply H. lia. Qed.

Lemma Cmult_zero (x y : C) : x * y = 0 -> x = 0 \/ y = 0.
Proof. intros H. destruct (Ceq_dec x 0) as [|N1]; [auto|]. destruct (Ceq_dec y 0) as [|N2]; [auto|]. now destruct (Cmult_neq_0 x y). Qed.

Section Jost.
Variables (d : akns_disc) (w : list C) (eps : R) (q r : nat -> C) (D : nat) (tl tr : R) (lam : C).
Let N := (D * substeps d)%nat.
Let S := descending N (fun i => slow_step d w (RtoC eps) q r i lam).
Lemma psi_tail n : let t := tail d w eps q r D n lam in let p := exact_psi d PDE_NSE false w (RtoC eps) q r D tr lam n in
  a12 p = - a12 t * Cexp (Ci * lam * RtoC tr) /\ a22 p = a11 t * Cexp (Ci * lam * RtoC tr).
Proof.
  intros t p. unfold p, exact_psi, jost_psi. rewrite based_nse.
  assert (E := rising_inverse ((D - n) * substeps d) (n * substeps d) (fun i => slow_step d w (RtoC eps) q r i lam) (fun i _ => slow_step_det d w (RtoC eps) q r i lam)).
  cbv beta in E. fold (tail d w eps q r D n lam) in E. fold t in E.
  assert (Dt : mdet t = 1) by (apply descending_one; intros; apply slow_step_det).
  rewrite (left_inv _ _ E Dt). unfold minv. rewrite Dt. cbn [mmul mscal a11 a12 a21 a22 waves]. split; field; exact C1_nz.
Qed.
Lemma usable_tail n : (n <= D)%nat -> a11 S = 0 -> a11 (tail d w eps q r D n lam) <> 0 -> a12 (tail d w eps q r D n lam) <> 0 ->
  usable PDE_NSE (exact_phi d PDE_NSE false w (RtoC eps) q r tl lam) (exact_psi d PDE_NSE false w (RtoC eps) q r D tr lam) n.
Proof.
  intros Hn Z N1 N2. destruct (psi_tail n) as [E1 E2]. set (p := exact_psi d PDE_NSE false w (RtoC eps) q r D tr lam n) in *.
  destruct (jost_relation d PDE_NSE false (fun i => slow_step d w (RtoC eps) q r i lam) lam tl tr D (or_introl eq_refl) (fun i => slow_step_det _ _ _ _ _ _ _) n Hn) as (Q & F1 & F2).
  fold N in F1. rewrite based_nse in F1. fold S in F1.
  assert (DS : mdet S = 1) by (apply descending_one; intros; apply slow_step_det).
  assert (N21 : a21 S <> 0) by (intros E; unfold mdet in DS; rewrite Z, E in DS; apply C1_nz; rewrite <- DS; ring).
  unfold usable, BoundSpec.f0, BoundSpec.f1, g0, g1, part. fold p.
  change (exact_phi d PDE_NSE false w (RtoC eps) q r tl lam n) with (jost_phi d PDE_NSE false (fun i => slow_step d w (RtoC eps) q r i lam) tl lam n). rewrite F1.
  change p with (jost_psi d PDE_NSE false (fun i => minv (slow_step d w (RtoC eps) q r i lam)) D tr lam n) in E1, E2 |- *. rewrite F2 in E1, E2 |- *.
  cbn [mmul a11 a12 a21 a22 waves] in E1, E2 |- *.
  assert (X : Cexp (Ci * lam * RtoC tr) <> 0) by apply Cexp_neq0. assert (Y : Cexp (- Ci * lam * RtoC tl) <> 0) by apply Cexp_neq0.
  assert (G1 : a12 Q <> 0) by (intros E; apply N2; assert (Z2 : - a12 (tail d w eps q r D n lam) * Cexp (Ci * lam * RtoC tr) = 0) by (rewrite <- E1, E; ring); apply Cmult_zero in Z2; destruct Z2 as [Z2|Z2]; [|contradiction]; replace (a12 (tail d w eps q r D n lam)) with (- - a12 (tail d w eps q r D n lam)) by ring; rewrite Z2; ring).
  assert (G2 : a22 Q <> 0) by (intros E; apply N1; assert (Z2 : a11 (tail d w eps q r D n lam) * Cexp (Ci * lam * RtoC tr) = 0) by (rewrite <- E2, E; ring); apply Cmult_zero in Z2; destruct Z2 as [Z2|Z2]; [exact Z2|contradiction]).
  rewrite Z. repeat split; try discriminate.
  - replace (a11 Q * (0 * _ + _ * 0) + _) with (a12 Q * (a21 S * Cexp (- Ci * lam * RtoC tl))) by ring. repeat apply Cmult_neq_0; assumption.
  - replace (a21 Q * (0 * _ + _ * 0) + _) with (a22 Q * (a21 S * Cexp (- Ci * lam * RtoC tl))) by ring. repeat apply Cmult_neq_0; assumption.
  - replace (a11 Q * 0 + _) with (a12 Q * Cexp (Ci * lam * RtoC tr)) by ring. now apply Cmult_neq_0.
  - replace (a21 Q * 0 + _) with (a22 Q * Cexp (Ci * lam * RtoC tr)) by ring. now apply Cmult_neq_0.
Qed.
End Jost.

Lemma copy_val n : forall off (src dst l : list C), copy n off src dst = Ret l ->
  (forall i, (i < n)%nat -> nth (off + i) l 0 = nth i src 0) /\ (forall j, (j < off \/ off + n <= j)%nat -> nth j l 0 = nth j dst 0).
Proof.
  induction n as [|n IH]; intros off src dst l H; [injection H as <-; split; [lia|auto]|].
  unfold copy in H. apply for_last in H. destruct H as (s1 & E1 & E2). rewrite Nat.add_0_l in E2. inv_bind E2. destruct (aget_val _ _ (RtoC 0) _ Hx) as [Ex _].
  apply aset_val in E2. destruct E2 as [-> Ll]. destruct (IH off src dst s1 E1) as [I1 I2]. split.
  - intros i Hi. rewrite nth_upd by exact Ll. destruct (Nat.eqb_spec (off + i) (off + n)) as [E|Ne]; [|apply I1; lia]. replace i with n by lia. now rewrite Ex.
  - intros j Hj. rewrite nth_upd by exact Ll. destruct (Nat.eqb_spec j (off + n)); [lia|]. apply I2. lia.
Qed.
Lemma base_slow nd d : nse_to_akns nd = Some d -> nd <> N_other -> exists db, nse_to_akns (base_method nd) = Some db /\ is_slow db /\ akns_upsampling_factor db = akns_upsampling_factor d.
Proof.
  intros Hd No. unfold is_slow. destruct nd; try discriminate Hd; try contradiction; injection Hd as <-; (eexists; split; [reflexivity|]; split; [|reflexivity]); tauto.
Qed.
Lemma slow_steps_sub d D : is_slow d -> slow_steps d (D * akns_upsampling_factor d) = (D * substeps d)%nat.
Proof. intros [->|[->|[->|[->|[->|[->| ->]]]]]]; cbn [slow_steps akns_upsampling_factor substeps]; try reflexivity; rewrite Nat.div_mul by lia; lia. Qed.

Section Nc.
Variable L : lib.
Hypothesis HL : lib_ok L.

(** a, as a function of lambda, and b of the slow method d over n samples *)
Definition a_of d eps q r n T (z : C) : C := nft_a_of (scattering d (weights d) eps q r n z) T eps z.
Definition b_of d eps q r n T (z : C) : C := nft_b_of (scattering d (weights d) eps q r n z) T eps z.
Lemma a_of_coeff d eps q r D T z : is_slow d -> a_of d eps q r (D * akns_upsampling_factor d) T z
  = a_coeff d PDE_NSE false (weights d) (RtoC eps) q r (D * substeps d) (fst T - eps / 2) (snd T + eps / 2) z.
Proof.
  intros Hs. unfold a_of, nft_a_of, scattering, a_coeff. assert (E : akns_degree d = O) by (destruct Hs as [->|[->|[->|[->|[->|[->| ->]]]]]]; reflexivity). rewrite E, (slow_steps_sub d D Hs).
  change (slow_S d PDE_NSE false (weights d) (RtoC eps) q r (D * substeps d) z) with (based PDE_NSE false z (descending (D * substeps d) (fun i => slow_step d (weights d) (RtoC eps) q r i z))).
  rewrite based_nse. rewrite <- Cmult_assoc, <- Cexp_plus, Cmult_comm. f_equal. f_equal. rewrite !RtoC_minus, RtoC_plus. ring.
Qed.
Lemma b_of_coeff d eps q r D T z : is_slow d -> b_of d eps q r (D * akns_upsampling_factor d) T z
  = b_coeff d PDE_NSE false (weights d) (RtoC eps) q r (D * substeps d) (fst T - eps / 2) (snd T + eps / 2) z.
Proof.
  intros Hs. unfold b_of, nft_b_of, scattering, b_coeff. assert (E : akns_degree d = O) by (destruct Hs as [->|[->|[->|[->|[->|[->| ->]]]]]]; reflexivity). rewrite E, (slow_steps_sub d D Hs).
  change (slow_S d PDE_NSE false (weights d) (RtoC eps) q r (D * substeps d) z) with (based PDE_NSE false z (descending (D * substeps d) (fun i => slow_step d (weights d) (RtoC eps) q r i z))).
  rewrite based_nse. rewrite <- Cmult_assoc, <- Cexp_plus, Cmult_comm. f_equal. f_equal. rewrite !RtoC_plus. ring.
Qed.

(** the i-th product of the tail has non-vanishing first row: the norming constant can be read off at this sample *)
Definition readable d eps q r D (lam : C) : Prop :=
  exists n, (n <= D)%nat /\ a11 (tail d (weights d) eps q r D n lam) <> 0 /\ a12 (tail d (weights d) eps q r D n lam) <> 0.
Definition steps_ok d eps q r D (lam : C) : Prop := forall j, (j < D * substeps d)%nat ->
  step_exact d (weights d) (RtoC eps) q r j lam /\ core_ok d (weights d) (RtoC eps) q r j lam.
Definition dsteps_ok d eps q r D (lam : C) : Prop := forall j, (j < D * substeps d)%nat -> dsinc_exact (step_core d (weights d) (RtoC eps) q r j lam).

Lemma compute_normconsts_lib s D q r T K bs nc o nc' d :
  nse_to_akns (base_method (discretization o)) = Some d -> is_slow d -> (2 <= D)%nat ->
  let n := (D * akns_upsampling_factor d)%nat in let eps := spacing T D in
  (n <= length q)%nat -> (n <= length r)%nat -> (1 <= K)%nat ->
  nsev_compute_normconsts (lib_env L) s n q r T K bs nc o = Ret (SUCCESS, nc') ->
  (K <= length bs)%nat /\
  ((forall k, (k < K)%nat -> steps_ok d eps (nthC q) (nthC r) D (nth k bs 0)) ->
   forall k, (k < K)%nat -> let l := nth k bs 0 in
   a_of d eps (nthC q) (nthC r) n T l = 0 -> readable d eps (nthC q) (nthC r) D l ->
   discspec_entry (discspec_type o) K k nc' (fun x => x = b_of d eps (nthC q) (nthC r) n T l)
     (fun x => dsteps_ok d eps (nthC q) (nthC r) D l ->
       exists a', Cderive (a_of d eps (nthC q) (nthC r) n T) l a' /\ a' <> 0 /\ x = b_of d eps (nthC q) (nthC r) n T l / a')).
Proof.
  intros Hd Hs HD n eps Hq Hr HK H. unfold nsev_compute_normconsts in H. cbn [lib_env e_alloc negb e_sbs] in H. rewrite Bool.andb_false_r in H.
  destruct (Nat.eqb _ 0); [discriminate|]. unfold nse_scatter_bound_states in H. rewrite Hd in H.
  apply bind_Ret in H. destruct H as (x & Hx & H). apply bind_Ret in Hx. destruct Hx as ([[[[code a1] ap1] b1] W1] & Hx & Hx0). injection Hx0 as <-.
  apply bind_Ret in Hx. destruct Hx as ([[[[c0 av0] apv0] bv0] W0] & HS & Hx). apply bind_Ret in Hx. destruct Hx as (c1 & HC & Hx). injection Hx as -> -> -> -> ->.
  cbv beta iota zeta in H. apply bind_Ret in H. destruct H as (nc1 & Hcp & H).
  apply check_Ret in H. destruct H as [(-> & H)|(Hne & _ & _ & Hcode)]; [|exfalso; cbn [fst] in Hcode; symmetry in Hcode; now apply abs_nonzero in Hcode].
  assert (c0 = SUCCESS). { unfold chkZ in HC. destruct (Z.eqb_spec c0 SUCCESS); [assumption|]. exfalso. eapply (E_SUB_nonzero c0); [|exact HC|reflexivity]. assumption. } subst c0. clear HC.
  pose proof HS as HS2. destruct T as [T0 T1]. assert (LK : (K <= length (firstn K bs))%nat) by (eapply sbs_room; [exact Hs| |reflexivity|exact Hq|exact Hr|exact HK|exact HS]; lia).
  assert (LB : (K <= length bs)%nat) by (rewrite firstn_length in LK; lia). split; [exact LB|]. intros Hok k Hk l Z Rd.
  assert (Ee : ((T1 - T0) / (INR D - 1))%R = eps). { unfold eps, spacing. cbn [fst snd]. rewrite minus_INR by lia. reflexivity. }
  assert (EB : forall i, (i < K)%nat -> nth i (firstn K bs) (RtoC 0) = nth i bs 0) by (intros i Hi; now rewrite (Mem.nth_firstn)).
  assert (BV : bvalid n D q r ((T1 - T0) / (INR D - 1)) K (firstn K bs) (l_junk L 5 K) (l_junk L 6 K) (Some (l_junk L 7 K)) (if normalization_flag o then Some (l_junkZ L K) else None) d PDE_NSE false).
  { split; try assumption; try reflexivity; try (rewrite (lk_junk L HL); lia).
    - destruct (normalization_flag o); [rewrite (lk_junkZ L HL); lia|exact I].
    - now left.
    - intros i j Hi Hj. rewrite Ee, (EB i Hi). apply (Hok i Hi j Hj). }
  destruct (akns_bound_states_result (l_junk1 L) (l_junkZ L) (l_junkZ L) (lk_junk1 L HL) (lk_junkZ L HL) (lk_junkZ L HL) n D q r T0 T1 K _ _ _ _ _ d PDE_NSE false false BV) as (a2 & ap2 & b2 & W2 & E & _ & Lap & Lb & LW & _ & _ & R).
  rewrite E in HS2. injection HS2 as <- <- <- <-. clear E HS.
  specialize (R k Hk). rewrite Ee, (EB k Hk) in R. fold l in R.
  assert (HE : forall j, (j < D * substeps d)%nat -> step_exact d (weights d) (RtoC eps) (nthC q) (nthC r) j l) by (intros j Hj; apply (Hok k Hk j Hj)).
  assert (Zs : a11 (slow_S d PDE_NSE false (weights d) (RtoC eps) (nthC q) (nthC r) (D * substeps d) l) = 0).
  { unfold n in Z. rewrite a_of_coeff in Z by exact Hs. unfold a_coeff in Z. apply Cmult_zero in Z. destruct Z as [Z|Z]; [|exact Z]. now apply Cexp_neq0 in Z. }
  destruct (bound_state_exact_b _ _ _ _ _ _ _ _ _ _ _ _ _ _ _ _ _ R (or_introl eq_refl) HE eq_refl Zs) as (_ & Gb & _).
  assert (Eb : nthO b2 k = b_of d eps (nthC q) (nthC r) n (T0, T1) l).
  { unfold n. rewrite b_of_coeff by exact Hs. apply Gb; [discriminate|]. destruct Rd as (m & Hm & N1 & N2). exists m. split; [exact Hm|]. apply usable_tail; try assumption.
    change (slow_S d PDE_NSE false (weights d) (RtoC eps) (nthC q) (nthC r) (D * substeps d) l) with (based PDE_NSE false l (descending (D * substeps d) (fun i => slow_step d (weights d) (RtoC eps) (nthC q) (nthC r) i l))) in Zs. now rewrite based_nse in Zs. }
  destruct (copy_val _ _ _ _ _ Hcp) as [C1' _]. cbn [Nat.add] in C1'.
  assert (En : nth k nc1 0 = b_of d eps (nthC q) (nthC r) n (T0, T1) l). { rewrite C1' by exact Hk. rewrite <- Eb. now destruct b2. }
  assert (RES : forall off (u : list C), nth (off + k) u 0 = nth k nc1 0 -> residue_loop K 0 off ap2 (if normalization_flag o then Some (or_nil W2) else None) u = Ret (SUCCESS, nc') ->
     dsteps_ok d eps (nthC q) (nthC r) D l -> exists a', Cderive (a_of d eps (nthC q) (nthC r) n (T0, T1)) l a' /\ a' <> 0 /\ nth (off + k) nc' 0 = b_of d eps (nthC q) (nthC r) n (T0, T1) l / a').
  { intros off u Eu HR Hdx. destruct (proj2 (residue_value _ _ _ _ _ _ _ HR) k ltac:(lia)) as [Np Ev].
    destruct (bound_state_exact_aprime _ _ _ _ _ _ _ _ _ _ _ _ _ _ _ _ _ R (or_introl eq_refl) HE Hdx) as (D1 & HD1 & ED1). cbn [ipart] in ED1.
    exists D1. split; [|].
    - eapply Cderive_ext; [|exact HD1]. intros z. symmetry. unfold n. now rewrite a_of_coeff by exact Hs.
    - assert (EW : RtoC (match (if normalization_flag o then Some (or_nil W2) else None) with None => 1 | Some w => powerRZ 2 (nth k w 0%Z) end) = RtoC (powerRZ 2 (WI W2 k))).
      { destruct (normalization_flag o); cbn [option_map] in LW; destruct W2 as [w|]; cbn [option_map] in LW; try discriminate LW; reflexivity. }
      rewrite EW in Ev. cbn [or_nil] in Ev, Np.
      assert (NW : RtoC (powerRZ 2 (WI W2 k)) <> 0) by (intros E; apply RtoC_inj in E; revert E; apply powerRZ_NOR; lra).
      split; [rewrite <- ED1; now apply Cmult_neq_0|]. rewrite Ev, Eu, En, <- ED1. field. now split. }
  unfold discspec_entry. destruct (discspec_type o).
  - injection H as <-. exact En.
  - intros Hdx. exact (RES 0%nat nc1 eq_refl H Hdx).
  - apply bind_Ret in H. destruct H as (nc2 & Hc2 & H). destruct (copy_val _ _ _ _ _ Hc2) as [C2 C3]. split.
    + rewrite (proj1 (residue_value _ _ _ _ _ _ _ H) k) by (left; lia). rewrite C3 by (left; lia). exact En.
    + intros Hdx. refine (RES K nc2 _ H Hdx). now apply C2.
  - discriminate H.
Qed.
Lemma base_nc s n q r T M XI o u u' nc K bs' : fnft_nsev_base (lib_env L) s n q r T M XI 1 o u = Ret (SUCCESS, u') ->
  u_nc u = Some nc -> u_K u' = Some K -> u_bs u' = Some bs' -> (1 <= K)%nat ->
  exists nc', u_nc u' = Some nc' /\ nsev_compute_normconsts (lib_env L) s n q r T K bs' nc o = Ret (SUCCESS, nc').
Proof.
  intros H Enc EK Ebs HK. unfold fnft_nsev_base in H. destruct (args_bad _ _ _ _ _ _); [discriminate|]. destruct (Nat.eqb _ 0); [discriminate|].
  apply bind_Ret in H. destruct H as (eps & _ & H). apply bind_Ret in H. destruct H as (i & _ & H). cbn [lib_env e_alloc negb] in H. rewrite Bool.andb_false_r in H.
  apply bind_Ret in H. destruct H as ([[[c deg] tm] W] & _ & H).
  apply check_Ret in H. destruct H as [(-> & H)|(Hne & _ & _ & Hcode)]; [|exfalso; cbn [fst] in Hcode; symmetry in Hcode; now apply abs_nonzero in Hcode].
  apply bind_Ret in H. destruct H as ([c u1] & Hc & H).
  assert (E1 : u_nc u1 = u_nc u). { destruct (u_cs u); [destruct (0 <? M)%nat|]; [apply bind_Ret in Hc; destruct Hc as (x & _ & Hc)| |]; injection Hc as _ <-; reflexivity. }
  apply check_Ret in H. destruct H as [(-> & H)|(Hne & _ & _ & Hcode)]; [|exfalso; cbn [fst] in Hcode; symmetry in Hcode; now apply abs_nonzero in Hcode].
  destruct (u_bs u1) as [bs|] eqn:Eb1; [|exfalso; injection H as <-; destruct (u_K u1); cbn [set_K u_bs] in Ebs; congruence].
  cbn [Z.eqb Pos.eqb] in H. apply bind_Ret in H. destruct H as (K0 & _ & H). apply bind_Ret in H. destruct H as ([c [K1 bs1]] & _ & H).
  apply check_Ret in H. destruct H as [(-> & H)|(Hne & _ & _ & Hcode)]; [|exfalso; cbn [fst] in Hcode; symmetry in Hcode; now apply abs_nonzero in Hcode].
  cbn [set_K set_bs u_nc] in H. rewrite E1, Enc in H. destruct (Nat.eqb_spec K1 0) as [->|N1]; cbn [negb] in H.
  - injection H as <-. cbn [set_K u_K] in EK. injection EK as <-. lia.
  - apply bind_Ret in H. destruct H as ([c nc'] & Hn & H). cbn [fst snd] in H.
    apply check_Ret in H. destruct H as [(-> & H)|(Hne & _ & _ & Hcode)]; [|exfalso; cbn [fst] in Hcode; symmetry in Hcode; now apply abs_nonzero in Hcode].
    injection H as <-. cbn [set_nc set_K set_bs u_K u_bs u_nc] in *. injection EK as ->. injection Ebs as ->. exists nc'. split; [reflexivity|exact Hn].
Qed.

(** C90.  The discrete spectrum of fnft_nsev.  For samples q(t_0), ..., q(t_(D-1)) on T, with qs, rs the samples of the
   discretisation as in C86, with d the method used for the discrete spectrum (BO for the fast methods without resampling,
   CF4_2 for 4SPLIT4A and 4SPLIT4B, else the chosen method) and with a(lam), b(lam) the coefficients of the product of its steps:
   whenever the call returns SUCCESS with K > 0 bound states, for each returned bound state that is a zero of a the value
   stored for it is the norming constant b(lam_k) and/or the residue b(lam_k)/a'(lam_k), in the documented layout; a' is the complex
   derivative of a *)
Theorem nsev_discspec_is_discrete_nft D q T M XI user dflt u nc d0 :
  let o := match user with Some o => o | None => dflt end in
  nsev_valid D (Some q) (Some T) XI 1 o u -> length q = D -> u_bs u <> None -> u_nc u = Some nc ->
  richardson_extrapolation_flag o <> 1%nat ->
  nse_to_akns (discretization o) = Some d0 -> ((3 <= D)%nat \/ akns_upsampling_factor d0 = 1%nat) ->
  let eps := spacing T D in
  exists p d, nse_preprocess (l_junk L) (l_junkR L) D (Some q) eps 1 D (discretization o) = Ret (inr p) /\
  (akns_upsampling_factor d0 = 1%nat -> po_q p = q /\ po_r p = map (nse_r_from_q 1) q) /\
  nse_to_akns (base_method (discretization o)) = Some d /\ is_slow d /\
  let n := (D * akns_upsampling_factor d)%nat in let qs := nthC (po_q p) in let rs := nthC (po_r p) in
  let a := a_of d eps qs rs n T in let b := b_of d eps qs rs n T in
  forall u' user' dflt' K bs', fnft_nsev (lib_env L) D (Some q) (Some T) M XI 1 user dflt u = Ret (SUCCESS, u', user', dflt') ->
  u_K u' = Some K -> u_bs u' = Some bs' -> (1 <= K)%nat ->
  exists nc', u_nc u' = Some nc' /\ (K <= length bs')%nat /\
  ((forall k, (k < K)%nat -> steps_ok d eps qs rs D (nth k bs' 0)) ->
   forall k, (k < K)%nat -> let l := nth k bs' 0 in a l = 0 -> readable d eps qs rs D l ->
   discspec_entry (discspec_type o) K k nc' (fun x => x = b l)
     (fun x => dsteps_ok d eps qs rs D l -> exists a', Cderive a l a' /\ a' <> 0 /\ x = b l / a')).
Proof.
  intros o V Lq Hbs Enc Hr Hd H3 eps. destruct V as [VD Vq VT VX Vk VK Vd Vl]. destruct VT as (t0 & t1 & ET & HT). injection ET as ->.
  assert (He : (0 < eps)%R) by (apply spacing_pos; [exact HT|exact VD]).
  destruct (pre_exists L HL D q eps 1 _ d0 Hd Lq He VD H3) as (p & Ep & _ & L1 & L2 & Hpl).
  assert (No : discretization o <> N_other) by (intros E; rewrite E in Hd; discriminate).
  destruct (base_slow _ _ Hd No) as (d & Hdb & Hs & Hu). exists p, d. split; [exact Ep|]. split; [exact Hpl|]. split; [exact Hdb|]. split; [exact Hs|].
  intros n qs rs a b u' user' dflt' K bs' H EK Ebs HK.
  assert (Hargs : args_bad D (Some q) (Some (t0, t1)) XI 1 u = false).
  { apply (args_bad_spec D _ _ _ 1 o u). split; [exact VD|]. split; [discriminate|]. split; [exists t0, t1; auto|]. split; [exact VX|]. auto. }
  assert (Eu : nse_upsampling_factor (discretization o) = akns_upsampling_factor d) by (unfold nse_upsampling_factor, via; now rewrite Hd, Hu).
  assert (Base : forall o' s u1, discretization o' = discretization o -> discspec_type o' = discspec_type o -> u_nc u1 = Some nc ->
    fnft_nsev_base (lib_env L) s n (po_q p) (po_r p) (t0, t1) M XI 1 o' u1 = Ret (SUCCESS, u') ->
    exists nc', u_nc u' = Some nc' /\ (K <= length bs')%nat /\
    ((forall k, (k < K)%nat -> steps_ok d eps qs rs D (nth k bs' 0)) ->
     forall k, (k < K)%nat -> let l := nth k bs' 0 in a l = 0 -> readable d eps qs rs D l ->
     discspec_entry (discspec_type o) K k nc' (fun x => x = b l)
       (fun x => dsteps_ok d eps qs rs D l -> exists a', Cderive a l a' /\ a' <> 0 /\ x = b l / a'))).
  { intros o' s u1 E1 E2 E3 HB. destruct (base_nc _ _ _ _ _ _ _ _ _ _ _ _ _ HB E3 EK Ebs HK) as (nc' & En & Hn). exists nc'. split; [exact En|].
    rewrite <- E2. apply (compute_normconsts_lib s D (po_q p) (po_r p) (t0, t1) K bs' nc o' nc' d); try assumption; try (rewrite E1; assumption); rewrite Hu; lia. }
  unfold fnft_nsev in H. fold o in H. apply bind_Ret in H. destruct H as ([code [o1 u1]] & HR & H). injection H as -> -> _ _.
  unfold nsev_run in HR. rewrite Hargs in HR. destruct (disc_class (discretization o)) as [f|]; [|discriminate]. destruct (negb f && _ && _ && _)%bool; [discriminate|].
  rewrite Eu in HR. destruct (Nat.eqb _ 0); [discriminate|]. cbn [deref bind fst snd] in HR. rewrite (step_spacing (t0, t1) D VD : step (t1 - t0) D = _) in HR.
  cbn [bind] in HR. fold eps in HR. destruct (Nat.eqb_spec (richardson_extrapolation_flag o) 1) as [|_]; [contradiction|]. cbn [andb bind] in HR. cbn [lib_env e_pre] in HR. rewrite Ep in HR. cbn [bind] in HR.
  destruct ((1 =? 1)%Z && negb (no_ptr (u_bs u)) && match bound_state_localization o with BL_SUBSAMPLE_AND_REFINE => true | _ => false end)%bool.
  - apply bind_Ret in HR. destruct HR as (Dsub & _ & HR). apply bind_Ret in HR. destruct HR as ([c|ps] & Hps & HR).
    { apply bind_Ret in HR. destruct HR as (c1 & Hc & HR). injection HR as -> _ _. exfalso. eapply (E_SUB_nonzero c); [|exact Hc|reflexivity]. eapply pre_code_nonzero; eassumption. }
    apply bind_Ret in HR. destruct HR as ([c v] & _ & HR). apply check_Ret in HR. destruct HR as [(_ & HR)|(Hne & _ & _ & Hcode)]; [|exfalso; cbn [fst] in Hcode; symmetry in Hcode; now apply abs_nonzero in Hcode].
    apply bind_Ret in HR. destruct HR as ([c2 v2] & HB & HR). apply check_Ret in HR. destruct HR as [(-> & HR)|(Hne & _ & _ & Hcode)]; [|exfalso; cbn [fst] in Hcode; symmetry in Hcode; now apply abs_nonzero in Hcode].
    cbv iota in HR. injection HR as <- <-. refine (Base (set_bsloc (set_bsloc o BL_FAST_EIGENVALUE) BL_NEWTON) 1%nat _ eq_refl eq_refl _ HB). exact Enc.
  - apply bind_Ret in HR. destruct HR as ([c v] & HB & HR). apply check_Ret in HR. destruct HR as [(-> & HR)|(Hne & _ & _ & Hcode)]; [|exfalso; cbn [fst] in Hcode; symmetry in Hcode; now apply abs_nonzero in Hcode].
    injection HR as <- <-. exact (Base o 1%nat u eq_refl eq_refl Enc HB).
Qed.
End Nc.
Print Assumptions nsev_discspec_is_discrete_nft.
