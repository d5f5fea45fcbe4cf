(** * The continuous spectrum that fnft_manakovv returns is the one of the discretised signal: the driver (C93) *)
From Coq Require Import Reals Lra.
From Coquelicot Require Import Coquelicot.
From Verif Require Import Loop Mem Fields CExp CField MiscProof DiscSpec DiscTables DiscModel DiscProps DiscPreProps DiscPreNse FscatterSpec FscatterProof
  ScatterSpec ScatterModel ScatterRun ScatterLoop ScatterMatProps PolySpec MatSpec KissProof PolyFmultProof NsevSpec NsevProps NsevSafe
  NsevEnv NftSpec NsevFast NsevLib NsevCsTop ManFscSpec ManFscModel ManFscSample ManFscProps ManScatSpec ManScatModel ManScatProof ManScatProps ManScatTop ManvSpec ManvProps ManvSafe ManvSafe2 ManvSafe3.
From Verif Require Import ManNft ManCs.
Local Open Scope C_scope.

Section Contspec.
Variable L : lib.
Hypothesis HL : lib_ok L.
Let EV := mlib_env L.

Section Call.
Variables (D M : nat) (T XI : R * R) (kappa : Z) (o : mopts) (q1 q2 : list C).
Let d := m_disc o.
Let ups := man_upsampling_factor d.
Let N := (D * ups)%nat.
Let eps := spacing T D.
Let xi i := RtoC (grid_point XI M i).
Variable S : nat -> mat3.
Let a i := mnft_a (S i) (man_edges d T eps) (xi i).
Let b1 i := mnft_b1 (S i) (man_edges d T eps) (xi i).
Let b2 i := mnft_b2 (S i) (man_edges d T eps) (xi i).
Hypothesis Hd : implemented d.
Hypothesis Hk : (kappa = 1 \/ kappa = -1)%Z.
Hypothesis HD : (2 <= D)%nat.
Hypothesis HM : (2 <= M)%nat.
Hypothesis HT : (fst T < snd T)%R.
Hypothesis Lq1 : length q1 = N.
Hypothesis Lq2 : length q2 = N.
Hypothesis Hx : forall i, (i < M)%nat -> man_scat_exact d kappa eps (nthC q1) (nthC q2) N (xi i).
Hypothesis HS : forall i, (i < M)%nat -> man_scattering d kappa eps (nthC q1) (nthC q2) N (xi i) (S i).

Lemma mups_ok : ups <> O.
Proof. unfold ups. destruct Hd as [H1 H2]. destruct d; try congruence; discriminate. Qed.
Lemma mN_ge : (2 <= N)%nat.
Proof. pose proof mups_ok. unfold N. nia. Qed.
Lemma mN_div : (N / ups = D)%nat.
Proof. unfold N. apply Nat.div_mul, mups_ok. Qed.

Lemma mcompute_contspec_lib s deg W tm result : mtransfer_ok d kappa eps q1 q2 N deg W tm -> (mcs_values (m_cs o) * M <= length result)%nat ->
  m_cs o <> CS_bad ->
  exists c res, manakovv_compute_contspec EV s deg W tm q1 q2 T N (Some XI) M result kappa o = Ret (c, res)
    /\ ok_code c
    /\ (c = SUCCESS -> mspectrum_is (m_cs o) M a b1 b2 res /\ kept (mcs_values (m_cs o) * M) result res)
    /\ ((m_cs o = CS_AB \/ forall i, (i < M)%nat -> a i <> 0) -> c = SUCCESS).
Proof.
  intros Htm Lres Hc. unfold manakovv_compute_contspec. fold d ups.
  destruct (Nat.eqb_spec ups 0) as [E0|_]; [now destruct (mups_ok E0)|]. rewrite mN_div.
  rewrite (step_spacing T D HD). cbn [bind deref]. rewrite (step_spacing XI M HM). cbn [bind]. change (me_alloc EV s 0) with true. change (me_alloc EV s 1) with true. cbn [negb]. fold eps.
  set (xl := map (fun i => RtoC (fst XI + spacing XI M * INR i)) (seq 0 M)).
  assert (Lx : length xl = M) by (unfold xl; rewrite map_length; apply seq_length).
  assert (Nx : forall i, (i < M)%nat -> nth i xl (RtoC 0) = xi i).
  { intros i Hi. unfold xl. rewrite nth_indep with (d' := (fun i => RtoC (fst XI + spacing XI M * INR i)) 0%nat) by (rewrite map_length, seq_length; exact Hi).
    rewrite (map_nth (fun i => RtoC (fst XI + spacing XI M * INR i))). now rewrite seq_nth by exact Hi. }
  destruct (mcontspec_values_lib L HL s deg W tm q1 q2 eps (spacing XI M) N M (fst XI) xl kappa o d S eq_refl Hd Hk mN_ge Lq1 Lq2 (spacing_pos T D HT HD) HM eq_refl Hx HS Htm)
    as (H11 & H21 & H31 & Ev & L1 & L2 & L3 & Hv). fold EV in Ev. rewrite Ev.
  cbn [bind]. change (negb (SUCCESS =? SUCCESS)%Z) with false. cbv iota.
  destruct (mphases_ok d eps T D Hd) as (pa & pb & Pa & Pb & Pr & Hph). rewrite Pa, Pb, Pr. cbn [phase bind fst snd]. unfold check. change (SUCCESS =? SUCCESS)%Z with true. cbv iota.
  set (w := RtoC (powerRZ 2 W)). assert (Nw : w <> 0) by (unfold w; intros E; apply RtoC_inj in E; revert E; apply powerRZ_NOR; lra).
  assert (V : forall i, (i < M)%nat -> nth i H11 0 * w * Cexp (Ci * nth i xl 0 * RtoC pa) = a i /\ nth i H21 0 * w * Cexp (Ci * nth i xl 0 * RtoC pb) = b1 i /\
     nth i H31 0 * w * Cexp (Ci * nth i xl 0 * RtoC pb) = b2 i).
  { intros i Hi. rewrite Nx by exact Hi. destruct (Hv i Hi) as (Q1 & Q2 & Q3). cbv zeta in Q1, Q2, Q3. fold (grid_point XI M i) in Q1, Q2, Q3. fold (xi i) in Q1, Q2, Q3. fold w in Q1, Q2, Q3. rewrite Q1, Q2, Q3.
    exact (Hph (xi i) (S i)). }
  assert (Z1 : forall i, (i < M)%nat -> (nth i H11 0 = 0 <-> a i = 0)).
  { intros i Hi. destruct (V i Hi) as [<- _]. split; [intros ->; ring|]. intros E.
    destruct (Ceq_dec (nth i H11 0) 0) as [|Nh]; [assumption|]. exfalso. revert E. apply Cmult_neq_0; [now apply Cmult_neq_0|apply Cexp_neq0]. }
  assert (Vr : forall (x y : C) i, (i < M)%nat -> nth i H11 0 <> 0 -> x * w * Cexp (Ci * nth i xl 0 * RtoC pb) = y -> x * Cexp (Ci * nth i xl 0 * RtoC (pb - pa)) / nth i H11 0 = y / a i).
  { intros x y i Hi Nh <-. destruct (V i Hi) as [<- _]. set (t := Ci * nth i xl 0).
    assert (E : Cexp (t * RtoC pb) = Cexp (t * RtoC (pb - pa)) * Cexp (t * RtoC pa)).
    { rewrite <- Cexp_plus. f_equal. rewrite RtoC_minus. ring. }
    rewrite E. field. repeat split; try apply Cexp_neq0; assumption. }
  assert (Hab : forall off l, (off + 3 * M <= length l)%nat -> exists res, mab_loop M off H11 H21 H31 xl (powerRZ 2 W) pa pb l = Ret res /\ kept (off + 3 * M) l res
     /\ (forall j, (j < off)%nat -> nth j res 0 = nth j l 0) /\ forall i, (i < M)%nat -> nth (off + i) res 0 = a i /\ nth (off + M + i) res 0 = b1 i /\ nth (off + 2 * M + i) res 0 = b2 i).
  { intros off l Hl. destruct (mab_loop_spec H11 H21 H31 xl (powerRZ 2 W) pa pb M off l L1 L2 L3 Lx Hl) as (res & E & K & O & V0).
    exists res. split; [exact E|]. split; [exact K|]. split; [exact O|]. intros i Hi. destruct (V0 i Hi) as (-> & -> & ->). exact (V i Hi). }
  assert (Hrho : forall l, (2 * M <= length l)%nat -> exists c res, mrho_loop M 0 M H11 H21 H31 xl (pb - pa) l = Ret (c, res) /\ ok_code c /\ kept (2 * M) l res /\
     (c = SUCCESS -> forall i, (i < M)%nat -> a i <> 0 /\ nth i res 0 = b1 i / a i /\ nth (M + i) res 0 = b2 i / a i) /\
     ((forall i, (i < M)%nat -> a i <> 0) -> c = SUCCESS)).
  { intros l Hl. destruct (mrho_loop_spec H11 H21 H31 xl (pb - pa) M L1 L2 L3 Lx M 0%nat l eq_refl Hl) as (c & res & E & Hok & K & _ & V0).
    exists c, res. split; [exact E|]. split; [exact Hok|]. split; [exact K|]. split.
    - intros Hsu i Hi. destruct (V0 Hsu i ltac:(lia)) as (Nh & -> & ->). destruct (V i Hi) as (_ & E1 & E2).
      split; [intros E0; apply Nh, (Z1 i Hi), E0|]. split; now apply Vr.
    - intros Ha. clear - E Ha Z1 L1 L2 L3 Lx Hl. 
      assert (G : forall cnt i l c res, (i + cnt = M)%nat -> (2 * M <= length l)%nat -> mrho_loop cnt i M H11 H21 H31 xl (pb - pa) l = Ret (c, res) -> c = SUCCESS).
      { induction cnt as [|k IH]; intros i l0 c0 res0 Hi Hl0 E0; cbn [mrho_loop] in E0; [now injection E0 as <- _|].
        rewrite (aget_nth H11 (RtoC 0) i) in E0 by lia. cbn [bind] in E0.
        assert (Ec : ceq (nth i H11 (RtoC 0)) 0 = false).
        { unfold ceq. destruct (Ceq_dec _ _) as [Ez|]; [|reflexivity]. exfalso. apply (Ha i ltac:(lia)), (Z1 i ltac:(lia)). exact Ez. }
        rewrite Ec in E0. rewrite (aget_nth xl (RtoC 0) i), (aget_nth H21 (RtoC 0) i) in E0 by lia. cbn [bind] in E0.
        rewrite aset_upd in E0 by lia. cbn [bind] in E0. rewrite (aget_nth H31 (RtoC 0) i) in E0 by lia. cbn [bind] in E0. rewrite aset_upd in E0 by (rewrite upd_length; lia). cbn [bind] in E0.
        eapply IH; [| |exact E0]; [lia|rewrite !upd_length; lia]. }
      eapply G; [| |exact E]; [reflexivity|exact Hl]. }
  destruct (m_cs o); cbn [mcs_values] in Lres |- *; try congruence.
  - destruct (Hrho result ltac:(lia)) as (c & res & -> & Hok & K & V1 & V2). exists c, res. split; [reflexivity|]. split; [exact Hok|]. split.
    + intros Hsu. split; [exact (V1 Hsu)|exact K].
    + intros [E|Ha]; [discriminate|exact (V2 Ha)].
  - destruct (Hab 0%nat result ltac:(lia)) as (res & -> & K & _ & V0). cbn [bind]. exists SUCCESS, res. split; [reflexivity|]. split; [codes|]. split; [|reflexivity].
    intros _. split; [exact V0|exact K].
  - destruct (Hrho result ltac:(lia)) as (c & res & -> & Hok & K & V1 & V2). cbn [bind]. destruct (Z.eqb_spec c SUCCESS) as [->|Nc]; cbn [negb].
    + destruct (Hab (2 * M)%nat res ltac:(rewrite (kept_length _ _ _ K); lia)) as (res2 & -> & K2 & O2 & V3). cbn [bind].
      exists SUCCESS, res2. split; [reflexivity|]. split; [codes|]. split; [|reflexivity]. intros _. split.
      * split; [|exact V3]. intros i Hi. destruct (V1 eq_refl i Hi) as (Na & E1 & E2). rewrite (O2 i ltac:(lia)), (O2 (M + i)%nat ltac:(lia)). auto.
      * split; [rewrite (kept_length _ _ _ K2); apply K|]. intros i Hi. destruct K as [_ K], K2 as [_ K2]. rewrite K2 by lia. apply K. lia.
    + eexists _, _. split; [reflexivity|]. split; [exact Hok|]. split; [congruence|]. intros [E|Ha]; [discriminate|]. now rewrite (V2 Ha) in Nc.
Qed.

(** fnft_manakovv_base up to the call of manakovv_compute_contspec *)
Hypothesis HN31 : (Z.of_nat N <= 2147483647)%Z.
Lemma mbase_transfer s : exists i, man_fscatter_numel N d = Ret i /\ exists deg tm W,
  (if negb (Nat.eqb i 0)
        then x <- me_fscatter EV s N q1 q2 kappa eps (me_junk EV 8 i) (m_norm o) (m_disc o) ;;
             let '(code, deg, tm, W) := x in
             Ret (code, deg, Some tm, if m_norm o then W else 0%Z)
        else Ret (SUCCESS, O, None, 0%Z)) = Ret (SUCCESS, deg, tm, W) /\ mtransfer_ok d kappa eps q1 q2 N deg W tm.
Proof.
  destruct (man_fast_slow d Hd) as [(us & Hus & Hdeg)|(Hs & Hdeg & _)].
  - unfold man_fscatter_numel at 1. destruct (Nat.eqb_spec (man_degree d) 0) as [|_]; [contradiction|].
    destruct (poly_fmult_numel_value 9 (man_degree d) N ltac:(pose proof mN_ge; lia) ltac:(lia)) as (k & Ek & Hk2 & _).
    set (numel := (9 * (man_degree d + 1) * 2 ^ k)%nat) in *. exists numel. split; [exact Ek|].
    destruct (Nat.eqb_spec numel 0) as [E0|_]; [pose proof (Nat.pow_nonzero 2 k); unfold numel in E0; nia|]. cbn [negb]. unfold EV. cbn [mlib_env me_fscatter me_junk].
    destruct (mfscatter_entries L HL (m_norm o) N q1 q2 (l_junk L 8 numel) kappa eps d us numel Hus mN_ge HN31 (spacing_pos T D HT HD) Hk) as (tm & W & E & HW & Ht); try lia.
    { unfold man_fscatter_numel. destruct (Nat.eqb_spec (man_degree d) 0); [contradiction|exact Ek]. }
    { rewrite (lk_junk L HL). lia. }
    { pose proof (Hx 0%nat ltac:(lia)) as Hx0. unfold man_scat_exact in Hx0. rewrite Hus in Hx0. exact Hx0. }
    fold d. rewrite E. cbn [bind or_nil]. eexists _, _, _. split; [reflexivity|]. destruct (m_norm o); [exact Ht|]. rewrite (HW eq_refl) in Ht. exact Ht.
  - unfold man_fscatter_numel. rewrite Hdeg. cbn [Nat.eqb]. exists O. split; [reflexivity|]. cbn [Nat.eqb negb]. eexists _, _, _. split; [reflexivity|]. left. auto.
Qed.

Lemma mbase_contspec s u cs : u_cs u = Some cs -> (fst XI < snd XI)%R -> (mcs_values (m_cs o) * M <= length cs)%nat -> m_cs o <> CS_bad -> u_bs u = None ->
  (forall c u', fnft_manakovv_base EV s N q1 q2 T M (Some XI) kappa o u = Ret (c, u') -> c = SUCCESS ->
     exists cs', u_cs u' = Some cs' /\ mspectrum_is (m_cs o) M a b1 b2 cs' /\ kept (mcs_values (m_cs o) * M) cs cs') /\
  ((m_cs o = CS_AB \/ forall i, (i < M)%nat -> a i <> 0) -> exists u', fnft_manakovv_base EV s N q1 q2 T M (Some XI) kappa o u = Ret (SUCCESS, u')).
Proof.
  intros Ecs HXI Lcs Hc Ebs.
  destruct (mbase_transfer s) as (i & Ei & deg & tm & W & Et & Htm).
  destruct (mcompute_contspec_lib s deg W tm cs Htm Lcs Hc) as (c & res & Er & Hok & Hs1 & Hs2).
  unfold fnft_manakovv_base. fold d ups.
  replace (args_bad N (Some q1) (Some T) (Some XI) kappa u) with false.
  2: { symmetry. apply (args_bad_spec N (Some q1) (Some T) (Some XI) kappa plain u). split; [exact mN_ge|]. split; [discriminate|]. split; [exists (fst T), (snd T); destruct T; auto|].
    split; [intros _; exists (fst XI), (snd XI); destruct XI; auto|]. split; [exact Hk|]. split; [intros H; now rewrite Ebs in H|reflexivity]. }
  destruct (Nat.eqb_spec ups 0) as [E0|_]; [now destruct (mups_ok E0)|]. rewrite mN_div, (step_spacing T D HD). cbn [bind]. fold eps.
  rewrite Ei. cbn [bind]. change (me_alloc EV s 8) with true. cbn [negb]. rewrite Bool.andb_false_r. fold d in Et. rewrite Et. cbn [bind]. unfold check at 1. change (SUCCESS =? SUCCESS)%Z with true. cbv iota.
  rewrite Ecs. destruct (Nat.ltb_spec 0 M) as [_|]; [|lia]. rewrite Er. cbn [bind fst snd]. cbn [set_cs u_bs]. rewrite Ebs.
  split.
  - intros c' u' H Hsucc. subst c'. apply check_Ret in H. destruct H as [(-> & H)|(Hne & _ & _ & Hcode)].
    2: { exfalso. cbn [fst] in Hcode. symmetry in Hcode. now apply abs_nonzero in Hcode. }
    destruct (Hs1 eq_refl) as (Hsp & Hkp). injection H as <-. exists res. auto.
  - intros Hz. rewrite (Hs2 Hz). unfold check. change (SUCCESS =? SUCCESS)%Z with true. cbv iota. eexists. reflexivity.
Qed.
(** the run without continuous spectrum succeeds if no bound states are computed, and leaves the other outputs *)
Lemma mbase_empty s u : u_cs u = None -> (u_bs u = None \/ (kappa <> 1%Z /\ u_K u <> None)) ->
  fnft_manakovv_base EV s N q1 q2 T M (Some XI) kappa o u = Ret (SUCCESS, u).
Proof.
  intros Ecs Hb. destruct (mbase_transfer s) as (i & Ei & deg & tm & W & Et & Htm).
  unfold fnft_manakovv_base. fold d ups.
  replace (args_bad N (Some q1) (Some T) (Some XI) kappa u) with false.
  2: { symmetry. apply (args_bad_spec N (Some q1) (Some T) (Some XI) kappa plain u). split; [exact mN_ge|]. split; [discriminate|]. split; [exists (fst T), (snd T); destruct T; auto|].
    split; [intros H; now rewrite Ecs in H|]. split; [exact Hk|]. split; [intros H; destruct Hb as [E|[_ E]]; [now rewrite E in H|exact E]|reflexivity]. }
  destruct (Nat.eqb_spec ups 0) as [E0|_]; [now destruct (mups_ok E0)|]. rewrite mN_div, (step_spacing T D HD). cbn [bind]. fold eps.
  rewrite Ei. cbn [bind]. change (me_alloc EV s 8) with true. cbn [negb]. rewrite Bool.andb_false_r. fold d in Et. rewrite Et. cbn [bind]. unfold check at 1. change (SUCCESS =? SUCCESS)%Z with true. cbv iota.
  rewrite Ecs. cbn [bind]. unfold check. change (SUCCESS =? SUCCESS)%Z with true. cbv iota. destruct Hb as [->|[Hk1 _]]; [reflexivity|].
  destruct (Z.eqb_spec kappa 1) as [|_]; [contradiction|]. now destruct (u_bs u).
Qed.
End Call.

Lemma mpre_exists D q1 q2 (eps : R) d : implemented d -> length q1 = D -> length q2 = D -> (0 < eps)%R -> (2 <= D)%nat -> ((3 <= D)%nat \/ man_upsampling_factor d = 1%nat) ->
  exists p, man_preprocess (l_junk L) (l_junkR L) D (Some q1) (Some q2) eps D d = Ret (inr p) /\ po_Dsub p = D /\
    length (po_q p) = (D * man_upsampling_factor d)%nat /\ length (po_r p) = (D * man_upsampling_factor d)%nat /\
    (man_upsampling_factor d = 1%nat -> po_q p = q1 /\ po_r p = q2).
Proof.
  intros Hd L1 L2 He HD H3.
  assert (U : man_upsampling_factor d = 1%nat \/ man_upsampling_factor d = 2%nat) by (destruct Hd as [N1 N2]; destruct d; try congruence; auto).
  destruct U as [U|U].
  - destruct (man_preprocess_plain (l_junk L) (l_junkR L) (lk_junk L HL) (lk_junkR L HL) D D q1 q2 eps L1 L2 He HD d U) as (ns & p & E & G & Lp & Lr & Hn).
    exists p. split; [exact E|]. destruct G as (_ & _ & _ & _ & _ & G). destruct (G eq_refl) as [-> Ep]. rewrite Ep in *. split; [reflexivity|]. split; [lia|]. split; [lia|]. intros _.
    split; (apply nth_ext with (d := RtoC 0) (d' := RtoC 0); [lia|]); intros k Hk0; destruct (Hn k ltac:(lia)) as [E1 E2]; rewrite Nat.mul_1_r in E1, E2; assumption.
  - destruct (man_preprocess_two_stage (l_junk L) (l_junkR L) (lk_junk L HL) (lk_junkR L HL) D D q1 q2 eps L1 L2 He HD d U) as (ns & p & s1 & s2 & x1 & x2 & y1 & y2 & E & G & Lp & Lr & _).
    { intros nskip Dsub E. rewrite sizes_full in E by exact HD. injection E as <- <-. lia. }
    exists p. split; [exact E|]. destruct G as (_ & _ & _ & _ & _ & G). destruct (G eq_refl) as [_ Ep]. rewrite Ep in *. split; [reflexivity|]. rewrite U. split; [lia|]. split; [lia|]. lia.
Qed.

(** ** C93 *)
Theorem manakovv_contspec_is_discrete_nft D q1 q2 T M XI kappa user dflt u cs :
  let o := match user with Some o => o | None => dflt end in
  manv_valid D (Some q1) (Some q2) (Some T) (Some XI) kappa o u -> length q1 = D -> length q2 = D -> (2 <= M)%nat ->
  u_cs u = Some cs -> (mcs_values (m_cs o) * M <= length cs)%nat -> m_cs o <> CS_bad ->
  m_rich o <> 1%nat -> m_disc o <> M_FTES4_4B ->
  ((3 <= D)%nat \/ man_upsampling_factor (m_disc o) = 1%nat) -> (Z.of_nat (D * man_upsampling_factor (m_disc o)) <= 2147483647)%Z ->
  let d := m_disc o in let eps := spacing T D in let n := (D * man_upsampling_factor d)%nat in
  let xi i := RtoC (grid_point XI M i) in
  exists p, man_preprocess (l_junk L) (l_junkR L) D (Some q1) (Some q2) eps D d = Ret (inr p) /\
  (man_upsampling_factor d = 1%nat -> po_q p = q1 /\ po_r p = q2) /\
  ((forall i, (i < M)%nat -> man_scat_exact d kappa eps (nthC (po_q p)) (nthC (po_r p)) n (xi i)) ->
   exists S : nat -> mat3,
   (forall i, (i < M)%nat -> man_scattering d kappa eps (nthC (po_q p)) (nthC (po_r p)) n (xi i) (S i) /\
      forall S', man_scattering d kappa eps (nthC (po_q p)) (nthC (po_r p)) n (xi i) S' -> S' = S i) /\
   let e := man_edges d T eps in
   let a i := mnft_a (S i) e (xi i) in let b1 i := mnft_b1 (S i) e (xi i) in let b2 i := mnft_b2 (S i) e (xi i) in
   (forall u' user' dflt', fnft_manakovv (mlib_env L) D (Some q1) (Some q2) (Some T) M (Some XI) kappa user dflt u = Ret (SUCCESS, u', user', dflt') ->
     exists cs', u_cs u' = Some cs' /\ mspectrum_is (m_cs o) M a b1 b2 cs' /\ kept (mcs_values (m_cs o) * M) cs cs') /\
   ((u_bs u = None \/ kappa = (-1)%Z) -> (m_cs o = CS_AB \/ forall i, (i < M)%nat -> a i <> 0) ->
     exists u' user' dflt', fnft_manakovv (mlib_env L) D (Some q1) (Some q2) (Some T) M (Some XI) kappa user dflt u = Ret (SUCCESS, u', user', dflt'))).
Proof.
  intros o V L1 L2 HM Ecs Lcs Hct Hr Hb H3 H31 d eps n xi. fold d in H3, H31.
  destruct V as [VD Vq1 Vq2 VT VX Vk VK Vd Vl]. destruct VT as (t0 & t1 & ET & HT). injection ET as ->.
  destruct (VX ltac:(congruence)) as (y0 & y1 & EX & HX). injection EX as ->.
  assert (He : (0 < eps)%R) by (apply spacing_pos; [exact HT|exact VD]).
  assert (Hi : implemented d) by (split; assumption).
  destruct (mpre_exists D q1 q2 eps d Hi L1 L2 He VD H3) as (p & Ep & ED & Lp & Lr & Hpl).
  exists p. split; [exact Ep|]. split; [exact Hpl|]. intros Hx.
  destruct (ScatterLoop.finite_choice m3one (fun i S => man_scattering d kappa eps (nthC (po_q p)) (nthC (po_r p)) n (xi i) S /\
      forall S', man_scattering d kappa eps (nthC (po_q p)) (nthC (po_r p)) n (xi i) S' -> S' = S) M) as (S & HS).
  { intros i HiM. apply man_scattering_exists. now apply Hx. }
  exists S. split; [exact HS|]. intros e a b1 b2.
  assert (Nu : man_upsampling_factor d <> O) by (destruct Hi as [N1 N2]; destruct d; try congruence; discriminate).
  pose proof (fun i Hi => proj1 (HS i Hi)) as HS1.
  pose proof (mbase_contspec D M (t0, t1) (y0, y1) kappa o (po_q p) (po_r p) S Hi Vk VD HM HT Lp Lr Hx HS1 H31) as B.
  pose proof (mbase_empty D M (t0, t1) (y0, y1) kappa o (po_q p) (po_r p) S Hi Vk VD HM HT Lp Lr Hx HS1 H31) as B0.
  fold d in B, B0. fold n eps in B, B0. fold EV.
  assert (Hcl : exists fast, man_class (m_disc o) = Some fast /\ (negb fast && negb (is_mnewton (m_loc o)) && Z.eqb kappa 1 && negb (no_ptr (u_bs u))) = false).
  { fold d. destruct (man_class d) as [f|] eqn:Ef.
    - exists f. split; [reflexivity|]. destruct f; [reflexivity|]. cbn [negb andb]. destruct (is_mnewton (m_loc o)) eqn:El; [reflexivity|]. cbn [negb andb].
      destruct (Z.eqb_spec kappa 1) as [K1|]; [|reflexivity]. cbn [andb]. destruct (u_bs u) eqn:Eb; [|reflexivity]. exfalso.
      rewrite Vl in El; [discriminate|  |exact K1|discriminate]. unfold man_slow. fold d. destruct d; try discriminate Ef; reflexivity.
    - exfalso. destruct Hi as [N1 N2]. destruct d; try congruence; discriminate Ef. }
  destruct Hcl as (fast & Ef & Ecl).
  assert (Ea : args_bad D (Some q1) (Some (t0, t1)) (Some (y0, y1)) kappa u = false).
  { apply (args_bad_spec D (Some q1) (Some (t0, t1)) (Some (y0, y1)) kappa plain u). split; [exact VD|]. split; [discriminate|]. split; [exists t0, t1; auto|].
    split; [intros _; exists y0, y1; auto|]. split; [exact Vk|]. split; [exact VK|reflexivity]. }
  set (run2 := fun u : outs =>
      (let want_bs := Z.eqb kappa 1 && negb (no_ptr (u_bs u)) in
      x <- (if want_bs then
              Dsub <- sub_size D (m_Dsub o) ;;
              ps <- me_pre EV 1 D q1 q2 eps Dsub (m_disc o) ;;
              match ps with
              | inl c => c <- E_SUBROUTINE c ;; Ret (c, u)
              | inr ps =>
                  x <- fnft_manakovv_base EV 2 (po_Dsub ps * man_upsampling_factor d) (po_q ps) (po_r ps) (t0, t1) M (Some (y0, y1)) kappa o (set_cs u None) ;;
                  let '(code, v) := x in
                  let u := set_cs v (u_cs u) in
                  check code u (Ret (SUCCESS, u))
              end
            else Ret (SUCCESS, u)) ;;
      let '(code, u) := x in
      if negb (Z.eqb code SUCCESS) then Ret (code, (o, u)) else Ret (SUCCESS, (o, u))) : out (Z * (mopts * outs))).
  assert (Run : manakovv_run EV D (Some q1) (Some q2) (Some (t0, t1)) M (Some (y0, y1)) kappa o u =
     (x <- (x <- fnft_manakovv_base EV 0 n (po_q p) (po_r p) (t0, t1) M (Some (y0, y1)) kappa o (set_cs u None) ;;
               let '(code, v) := x in
               let u := set_cs v (Some cs) in
               check code u (
               x <- fnft_manakovv_base EV 1 n (po_q p) (po_r p) (t0, t1) M (Some (y0, y1)) kappa o (set_bs u None) ;;
               let '(code, v) := x in
               let u := set_bs v (u_bs u) in
               check code u (Ret (SUCCESS, u)))) ;;
      let '(code, u) := x in
      if negb (Z.eqb code SUCCESS) then Ret (code, (o, u)) else run2 u)).
  { unfold manakovv_run. rewrite Ea. cbn [orb no_ptr]. rewrite Ef, Ecl. fold d. destruct (Nat.eqb_spec (man_upsampling_factor d) 0); [contradiction|].
    cbn [deref bind fst snd]. rewrite (step_spacing (t0, t1) D VD : step (t1 - t0) D = _). cbn [bind]. fold eps.
    destruct (Nat.eqb_spec (m_rich o) 1) as [|_]; [contradiction|]. cbn [andb bind]. cbv zeta. fold d. change (me_pre EV 0 D q1 q2 eps D d) with (man_preprocess (l_junk L) (l_junkR L) D (Some q1) (Some q2) eps D d). rewrite Ep. cbn [bind]. rewrite Ecs. fold n. reflexivity. }
  assert (Run2 : forall w c r, run2 w = Ret (c, r) -> c = SUCCESS -> u_cs (snd r) = u_cs w).
  { intros w c r H Hsu. unfold run2 in H. cbv zeta in H. destruct (Z.eqb kappa 1 && negb (no_ptr (u_bs w))).
    2: { cbn [bind] in H. injection H as _ <-. reflexivity. }
    inv_bind H. destruct x as [c1 w1]. destruct (Z.eqb_spec c1 SUCCESS) as [->|Nc]; cbn [negb] in H; [|injection H as -> _; congruence].
    injection H as _ <-. cbn [snd]. match goal with HH : (_ <- sub_size _ _ ;; _) = _ |- _ => rename HH into H1 end.
    inv_bind H1. inv_bind H1. destruct x0 as [cc|ps]; [inv_bind H1; injection H1 as -> ->; reflexivity|].
    inv_bind H1. destruct x0 as [c2 v]. apply check_Ret in H1. destruct H1 as [(_ & H1)|(_ & H1 & _)]; [injection H1 as <-; reflexivity|cbn in H1; subst; reflexivity]. }
  split.
  - intros u' user' dflt' H. unfold fnft_manakovv in H. fold o in H. inv_bind H. destruct x as [code [o1 u1]]. injection H as -> -> _ _.
    match goal with HH : manakovv_run _ _ _ _ _ _ _ _ _ _ = _ |- _ => rename HH into HR end. rewrite Run in HR.
    inv_bind HR. destruct x as [c w]. destruct (Z.eqb_spec c SUCCESS) as [->|Nc]; cbn [negb] in HR; [|injection HR as -> _; congruence].
    pose proof (Run2 w _ _ HR eq_refl) as Ew. cbn [snd] in Ew.
    match goal with HH : (_ <- fnft_manakovv_base _ 0 _ _ _ _ _ _ _ _ _ ;; _) = _ |- _ => rename HH into H1 end.
    inv_bind H1. destruct x as [c1 v1]. cbv zeta in H1. apply check_Ret in H1. destruct H1 as [(-> & H1)|(Hne & _ & _ & Hcode)].
    2: { exfalso. cbn [fst] in Hcode. symmetry in Hcode. now apply abs_nonzero in Hcode. }
    inv_bind H1. destruct x as [c2 v2]. apply check_Ret in H1. destruct H1 as [(-> & H1)|(Hne & _ & _ & Hcode)].
    2: { exfalso. cbn [fst] in Hcode. symmetry in Hcode. now apply abs_nonzero in Hcode. }
    injection H1 as <-. rewrite Ew. cbn [set_bs u_cs].
    destruct (B 1%nat (set_bs (set_cs v1 (Some cs)) None) cs eq_refl HX Lcs Hct eq_refl) as [B1 _]. eapply B1; [eassumption|reflexivity].
  - intros Hnb Hz.
    assert (E0 : fnft_manakovv_base EV 0 n (po_q p) (po_r p) (t0, t1) M (Some (y0, y1)) kappa o (set_cs u None) = Ret (SUCCESS, set_cs u None)).
    { apply B0; [reflexivity|]. destruct Hnb as [E|E]; [left; exact E|]. destruct (u_bs u) eqn:Eb; [|left; exact Eb]. right. split; [lia|]. apply VK. congruence. }
    rewrite E0 in Run. cbn [bind] in Run. cbv zeta in Run. unfold check at 1 in Run. change (SUCCESS =? SUCCESS)%Z with true in Run. cbv iota in Run.
    destruct (B 1%nat (set_bs (set_cs (set_cs u None) (Some cs)) None) cs eq_refl HX Lcs Hct eq_refl) as [_ B2]. destruct (B2 Hz) as (v & Ev).
    rewrite Ev in Run. cbn [bind] in Run. unfold check at 1 in Run. change (SUCCESS =? SUCCESS)%Z with true in Run. cbv iota in Run. cbn [bind] in Run. change (negb (SUCCESS =? SUCCESS)%Z) with false in Run. cbv iota in Run.
    assert (E2 : forall w, u_bs w = u_bs u -> run2 w = Ret (SUCCESS, (o, w))).
    { intros w Ew. unfold run2. cbv zeta. rewrite Ew. replace (Z.eqb kappa 1 && negb (no_ptr (u_bs u))) with false; [reflexivity|].
      symmetry. destruct Hnb as [->| ->]; [apply Bool.andb_false_r|reflexivity]. }
    rewrite E2 in Run by reflexivity. unfold fnft_manakovv. fold o. rewrite Run. cbn [bind]. eexists _, _, _. reflexivity.
Qed.
End Contspec.
Print Assumptions manakovv_contspec_is_discrete_nft.
