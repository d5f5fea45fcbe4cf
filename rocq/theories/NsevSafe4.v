(** * fnft_nsev stays inside the arrays of the caller (C45): proofs, part 4 *)
From Coq Require Import Reals Lra.
From Coquelicot Require Import Coquelicot.
From Verif Require Import Loop MiscSpec MiscProof MiscProps PolyFmultProof DiscProps DiscPreProps NsevSpec NsevProps NsevSafe NsevSafe2 NsevSafe3.
Local Open Scope C_scope.

Lemma cdivr_ok z y : y <> 0%R -> cdivr z y = Ret (z / RtoC y).
Proof. unfold cdivr. destruct (Req_EM_T y 0); congruence. Qed.

Lemma richardson_cs_safe M blocks XI es sn sd (sub cs : list C) : sd <> 0%R -> (blocks * M <= length sub)%nat -> (blocks * M <= length cs)%nat ->
  exists l, richardson_cs M blocks XI es sn sd sub cs = Ret l /\ kept (blocks * M) cs l.
Proof.
  intros Hsd Ls Lc. unfold richardson_cs. cbv zeta.
  match goal with |- context [for_ M 0 ?f cs] => destruct (for_inv (fun i l => kept (blocks * M) cs l) f M 0%nat cs (kept_refl _ _)) as (l & El & Hl) end.
  2:{ exists l. auto. }
  intros i l Hi Hl. pose proof (kept_length _ _ _ Hl) as L1.
  destruct (Rlt_dec _ _); [|exists l; auto].
  match goal with |- context [for_ blocks 0 ?f l] => destruct (for_inv (fun i l => kept (blocks * M) cs l) f blocks 0%nat l Hl) as (l' & El' & Hl') end.
  2:{ exists l'. auto. }
  intros b l' Hb Hl'. pose proof (kept_length _ _ _ Hl') as L2.
  assert (i + b * M < blocks * M)%nat by nia.
  ag; [lia|]. ag; [lia|]. rewrite cdivr_ok by exact Hsd. cbn [bind]. ase (blocks * M)%nat; [lia|lia|].
  eexists. split; [reflexivity|]. eapply kept_trans; eassumption.
Qed.

Lemma find_loc_safe K lam (sub : list C) e : (K <= length sub)%nat -> exists loc, find_loc K lam sub e = Ret loc.
Proof.
  intros H. unfold find_loc.
  match goal with |- context [for_ K 0 ?f ?s] => destruct (for_inv (fun _ _ => True) f K 0%nat s I) as (st & -> & _) end.
  - intros j st Hj _. ag; [lia|]. destruct (Req_EM_T (Cmod lam) 0); [exists st; auto|]. destruct (Rlt_dec _ _); eexists; (split; [reflexivity|exact I]).
  - cbn [bind]. eexists. reflexivity.
Qed.

Lemma richardson_bs_safe K Ks ds e sn sd (bsub bs : list C) rv sub : sd <> 0%R -> (Ks <= length bsub)%nat -> (K <= length bs)%nat ->
  (ds = DS_RESIDUES \/ ds = DS_BOTH -> (exists l, rv = Some l /\ (2 * K <= length l)%nat) /\ exists l, sub = Some l /\ (2 * Ks <= length l)%nat) ->
  exists bs' rv' sub', richardson_bs K Ks ds e sn sd bsub (bs, rv, sub) = Ret (bs', rv', sub') /\ kept K bs bs' /\ kept_opt (2 * K) rv rv'
    /\ (ds <> DS_RESIDUES -> ds <> DS_BOTH -> rv' = rv).
Proof.
  intros Hsd Lb L Hds. unfold richardson_bs.
  set (P := fun (st : list C * option (list C) * option (list C)) => let '(b, r, s) := st in kept K bs b /\ kept_opt (2 * K) rv r
    /\ kept_opt (2 * Ks) sub s /\ (ds <> DS_RESIDUES -> ds <> DS_BOTH -> r = rv)).
  match goal with |- context [for_ K 0 ?f ?s] => destruct (for_inv (fun _ st => P st) f K 0%nat s) as (st & -> & HP) end.
  - unfold P. repeat split; try apply kept_refl; try apply kept_opt_refl; auto.
  - intros i [[b r] s] Hi (H1 & H2 & H3 & H4). pose proof (kept_length _ _ _ H1) as L1.
    ag; [lia|]. destruct (find_loc_safe Ks x bsub e Lb) as (loc & ->). cbn [bind].
    destruct (Nat.ltb_spec loc Ks) as [Hloc|_].
    2:{ eexists. split; [reflexivity|]. unfold P. auto. }
    ag; [lia|]. rewrite cdivr_ok by exact Hsd. cbn [bind]. ase K; [lia|lia|].
    assert (Kb : kept K bs l) by (eapply kept_trans; eassumption).
    assert (Hmain : ds = DS_RESIDUES \/ ds = DS_BOTH -> exists st', (rv <- deref r;; sub <- deref s;;
       x <- aget rv i;; y <- aget rv (K + i);; rv <- aset rv (K + i) (x / y);;
       x <- aget sub loc;; y <- aget sub (Ks + loc);; sub <- aset sub (Ks + loc) (x / y);;
       x <- aget rv (K + i);; y <- aget sub (loc + Ks);; z <- cdivr (RtoC sn * x - y) sd;;
       rv <- aset rv (K + i) z;; x <- aget rv i;; y <- aget rv (K + i);; rv <- aset rv (K + i) (x / y);; Ret (l, Some rv, Some sub)) = Ret st' /\ P st').
    { intros Hc. destruct (Hds Hc) as ((lr & -> & Llr) & (ls & -> & Lls)).
      destruct r as [r|]; [|contradiction H2]. destruct s as [s|]; [|contradiction H3]. cbn [kept_opt] in H2, H3.
      pose proof (kept_length _ _ _ H2). pose proof (kept_length _ _ _ H3). cbn [deref bind].
      ag; [lia|]. ag; [lia|]. ase (2 * K)%nat; [lia|lia|]. ag; [lia|]. ag; [lia|]. ase (2 * Ks)%nat; [lia|lia|].
      ag; [lia|]. ag; [lia|]. rewrite cdivr_ok by exact Hsd. cbn [bind]. ase (2 * K)%nat; [lia|lia|]. ag; [lia|]. ag; [lia|]. ase (2 * K)%nat; [lia|lia|].
      eexists. split; [reflexivity|]. unfold P. split; [exact Kb|]. split; [|split].
      - cbn [kept_opt]. do 3 (eapply kept_trans; [|eassumption]). exact H2.
      - cbn [kept_opt]. eapply kept_trans; [|eassumption]. exact H3.
      - intros Ha Hb. destruct Hc; contradiction. }
    destruct ds; try (apply Hmain; auto; fail); (eexists; split; [reflexivity|]; unfold P; auto).
  - destruct st as [[b r] s]. destruct HP as (H1 & H2 & H3 & H4). exists b, r, s. auto.
Qed.

(** ** The two runs *)
Lemma half_sizes D : (3 <= D)%nat -> exists nskip m, downsample_sizes D (D / 2) = Ret (nskip, m) /\ (2 <= nskip)%nat /\ (2 <= m <= D)%nat.
Proof.
  intros H. destruct (downsample_sizes_spec D (D / 2)) as (nskip & m & E & Hn & Hm & H1 & H2 & H3); [lia|].
  exists nskip, m. split; [exact E|]. split; [|nia].
  unfold downsample_sizes in E. pose proof (Nat.div_mod D 2 ltac:(lia)) as Hd. pose proof (Nat.mod_upper_bound D 2 ltac:(lia)) as Hr.
  set (h := (D / 2)%nat) in *. 
  destruct (Nat.ltb_spec h 2) as [Hh|Hh].
  - assert (D = 3)%nat by lia. subst D. cbn in E. injection E as <- <-. lia.
  - destruct (Nat.ltb_spec D h) as [Hh2|_]; [lia|].
    destruct (Nat.eqb_spec (round_div D h) 0); [discriminate|]. injection E as E1 E2. rewrite <- E1. unfold round_div.
    apply Nat.div_le_lower_bound; lia.
Qed.

Lemma order_pos d : known_disc d -> nse_method_order d <> O.
Proof. unfold known_disc. destruct d; cbn; congruence. Qed.
Lemma cs_blocks_values t : cs_blocks t = cs_values t.
Proof. destruct t; reflexivity. Qed.

(** contained only depends on the two spectrum types *)
Lemma contained_opts M o o' u u' : contspec_type o' = contspec_type o -> discspec_type o' = discspec_type o -> contained M o u u' -> contained M o' u u'.
Proof. intros H1 H2 [A1 A2 A3 A4]. constructor; rewrite ?H1, ?H2; auto. Qed.

Lemma richardson_safe E D q T M XI kappa eps_t ds live own o u : env_ok E -> known_disc (discretization o) -> (3 <= D)%nat ->
  length q = D -> (Z.of_nat (D * nse_upsampling_factor (discretization o)) <= 2 ^ 63)%Z ->
  (fst T < snd T)%R -> eps_t = ((snd T - fst T) / INR (D - 1))%R -> XI <> None ->
  (u_cs u <> None -> M <> 1%nat) -> (u_bs u <> None -> u_K u <> None) ->
  room kappa M (set_dstype o ds) u ->
  (discspec_type o = if match ds with DS_RESIDUES => true | _ => false end then DS_BOTH else ds) ->
  (live = true -> forall D q eps_t kappa Dsub d c, e_pre E 2 D q eps_t kappa Dsub d <> Ret (inl c)) ->
  (forall K, kappa = 1%Z -> u_bs u <> None -> u_K u = Some K ->
     match own with Some l => (2 * K <= length l)%nat | None => ds <> DS_RESIDUES end /\ (ds = DS_RESIDUES \/ ds = DS_BOTH -> u_nc u <> None)) ->
  exists c o' u', nsev_richardson E D q T M XI kappa eps_t (nse_upsampling_factor (discretization o)) ds live own o u = Ret (c, (o', u'))
    /\ ok_code c /\ contained M (set_dstype o ds) u u'.
Proof.
  intros HE Hd HD Lq Hsz HT He HXI HM HKp HR Hds Hlive Hown. unfold nsev_richardson. cbv zeta.
  set (G := fun x : out (Z * (opts * outs)) => exists c o' u', x = Ret (c, (o', u')) /\ ok_code c /\ contained M (set_dstype o ds) u u').
  assert (Hfail : forall c o', ok_code c -> G (Ret (c, (o', u)))).
  { intros c o' Hc. exists c, o', u. split; [reflexivity|]. split; [exact Hc|]. apply contained_refl. }
  match goal with |- exists c o' u', ?x = _ /\ _ /\ _ => change (G x) end.
  assert (Hep : (0 < eps_t)%R) by (rewrite He; apply step_pos; [lra|lia]).
  set (wc := negb (no_ptr (u_cs u)) && (0 <? M)%nat).
  destruct (wc && _) eqn:E1; [apply Hfail; codes|].
  destruct (wc && negb (e_alloc E 3 0)); [apply Hfail; codes|].
  set (cs_len := if wc then (cs_blocks (contspec_type o) * M)%nat else O).
  assert (HKK : exists K, (if (kappa =? 1)%Z && negb (no_ptr (u_bs u)) then deref (u_K u) else Ret 0%nat) = Ret K
     /\ ((kappa =? 1)%Z && negb (no_ptr (u_bs u)) = true -> u_K u = Some K /\ kappa = 1%Z /\ u_bs u <> None)).
  { destruct (Z.eqb_spec kappa 1) as [Hk|Hk]; cbn [andb]; [|exists O; split; [reflexivity|discriminate]].
    destruct (u_bs u) as [b|]; cbn [no_ptr negb]; [|exists O; split; [reflexivity|discriminate]].
    destruct (u_K u) as [K|]; [|exfalso; now apply HKp]. exists K. split; [reflexivity|]. intros _. split; [reflexivity|]. split; [exact Hk|discriminate]. }
  destruct HKK as (K & -> & HK). cbn [bind].
  set (wb0 := (kappa =? 1)%Z && negb (no_ptr (u_bs u))) in *. set (wb := wb0 && negb (K =? 0)%nat).
  destruct (wb && _) eqn:E2; [apply Hfail; codes|].
  destruct (wb && (negb (e_alloc E 3 1) || negb (e_alloc E 3 2))); [apply Hfail; codes|].
  set (ds_len := match discspec_type o with DS_NORMING_CONSTANTS => K | _ => (2 * K)%nat end).
  assert (Hwb : wb = true -> exists bs, u_bs u = Some bs /\ u_K u = Some K /\ kappa = 1%Z /\ (1 <= K <= length bs)%nat).
  { unfold wb. intros Hw. apply andb_true_iff in Hw. destruct Hw as [Hw Hw2]. destruct (HK Hw) as (H1 & H2 & H3).
    destruct (u_bs u) as [bs|] eqn:Eb; [|congruence]. exists bs. repeat split; auto.
    - destruct (Nat.eqb_spec K 0); [discriminate|lia].
    - apply (r_bs _ _ _ _ HR); assumption. }
  assert (HB : exists b, (if wb then bs <- deref (u_bs u);; l <- copy K 0 bs (e_junk E 1 K);; Ret (Some l) else Ret None) = Ret b
     /\ if wb then exists l, b = Some l /\ length l = K else b = None).
  { destruct wb eqn:Ew; [|exists None; auto]. destruct (Hwb eq_refl) as (bs & -> & _ & _ & Hb). cbn [deref bind].
    destruct (copy_kept K 0 bs (e_junk E 1 K) K) as (l & -> & Hl); [lia|lia|rewrite (k_junk E HE); lia|]. cbn [bind].
    eexists. split; [reflexivity|]. eexists. split; [reflexivity|]. rewrite (kept_length _ _ _ Hl). apply (k_junk E HE). }
  destruct HB as (b & -> & Hb). cbn [bind].
  destruct (Nat.eqb_spec (nse_method_order (discretization o)) 0) as [Ho|_]; [exfalso; now apply (order_pos _ Hd)|].
  destruct (k_pre E HE 2 D q eps_t kappa (D / 2) (discretization o)) as (p & Ep & Hp); [lia|exact Lq|exact Hep|].
  rewrite Ep. cbn [bind]. destruct p as [c|p].
  { destruct live; [exfalso; now apply (Hlive eq_refl _ _ _ _ _ _ _ Ep)|]. destruct Hp as [Hc _]. rewrite E_SUB_ok by exact Hc. cbn [bind]. apply Hfail. now apply ok_neg. }
  destruct Hp as (nskip & Es & Pf & Pl & Lpq & Lpr). destruct (half_sizes D HD) as (ns & m & Es' & Hns & Hm).
  rewrite Es in Es'. injection Es' as <- Em. cbn [fst snd].
  set (Tsub := ((fst T + INR (po_first p) * eps_t)%R, (fst T + INR (po_last p) * eps_t)%R)).
  assert (HTs : (snd Tsub - fst Tsub = INR (po_Dsub p - 1) * (INR nskip * eps_t))%R).
  { unfold Tsub. cbn [fst snd]. rewrite Pf, Pl, mult_INR. simpl INR. ring. }
  assert (Hnn : (2 <= INR nskip)%R) by (apply (le_INR 2); exact Hns).
  assert (Hmm : (1 <= INR (po_Dsub p - 1))%R) by (apply (le_INR 1); lia).
  change (fst T + INR (po_last p) * eps_t - (fst T + INR (po_first p) * eps_t))%R with (snd Tsub - fst Tsub)%R.
  rewrite step_ok by lia. cbn [bind]. set (eps_sub := ((snd Tsub - fst Tsub) / INR (po_Dsub p - 1))%R).
  assert (Hes : (eps_sub = INR nskip * eps_t)%R) by (unfold eps_sub; rewrite HTs; field; lra).
  set (v0 := {| u_cs := _; u_K := _; u_bs := _; u_nc := _ |}).
  destruct (base_safe E 2 (po_Dsub p * nse_upsampling_factor (discretization o)) (po_Dsub p) (po_q p) (po_r p) Tsub M XI kappa (set_bsloc o BL_NEWTON) v0)
    as (c & v & -> & Hc & Cv & _); auto.
  { cbn. lia. } { cbn. nia. } { assert (0 < snd Tsub - fst Tsub)%R; [rewrite HTs; repeat apply Rmult_lt_0_compat; lra|lra]. }
  { unfold v0; cbn. destruct wc eqn:Ew; [|congruence]. intros _. apply HM. intros Hn. unfold wc in Ew. rewrite Hn in Ew. discriminate. }
  { discriminate. }
  { constructor; unfold v0; cbn.
    - intros l Hl. destruct wc; [|discriminate]. injection Hl as <-. rewrite (k_junk E HE). unfold cs_len. destruct (contspec_type o); cbn; lia.
    - intros l K0 Hl HK0. injection HK0 as <-. destruct wb; [|congruence]. destruct Hb as (l0 & Hb & Hb2). rewrite Hb in Hl. injection Hl as <-. lia.
    - intros l K0 _ _ Hl HK0. injection HK0 as <-. destruct wb; [|discriminate]. injection Hl as <-. rewrite (k_junk E HE).
      unfold ds_len. destruct (discspec_type o); cbn; lia. }
  { discriminate. }
  cbn [bind]. destruct (Z.eqb_spec c SUCCESS) as [Sc|Nc]; cbn [negb].
  2:{ rewrite E_SUB_ok by exact Hc. cbn [bind]. apply Hfail. now apply ok_neg. }
  set (o2 := set_dstype _ ds). set (scn := ((eps_sub / eps_t) ^ nse_method_order (discretization o))%R). set (scd := (scn - 1)%R).
  assert (Hsd : scd <> 0%R).
  { unfold scd, scn. rewrite Hes. replace (INR nskip * eps_t / eps_t)%R with (INR nskip) by (field; lra).
    pose proof (order_pos _ Hd). destruct (nse_method_order (discretization o)) as [|k]; [congruence|].
    assert (1 <= INR nskip ^ k)%R by (apply pow_R1_Rle; lra). cbn [pow]. nra. }
  destruct XI as [XI|]; [|congruence]. cbn [deref bind].
  assert (HC : exists u1, (match u_cs u with
     | Some cs => if (0 <? M)%nat then sub <- deref (u_cs v);; cs0 <- richardson_cs M (cs_len / M) XI eps_sub scn scd sub cs;; Ret (set_cs u (Some cs0)) else Ret u
     | None => Ret u end) = Ret u1 /\ contained M (set_dstype o ds) u u1 /\ u_bs u1 = u_bs u /\ u_K u1 = u_K u /\ u_nc u1 = u_nc u).
  { destruct (u_cs u) as [cs|] eqn:Ecs; [|exists u; split; [reflexivity|]; split; [apply contained_refl|auto]].
    destruct (Nat.ltb_spec 0 M) as [HM0|_]; [|exists u; split; [reflexivity|]; split; [apply contained_refl|auto]].
    assert (Ew : cs_len = (cs_blocks (contspec_type o) * M)%nat) by reflexivity.
    pose proof (c_cs _ _ _ _ Cv) as Kc. unfold v0 in Kc. cbn in Kc. destruct (u_cs v) as [sub|]; [|contradiction].
    cbn in Kc. cbn [deref bind]. pose proof (kept_length _ _ _ Kc) as Ls. rewrite (k_junk E HE) in Ls.
    change (length sub = cs_blocks (contspec_type o) * M)%nat in Ls. change cs_len with (cs_blocks (contspec_type o) * M)%nat. rewrite Nat.div_mul by lia. pose proof (r_cs _ _ _ _ HR _ Ecs) as Lcs. cbn in Lcs.
    destruct (richardson_cs_safe M (cs_blocks (contspec_type o)) XI eps_sub scn scd sub cs Hsd) as (l & -> & Hl); [lia|rewrite cs_blocks_values; lia|].
    cbn [bind]. eexists. split; [reflexivity|]. split; [|auto]. constructor; cbn; try apply kept_opt_refl.
    - rewrite Ecs. cbn. rewrite <- cs_blocks_values. exact Hl.
    - unfold cap; cbn. split; [lia|tauto]. }
  destruct HC as (u1 & -> & C1 & Eb1 & EK1 & En1). cbn [bind].
  assert (Hdone : G (Ret (SUCCESS, (o2, u1)))).
  { exists SUCCESS, o2, u1. split; [reflexivity|]. split; [codes|exact C1]. }
  destruct wb eqn:Ew; [|exact Hdone].
  destruct (Hwb eq_refl) as (bs & Ebs & EK & Hk & HKb). destruct Hb as (bsub0 & -> & Lb0).
  pose proof (c_K _ _ _ _ Cv) as [Kc1 Kc2]. unfold v0 in Kc1, Kc2. unfold cap in Kc1; cbn in Kc1, Kc2.
  destruct (u_K v) as [Ks|]; [|destruct Kc2 as [Kc2 _]; now discriminate Kc2].
  cbn [deref bind]. destruct (Nat.eqb Ks 0); [exact Hdone|].
  pose proof (c_bs _ _ _ _ Cv) as Kb. unfold v0 in Kb. cbn in Kb. destruct (u_bs v) as [bsub|]; [|contradiction]. pose proof (kept_length _ _ _ Kb).
  rewrite Eb1, Ebs. cbn [deref bind].
  pose proof (c_nc _ _ _ _ Cv) as Kn. unfold v0 in Kn. cbn in Kn. destruct (u_nc v) as [nsub|]; [|contradiction]. pose proof (kept_length _ _ _ Kn) as Ln.
  rewrite (k_junk E HE) in Ln.
  set (rv := match own with Some l => Some l | None => u_nc u1 end).
  destruct (Hown K Hk) as [Ho1 Ho2]; [congruence|exact EK|].
  assert (Hrv : ds = DS_RESIDUES \/ ds = DS_BOTH -> exists l, rv = Some l /\ (2 * K <= length l)%nat).
  { intros Hc0. unfold rv. destruct own as [l|]; [exists l; auto|]. rewrite En1. destruct (u_nc u) as [nc|] eqn:Enc; [|exfalso; now apply Ho2].
    exists nc. split; [reflexivity|]. destruct Hc0 as [->| ->]; [congruence|]. apply (r_nc _ _ _ _ HR nc K Hk); [congruence|exact Enc|exact EK]. }
  destruct (richardson_bs_safe K Ks ds eps_t scn scd bsub bs rv (Some nsub) Hsd) as (bs2 & rv2 & sub2 & -> & Kb2 & Krv & Krv2); [lia|lia| |].
  { intros Hc0. split; [now apply Hrv|]. exists nsub. split; [reflexivity|]. rewrite Ln. unfold ds_len. rewrite Hds. destruct Hc0 as [->| ->]; cbn; lia. }
  cbn [bind].
  assert (C2 : contained M (set_dstype o ds) u (set_bs u1 (Some bs2))).
  { eapply contained_trans; [exact C1|]. constructor; cbn; try apply kept_opt_refl.
    - rewrite Eb1, Ebs. cbn. unfold cap. rewrite EK1, EK. exact Kb2.
    - unfold cap; cbn. split; [lia|tauto]. }
  assert (Hnc : ds = DS_RESIDUES \/ ds = DS_BOTH -> exists nc, u_nc u = Some nc /\ (ds_values ds * K <= length nc)%nat).
  { intros Hc0. destruct (u_nc u) as [nc|] eqn:Enc; [|exfalso; now apply Ho2]. exists nc. split; [reflexivity|].
    apply (r_nc _ _ _ _ HR nc K Hk); [congruence|exact Enc|exact EK]. }
  assert (Hfin : forall nc nc', u_nc u = Some nc -> kept (ds_values ds * K) nc nc' ->
     contained M (set_dstype o ds) u (set_nc (set_bs u1 (Some bs2)) (Some nc'))).
  { intros nc nc' Enc Kn'. eapply contained_trans; [exact C2|]. constructor; cbn; try apply kept_opt_refl; try apply kept_refl.
    - rewrite En1, Enc. cbn. unfold cap. cbn. rewrite EK1, EK. exact Kn'.
    - unfold cap; cbn. split; [lia|tauto]. }
  assert (Hsame : contained M (set_dstype o ds) u (set_nc (set_bs u1 (Some bs2)) (u_nc (set_bs u1 (Some bs2))))) by exact C2.
  assert (Hother : ds <> DS_RESIDUES -> ds <> DS_BOTH -> match own with Some _ => u_nc (set_bs u1 (Some bs2)) | None => rv2 end = u_nc u1).
  { intros Ha Hb. destruct own; [reflexivity|]. rewrite (Krv2 Ha Hb). reflexivity. }
  destruct ds.
  - rewrite Hother by discriminate. exists SUCCESS, o2, (set_nc (set_bs u1 (Some bs2)) (u_nc u1)). split; [reflexivity|]. split; [codes|exact Hsame].
  - destruct (Hrv (or_introl eq_refl)) as (lr & Er & Lr). rewrite Er in Krv. destruct rv2 as [rv2|]; [|contradiction]. cbn in Krv. pose proof (kept_length _ _ _ Krv).
    destruct (Hnc (or_introl eq_refl)) as (nc & Enc & Lnc). cbn [deref bind u_nc set_bs]. rewrite En1, Enc. cbn [deref bind].
    cbn in Lnc. destruct (copy_kept K 0 (skipn K rv2) nc K) as (nc2 & -> & Kn2); [rewrite skipn_length; lia|lia|lia|]. cbn [bind].
    eexists SUCCESS, o2, _. split; [reflexivity|]. split; [codes|]. apply (Hfin nc); [exact Enc|]. cbn. rewrite Nat.add_0_r. exact Kn2.
  - destruct (Hrv (or_intror eq_refl)) as (lr & Er & Lr). rewrite Er in Krv. destruct rv2 as [rv2|]; [|contradiction]. cbn in Krv. pose proof (kept_length _ _ _ Krv).
    destruct (Hnc (or_intror eq_refl)) as (nc & Enc & Lnc). cbn [deref bind u_nc set_bs]. rewrite En1, Enc. cbn [deref bind].
    cbn [ds_values] in Lnc. destruct (copy_kept (2 * K) 0 rv2 nc (2 * K)) as (nc2 & -> & Kn2); [lia|lia|lia|]. cbn [bind].
    eexists SUCCESS, o2, _. split; [reflexivity|]. split; [codes|]. apply (Hfin nc); [exact Enc|]. exact Kn2.
  - rewrite Hother by discriminate. exists SUCCESS, o2, (set_nc (set_bs u1 (Some bs2)) (u_nc u1)). split; [reflexivity|]. split; [codes|exact Hsame].
Qed.
