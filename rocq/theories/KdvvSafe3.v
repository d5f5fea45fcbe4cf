(** * fnft_kdvv stays inside the arrays of the caller (C63), and its bound states on the imaginary axis (C64) *)
From Coq Require Import Reals Lra.
From Coquelicot Require Import Coquelicot.
From Verif Require Import Loop MiscSpec MiscProof MiscProps MiscMetricProps MiscNumProps PolyFmultProof DiscProps DiscPreProps NsevSpec NsevProps
  NsevSafe NsevSafe2 NsevSafe3 NsevSafe4 NsevSafe5 KdvvSpec KdvvProps KdvvSafe KdvvGrid KdvvSafe2.
Local Open Scope C_scope.

Lemma for_ret {S} (P : S -> Prop) (f : nat -> S -> out S) n i s s' : for_ n i f s = Ret s' -> P s ->
  (forall j t t', (i <= j < i + n)%nat -> f j t = Ret t' -> P t -> P t') -> P s'.
Proof.
  revert i s. induction n as [|n IH]; intros i s; cbn [for_].
  - intros E H _. now injection E as <-.
  - intros E H Hf. inv_bind E. eapply IH; [exact E| |].
    + eapply Hf; [|exact Hx|exact H]. lia.
    + intros j t t' Hj. apply Hf. lia.
Qed.

Lemma richardson_bs_axis K Ks ds e sn sd (bsub bs : list C) rv sub bs' rv' sub' : axis K bs -> axis Ks bsub ->
  richardson_bs K Ks ds e sn sd bsub (bs, rv, sub) = Ret (bs', rv', sub') -> axis K bs'.
Proof.
  intros A As H. unfold richardson_bs in H.
  eapply (for_ret (fun st : list C * option (list C) * option (list C) => axis K (fst (fst st)))) in H; [exact H|exact A|].
  clear H bs A rv sub bs' rv' sub'. intros i [[b r] s] t' Hi H A. cbn [fst] in *.
  inv_bind H. rename x into lam, Hx into Hlam. inv_bind H. rename x into loc. destruct (Nat.ltb_spec loc Ks) as [Hl|_]; [|inversion H; subst t'; exact A].
  inv_bind H. rename x into l, Hx0 into Hl0. inv_bind H. rename x into z, Hx0 into Hz. inv_bind H. rename x into b', Hx0 into Hb.
  assert (Hb' : b' = upd b i z).
  { rewrite aset_upd in Hb; [now injection Hb as <-|]. eapply aget_Ret_lt; exact Hlam. }
  assert (Az : on_imaginary_axis z).
  { assert (H1 : on_imaginary_axis lam) by (eapply A; [|apply aget_Some; exact Hlam]; lia).
    assert (H2 : on_imaginary_axis l) by (eapply As; [exact Hl|apply aget_Some; exact Hl0]).
    unfold cdivr in Hz. destruct (Req_EM_T sd 0); [discriminate|]. injection Hz as <-.
    unfold on_imaginary_axis in *. unfold Cdiv, Cminus, Cplus, Copp, Cmult, Cinv, RtoC. cbn [fst snd]. rewrite H1, H2. field. nra. }
  assert (A' : axis K b') by (rewrite Hb'; now apply axis_upd).
  destruct ds; try (inversion H; subst t'; exact A');
  (repeat inv_bind H; inversion H; subst t'; exact A').
Qed.

Lemma korder_pos d : kdv_known d -> kdv_method_order d <> O.
Proof. unfold kdv_known. destruct d; cbn; congruence. Qed.

Lemma krichardson_safe E D q T M XI eps_t ds own o u : kenv_ok E -> kdv_known (k_disc o) -> (3 <= D)%nat ->
  length q = D -> (Z.of_nat (D * kdv_upsampling_factor (k_disc o)) <= 2 ^ 63)%Z ->
  (fst T < snd T)%R -> eps_t = ((snd T - fst T) / INR (D - 1))%R -> XI <> None ->
  (u_cs u <> None -> M <> 1%nat) -> (u_bs u <> None -> u_K u <> None) ->
  room 1 M (sizes (kset_ds o ds)) u -> axis_out u ->
  (k_ds o = if match ds with DS_RESIDUES => true | _ => false end then DS_BOTH else ds) ->
  (forall K, u_bs u <> None -> u_K u = Some K ->
     match own with Some l => (2 * K <= length l)%nat | None => ds <> DS_RESIDUES end /\ (ds = DS_RESIDUES \/ ds = DS_BOTH -> u_nc u <> None)) ->
  exists c o' u', kdvv_richardson E D q T M XI eps_t (kdv_upsampling_factor (k_disc o)) ds own o u = Ret (c, (o', u'))
    /\ ok_code c /\ contained M (sizes (kset_ds o ds)) u u' /\ axis_out u'.
Proof.
  intros HE Hd HD Lq Hsz HT He HXI HM HKp HR Hax Hds Hown. unfold kdvv_richardson. cbv zeta.
  set (G := fun x : out (Z * (kopts * outs)) => exists c o' u', x = Ret (c, (o', u')) /\ ok_code c /\ contained M (sizes (kset_ds o ds)) u u' /\ axis_out u').
  assert (Hfail : forall c o', ok_code c -> G (Ret (c, (o', u)))).
  { intros c o' Hc. exists c, o', u. split; [reflexivity|]. split; [exact Hc|]. split; [apply contained_refl|exact Hax]. }
  match goal with |- exists c o' u', ?x = _ /\ _ /\ _ => change (G x) end.
  assert (Hep : (0 < eps_t)%R) by (rewrite He; apply step_pos; [lra|lia]).
  set (wc := negb (no_ptr (u_cs u)) && (0 <? M)%nat).
  destruct (wc && _) eqn:E1; [apply Hfail; codes|].
  destruct (wc && negb (ke_alloc E 3 0)); [apply Hfail; codes|].
  set (cs_len := if wc then (cs_blocks (k_cs o) * M)%nat else O).
  assert (HKK : exists K, (if negb (no_ptr (u_bs u)) then deref (u_K u) else Ret 0%nat) = Ret K
     /\ (negb (no_ptr (u_bs u)) = true -> u_K u = Some K /\ u_bs u <> None)).
  { destruct (u_bs u) as [b|]; cbn [no_ptr negb]; [|exists O; split; [reflexivity|discriminate]].
    destruct (u_K u) as [K|]; [|exfalso; now apply HKp]. exists K. split; [reflexivity|]. intros _. split; [reflexivity|discriminate]. }
  destruct HKK as (K & -> & HK). cbn [bind].
  set (wb0 := negb (no_ptr (u_bs u))) in *. set (wb := wb0 && negb (K =? 0)%nat).
  destruct (wb && _) eqn:E2; [apply Hfail; codes|].
  destruct (wb && (negb (ke_alloc E 3 1) || negb (ke_alloc E 3 2))); [apply Hfail; codes|].
  set (ds_len := match k_ds o with DS_NORMING_CONSTANTS => K | _ => (2 * K)%nat end).
  assert (Hwb : wb = true -> exists bs, u_bs u = Some bs /\ u_K u = Some K /\ (1 <= K <= length bs)%nat).
  { unfold wb. intros Hw. apply andb_true_iff in Hw. destruct Hw as [Hw Hw2]. destruct (HK Hw) as (H1 & H3).
    destruct (u_bs u) as [bs|] eqn:Eb; [|congruence]. exists bs. repeat split; auto.
    - destruct (Nat.eqb_spec K 0); [discriminate|lia].
    - apply (r_bs _ _ _ _ HR); assumption. }
  assert (HB : exists b, (if wb then bs <- deref (u_bs u);; l <- copy K 0 bs (ke_junk E 1 K);; Ret (Some l) else Ret None) = Ret b
     /\ if wb then exists l, b = Some l /\ length l = K /\ axis K l else b = None).
  { destruct wb eqn:Ew; [|exists None; auto]. destruct (Hwb eq_refl) as (bs & Ebs & EK & Hb). rewrite Ebs. cbn [deref bind].
    assert (Abs : axis K bs) by (apply Hax; assumption).
    destruct (copy_kept K 0 bs (ke_junk E 1 K) K) as (l & El & Hl); [lia|lia|rewrite (kk_junk E HE); lia|]. rewrite El. cbn [bind].
    eexists. split; [reflexivity|]. eexists. split; [reflexivity|]. rewrite (kept_length _ _ _ Hl). split; [apply (kk_junk E HE)|].
    unfold copy in El. pose proof (kk_junk E HE 1 K) as LJ.
    assert (HF : forall n i dst dst', (i + n <= K)%nat -> length dst = K -> (forall j x, (j < i)%nat -> nth_error dst j = Some x -> on_imaginary_axis x) ->
       for_ n i (fun i dst => x <- aget bs i ;; aset dst (0 + i) x) dst = Ret dst' -> axis (i + n) dst').
    { clear -Abs Hb. induction n as [|n IH]; intros i dst dst' Hi Ld Hd H; cbn [for_] in H.
      - injection H as <-. rewrite Nat.add_0_r. exact Hd.
      - inv_bind H. inv_bind Hx. cbn [Nat.add] in Hx. rewrite aset_upd in Hx by lia. injection Hx as <-.
        replace (i + S n)%nat with (S i + n)%nat by lia. eapply IH; [lia| | |exact H].
        + now rewrite upd_length.
        + apply axis_grow; [exact Hd|]. eapply Abs; [|apply aget_Some; exact Hx0]. lia. }
    apply (HF K 0%nat (ke_junk E 1 K) l); auto; try lia. }
  destruct HB as (b & -> & Hb). cbn [bind].
  destruct (Nat.eqb_spec (kdv_method_order (k_disc o)) 0) as [Ho|_]; [exfalso; now apply (korder_pos _ Hd)|].
  destruct (kk_pre E HE 2 D q eps_t (D / 2) (k_disc o)) as (p & Ep & Hp); [lia|exact Lq|exact Hep|].
  rewrite Ep. cbn [bind]. destruct p as [c|p].
  { destruct Hp as [Hc _]. rewrite E_SUB_ok by exact Hc. cbn [bind]. apply Hfail. now apply ok_neg. }
  destruct Hp as (nskip & Es & Pf & Pl & Lpq & Lpr). destruct (half_sizes D HD) as (ns & m & Es' & Hns & Hm).
  rewrite Es in Es'. injection Es' as <- Em. cbn [fst snd].
  set (Tsub := ((fst T + INR (po_first p) * eps_t)%R, (fst T + INR (po_last p) * eps_t)%R)).
  assert (HTs : (snd Tsub - fst Tsub = INR (po_Dsub p - 1) * (INR nskip * eps_t))%R).
  { unfold Tsub. cbn [fst snd]. rewrite Pf, Pl, mult_INR. simpl INR. ring. }
  assert (Hnn : (2 <= INR nskip)%R) by (apply (le_INR 2); exact Hns).
  assert (Hmm : (1 <= INR (po_Dsub p - 1))%R) by (apply (le_INR 1); lia).
  change (fst T + INR (po_last p) * eps_t - (fst T + INR (po_first p) * eps_t))%R with (snd Tsub - fst Tsub)%R.
  rewrite step_ok by lia. cbn [bind]. set (eps_sub := ((snd Tsub - fst Tsub) / INR (po_Dsub p - 1))%R).
  assert (Hes : (eps_sub = INR nskip * eps_t)%R) by (unfold eps_sub; rewrite HTs; field; lra).
  set (v0 := {| u_cs := _; u_K := _; u_bs := _; u_nc := _ |}).
  destruct (kbase_safe E 2 (po_Dsub p * kdv_upsampling_factor (k_disc o)) (po_Dsub p) (po_q p) (po_r p) Tsub M XI (kset_loc o KB_NEWTON) v0)
    as (c & v & -> & Hc & Cv & _ & Axv); auto.
  { cbn. lia. } { cbn. nia. } { assert (0 < snd Tsub - fst Tsub)%R; [rewrite HTs; apply Rmult_lt_0_compat; [lra|apply Rmult_lt_0_compat; lra]|lra]. }
  { unfold v0; cbn. destruct wc eqn:Ew; [|congruence]. intros _. apply HM. intros Hn. unfold wc in Ew. rewrite Hn in Ew. discriminate. }
  { discriminate. }
  { constructor; unfold v0; cbn.
    - intros l Hl. destruct wc; [|discriminate]. injection Hl as <-. rewrite (kk_junk E HE). unfold cs_len. destruct (k_cs o); cbn; lia.
    - intros l K0 Hl HK0. injection HK0 as <-. destruct wb; [|congruence]. destruct Hb as (l0 & Hb & Hb2 & _). rewrite Hb in Hl. injection Hl as <-. lia.
    - intros l K0 _ _ Hl HK0. injection HK0 as <-. destruct wb; [|discriminate]. injection Hl as <-. rewrite (kk_junk E HE).
      unfold ds_len. destruct (k_ds o); cbn; lia. }
  { intros _ l K0 Hl HK0. unfold v0 in Hl, HK0. cbn in Hl, HK0. injection HK0 as <-. destruct wb; [|congruence]. destruct Hb as (l0 & Hb & _ & Hb3). rewrite Hb in Hl. injection Hl as <-. exact Hb3. }
  cbn [bind]. destruct (Z.eqb_spec c SUCCESS) as [Sc|Nc]; cbn [negb].
  2:{ rewrite E_SUB_ok by exact Hc. cbn [bind]. apply Hfail. now apply ok_neg. }
  specialize (Axv Sc).
  set (o2 := kset_ds _ ds). set (scn := ((eps_sub / eps_t) ^ kdv_method_order (k_disc o))%R). set (scd := (scn - 1)%R).
  assert (Hsd : scd <> 0%R).
  { unfold scd, scn. rewrite Hes. replace (INR nskip * eps_t / eps_t)%R with (INR nskip) by (field; lra).
    pose proof (korder_pos _ Hd). destruct (kdv_method_order (k_disc o)) as [|k]; [congruence|].
    assert (1 <= INR nskip ^ k)%R by (apply pow_R1_Rle; lra). cbn [pow]. nra. }
  destruct XI as [XI|]; [|congruence]. cbn [deref bind].
  assert (HC : exists u1, (match u_cs u with
     | Some cs => if (0 <? M)%nat then sub <- deref (u_cs v);; cs0 <- richardson_cs M (cs_len / M) XI eps_sub scn scd sub cs;; Ret (set_cs u (Some cs0)) else Ret u
     | None => Ret u end) = Ret u1 /\ contained M (sizes (kset_ds o ds)) u u1 /\ u_bs u1 = u_bs u /\ u_K u1 = u_K u /\ u_nc u1 = u_nc u).
  { destruct (u_cs u) as [cs|] eqn:Ecs; [|exists u; split; [reflexivity|]; split; [apply contained_refl|auto]].
    destruct (Nat.ltb_spec 0 M) as [HM0|_]; [|exists u; split; [reflexivity|]; split; [apply contained_refl|auto]].
    assert (Ew : cs_len = (cs_blocks (k_cs o) * M)%nat) by reflexivity.
    pose proof (c_cs _ _ _ _ Cv) as Kc. unfold v0 in Kc. cbn in Kc. destruct (u_cs v) as [sub|]; [|contradiction].
    cbn in Kc. cbn [deref bind]. pose proof (kept_length _ _ _ Kc) as Ls. rewrite (kk_junk E HE) in Ls.
    change (length sub = cs_blocks (k_cs o) * M)%nat in Ls. change cs_len with (cs_blocks (k_cs o) * M)%nat. rewrite Nat.div_mul by lia. pose proof (r_cs _ _ _ _ HR _ Ecs) as Lcs. cbn in Lcs.
    destruct (richardson_cs_safe M (cs_blocks (k_cs o)) XI eps_sub scn scd sub cs Hsd) as (l & -> & Hl); [lia|rewrite cs_blocks_values; lia|].
    cbn [bind]. eexists. split; [reflexivity|]. split; [|auto]. constructor; cbn; try apply kept_opt_refl.
    - rewrite Ecs. cbn. rewrite <- cs_blocks_values. exact Hl.
    - unfold cap; cbn. split; [lia|tauto]. }
  destruct HC as (u1 & -> & C1 & Eb1 & EK1 & En1). cbn [bind].
  assert (Ax1 : axis_out u1) by (intros l K0 Hl HK0; apply Hax; congruence).
  assert (Hdone : G (Ret (SUCCESS, (o2, u1)))).
  { exists SUCCESS, o2, u1. split; [reflexivity|]. split; [codes|]. split; [exact C1|exact Ax1]. }
  destruct wb eqn:Ew; [|exact Hdone].
  destruct (Hwb eq_refl) as (bs & Ebs & EK & HKb). destruct Hb as (bsub0 & -> & Lb0 & Ab0).
  pose proof (c_K _ _ _ _ Cv) as [Kc1 Kc2]. unfold v0 in Kc1, Kc2. unfold cap in Kc1; cbn in Kc1, Kc2.
  destruct (u_K v) as [Ks|] eqn:EKv; [|destruct Kc2 as [Kc2 _]; now discriminate Kc2].
  cbn [deref bind]. destruct (Nat.eqb Ks 0); [exact Hdone|].
  pose proof (c_bs _ _ _ _ Cv) as Kb. unfold v0 in Kb. cbn in Kb. destruct (u_bs v) as [bsub|] eqn:Ebv; [|contradiction]. pose proof (kept_length _ _ _ Kb).
  assert (Absub : axis Ks bsub) by (apply Axv; assumption).
  rewrite Eb1, Ebs. cbn [deref bind].
  pose proof (c_nc _ _ _ _ Cv) as Kn. unfold v0 in Kn. cbn in Kn. destruct (u_nc v) as [nsub|]; [|contradiction]. pose proof (kept_length _ _ _ Kn) as Ln.
  rewrite (kk_junk E HE) in Ln.
  set (rv := match own with Some l => Some l | None => u_nc u1 end).
  destruct (Hown K) as [Ho1 Ho2]; [congruence|exact EK|].
  assert (Hrv : ds = DS_RESIDUES \/ ds = DS_BOTH -> exists l, rv = Some l /\ (2 * K <= length l)%nat).
  { intros Hc0. unfold rv. destruct own as [l|]; [exists l; auto|]. rewrite En1. destruct (u_nc u) as [nc|] eqn:Enc; [|exfalso; now apply Ho2].
    exists nc. split; [reflexivity|]. destruct Hc0 as [->| ->]; [congruence|]. apply (r_nc _ _ _ _ HR nc K eq_refl); [congruence|exact Enc|exact EK]. }
  destruct (richardson_bs_safe K Ks ds eps_t scn scd bsub bs rv (Some nsub) Hsd) as (bs2 & rv2 & sub2 & Erb & Kb2 & Krv & Krv2); [lia|lia| |].
  { intros Hc0. split; [now apply Hrv|]. exists nsub. split; [reflexivity|]. rewrite Ln. unfold ds_len. rewrite Hds. destruct Hc0 as [->| ->]; cbn; lia. }
  rewrite Erb. cbn [bind].
  assert (Abs2 : axis K bs2) by (eapply richardson_bs_axis; [|exact Absub|exact Erb]; apply Hax; assumption).
  assert (Ax2 : forall x, axis_out (set_nc (set_bs u1 (Some bs2)) x)).
  { intros x l K0 Hl HK0. cbn in Hl, HK0. injection Hl as <-. rewrite EK1, EK in HK0. injection HK0 as <-. exact Abs2. }
  assert (C2 : contained M (sizes (kset_ds o ds)) u (set_bs u1 (Some bs2))).
  { eapply contained_trans; [exact C1|]. constructor; cbn; try apply kept_opt_refl.
    - rewrite Eb1, Ebs. cbn. unfold cap. rewrite EK1, EK. exact Kb2.
    - unfold cap; cbn. split; [lia|tauto]. }
  assert (Hnc : ds = DS_RESIDUES \/ ds = DS_BOTH -> exists nc, u_nc u = Some nc /\ (ds_values ds * K <= length nc)%nat).
  { intros Hc0. destruct (u_nc u) as [nc|] eqn:Enc; [|exfalso; now apply Ho2]. exists nc. split; [reflexivity|].
    apply (r_nc _ _ _ _ HR nc K eq_refl); [congruence|exact Enc|exact EK]. }
  assert (Hfin : forall nc nc', u_nc u = Some nc -> kept (ds_values ds * K) nc nc' ->
     contained M (sizes (kset_ds o ds)) u (set_nc (set_bs u1 (Some bs2)) (Some nc'))).
  { intros nc nc' Enc Kn'. eapply contained_trans; [exact C2|]. constructor; cbn; try apply kept_opt_refl; try apply kept_refl.
    - rewrite En1, Enc. cbn. unfold cap. cbn. rewrite EK1, EK. exact Kn'.
    - unfold cap; cbn. split; [lia|tauto]. }
  assert (Hsame : contained M (sizes (kset_ds o ds)) u (set_nc (set_bs u1 (Some bs2)) (u_nc (set_bs u1 (Some bs2))))) by exact C2.
  assert (Hother : ds <> DS_RESIDUES -> ds <> DS_BOTH -> match own with Some _ => u_nc (set_bs u1 (Some bs2)) | None => rv2 end = u_nc u1).
  { intros Ha Hb. destruct own; [reflexivity|]. rewrite (Krv2 Ha Hb). reflexivity. }
  destruct ds.
  - rewrite Hother by discriminate. exists SUCCESS, o2, (set_nc (set_bs u1 (Some bs2)) (u_nc u1)). split; [reflexivity|]. split; [codes|]. split; [exact Hsame|apply Ax2].
  - destruct (Hrv (or_introl eq_refl)) as (lr & Er & Lr). rewrite Er in Krv. destruct rv2 as [rv2|]; [|contradiction]. cbn in Krv. pose proof (kept_length _ _ _ Krv).
    destruct (Hnc (or_introl eq_refl)) as (nc & Enc & Lnc). cbn [deref bind u_nc set_bs]. rewrite En1, Enc. cbn [deref bind].
    cbn in Lnc. destruct (copy_kept K 0 (skipn K rv2) nc K) as (nc2 & -> & Kn2); [rewrite skipn_length; lia|lia|lia|]. cbn [bind].
    eexists SUCCESS, o2, _. split; [reflexivity|]. split; [codes|]. split; [|apply Ax2]. apply (Hfin nc); [exact Enc|]. cbn. rewrite Nat.add_0_r. exact Kn2.
  - destruct (Hrv (or_intror eq_refl)) as (lr & Er & Lr). rewrite Er in Krv. destruct rv2 as [rv2|]; [|contradiction]. cbn in Krv. pose proof (kept_length _ _ _ Krv).
    destruct (Hnc (or_intror eq_refl)) as (nc & Enc & Lnc). cbn [deref bind u_nc set_bs]. rewrite En1, Enc. cbn [deref bind].
    cbn [ds_values] in Lnc. destruct (copy_kept (2 * K) 0 rv2 nc (2 * K)) as (nc2 & -> & Kn2); [lia|lia|lia|]. cbn [bind].
    eexists SUCCESS, o2, _. split; [reflexivity|]. split; [codes|]. split; [|apply Ax2]. apply (Hfin nc); [exact Enc|]. exact Kn2.
  - rewrite Hother by discriminate. exists SUCCESS, o2, (set_nc (set_bs u1 (Some bs2)) (u_nc u1)). split; [reflexivity|]. split; [codes|]. split; [exact Hsame|apply Ax2].
Qed.

(** the check passes for a valid call *)
Lemma check_valid D q T M XI o u : kdvv_valid D q T M XI o u -> kdvv_readable D q M XI u -> kdvv_check D q T M XI o u = Ret SUCCESS.
Proof.
  intros [V1 V2 V3 V4 V5 V6 V7 V8 V9] [R1 R2 R3]. unfold kdvv_check.
  destruct (Nat.ltb_spec D 2); [lia|]. destruct q as [q|]; [|congruence]. specialize (R1 q eq_refl).
  unfold some_imaginary. destruct (any_loop (fun x => if Req_EM_T (snd x) 0 then false else true) D q) as (b & -> & Hb); [lia|]. cbn [bind].
  destruct b.
  { destruct Hb as [Hb _]. destruct (Hb eq_refl) as (i & x & Hi & Hx & HP). rewrite (V3 q i x eq_refl Hi Hx) in HP. destruct (Req_EM_T 0 0); [discriminate|contradiction]. }
  rewrite (proj2 (bad_interval_spec T) V4).
  assert (HX : negb (no_ptr (u_cs u)) && bad_interval XI = false).
  { destruct (u_cs u); [|reflexivity]. cbn. apply bad_interval_spec, V5. discriminate. }
  rewrite HX.
  assert (HZ : some_zero M XI = Ret false).
  { unfold some_zero. destruct (Nat.eqb_spec M 0); [reflexivity|]. destruct XI as [I|]; [|now destruct (R2 n)]. cbn [deref bind].
    destruct (Nat.eqb_spec M 1); [reflexivity|]. f_equal. apply not_true_iff_false. intros Ht. apply existsb_exists in Ht. destruct Ht as (i & Hi & Ht).
    destruct (Req_EM_T _ 0) as [Ez|]; [|discriminate]. apply in_seq in Hi. apply (V6 I i eq_refl); [lia|lia|]. rewrite <- Ez. unfold grid_point, Rdiv. ring. }
  rewrite HZ. cbn [bind]. destruct (u_bs u) as [bs|] eqn:Eb; [|reflexivity]. destruct (u_K u) as [K|] eqn:EK; [|now destruct V7].
  destruct (k_loc o) eqn:El; try reflexivity. unfold some_bad_guess.
  match goal with |- context [for_ K 0 ?f false] => assert (Ef : for_ K 0 f false = for_ K 0 (fun i b => x <- aget bs i ;;
      Ret (b || ((if Req_EM_T (fst x) 0 then false else true) || (if Rle_dec (snd x) 0 then true else false)))) false) end.
  { apply for_same. intros i b. destruct (aget bs i); cbn [bind]; [|reflexivity]. now rewrite orb_assoc. }
  rewrite Ef. clear Ef.
  destruct (any_loop (fun x => (if Req_EM_T (fst x) 0 then false else true) || (if Rle_dec (snd x) 0 then true else false)) K bs) as (g & -> & Hg); [now apply R3|].
  cbn [bind]. destruct g; [|reflexivity]. destruct Hg as [Hg _]. destruct (Hg eq_refl) as (i & x & Hi & Hx & HP).
  destruct (V8 bs K i x eq_refl eq_refl eq_refl Hi Hx) as [P1 P2]. unfold on_imaginary_axis in P1. rewrite P1 in HP.
  destruct (Req_EM_T 0 0); [|contradiction]. destruct (Rle_dec (snd x) 0); [lra|discriminate].
Qed.

Lemma krun_safe E D q T M XI o u : kenv_ok E -> kdvv_safe_call D q T M XI o u ->
  exists c o' u', kdvv_run E D q T M XI o u = Ret (c, (o', u')) /\ ok_code c /\ contained M (sizes o) u u' /\ (c = SUCCESS -> axis_out u').
Proof.
  intros HE [HV HRd Hsz HR HM Hrich]. unfold kdvv_run. rewrite (check_valid _ _ _ _ _ _ _ HV HRd). cbn [bind Z.eqb SUCCESS negb].
  destruct HV as [V1 V2 V3 V4 V5 V6 V7 V8 V9]. destruct HRd as [R1 R2 R3].
  set (G := fun x : out (Z * (kopts * outs)) => exists c o' u', x = Ret (c, (o', u')) /\ ok_code c /\ contained M (sizes o) u u' /\ (c = SUCCESS -> axis_out u')).
  match goal with |- exists c o' u', ?x = _ /\ _ /\ _ => change (G x) end.
  assert (Hfail : forall c o', ok_code c -> c <> SUCCESS -> G (Ret (c, (o', u)))).
  { intros c o' Hc N. exists c, o', u. split; [reflexivity|]. split; [exact Hc|]. split; [apply contained_refl|congruence]. }
  assert (Hdone : forall c o' u', ok_code c -> contained M (sizes o) u u' -> (c = SUCCESS -> axis_out u') -> G (Ret (c, (o', u')))).
  { intros c o' u' Hc Hu Ha. exists c, o', u'. auto. }
  pose proof (proj1 (kups _) V9) as Hu. set (ups := kdv_upsampling_factor (k_disc o)) in *.
  destruct (Nat.eqb_spec ups 0) as [|_]; [contradiction|].
  destruct q as [q|]; [|congruence]. destruct V4 as (t0 & t1 & -> & HT). cbn [deref bind fst snd].
  specialize (R1 q eq_refl). rewrite step_ok by exact V1. cbn [bind]. set (eps_t := ((t1 - t0) / INR (D - 1))%R).
  assert (Hep : (0 < eps_t)%R) by (apply step_pos; [lra|exact V1]).
  cbv zeta. set (rich := Nat.eqb (k_rich o) 1).
  set (res := rich && match k_ds o with DS_RESIDUES => true | _ => false end).
  set (o1 := if res then kset_ds o DS_BOTH else o).
  assert (Hr : rich = true -> k_rich o = 1%nat) by (apply Nat.eqb_eq).
  assert (Hres : res = true -> rich = true /\ k_ds o = DS_RESIDUES).
  { unfold res. destruct rich; [|discriminate]. destruct (k_ds o); try discriminate. auto. }
  assert (D1 : k_disc o1 = k_disc o) by (unfold o1; destruct res; reflexivity).
  assert (B1 : k_loc o1 = k_loc o) by (unfold o1; destruct res; reflexivity).
  assert (C1 : k_cs o1 = k_cs o) by (unfold o1; destruct res; reflexivity).
  assert (HK2 : exists K2, (if res then K <- deref (u_K u);; Ret (2 * K)%nat else Ret 0%nat) = Ret K2 /\ (res = true -> K2 = (2 * cap u)%nat)).
  { destruct res eqn:Er; [|exists O; split; [reflexivity|discriminate]].
    destruct (Hres eq_refl) as [Hr1 Hr2]. destruct (Hrich (Hr Hr1)) as (_ & _ & HH & _). destruct (HH Hr2) as [HH' _]. unfold cap.
    destruct (u_K u) as [K|]; [|congruence]. cbn [deref bind]. eexists. split; [reflexivity|]. auto. }
  destruct HK2 as (K2 & -> & HK2). cbn [bind].
  destruct (res && negb (ke_alloc E 0 9)); [apply Hfail; [codes|discriminate]|].
  set (own := if res then Some (ke_junk E 9 K2) else None).
  rewrite D1. destruct (kk_pre E HE 0 D q eps_t D (k_disc o) V1 R1 Hep) as (p & -> & Hp). cbn [bind].
  destruct p as [c|p]. { destruct Hp as [Hc N]. rewrite E_SUB_ok by exact Hc. cbn [bind]. apply Hfail; [now apply ok_neg|now apply abs_nonzero]. }
  destruct Hp as (nskip & Es & _ & _ & Lq & Lr). rewrite sizes_full in Es by exact V1. injection Es as <- EDs. rewrite <- EDs in Lq, Lr. fold ups in Lq, Lr.
  set (ds := if rich then k_ds o else DS_NORMING_CONSTANTS).
  assert (Hnone : res = true -> u_bs u = None).
  { intros E0. destruct (Hres E0) as [Hr1 Hr2]. destruct (Hrich (Hr Hr1)) as (_ & _ & HH & _). now apply HH. }
  assert (Ho1 : res = false -> o1 = o) by (intros E0; unfold o1; now rewrite E0).
  destruct (kbase_safe E 1 (D * ups) D (po_q p) (po_r p) (t0, t1) M XI o1 u) as (c2 & v2 & -> & Hc2 & Cv2 & Hnc2 & Ax2); auto.
  { now rewrite D1. } { rewrite D1. reflexivity. }
  { destruct res eqn:Er; [|now rewrite (Ho1 eq_refl)]. destruct HR as [A1 A2 A3]. constructor.
    - exact A1.
    - exact A2.
    - intros l K _ Hb. now destruct (Hnone eq_refl). }
  { rewrite B1. intros Hl l K Hl0 HK i x Hi Hx. now apply (V8 l K i x). }
  cbn [bind].
  assert (Cu2 : contained M (sizes o) u v2).
  { destruct res eqn:Er; [|rewrite (Ho1 eq_refl) in Cv2; exact Cv2]. destruct Cv2 as [A1 A2 A3 A4]. cbn in A1.
    constructor; auto. rewrite (Hnc2 (Hnone eq_refl)). apply kept_opt_refl. }
  unfold check. destruct (Z.eqb_spec c2 SUCCESS) as [Sc2|N]. 2:{ rewrite E_SUB_ok by exact Hc2. cbn [bind]. apply Hdone; [now apply ok_neg|exact Cu2|]. intros Hz. now apply abs_nonzero in Hz. }
  specialize (Ax2 Sc2).
  destruct rich eqn:Er; [|apply Hdone; [codes|exact Cu2|auto]].
  destruct (Hrich (Hr eq_refl)) as (H3 & HXI & HRK & Hboth).
  assert (Hds : sizes (kset_ds o1 ds) = sizes o) by (unfold ds, o1; destruct res; reflexivity).
  unfold ups. rewrite <- D1.
  destruct (krichardson_safe E D q (t0, t1) M XI eps_t ds own o1 v2) as (c & o' & u' & -> & Hc & Cu' & Ax'); auto.
  - now rewrite D1.
  - rewrite D1. exact Hsz.
  - intros Hc. apply HM. now apply (contained_cs_some _ _ _ _ Cu2).
  - intros Hb. apply (contained_bs_some _ _ _ _ Cu2) in Hb. apply (contained_K_some _ _ _ _ Cu2). now apply V7.
  - rewrite Hds. eapply contained_room; eassumption.
  - unfold ds, o1, res. destruct (k_ds o) eqn:E0; cbn; auto.
  - intros K Hb EK. apply (contained_bs_some _ _ _ _ Cu2) in Hb. unfold own, ds. destruct res eqn:Ers; [now destruct (Hnone eq_refl)|].
    unfold res in Ers. cbn in Ers. split; [destruct (k_ds o); congruence|].
    intros [Hd0|Hd0]; [rewrite Hd0 in Ers; discriminate|]. apply (contained_nc_some _ _ _ _ Cu2). now apply Hboth.
  - apply Hdone; [exact Hc| |auto]. rewrite Hds in Cu'. eapply contained_trans; eassumption.
Qed.

(** Whatever the subroutines compute and wherever they or an allocation fail: a valid call comes back with an error code
   and has stayed inside the arrays. *)
Theorem kdvv_stays_in_bounds E D q T M XI user dflt u : kenv_ok E ->
  kdvv_safe_call D q T M XI (match user with Some o => o | None => dflt end) u ->
  exists code u' user' dflt', fnft_kdvv E D q T M XI user dflt u = Ret (code, u', user', dflt')
    /\ ok_code code /\ contained M (sizes (match user with Some o => o | None => dflt end)) u u'.
Proof.
  intros HE HS. destruct (krun_safe E D q T M XI _ u HE HS) as (c & o' & u' & Er & Hc & Cu & _). unfold fnft_kdvv. rewrite Er. cbn [bind].
  eexists _, _, _, _. split; [reflexivity|]. auto.
Qed.

(** Every bound state that a successful call returns is purely imaginary: the grid search, Newton's method and
   the Richardson extrapolation do not leave the imaginary axis. *)
Theorem kdvv_bound_states_imaginary E D q T M XI user dflt u u' user' dflt' l K i x : kenv_ok E ->
  kdvv_safe_call D q T M XI (match user with Some o => o | None => dflt end) u ->
  fnft_kdvv E D q T M XI user dflt u = Ret (SUCCESS, u', user', dflt') ->
  u_bs u' = Some l -> u_K u' = Some K -> (i < K)%nat -> nth_error l i = Some x -> fst x = 0%R.
Proof.
  intros HE HS H Hl HK Hi Hx. destruct (krun_safe E D q T M XI _ u HE HS) as (c & o' & u1 & Er & _ & _ & Ax). unfold fnft_kdvv in H. rewrite Er in H. cbn [bind] in H.
  injection H as -> -> _ _. exact (Ax eq_refl l K Hl HK i x Hi Hx).
Qed.
