(** * fnft_kdvv stays inside the arrays of the caller (C63), and its bound states on the imaginary axis (C64): proofs, part 2 *)
From Coq Require Import Reals Lra.
From Coquelicot Require Import Coquelicot.
From Verif Require Import Loop MiscSpec MiscProof MiscProps MiscMetricProps MiscNumProps PolyFmultProof DiscProps DiscPreProps NsevSpec NsevProps
  NsevSafe NsevSafe2 NsevSafe3 NsevSafe4 NsevSafe5 KdvvSpec KdvvProps KdvvSafe KdvvGrid.
Local Open Scope C_scope.

Lemma nth_error_firstn_lt {A} (l : list A) n i : (i < n)%nat -> nth_error (firstn n l) i = nth_error l i.
Proof. revert n i. induction l as [|a l IH]; intros [|n] [|i] H; cbn; try lia; try reflexivity. apply IH. lia. Qed.
Lemma axis_app n m l zs : firstn m l = zs -> (n <= m)%nat -> Forall on_imaginary_axis zs -> axis n l.
Proof.
  intros E Hn F i x Hi Hx. rewrite Forall_forall in F. apply F. rewrite <- E.
  apply nth_error_In with i. rewrite nth_error_firstn_lt by lia. exact Hx.
Qed.

Lemma kgridsearch_safe E s D q r dist eps_t Kmax bs slow o : kenv_ok E -> (2 <= D)%nat -> length q = D -> length r = D -> (0 < eps_t)%R ->
  (Kmax <= length bs)%nat ->
  exists c K bs', kdvv_gridsearch E s D q r dist eps_t Kmax bs slow o = Ret (c, (K, bs')) /\ ok_code c /\ kept Kmax bs bs'
    /\ (forall k, K = Some k -> (k <= Kmax)%nat /\ (c = SUCCESS -> axis k bs')).
Proof.
  intros HE HD Lq Lr He HK. unfold kdvv_gridsearch. cbv zeta.
  assert (Hf : forall c, ok_code c -> c <> SUCCESS -> exists c' K bs', Ret (c, (Some Kmax, bs)) = Ret (c', (K, bs')) /\ ok_code c' /\ kept Kmax bs bs'
    /\ (forall k, K = Some k -> (k <= Kmax)%nat /\ (c' = SUCCESS -> axis k bs'))).
  { intros c Hc N. exists c, (Some Kmax), bs. split; [reflexivity|]. split; [exact Hc|]. split; [apply kept_refl|]. intros k Hk. injection Hk as <-. split; [lia|congruence]. }
  assert (Hz : exists c' K bs', Ret (SUCCESS, (None, bs)) = Ret (c', (K, bs')) /\ ok_code c' /\ kept Kmax bs bs'
    /\ (forall k, K = Some k -> (k <= Kmax)%nat /\ (c' = SUCCESS -> axis k bs'))).
  { eexists _, None, bs. split; [reflexivity|]. split; [codes|]. split; [apply kept_refl|discriminate]. }
  destruct (Rle_dec dist 0); [apply Hf; [unfold EC_ASSERTION_FAILED; codes|discriminate]|].
  destruct (k_grid o) as [g|[]|]; try (exact Hz || (apply Hf; [codes|discriminate])).
  destruct (Rlt_dec 0 g); [|apply Hf; [codes|discriminate]].
  set (M := uceil (dist / g)). destruct (Nat.ltb_spec M 2) as [|HM]; [exact Hz|].
  destruct (ke_alloc E s 10); cbn [negb]; [|apply Hf; [codes|discriminate]].
  destruct (ke_alloc E s 11); cbn [negb]; [|apply Hf; [codes|discriminate]].
  destruct (k_norm o && negb (ke_alloc E s 12)); [apply Hf; [codes|discriminate]|].
  destruct (kk_smat E HE s D q r eps_t M (search_grid E M dist) (k_norm o) slow HD Lq Lr He) as (c & sc & Ws & -> & Hc & Lsc & LW); [lia|apply search_grid_length|].
  cbn [bind]. unfold check. destruct (Z.eqb_spec c SUCCESS).
  2:{ rewrite E_SUB_ok by exact Hc. cbn [bind]. apply Hf; [now apply ok_neg|now apply abs_nonzero]. }
  destruct (crossings_spec M (search_grid E M dist) sc (if k_norm o then Some Ws else None) Kmax) with (cnt := M) (i := O) (K := O) (bs := bs)
    as (c2 & K2 & bs2 & is & E2 & Kb & HK2 & _ & Hin & Hok & Hbad); try lia.
  { apply search_grid_length. }
  { intros w Hw. destruct (k_norm o); [|discriminate]. injection Hw as <-. auto. }
  rewrite E2. cbn [bind]. exists c2, (Some K2), bs2. split; [reflexivity|]. split.
  { destruct (Nat.leb_spec (0 + length is) Kmax) as [Hl|Hl]; [destruct (Hok Hl) as (-> & _); codes|rewrite (Hbad Hl); codes]. }
  split; [exact Kb|]. intros k Hk. injection Hk as <-. split; [exact HK2|]. intros Sc2.
  destruct (Nat.leb_spec (0 + length is) Kmax) as [Hl|Hl].
  2:{ rewrite (Hbad Hl) in Sc2. discriminate. }
  destruct (Hok Hl) as (_ & _ & zs & F & Ez). cbn [firstn app] in Ez. eapply axis_app; [exact Ez|lia|].
  apply Forall_forall. intros z Hz'. clear -F Hz' Hin.
  assert (HI : exists i, In i is /\ hit (sc_at sc) (pt_at (search_grid E M dist)) (if k_norm o then Some Ws else None) i z).
  { clear Hin. induction F as [|i z' is zs H F IH]; [contradiction|]. destruct Hz' as [->|Hz']; [exists i; split; [now left|exact H]|].
    destruct (IH Hz') as (j & Hj & Hh). exists j. split; [now right|exact Hh]. }
  destruct HI as (i & Hi & Hh). eapply found_axis; [|apply Hin; exact Hi|eapply hit_found; exact Hh]. intros j. apply grid_axis.
Qed.

Lemma kboundstates_safe E s D Dg q r T eps_t K_in bs o : kenv_ok E -> kdv_known (k_disc o) ->
  D = (Dg * kdv_upsampling_factor (k_disc o))%nat -> (2 <= D)%nat -> length q = D -> length r = D -> (fst T < snd T)%R -> (0 < eps_t)%R ->
  (K_in <= length bs)%nat -> (k_loc o = KB_NEWTON -> axis K_in bs) ->
  exists c K bs', kdvv_compute_boundstates E s D q r T eps_t K_in bs o = Ret (c, (K, bs')) /\ ok_code c
    /\ (K <= K_in)%nat /\ kept K_in bs bs' /\ (c = SUCCESS -> axis K bs').
Proof.
  intros HE Hd HD HD2 Lq Lr HT He HK Hax. unfold kdvv_compute_boundstates. cbv zeta.
  assert (Hfail : forall c0 b0, ok_code c0 -> c0 <> SUCCESS -> kept K_in bs b0 -> exists c K bs', Ret (c0, (K_in, b0)) = Ret (c, (K, bs')) /\ ok_code c /\ (K <= K_in)%nat /\ kept K_in bs bs' /\ (c = SUCCESS -> axis K bs')).
  { intros c0 b0 H0 N H1. exists c0, K_in, b0. split; [reflexivity|]. split; [exact H0|]. split; [lia|]. split; [exact H1|congruence]. }
  assert (Hzero : forall b0, kept K_in bs b0 -> exists c K bs', Ret (SUCCESS, (O, b0)) = Ret (c, (K, bs')) /\ ok_code c /\ (K <= K_in)%nat /\ kept K_in bs bs' /\ (c = SUCCESS -> axis K bs')).
  { intros b0 H1. exists SUCCESS, O, b0. split; [reflexivity|]. split; [codes|]. split; [lia|]. split; [exact H1|]. intros _ i x Hi. lia. }
  destruct (Nat.eqb _ 0); [apply Hfail; [codes|discriminate|apply kept_refl]|].
  destruct (kslow_some _ Hd) as (slow & ->).
  destruct (bound_squared_spec D Dg q (k_disc o) Hd HD Lq) as (b & -> & _). cbn [bind].
  destruct (Req_EM_T _ 0); [apply Hzero, kept_refl|].
  set (bb := {| x0 := _; x1 := _; x2 := _; x3 := _ |}).
  assert (Href : forall K b0, (K <= K_in)%nat -> kept K_in bs b0 -> axis K b0 -> exists c K' bs', (x <- kdvv_refine_newton E s D q r T K b0 slow (k_niter o) bb (k_norm o);;
      let '(code, bs) := x in check code (K_in, bs) (Ret (SUCCESS, (K, bs)))) = Ret (c, (K', bs')) /\ ok_code c /\ (K' <= K_in)%nat /\ kept K_in bs bs' /\ (c = SUCCESS -> axis K' bs')).
  { intros K b0 HK0 Kb0 A0. pose proof (kept_length _ _ _ Kb0).
    destruct (knewton_safe E s D q r T K b0 slow (k_niter o) bb (k_norm o) HE HD2 Lq Lr HT) as (c & b1 & -> & Hc & Kb1 & A1); [lia|exact A0|]. cbn [bind].
    assert (Kb2 : kept K_in bs b1) by (eapply kept_trans; [exact Kb0|]; eapply kept_mono; [|exact Kb1]; lia).
    unfold check. destruct (Z.eqb_spec c SUCCESS).
    - eexists _, _, _. split; [reflexivity|]. split; [codes|]. split; [exact HK0|]. split; [exact Kb2|auto].
    - rewrite E_SUB_ok by exact Hc. cbn [bind]. apply Hfail; [now apply ok_neg|now apply abs_nonzero|exact Kb2]. }
  destruct (k_loc o).
  - apply Href; [lia|apply kept_refl|auto].
  - destruct (kgridsearch_safe E s D q r (sqrt (safety_factor (k_disc o) * b)) eps_t K_in bs slow o HE HD2 Lq Lr He HK) as (c & K & b1 & -> & Hc & Kb & Hk). cbn [bind].
    destruct (Z.eqb_spec c SUCCESS) as [Sc|N]; cbn [negb]; [|apply Hfail; assumption].
    destruct K as [K|]; [|apply Hzero; exact Kb]. destruct (Hk K eq_refl) as [H1 H2]. apply Href; auto.
  - apply Hfail; [codes|discriminate|apply kept_refl].
Qed.

(** all returned bound states are on the imaginary axis *)
Definition axis_out (u : outs) : Prop := forall l K, u_bs u = Some l -> u_K u = Some K -> axis K l.

Lemma knumel_ok D d : (1 <= D)%nat -> (Z.of_nat D <= 2 ^ 63)%Z -> exists n, kdv_fscatter_numel D d = Ret n /\
  (kdv_degree d = O -> n = O) /\ (kdv_degree d <> O -> n <> O /\ (4 * (kdv_degree d * D + 1) <= n)%nat).
Proof.
  intros H1 H2. unfold kdv_fscatter_numel. destruct (Nat.eqb_spec (kdv_degree d) 0) as [E|N].
  - exists O. split; [reflexivity|]. split; [auto|congruence].
  - unfold fmult_numel. destruct (np2_ok D H1 H2) as (k & -> & Hk & _). cbn [bind]. eexists. split; [reflexivity|].
    split; [congruence|]. intros _. split; nia.
Qed.

Lemma kbase_safe E s D Dg q r T M XI o u : kenv_ok E -> kdv_known (k_disc o) ->
  D = (Dg * kdv_upsampling_factor (k_disc o))%nat -> (2 <= Dg)%nat -> (Z.of_nat D <= 2 ^ 63)%Z ->
  length q = D -> length r = D -> (fst T < snd T)%R ->
  (u_cs u <> None -> M <> 1%nat) -> (u_bs u <> None -> u_K u <> None) -> room 1 M (sizes o) u ->
  (k_loc o = KB_NEWTON -> axis_out u) ->
  exists c u', fnft_kdvv_base E s D q r T M XI o u = Ret (c, u') /\ ok_code c /\ contained M (sizes o) u u'
    /\ (u_bs u = None -> u_nc u' = u_nc u) /\ (c = SUCCESS -> axis_out u').
Proof.
  intros HE Hd HD Hg Hsz Lq Lr HT HM HKp HR Hax. unfold fnft_kdvv_base. cbv zeta.
  pose proof (proj1 (kups _) Hd) as Hu. assert (HD2 : (2 <= D)%nat) by nia.
  assert (Hfail : forall c0 u0, ok_code c0 -> contained M (sizes o) u u0 -> (u_bs u = None -> u_nc u0 = u_nc u) -> (c0 = SUCCESS -> axis_out u0) ->
     exists c u', Ret (c0, u0) = Ret (c, u') /\ ok_code c /\ contained M (sizes o) u u' /\ (u_bs u = None -> u_nc u' = u_nc u) /\ (c = SUCCESS -> axis_out u')).
  { intros c0 u0 H0 H1 H2 H3. exists c0, u0. auto. }
  assert (HXI : u_cs u <> None -> args_bad D (Some q) (Some T) XI 1 u = false -> XI <> None).
  { intros Hc Ha. apply (args_bad_spec _ _ _ _ _ (sizes o)) in Ha. destruct Ha as (_ & _ & _ & Ha & _). destruct (Ha Hc) as (a & b & -> & _). discriminate. }
  destruct (args_bad D (Some q) (Some T) XI 1 u) eqn:Ea; [apply Hfail; [codes|apply contained_refl|auto|discriminate]|].
  destruct (Nat.eqb_spec (kdv_upsampling_factor (k_disc o)) 0) as [Hu0|_]; [lia|].
  assert (ED : (D / kdv_upsampling_factor (k_disc o) = Dg)%nat) by (rewrite HD; apply Nat.div_mul; lia).
  rewrite ED, step_ok by exact Hg. cbn [bind]. set (eps_t := ((snd T - fst T) / INR (Dg - 1))%R).
  assert (He : (0 < eps_t)%R) by (apply step_pos; [lra|exact Hg]).
  destruct (knumel_ok D (k_disc o)) as (n & En & Hn0 & Hn1); [lia|exact Hsz|]. rewrite En. cbn [bind].
  destruct (negb (Nat.eqb n 0) && negb (ke_alloc E s 8)); [apply Hfail; [codes|apply contained_refl|auto|discriminate]|].
  assert (HT0 : exists c deg tm W, (if negb (Nat.eqb n 0)
        then x <- ke_fscatter E s D q r eps_t (ke_junk E 8 n) (k_norm o) (k_disc o) ;;
             let '(code, deg, tm, W) := x in
             Ret (code, deg, Some tm, if k_norm o then W else 0%Z)
        else Ret (SUCCESS, O, None, 0%Z)) = Ret (c, deg, tm, W) /\ ok_code c
      /\ (tm = None -> deg = O /\ W = 0%Z) /\ (c = SUCCESS -> forall t, tm = Some t -> (4 * (deg + 1) <= length t)%nat)).
  { destruct (Nat.eqb_spec n 0) as [E0|N0]; cbn [negb].
    - eexists _, _, _, _. split; [reflexivity|]. split; [codes|]. split; [auto|discriminate].
    - assert (Hz : kdv_degree (k_disc o) <> O) by (intros Hz; now apply N0, Hn0).
      destruct (kk_fscatter E HE s D q r eps_t (ke_junk E 8 n) (k_norm o) (k_disc o) HD2 Lq Lr He) as (c & deg & tm & W & -> & Hc & Lt & Hdeg); [now rewrite (kk_junk E HE)|exact Hz|].
      cbn [bind]. eexists _, _, _, _. split; [reflexivity|]. split; [exact Hc|]. split; [discriminate|].
      intros Hs t Et. injection Et as <-. rewrite (Hdeg Hs), Lt, (kk_junk E HE). apply Hn1, Hz. }
  destruct HT0 as (c & deg & tm & W & -> & Hc & Htm & Htm2). cbn [bind].
  unfold check. destruct (Z.eqb_spec c SUCCESS) as [Sc|N]. 2:{ rewrite E_SUB_ok by exact Hc. cbn [bind]. apply Hfail; [now apply ok_neg|apply contained_refl|auto|]. intros Hz. now apply abs_nonzero in Hz. }
  specialize (Htm2 Sc).
  assert (HC : exists c1 u1, (match u_cs u with
       | Some cs => if (0 <? M)%nat
                    then x <- kdvv_compute_contspec E s deg W tm q r T D XI M cs o ;; Ret (fst x, set_cs u (Some (snd x)))
                    else Ret (SUCCESS, u)
       | None => Ret (SUCCESS, u)
       end) = Ret (c1, u1) /\ ok_code c1 /\ contained M (sizes o) u u1 /\ u_bs u1 = u_bs u /\ u_K u1 = u_K u /\ u_nc u1 = u_nc u).
  { destruct (u_cs u) as [cs|] eqn:Ecs.
    - destruct (Nat.ltb_spec 0 M).
      + destruct (kcontspec_safe E s deg W tm q r T D Dg XI M cs o) as (c1 & cs1 & -> & Hc1 & K1); auto.
        { specialize (HM ltac:(discriminate)). lia. } { apply HXI; [discriminate|reflexivity]. } { now apply (r_cs _ _ _ _ HR). }
        cbn [bind fst snd]. eexists _, _. split; [reflexivity|]. split; [exact Hc1|]. split; [|auto].
        constructor; cbn; try apply kept_opt_refl. { rewrite Ecs. exact K1. } split; [unfold cap; cbn; lia|tauto].
      + eexists _, _. split; [reflexivity|]. split; [codes|]. split; [apply contained_refl|auto].
    - eexists _, _. split; [reflexivity|]. split; [codes|]. split; [apply contained_refl|auto]. }
  destruct HC as (c1 & u1 & -> & Hc1 & C1 & Eb & EK & Ec). cbn [bind].
  destruct (Z.eqb_spec c1 SUCCESS) as [_|N]. 2:{ rewrite E_SUB_ok by exact Hc1. cbn [bind]. apply Hfail; [now apply ok_neg|exact C1|auto|]. intros Hz. now apply abs_nonzero in Hz. }
  rewrite Eb, EK.
  assert (HZ : exists c u', Ret (SUCCESS, match u_K u with Some _ => set_K u1 (Some O) | None => u1 end) = Ret (c, u') /\ ok_code c /\ contained M (sizes o) u u'
     /\ (u_bs u = None -> u_nc u' = u_nc u) /\ (c = SUCCESS -> axis_out u')).
  { destruct (u_K u) as [K|] eqn:EK0.
    - eexists _, _. split; [reflexivity|]. split; [codes|]. split; [|split; [cbn; auto|]].
      + eapply contained_trans; [exact C1|]. constructor; cbn; try apply kept_opt_refl. rewrite EK. split; [unfold cap; cbn; lia|split; discriminate].
      + intros _ l K0 _ HK0. injection HK0 as <-. intros i x Hi. lia.
    - apply Hfail; [codes|exact C1|auto|]. intros _ l K0 _ HK0. congruence. }
  destruct (u_bs u) as [bs|] eqn:Ebs; [|exact HZ].
  assert (HK0 : exists K, u_K u = Some K) by (destruct (u_K u) as [K|]; [now exists K|exfalso; now apply HKp]).
  destruct HK0 as (K & EK0). rewrite EK0 in *. cbn [deref bind].
  destruct (Nat.eqb_spec K 0) as [_|HK0]; cbn [negb]; [exact HZ|]. clear HZ.
  assert (HKb : (K <= length bs)%nat) by (eapply (r_bs _ _ _ _ HR); eassumption).
  destruct (kboundstates_safe E s D Dg q r T eps_t K bs o HE Hd HD HD2 Lq Lr HT He HKb) as (c2 & K2 & bs2 & -> & Hc2 & HK2 & Kb2 & Ax2).
  { intros Hl. apply (Hax Hl); assumption. }
  cbn [bind]. set (u2 := set_K (set_bs u1 (Some bs2)) (Some K2)).
  assert (C2 : contained M (sizes o) u u2).
  { eapply contained_trans; [exact C1|]. constructor; cbn; try apply kept_opt_refl.
    - rewrite Eb. cbn. unfold cap. rewrite EK. exact Kb2.
    - unfold cap. cbn. rewrite EK. split; [lia|split; discriminate]. }
  destruct (Z.eqb_spec c2 SUCCESS) as [Sc2|N]. 2:{ rewrite E_SUB_ok by exact Hc2. cbn [bind]. apply Hfail; [now apply ok_neg|exact C2|discriminate|]. intros Hz. now apply abs_nonzero in Hz. }
  specialize (Ax2 Sc2).
  assert (AxO : forall x, axis_out (set_nc u2 x)).
  { intros x l K0 Hl HK. cbn in Hl, HK. injection Hl as <-. injection HK as <-. exact Ax2. }
  assert (AxO2 : axis_out u2) by (intros l K0 Hl HK; cbn in Hl, HK; injection Hl as <-; injection HK as <-; exact Ax2).
  assert (Eu2 : u_nc u2 = u_nc u) by exact Ec. rewrite Eu2.
  destruct (u_nc u) as [nc|] eqn:Enc; [|apply Hfail; [codes|exact C2|discriminate|auto]].
  destruct (Nat.eqb_spec K2 0); cbn [negb]; [apply Hfail; [codes|exact C2|discriminate|auto]|].
  pose proof (kept_length _ _ _ Kb2).
  assert (Hnc : (ds_values (k_ds o) * K <= length nc)%nat) by (eapply (r_nc _ _ _ _ HR); [reflexivity|rewrite Ebs; discriminate|eassumption|exact EK0]).
  destruct (knormconsts_safe E s D q r T K2 bs2 nc o HE Hd HD2 Lq Lr HT) as (c3 & nc3 & -> & Hc3 & K3); [lia|nia|].
  cbn [bind fst snd].
  assert (C3 : contained M (sizes o) u (set_nc u2 (Some nc3))).
  { eapply contained_trans; [exact C2|]. constructor; cbn; try apply kept_opt_refl; try apply kept_refl.
    - unfold u2 in Eu2. cbn in Eu2. rewrite Eu2. cbn. unfold cap. cbn. exact K3.
    - unfold cap. cbn. split; [lia|tauto]. }
  destruct (Z.eqb_spec c3 SUCCESS) as [_|]; [|rewrite E_SUB_ok by exact Hc3; cbn [bind]]; (apply Hfail; [|exact C3|discriminate|auto]).
  - codes.
  - now apply ok_neg.
Qed.
