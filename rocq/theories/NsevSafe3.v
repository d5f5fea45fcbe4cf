(** * fnft_nsev stays inside the arrays of the caller (C45): proofs, part 3 *)
From Coq Require Import Reals Lra.
From Coquelicot Require Import Coquelicot.
From Verif Require Import Loop MiscSpec MiscProof MiscProps PolyFmultProof DiscProps NsevSpec NsevProps NsevSafe NsevSafe2.
Local Open Scope C_scope.

Lemma kept_opt_refl {A} n (l : option (list A)) : kept_opt n l l.
Proof. destruct l; cbn; [apply kept_refl|exact I]. Qed.
Lemma kept_opt_trans {A} n m (l l' l'' : option (list A)) : (m <= n)%nat -> kept_opt n l l' -> kept_opt m l' l'' -> kept_opt n l l''.
Proof. destruct l, l', l''; cbn; try tauto. intros H H1 H2. eapply kept_trans; [exact H1|]. eapply kept_mono; eassumption. Qed.
Lemma contained_refl M o u : contained M o u u.
Proof. constructor; try apply kept_opt_refl. split; [lia|tauto]. Qed.
Lemma contained_trans M o u u' u'' : contained M o u u' -> contained M o u' u'' -> contained M o u u''.
Proof.
  intros [A1 A2 A3 [A4 A5]] [B1 B2 B3 [B4 B5]]. constructor.
  - eapply kept_opt_trans; [|exact A1|exact B1]. lia.
  - eapply kept_opt_trans; [|exact A2|exact B2]. lia.
  - eapply kept_opt_trans; [|exact A3|exact B3]. nia.
  - split; [lia|]. rewrite B5. exact A5.
Qed.
Lemma contained_room kappa M o u u' : contained M o u u' -> room kappa M o u -> room kappa M o u'.
Proof.
  intros [A1 A2 A3 [A4 A5]] [B1 B2 B3]. unfold cap in *. constructor.
  - intros l Hl. rewrite Hl in A1. destruct (u_cs u) as [l0|]; [|contradiction]. cbn in A1. rewrite (kept_length _ _ _ A1). now apply B1.
  - intros l K Hl HK. rewrite Hl, HK in *. destruct (u_bs u) as [l0|]; [|contradiction]. cbn in A2. rewrite (kept_length _ _ _ A2).
    destruct (u_K u) as [K0|]; [|destruct A5 as [_ A5]; now discriminate A5]. specialize (B2 l0 K0 eq_refl eq_refl). lia.
  - intros l K Hk Hb Hl HK. rewrite Hl, HK in *. destruct (u_nc u) as [l0|]; [|contradiction]. cbn in A3. rewrite (kept_length _ _ _ A3).
    destruct (u_K u) as [K0|]; [|destruct A5 as [_ A5]; now discriminate A5].
    assert (Hb0 : u_bs u <> None) by (destruct (u_bs u); [discriminate|destruct (u_bs u'); [contradiction|congruence]]).
    specialize (B3 l0 K0 Hk Hb0 eq_refl eq_refl). nia.
Qed.

Lemma numel_ok D d : (1 <= D)%nat -> (Z.of_nat D <= 2 ^ 63)%Z -> exists n, nse_fscatter_numel D d = Ret n /\
  (nse_degree d = O -> n = O) /\ (nse_degree d <> O -> n <> O /\ (4 * (nse_degree d * D + 1) <= n)%nat).
Proof.
  intros H1 H2. unfold nse_fscatter_numel. destruct (Nat.eqb_spec (nse_degree d) 0) as [E|N].
  - exists O. split; [reflexivity|]. split; [auto|congruence].
  - unfold fmult_numel. destruct (np2_ok D H1 H2) as (k & -> & Hk & _). cbn [bind]. eexists. split; [reflexivity|].
    split; [congruence|]. intros _. split; nia.
Qed.

Lemma base_safe E s D Dg q r T M XI kappa o u : env_ok E -> known_disc (discretization o) ->
  D = (Dg * nse_upsampling_factor (discretization o))%nat -> (2 <= Dg)%nat -> (Z.of_nat D <= 2 ^ 63)%Z ->
  length q = D -> length r = D -> (fst T < snd T)%R ->
  (u_cs u <> None -> M <> 1%nat) -> (u_bs u <> None -> u_K u <> None) -> room kappa M o u ->
  (bound_state_localization o = BL_FAST_EIGENVALUE -> kappa = 1%Z -> u_bs u <> None -> nse_degree (discretization o) <> O) ->
  exists c u', fnft_nsev_base E s D q r T M XI kappa o u = Ret (c, u') /\ ok_code c /\ contained M o u u'
    /\ (kappa <> 1%Z \/ u_bs u = None -> u_nc u' = u_nc u).
Proof.
  intros HE Hd HD Hg Hsz Lq Lr HT HM HKp HR Hfast. unfold fnft_nsev_base. cbv zeta.
  pose proof (known_ups _ Hd) as Hu. assert (HD2 : (2 <= D)%nat) by nia.
  assert (Hfail : forall c0 u0, ok_code c0 -> contained M o u u0 -> (kappa <> 1%Z \/ u_bs u = None -> u_nc u0 = u_nc u) ->
     exists c u', Ret (c0, u0) = Ret (c, u') /\ ok_code c /\ contained M o u u' /\ (kappa <> 1%Z \/ u_bs u = None -> u_nc u' = u_nc u)).
  { intros c0 u0 H0 H1 H2. exists c0, u0. auto. }
  assert (HXI : u_cs u <> None -> args_bad D (Some q) (Some T) XI kappa u = false -> XI <> None).
  { intros Hc Ha. apply (args_bad_spec _ _ _ _ _ o) in Ha. destruct Ha as (_ & _ & _ & Ha & _). destruct (Ha Hc) as (a & b & -> & _). discriminate. }
  destruct (args_bad D (Some q) (Some T) XI kappa u) eqn:Ea; [apply Hfail; [codes|apply contained_refl|auto]|].
  destruct (Nat.eqb_spec (nse_upsampling_factor (discretization o)) 0) as [Hu0|_]; [lia|].
  assert (ED : (D / nse_upsampling_factor (discretization o) = Dg)%nat) by (rewrite HD; apply Nat.div_mul; lia).
  rewrite ED, step_ok by exact Hg. cbn [bind]. set (eps_t := ((snd T - fst T) / INR (Dg - 1))%R).
  assert (He : (0 < eps_t)%R) by (apply step_pos; [lra|exact Hg]).
  destruct (numel_ok D (discretization o)) as (n & En & Hn0 & Hn1); [lia|exact Hsz|]. rewrite En. cbn [bind].
  destruct (negb (Nat.eqb n 0) && negb (e_alloc E s 8)); [apply Hfail; [codes|apply contained_refl|auto]|].
  assert (HT0 : exists c deg tm W, (if negb (Nat.eqb n 0)
        then x <- e_fscatter E s D q r eps_t (e_junk E 8 n) (normalization_flag o) (discretization o) ;;
             let '(code, deg, tm, W) := x in
             Ret (code, deg, Some tm, if normalization_flag o then W else 0%Z)
        else Ret (SUCCESS, O, None, 0%Z)) = Ret (c, deg, tm, W) /\ ok_code c
      /\ (tm = None -> deg = O /\ W = 0%Z) /\ (c = SUCCESS -> forall t, tm = Some t -> (4 * (deg + 1) <= length t)%nat)
      /\ (nse_degree (discretization o) <> O -> tm <> None)).
  { destruct (Nat.eqb_spec n 0) as [E0|N0]; cbn [negb].
    - eexists _, _, _, _. split; [reflexivity|]. split; [codes|]. split; [auto|]. split; [discriminate|]. intros Hz. destruct (Hn1 Hz). congruence.
    - assert (Hz : nse_degree (discretization o) <> O) by (intros Hz; now apply N0, Hn0).
      destruct (k_fscatter E HE s D q r eps_t (e_junk E 8 n) (normalization_flag o) (discretization o) HD2 Lq Lr He) as (c & deg & tm & W & -> & Hc & Lt & Hdeg); [now rewrite (k_junk E HE)|exact Hz|].
      cbn [bind]. eexists _, _, _, _. split; [reflexivity|]. split; [exact Hc|]. split; [discriminate|]. split; [|discriminate].
      intros Hs t Et. injection Et as <-. rewrite (Hdeg Hs), Lt, (k_junk E HE). apply Hn1, Hz. }
  destruct HT0 as (c & deg & tm & W & -> & Hc & Htm & Htm2 & Htm3). cbn [bind].
  unfold check. destruct (Z.eqb_spec c SUCCESS) as [Sc|]. 2:{ rewrite E_SUB_ok by exact Hc. cbn [bind]. apply Hfail; [now apply ok_neg|apply contained_refl|auto]. }
  specialize (Htm2 Sc).
  assert (HC : exists c1 u1, (match u_cs u with
       | Some cs => if (0 <? M)%nat
                    then x <- nsev_compute_contspec E s deg W tm q r T D XI M cs kappa o ;; Ret (fst x, set_cs u (Some (snd x)))
                    else Ret (SUCCESS, u)
       | None => Ret (SUCCESS, u)
       end) = Ret (c1, u1) /\ ok_code c1 /\ contained M o u u1 /\ u_bs u1 = u_bs u /\ u_K u1 = u_K u /\ u_nc u1 = u_nc u).
  { destruct (u_cs u) as [cs|] eqn:Ecs.
    - destruct (Nat.ltb_spec 0 M).
      + destruct (contspec_safe E s deg W tm q r T D Dg XI M cs kappa o) as (c1 & cs1 & -> & Hc1 & K1); auto.
        { specialize (HM ltac:(discriminate)). lia. } { apply HXI; [discriminate|reflexivity]. } { now apply (r_cs _ _ _ _ HR). }
        cbn [bind fst snd]. eexists _, _. split; [reflexivity|]. split; [exact Hc1|]. split; [|auto].
        constructor; cbn; try apply kept_opt_refl. { rewrite Ecs. exact K1. } split; [unfold cap; cbn; lia|tauto].
      + eexists _, _. split; [reflexivity|]. split; [codes|]. split; [apply contained_refl|auto].
    - eexists _, _. split; [reflexivity|]. split; [codes|]. split; [apply contained_refl|auto]. }
  destruct HC as (c1 & u1 & -> & Hc1 & C1 & Eb & EK & Ec). cbn [bind].
  destruct (Z.eqb_spec c1 SUCCESS) as [_|]. 2:{ rewrite E_SUB_ok by exact Hc1. cbn [bind]. apply Hfail; [now apply ok_neg|exact C1|auto]. }
  rewrite Eb, EK.
  assert (HZ : exists c u', Ret (SUCCESS, match u_K u with Some _ => set_K u1 (Some O) | None => u1 end) = Ret (c, u') /\ ok_code c /\ contained M o u u'
     /\ (kappa <> 1%Z \/ u_bs u = None -> u_nc u' = u_nc u)).
  { destruct (u_K u) as [K|] eqn:EK0.
    - eexists _, _. split; [reflexivity|]. split; [codes|]. split; [|cbn; auto].
      eapply contained_trans; [exact C1|]. constructor; cbn; try apply kept_opt_refl. rewrite EK. split; [unfold cap; cbn; lia|split; discriminate].
    - apply Hfail; [codes|exact C1|auto]. }
  destruct (u_bs u) as [bs|] eqn:Ebs; [|exact HZ].
  destruct (Z.eqb_spec kappa 1) as [Hk|Hk]; [|exact HZ]. clear HZ.
  assert (HK0 : exists K, u_K u = Some K) by (destruct (u_K u) as [K|]; [now exists K|exfalso; now apply HKp]).
  destruct HK0 as (K & EK0). rewrite EK0. cbn [deref bind].
  assert (HKb : (K <= length bs)%nat) by (eapply (r_bs _ _ _ _ HR); eassumption).
  destruct (boundstates_safe E s D Dg q r deg tm T eps_t K bs o HE Hd HD Hg Lq Lr HT HKb) as (c2 & K2 & bs2 & -> & Hc2 & HK2 & Kb2).
  { intros Hf. assert (Hz : nse_degree (discretization o) <> O) by (apply Hfast; [exact Hf|exact Hk|discriminate]).
    destruct tm as [t|]; [|exfalso; now apply (Htm3 Hz)]. exists t. split; [reflexivity|]. now apply Htm2. }
  cbn [bind]. set (u2 := set_K (set_bs u1 (Some bs2)) (Some K2)).
  assert (C2 : contained M o u u2).
  { eapply contained_trans; [exact C1|]. constructor; cbn; try apply kept_opt_refl.
    - rewrite Eb. cbn. unfold cap. rewrite EK, EK0. exact Kb2.
    - unfold cap. cbn. rewrite EK, EK0. split; [lia|split; discriminate]. }
  destruct (Z.eqb_spec c2 SUCCESS) as [_|]. 2:{ rewrite E_SUB_ok by exact Hc2. cbn [bind]. apply Hfail; [now apply ok_neg|exact C2|intros [H|H]; [lia|discriminate]]. }
  assert (Eu2 : u_nc u2 = u_nc u) by exact Ec. rewrite Eu2.
  destruct (u_nc u) as [nc|] eqn:Enc; [|apply Hfail; [codes|exact C2|intros [H|H]; [lia|discriminate]]].
  destruct (Nat.eqb_spec K2 0); cbn [negb]; [apply Hfail; [codes|exact C2|intros [H|H]; [lia|discriminate]]|].
  pose proof (kept_length _ _ _ Kb2).
  assert (Hnc : (ds_values (discspec_type o) * K <= length nc)%nat) by (eapply (r_nc _ _ _ _ HR); [exact Hk|rewrite Ebs; discriminate|eassumption|exact EK0]).
  destruct (normconsts_safe E s D q r T K2 bs2 nc o HE HD2 Lq Lr HT) as (c3 & nc3 & -> & Hc3 & K3); [lia|nia|].
  cbn [bind fst snd].
  assert (C3 : contained M o u (set_nc u2 (Some nc3))).
  { eapply contained_trans; [exact C2|]. constructor; cbn; try apply kept_opt_refl; try apply kept_refl.
    - unfold u2 in Eu2. cbn in Eu2. rewrite Eu2. cbn. unfold cap. cbn. exact K3.
    - unfold cap. cbn. split; [lia|tauto]. }
  destruct (Z.eqb_spec c3 SUCCESS) as [_|]; [|rewrite E_SUB_ok by exact Hc3; cbn [bind]]; (apply Hfail; [|exact C3|intros [H0|H0]; [lia|discriminate]]).
  - codes.
  - now apply ok_neg.
Qed.
