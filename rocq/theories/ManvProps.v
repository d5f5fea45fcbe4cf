(** * fnft_manakovv: rejected arguments (C71), discretizations that do not work (C52), options (C72) *)
From Coq Require Import Reals Lra.
From Coquelicot Require Import Coquelicot.
From Verif Require Import Loop DiscProps NsevSpec NsevProps NsevSafe NsevDisc2 KdvvProps NsepTop ManvSpec.
Local Open Scope C_scope.

Lemma mups d : man_known d <-> man_upsampling_factor d <> O.
Proof. unfold man_known. destruct d; cbn; split; congruence. Qed.
Lemma man_class_spec d :
  match man_class d with
  | Some true => man_known d /\ ~ man_slow d /\ man_degree d <> O /\ man_method_order d <> O
  | Some false => man_known d /\ man_slow d /\ man_degree d = O /\ man_method_order d = O
  | None => d = M_FTES4_4B \/ d = M_other
  end.
Proof. unfold man_known, man_slow. destruct d; cbn; repeat split; try congruence; auto; right; reflexivity. Qed.

Lemma args_bad_false D q T XI kappa u : args_bad D q T XI kappa u = false <->
  (2 <= D)%nat /\ q <> None /\ proper_interval T /\ (u_cs u <> None -> proper_interval XI) /\ (kappa = 1%Z \/ kappa = (-1)%Z) /\ (u_bs u <> None -> u_K u <> None).
Proof. rewrite (args_bad_spec _ _ _ _ _ (KdvvSpec.sizes KdvvModel.kdvv_default_opts)). tauto. Qed.

(** C71.  Every argument combination that the documentation excludes is rejected with the error code 2 and nothing is changed. *)
Theorem manakovv_rejects_invalid_arguments E D q1 q2 T M XI kappa user dflt u :
  ~ manv_valid D q1 q2 T XI kappa (match user with Some o => o | None => dflt end) u ->
  fnft_manakovv E D q1 q2 T M XI kappa user dflt u = Ret (EC_INVALID_ARGUMENT, u, user, dflt).
Proof.
  intros H. unfold fnft_manakovv. set (o := match user with Some o => o | None => dflt end) in *.
  assert (HR : manakovv_run E D q1 q2 T M XI kappa o u = Ret (EC_INVALID_ARGUMENT, (o, u))).
  2:{ rewrite HR. cbn [bind]. unfold o. destruct user; reflexivity. }
  unfold manakovv_run. destruct (args_bad D q1 T XI kappa u || no_ptr q2) eqn:Ea; [reflexivity|].
  apply orb_false_iff in Ea. destruct Ea as [Ea E2]. apply args_bad_false in Ea. destruct Ea as (A1 & A2 & A3 & A4 & A5 & A6).
  assert (Hq2 : q2 <> None) by (destruct q2; [discriminate|cbn in E2; discriminate]).
  pose proof (man_class_spec (m_disc o)) as HC. destruct (man_class (m_disc o)) as [[|]|]; [| |reflexivity].
  - exfalso. apply H. destruct HC as (H1 & H2 & _). constructor; auto. intros Hs. contradiction.
  - destruct HC as (H1 & H2 & _). cbn [negb andb].
    destruct (negb (is_mnewton (m_loc o)) && (kappa =? 1)%Z && negb (no_ptr (u_bs u))) eqn:Es; [reflexivity|].
    exfalso. apply H. constructor; auto. intros _ Hk Hb. rewrite Hk in Es. destruct (u_bs u); [|congruence].
    destruct (m_loc o); [discriminate|reflexivity|discriminate|discriminate].
Qed.

(** ** C52 *)
Definition mpre_codes (E : menv) : Prop := forall s D q1 q2 eps_t Dsub d c, me_pre E s D q1 q2 eps_t Dsub d = Ret (inl c) -> c <> SUCCESS.

(** FTES4_4B has entries in all tables and is documented, but no call with it gets past the checks. *)
Theorem manakovv_FTES4_4B_refuted E D q1 q2 T M XI kappa user dflt u :
  m_disc (match user with Some o => o | None => dflt end) = M_FTES4_4B ->
  (man_degree M_FTES4_4B = 8 /\ man_upsampling_factor M_FTES4_4B = 1 /\ man_method_order M_FTES4_4B = 4)%nat /\
  fnft_manakovv E D q1 q2 T M XI kappa user dflt u = Ret (EC_INVALID_ARGUMENT, u, user, dflt).
Proof.
  intros H. split; [repeat split|]. unfold fnft_manakovv, manakovv_run. rewrite H. cbn [man_class].
  destruct (_ || _); destruct user; reflexivity.
Qed.

Lemma mbase_slow_bs E s D q1 q2 T M XI o u c u' : man_degree (m_disc o) = O -> u_bs u <> None ->
  fnft_manakovv_base E s D q1 q2 T M XI 1 o u = Ret (c, u') -> c <> SUCCESS.
Proof.
  intros Hd Hb H ->. unfold fnft_manakovv_base in H. cbv zeta in H. destruct (args_bad _ _ _ _ _ _); [discriminate|].
  destruct (Nat.eqb (man_upsampling_factor (m_disc o)) 0); [discriminate|]. inv_bind H.
  unfold man_fscatter_numel in H. rewrite Hd in H. cbn [Nat.eqb bind negb andb] in H.
  apply check_success in H. destruct H as [_ H]. inv_bind H. destruct x0 as [c1 u1]. apply check_success in H. destruct H as [_ H].
  assert (Eb1 : u_bs u1 = u_bs u).
  { destruct (u_cs u) as [cs|]; [|injection Hx0 as _ <-; auto]. destruct (0 <? M)%nat; [|injection Hx0 as _ <-; auto].
    inv_bind Hx0. injection Hx0 as _ <-. auto. }
  rewrite Eb1 in H. destruct (u_bs u) as [bs|]; [|congruence]. change (Z.eqb 1 1) with true in H. cbn iota in H. inv_bind H.
  unfold manakovv_compute_boundstates in H. cbv zeta in H. cbn in H. discriminate.
Qed.
Lemma mbase_bs_some E s D q1 q2 T M XI kappa o u c u' : fnft_manakovv_base E s D q1 q2 T M XI kappa o u = Ret (c, u') ->
  (u_bs u' = None <-> u_bs u = None).
Proof.
  intros H. unfold fnft_manakovv_base in H. cbv zeta in H. destruct (args_bad _ _ _ _ _ _); [injection H as _ <-; tauto|].
  destruct (Nat.eqb (man_upsampling_factor (m_disc o)) 0); [injection H as _ <-; tauto|]. inv_bind H. inv_bind H.
  destruct (_ && _) in H; [injection H as _ <-; tauto|]. inv_bind H. destruct x1 as [[[c1 deg] tm] W].
  apply check_Ret in H. destruct H as [[_ H]|(_ & Hst & _)]; [|cbn in Hst; subst; tauto].
  inv_bind H. destruct x1 as [c2 u1].
  assert (Eb1 : u_bs u1 = u_bs u).
  { destruct (u_cs u) as [cs|]; [|injection Hx2 as _ <-; auto]. destruct (0 <? M)%nat; [|injection Hx2 as _ <-; auto].
    inv_bind Hx2. injection Hx2 as _ <-. auto. }
  apply check_Ret in H. destruct H as [[_ H]|(_ & Hst & _)]; [|cbn in Hst; subst; rewrite Eb1; tauto].
  rewrite Eb1 in H. destruct (u_bs u) as [bs|] eqn:Eb; [|injection H as _ <-; rewrite Eb1; tauto].
  destruct (Z.eqb kappa 1); [|injection H as _ <-; rewrite Eb1; tauto]. inv_bind H. inv_bind H. destruct x2 as [c3 [K bs']].
  apply check_Ret in H. destruct H as [[_ H]|(_ & Hst & _)].
  - injection H as _ <-. cbn. split; discriminate.
  - cbn in Hst. subst. cbn. split; discriminate.
Qed.

(** BO and CF4_2 are accepted with the localization NEWTON, but every call that asks for bound states with them fails:
   the method is not implemented. *)
Theorem manakovv_slow_bound_states_refuted E D q1 q2 T M XI user dflt u code u' user' dflt' : mpre_codes E ->
  let o := match user with Some o => o | None => dflt end in
  m_disc o = M_BO \/ m_disc o = M_CF4_2 -> u_bs u <> None ->
  fnft_manakovv E D q1 q2 T M XI 1 user dflt u = Ret (code, u', user', dflt') -> code <> SUCCESS.
Proof.
  intros HE o Hd Hb H ->. unfold fnft_manakovv in H. fold o in H. inv_bind H. destruct x as [c [o1 u1]]. injection H as -> -> _ _.
  assert (Hdeg : man_degree (m_disc o) = O) by (destruct Hd as [-> | ->]; reflexivity).
  unfold manakovv_run in Hx. destruct (args_bad _ _ _ _ _ _ || _); [discriminate|].
  destruct (man_class (m_disc o)) as [fast|]; [|discriminate]. destruct (_ && _) in Hx; [discriminate|].
  destruct (Nat.eqb (man_upsampling_factor (m_disc o)) 0); [discriminate|]. inv_bind Hx. inv_bind Hx. inv_bind Hx. inv_bind Hx. cbv zeta in Hx. inv_bind Hx.
  set (res := Nat.eqb (m_rich o) 1 && _) in *. set (o2 := if res then mset_ds o DS_BOTH else o) in *.
  assert (Hdeg2 : man_degree (m_disc o2) = O) by (unfold o2; destruct res; exact Hdeg).
  destruct (_ && _) in Hx; [discriminate|]. inv_bind Hx. destruct x4 as [c|p].
  { inv_bind Hx. injection Hx as Hc _ _. eapply E_SUB_nonzero; [|exact Hx6|exact Hc]. eapply HE; eassumption. }
  inv_bind Hx. destruct x4 as [c1 v1].
  destruct (Z.eqb_spec c1 SUCCESS) as [->|N1]; cbn [negb] in Hx; [|injection Hx as -> _ _; congruence].
  assert (Hv1 : u_bs v1 <> None).
  { destruct (u_cs u) as [cs|]; [|injection Hx6 as <-; exact Hb].
    inv_bind Hx6. destruct x4 as [c2 v2]. exfalso. apply check_success in Hx6. destruct Hx6 as [-> _].
    eapply mbase_slow_bs; [exact Hdeg2| |exact Hx7|reflexivity]. exact Hb. }
  inv_bind Hx. destruct x4 as [c2 v2]. destruct (Z.eqb_spec c2 SUCCESS) as [->|N2]; cbn [negb] in Hx; [|injection Hx as -> _ _; congruence].
  change (Z.eqb 1 1) with true in Hx7. destruct (u_bs v1) as [b1|] eqn:Eb1; [|congruence]. cbn [no_ptr negb andb] in Hx7.
  inv_bind Hx7. inv_bind Hx7. destruct x5 as [c|ps].
  { inv_bind Hx7. injection Hx7 as Hc _. eapply E_SUB_nonzero; [|eassumption|exact Hc]. eapply HE; eassumption. }
  inv_bind Hx7. destruct x5 as [c3 v3]. apply check_success in Hx7. destruct Hx7 as [-> _].
  eapply mbase_slow_bs; [exact Hdeg2| |eassumption|reflexivity]. cbn. congruence.
Qed.

(** ... and so does every call with BO or CF4_2 and Richardson extrapolation: their order is missing in the table. *)
Theorem manakovv_slow_richardson_refuted E D q1 q2 T M XI kappa user dflt u code u' user' dflt' : mpre_codes E ->
  let o := match user with Some o => o | None => dflt end in
  m_disc o = M_BO \/ m_disc o = M_CF4_2 -> m_rich o = 1%nat ->
  fnft_manakovv E D q1 q2 T M XI kappa user dflt u = Ret (code, u', user', dflt') -> code <> SUCCESS.
Proof.
  intros HE o Hd Hr H ->. unfold fnft_manakovv in H. fold o in H. inv_bind H. destruct x as [c [o1 u1]]. injection H as -> -> _ _.
  unfold manakovv_run in Hx. destruct (args_bad _ _ _ _ _ _ || _); [discriminate|].
  destruct (man_class (m_disc o)) as [fast|]; [|discriminate]. destruct (_ && _) in Hx; [discriminate|].
  destruct (Nat.eqb (man_upsampling_factor (m_disc o)) 0); [discriminate|]. inv_bind Hx. inv_bind Hx. inv_bind Hx. inv_bind Hx. cbv zeta in Hx. inv_bind Hx.
  set (res := Nat.eqb (m_rich o) 1 && _) in *. set (o2 := if res then mset_ds o DS_BOTH else o) in *.
  assert (Hord : man_method_order (m_disc o2) = O) by (unfold o2; destruct res; cbn; destruct Hd as [-> | ->]; reflexivity).
  destruct (_ && _) in Hx; [discriminate|]. inv_bind Hx. destruct x4 as [c|p].
  { inv_bind Hx. injection Hx as Hc _ _. eapply E_SUB_nonzero; [|exact Hx6|exact Hc]. eapply HE; eassumption. }
  inv_bind Hx. destruct x4 as [c1 v1].
  destruct (Z.eqb_spec c1 SUCCESS) as [->|N1]; cbn [negb] in Hx; [|injection Hx as -> _ _; congruence].
  inv_bind Hx. destruct x4 as [c2 v2]. destruct (Z.eqb_spec c2 SUCCESS) as [->|N2]; cbn [negb] in Hx; [|injection Hx as -> _ _; congruence].
  rewrite Hr in Hx. change (Nat.eqb 1 1) with true in Hx. cbn iota in Hx. unfold manakovv_richardson in Hx. cbv zeta in Hx.
  destruct (_ && _) in Hx; [discriminate|]. destruct (_ && negb _) in Hx; [discriminate|]. rewrite Hord in Hx. discriminate.
Qed.

(** ** C72 *)
(** the two fields that the driver changes for the time of the call *)
Definition manv_same_but_two (o o' : mopts) : Prop := exists x y, o' = mset_ds (mset_loc o x) y.
Lemma msame_refl o : manv_same_but_two o o.
Proof. exists (m_loc o), (m_ds o). destruct o; reflexivity. Qed.
Lemma msame_loc o x : manv_same_but_two o (mset_loc o x).
Proof. exists x, (m_ds o). destruct o; reflexivity. Qed.
Lemma msame_ds o y : manv_same_but_two o (mset_ds o y).
Proof. exists (m_loc o), y. destruct o; reflexivity. Qed.
Lemma msame_trans o o' o'' : manv_same_but_two o o' -> manv_same_but_two o' o'' -> manv_same_but_two o o''.
Proof. intros (x & y & ->) (x' & y' & ->). exists x', y'. destruct o; reflexivity. Qed.
Lemma mset_loc_id o x : mset_loc (mset_loc o x) (m_loc o) = o.
Proof. destruct o; reflexivity. Qed.

Lemma mrichardson_opts E D q1 q2 T M XI kappa eps_t ups ds live o u code o' u' : mpre_codes E ->
  manakovv_richardson E D q1 q2 T M XI kappa eps_t ups ds live o u = Ret (code, (o', u')) ->
  manv_same_but_two o o' /\ (code = SUCCESS -> o' = mset_ds o ds).
Proof.
  intros HE. unfold manakovv_richardson. cbv zeta. intros H.
  assert (Hfail : forall c, c <> SUCCESS -> Ret (c, (o, u)) = Ret (code, (o', u')) -> manv_same_but_two o o' /\ (code = SUCCESS -> o' = mset_ds o ds)).
  { intros c Hc E0. injection E0 as <- <- <-. split; [apply msame_refl|congruence]. }
  assert (Hok : forall o1 u1, o1 = mset_ds (mset_loc (mset_loc o ML_NEWTON) (m_loc o)) ds ->
     Ret (SUCCESS, (o1, u1)) = Ret (code, (o', u')) -> manv_same_but_two o o' /\ (code = SUCCESS -> o' = mset_ds o ds)).
  { intros o1 u1 -> E0. injection E0 as <- <- <-. rewrite mset_loc_id. split; [apply msame_ds|reflexivity]. }
  destruct (_ && _) in H; [apply (Hfail EC_INVALID_ARGUMENT); [discriminate|exact H]|].
  destruct (_ && negb _) in H; [apply (Hfail EC_NOMEM); [discriminate|exact H]|].
  destruct (Nat.eqb _ 0) in H; [apply (Hfail EC_INVALID_ARGUMENT); [discriminate|exact H]|].
  inv_bind H. destruct x as [c|p].
  { destruct live; [discriminate|]. inv_bind H. apply (Hfail x); [|exact H]. eapply E_SUB_nonzero; [|exact Hx0]. eapply HE; eassumption. }
  inv_bind H. inv_bind H. destruct x0 as [c v].
  destruct (Z.eqb_spec c SUCCESS) as [Sc|Nc]; cbn [negb] in H.
  2:{ inv_bind H. injection H as <- <- <-. split; [apply msame_loc|]. intros Hc. exfalso. eapply E_SUB_nonzero; eassumption. }
  inv_bind H. destruct (u_cs u) as [cs|]; [|eapply Hok; [reflexivity|exact H]].
  destruct (0 <? M)%nat; [|eapply Hok; [reflexivity|exact H]]. inv_bind H. inv_bind H. eapply Hok; [reflexivity|exact H].
Qed.

Lemma mrun_opts E D q1 q2 T M XI kappa o u code o' u' : mpre_codes E ->
  manakovv_run E D q1 q2 T M XI kappa o u = Ret (code, (o', u')) -> manv_same_but_two o o' /\ (code = SUCCESS -> o' = o).
Proof.
  intros HE. unfold manakovv_run. intros H.
  assert (H0 : forall c, c <> SUCCESS -> Ret (c, (o, u)) = Ret (code, (o', u')) -> manv_same_but_two o o' /\ (code = SUCCESS -> o' = o)).
  { intros c Hc E0. injection E0 as <- <- <-. split; [apply msame_refl|congruence]. }
  destruct (args_bad _ _ _ _ _ _ || _); [apply (H0 EC_INVALID_ARGUMENT); [discriminate|exact H]|].
  destruct (man_class (m_disc o)) as [fast|]; [|apply (H0 EC_INVALID_ARGUMENT); [discriminate|exact H]].
  destruct (_ && _) in H; [apply (H0 EC_INVALID_ARGUMENT); [discriminate|exact H]|].
  destruct (Nat.eqb _ 0) in H; [apply (H0 EC_INVALID_ARGUMENT); [discriminate|exact H]|].
  inv_bind H. inv_bind H. inv_bind H. inv_bind H. cbv zeta in H.
  set (rich := Nat.eqb (m_rich o) 1) in *.
  set (res := rich && match m_ds o with DS_RESIDUES => true | _ => false end) in *.
  set (o1 := if res then mset_ds o DS_BOTH else o) in *.
  assert (S1 : manv_same_but_two o o1) by (unfold o1; destruct res; [apply msame_ds|apply msame_refl]).
  assert (F1 : mset_ds o1 (m_ds o) = o) by (unfold o1; destruct res; destruct o; reflexivity).
  assert (F2 : rich = false -> o1 = o) by (intros Hr; unfold o1, res; now rewrite Hr).
  inv_bind H. destruct (res && negb _) in H. { injection H as <- <- <-. split; [exact S1|discriminate]. }
  inv_bind H. destruct x4 as [c|p].
  { inv_bind H. injection H as <- <- <-. split; [exact S1|]. intros Hc. exfalso. eapply E_SUB_nonzero; [|exact Hx5|exact Hc]. eapply HE; eassumption. }
  inv_bind H. destruct x4 as [c1 v1]. destruct (Z.eqb_spec c1 SUCCESS) as [->|N1]; cbn [negb] in H; [|injection H as -> <- _; split; [exact S1|congruence]].
  inv_bind H. destruct x4 as [c2 v2]. destruct (Z.eqb_spec c2 SUCCESS) as [->|N2]; cbn [negb] in H; [|injection H as -> <- _; split; [exact S1|congruence]].
  destruct rich eqn:Er.
  - apply mrichardson_opts in H; [|exact HE]. destruct H as [H1 H2]. split; [eapply msame_trans; eassumption|].
    intros Hc. rewrite (H2 Hc). exact F1.
  - injection H as <- <- <-. split; [exact S1|]. intros _. now apply F2.
Qed.

(** After a successful call the options struct of the caller is what it was, and so are the library's defaults. *)
Theorem manakovv_restores_options E D q1 q2 T M XI kappa user dflt u u' user' dflt' : mpre_codes E ->
  fnft_manakovv E D q1 q2 T M XI kappa user dflt u = Ret (SUCCESS, u', user', dflt') -> user' = user /\ dflt' = dflt.
Proof.
  intros HE H. unfold fnft_manakovv in H. inv_bind H. destruct x as [c [o1 u1]]. injection H as -> -> <- <-.
  apply mrun_opts in Hx; [|exact HE]. destruct Hx as [_ Ho]. specialize (Ho eq_refl).
  destruct user; subst o1; auto.
Qed.

(** In every case only bound_state_localization and discspec_type of the struct in use can differ. *)
Theorem manakovv_changes_two_options E D q1 q2 T M XI kappa user dflt u code u' user' dflt' : mpre_codes E ->
  fnft_manakovv E D q1 q2 T M XI kappa user dflt u = Ret (code, u', user', dflt') ->
  match user, user' with
  | Some o, Some o' => manv_same_but_two o o' /\ dflt' = dflt
  | None, None => manv_same_but_two dflt dflt'
  | _, _ => False
  end.
Proof.
  intros HE H. unfold fnft_manakovv in H. inv_bind H. destruct x as [c [o1 u1]]. injection H as -> -> <- <-.
  apply mrun_opts in Hx; [|exact HE]. destruct Hx as [Ho _]. destruct user; auto.
Qed.
