(** * fnft_nsev: rejected arguments (C43), options (C44) *)
From Coq Require Import Reals Lra.
From Coquelicot Require Import Coquelicot.
From Verif Require Import DiscProps NsevSpec.
Local Open Scope C_scope.

Lemma args_bad_spec D q T XI kappa o u : args_bad D q T XI kappa u = false <->
  (2 <= D)%nat /\ q <> None /\ proper_interval T /\ (u_cs u <> None -> proper_interval XI)
  /\ (kappa = 1%Z \/ kappa = (-1)%Z) /\ (u_bs u <> None -> u_K u <> None) /\ o = o :> opts.
Proof.
  unfold args_bad. rewrite !orb_false_iff.
  assert (HI : forall I, bad_interval I = false <-> proper_interval I).
  { intros [[a b]|]; cbn; unfold proper_interval.
    - destruct (Rle_dec b a) as [H|H]; split; try discriminate; intros H'.
      + destruct H' as (a' & b' & E & Hl). injection E as <- <-. lra.
      + exists a, b. split; [reflexivity|lra].
      + reflexivity.
    - split; [discriminate|]. intros (a & b & E & _). discriminate. }
  assert (HN : forall A (p : option A), no_ptr p = false <-> p <> None).
  { intros A [x|]; cbn; split; congruence. }
  rewrite !andb_false_iff, !negb_false_iff, !HI, Nat.ltb_ge, HN.
  split.
  - intros (((((H1 & H2) & H3) & H4) & H5) & H6). repeat split; auto.
    + intros H. destruct H4 as [H4|H4]; [|exact H4]. destruct (u_cs u); [discriminate|congruence].
    + apply Z.eqb_eq in H5. lia.
    + intros H. destruct H6 as [H6|H6].
      * destruct (u_bs u); [discriminate|congruence].
      * now apply HN.
  - intros (H1 & H2 & H3 & H4 & H5 & H6 & _). repeat split; auto.
    + destruct (u_cs u); [right; apply H4; discriminate|left; reflexivity].
    + apply Z.eqb_eq. lia.
    + destruct (u_bs u); [right; apply HN, H6; discriminate|left; reflexivity].
Qed.

Lemma disc_class_spec d : match disc_class d with
  | Some true => known_disc d /\ name_fast (nse_name d) = true /\ nse_degree d <> O
  | Some false => known_disc d /\ slow_disc d /\ nse_degree d = O
  | None => ~ known_disc d end.
Proof.
  unfold known_disc, slow_disc. destruct d; cbn; try (split; [discriminate|split; [reflexivity|discriminate || reflexivity]]); intros H; now apply H.
Qed.
Lemma known_ups d : known_disc d -> nse_upsampling_factor d <> O.
Proof. unfold known_disc. destruct d; cbn; congruence. Qed.

(** Every argument combination that the documentation excludes is rejected with the error code 2 and nothing at
   all is changed: arrays, *K_ptr, the options struct, the default options. *)
Theorem nsev_rejects_invalid_arguments E D q T M XI kappa user dflt u :
  ~ nsev_valid D q T XI kappa (match user with Some o => o | None => dflt end) u ->
  fnft_nsev E D q T M XI kappa user dflt u = Ret (EC_INVALID_ARGUMENT, u, user, dflt).
Proof.
  intros H. unfold fnft_nsev. set (o := match user with Some o => o | None => dflt end) in *.
  assert (HR : nsev_run E D q T M XI kappa o u = Ret (EC_INVALID_ARGUMENT, (o, u))).
  { unfold nsev_run. destruct (args_bad D q T XI kappa u) eqn:Ea; [reflexivity|].
    apply (args_bad_spec D q T XI kappa o u) in Ea. destruct Ea as (H1 & H2 & H3 & H4 & H5 & H6 & _).
    pose proof (disc_class_spec (discretization o)) as Hd. destruct (disc_class (discretization o)) as [fast|]; [|reflexivity].
    destruct (negb fast && negb (is_newton (bound_state_localization o)) && (kappa =? 1)%Z && negb (no_ptr (u_bs u))) eqn:Eb; [reflexivity|].
    exfalso. apply H. constructor; auto.
    - destruct fast; apply Hd.
    - intros Hs Hk Hb. destruct fast; [destruct Hd as (_ & Hd & _); unfold slow_disc in Hs; congruence|].
      subst kappa. destruct (u_bs u); [|congruence]. cbn in Eb. destruct (bound_state_localization o); try discriminate. reflexivity. }
  rewrite HR. cbn [bind]. unfold o. destruct user; reflexivity.
Qed.

(** ** C44 *)

Lemma set_bsloc_id o x : set_bsloc (set_bsloc o x) (bound_state_localization o) = o.
Proof. destruct o; reflexivity. Qed.
Lemma set_bsloc_twice o x y : set_bsloc (set_bsloc o x) y = set_bsloc o y.
Proof. destruct o; reflexivity. Qed.
Lemma set_comm o x y : set_dstype (set_bsloc o x) y = set_bsloc (set_dstype o y) x.
Proof. destruct o; reflexivity. Qed.
Lemma set_dstype_twice o x y : set_dstype (set_dstype o x) y = set_dstype o y.
Proof. destruct o; reflexivity. Qed.
Lemma set_dstype_id o : set_dstype o (discspec_type o) = o.
Proof. destruct o; reflexivity. Qed.
Lemma set_bsloc_same o : set_bsloc o (bound_state_localization o) = o.
Proof. destruct o; reflexivity. Qed.

(** the options that the driver itself changes for the time of the call *)
Definition same_but_two (o o' : opts) : Prop := exists x y, o' = set_dstype (set_bsloc o x) y.
Lemma same_refl o : same_but_two o o.
Proof. exists (bound_state_localization o), (discspec_type o). destruct o; reflexivity. Qed.
Lemma same_bsloc o x : same_but_two o (set_bsloc o x).
Proof. exists x, (discspec_type o). destruct o; reflexivity. Qed.
Lemma same_dstype o y : same_but_two o (set_dstype o y).
Proof. exists (bound_state_localization o), y. destruct o; reflexivity. Qed.
Lemma same_trans o o' o'' : same_but_two o o' -> same_but_two o' o'' -> same_but_two o o''.
Proof. intros (x & y & ->) (x' & y' & ->). exists x', y'. destruct o; reflexivity. Qed.

(** invert one step of [e = Ret r] *)
Lemma bind_Ret {A B} (e : out A) (f : A -> out B) r : bind e f = Ret r -> exists x, e = Ret x /\ f x = Ret r.
Proof. destruct e as [x|]; [intros H; exists x; auto|discriminate]. Qed.
Lemma check_Ret {S} code (st : S) k r : check code st k = Ret r ->
  (code = SUCCESS /\ k = Ret r) \/ (code <> SUCCESS /\ snd r = st /\ (code = INT_MIN -> False) /\ fst r = (- Z.abs code)%Z).
Proof.
  unfold check. destruct (Z.eqb_spec code SUCCESS) as [->|N]; [left; auto|]. intros H. right. split; [exact N|].
  unfold E_SUBROUTINE in H. destruct (Z.eqb_spec code INT_MIN); [discriminate|]. cbn in H. injection H as <-. auto.
Qed.

Lemma abs_nonzero c : c <> SUCCESS -> (- Z.abs c)%Z <> SUCCESS.
Proof. unfold SUCCESS. lia. Qed.

Ltac inv_bind H := let x := fresh "x" in let Hx := fresh "Hx" in apply bind_Ret in H; destruct H as (x & Hx & H).


(** an unsuccessful preprocessing call has an error code *)
Definition pre_codes (E : env) : Prop := forall s D q eps_t kappa Dsub d c, e_pre E s D q eps_t kappa Dsub d = Ret (inl c) -> c <> SUCCESS.
Lemma env_ok_pre_codes E : env_ok E -> forall s D q eps_t kappa Dsub d c, (2 <= D)%nat -> length q = D -> (0 < eps_t)%R ->
  e_pre E s D q eps_t kappa Dsub d = Ret (inl c) -> c <> SUCCESS.
Proof. intros H s D q eps_t kappa Dsub d c H1 H2 H3 He. destruct (k_pre E H s D q eps_t kappa Dsub d H1 H2 H3) as (r & Er & Hr). rewrite He in Er. injection Er as <-. apply Hr. Qed.

Lemma E_SUB_nonzero c x : c <> SUCCESS -> E_SUBROUTINE c = Ret x -> x <> SUCCESS.
Proof. unfold E_SUBROUTINE. destruct (Z.eqb c INT_MIN); [discriminate|]. intros H E. injection E as <-. now apply abs_nonzero. Qed.

Lemma richardson_opts E D q T M XI kappa eps_t ups ds live own o u code o' u' : pre_codes E ->
  nsev_richardson E D q T M XI kappa eps_t ups ds live own o u = Ret (code, (o', u')) ->
  (same_but_two o o') /\ (code = SUCCESS -> o' = set_dstype o ds).
Proof.
  intros HE. unfold nsev_richardson. cbv zeta. intros H.
  assert (Hfail : forall c, c <> SUCCESS -> Ret (c, (o, u)) = Ret (code, (o', u')) -> same_but_two o o' /\ (code = SUCCESS -> o' = set_dstype o ds)).
  { intros c Hc E0. injection E0 as <- <- <-. split; [apply same_refl|congruence]. }
  assert (Hok : forall o1 u1, o1 = set_dstype (set_bsloc (set_bsloc o BL_NEWTON) (bound_state_localization o)) ds ->
     Ret (SUCCESS, (o1, u1)) = Ret (code, (o', u')) -> same_but_two o o' /\ (code = SUCCESS -> o' = set_dstype o ds)).
  { intros o1 u1 -> E0. injection E0 as <- <- <-. rewrite set_bsloc_id. split; [apply same_dstype|reflexivity]. }
  destruct (_ && _) in H; [apply (Hfail EC_INVALID_ARGUMENT); [discriminate|exact H]|].
  destruct (_ && _) in H; [apply (Hfail EC_NOMEM); [discriminate|exact H]|].
  inv_bind H. destruct (_ && match discspec_type o with _ => _ end) in H; [apply (Hfail EC_INVALID_ARGUMENT); [discriminate|exact H]|].
  destruct (_ && (_ || _)) in H; [apply (Hfail EC_NOMEM); [discriminate|exact H]|].
  inv_bind H. destruct (Nat.eqb (nse_method_order _) 0) in H; [apply (Hfail EC_INVALID_ARGUMENT); [discriminate|exact H]|].
  inv_bind H. destruct x1 as [c|p].
  { destruct live; [discriminate|]. inv_bind H. apply (Hfail x1); [|exact H]. eapply E_SUB_nonzero; [|exact Hx2]. eapply HE; eassumption. }
  inv_bind H. inv_bind H. destruct x2 as [bcode v]. destruct (Z.eqb_spec bcode SUCCESS) as [Eb|Nb]; cbn [negb] in H.
  2:{ inv_bind H. injection H as <- <- <-. split; [apply same_bsloc|]. intros Hc. exfalso. eapply E_SUB_nonzero; eassumption. }
  inv_bind H. inv_bind H. destruct (_ && _) in H.
  - inv_bind H. destruct (Nat.eqb x4 0); [eapply Hok; [reflexivity|exact H]|].
    inv_bind H. inv_bind H. inv_bind H. destruct x7 as [[bs rv] sub2].
    destruct ds; [eapply Hok; [reflexivity|exact H]| | |eapply Hok; [reflexivity|exact H]];
    inv_bind H; inv_bind H; inv_bind H; (eapply Hok; [reflexivity|exact H]).
  - eapply Hok; [reflexivity|exact H].
Qed.

Lemma run_opts E D q T M XI kappa o u code o' u' : pre_codes E ->
  nsev_run E D q T M XI kappa o u = Ret (code, (o', u')) -> same_but_two o o' /\ (code = SUCCESS -> o' = o).
Proof.
  intros HE. unfold nsev_run. intros H.
  destruct (args_bad D q T XI kappa u). { injection H as <- <- <-. split; [apply same_refl|discriminate]. }
  destruct (disc_class (discretization o)) as [fast|]. 2:{ injection H as <- <- <-. split; [apply same_refl|discriminate]. }
  destruct (_ && _) in H. { injection H as <- <- <-. split; [apply same_refl|discriminate]. }
  destruct (Nat.eqb (nse_upsampling_factor _) 0) in H. { injection H as <- <- <-. split; [apply same_refl|discriminate]. }
  inv_bind H. inv_bind H. inv_bind H. cbv zeta in H.
  set (rich := Nat.eqb (richardson_extrapolation_flag o) 1) in *.
  set (res := rich && match discspec_type o with DS_RESIDUES => true | _ => false end) in *.
  set (o1 := if res then set_dstype o DS_BOTH else o) in *.
  assert (S1 : same_but_two o o1) by (unfold o1; destruct res; [apply same_dstype|apply same_refl]).
  assert (B1 : bound_state_localization o1 = bound_state_localization o) by (unfold o1; destruct res; reflexivity).
  assert (F1 : set_dstype o1 (discspec_type o) = o).
  { unfold o1. destruct res; [rewrite set_dstype_twice|]; apply set_dstype_id. }
  assert (F2 : rich = false -> o1 = o) by (intros Hr; unfold o1, res; now rewrite Hr).
  assert (C1 : code = SUCCESS -> code <> SUCCESS -> False) by congruence.
  inv_bind H. destruct (res && negb _) in H. { injection H as <- <- <-. split; [exact S1|discriminate]. }
  inv_bind H. destruct x3 as [c|p].
  { inv_bind H. injection H as <- <- <-. split; [exact S1|]. intros Hc. exfalso. eapply E_SUB_nonzero; [|exact Hx4|exact Hc]. eapply HE; eassumption. }
  destruct ((kappa =? 1)%Z && negb (no_ptr (u_bs u)) && match bound_state_localization o1 with BL_SUBSAMPLE_AND_REFINE => true | _ => false end) eqn:Es.
  - assert (Hl : bound_state_localization o = BL_SUBSAMPLE_AND_REFINE).
    { rewrite B1 in Es. destruct (bound_state_localization o); rewrite ?andb_false_r in Es; try discriminate. reflexivity. }
    inv_bind H. inv_bind H. destruct x4 as [c|ps].
    { inv_bind H. injection H as <- <- <-. split; [exact S1|]. intros Hc. exfalso. eapply E_SUB_nonzero; [|exact Hx6|exact Hc]. eapply HE; eassumption. }
    inv_bind H. destruct x4 as [c1 v1]. apply check_Ret in H. destruct H as [[Hc1 H]|(Hc1 & Hst & _ & Hcode)].
    2:{ cbn [fst snd] in *. injection Hst as -> ->. split; [eapply same_trans; [exact S1|apply same_bsloc]|].
        intros Hc. rewrite Hc in Hcode. symmetry in Hcode. now apply abs_nonzero in Hcode. }
    inv_bind H. destruct x4 as [c2 v2]. apply check_Ret in H. destruct H as [[Hc2 H]|(Hc2 & Hst & _ & Hcode)].
    2:{ cbn [fst snd] in *. injection Hst as -> ->. split; [eapply same_trans; [exact S1|]; eapply same_trans; apply same_bsloc|].
        intros Hc. rewrite Hc in Hcode. symmetry in Hcode. now apply abs_nonzero in Hcode. }
    rewrite set_bsloc_twice, set_bsloc_twice in H.
    assert (E1 : set_bsloc o1 BL_SUBSAMPLE_AND_REFINE = o1).
    { rewrite <- Hl, <- B1. apply set_bsloc_same. }
    rewrite E1 in H. destruct rich eqn:Er.
    + apply richardson_opts in H; [|exact HE]. destruct H as [H1 H2]. split; [eapply same_trans; eassumption|].
      intros Hc. rewrite (H2 Hc). exact F1.
    + injection H as <- <- <-. split; [exact S1|]. intros _. now apply F2.
  - inv_bind H. destruct x3 as [c1 v1]. apply check_Ret in H. destruct H as [[Hc1 H]|(Hc1 & Hst & _ & Hcode)].
    2:{ cbn [fst snd] in *. injection Hst as -> ->. split; [exact S1|].
        intros Hc. rewrite Hc in Hcode. symmetry in Hcode. now apply abs_nonzero in Hcode. }
    destruct rich eqn:Er.
    + apply richardson_opts in H; [|exact HE]. destruct H as [H1 H2]. split; [eapply same_trans; eassumption|].
      intros Hc. rewrite (H2 Hc). exact F1.
    + injection H as <- <- <-. split; [exact S1|]. intros _. now apply F2.
Qed.

(** After a successful call the options struct of the caller is what it was, and so are the library's defaults.
   This holds for all arguments, whatever the subroutines return. *)
Theorem nsev_restores_options E D q T M XI kappa user dflt u u' user' dflt' : pre_codes E ->
  fnft_nsev E D q T M XI kappa user dflt u = Ret (SUCCESS, u', user', dflt') -> user' = user /\ dflt' = dflt.
Proof.
  intros HE H. unfold fnft_nsev in H. inv_bind H. destruct x as [c [o1 u1]]. injection H as -> -> <- <-.
  apply run_opts in Hx; [|exact HE]. destruct Hx as [_ Ho]. specialize (Ho eq_refl).
  destruct user; subst o1; auto.
Qed.

(** In every case only the two fields bound_state_localization and discspec_type of the struct in use can differ. *)
Theorem nsev_changes_two_options E D q T M XI kappa user dflt u code u' user' dflt' : pre_codes E ->
  fnft_nsev E D q T M XI kappa user dflt u = Ret (code, u', user', dflt') ->
  match user, user' with
  | Some o, Some o' => same_but_two o o' /\ dflt' = dflt
  | None, None => same_but_two dflt dflt'
  | _, _ => False
  end.
Proof.
  intros HE H. unfold fnft_nsev in H. inv_bind H. destruct x as [c [o1 u1]]. injection H as -> -> <- <-.
  apply run_opts in Hx; [|exact HE]. destruct Hx as [Ho _]. destruct user; auto.
Qed.
