(** * fnft_kdvv: rejected arguments (C61), options (C62) *)
From Coq Require Import Reals Lra.
From Coquelicot Require Import Coquelicot.
From Verif Require Import Loop DiscProps NsevSpec NsevProps NsevSafe KdvvSpec.
Local Open Scope C_scope.

Lemma kups d : kdv_known d <-> kdv_upsampling_factor d <> O.
Proof. unfold kdv_known. destruct d; cbn; split; congruence. Qed.

Lemma bad_interval_spec I : bad_interval I = false <-> proper_interval I.
Proof.
  destruct I as [[a b]|]; cbn; unfold proper_interval.
  - destruct (Rle_dec b a) as [H|H]; split; try discriminate; intros H'.
    + destruct H' as (a' & b' & E & Hl). injection E as <- <-. lra.
    + exists a, b. split; [reflexivity|lra].
    + reflexivity.
  - split; [discriminate|]. intros (a & b & E & _). discriminate.
Qed.

Lemma aget_Some {A} (l : list A) i x : aget l i = Ret x -> nth_error l i = Some x.
Proof. revert i. induction l as [|a l IH]; intros [|i]; cbn; try discriminate; [intros E; now injection E as ->|apply IH]. Qed.
Lemma for_same {S} (f g : nat -> S -> out S) n i s : (forall i s, f i s = g i s) -> for_ n i f s = for_ n i g s.
Proof. intros H. revert i s. induction n as [|n IH]; intros i s; [reflexivity|]. cbn [for_]. rewrite H. destruct (g i s); [apply IH|reflexivity]. Qed.
(** a loop that looks for an entry with a certain property *)
Lemma any_loop (P : C -> bool) n (l : list C) : (n <= length l)%nat ->
  exists b, for_ n 0 (fun i b => x <- aget l i ;; Ret (b || P x)) false = Ret b
    /\ (b = true <-> exists i x, (i < n)%nat /\ nth_error l i = Some x /\ P x = true).
Proof.
  intros HL.
  destruct (for_inv (fun i (b : bool) => b = true <-> exists j x, (j < i)%nat /\ nth_error l j = Some x /\ P x = true)
     (fun i b => x <- aget l i ;; Ret (b || P x)) n 0 false) as (b & Eb & Hb).
  - split; [discriminate|]. intros (j & x & Hj & _). lia.
  - intros i b Hi Hb. destruct (aget_ex l i) as (x & Ex); [lia|]. rewrite Ex. cbn [bind]. eexists. split; [reflexivity|].
    assert (Hx : nth_error l i = Some x).
    { now apply aget_Some. }
    rewrite orb_true_iff, Hb. split.
    + intros [(j & y & Hj & Hy & HP)|HP]; [exists j, y; repeat split; auto; lia|exists i, x; repeat split; auto].
    + intros (j & y & Hj & Hy & HP). destruct (Nat.eq_dec j i) as [->|N]; [right; congruence|left; exists j, y; repeat split; auto; lia].
  - exists b. split; [exact Eb|]. exact Hb.
Qed.

(** Every argument combination that the documentation excludes is rejected with the error code 2 and nothing is
   changed, provided the arrays can be read. *)
Theorem kdvv_rejects_invalid_arguments E D q T M XI user dflt u : kdvv_readable D q M XI u ->
  ~ kdvv_valid D q T M XI (match user with Some o => o | None => dflt end) u ->
  fnft_kdvv E D q T M XI user dflt u = Ret (EC_INVALID_ARGUMENT, u, user, dflt).
Proof.
  intros [R1 R2 R3] H. unfold fnft_kdvv. set (o := match user with Some o => o | None => dflt end) in *.
  assert (HR : kdvv_run E D q T M XI o u = Ret (EC_INVALID_ARGUMENT, (o, u))).
  2:{ rewrite HR. cbn [bind]. unfold o. destruct user; reflexivity. }
  unfold kdvv_run, kdvv_check.
  destruct (Nat.ltb_spec D 2) as [HD|HD]; [reflexivity|].
  destruct q as [q|]; [|reflexivity]. specialize (R1 q eq_refl).
  unfold some_imaginary. destruct (any_loop (fun x => if Req_EM_T (snd x) 0 then false else true) D q) as (b & -> & Hb); [lia|]. cbn [bind].
  destruct b; [reflexivity|].
  destruct (bad_interval T) eqn:ET; [reflexivity|]. apply bad_interval_spec in ET.
  destruct (negb (no_ptr (u_cs u)) && bad_interval XI) eqn:EX; [reflexivity|].
  assert (HX : u_cs u <> None -> proper_interval XI).
  { intros Hc. apply bad_interval_spec. destruct (u_cs u); [exact EX|congruence]. }
  assert (Hre : forall l i x, Some q = Some l -> (i < D)%nat -> nth_error l i = Some x -> snd x = 0%R).
  { intros l i x Hl Hi Hx. injection Hl as <-. destruct (Req_EM_T (snd x) 0) eqn:Ex; [assumption|].
    assert (false = true) as Hf; [|discriminate]. apply Hb. exists i, x. rewrite Ex. auto. }
  assert (HZ : exists z, some_zero M XI = Ret z /\ (z = false -> forall I i, XI = Some I -> (2 <= M)%nat -> (i < M)%nat -> grid_point I M i <> 0%R)).
  { unfold some_zero. destruct (Nat.eqb_spec M 0) as [HM|HM]; [exists false; split; [reflexivity|lia]|].
    destruct XI as [I|]; [|now destruct (R2 HM)]. cbn [deref bind]. destruct (Nat.eqb_spec M 1) as [HM1|HM1]; [exists false; split; [reflexivity|lia]|].
    eexists. split; [reflexivity|]. intros Hz I' i EI _ Hi. injection EI as <-. intros Hg.
    assert (Ht : existsb (fun i => if Req_EM_T (fst I + INR i * (snd I - fst I) / INR (M - 1)) 0 then true else false) (seq 0 M) = true).
    { apply existsb_exists. exists i. split; [apply in_seq; lia|]. destruct (Req_EM_T _ 0) as [_|N]; [reflexivity|].
      exfalso. apply N. rewrite <- Hg. unfold grid_point, Rdiv. ring. }
    congruence. }
  destruct HZ as (z & -> & HZ). cbn [bind]. destruct z; [reflexivity|]. specialize (HZ eq_refl).
  assert (Hfin : (u_bs u <> None -> u_K u <> None) ->
     (forall l K i x, k_loc o = KB_NEWTON -> u_bs u = Some l -> u_K u = Some K -> (i < K)%nat -> nth_error l i = Some x -> on_imaginary_axis x /\ (0 < snd x)%R) ->
     kdv_upsampling_factor (k_disc o) = O).
  { intros HK HG. destruct (Nat.eq_dec (kdv_upsampling_factor (k_disc o)) 0) as [|N]; [assumption|]. exfalso. apply H.
    constructor; auto; [discriminate|]. now apply kups. }
  destruct (u_bs u) as [bs|] eqn:Eb.
  2:{ cbn [bind]. rewrite Hfin; [reflexivity|congruence|discriminate]. }
  destruct (u_K u) as [K|] eqn:EK; [|reflexivity].
  destruct (k_loc o) eqn:El.
  - unfold some_bad_guess.
    assert (Hlen : (K <= length bs)%nat) by (apply R3; auto).
    match goal with |- context [for_ K 0 ?f false] => assert (Ef : for_ K 0 f false = for_ K 0 (fun i b => x <- aget bs i ;;
      Ret (b || ((if Req_EM_T (fst x) 0 then false else true) || (if Rle_dec (snd x) 0 then true else false)))) false) end.
    { apply for_same. intros i b. destruct (aget bs i); cbn [bind]; [|reflexivity]. now rewrite orb_assoc. }
    rewrite Ef. clear Ef.
    destruct (any_loop (fun x => (if Req_EM_T (fst x) 0 then false else true) || (if Rle_dec (snd x) 0 then true else false)) K bs Hlen) as (g & Eg & Hg).
    rewrite Eg. cbn [bind].
    destruct g; [reflexivity|]. cbn [Z.eqb SUCCESS negb]. rewrite Hfin; [reflexivity|discriminate|].
    intros l K' i x _ Hl HK' Hi Hx. injection Hl as <-. injection HK' as <-.
    destruct (Req_EM_T (fst x) 0) as [E1|E1] eqn:D1; [|exfalso; assert (false = true) by (apply Hg; exists i, x; rewrite D1; auto); discriminate].
    destruct (Rle_dec (snd x) 0) as [E2|E2] eqn:D2; [exfalso; assert (false = true) by (apply Hg; exists i, x; rewrite D1, D2; auto); discriminate|].
    split; [exact E1|lra].
  - cbn [bind Z.eqb SUCCESS negb]. rewrite Hfin; [reflexivity|discriminate|discriminate].
  - cbn [bind Z.eqb SUCCESS negb]. rewrite Hfin; [reflexivity|discriminate|discriminate].
Qed.

(** ** C62 *)
(** the two fields that the driver changes for the time of the call *)
Definition kdvv_same_but_two (o o' : kopts) : Prop := exists x y, o' = kset_ds (kset_loc o x) y.
Lemma ksame_refl o : kdvv_same_but_two o o.
Proof. exists (k_loc o), (k_ds o). destruct o; reflexivity. Qed.
Lemma ksame_loc o x : kdvv_same_but_two o (kset_loc o x).
Proof. exists x, (k_ds o). destruct o; reflexivity. Qed.
Lemma ksame_ds o y : kdvv_same_but_two o (kset_ds o y).
Proof. exists (k_loc o), y. destruct o; reflexivity. Qed.
Lemma ksame_trans o o' o'' : kdvv_same_but_two o o' -> kdvv_same_but_two o' o'' -> kdvv_same_but_two o o''.
Proof. intros (x & y & ->) (x' & y' & ->). exists x', y'. destruct o; reflexivity. Qed.
Lemma kset_loc_id o x : kset_loc (kset_loc o x) (k_loc o) = o.
Proof. destruct o; reflexivity. Qed.

Definition kpre_codes (E : kenv) : Prop := forall s D q eps_t Dsub d c, ke_pre E s D q eps_t Dsub d = Ret (inl c) -> c <> SUCCESS.

Lemma krichardson_opts E D q T M XI eps_t ups ds own o u code o' u' : kpre_codes E ->
  kdvv_richardson E D q T M XI eps_t ups ds own o u = Ret (code, (o', u')) ->
  kdvv_same_but_two o o' /\ (code = SUCCESS -> o' = kset_ds o ds).
Proof.
  intros HE. unfold kdvv_richardson. cbv zeta. intros H.
  assert (Hfail : forall c, c <> SUCCESS -> Ret (c, (o, u)) = Ret (code, (o', u')) -> kdvv_same_but_two o o' /\ (code = SUCCESS -> o' = kset_ds o ds)).
  { intros c Hc E0. injection E0 as <- <- <-. split; [apply ksame_refl|congruence]. }
  assert (Hok : forall o1 u1, o1 = kset_ds (kset_loc (kset_loc o KB_NEWTON) (k_loc o)) ds ->
     Ret (SUCCESS, (o1, u1)) = Ret (code, (o', u')) -> kdvv_same_but_two o o' /\ (code = SUCCESS -> o' = kset_ds o ds)).
  { intros o1 u1 -> E0. injection E0 as <- <- <-. rewrite kset_loc_id. split; [apply ksame_ds|reflexivity]. }
  destruct (_ && _) in H; [apply (Hfail EC_INVALID_ARGUMENT); [discriminate|exact H]|].
  destruct (_ && _) in H; [apply (Hfail EC_NOMEM); [discriminate|exact H]|].
  inv_bind H.
  destruct (_ && _) in H; [apply (Hfail EC_INVALID_ARGUMENT); [discriminate|exact H]|].
  destruct (_ && _) in H; [apply (Hfail EC_NOMEM); [discriminate|exact H]|].
  inv_bind H.
  destruct (Nat.eqb _ 0) in H; [apply (Hfail EC_INVALID_ARGUMENT); [discriminate|exact H]|].
  inv_bind H. destruct x1 as [c|p].
  { inv_bind H. apply (Hfail x1); [|exact H]. eapply E_SUB_nonzero; [|exact Hx2]. eapply HE; eassumption. }
  inv_bind H. inv_bind H. destruct x2 as [c v].
  destruct (Z.eqb_spec c SUCCESS) as [Sc|Nc]; cbn [negb] in H.
  2:{ inv_bind H. injection H as <- <- <-. split; [apply ksame_loc|]. intros Hc. exfalso. eapply E_SUB_nonzero; eassumption. }
  inv_bind H. inv_bind H.
  destruct (_ && negb _) in H; [|eapply Hok; [reflexivity|exact H]].
  inv_bind H. destruct (Nat.eqb _ 0) in H; [eapply Hok; [reflexivity|exact H]|].
  inv_bind H. inv_bind H. inv_bind H.
  destruct x7 as [[bs rv] sub].
  destruct ds; try (eapply Hok; [reflexivity|exact H]); (inv_bind H; inv_bind H; inv_bind H; eapply Hok; [reflexivity|exact H]).
Qed.

Lemma krun_opts E D q T M XI o u code o' u' : kpre_codes E ->
  kdvv_run E D q T M XI o u = Ret (code, (o', u')) -> kdvv_same_but_two o o' /\ (code = SUCCESS -> o' = o).
Proof.
  intros HE. unfold kdvv_run. intros H.
  inv_bind H. destruct (Z.eqb_spec x SUCCESS) as [Sx|Nx]; cbn [negb] in H.
  2:{ injection H as <- <- <-. split; [apply ksame_refl|congruence]. }
  destruct (Nat.eqb _ 0) in H; [injection H as <- <- <-; split; [apply ksame_refl|discriminate]|].
  inv_bind H. inv_bind H. inv_bind H. cbv zeta in H.
  set (rich := Nat.eqb (k_rich o) 1) in *.
  set (res := rich && match k_ds o with DS_RESIDUES => true | _ => false end) in *.
  set (o1 := if res then kset_ds o DS_BOTH else o) in *.
  assert (S1 : kdvv_same_but_two o o1) by (unfold o1; destruct res; [apply ksame_ds|apply ksame_refl]).
  assert (F1 : kset_ds o1 (k_ds o) = o) by (unfold o1; destruct res; destruct o; reflexivity).
  assert (F2 : rich = false -> o1 = o) by (intros Hr; unfold o1, res; now rewrite Hr).
  inv_bind H. destruct (res && negb _) in H. { injection H as <- <- <-. split; [exact S1|discriminate]. }
  inv_bind H. destruct x4 as [c|p].
  { inv_bind H. injection H as <- <- <-. split; [exact S1|]. intros Hc. exfalso. eapply E_SUB_nonzero; [|exact Hx5|exact Hc]. eapply HE; eassumption. }
  inv_bind H. destruct x4 as [c1 v1]. apply check_Ret in H. destruct H as [[Hc1 H]|(Hc1 & Hst & _ & Hcode)].
  2:{ cbn [fst snd] in *. injection Hst as -> ->. split; [exact S1|].
      intros Hc. rewrite Hc in Hcode. symmetry in Hcode. now apply abs_nonzero in Hcode. }
  destruct rich eqn:Er.
  - apply krichardson_opts in H; [|exact HE]. destruct H as [H1 H2]. split; [eapply ksame_trans; eassumption|].
    intros Hc. rewrite (H2 Hc). exact F1.
  - injection H as <- <- <-. split; [exact S1|]. intros _. now apply F2.
Qed.

(** After a successful call the options struct of the caller is what it was, and so are the library's defaults. *)
Theorem kdvv_restores_options E D q T M XI user dflt u u' user' dflt' : kpre_codes E ->
  fnft_kdvv E D q T M XI user dflt u = Ret (SUCCESS, u', user', dflt') -> user' = user /\ dflt' = dflt.
Proof.
  intros HE H. unfold fnft_kdvv in H. inv_bind H. destruct x as [c [o1 u1]]. injection H as -> -> <- <-.
  apply krun_opts in Hx; [|exact HE]. destruct Hx as [_ Ho]. specialize (Ho eq_refl).
  destruct user; subst o1; auto.
Qed.

(** In every case only bound_state_localization and discspec_type of the struct in use can differ. *)
Theorem kdvv_changes_two_options E D q T M XI user dflt u code u' user' dflt' : kpre_codes E ->
  fnft_kdvv E D q T M XI user dflt u = Ret (code, u', user', dflt') ->
  match user, user' with
  | Some o, Some o' => kdvv_same_but_two o o' /\ dflt' = dflt
  | None, None => kdvv_same_but_two dflt dflt'
  | _, _ => False
  end.
Proof.
  intros HE H. unfold fnft_kdvv in H. inv_bind H. destruct x as [c [o1 u1]]. injection H as -> -> <- <-.
  apply krun_opts in Hx; [|exact HE]. destruct Hx as [Ho _]. destruct user; auto.
Qed.
