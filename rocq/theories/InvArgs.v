(** * nsev_inverse: which arguments are accepted; the other ones leave all arrays alone *)
From Coq Require Import Reals ZArith List Lia Lra.
From Coquelicot Require Import Coquelicot.
From Verif Require Import CExp NsevProps NsevSafe NsevSpec KdvvProps FinvModel FinvTop FinvErr InvModel.
Import ListNotations.
Local Open Scope C_scope.

(** ** Specification *)
Record accepted (M : nat) (contspec : option (list C)) (XI : option (R * R)) (K : nat) (bs nc : option (list C)) (D : nat)
    (q : option (list C)) (T : option (R * R)) (kappa : Z) (o : iopts) : Prop := {
  ac_some : contspec <> None \/ (0 < K)%nat;                       (* there is a spectrum *)
  ac_M0 : (0 < M)%nat -> contspec <> None;
  ac_M : contspec <> None -> Nat.Even M /\ (D <= M)%nat;
  ac_XI : contspec <> None -> i_cs o <> IC_B_OF_TAU -> XI <> None;
  ac_D : exists k, (1 <= k)%nat /\ D = (2 ^ k)%nat;
  ac_q : q <> None;
  ac_T : proper_interval T;
  ac_kappa : kappa = 1%Z \/ kappa = (-1)%Z /\ K = O;               (* no bound states in the defocusing case *)
  ac_K : (0 < K)%nat -> bs <> None /\ nc <> None;
  ac_bs : forall l i x, bs = Some l -> (i < K)%nat -> nth_error l i = Some x -> (0 < snd x)%R;
  ac_disc : i_disc o = N_2SPLIT2A \/ i_disc o = N_2SPLIT2_MODAL }.

Lemma pow2_spec D : not_power_of_two D = false <-> exists k, (1 <= k)%nat /\ D = (2 ^ k)%nat.
Proof.
  unfold not_power_of_two. change (negb (Z.eqb (Z.land (Z.of_nat D) (Z.of_nat D - 1)) 0)) with (not_pow2 D). split.
  - intros H. apply Bool.orb_false_iff in H. destruct H as [H1 H2]. apply Nat.ltb_ge in H1. destruct (not_pow2_spec (fun _ => repeat (RtoC 0)) (repeat (RtoC 0)) (repeat (RtoC 0)) (repeat (RtoC 0)) (fun _ => repeat_length _) (repeat_length _) (repeat_length _) (repeat_length _) D ltac:(lia) H2) as (k & E).
    exists k. split; [|exact E]. destruct k; [cbn in E; lia|lia].
  - intros (k & Hk & ->). rewrite not_pow2_pow, Bool.orb_false_r. apply Nat.ltb_ge. change 2%nat with (2 ^ 1)%nat. apply Nat.pow_le_mono_r; lia.
Qed.
Lemma some_below_spec K l : (K <= length l)%nat -> exists b, some_below K l = Ret b /\ (b = false <-> forall i x, (i < K)%nat -> nth_error l i = Some x -> (0 < snd x)%R).
Proof.
  intros H. unfold some_below.
  destruct (for_inv (fun i (b : bool) => b = false <-> forall j x, (j < i)%nat -> nth_error l j = Some x -> (0 < snd x)%R)
    (fun i (r : bool) => if r then Ret true else x <- aget l i ;; Ret (if Rle_dec (snd x) 0 then true else false)) K 0 false) as (b & E & I).
  - split; [intros _ j x Hj; lia|reflexivity].
  - intros i b Hi I. destruct b.
    + exists true. split; [reflexivity|]. split; [discriminate|]. intros G. apply I. intros j x Hj. apply G. lia.
    + destruct (aget_ex l i) as (x & Ex); [lia|]. assert (Nx := aget_Some _ _ _ Ex). rewrite Ex. cbn [bind]. eexists. split; [reflexivity|]. destruct (Rle_dec (snd x) 0) as [Hx|Hx].
      * split; [discriminate|]. intros G. specialize (G i x ltac:(lia) Nx). lra.
      * split; [|reflexivity]. intros _ j y Hj Hy. destruct (Nat.eq_dec j i) as [->|]; [|apply (proj1 I eq_refl j); [lia|exact Hy]].
        rewrite Nx in Hy. injection Hy as <-. lra.
  - exists b. split; [exact E|exact I].
Qed.

Lemma inverse_check_spec M contspec XI K bs nc D q T kappa o : (forall l, bs = Some l -> (K <= length l)%nat) ->
  exists code, inverse_check M contspec XI K bs nc D q T kappa o = Ret code /\
   ((code = SUCCESS /\ accepted M contspec XI K bs nc D q T kappa o) \/
    ((code = EC_INVALID_ARGUMENT \/ code = EC_SANITY_CHECK_FAILED) /\ ~ accepted M contspec XI K bs nc D q T kappa o)).
Proof.
  intros Hl. unfold inverse_check.
  assert (Bad : forall code, (code = EC_INVALID_ARGUMENT \/ code = EC_SANITY_CHECK_FAILED) -> ~ accepted M contspec XI K bs nc D q T kappa o ->
    exists c, Ret code = Ret c /\ ((c = SUCCESS /\ accepted M contspec XI K bs nc D q T kappa o) \/
      ((c = EC_INVALID_ARGUMENT \/ c = EC_SANITY_CHECK_FAILED) /\ ~ accepted M contspec XI K bs nc D q T kappa o))).
  { intros code Hc N. exists code. split; [reflexivity|right; auto]. }
  destruct ((0 <? M)%nat && no_ptr contspec) eqn:E1.
  { apply Bad; [auto|]. intros A. apply andb_prop in E1. destruct E1 as [E1 E1']. apply Nat.ltb_lt in E1. generalize (ac_M0 _ _ _ _ _ _ _ _ _ _ _ A E1). destruct contspec; [discriminate|congruence]. }
  destruct (negb (no_ptr contspec) && negb (Nat.even M)) eqn:E2.
  { apply Bad; [auto|]. intros A. apply andb_prop in E2. destruct E2 as [E2 E2']. assert (N : contspec <> None) by (destruct contspec; [discriminate|discriminate E2]).
    destruct (ac_M _ _ _ _ _ _ _ _ _ _ _ A N) as [Q _]. apply Nat.even_spec in Q. rewrite Q in E2'. discriminate E2'. }
  destruct (negb (no_ptr contspec) && (M <? D)%nat) eqn:E3.
  { apply Bad; [auto|]. intros A. apply andb_prop in E3. destruct E3 as [E3 E3']. assert (N : contspec <> None) by (destruct contspec; [discriminate|discriminate E3]).
    destruct (ac_M _ _ _ _ _ _ _ _ _ _ _ A N) as [_ Q]. apply Nat.ltb_lt in E3'. lia. }
  destruct (not_power_of_two D) eqn:E4.
  { apply Bad; [auto|]. intros A. assert (Q := proj2 (pow2_spec D) (ac_D _ _ _ _ _ _ _ _ _ _ _ A)). congruence. }
  apply pow2_spec in E4.
  destruct (no_ptr q) eqn:E5.
  { apply Bad; [auto|]. intros A. generalize (ac_q _ _ _ _ _ _ _ _ _ _ _ A). destruct q; [discriminate|congruence]. }
  destruct (bad_interval T) eqn:E6.
  { apply Bad; [auto|]. intros A. assert (Q := proj2 (bad_interval_spec T) (ac_T _ _ _ _ _ _ _ _ _ _ _ A)). congruence. }
  apply bad_interval_spec in E6.
  destruct (Z.eqb_spec kappa 1) as [K1|K1]; [|destruct (Z.eqb_spec kappa (-1)) as [K2|K2]]; cbn [negb andb].
  3:{ apply Bad; [auto|]. intros A. destruct (ac_kappa _ _ _ _ _ _ _ _ _ _ _ A) as [Q|[Q _]]; contradiction. }
  2: destruct (Nat.ltb 0 K && true) eqn:HK; rewrite Bool.andb_true_r in HK.
  2:{ apply Nat.ltb_lt in HK. apply Bad; [auto|]. intros A. destruct (ac_kappa _ _ _ _ _ _ _ _ _ _ _ A) as [Q|[_ Q]]; [contradiction|lia]. }
  all: rewrite ?Bool.andb_false_r.
  2: apply Nat.ltb_ge in HK.
  all: destruct ((0 <? K)%nat && no_ptr bs) eqn:E7;
    [apply Bad; [auto|]; intros A; apply andb_prop in E7; destruct E7 as [E7 E7']; apply Nat.ltb_lt in E7;
     destruct (ac_K _ _ _ _ _ _ _ _ _ _ _ A E7); destruct bs; [discriminate|congruence]|].
  all: assert (G : exists low, match bs with Some bs => some_below K bs | None => Ret false end = Ret low /\
       (low = false <-> forall l i x, bs = Some l -> (i < K)%nat -> nth_error l i = Some x -> (0 < snd x)%R));
    [destruct bs as [l|]; [destruct (some_below_spec K l (Hl l eq_refl)) as (b & E & Q); exists b; split; [exact E|]; rewrite Q; split; [intros G l' i x Hl'; injection Hl' as <-; apply G|intros G i x; apply G; reflexivity]|
       exists false; split; [reflexivity|]; split; [discriminate|reflexivity]]|].
  all: destruct G as (low & -> & Hlow); cbn [bind]; destruct low;
    [apply Bad; [auto|]; intros A; assert (Q := proj2 Hlow (ac_bs _ _ _ _ _ _ _ _ _ _ _ A)); discriminate|].
  all: destruct ((0 <? K)%nat && no_ptr nc) eqn:E8;
    [apply Bad; [auto|]; intros A; apply andb_prop in E8; destruct E8 as [E8 E8']; apply Nat.ltb_lt in E8;
     destruct (ac_K _ _ _ _ _ _ _ _ _ _ _ A E8); destruct nc; [discriminate|congruence]|].
  all: destruct (supported (i_disc o)) eqn:E9; cbn [negb];
    [|apply Bad; [auto|]; intros A; destruct (ac_disc _ _ _ _ _ _ _ _ _ _ _ A) as [Q|Q]; rewrite Q in E9; discriminate].
  all: destruct (no_ptr contspec && Nat.eqb K 0) eqn:E10;
    [apply Bad; [auto|]; intros A; apply andb_prop in E10; destruct E10 as [E10 E10']; apply Nat.eqb_eq in E10';
     destruct (ac_some _ _ _ _ _ _ _ _ _ _ _ A); [destruct contspec; [discriminate|congruence]|lia]|].
  all: destruct (no_ptr XI && negb (no_ptr contspec) && match i_cs o with IC_B_OF_TAU => false | _ => true end) eqn:E11;
    [apply Bad; [auto|]; intros A; apply andb_prop in E11; destruct E11 as [E11 E11']; apply andb_prop in E11; destruct E11 as [E11 E11''];
     apply (ac_XI _ _ _ _ _ _ _ _ _ _ _ A); [destruct contspec; [discriminate|discriminate E11'']|intros Q; rewrite Q in E11'; discriminate|destruct XI; [discriminate|reflexivity]]|].
  all: exists SUCCESS; split; [reflexivity|left; split; [reflexivity|]].
  all: split; [..|destruct (i_disc o); try discriminate E9; auto].
  all: try assumption.
  all: try (destruct q; [discriminate|discriminate E5]).
  all: try (apply Hlow; reflexivity).
  all: try (left; exact K1).
  all: try (right; split; [exact K2|lia]).
  all: try (intros HK'; apply Nat.ltb_lt in HK'; rewrite HK' in E7, E8; cbn [andb] in E7, E8; split; [destruct bs; [discriminate|discriminate E7]|destruct nc; [discriminate|discriminate E8]]).
  all: try (intros HM; apply Nat.ltb_lt in HM; rewrite HM in E1; cbn [andb] in E1; destruct contspec; [discriminate|discriminate E1]).
  all: try (destruct contspec; [left; discriminate|right; cbn [no_ptr andb] in E10; apply Nat.eqb_neq in E10; lia]).
  all: try (intros Nc; destruct contspec; [|congruence]; cbn [no_ptr negb andb] in E2, E3; split; [apply Nat.even_spec; destruct (Nat.even M); [reflexivity|discriminate E2]|apply Nat.ltb_ge in E3; exact E3]).
  all: intros Nc NB; destruct contspec; [|congruence]; destruct XI; [discriminate|]; cbn [no_ptr negb andb] in E11; destruct (i_cs o); try discriminate E11; congruence.
Qed.

(** bad arguments: an error code, nothing is written *)
Theorem nsev_inverse_rejects E M contspec XI K bs nc D q T kappa user : (forall l, bs = Some l -> (K <= length l)%nat) ->
  ~ accepted M contspec XI K bs nc D q T kappa (match user with Some o => o | None => inverse_default_opts end) ->
  exists code, fnft_nsev_inverse E M contspec XI K bs nc D q T kappa user = Ret (code, (contspec, q)) /\ (code = EC_INVALID_ARGUMENT \/ code = EC_SANITY_CHECK_FAILED).
Proof.
  intros Hl N. unfold fnft_nsev_inverse. destruct (inverse_check_spec M contspec XI K bs nc D q T kappa (match user with Some o => o | None => inverse_default_opts end) Hl) as (code & -> & [[_ A]|[C' _]]); [contradiction|].
  cbn [bind]. exists code. split; [|exact C']. destruct C' as [-> | ->]; reflexivity.
Qed.
Lemma inverse_accepted E M contspec XI K bs nc D q T kappa o : (forall l, bs = Some l -> (K <= length l)%nat) -> accepted M contspec XI K bs nc D (Some q) (Some T) kappa o ->
  fnft_nsev_inverse E M contspec XI K bs nc D (Some q) (Some T) kappa (Some o) =
  (x <- match contspec with
       | Some cs => x <- invert_contspec E M cs XI K bs D q T kappa o ;; let '(code, (cs, q)) := x in Ret (code, (Some cs, q))
       | None => Ret (SUCCESS, (None, q))
       end ;;
  let '(code, (contspec, q)) := x in
  if negb (Z.eqb code SUCCESS) then Ret (code, (contspec, Some q)) else
  if (0 <? K)%nat then
    bs <- deref bs ;; nc <- deref nc ;;
    x <- add_discrete_spectrum E K bs nc D q T (negb (no_ptr contspec)) o ;; let '(code, q) := x in
    check code (contspec, Some q) (Ret (SUCCESS, (contspec, Some q)))
  else Ret (SUCCESS, (contspec, Some q))).
Proof.
  intros Hl A. unfold fnft_nsev_inverse. destruct (inverse_check_spec M contspec XI K bs nc D (Some q) (Some T) kappa o Hl) as (code & -> & [[-> _]|[_ N]]); [reflexivity|contradiction].
Qed.
(** NULL options: the default ones *)
Theorem nsev_inverse_default E M contspec XI K bs nc D q T kappa :
  fnft_nsev_inverse E M contspec XI K bs nc D q T kappa None = fnft_nsev_inverse E M contspec XI K bs nc D q T kappa (Some inverse_default_opts).
Proof. reflexivity. Qed.
