(** * Combinations of options that fnft_nsev_inverse does not support are refused (C77) *)
From Coq Require Import Reals Lra.
From Coquelicot Require Import Coquelicot.
From Verif Require Import Loop CExp NsevSpec NsevProps InvModel InvArgs.
Local Open Scope C_scope.

(** include/fnft_nsev_inverse.h: B(tau) only on the same number of samples, a symmetric time interval and with the default method;
   a reflection coefficient only with the two methods for it, and the iterative one only for M = D and kappa = -1 *)
Definition unsupported (o : iopts) (M D : nat) (T : R * R) (kappa : Z) : Prop :=
  match i_cs o, i_meth o with
  | IC_B_OF_TAU, IM_DEFAULT => M <> D \/ fst T <> (- snd T)%R
  | IC_B_OF_TAU, _ => True
  | IC_REFLECTION_COEFFICIENT, IM_AB_FROM_ITER => M <> D \/ kappa <> (-1)%Z
  | IC_REFLECTION_COEFFICIENT, (IM_SEED | IM_bad) => True
  | IC_bad, _ => True
  | _, _ => False
  end.

Theorem nsev_inverse_unsupported E M cs XI bs nc K D q T kappa o : (forall l, bs = Some l -> (K <= length l)%nat) ->
  accepted M (Some cs) XI K bs nc D (Some q) (Some T) kappa o -> ie_alloc E 0 = true -> K = O \/ i_cs o <> IC_REFLECTION_COEFFICIENT ->
  unsupported o M D T kappa ->
  exists code, fnft_nsev_inverse E M (Some cs) XI K bs nc D (Some q) (Some T) kappa (Some o) = Ret (code, (Some cs, Some q)) /\
    Z.abs code = EC_INVALID_ARGUMENT.
Proof.
  intros Hl A Ha HK HU. rewrite inverse_accepted by assumption. unfold invert_contspec.
  assert (Hdeg : (D * nse_degree (i_disc o))%nat <> O /\ D = (D * nse_degree (i_disc o))%nat).
  { destruct (ac_D _ _ _ _ _ _ _ _ _ _ _ A) as (k & _ & ->). pose proof (Nat.pow_nonzero 2 k ltac:(lia)).
    destruct (ac_disc _ _ _ _ _ _ _ _ _ _ _ A) as [-> | ->]; cbn [nse_degree]; (change (nse_degree N_2SPLIT2A) with 1%nat || change (nse_degree N_2SPLIT2_MODAL) with 1%nat); lia. }
  assert (Hp : not_power_of_two D = false) by (apply pow2_spec; apply (ac_D _ _ _ _ _ _ _ _ _ _ _ A)).
  destruct (Nat.eqb_spec (D * nse_degree (i_disc o)) 0) as [|_]; [lia|]. rewrite Ha. cbn [negb]. destruct Hdeg as [_ <-].
  assert (Hpre : i_cs o = IC_REFLECTION_COEFFICIENT -> forall XI', match bs with Some bs => precompensate M cs XI' K bs | None => if Nat.eqb K 0 then Ret cs else UB end = Ret cs).
  { intros Er XI'. destruct HK as [-> | HK]; [|contradiction]. destruct bs; reflexivity. }
  assert (HXI : i_cs o <> IC_B_OF_TAU -> exists XI', XI = Some XI').
  { intros N. pose proof (ac_XI _ _ _ _ _ _ _ _ _ _ _ A ltac:(discriminate) N). destruct XI; [eauto|congruence]. }
  unfold unsupported in HU. unfold tm_from_B_of_tau, tm_from_reflection_coefficient, tm_ab_from_iter. cbv zeta. rewrite Hp, Nat.eqb_refl.
  destruct (i_cs o) eqn:Ec; [| | |].
  - destruct (HXI ltac:(discriminate)) as (XI' & ->). cbn [deref bind]. rewrite (Hpre eq_refl). cbn [bind].
    destruct (i_meth o); try contradiction.
    + destruct (Nat.eqb_spec M D) as [EM|NM]; cbn [negb].
      * destruct HU as [HU|HU]; [contradiction|]. destruct (Z.eqb_spec kappa (-1)); [contradiction|]. cbn. eexists. split; reflexivity.
      * cbn. eexists. split; reflexivity.
    + cbn. eexists. split; reflexivity.
    + cbn. eexists. split; reflexivity.
  - destruct (i_meth o); contradiction.
  - destruct (Nat.eqb_spec M D) as [EM|NM]; cbn [negb]; [|cbn; eexists; split; reflexivity].
    destruct (Req_EM_T (fst T) (- snd T)) as [ET|NT]; [|cbn; eexists; split; reflexivity].
    destruct (i_meth o); [destruct HU; contradiction|..]; cbn; eexists; split; reflexivity.
  - cbn. eexists. split; reflexivity.
Qed.

(** a call that is refused: B(tau) on the interval from 0 to 1 *)
Definition tau_opts : iopts := {| i_disc := N_2SPLIT2A; i_cs := IC_B_OF_TAU; i_meth := IM_DEFAULT; i_ds := ID_NORMING_CONSTANTS; i_maxiter := 100; i_os := 8 |}.
Example unsupported_example : let cs := [RtoC 1; RtoC 1] in
  accepted 2 (Some cs) None 0 None None 2 (Some cs) (Some (0, 1)%R) (-1) tau_opts /\ unsupported tau_opts 2 2 (0, 1)%R (-1).
Proof.
  cbv zeta. split; [|cbn; right; lra]. constructor.
  - left. discriminate.
  - discriminate.
  - intros _. split; [exists 1%nat; reflexivity|lia].
  - intros _ HH. now contradiction HH.
  - exists 1%nat. split; [lia|reflexivity].
  - discriminate.
  - exists 0%R, 1%R. split; [reflexivity|lra].
  - right. auto.
  - lia.
  - discriminate.
  - now left.
Qed.
