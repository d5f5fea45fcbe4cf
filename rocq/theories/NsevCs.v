(** * The values of the continuous spectrum: loops of nsev_compute_contspec *)
From Coq Require Import Reals Lra.
From Coquelicot Require Import Coquelicot.
From Verif Require Import Loop CExp MiscProof DiscProps NsevSpec NsevProps NsevSafe ManvSafe.
Local Open Scope C_scope.

Lemma rho_loop_value (H11 H21 xi : list C) (ph : R) M : length H11 = M -> length H21 = M -> length xi = M ->
  (forall j, (j < M)%nat -> nth j H11 0 <> 0) ->
  forall cnt i (result : list C), (i + cnt = M)%nat -> (M <= length result)%nat ->
  exists res, rho_loop cnt i H11 H21 xi ph result = Ret (SUCCESS, res) /\ kept M result res
    /\ (forall j, (j < i)%nat -> nth j res 0 = nth j result 0)
    /\ (forall j, (i <= j < M)%nat -> nth j res 0 = nth j H21 0 * Cexp (Ci * nth j xi 0 * RtoC ph) / nth j H11 0).
Proof.
  intros L1 L2 L3 Hnz. induction cnt as [|k IH]; intros i result Hi Hr; cbn [rho_loop].
  - eexists. split; [reflexivity|]. split; [apply kept_refl|]. split; [auto|]. intros j Hj. lia.
  - agn; [|lia]. assert (Ec : ceq (nth i H11 (RtoC 0)) 0 = false).
    { unfold ceq. destruct (Ceq_dec _ _) as [E|]; [|reflexivity]. exfalso. apply (Hnz i ltac:(lia)). exact E. }
    rewrite Ec. do 2 (agn; [|lia]). asu; [|lia]. set (r1 := upd result i _). assert (Lr1 : length r1 = length result) by apply upd_length.
    destruct (IH (S i) r1) as (res & -> & Hk & Hold & Hnew); [lia|lia|]. exists res. split; [reflexivity|]. split; [|split].
    + eapply kept_trans; [|exact Hk]. apply kept_upd. lia.
    + intros j Hj. rewrite (Hold j ltac:(lia)). unfold r1. now rewrite nth_upd_other by (rewrite ?upd_length; lia).
    + intros j Hj. destruct (Nat.eq_dec j i) as [->|N]; [|apply Hnew; lia].
      rewrite (Hold i ltac:(lia)). unfold r1. now rewrite nth_upd_same by lia.
Qed.
(** the early return at the first zero of H11 *)
Lemma rho_loop_zero (H11 H21 xi : list C) (ph : R) M : length H11 = M -> length H21 = M -> length xi = M ->
  forall cnt i (result : list C), (i + cnt = M)%nat -> (M <= length result)%nat -> (exists j, (i <= j < M)%nat /\ nth j H11 0 = 0) ->
  exists res, rho_loop cnt i H11 H21 xi ph result = Ret (EC_DIV_BY_ZERO, res).
Proof.
  intros L1 L2 L3. induction cnt as [|k IH]; intros i result Hi Hr (j & Hj & Ej); cbn [rho_loop]; [lia|].
  agn; [|lia]. unfold ceq. destruct (Ceq_dec _ _) as [E|N]; [eexists; reflexivity|].
  do 2 (agn; [|lia]). asu; [|lia]. apply IH; [lia|rewrite upd_length; lia|]. exists j. split; [|exact Ej].
  destruct (Nat.eq_dec j i) as [->|]; [contradiction|lia].
Qed.

Lemma ab_loop_value (H11 H21 xi : list C) (sc pa pb : R) M off (result : list C) : length H11 = M -> length H21 = M -> length xi = M ->
  (off + 2 * M <= length result)%nat ->
  exists res, ab_loop M off H11 H21 xi sc pa pb result = Ret res /\ kept (off + 2 * M) result res
    /\ (forall j, (j < off)%nat -> nth j res 0 = nth j result 0)
    /\ forall j, (j < M)%nat -> nth (off + j) res 0 = nth j H11 0 * RtoC sc * Cexp (Ci * nth j xi 0 * RtoC pa)
         /\ nth (off + M + j) res 0 = nth j H21 0 * RtoC sc * Cexp (Ci * nth j xi 0 * RtoC pb).
Proof.
  intros L1 L2 L4 Hr. unfold ab_loop.
  set (P := fun i (l : list C) => kept (off + 2 * M) result l /\ (forall j, (j < off)%nat -> nth j l 0 = nth j result 0)
    /\ forall j, (j < i)%nat -> nth (off + j) l 0 = nth j H11 0 * RtoC sc * Cexp (Ci * nth j xi 0 * RtoC pa)
         /\ nth (off + M + j) l 0 = nth j H21 0 * RtoC sc * Cexp (Ci * nth j xi 0 * RtoC pb)).
  match goal with |- context [for_ M 0 ?f result] => destruct (for_inv P f M 0%nat result) as (l & El & Hl) end.
  - split; [apply kept_refl|]. split; [auto|]. lia.
  - intros i l Hi (Hk & Ho & Hn). pose proof (kept_length _ _ _ Hk) as Ll. do 3 (agn; [|lia]).
    asu; [|lia]. rewrite aset_upd by (rewrite !upd_length; lia).
    eexists. split; [reflexivity|]. split; [|split].
    + do 2 (eapply kept_trans; [|apply kept_upd; lia]). exact Hk.
    + intros j Hj. rewrite !nth_upd_other by (rewrite ?upd_length; lia). now apply Ho.
    + intros j Hj. destruct (Nat.eq_dec j i) as [->|N].
      * rewrite (nth_upd_other _ (off + M + i) (off + i)) by (rewrite ?upd_length; lia).
        rewrite nth_upd_same by lia. rewrite nth_upd_same by (rewrite upd_length; lia). auto.
      * rewrite !nth_upd_other by (rewrite ?upd_length; lia). apply Hn. lia.
  - exists l. split; [exact El|]. exact Hl.
Qed.
