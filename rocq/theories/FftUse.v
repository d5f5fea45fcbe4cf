(** * Executing KissFFT plans on complex arrays: statement with plain types *)
From Coq Require Import Reals.
From Coquelicot Require Import Coquelicot.
From Verif Require Export Base Mem Loop CExp Fields KissModel PolyFmultModel Dft KissProof KissProps PolyFmultTwo PolyFmultProps.

(** fft_wrapper_execute_plan(plan, src, dst) for a plan of length len (KissModel) *)
Definition fft_exec (inv : bool) (len : nat) (src dst : list C) : out (list C) := exec (K := CF) kiss_fft inv len src dst.

Lemma fft_exec_spec inv len (src dst : list C) (x : nat -> C) : (1 <= len)%nat ->
  (len <= length src)%nat -> (len <= length dst)%nat -> (forall k, (k < len)%nat -> nth k src (RtoC 0) = x k) ->
  exists dst' : list C, fft_exec inv len src dst = Ret dst' /\ length dst' = length dst /\
    forall k, (k < len)%nat -> nth k dst' (RtoC 0) = dft (K := CF) (wroot inv len) len x k.
Proof.
  intros H1 Hs Hd Hx.
  destruct (exec_spec (K := CF) kiss_fft 0 len (wroot false len) ltac:(lia) (kiss_fft_ok len H1) inv src dst x Hs Hd Hx)
    as (d & E & L & N).
  exists d. split; [exact E|]. split; [exact L|]. intros k Hk. etransitivity; [exact (N k Hk)|].
  destruct inv; [|reflexivity]. now rewrite <- (wroot_inv false).
Qed.
Lemma fft_nodes len : (1 <= len)%nat -> proot (K := CF) (wroot false len) len.
Proof. intros H. apply wroot_proot. lia. Qed.
Lemma INR_C_neq0 n : n <> 0%nat -> RtoC (INR n) <> RtoC 0.
Proof. intros H E. apply (not_0_INR n H). now injection E. Qed.
