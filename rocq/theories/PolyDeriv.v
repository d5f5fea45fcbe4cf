(** * The formal derivative over C is the complex derivative *)
From Verif Require Import Base PolySpec Fields CDeriv.
From Coq Require Import Reals.
From Coquelicot Require Import Coquelicot.

Lemma Cderive_fpow (n : nat) (x : C) :
  Cderive (fun z : C => fpow (K := CF) z n) x
    (Cmult (fofnat (K := CF) n) (fpow (K := CF) x (n - 1))).
Proof.
  induction n as [|n IH].
  - eapply Cderive_eq; [apply (Cderive_ext (fun _ => RtoC 1)); [reflexivity|apply Cderive_const]|]. simpl. change (@f0 CF) with (RtoC 0). ring.
  - replace (S n - 1)%nat with n by lia.
    eapply Cderive_eq; [apply (Cderive_mult (fun z => z) (fun z : C => fpow (K:=CF) z n) x _ _ (Cderive_id x) IH)|].
    cbv beta. destruct n as [|n].
    + simpl. change (@f0 CF) with (RtoC 0). ring.
    + replace (S n - 1)%nat with n by lia. cbn [fpow fofnat].
      change (@f1 CF) with (RtoC 1). change (@fadd CF) with Cplus. change (@fmul CF) with Cmult. ring.
Qed.

Lemma Cderive_fsum (n : nat) (f : nat -> C -> C) (g : nat -> C) (x : C) :
  (forall i, (i < n)%nat -> Cderive (f i) x (g i)) ->
  Cderive (fun z : C => fsum (K := CF) n (fun i => f i z)) x (fsum (K := CF) n g).
Proof.
  induction n as [|n IH]; intros H; cbn [fsum].
  - apply Cderive_const.
  - apply (Cderive_plus (fun z : C => fsum (K := CF) n (fun i => f i z)) (f n) x).
    + apply IH. intros; apply H; lia.
    + apply H; lia.
Qed.

Lemma pderiv_is_derive (p : list CF) (x : C) :
  Cderive (fun z : C => peval (K := CF) p z) x (pderiv (K := CF) p x).
Proof.
  unfold peval, pderiv. generalize (length p) as n; intros n.
  eapply Cderive_eq.
  - apply (Cderive_fsum (n)
      (fun i z => Cmult (nth i p (RtoC 0)) (fpow (K:=CF) z (n - 1 - i)))
      (fun i => Cmult (nth i p (RtoC 0)) (Cmult (fofnat (K:=CF) (n - 1 - i))
            (fpow (K:=CF) x (n - 1 - i - 1))))).
    intros i Hi. apply Cderive_scal. apply Cderive_fpow.
  - destruct n as [|n]; [reflexivity|].
    replace (S n - 1)%nat with n by lia. cbn [fsum].
    replace (n - n)%nat with 0%nat by lia. cbn [fofnat fpow Nat.sub].
    change (@f0 CF) with (RtoC 0). change (@f1 CF) with (RtoC 1). change (@fadd CF) with Cplus.
    transitivity (fsum (K:=CF) n (fun i => Cmult (nth i p (RtoC 0))
         (Cmult (fofnat (K:=CF) (n - i)) (fpow (K:=CF) x (n - i - 1))))).
    { ring. }
    apply (fsum_ext (K := CF)). intros i Hi. replace (n - i - 1)%nat with (n - 1 - i)%nat by lia.
    cf_ring.
Qed.
