(** * The butterflies of KissFFT satisfy the mixed-radix step *)
From Coq Require Import Reals Lra.
From Coquelicot Require Import Coquelicot.
From Verif Require Import Base Fields Dft KissModel KissSizeProof KissProof.
Local Notation CF := Fields.CF.

Lemma C_eq (a b : C) : fst a = fst b -> snd a = snd b -> a = b.
Proof. destruct a, b; simpl; intros; subst; reflexivity. Qed.

Ltac len := rewrite ?upd_length; try lia.
Ltac gets :=
  repeat (first
    [ rewrite (aget_nth _ (RtoC 0)) by (rewrite ?upd_length; nia)
    | rewrite aset_upd by (rewrite ?upd_length; nia) ]; cbn [bind]).

Ltac idx_simpl m :=
  repeat match goal with
  | |- context [Nat.eqb ?a ?b] =>
      (let H := fresh in assert (H : a = b) by nia; rewrite (proj2 (Nat.eqb_eq a b) H); clear H) ||
      (let H := fresh in assert (H : a <> b) by nia; rewrite (proj2 (Nat.eqb_neq a b) H); clear H)
  end.


Section B.
Variables (inv : bool) (N fstride m : nat).
Hypothesis Hm : m <> 0%nat.
Hypothesis Hf : fstride <> 0%nat.
Let tw := twiddles inv N.

(** value q of a radix-p butterfly with twiddled inputs s *)
Definition bval (p : nat) (s : nat -> C) (q : nat) : C :=
  fsum (K := CF) p (fun j => Cmult (s j) (fpow (K := CF) (wroot inv p) ((j * q) mod p))).

Lemma bfly_sum p u q F : p <> 0%nat -> N = (fstride * (p * m))%nat ->
  fsum (K := CF) p (fun j => Cmult (nth (u + j * m) F (RtoC 0))
     (fpow (K := CF) (fpow (K := CF) (wroot inv N) fstride) (j * (u + q * m))))
  = bval p (fun j => Cmult (nth (u + j * m) F (RtoC 0))
      (fpow (K := CF) (fpow (K := CF) (fpow (K := CF) (wroot inv N) fstride) u) j)) q.
Proof.
  intros Hp HN. unfold bval. apply (fsum_ext (K := CF)). intros j Hj.
  rewrite (W_idx inv N fstride p m Hp Hm HN Hf).
  rewrite (om_is inv N fstride p m Hp Hm HN Hf).
  rewrite (fpow_mod (K := CF) (wroot inv p) p (j * q)) by (try lia; now apply wroot_order).
  apply Cmult_assoc.
Qed.

Lemma not_idx u i : (u < m)%nat -> (i mod m <> u)%nat -> forall q, (i <> u + q * m)%nat.
Proof. intros Hu Nu q ->. apply Nu. rewrite Nat.mod_add by exact Hm. apply Nat.mod_small; lia. Qed.

Ltac tws p u HN Hu :=
  repeat match goal with
  | |- context [aget tw ?k] =>
    let j := match k with
      | (u * fstride)%nat => constr:(1%nat)
      | (u * (fstride * ?j))%nat => j
      | (?j * u * fstride)%nat => j end in
    let T := fresh "T" in let E := fresh "E" in
    destruct (tw_get_u inv N fstride p m ltac:(lia) Hm HN Hf u j Hu ltac:(lia)) as [T E];
    replace (u * (fstride * j))%nat with k in T, E by nia;
    change (aget tw k) with (aget (twiddles inv N) k);
    rewrite (twiddles_nth inv N k T), E; cbn [bind]; clear T E
  end.

Ltac nths := repeat (rewrite nth_upd by (rewrite ?upd_length; nia)); idx_simpl m;
             repeat (rewrite nth_upd by (rewrite ?upd_length; nia); idx_simpl m).

Ltac gen_s u F :=
  set (Wu := fpow (K := CF) (fpow (K := CF) (wroot inv N) fstride) u);
  cbv beta;
  change (fpow (K := CF) Wu 0) with (RtoC 1); rewrite ?Cmult_1_r;
  rewrite ?Nat.mul_0_l, ?Nat.add_0_r, ?Nat.mul_1_l;
  repeat match goal with |- context [Cmult (nth (u + ?k) F (RtoC 0)) (fpow (K := CF) Wu ?j)] =>
    generalize (Cmult (nth (u + k) F (RtoC 0)) (fpow (K := CF) Wu j)); intros ? end;
  try (generalize (nth u F (RtoC 0)); intros ?).

Lemma bfly2_ok : N = (fstride * (2 * m))%nat -> bfly_ok inv N fstride 2 m (bfly2_body tw fstride m).
Proof.
  intros HN u F Hu HL. unfold bfly2_body.
  repeat (progress (gets; tws 2%nat u HN Hu)).
  eexists. split; [reflexivity|]. split; [now len|].
  intros i Hi. destruct (Nat.eqb_spec (i mod m) u) as [Eu|Nu].
  - destruct (idx_cases N fstride 2 m ltac:(lia) Hm HN Hf u i Hu Hi Eu) as (q & Hq & ->).
    rewrite bfly_sum by (exact HN || lia).
    assert (Hq' : (q = 0 \/ q = 1)%nat) by lia. destruct Hq' as [-> | ->]; nths;
      unfold bval; cbn [fsum Nat.mul Nat.add]; rewrite wroot2; gen_s u F;
      cbn [Nat.modulo Nat.divmod Nat.sub snd fpow];
      apply C_eq; simpl; ring.
  - pose proof (not_idx u i Hu Nu 0). pose proof (not_idx u i Hu Nu 1).
    nths. reflexivity.
Qed.

Lemma bfly4_ok : N = (fstride * (4 * m))%nat -> bfly_ok inv N fstride 4 m (bfly4_body inv tw fstride m).
Proof.
  intros HN u F Hu HL. unfold bfly4_body.
  repeat (progress (gets; tws 4%nat u HN Hu)).
  match goal with |- exists F', (if inv then ?a else ?b) = _ /\ _ =>
    assert (X : exists F', (if inv then a else b) = Ret F') end.
  { destruct inv; gets; eexists; reflexivity. }
  destruct X as [F' EF]. exists F'. split; [exact EF|].
  assert (EE : forall i, nth i F' (RtoC 0) = nth i F' (RtoC 0)) by reflexivity.
  destruct inv eqn:Einv; revert EF; gets; intros EF; injection EF as <-.
  all: split; [now len|].
  all: intros i Hi; destruct (Nat.eqb_spec (i mod m) u) as [Eu|Nu].
  all: try (pose proof (not_idx u i Hu Nu 0); pose proof (not_idx u i Hu Nu 1);
            pose proof (not_idx u i Hu Nu 2); pose proof (not_idx u i Hu Nu 3); nths; reflexivity).
  all: destruct (idx_cases N fstride 4 m ltac:(lia) Hm HN Hf u i Hu Hi Eu) as (q & Hq & ->).
  all: rewrite <- Einv; rewrite bfly_sum by (exact HN || lia).
  all: assert (Hq' : (q = 0 \/ q = 1 \/ q = 2 \/ q = 3)%nat) by lia; destruct Hq' as [-> |[-> |[-> | ->]]]; nths.
  all: unfold bval; cbn [fsum Nat.mul Nat.add]; rewrite ?wroot4; rewrite Einv; gen_s u F.
  all: cbn [Nat.modulo Nat.divmod Nat.sub snd fpow dsgn].
  all: apply C_eq; simpl; ring.
Qed.

Lemma bfly3_ok : N = (fstride * (3 * m))%nat ->
  bfly_ok inv N fstride 3 m (bfly3_body (wroot inv 3) tw fstride m).
Proof.
  intros HN u F Hu HL. unfold bfly3_body.
  repeat (progress (gets; tws 3%nat u HN Hu)).
  eexists. split; [reflexivity|]. split; [now len|].
  intros i Hi. destruct (Nat.eqb_spec (i mod m) u) as [Eu|Nu].
  - destruct (idx_cases N fstride 3 m ltac:(lia) Hm HN Hf u i Hu Hi Eu) as (q & Hq & ->).
    rewrite bfly_sum by (exact HN || lia).
    assert (Hq' : (q = 0 \/ q = 1 \/ q = 2)%nat) by lia; destruct Hq' as [-> |[-> | ->]]; nths;
      unfold bval; cbn [fsum Nat.mul Nat.add]; gen_s u F;
      cbn [Nat.modulo Nat.divmod Nat.sub snd];
      pose proof (wroot_conj_pow inv 3 1 ltac:(lia) ltac:(lia)) as E2; cbn [Nat.sub] in E2;
      rewrite ?E2; rewrite ?fpow_1; rewrite ?fpow_0;
      pose proof (wroot3_re inv) as E3; destruct (wroot inv 3) as [wr wi]; cbn [fst snd] in *; subst wr;
      apply C_eq; simpl; field.
  - pose proof (not_idx u i Hu Nu 0). pose proof (not_idx u i Hu Nu 1). pose proof (not_idx u i Hu Nu 2).
    nths. reflexivity.
Qed.

Lemma bfly5_ok : N = (fstride * (5 * m))%nat ->
  bfly_ok inv N fstride 5 m (bfly5_body (wroot inv 5) (fpow (K := CF) (wroot inv 5) 2) tw fstride m).
Proof.
  intros HN u F Hu HL. unfold bfly5_body.
  repeat (progress (gets; tws 5%nat u HN Hu)).
  eexists. split; [reflexivity|]. split; [now len|].
  intros i Hi. destruct (Nat.eqb_spec (i mod m) u) as [Eu|Nu].
  - destruct (idx_cases N fstride 5 m ltac:(lia) Hm HN Hf u i Hu Hi Eu) as (q & Hq & ->).
    rewrite bfly_sum by (exact HN || lia).
    assert (Hq' : (q = 0 \/ q = 1 \/ q = 2 \/ q = 3 \/ q = 4)%nat) by lia;
    destruct Hq' as [-> |[-> |[-> |[-> | ->]]]]; nths;
      unfold bval; cbn [fsum Nat.mul Nat.add]; gen_s u F;
      cbn [Nat.modulo Nat.divmod Nat.sub snd];
      pose proof (wroot_conj_pow inv 5 1 ltac:(lia) ltac:(lia)) as E4; cbn [Nat.sub] in E4;
      pose proof (wroot_conj_pow inv 5 2 ltac:(lia) ltac:(lia)) as E3; cbn [Nat.sub] in E3;
      rewrite ?E3, ?E4; rewrite ?fpow_1; rewrite ?fpow_0; clear E3 E4;
      generalize (fpow (K := CF) (wroot inv 5) 2); intros yb;
      generalize (wroot inv 5); intros ya;
      apply C_eq; simpl; ring.
  - pose proof (not_idx u i Hu Nu 0). pose proof (not_idx u i Hu Nu 1). pose proof (not_idx u i Hu Nu 2).
    pose proof (not_idx u i Hu Nu 3). pose proof (not_idx u i Hu Nu 4).
    nths. reflexivity.
Qed.
End B.
