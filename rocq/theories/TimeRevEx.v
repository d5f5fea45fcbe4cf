(** * A concrete call that meets the hypotheses of C103 *)
From Coq Require Import Reals Lra List Lia.
From Coquelicot Require Import Coquelicot.
From Verif Require Import Loop CExp CConj CField DiscTables DiscModel NsevModel NsevSpec NsevEnv NftSpec NsevLib NsevCsTop NsevCsEx SymmTop SymmEx.
From Verif Require Import TimeRev TimeRevTop.
Import ListNotations.
Local Open Scope C_scope.
(** the call with the reversed signal succeeds *)
Example reversed_example : exists u', succeeds L7 2 (rev q2) (- (1), - 0)%R 2 (- (2), - (1))%R (-1) (Some om) plain u2 u'.
Proof.
  refine (proj2 (nsev_time_reversal L7 L7_ok 2 q2 (0, 1)%R 2 XI2 (-1) (Some om) plain u2 _ _ modal_cs_call I (fun _ _ => small2)) _ modal_first). now right.
Qed.
(** the values at the first frequency are those of the signal at the last one *)
Theorem reversed_values u1 u2' cs1 cs2 :
  succeeds L7 2 q2 (0, 1)%R 2 XI2 (-1) (Some om) plain u2 u1 -> succeeds L7 2 (rev q2) (- (1), - 0)%R 2 (- (2), - (1))%R (-1) (Some om) plain u2 u2' ->
  u_cs u1 = Some cs1 -> u_cs u2' = Some cs2 -> nth 2 cs2 0 = Cconj (nth 3 cs1 0) /\ nth 4 cs2 0 = nth 5 cs1 0.
Proof.
  intros R1 R2 E1 E2.
  destruct (proj1 (nsev_time_reversal L7 L7_ok 2 q2 (0, 1)%R 2 XI2 (-1) (Some om) plain u2 _ _ modal_cs_call I (fun _ _ => small2)) u1 u2' R1 R2)
    as (x1 & x2 & a1 & b1 & a2 & b2 & F1 & F2 & S1 & S2 & Rel). rewrite E1 in F1. rewrite E2 in F2. injection F1 as <-. injection F2 as <-.
  destruct (S1 1%nat ltac:(lia)) as (N1 & A1 & B1 & D1). destruct (S2 0%nat ltac:(lia)) as (N2 & A2 & B2 & D2). destruct (Rel 0%nat ltac:(lia)) as [P Q].
  cbn [Nat.mul Nat.add Nat.sub] in *. now rewrite B1, B2, D1, D2, P, Q.
Qed.
