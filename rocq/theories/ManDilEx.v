(** * Concrete calls that meet the hypotheses of C106 *)
From Coq Require Import Reals Lra.
From Coquelicot Require Import Coquelicot.
From Verif Require Import Base Loop ErrModel CExp CField DiscTables DiscModel FscatterSpec FscatterProof ScatterSpec ScatterModel ScatterRun ManFscSpec ManFscModel ManFscProof ManFscSample ManScatSpec ManScatTop
  NsevModel NsevSpec NsevEnv ManvModel ManvSpec NftSpec NsevLib NsevCsTop NsevEnergy NsevCsEx SymmTop.
From Verif Require Import ZeroPad ManNft ManCs ManCsTop ManEnergy ManCsEx ManSymm ManSymmTop ManSymmEx.
From Verif Require Import ManDil ManPad ManConj.
Local Open Scope C_scope.

Definition XI2h : R * R := (1 / 2 * 1, 1 / 2 * 2)%R.
Lemma grid2h i : grid_point XI2h 2 i = (1 / 2 * (1 + INR i))%R.
Proof. unfold grid_point, spacing, XI2h. cbn [fst snd Nat.sub INR]. field. Qed.
Lemma half_lists : map (Cmult (RtoC (1 / 2))) q2 = [RtoC (1 / 4); RtoC (1 / 6)] /\ map (Cmult (RtoC (1 / 2))) q2b = [RtoC (1 / 8); RtoC 0].
Proof. unfold q2, q2b. cbn [map]. split; repeat f_equal; apply Ceq; cbn; lra. Qed.
Lemma half_exact (eps : R) i : man_scat_exact M_BO (-1) eps (nthC [RtoC (1 / 4); RtoC (1 / 6)]) (nthC [RtoC (1 / 8); RtoC 0]) 2 (RtoC (1 / 2 * (1 + INR i))).
Proof.
  intros j Hj. right. assert (Hx : (1 / 4 <= (1 / 2 * (1 + INR i)) * (1 / 2 * (1 + INR i)))%R). { pose proof (pos_INR i). pose proof (Rmult_le_pos _ _ H H). lra. }
  set (x := (1 / 2 * (1 + INR i))%R) in *. split.
  - intros [T1 _]. destruct j as [|[|j]]; [| |lia]; cbn [nthC nth] in T1; rewrite Cmod_R, Rabs_pos_eq in T1 by lra; lra.
  - cbn [step_lam]. intros E. apply (f_equal fst) in E. destruct j as [|[|j]]; [| |lia]; cbn in E; lra.
Qed.
(** the call with (q2, q2b) on [0, 1] succeeds (manakov_bo_call); so do the calls with half the samples on [0, 2], at half the
    frequencies, with the conjugate samples at the frequencies -2, -1, and with three zero samples before and two after the signal; they return the a, b1, b2 of the first, the conjugates in the second case *)
Theorem manakov_dilation_example : exists u0 u1 u2' u3,
  msucceeds L7 2 q2 q2b (0, 1)%R 2 XI2 (-1) None mo2 um u0 /\
  msucceeds L7 2 [RtoC (1 / 4); RtoC (1 / 6)] [RtoC (1 / 8); RtoC 0] (0 / (1 / 2), 1 / (1 / 2))%R 2 XI2h (-1) None mo2 um u1 /\
  msucceeds L7 2 (map Cconj q2) (map Cconj q2b) (0, 1)%R 2 (- (2), - (1))%R (-1) None mo2 um u2' /\
  msucceeds L7 7 (zero_padded 3 2 q2) (zero_padded 3 2 q2b) (0 - INR 3 * spacing (0, 1) 2, 1 + INR 2 * spacing (0, 1) 2)%R 2 XI2 (-1) None mo2 um u3.
Proof.
  assert (F : exists u', msucceeds L7 2 q2 q2b (0, 1)%R 2 XI2 (-1) None mo2 um u').
  { destruct manakov_bo_call as (S & u' & x & y & cs & _ & E & _). exists u', x, y. exact E. }
  assert (Hc : mcs_call 2 q2 q2b (0, 1)%R 2 XI2 (-1) mo2 um (repeat (RtoC 0) 11)) by (apply mcall_of; intros i Hi; now apply mexact_bo).
  assert (G1 : exists u', msucceeds L7 2 [RtoC (1 / 4); RtoC (1 / 6)] [RtoC (1 / 8); RtoC 0] (0 / (1 / 2), 1 / (1 / 2))%R 2 XI2h (-1) None mo2 um u').
  { pose proof (manakovv_dilation L7 L7_ok 2 q2 q2b (0, 1)%R 2 XI2 (-1) None mo2 um _ (1 / 2) Hc ltac:(lra)) as G. cbv zeta in G. destruct half_lists as [E1 E2]. rewrite E1, E2 in G.
    cbn [fst snd] in G. change ((1 / 2 * fst XI2)%R, (1 / 2 * snd XI2)%R) with XI2h in G. destruct G as [_ G].
    - intros i Hi. rewrite grid2h. apply half_exact.
    - apply G; [right; reflexivity|exact F]. }
  assert (G2 : exists u', msucceeds L7 7 (zero_padded 3 2 q2) (zero_padded 3 2 q2b) (0 - INR 3 * spacing (0, 1) 2, 1 + INR 2 * spacing (0, 1) 2)%R 2 XI2 (-1) None mo2 um u').
  { pose proof (manakovv_zero_padding L7 L7_ok 2 q2 q2b (0, 1)%R 2 XI2 (-1) None mo2 um _ 3 2 Hc) as G. cbv zeta in G. destruct G as [_ G].
    - unfold paddable. cbn. auto 10.
    - cbn. lia.
    - apply G; [right; reflexivity|exact F]. }
  pose proof (proj2 (manakovv_conjugation L7 L7_ok 2 q2 q2b (0, 1)%R 2 XI2 (-1) None mo2 um _ Hc) (or_intror eq_refl) F) as G3.
  destruct F as [u0 F], G1 as [u1 G1], G2 as [u3 G2], G3 as [u4 G3]. exists u0, u1, u4, u3. split; [exact F|]. split; [exact G1|]. split; [exact G3|exact G2].
Qed.
