(** * Theorems about the weights of the commutator-free methods (C31) *)
From Coq Require Import Reals Lra.
From Coquelicot Require Import Coquelicot.
From Verif Require Import DiscModel DiscProps MiscNumProps DiscPreProps DiscWeightsTab.
Local Open Scope C_scope.

Lemma csum_ext n (f g : nat -> C) : (forall i, (i < n)%nat -> f i = g i) -> csum n f = csum n g.
Proof. exact (fsum_ext (K := CF) n f g). Qed.
Lemma csum_scal n (c : C) (f : nat -> C) : csum n (fun i => c * f i) = c * csum n f.
Proof. induction n as [|n IH]; [unfold csum; cbn; apply Ceq; cbn; ring|]. change (csum n (fun i => c * f i) + c * f n = c * (csum n f + f n)). rewrite IH. ring. Qed.

Definition ncol_of (d : akns_disc) : nat := match d with A_CF4_2 | A_4SPLIT4A | A_4SPLIT4B => 2%nat | _ => 3%nat end.

Lemma weights_table d w sw : akns_method_weights d = inr (w, sw) -> (2 <= akns_upsampling_factor d)%nat ->
  let s := akns_upsampling_factor d in let n := ncol_of d in
  length w = (s * n)%nat /\ length sw = s
  /\ (forall i, (i < s)%nat -> csum n (fun m => nth (i * n + m) w 0) = 1)
  /\ forall i m, (i < s)%nat -> (m < n)%nat -> weight n w sw i m =
       match akns_weight_class d with Some W_CF4_2 => B42 | Some W_CF4_3 => B43 | Some W_CF5_3 => B53 | _ => B64 end i m.
Proof.
  intros E Hu. cbv zeta. unfold akns_method_weights in E.
  assert (N : forall rows qr B, normalise_rows rows qr = (w, sw) -> (forall i m, (i < rows)%nat -> (m < 3)%nat -> nth (3 * i + m) qr 0 = B i m) ->
     (forall i, (i < rows)%nat -> csum 3 (B i) <> 0) ->
     length w = (rows * 3)%nat /\ length sw = rows /\ (forall i, (i < rows)%nat -> csum 3 (fun m => nth (i * 3 + m) w 0) = 1)
     /\ forall i m, (i < rows)%nat -> (m < 3)%nat -> weight 3 w sw i m = B i m).
  { intros rows qr B En HB Hs. destruct (normalised rows qr) with (w := w) (sw := sw) as (L1 & L2 & H); [|exact En|].
    - intros i Hi Ez. apply (Hs i Hi). rewrite <- Ez. rewrite !csum3. now rewrite !HB by lia.
    - split; [lia|]. split; [exact L2|]. split; [intros; now apply H|]. intros i m Hi Hm. rewrite (proj1 (H i Hi)) by exact Hm. now apply HB. }
  destruct d; cbn in Hu; try lia; cbn [akns_weight_class] in E |- *; try discriminate E; apply (f_equal (fun r => match r with inr x => x | inl _ => (w, sw) end)) in E; cbv beta iota in E;
  try (exact (N 3%nat cf43_qr B43 E B43_qr (proj2 B43_ok)));
  try (exact (N 3%nat cf53_qr B53 E (fun _ _ _ _ => eq_refl) (proj2 B53_ok)));
  try (exact (N 4%nat cf64_qr B64 E (fun _ _ _ _ => eq_refl) (proj2 B64_ok)));
  injection E as <- <-; cbn [ncol_of akns_upsampling_factor length]; rewrite inv_sqrt3;
  (split; [reflexivity|]; split; [reflexivity|]; split;
   [ intros [|[|i]] Hi; [| |lia]; rewrite csum2; cbn [nth Nat.add Nat.mul]; cring
   | intros [|[|i]] [|[|m]] Hi Hm; try lia; unfold weight; cbn [nth Nat.add Nat.mul B42]; cring ]).
Qed.

(** *** the claims
   rows sum to 1: a constant signal is preprocessed to itself *)
Theorem method_weights_rows_sum_to_one d w sw : akns_method_weights d = inr (w, sw) -> (2 <= akns_upsampling_factor d)%nat ->
  length w = (akns_upsampling_factor d * ncol_of d)%nat /\ length sw = akns_upsampling_factor d /\
  forall i, (i < akns_upsampling_factor d)%nat -> csum (ncol_of d) (fun m => nth (i * ncol_of d + m) w 0) = 1.
Proof. intros E Hu. destruct (weights_table d w sw E Hu) as (A & B & C0 & _). auto. Qed.

Lemma cond_ext s n B1 B2 : (s <= 4)%nat -> (n <= 3)%nat -> (forall i m, (i < s)%nat -> (m < n)%nat -> B1 i m = B2 i m) ->
  (forall m, (m < n)%nat -> csum s (fun i => B1 i m) = csum s (fun i => B2 i m))
  /\ (forall i, (i < s)%nat -> csum n (B1 i) = csum n (B2 i))
  /\ (forall i, (i < s)%nat -> csum n (fun m => B1 i m * RtoC (gauss_node n m)) = csum n (fun m => B2 i m * RtoC (gauss_node n m))).
Proof.
  intros Hs Hn E. refine (conj _ (conj _ _)).
  - intros m Hm. apply csum_ext. intros i Hi. now apply E.
  - intros i Hi. apply csum_ext. intros m Hm. now apply E.
  - intros i Hi. apply csum_ext. intros m Hm. now rewrite E.
Qed.

(** all methods but CF6_4: the weights of each Gauss node add up to its quadrature weight, the step weights to one, the
   first moments to zero, and the commutator coefficient is exact: the conditions for order four *)
Theorem commutator_free_order_conditions d w sw : akns_method_weights d = inr (w, sw) -> (2 <= akns_upsampling_factor d)%nat -> d <> A_CF6_4 ->
  let s := akns_upsampling_factor d in let n := ncol_of d in
  (forall m, (m < n)%nat -> csum s (fun i => weight n w sw i m) = RtoC (gauss_weight n m))
  /\ csum s (moment0 n w sw) = 1 /\ csum s (moment1 n w sw) = 0 /\ commutator_coeff n s w sw = RtoC (-1/6)
  /\ csum s (fun i => nth i sw 0) = 1.
Proof.
  intros E Hu Hd. cbv zeta. destruct (weights_table d w sw E Hu) as (Lw & Ls & Hrow & Hw). cbv zeta in *.
  set (B := match akns_weight_class d with Some W_CF4_2 => B42 | Some W_CF4_3 => B43 | Some W_CF5_3 => B53 | _ => B64 end) in *.
  assert (T : table_conditions (akns_upsampling_factor d) (ncol_of d) B /\ (akns_upsampling_factor d <= 4)%nat /\ (ncol_of d <= 3)%nat).
  { unfold B. destruct d; cbn in Hu; try lia; try (now destruct Hd); cbn; (split; [|lia]);
    first [exact B42_ok | exact (proj1 B43_ok) | exact (proj1 B53_ok) | idtac]; cbn in E; discriminate. }
  destruct T as ((T1 & T2 & T3 & T4) & U4 & N3).
  destruct (cond_ext _ _ (weight (ncol_of d) w sw) B U4 N3 Hw) as (C1 & C2 & C3).
  refine (conj _ (conj _ (conj _ (conj _ _)))).
  - intros m Hm. rewrite C1 by exact Hm. now apply T1.
  - rewrite <- T2. apply csum_ext. intros i Hi. exact (C2 i Hi).
  - rewrite <- T3. apply csum_ext. intros i Hi. exact (C3 i Hi).
  - rewrite <- T4. unfold commutator_coeff. apply csum_ext. intros i Hi. apply csum_ext. intros j Hj.
    unfold moment0, moment1. rewrite !C2, !C3 by lia. reflexivity.
  - rewrite <- T2. apply csum_ext. intros i Hi. rewrite <- C2 by exact Hi.
    unfold weight. rewrite csum_scal.
    rewrite Hrow by exact Hi. ring.
Qed.

(** CF6_4: the same up to 1e-14 *)
Theorem cf6_4_order_conditions_rounded w sw : akns_method_weights A_CF6_4 = inr (w, sw) ->
  (forall m, (m < 3)%nat -> near 1e-14 (csum 4 (fun i => weight 3 w sw i m)) (RtoC (gauss_weight 3 m)))
  /\ near 1e-14 (csum 4 (moment0 3 w sw)) 1 /\ csum 4 (moment1 3 w sw) = 0 /\ near 1e-14 (commutator_coeff 3 4 w sw) (RtoC (-1/6))
  /\ near 1e-14 (csum 4 (fun i => nth i sw 0)) 1.
Proof.
  intros E. destruct (weights_table A_CF6_4 w sw E ltac:(cbn; lia)) as (Lw & Ls & Hrow & Hw). cbn [akns_upsampling_factor ncol_of akns_weight_class] in *.
  destruct B64_ok as [(T1 & T2 & T3 & T4) _].
  destruct (cond_ext 4 3 (weight 3 w sw) B64 ltac:(lia) ltac:(lia) Hw) as (C1 & C2 & C3).
  assert (M0 : csum 4 (moment0 3 w sw) = csum 4 (fun i => csum 3 (B64 i))).
  { apply csum_ext. intros i Hi. exact (C2 i Hi). }
  refine (conj _ (conj _ (conj _ (conj _ _)))).
  - intros m Hm. rewrite C1 by exact Hm. now apply T1.
  - rewrite M0. exact T2.
  - rewrite <- T3. apply csum_ext. intros i Hi. exact (C3 i Hi).
  - replace (commutator_coeff 3 4 w sw) with (csum 4 (fun i => csum i (fun j => csum 3 (B64 i) * csum 3 (fun m => B64 j m * RtoC (gauss_node 3 m))
         - csum 3 (B64 j) * csum 3 (fun m => B64 i m * RtoC (gauss_node 3 m))))); [exact T4|].
    unfold commutator_coeff. apply csum_ext. intros i Hi. apply csum_ext. intros j Hj.
    unfold moment0, moment1. rewrite !C2, !C3 by lia. reflexivity.
  - replace (csum 4 (fun i => nth i sw 0)) with (csum 4 (fun i => csum 3 (B64 i))); [exact T2|].
    apply csum_ext. intros i Hi. rewrite <- C2 by exact Hi.
    unfold weight. rewrite csum_scal.
    rewrite Hrow by exact Hi. ring.
Qed.

(** time symmetry: reading steps and nodes backwards gives the same weights (conjugated for CF5_3) *)
Theorem commutator_free_time_symmetry d w sw i m : akns_method_weights d = inr (w, sw) -> (2 <= akns_upsampling_factor d)%nat ->
  (i < akns_upsampling_factor d)%nat -> (m < ncol_of d)%nat ->
  let x := weight (ncol_of d) w sw i m in
  weight (ncol_of d) w sw (akns_upsampling_factor d - 1 - i) (ncol_of d - 1 - m) = match d with A_CF5_3 => Cconj x | _ => x end.
Proof.
  intros E Hu Hi Hm. cbv zeta. destruct (weights_table d w sw E Hu) as (_ & _ & _ & Hw). rewrite !Hw by lia. clear Hw.
  destruct d; cbn in Hu; try lia; cbn [akns_weight_class]; try (cbn in E; discriminate E); clear E; cbn in Hi, Hm;
  destruct i as [|[|[|[|i]]]]; try lia; destruct m as [|[|[|m]]]; try lia; try reflexivity;
  unfold B43, B53, B64, cf43_f, cf53_qr; cbn [ncol_of akns_upsampling_factor Nat.sub Nat.add Nat.mul nth]; rewrite ?Cconj_conj; try reflexivity;
  try (f_equal; field); try (apply Ceq; cbn -[sqrt]; field).
Qed.
