(** * Weights of the commutator-free methods: tables (C31) *)
From Coq Require Import Reals Lra.
From Coquelicot Require Import Coquelicot.
From Verif Require Import DiscModel DiscProps MiscNumProps DiscPreProps.
Local Open Scope C_scope.

(** ** The weights of the commutator-free methods
   B i m: weight of the Gauss node m in exponential i, i.e. step weight times normalised weight *)
Definition weight (ncol : nat) (w sw : list C) (i m : nat) : C := nth i sw 0 * nth (i * ncol + m) w 0.
Definition csum (n : nat) (f : nat -> C) : C := fsum (K := CF) n f.
(** exponential i advances A(t) = alpha + beta*t by  moment0*alpha + moment1*beta *)
Definition moment0 ncol w sw i := csum ncol (weight ncol w sw i).
Definition moment1 ncol w sw i := csum ncol (fun m => weight ncol w sw i m * RtoC (gauss_node ncol m)).
(** sum over i>j of (a_i b_j - a_j b_i): coefficient of [alpha,beta] in twice the second Magnus term; the exact value is
   the double integral of (t2 - t1) over -1/2 <= t2 <= t1 <= 1/2, which is -1/6 *)
Definition commutator_coeff ncol (s : nat) w sw : C :=
  csum s (fun i => csum i (fun j => moment0 ncol w sw i * moment1 ncol w sw j - moment0 ncol w sw j * moment1 ncol w sw i)).
Definition gauss_weight (n m : nat) : R :=
  match n, m with 2%nat, _ => (1/2)%R | 3%nat, 1%nat => (4/9)%R | _, _ => (5/18)%R end.

Lemma sqrt3_sq : (sqrt 3 * sqrt 3 = 3)%R. Proof. apply sqrt_sqrt; lra. Qed.
Lemma sqrt15_sq : (sqrt 15 * sqrt 15 = 15)%R. Proof. apply sqrt_sqrt; lra. Qed.
Lemma inv_sqrt3 : (1 / sqrt 3 = sqrt 3 / 3)%R.
Proof. assert (H := sqrt3_sq). assert (sqrt 3 <> 0)%R by (intros E; rewrite E in H; lra). field_simplify_eq; [|assumption]. rewrite <- Rsqr_pow2. unfold Rsqr. lra. Qed.
Lemma sqrt320 : sqrt (3 / 20) = (sqrt 15 / 10)%R.
Proof. replace (3/20)%R with (15 / (10 * 10))%R by field. rewrite sqrt_div by lra. rewrite sqrt_square by lra. reflexivity. Qed.

Lemma legendre_0 x : legendre 0 x = 1%R. Proof. reflexivity. Qed.
Lemma legendre_1 x : legendre 1 x = x. Proof. reflexivity. Qed.
Lemma legendre_2 x : legendre 2 x = ((3 * x * x - 1) / 2)%R.
Proof. unfold legendre. cbn. field. Qed.

Lemma csum0 f : csum 0 f = 0. Proof. reflexivity. Qed.
Lemma csum1 f : csum 1 f = f 0%nat. Proof. unfold csum. cbn [fsum]. change (@fadd CF) with Cplus. change (@f0 CF) with (RtoC 0). ring. Qed.
Lemma csum2 f : csum 2 f = f 0%nat + f 1%nat. Proof. unfold csum. cbn [fsum]. change (@fadd CF) with Cplus. change (@f0 CF) with (RtoC 0). ring. Qed.
Lemma csum3 f : csum 3 f = f 0%nat + f 1%nat + f 2%nat. Proof. unfold csum. cbn [fsum]. change (@fadd CF) with Cplus. change (@f0 CF) with (RtoC 0). ring. Qed.
Lemma csum4 f : csum 4 f = f 0%nat + f 1%nat + f 2%nat + f 3%nat. Proof. unfold csum. cbn [fsum]. change (@fadd CF) with Cplus. change (@f0 CF) with (RtoC 0). ring. Qed.

Lemma normalised rows (qr : list C) : (forall i, (i < rows)%nat -> csum 3 (fun m => nth (3 * i + m) qr 0) <> 0) ->
  forall w sw, normalise_rows rows qr = (w, sw) ->
  length w = (3 * rows)%nat /\ length sw = rows /\
  forall i, (i < rows)%nat -> (forall m, (m < 3)%nat -> weight 3 w sw i m = nth (3 * i + m) qr 0)
      /\ csum 3 (fun m => nth (i * 3 + m) w 0) = 1 /\ nth i sw 0 = csum 3 (fun m => nth (3 * i + m) qr 0).
Proof.
  intros Hs w sw E. unfold normalise_rows in E. injection E as <- <-. split; [apply tabulate_length|]. split; [apply tabulate_length|].
  set (s := fun m : nat => nth (3 * m) qr 0 + nth (3 * m + 1) qr 0 + nth (3 * m + 2) qr 0).
  assert (Es : forall i, s i = csum 3 (fun m => nth (3 * i + m) qr 0)).
  { intros i. rewrite csum3, Nat.add_0_r. reflexivity. }
  assert (W : forall i m, (i < rows)%nat -> (m < 3)%nat -> nth (i * 3 + m) (tabulate (3 * rows) (fun k => nth k qr 0 / s (k / 3)%nat)) 0 = nth (3 * i + m) qr 0 / s i).
  { intros i m Hi Hm. rewrite nth_tabulate by lia. replace ((i * 3 + m) / 3)%nat with i.
    2:{ rewrite Nat.div_add_l by lia. rewrite Nat.div_small by lia. lia. } now replace (i * 3 + m)%nat with (3 * i + m)%nat by lia. }
  intros i Hi. specialize (Hs i Hi). rewrite <- Es in Hs. split; [|split].
  - intros m Hm. unfold weight. rewrite nth_tabulate by exact Hi. rewrite W by assumption. change (s i * (nth (3 * i + m) qr 0 / s i) = nth (3 * i + m) qr 0). field. exact Hs.
  - rewrite csum3, !W by lia.
    rewrite Nat.add_0_r. unfold s in *. field. exact Hs.
  - rewrite nth_tabulate by exact Hi. apply Es.
Qed.

(** the conditions in terms of a table of weights *)
Definition table_conditions (s ncol : nat) (B : nat -> nat -> C) : Prop :=
  (forall m, (m < ncol)%nat -> csum s (fun i => B i m) = RtoC (gauss_weight ncol m))
  /\ csum s (fun i => csum ncol (B i)) = 1
  /\ csum s (fun i => csum ncol (fun m => B i m * RtoC (gauss_node ncol m))) = 0
  /\ csum s (fun i => csum i (fun j => csum ncol (B i) * csum ncol (fun m => B j m * RtoC (gauss_node ncol m))
         - csum ncol (B j) * csum ncol (fun m => B i m * RtoC (gauss_node ncol m)))) = RtoC (-1/6).

Ltac r15 := assert (H15 := sqrt15_sq); assert (H3 := sqrt3_sq).
Ltac cring := apply Ceq; cbn -[sqrt]; r15; try field; try nra.

Definition B42 (i m : nat) : C :=
  match i, m with 0%nat, 0%nat | 1%nat, 1%nat => RtoC (1/4 + sqrt 3 / 6) | _, _ => RtoC (1/4 - sqrt 3 / 6) end.
Lemma B42_ok : table_conditions 2 2 B42.
Proof.
  unfold table_conditions. refine (conj _ (conj _ (conj _ _))).
  - intros [|[|m]] Hm; [| |lia]; rewrite csum2; cring.
  - rewrite !csum2. cring.
  - rewrite !csum2. cring.
  - rewrite csum2, csum0, csum1. rewrite !csum2. cring.
Qed.

Definition B43 (i m : nat) : C :=
  RtoC (match m with
  | 0%nat => (cf43_f i 0 + 3 * (sqrt 15 / 5) * cf43_f i 1 + 2 * cf43_f i 2) * (5/18)
  | 1%nat => (cf43_f i 0 - 5/2 * cf43_f i 2) * (4/9)
  | _ => (cf43_f i 0 - 3 * (sqrt 15 / 5) * cf43_f i 1 + 2 * cf43_f i 2) * (5/18) end)%R.
Lemma B43_qr i m : (i < 3)%nat -> (m < 3)%nat -> nth (3 * i + m) cf43_qr 0 = B43 i m.
Proof.
  intros Hi Hm. unfold cf43_qr. rewrite nth_tabulate by lia. cbv zeta.
  replace ((3 * i + m) / 3)%nat with i. 2:{ rewrite Nat.mul_comm, Nat.div_add_l by lia. rewrite Nat.div_small by lia. lia. }
  replace ((3 * i + m) mod 3)%nat with m. 2:{ rewrite Nat.add_comm, Nat.mul_comm, Nat.mod_add by lia. symmetry. now apply Nat.mod_small. }
  unfold B43. f_equal. rewrite legendre_0, legendre_1, legendre_2. unfold cf43_xm, cf43_wm. rewrite sqrt320. r15.
  destruct m as [|[|[|m]]]; [| | |lia]; cbn [nth]; simpl INR.
  - replace (3 * (2 * (sqrt 15 / 10)) * (2 * (sqrt 15 / 10)) - 1)%R with (4/5)%R by nra. field.
  - field.
  - replace (3 * (- (2) * (sqrt 15 / 10)) * (- (2) * (sqrt 15 / 10)) - 1)%R with (4/5)%R by nra. field.
Qed.
Lemma B43_ok : table_conditions 3 3 B43 /\ forall i, (i < 3)%nat -> csum 3 (B43 i) <> 0.
Proof.
  split. unfold table_conditions. refine (conj _ (conj _ (conj _ _))).
  - intros [|[|[|m]]] Hm; [| | |lia]; rewrite csum3; unfold B43, cf43_f; cring.
  - rewrite !csum3. unfold B43, cf43_f. cring.
  - rewrite !csum3. unfold B43, cf43_f. cring.
  - rewrite csum3, csum0, csum1, csum2. rewrite !csum3. unfold B43, cf43_f. cring.
  - intros [|[|[|i]]] Hi E; [| | |lia]; rewrite csum3 in E; unfold B43, cf43_f in E; apply (f_equal fst) in E; cbn -[sqrt] in E; lra.
Qed.

Definition B53 (i m : nat) : C := nth (3 * i + m) cf53_qr 0.
Lemma B53_ok : table_conditions 3 3 B53 /\ forall i, (i < 3)%nat -> csum 3 (B53 i) <> 0.
Proof.
  split. unfold table_conditions. refine (conj _ (conj _ (conj _ _))).
  - intros [|[|[|m]]] Hm; [| | |lia]; rewrite csum3; cring.
  - rewrite !csum3. cring.
  - rewrite !csum3. cring.
  - rewrite csum3, csum0, csum1, csum2. rewrite !csum3. cring.
  - intros [|[|[|i]]] Hi E; [| | |lia]; rewrite csum3 in E;  apply (f_equal fst) in E; cbn -[sqrt] in E; lra.
Qed.

(** CF6_4: coefficients given to 15 decimals, so the conditions hold up to rounding of the decimals *)
Definition B64 (i m : nat) : C := nth (3 * i + m) cf64_qr 0.
Definition near (tol : R) (a b : C) : Prop := (Rabs (fst a - fst b) <= tol /\ Rabs (snd a - snd b) <= tol)%R.
Definition table_conditions_near (tol : R) (s ncol : nat) (B : nat -> nat -> C) : Prop :=
  (forall m, (m < ncol)%nat -> near tol (csum s (fun i => B i m)) (RtoC (gauss_weight ncol m)))
  /\ near tol (csum s (fun i => csum ncol (B i))) 1
  /\ csum s (fun i => csum ncol (fun m => B i m * RtoC (gauss_node ncol m))) = 0
  /\ near tol (csum s (fun i => csum i (fun j => csum ncol (B i) * csum ncol (fun m => B j m * RtoC (gauss_node ncol m))
         - csum ncol (B j) * csum ncol (fun m => B i m * RtoC (gauss_node ncol m))))) (RtoC (-1/6)).
Lemma sqrt15_near : (3.872983346207416 <= sqrt 15 <= 3.872983346207418)%R.
Proof.
  assert (H := sqrt15_sq). assert (P := sqrt_pos 15). split; apply Rnot_lt_le; intros L; nra.
Qed.
(** exact row sums and first moments *)
Definition d15 (a b : Z) : C := (dec15 a, dec15 b).
Lemma d15_plus a b c d : d15 a b + d15 c d = d15 (a + c) (b + d).
Proof. unfold d15, dec15. rewrite !plus_IZR. apply Ceq; cbn; unfold Rdiv; ring. Qed.
Lemma d15_scal a b (x : R) : d15 a b * RtoC x = RtoC x * d15 a b. Proof. ring. Qed.
Lemma d15_opp a b : - d15 a b = d15 (- a) (- b).
Proof. unfold d15, dec15. rewrite !opp_IZR. apply Ceq; cbn; unfold Rdiv; ring. Qed.
Lemma B64_d15 i m : (i < 4)%nat -> (m < 3)%nat -> B64 i m =
  nth (3 * i + m) [d15 245985577298764 38734389227165; d15 (-46806149832549) 12442141491185; d15 10894359342569 (-4575808769067);
     d15 62868370946917 (-48761268117765); d15 269028372054771 (-12442141491185); d15 (-41970529810473) 14602687659668;
     d15 (-41970529810473) 14602687659668; d15 269028372054771 (-12442141491185); d15 62868370946917 (-48761268117765);
     d15 10894359342569 (-4575808769067); d15 (-46806149832549) 12442141491185; d15 245985577298764 38734389227165] 0.
Proof. intros Hi Hm. reflexivity. Qed.

Definition a0 := d15 210073786808784 46600721949283.
Definition a1 := d15 289926213191215 (-46600721949282).
Definition b0 := d15 (-235091217956195) (-43310197996232).
Definition b1 := d15 (-104838900757390) 63363955777433.
Definition nd : C := RtoC (sqrt 15 / 10).
Lemma rows64 : csum 3 (B64 0) = a0 /\ csum 3 (B64 1) = a1 /\ csum 3 (B64 2) = a1 /\ csum 3 (B64 3) = a0.
Proof. rewrite !csum3, !B64_d15 by lia. cbn [nth Nat.add Nat.mul]. rewrite !d15_plus. repeat split. Qed.
Lemma moment64 (x y z : C) : x * RtoC (gauss_node 3 0) + y * RtoC (gauss_node 3 1) + z * RtoC (gauss_node 3 2) = nd * (z + - x).
Proof. unfold gauss_node, nd. rewrite RtoC_opp. ring. Qed.
Lemma moments64 : let M i := csum 3 (fun m => B64 i m * RtoC (gauss_node 3 m)) in
  M 0%nat = nd * b0 /\ M 1%nat = nd * b1 /\ M 2%nat = - (nd * b1) /\ M 3%nat = - (nd * b0).
Proof.
  cbv zeta beta. rewrite !csum3, !moment64, !B64_d15 by lia. cbn [nth Nat.add Nat.mul]. rewrite !d15_opp, !d15_plus.
  repeat split; unfold b0, b1, nd, d15, dec15; apply Ceq; cbn -[sqrt]; unfold Rdiv; try reflexivity; rewrite <- ?opp_IZR; ring.
Qed.
Lemma near_d15 tol a b (x : R) : (Rabs (dec15 a - x) <= tol)%R -> (Rabs (dec15 b - 0) <= tol)%R -> near tol (d15 a b) (RtoC x).
Proof. intros H1 H2. split; assumption. Qed.
Ltac zred := repeat match goal with |- context [IZR ?z] => lazymatch z with Z0 => fail | Zpos _ => fail | Zneg _ => fail | _ => let z' := eval vm_compute in z in change (IZR z) with (IZR z') end end.
Ltac cnear := apply near_d15; unfold dec15, gauss_weight; zred; apply Rabs_le; lra.
Lemma B64_ok : table_conditions_near 1e-14 4 3 B64 /\ forall i, (i < 4)%nat -> csum 3 (B64 i) <> 0.
Proof.
  destruct rows64 as (R0 & R1 & R2 & R3). destruct moments64 as (M0 & M1 & M2 & M3).
  split. unfold table_conditions_near. refine (conj _ (conj _ (conj _ _))).
  - intros m Hm. rewrite csum4, !B64_d15 by lia. destruct m as [|[|[|m]]]; [| | |lia]; cbn [nth Nat.add Nat.mul]; rewrite !d15_plus; cnear.
  - rewrite csum4, R0, R1, R2, R3. unfold a0, a1. rewrite !d15_plus. cnear.
  - rewrite csum4. cbv beta. rewrite M0, M1, M2, M3. ring.
  - rewrite csum4, csum0, csum1, csum2. cbv beta. rewrite R0, R1, R2, R3, M0, M1, M2, M3. rewrite csum3. cbv beta. rewrite ?R0, ?R1, ?R2, ?R3, ?M0, ?M1, ?M2, ?M3.
    match goal with |- near _ ?x _ => replace x with ((nd + nd) * (a1 * b0 + a1 * b0 + a0 * b0 + a1 * b1)) by ring end.
    unfold nd, a0, a1, b0, b1.
    assert (P : forall a b c d, d15 a b * d15 c d = (dec15 (a * c - b * d) / 1000000000000000, dec15 (a * d + b * c) / 1000000000000000)%R).
    { intros. unfold d15, dec15. rewrite minus_IZR, plus_IZR, !mult_IZR. apply Ceq; cbn; field. }
    rewrite !P. unfold dec15. zred.
    split; cbn [fst snd Cplus Cmult RtoC]; apply Rabs_le; assert (H15 := sqrt15_near); lra.
  - intros [|[|[|[|i]]]] Hi E; [| | | |lia]; rewrite ?R0, ?R1, ?R2, ?R3 in E; apply (f_equal fst) in E; cbn in E; unfold dec15 in E; lra.
Qed.

