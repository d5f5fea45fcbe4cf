(** * Polynomials and [agree] *)
From Coq Require Import Reals ZArith List Lia Lra.
From Coquelicot Require Import Coquelicot.
From Verif Require Import CExp CField CConj FscatterSpec FscatterProof InvCsSpec InvPeel.
Import ListNotations.
Local Open Scope C_scope.

Definition is_poly (f : C -> C) : Prop := exists cs, forall z, f z = polyval cs z.
Fixpoint ladd (a b : list C) : list C :=
  match a, b with [], _ => b | _, [] => a | x :: a, y :: b => (x + y) :: ladd a b end.
Lemma polyval_cons x a z : polyval (x :: a) z = x + z * polyval a z. Proof. reflexivity. Qed.
Lemma polyval_nil z : polyval [] z = 0. Proof. reflexivity. Qed.
Lemma polyval_ladd a : forall b z, polyval (ladd a b) z = polyval a z + polyval b z.
Proof.
  induction a as [|x a IH]; intros [|y b] z; cbn [ladd]; rewrite ?polyval_nil; try ring.
  rewrite !polyval_cons, IH. ring.
Qed.
Lemma is_poly_ext f g : (forall z, f z = g z) -> is_poly f -> is_poly g.
Proof. intros H (cs & E). exists cs. intros z. now rewrite <- H. Qed.
Lemma is_poly_const c : is_poly (fun _ => c).
Proof. exists [c]. intros z. rewrite polyval_cons, polyval_nil. ring. Qed.
Lemma is_poly_id : is_poly (fun z => z).
Proof. exists [RtoC 0; RtoC 1]. intros z. rewrite !polyval_cons, polyval_nil. ring. Qed.
Lemma is_poly_plus f g : is_poly f -> is_poly g -> is_poly (fun z => f z + g z).
Proof. intros (a & A) (b & B). exists (ladd a b). intros z. now rewrite polyval_ladd, A, B. Qed.
Lemma is_poly_scal w f : is_poly f -> is_poly (fun z => w * f z).
Proof. intros (a & A). exists (map (fun x => w * x) a). intros z. now rewrite polyval_scal, A. Qed.
Lemma is_poly_shift f : is_poly f -> is_poly (fun z => z * f z).
Proof. intros (a & A). exists (RtoC 0 :: a). intros z. rewrite polyval_cons, A. ring. Qed.
Lemma is_poly_mult f g : is_poly f -> is_poly g -> is_poly (fun z => f z * g z).
Proof.
  intros (a & A) G. assert (Q : is_poly (fun z => polyval a z * g z)).
  { clear A. induction a as [|x a IH].
    - apply (is_poly_ext (fun _ => 0)); [intros z; rewrite polyval_nil; ring|apply is_poly_const].
    - apply (is_poly_ext (fun z => x * g z + z * (polyval a z * g z))); [intros z; rewrite polyval_cons; ring|].
      apply is_poly_plus; [now apply is_poly_scal|]. exact (is_poly_shift _ IH). }
  apply (is_poly_ext _ _ (fun z => f_equal (fun x => x * g z) (eq_sym (A z))) Q).
Qed.
Lemma is_poly_minus f g : is_poly f -> is_poly g -> is_poly (fun z => f z - g z).
Proof. intros F G. apply (is_poly_ext (fun z => f z + (- (1)) * g z)); [intros z; ring|]. apply is_poly_plus; [exact F|now apply is_poly_scal]. Qed.

Lemma agree_iff n f g : agree n f g <-> exists y, is_poly y /\ forall z, f z - g z = cpow z n * y z.
Proof.
  split.
  - intros (ys & E). exists (polyval ys). split; [now exists ys|]. intros z. now rewrite E, polyval_zeros_app.
  - intros (y & (ys & Y) & E). exists ys. intros z. now rewrite E, polyval_zeros_app, Y.
Qed.
Lemma agree_ext n f f' g g' : (forall z, f z = f' z) -> (forall z, g z = g' z) -> agree n f g -> agree n f' g'.
Proof. intros F G (ys & E). exists ys. intros z. now rewrite <- F, <- G. Qed.
Lemma agree_trans n f g h : agree n f g -> agree n g h -> agree n f h.
Proof.
  rewrite !agree_iff. intros (y & Y & E) (y' & Y' & E'). exists (fun z => y z + y' z). split; [now apply is_poly_plus|].
  intros z. transitivity ((f z - g z) + (g z - h z)); [ring|]. rewrite E, E'. ring.
Qed.
Lemma agree_sym n f g : agree n f g -> agree n g f.
Proof.
  rewrite !agree_iff. intros (y & Y & E). exists (fun z => (- (1)) * y z). split; [now apply is_poly_scal|].
  intros z. transitivity (- (f z - g z)); [ring|]. rewrite E. ring.
Qed.
Lemma agree_mult n p f g : is_poly p -> agree n f g -> agree n (fun z => p z * f z) (fun z => p z * g z).
Proof.
  rewrite !agree_iff. intros P (y & Y & E). exists (fun z => p z * y z). split; [now apply is_poly_mult|].
  intros z. transitivity (p z * (f z - g z)); [ring|]. rewrite E. ring.
Qed.
Lemma agree_refl n f : agree n f f.
Proof. rewrite agree_iff. exists (fun _ => RtoC 0). split; [apply is_poly_const|]. intros z. ring. Qed.

(** the entries of the transfer matrix are polynomials *)
Definition mpoly (m : C -> mat2) : Prop := is_poly (fun z => a11 (m z)) /\ is_poly (fun z => a12 (m z)) /\ is_poly (fun z => a21 (m z)) /\ is_poly (fun z => a22 (m z)).
Lemma mpoly_mmul m n : mpoly m -> mpoly n -> mpoly (fun z => mmul (m z) (n z)).
Proof.
  intros (A & B & C & D) (A' & B' & C' & D'). unfold mpoly. cbn [mmul a11 a12 a21 a22].
  repeat split; apply is_poly_plus; apply is_poly_mult; assumption.
Qed.
Lemma mpoly_const m : mpoly (fun _ => m).
Proof. repeat split; apply is_poly_const. Qed.
Lemma mpoly_z : mpoly (fun z => M2 1 0 0 z).
Proof. repeat split; cbn [a11 a12 a21 a22]; try apply is_poly_const. apply is_poly_id. Qed.
Lemma mpoly_scal c m : mpoly m -> mpoly (fun z => mscal c (m z)).
Proof. intros (A & B & C & D). repeat split; cbn [mscal a11 a12 a21 a22]; apply (is_poly_scal c); assumption. Qed.
Lemma mpoly_transfer s kappa h q D : mpoly (transfer s kappa h q D).
Proof.
  induction D as [|D IH]; [exact (mpoly_const mone)|]. cbn [transfer]. apply (mpoly_mmul (fun z => sample s kappa h (q D) z)); [|exact IH].
  destruct s; cbn [sample].
  - apply (mpoly_mmul (fun _ => _)); [apply mpoly_const|exact mpoly_z].
  - apply mpoly_scal. apply (mpoly_mmul (fun _ => _)); [apply mpoly_const|exact mpoly_z].
Qed.
Lemma same_reflection_cong s kappa h q D f11 f21 g11 g21 : agree D f11 g11 -> agree D f21 g21 ->
  same_reflection s kappa h q D f11 f21 -> same_reflection s kappa h q D g11 g21.
Proof.
  intros A B H. unfold same_reflection in *. destruct (mpoly_transfer s kappa h q D) as (P11 & _ & P21 & _).
  apply (agree_trans _ _ (fun z => a11 (transfer s kappa h q D z) * f21 z)).
  { apply agree_sym. exact (agree_mult D _ _ _ P11 B). }
  apply (agree_trans _ _ _ _ H). exact (agree_mult D _ _ _ P21 A).
Qed.
(** two lists with the same first n coefficients *)
Lemma agree_polyval n a b : (forall l, (l < n)%nat -> nth l a (RtoC 0) = nth l b (RtoC 0)) -> agree n (polyval a) (polyval b).
Proof.
  rewrite agree_iff. revert a b. induction n as [|n IH]; intros a b H.
  - exists (fun z => polyval a z - polyval b z). split; [apply is_poly_minus; eexists; reflexivity|]. intros z. cbn [cpow]. ring.
  - destruct (IH (tl a) (tl b)) as (y & Y & E).
    { intros l Hl. specialize (H (S l) ltac:(lia)). destruct a, b; cbn [tl nth] in *; destruct l; auto. }
    exists y. split; [exact Y|]. intros z. cbn [cpow]. assert (H0 := H 0%nat ltac:(lia)).
    assert (Q : forall c : list C, polyval c z = nth 0 c (RtoC 0) + z * polyval (tl c) z) by (intros [|x c]; cbn [tl nth]; rewrite ?polyval_cons, ?polyval_nil; ring).
    rewrite (Q a), (Q b), H0. transitivity (z * (polyval (tl a) z - polyval (tl b) z)); [ring|]. rewrite E. ring.
Qed.
Lemma transfer_ext' s' kap h (q1 q2 : nat -> C) n z : (forall k, (k < n)%nat -> q1 k = q2 k) -> transfer s' kap h q1 n z = transfer s' kap h q2 n z.
Proof. induction n as [|n IH]; intros H; [reflexivity|]. cbn [transfer]. rewrite H by lia. rewrite IH; [reflexivity|]. intros k Hk. apply H. lia. Qed.
