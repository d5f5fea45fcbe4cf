(** * The splitting schemes have the order that their names promise *)
From Coq Require Import List QArith Qpower Qreals ZArith Lia Qabs Lqa.
From Verif Require Import DiscTables FscatterSpec.
Import ListNotations.
Local Open Scope Q_scope.

(** exp(cX)*g evaluated along the prefix of X's only; acc = c^k/k! *)
Fixpoint em (x : letter) (c : Q) (g : series) (k : nat) (acc : Q) (w : list letter) : Q :=
  Qred (acc * g w + match w with
    | [] => 0
    | y :: t => if letter_eqb x y then em x c g (S k) (Qred (acc * c / inject_Z (Z.of_nat (S k)))) t else 0
    end).

Lemma fact_pos n : (0 < Z.of_nat (fact n))%Z. Proof. pose proof (lt_O_fact n). lia. Qed.
Lemma inject_fact_S n : inject_Z (Z.of_nat (fact (S n))) == inject_Z (Z.of_nat (S n)) * inject_Z (Z.of_nat (fact n)).
Proof. rewrite <- inject_Z_mult, <- Nat2Z.inj_mul. reflexivity. Qed.
Lemma qsum_cons a l : qsum (a :: l) = a + qsum l. Proof. reflexivity. Qed.
Lemma qsum_nil : qsum [] = 0. Proof. reflexivity. Qed.
Lemma qsum_ext {X} (f g : X -> Q) l : (forall x, In x l -> f x == g x) -> qsum (map f l) == qsum (map g l).
Proof. induction l; intros H; [reflexivity|]. cbn [map]. rewrite !qsum_cons, (H a) by now left. rewrite IHl; [reflexivity|]. intros; apply H; now right. Qed.
Lemma qsum_scal {X} a (f : X -> Q) l : qsum (map (fun x => a * f x) l) == a * qsum (map f l).
Proof. induction l; cbn [map]; [rewrite qsum_nil; ring|]. rewrite !qsum_cons, IHl. ring. Qed.

Lemma letter_eqb_eq x y : letter_eqb x y = true <-> x = y.
Proof. destruct x, y; cbn; split; congruence. Qed.
Definition ck (c : Q) (k : nat) : Q := Qpower c (Z.of_nat k) / inject_Z (Z.of_nat (fact k)).
Lemma ck_S c k : ck c (S k) == ck c k * c / inject_Z (Z.of_nat (S k)).
Proof.
  unfold ck. rewrite inject_fact_S. rewrite Nat2Z.inj_succ.
  assert (E : c ^ Z.succ (Z.of_nat k) == c ^ Z.of_nat k * c).
  { destruct k as [|k]; [cbn; ring|]. cbn [Z.of_nat Z.succ Z.add]. exact (Qpower_plus_positive c (Pos.of_succ_nat k) 1). }
  rewrite E. field. split; intros Z; unfold Qeq in Z; cbn -[fact Z.of_nat Z.mul] in Z; pose proof (fact_pos k); lia.
Qed.
Lemma ck_0 c : ck c 0 == 1. Proof. unfold ck. cbn. reflexivity. Qed.

(** prefix of k letters x *)
Lemma em_spec x c g : forall w k acc, acc == ck c k ->
  em x c g k acc w == qsum (map (fun cut => (if forallb (letter_eqb x) (fst cut) then ck c (k + length (fst cut)) else 0) * g (snd cut)) (cuts w)).
Proof.
  induction w as [|y t IH]; intros k acc Ha.
  - cbn [em cuts map forallb fst snd length]. rewrite qsum_cons, ?qsum_nil. cbn [forallb fst snd length]. rewrite Qred_correct, Nat.add_0_r, Ha. ring.
  - cbn [em cuts map forallb fst snd length]. rewrite qsum_cons, ?qsum_nil. cbn [forallb fst snd length]. rewrite Qred_correct, Nat.add_0_r.
    apply Qplus_comp; [now rewrite Ha|]. rewrite map_map. cbn [fst snd forallb length].
    destruct (letter_eqb x y) eqn:Exy.
    + rewrite (IH (S k)).
      * apply qsum_ext. intros [a b] _. cbn [fst snd andb]. rewrite Nat.add_succ_r. reflexivity.
      * rewrite Qred_correct, ck_S, Ha. reflexivity.
    + symmetry. rewrite (qsum_ext _ (fun _ => 0 * 0)); [rewrite qsum_scal; ring|]. intros; cbn [andb]. ring.
Qed.
Lemma ser_mul_exp x c g w : ser_mul (ser_exp x c) g w == em x c g 0 1 w.
Proof.
  rewrite em_spec by (symmetry; apply ck_0). apply qsum_ext. intros [a b] _. cbn [fst snd Nat.add]. unfold ser_exp.
  destruct (forallb (letter_eqb x) a); reflexivity.
Qed.

Definition word_em (deg : nat) (w : FscatterSpec.word) : series :=
  fold_right (fun f g => em (fst f) (Qred (snd f / inject_Z (Z.of_nat deg))) g 0 1) ser_one w.
Lemma ser_mul_ext f f' g g' : (forall w, f w == f' w) -> (forall w, g w == g' w) -> forall w, ser_mul f g w == ser_mul f' g' w.
Proof. intros Hf Hg w. apply qsum_ext. intros [a b] _. cbn. now rewrite Hf, Hg. Qed.
Lemma ser_exp_ext x c c' w : c == c' -> ser_exp x c w == ser_exp x c' w.
Proof. intros H. unfold ser_exp. destruct forallb; [|reflexivity]. now rewrite H. Qed.
Lemma word_em_spec deg w : forall v, word_ser deg w v == word_em deg w v.
Proof.
  induction w as [|f w IH]; intros v; [reflexivity|]. cbn [word_ser word_em fold_right].
  rewrite <- ser_mul_exp. apply ser_mul_ext; [|exact IH]. intros u. apply ser_exp_ext. now rewrite Qred_correct.
Qed.
Definition scheme_em (deg : nat) (s : scheme) : series := fun w => qsum (map (fun t => Qred (fst t * word_em deg (snd t) w)) s).
Lemma scheme_em_spec deg s w : scheme_ser deg s w == scheme_em deg s w.
Proof. apply qsum_ext. intros [a u] _. cbn [fst snd]. now rewrite Qred_correct, word_em_spec. Qed.

Fixpoint words (n : nat) : list (list letter) :=
  match n with O => [[]] | S n => map (cons LA) (words n) ++ map (cons LB) (words n) end.
Lemma words_all w : In w (words (length w)).
Proof. induction w as [|x w IH]; [now left|]. cbn. apply in_or_app. destruct x; [left|right]; now apply in_map. Qed.
Definition check_order (deg : nat) (s : scheme) (p : nat) (tol : Q) : bool :=
  forallb (fun n => forallb (fun w => Qle_bool (Qabs (scheme_em deg s w - ser_exp_sum w)) tol) (words n)) (seq 0 (S p)).
Lemma check_order_le deg s p tol : check_order deg s p tol = true ->
  forall w, (length w <= p)%nat -> Qabs (scheme_ser deg s w - ser_exp_sum w) <= tol.
Proof.
  intros H w Hw. unfold check_order in H. rewrite forallb_forall in H. specialize (H (length w) ltac:(apply in_seq; lia)).
  rewrite forallb_forall in H. specialize (H w (words_all w)). rewrite scheme_em_spec. now apply Qle_bool_iff.
Qed.
Lemma check_order_ok deg s p : check_order deg s p 0 = true -> has_order deg s p.
Proof.
  intros H w Hw. pose proof (check_order_le _ _ _ _ H w Hw) as Hq.
  assert (E : scheme_ser deg s w - ser_exp_sum w == 0).
  { apply Qabs_Qle_condition in Hq. destruct Hq. apply Qle_antisym; [assumption|]. lra. }
  lra.
Qed.

(** the number y in the name xSPLITyz *)
Definition name_order (d : akns_disc) : nat :=
  match d with
  | A_2SPLIT1A | A_2SPLIT1B => 1 | A_2SPLIT2A | A_2SPLIT2B | A_2SPLIT2S => 2
  | A_2SPLIT3A | A_2SPLIT3B | A_2SPLIT3S => 3 | A_2SPLIT4A | A_2SPLIT4B | A_4SPLIT4A | A_4SPLIT4B => 4
  | A_2SPLIT5A | A_2SPLIT5B => 5 | A_2SPLIT6A | A_2SPLIT6B => 6 | A_2SPLIT7A | A_2SPLIT7B => 7
  | A_2SPLIT8A | A_2SPLIT8B => 8 | _ => 0 end.

(** every scheme except 2SPLIT2A (see below) and 2SPLIT7A/B agrees with exp(h(A+B)) up to the order in its name *)
Theorem splitting_order d s : scheme_of d = Some s -> d <> A_2SPLIT2A -> d <> A_2SPLIT7A -> d <> A_2SPLIT7B ->
  has_order (akns_degree d) s (name_order d).
Proof.
  intros H N1 N2 N3. apply check_order_ok.
  destruct d; try discriminate H; try congruence; injection H as <-; vm_compute; reflexivity.
Qed.
(** 2SPLIT2A: conjugating the implemented scheme e^B e^A with e^(A/2) gives a scheme of order 2 *)
Theorem splitting_order_2A : has_order 1 [(1, [(LA, 1#2); (LB, 1); (LA, 1); (LA, -1#2)])] 2.
Proof. apply check_order_ok. vm_compute. reflexivity. Qed.
(** 2SPLIT7A/B: the leading weight is rounded to double precision, so the order conditions hold up to 2^-51 *)
Theorem splitting_order_7 d s : d = A_2SPLIT7A \/ d = A_2SPLIT7B -> scheme_of d = Some s ->
  forall w, (length w <= 7)%nat -> Qabs (scheme_ser (akns_degree d) s w - ser_exp_sum w) <= 1 # (2 ^ 51).
Proof. intros [-> | ->] H; injection H as <-; apply check_order_le; vm_compute; reflexivity. Qed.
(** ... and do not hold exactly, not even for the constant term *)
Theorem splitting_order_7_exact_refuted d s : d = A_2SPLIT7A \/ d = A_2SPLIT7B -> scheme_of d = Some s ->
  ~ has_order (akns_degree d) s 0.
Proof.
  intros [-> | ->] H; injection H as <-; intros C; specialize (C [] (le_n 0)); rewrite scheme_em_spec in C; vm_compute in C; discriminate C.
Qed.
Print Assumptions splitting_order.
Print Assumptions splitting_order_2A.
Print Assumptions splitting_order_7.
Print Assumptions splitting_order_7_exact_refuted.
