(** * Instances of [cfield]: complex numbers, reals, and the executable field Z/61
   (which has roots of unity of all orders dividing 60, used in the examples). *)
From Coq Require Import Reals Lra.
From Coquelicot Require Import Coquelicot.
From Verif Require Import Base.
From Coq Require Import Eqdep_dec.

Definition CF : cfield :=
  {| car := C; f0 := RtoC 0; f1 := RtoC 1; fadd := Cplus; fmul := Cmult; fsub := Cminus;
     fopp := Copp; fdiv := Cdiv; finv := Cinv; cfield_th := C_field_theory |}.

Definition RF : cfield :=
  {| car := R; f0 := 0%R; f1 := 1%R; fadd := Rplus; fmul := Rmult; fsub := Rminus;
     fopp := Ropp; fdiv := Rdiv; finv := Rinv; cfield_th := Rfield |}.

(** Z/61 with canonical representatives *)
Definition P61 : Z := 61.
Definition in61 (z : Z) : bool := (0 <=? z)%Z && (z <? P61)%Z.
Record z61 := mk61 { v61 : Z; h61 : in61 v61 = true }.

Lemma z61_eq (x y : z61) : v61 x = v61 y -> x = y.
Proof.
  destruct x as [x hx], y as [y hy]; simpl. intros <-. f_equal.
  apply UIP_dec. apply Bool.bool_dec.
Qed.

Lemma red61_ok z : in61 (z mod P61) = true.
Proof.
  unfold in61, P61. pose proof (Z.mod_pos_bound z 61 ltac:(lia)).
  apply andb_true_intro. split; [apply Z.leb_le|apply Z.ltb_lt]; lia.
Qed.
Definition red61 (z : Z) : z61 := mk61 (z mod P61) (red61_ok z).

Definition add61 x y := red61 (v61 x + v61 y).
Definition mul61 x y := red61 (v61 x * v61 y).
Definition opp61 x := red61 (- v61 x).
Definition sub61 x y := red61 (v61 x - v61 y).
Fixpoint zpow61 (x : Z) (n : nat) : Z := match n with O => 1 | S n => (x * zpow61 x n) mod P61 end%Z.
Definition inv61 x := red61 (zpow61 (v61 x) 59).
Definition div61 x y := mul61 x (inv61 y).

Lemma v61_range x : (0 <= v61 x < 61)%Z.
Proof.
  destruct x as [x hx]; simpl. unfold in61, P61 in hx. apply andb_prop in hx.
  destruct hx as [h1 h2]. apply Z.leb_le in h1. apply Z.ltb_lt in h2. lia.
Qed.

Lemma inv61_ok x : x <> red61 0 -> mul61 (inv61 x) x = red61 1.
Proof.
  intros Hx. apply z61_eq. cbn [mul61 inv61 red61 v61].
  assert (H : forallb (fun k => let z := Z.of_nat k in
     (z =? 0)%Z || ((zpow61 z 59 mod P61 * z) mod P61 =? 1 mod P61)%Z) (seq 0 61) = true)
    by (vm_compute; reflexivity).
  rewrite forallb_forall in H. pose proof (v61_range x) as Hr.
  specialize (H (Z.to_nat (v61 x))). rewrite in_seq in H.
  rewrite Z2Nat.id in H by lia. specialize (H ltac:(lia)).
  apply orb_prop in H. destruct H as [H|H].
  - exfalso. apply Hx. apply z61_eq. apply Z.eqb_eq in H. rewrite H. reflexivity.
  - apply Z.eqb_eq in H. exact H.
Qed.

Lemma z61_field : field_theory (red61 0) (red61 1) add61 mul61 sub61 opp61 div61 inv61 eq.
Proof.
  constructor.
  - constructor; intros; apply z61_eq; cbn [add61 mul61 sub61 opp61 red61 v61]; unfold P61 in *;
      try (rewrite ?Z.add_mod_idemp_l, ?Z.add_mod_idemp_r, ?Z.mul_mod_idemp_l, ?Z.mul_mod_idemp_r by lia;
           f_equal; ring).
    + change (0 mod 61)%Z with 0%Z. pose proof (v61_range x). rewrite Z.add_0_l. apply Z.mod_small; lia.
    + change (1 mod 61)%Z with 1%Z. pose proof (v61_range x). rewrite Z.mul_1_l. apply Z.mod_small; lia.
  - intros H. apply (f_equal v61) in H. discriminate.
  - reflexivity.
  - apply inv61_ok.
Qed.

Definition F61 : cfield :=
  {| car := z61; f0 := red61 0; f1 := red61 1; fadd := add61; fmul := mul61; fsub := sub61;
     fopp := opp61; fdiv := div61; finv := inv61; cfield_th := z61_field |}.
Definition z (n : Z) : F61 := red61 n.
Definition show61 (x : F61) : Z := v61 x.

(** turn a goal over [CF] into one over Coquelicot's C *)
Ltac cf_norm :=
  match goal with |- @eq (car CF) ?a ?b => change (@eq C a b) | _ => idtac end;
  change (@fadd CF) with Cplus; change (@fmul CF) with Cmult; change (@fsub CF) with Cminus;
  change (@fopp CF) with Copp; change (@fdiv CF) with Cdiv; change (@finv CF) with Cinv;
  change (@f0 CF) with (RtoC 0); change (@f1 CF) with (RtoC 1).
Ltac cf_ring := cf_norm; ring.
