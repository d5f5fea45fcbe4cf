(** * Proofs about FFT length selection and factorisation *)
From Coq Require Import ZArith Znumtheory.
From Verif Require Import Base KissModel.
From Coq Require Import ZifyNat.
Local Open Scope nat_scope.

(** Specification: no prime factors besides 2, 3, 5 *)
Definition smooth235 (n : nat) : Prop := exists a b c, n = 2 ^ a * 3 ^ b * 5 ^ c.

Lemma strip_spec d : 2 <= d -> forall fuel m, 1 <= m -> m < fuel ->
  exists r a, strip fuel d m = Some r /\ m = r * d ^ a /\ 1 <= r /\ r mod d <> 0.
Proof.
  intros Hd. induction fuel as [|fuel IH]; intros m Hm Hf; [lia|].
  cbn [strip]. destruct (Nat.eqb_spec (m mod d) 0) as [E|E].
  - assert (Hdiv : m = d * (m / d)) by (apply Nat.div_exact; lia).
    assert (H1 : 1 <= m / d) by (destruct (m / d); [lia|lia]).
    assert (H2 : m / d < m) by (apply Nat.div_lt; lia).
    destruct (IH (m / d) H1 ltac:(lia)) as (r & a & E1 & E2 & E3 & E4).
    exists r, (S a). split; [exact E1|]. split; [|auto].
    rewrite Nat.pow_succ_r'. rewrite Hdiv at 1. rewrite E2 at 1. lia.
  - exists m, 0. split; [reflexivity|]. simpl. repeat split; lia.
Qed.

Lemma strip_zero2 fuel : strip fuel 2 0 = None.
Proof. induction fuel as [|fuel IH]; [reflexivity|]. cbn [strip]. simpl. exact IH. Qed.

Lemma next_fast_size_zero fuel fuel2 : next_fast_size fuel fuel2 0 = None.
Proof. destruct fuel; [reflexivity|]. cbn [next_fast_size]. unfold fast_size_test. now rewrite strip_zero2. Qed.

Definition prime2 : prime 2 := prime_2.
Definition prime3 : prime 3 := prime_3.
Lemma prime5 : prime 5.
Proof.
  constructor; [lia|]. intros n Hn. 
  assert (n = 1 \/ n = 2 \/ n = 3 \/ n = 4)%Z as [->|[->|[->| ->]]] by lia;
  apply Zgcd_1_rel_prime; reflexivity.
Qed.

Lemma prime_dvd_mul (p a b : nat) :
  prime (Z.of_nat p) -> Nat.divide p (a * b) -> Nat.divide p a \/ Nat.divide p b.
Proof.
  intros Hp [k Hk].
  assert (H : (Z.of_nat p | Z.of_nat a * Z.of_nat b)%Z) by (exists (Z.of_nat k); lia).
  apply prime_mult in H; [|exact Hp].
  assert (Hpos : (1 < Z.of_nat p)%Z) by (destruct Hp; lia).
  destruct H as [[c Hc]|[c Hc]]; [left|right]; exists (Z.to_nat c); nia.
Qed.

(** a number without factors 2, 3, 5 that is smooth is 1 *)
Lemma coprime_smooth_one m n a b c :
  m mod 2 <> 0 -> m mod 3 <> 0 -> m mod 5 <> 0 -> n <> 0 ->
  m * n = 2 ^ a * 3 ^ b * 5 ^ c -> m = 1.
Proof.
  intros H2 H3 H5. revert n b c. 
  assert (Hstep : forall p k x n, prime (Z.of_nat p) -> m mod p <> 0 -> m * n = p * (k * x) ->
            exists n', n = p * n' /\ m * n' = k * x).
  { intros p k x n Hp Hm HE.
    assert (Hpos : 1 < p) by (destruct Hp; lia).
    destruct (prime_dvd_mul p m n Hp) as [[c Hc]|[c Hc]].
    - exists (k * x). lia.
    - exfalso. apply Hm. rewrite Hc. apply Nat.mod_mul. lia.
    - exists c. split; [lia|]. subst n. nia. }
  induction a as [|a IHa]; intros n b c Hn HE.
  - revert n c Hn HE. induction b as [|b IHb]; intros n c Hn HE.
    + revert n Hn HE. induction c as [|c IHc]; intros n Hn HE.
      * simpl in HE. nia.
      * destruct (Hstep 5 1 (5 ^ c) n prime5 H5) as (n' & E1 & E2).
        { rewrite HE. rewrite Nat.pow_succ_r'. simpl. lia. }
        apply (IHc n'); [nia|]. rewrite E2. simpl. lia.
    + destruct (Hstep 3 (3 ^ b) (5 ^ c) n prime3 H3) as (n' & E1 & E2).
      { rewrite HE. rewrite (Nat.pow_succ_r' 3). change (2 ^ 0) with 1. lia. }
      apply (IHb n' c); [nia|]. rewrite E2. simpl. lia.
  - destruct (Hstep 2 (2 ^ a) (3 ^ b * 5 ^ c) n prime2 H2) as (n' & E1 & E2).
    { rewrite HE. rewrite (Nat.pow_succ_r' 2). lia. }
    apply (IHa n' b c); [nia|]. rewrite E2. lia.
Qed.

Lemma mod_mul_nz r x d : d <> 0 -> (r * x) mod d <> 0 -> r mod d <> 0.
Proof.
  intros Hd H E. apply H. rewrite Nat.mul_mod by exact Hd. rewrite E. simpl. apply Nat.mod_0_l. exact Hd.
Qed.

Lemma fast_size_test_spec fuel n : 1 <= n < fuel ->
  exists b, fast_size_test fuel n = Some b /\ (b = true <-> smooth235 n).
Proof.
  intros Hn. unfold fast_size_test.
  destruct (strip_spec 2 ltac:(lia) fuel n ltac:(lia) ltac:(lia)) as (m1 & a & E1 & F1 & G1 & N1).
  rewrite E1. assert (m1 <= n) by (pose proof (Nat.pow_nonzero 2 a); nia).
  destruct (strip_spec 3 ltac:(lia) fuel m1 ltac:(lia) ltac:(lia)) as (m2 & b & E2 & F2 & G2 & N2).
  rewrite E2. assert (m2 <= m1) by (pose proof (Nat.pow_nonzero 3 b); nia).
  destruct (strip_spec 5 ltac:(lia) fuel m2 ltac:(lia) ltac:(lia)) as (m3 & c & E3 & F3 & G3 & N3).
  rewrite E3. exists (m3 <=? 1). split; [reflexivity|].
  rewrite Nat.leb_le. split.
  - intros H3. exists a, b, c. assert (m3 = 1) by lia. subst m3. nia.
  - intros (a' & b' & c' & Hs).
    enough (m3 = 1) by lia.
    apply (coprime_smooth_one m3 (5 ^ c * 3 ^ b * 2 ^ a) a' b' c').
    + rewrite F2, F3 in N1. apply mod_mul_nz in N1; [|lia]. apply mod_mul_nz in N1; lia.
    + rewrite F3 in N2. apply mod_mul_nz in N2; lia.
    + exact N3.
    + pose proof (Nat.pow_nonzero 2 a); pose proof (Nat.pow_nonzero 3 b); pose proof (Nat.pow_nonzero 5 c). nia.
    + rewrite <- Hs, F1, F2, F3. lia.
Qed.

Lemma next_fast_size_search : forall k n fuel2,
  1 <= n -> smooth235 (n + k) -> n + k < fuel2 ->
  exists r, next_fast_size (S k) fuel2 n = Some r /\ n <= r <= n + k /\ smooth235 r
    /\ forall x, n <= x < r -> ~ smooth235 x.
Proof.
  induction k as [|k IH]; intros n fuel2 Hn Hs Hf.
  - cbn [next_fast_size]. destruct (fast_size_test_spec fuel2 n ltac:(lia)) as (b & E & Hb).
    rewrite E. rewrite Nat.add_0_r in Hs. apply Hb in Hs as Hb'. subst b.
    exists n. split; [reflexivity|]. split; [lia|]. split; [exact Hs|]. intros; lia.
  - cbn [next_fast_size]. destruct (fast_size_test_spec fuel2 n ltac:(lia)) as (b & E & Hb).
    rewrite E. destruct b.
    + exists n. split; [reflexivity|]. split; [lia|]. split; [now apply Hb|]. intros; lia.
    + replace (n + S k) with (S n + k) in * by lia.
      destruct (IH (S n) fuel2 ltac:(lia) Hs Hf) as (r & E1 & E2 & E3 & E4).
      exists r. split; [exact E1|]. split; [lia|]. split; [exact E3|].
      intros x Hx. destruct (Nat.eq_dec x n) as [->|Hne].
      * intros H. apply Hb in H. discriminate.
      * apply E4; lia.
Qed.

Lemma exists_pow2 n : 1 <= n -> exists a, n <= 2 ^ a < 2 * n.
Proof.
  intros Hn. induction n as [|n IH]; [lia|].
  destruct (Nat.eq_dec n 0) as [->|Hne].
  - exists 0. simpl. lia.
  - destruct IH as [a Ha]; [lia|].
    destruct (Nat.eq_dec (2 ^ a) n) as [E|E].
    + exists (S a). rewrite Nat.pow_succ_r'. lia.
    + exists a. lia.
Qed.

(** For n >= 1 the search terminates within n rounds and gives the least smooth
   number >= n *)
Lemma next_fast_size_spec n : 1 <= n ->
  exists r, next_fast_size n (2 * n) n = Some r /\ n <= r < 2 * n /\ smooth235 r
    /\ forall x, n <= x < r -> ~ smooth235 x.
Proof.
  intros Hn. destruct (exists_pow2 n Hn) as [a Ha].
  destruct (next_fast_size_search (2 ^ a - n) n (2 * n)) as (r & E & H1 & H2 & H3); try lia.
  - exists a, 0, 0. simpl. lia.
  - exists r. split; [|split; [lia|auto]].
    assert (Hmono : forall k k' n0, k <= k' -> forall r0, next_fast_size k (2 * n) n0 = Some r0 ->
              next_fast_size k' (2 * n) n0 = Some r0).
    { clear. induction k as [|k IH]; intros k' n0 Hk r0 H; [discriminate|].
      destruct k' as [|k']; [lia|]. cbn [next_fast_size] in *.
      destruct (fast_size_test (2 * n) n0) as [[]|]; auto. apply IH; [lia|exact H]. }
    apply (Hmono (S (2 ^ a - n))); [lia|exact E].
Qed.

(** ** Factorisation *)
(** [good_factors n l]: pairs (p,m) with p >= 2, p*m = remaining length, last m = 1 *)
Fixpoint good_factors (n : nat) (l : list (nat * nat)) : Prop :=
  match l with
  | [] => False
  | (p, m) :: l' => 1 <= p /\ p * m = n /\ (n <> 1 -> 2 <= p) /\
      match l' with [] => m = 1 | _ => 1 < m /\ good_factors m l' end
  end.

Lemma next_radix_spec fs n : 1 <= n -> forall fuel p,
  1 <= p -> (p = 1 -> n = 1) ->
  (* enough fuel *)
  (n mod p <> 0 -> (p = 4 /\ fs + 4 < fuel) \/ (p = 2 /\ fs + 3 < fuel) \/
     (2 < p /\ p <> 4 /\ (fs + 3 - p) + 1 < fuel)) ->
  0 < fuel ->
  exists p', next_radix fuel fs n p = Some p' /\ 1 <= p' /\ n mod p' = 0 /\ (p' = 1 -> n = 1).
Proof.
  intros Hn. induction fuel as [|fuel IH]; intros p Hp Hp1 Hfuel Hf0; [lia|].
  cbn [next_radix]. destruct (Nat.eqb_spec (n mod p) 0) as [E|E].
  - exists p. auto.
  - specialize (Hfuel E).
    set (p1 := match p with 4 => 2 | 2 => 3 | _ => p + 2 end).
    set (p2 := if fs <? p1 then n else p1).
    assert (Hp1v : (p = 4 /\ p1 = 2) \/ (p = 2 /\ p1 = 3) \/ (p <> 4 /\ p <> 2 /\ p1 = p + 2)).
    { unfold p1. destruct p as [|[|[|[|[|p]]]]]; lia. }
    clearbody p1.
    assert (Hnn : n mod n = 0) by (apply Nat.mod_same; lia).
    apply IH.
    + unfold p2. destruct (Nat.ltb_spec fs p1); lia.
    + unfold p2. destruct (Nat.ltb_spec fs p1); lia.
    + unfold p2. destruct (Nat.ltb_spec fs p1) as [H|H]; [intros H'; contradiction|].
      intros _. lia.
    + lia.
Qed.

Lemma factor_loop_spec fs : forall fuel n p,
  1 <= n < fuel -> 2 <= p -> (p = 4 \/ p = 2 \/ (2 < p /\ p <> 4)) ->
  exists l, factor_loop fuel (fs + 5) fs n p = Some l /\ good_factors n l.
Proof.
  induction fuel as [|fuel IH]; intros n p Hn Hp Hpp; [lia|].
  cbn [factor_loop].
  destruct (next_radix_spec fs n ltac:(lia) (fs + 5) p ltac:(lia) ltac:(lia)) as (p' & E & H1 & H2 & H3).
  { intros _. lia. }
  { lia. }
  rewrite E.
  assert (Hpm : p' * (n / p') = n) by (symmetry; apply Nat.div_exact; lia).
  destruct (Nat.ltb_spec 1 (n / p')) as [Hm|Hm].
  - assert (Hp2 : 2 <= p').
    { destruct (Nat.eq_dec p' 1) as [->|]; [|lia]. specialize (H3 eq_refl). subst n. simpl in Hm. lia. }
    destruct (IH (n / p') p') as (l & El & Gl).
    + split; [lia|]. assert (n / p' < n) by (apply Nat.div_lt; lia). lia.
    + exact Hp2.
    + lia.
    + rewrite El. exists ((p', n / p') :: l). split; [reflexivity|].
      cbn [good_factors]. split; [lia|]. split; [exact Hpm|]. split; [lia|].
      destruct l; [destruct Gl|]. auto.
  - exists [(p', n / p')]. split; [reflexivity|]. cbn [good_factors].
    assert (n / p' <> 0) by (intros H0; rewrite H0 in Hpm; lia).
    assert (n / p' = 1) by lia.
    repeat split; lia.
Qed.

Lemma kf_factor_spec fs n : 1 <= n ->
  exists l, kf_factor fs n = Some l /\ good_factors n l.
Proof. intros Hn. unfold kf_factor. apply factor_loop_spec; lia. Qed.

(** number of pairs: 2^(number of pairs) <= n for n >= 2 *)
Lemma good_factors_count l : forall n, good_factors n l -> 1 < n -> 2 ^ length l <= n.
Proof.
  induction l as [|[p m] l IH]; intros n H Hn; [destruct H|].
  cbn [good_factors] in H. destruct H as (H1 & H2 & H3 & H4). specialize (H3 ltac:(lia)).
  destruct l as [|x l].
  - subst m. simpl. lia.
  - destruct H4 as [Hm Hg]. specialize (IH m Hg Hm).
    cbn [length] in *. rewrite Nat.pow_succ_r'. nia.
Qed.

Lemma good_factors_prod l : forall n, good_factors n l -> fold_right Nat.mul 1 (map fst l) = n.
Proof.
  induction l as [|[p m] l IH]; intros n H; [destruct H|].
  cbn [good_factors map fold_right fst] in *. destruct H as (H1 & H2 & H3 & H4).
  destruct l as [|x l].
  - simpl. subst m. lia.
  - destruct H4 as [Hm Hg]. rewrite (IH m Hg). exact H2.
Qed.
