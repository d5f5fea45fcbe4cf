(** * C102: fnft_nsev_inverse without bound states: no access outside the arrays, no division by zero, what is changed *)
From Coq Require Import Reals ZArith List Lia Lra.
From Coquelicot Require Import Coquelicot.
From Verif Require Import CExp CConj Loop Mem NsevProps NsevSafe NsevSpec InvModel InvArgs FinvModel InvCsSpec InvPeelTop InvCsTop.
Import ListNotations.
Local Open Scope C_scope.

(** the computation ends and its result has the property P *)
Definition ends {A} (e : out A) (P : A -> Prop) : Prop := exists x, e = Ret x /\ P x.
Lemma ends_ret {A} (x : A) (P : A -> Prop) : P x -> ends (Ret x) P.
Proof. intros H. now exists x. Qed.
Lemma ends_bind {A B} (e : out A) (f : A -> out B) Q P : ends e Q -> (forall x, Q x -> ends (f x) P) -> ends (x <- e ;; f x) P.
Proof. intros (x & -> & Hx) H. cbn [bind]. now apply H. Qed.
Lemma ends_imp {A} (e : out A) (P Q : A -> Prop) : ends e P -> (forall x, P x -> Q x) -> ends e Q.
Proof. intros (x & E & Hx) H. exists x. split; [exact E|now apply H]. Qed.
Lemma ends_aget (l : list C) i : (i < length l)%nat -> ends (aget l i) (fun x => x = nth i l (RtoC 0)).
Proof. intros H. rewrite (aget_nth l (RtoC 0)) by exact H. now apply ends_ret. Qed.
Lemma ends_for {S} (P : S -> Prop) body cnt lo st : P st -> (forall i st, (lo <= i < lo + cnt)%nat -> P st -> ends (body i st) P) -> ends (for_ cnt lo body st) P.
Proof. intros H0 H. destruct (for_inv (fun _ => P) body cnt lo st H0 H) as (x & E & Hx). exists x. split; [exact E|exact Hx]. Qed.
Lemma upd_same {A} (l : list A) i x : (i < length l)%nat -> nth_error (upd l i x) i = Some x.
Proof. revert i. induction l as [|a l IH]; intros [|i] H; cbn in *; try lia; [reflexivity|apply IH; lia]. Qed.
Lemma upd_other {A} (l : list A) i j x : i <> j -> nth_error (upd l i x) j = nth_error l j.
Proof. revert i j. induction l as [|a l IH]; intros [|i] [|j] H; cbn in *; try congruence; try reflexivity. apply IH. congruence. Qed.
Lemma nth_of_error (a b : list C) i : nth_error a i = nth_error b i -> nth i a (RtoC 0) = nth i b (RtoC 0).
Proof.
  intros H. destruct (nth_error b i) as [x|] eqn:Eb.
  - now rewrite (nth_error_nth _ _ _ H), (nth_error_nth _ _ _ Eb).
  - apply nth_error_None in H, Eb. now rewrite !nth_overflow.
Qed.
Lemma ends_aset (l : list C) i x : (i < length l)%nat ->
  ends (aset l i x) (fun l' => length l' = length l /\ nth i l' (RtoC 0) = x /\ forall j, i <> j -> nth j l' (RtoC 0) = nth j l (RtoC 0)).
Proof.
  intros H. rewrite aset_upd by exact H. apply ends_ret. split; [apply upd_length|]. split; [exact (nth_error_nth _ _ _ (upd_same l i x H))|].
  intros j N. apply nth_of_error. now apply upd_other.
Qed.
Lemma ends_fori {S} (P : nat -> S -> Prop) body cnt lo st : P lo st -> (forall i st, (lo <= i < lo + cnt)%nat -> P i st -> ends (body i st) (P (Datatypes.S i))) -> ends (for_ cnt lo body st) (P (lo + cnt)%nat).
Proof. intros H0 H. destruct (for_inv P body cnt lo st H0 H) as (x & E & Hx). exists x. split; [exact E|exact Hx]. Qed.
(** an array with entries lo, ..., lo + cnt - 1 replaced by values with the property Q *)
Definition filled_with (Q : C -> Prop) (lo cnt : nat) (a a' : list C) : Prop :=
  length a' = length a /\ (forall i, (lo <= i < lo + cnt)%nat -> Q (nth i a' (RtoC 0))) /\ (forall i, ~ (lo <= i < lo + cnt)%nat -> nth_error a' i = nth_error a i).
Lemma ends_fill (Q : C -> Prop) cnt : forall lo f (a : list C), (lo + cnt <= length a)%nat -> (forall i, (lo <= i < lo + cnt)%nat -> ends (f i) Q) ->
  ends (fill cnt lo f a) (filled_with Q lo cnt a).
Proof.
  induction cnt as [|k IH]; intros lo f a L H; cbn [fill].
  - apply ends_ret. split; [reflexivity|]. split; [intros i Hi; lia|reflexivity].
  - destruct (H lo ltac:(lia)) as (x & -> & Hx). cbn [bind].
    rewrite aset_upd by lia. cbn [bind]. assert (Lu : length (upd a lo x) = length a) by (apply upd_length).
    destruct (IH (S lo) f (upd a lo x)) as (a' & E' & L' & Q' & N'); [lia|intros i Hi; apply H; lia|]. exists a'. split; [exact E'|]. split; [lia|]. split.
    + intros i Hi. destruct (Nat.eq_dec i lo) as [->|Ni]; [|apply Q'; lia].
      assert (Z : nth_error a' lo = Some x). { rewrite N' by lia. apply upd_same. lia. } now rewrite (nth_error_nth _ _ _ Z).
    + intros i Hi. rewrite N' by lia. apply upd_other. lia.
Qed.
Lemma ends_fft inv n (src dst : list C) : (1 <= n)%nat -> (n <= length src)%nat -> (n <= length dst)%nat -> ends (fft_exec inv n src dst) (fun d => length d = length dst).
Proof. intros H1 H2 H3. destruct (fft_exec_spec inv n src dst (fun k => nth k src (RtoC 0)) H1 H2 H3 ltac:(reflexivity)) as (d & E & L & _). exists d. split; [exact E|exact L]. Qed.
Lemma ends_rd (l : list C) off n : (off + n <= length l)%nat -> ends (rd l off n) (fun v => length v = n).
Proof. intros H. destruct (rd_ok l off n (RtoC 0) H) as (v & E & L & _). exists v. split; [exact E|exact L]. Qed.
Lemma ends_wr (l v : list C) off : (off + length v <= length l)%nat ->
  ends (wr l off v) (fun l' => length l' = length l /\ forall i, (i < length v)%nat -> nth (off + i) l' (RtoC 0) = nth i v (RtoC 0)).
Proof.
  intros H. destruct (wr_ok l off v (RtoC 0) H) as (l' & E & L & N). exists l'. split; [exact E|]. split; [exact L|]. intros i Hi. rewrite N.
  destruct (Nat.leb_spec off (off + i)); [|lia]. destruct (Nat.ltb_spec (off + i) (off + length v)); [|lia]. cbn [andb]. f_equal. lia.
Qed.
Lemma ends_step x n : (2 <= n)%nat -> ends (step x n) (fun _ => True).
Proof. intros H. rewrite step_ok by exact H. now apply ends_ret. Qed.
Lemma ends_check {S} (P : Z * S -> Prop) code (st : S) k : ok_code code -> (forall c, ok_code c -> c <> SUCCESS -> P (c, st)) -> (code = SUCCESS -> ends k P) -> ends (check code st k) P.
Proof.
  intros Hc Hp Hk. unfold check. destruct (Z.eqb_spec code SUCCESS) as [E|N]; [now apply Hk|].
  destruct (E_SUBROUTINE code) as [c|] eqn:Ec; cbn [bind].
  - apply ends_ret. apply Hp; [|eapply E_SUB_nonzero; eassumption]. unfold E_SUBROUTINE in Ec. destruct (Z.eqb_spec code INT_MIN); [discriminate|]. injection Ec as <-. unfold ok_code, INT_MIN in *. lia.
  - exfalso. unfold E_SUBROUTINE in Ec. destruct (Z.eqb_spec code INT_MIN); [|discriminate]. subst code. unfold ok_code, INT_MIN in Hc. lia.
Qed.

(** ** What is assumed of the subroutines: they keep to the arrays they get and return error codes other than INT_MIN.  A spectral factor has a
    last coefficient other than 0.  Inverse scattering is only relied on for matrices of 2^k + 1 coefficients whose upper left polynomial has
    a constant term other than 0. *)
Record ienv_ok (E : ienv) (kappa : Z) : Prop := {
  io_junk : forall s n, length (ie_junk E s n) = n;
  io_plan : forall s, ok_code (ie_plan E s);
  io_specfact : forall s deg p os, length p = (deg + 1)%nat ->
    ends (ie_specfact E s deg p os kappa) (fun x => ok_code (fst x) /\ length (snd x) = (deg + 1)%nat /\ (fst x = SUCCESS -> nth deg (snd x) (RtoC 0) <> 0));
  io_finv : forall k deg tm q eps_t d, (1 <= k)%nat -> deg = (2 ^ k)%nat -> (0 < eps_t)%R -> d = N_2SPLIT2A \/ d = N_2SPLIT2_MODAL ->
    length tm = (4 * (deg + 1))%nat -> nth deg tm (RtoC 0) <> 0 -> (deg <= length q)%nat ->
    ends (ie_finv E deg tm q eps_t kappa d) (fun x => ok_code (fst x) /\ kept deg q (snd x)) }.

Section Safe.
Variable E : ienv.
Variable kappa : Z.
Hypothesis HE : ienv_ok E kappa.
Variables (M D : nat) (T : R * R) (o : iopts).
Hypothesis HD : (2 <= D)%nat.
Hypothesis HM : (D <= M)%nat.
Hypothesis Hev : Nat.Even M.
Hypothesis Hd : i_disc o = N_2SPLIT2A \/ i_disc o = N_2SPLIT2_MODAL.

Lemma half_M : (M / 2 + (M / 2 - 1) < M)%nat /\ (M / 2 + 1 <= M)%nat /\ (M - (M / 2 + 1) <= M / 2)%nat.
Proof. destruct Hev as (m & Em). rewrite Em, (Nat.mul_comm 2 m), Nat.div_mul by lia. lia. Qed.

Lemma ends_reorder (src dst : list C) : (M <= length src)%nat -> length dst = M ->
  ends (reorder M src dst) (fun l => length l = M /\ forall Q : C -> Prop, (forall i, (i < M)%nat -> Q (nth i src (RtoC 0))) -> forall i, (i < M)%nat -> Q (nth i l (RtoC 0))).
Proof.
  intros Ls Ld. pose proof half_M as HH. unfold reorder.
  pose (S1 := fun x : C => exists i, (i < M)%nat /\ x = nth i src (RtoC 0)).
  assert (A1 : forall i, (i < M)%nat -> ends (aget src i) S1).
  { intros i Hi. eapply ends_imp; [apply ends_aget; lia|]. intros x ->. now exists i. }
  eapply ends_bind; [apply (ends_fill S1); [lia|intros i Hi; apply A1; lia]|]. intros d1 (L1 & Q1 & N1).
  eapply ends_imp; [apply (ends_fill S1); [lia|intros i Hi; apply A1; lia]|]. intros d2 (L2 & Q2 & N2). split; [lia|].
  intros Q HQ i Hi. assert (G : S1 (nth i d2 (RtoC 0))).
  { destruct (Nat.lt_ge_cases i (M / 2 + 1)) as [A|A]; [|apply Q2; lia].
    assert (Z : nth i d2 (RtoC 0) = nth i d1 (RtoC 0)) by (apply nth_of_error; apply N2; lia). rewrite Z. apply Q1. lia. }
  destruct G as (j & Hj & ->). now apply HQ.
Qed.

(** the modulus of the continuous spectrum does not change *)
Lemma Cmod_phase (x y : R) (c : C) : Cmod (c * Cexp (- Ci * RtoC x * RtoC y)) = Cmod c.
Proof. rewrite Cmod_mult, Cmod_Cexp. replace (fst (- Ci * RtoC x * RtoC y)) with 0%R by (cbn; ring). rewrite exp_0. ring. Qed.
Definition same_moduli (cs cs' : list C) : Prop := kept M cs cs' /\ forall i, (i < M)%nat -> Cmod (nth i cs' (RtoC 0)) = Cmod (nth i cs (RtoC 0)).
Lemma same_refl cs : same_moduli cs cs.
Proof. split; [apply kept_refl|reflexivity]. Qed.
Lemma ends_remove_boundary cs re XI : (M <= length cs)%nat -> length re = M ->
  ends (remove_boundary M cs re XI D T o) (fun x => ok_code (fst x) /\ same_moduli cs (fst (snd x)) /\ length (snd (snd x)) = M /\
    (i_cs o = IC_REFLECTION_COEFFICIENT -> fst x = SUCCESS) /\
    (fst x = SUCCESS -> forall i, (i < M)%nat -> exists j, (j < M)%nat /\ nth i (snd (snd x)) (RtoC 0) = nth j (fst (snd x)) (RtoC 0))).
Proof.
  intros Lc Lr. unfold remove_boundary. eapply ends_bind; [now apply ends_step|]. intros eps_t _. eapply ends_bind; [apply ends_step; lia|]. intros eps_xi _. cbv zeta.
  assert (Bad : forall c st, ok_code c -> c <> SUCCESS -> i_cs o <> IC_REFLECTION_COEFFICIENT -> st = (cs, re) -> ends (Ret (c, st)) (fun x : Z * (list C * list C) => ok_code (fst x) /\ same_moduli cs (fst (snd x)) /\ length (snd (snd x)) = M /\
    (i_cs o = IC_REFLECTION_COEFFICIENT -> fst x = SUCCESS) /\
    (fst x = SUCCESS -> forall i, (i < M)%nat -> exists j, (j < M)%nat /\ nth i (snd (snd x)) (RtoC 0) = nth j (fst (snd x)) (RtoC 0)))).
  { intros c st Hc Nc Ni ->. apply ends_ret. cbn [fst snd]. split; [exact Hc|]. split; [apply same_refl|]. split; [exact Lr|]. split; intros; contradiction. }
  assert (Go : forall p v, p = POk (Some v) -> ends (p <- phase p;; check (fst p) (cs, re)
    (cs0 <- fill M 0 (fun i => c <- aget cs i;; Ret (c * Cexp (- Ci * RtoC (fst XI + INR i * eps_xi) * RtoC (snd p)))) cs;; re0 <- reorder M cs0 re;; Ret (SUCCESS, (cs0, re0))))
    (fun x : Z * (list C * list C) => ok_code (fst x) /\ same_moduli cs (fst (snd x)) /\ length (snd (snd x)) = M /\
    (i_cs o = IC_REFLECTION_COEFFICIENT -> fst x = SUCCESS) /\
    (fst x = SUCCESS -> forall i, (i < M)%nat -> exists j, (j < M)%nat /\ nth i (snd (snd x)) (RtoC 0) = nth j (fst (snd x)) (RtoC 0)))).
  { intros p v ->. cbn [phase bind fst snd]. unfold check. change (Z.eqb SUCCESS SUCCESS) with true. cbv iota.
    destruct (fill_ok (fun i => nth i cs (RtoC 0) * Cexp (- Ci * RtoC (fst XI + INR i * eps_xi) * RtoC v)) (RtoC 0) M 0 (fun i => c <- aget cs i ;; Ret (c * Cexp (- Ci * RtoC (fst XI + INR i * eps_xi) * RtoC v))) cs) as (cs0 & Ec & L0 & N0); [lia| |].
    { intros i Hi. rewrite (aget_nth cs (RtoC 0)) by lia. reflexivity. }
    rewrite Ec. cbn [bind]. eapply ends_bind; [apply (ends_reorder cs0 re); lia|]. intros re0 [L1 Q1]. apply ends_ret. cbn [fst snd].
    split; [apply ok_SUCCESS|]. split; [|split; [exact L1|]].
    - split.
      + destruct (ends_fill (fun _ => True) M 0 (fun i => c <- aget cs i ;; Ret (c * Cexp (- Ci * RtoC (fst XI + INR i * eps_xi) * RtoC v))) cs) as (cs1 & E1 & _ & _ & N1); [lia| |].
        { intros i Hi. eapply ends_bind; [apply ends_aget; lia|]. intros; now apply ends_ret. }
        rewrite Ec in E1. injection E1 as <-. split; [exact L0|]. intros i Hi. apply N1. lia.
      + intros i Hi. rewrite N0. cbn [Nat.leb andb Nat.add]. destruct (Nat.ltb_spec i M); [|lia]. apply Cmod_phase.
    - split; [reflexivity|]. intros _. apply (Q1 (fun x => exists j, (j < M)%nat /\ x = nth j cs0 (RtoC 0))). intros j Hj. now exists j. }
  destruct (i_cs o) eqn:Eo; try (apply Bad; [apply ok_small; unfold EC_INVALID_ARGUMENT; lia|discriminate|congruence|reflexivity]).
  - assert (Ph : exists v, nse_phase_factor_rho eps_t (snd T) (i_disc o) = POk (Some v)) by (destruct Hd as [-> | ->]; eexists; [apply (phase_rho Split2A)|apply (phase_rho Modal)]).
    destruct Ph as (v & Ph). exact (Go _ v Ph).
  - assert (Ph : exists v, nse_phase_factor_b eps_t D (fst T) (snd T) (i_disc o) = POk (Some v)) by (destruct Hd as [-> | ->]; eexists; [apply (phase_b Split2A)|apply (phase_b Modal)]).
    destruct Ph as (v & Ph). exact (Go _ v Ph).
Qed.

Ltac st := first [ apply ends_aget; lia | apply ends_aset; lia ].
Ltac stp := eapply ends_bind; [ st | let x := fresh "x" in let H := fresh "Hx" in let N := fresh "Nx" in let V := fresh "Vx" in
  intros x H; cbv beta in H; try (destruct H as (H & V & N)) ].
Ltac lead := repeat match goal with N : forall j, ?i <> j -> nth j ?l (RtoC 0) = _ |- context [nth ?k ?l (RtoC 0)] => rewrite (N k) by lia end.
Ltac fin := cbv beta; first [ lia | split; [lia|]; lead; first [assumption|congruence] ].
Ltac run := repeat stp; first [ apply ends_ret; fin | eapply ends_imp; [ st | let N := fresh "Nx" in let V := fresh "Vx" in let H := fresh "Hx" in cbv beta; intros ? (H & V & N); fin ] ].

Definition long (n : nat) (l : list C) : Prop := length l = n.
Definition longv (v : C) (n : nat) (l : list C) : Prop := length l = n /\ nth D l (RtoC 0) = v.
(** a stage that fills the transfer matrix: the code it returns, the continuous spectrum, the matrix *)
Definition stage (cs : list C) (x : Z * (list C * list C)) : Prop :=
  ok_code (fst x) /\ same_moduli cs (fst (snd x)) /\ long (4 * (D + 1)) (snd (snd x)) /\ (fst x = SUCCESS -> nth D (snd (snd x)) (RtoC 0) <> 0).
Lemma same_len cs cs' : same_moduli cs cs' -> length cs' = length cs.
Proof. intros [[L _] _]. exact L. Qed.
Lemma same_trans a b c : same_moduli a b -> same_moduli b c -> same_moduli a c.
Proof. intros [K1 M1] [K2 M2]. split; [eapply kept_trans; eassumption|]. intros i Hi. rewrite M2 by exact Hi. now apply M1. Qed.
Lemma ok_inval : ok_code EC_INVALID_ARGUMENT. Proof. apply ok_small. unfold EC_INVALID_ARGUMENT. lia. Qed.
Lemma ok_nomem : ok_code EC_NOMEM. Proof. apply ok_small. unfold EC_NOMEM. lia. Qed.
Lemma ok_assert : ok_code EC_ASSERTION_FAILED. Proof. apply ok_small. unfold EC_ASSERTION_FAILED. lia. Qed.

Lemma ends_b_coefficients s cs XI : (M <= length cs)%nat ->
  ends (b_coefficients E s M cs XI D T o) (fun x => ok_code (fst x) /\ same_moduli cs (fst (snd x)) /\ (fst x = SUCCESS -> length (snd (snd x)) = M)).
Proof.
  intros Lc. unfold b_coefficients. destruct (negb _ || negb _).
  { apply ends_ret. cbn [fst snd]. split; [apply ok_nomem|]. split; [apply same_refl|discriminate]. }
  eapply ends_bind; [apply ends_remove_boundary; [exact Lc|apply (io_junk E kappa HE)]|]. intros [c [cs1 re]] (Hc & Hs & Hl & _ & _). cbn [fst snd] in *.
  apply ends_check; [exact Hc|intros c' Hc' N'; cbn [fst snd]; split; [exact Hc'|]; split; [exact Hs|congruence]|]. intros _.
  apply ends_check; [apply (io_plan E kappa HE)|intros c' Hc' N'; cbn [fst snd]; split; [exact Hc'|]; split; [exact Hs|congruence]|]. intros _.
  pose proof (io_junk E kappa HE (s + 1) M) as Lj. eapply ends_bind; [apply ends_fft; lia|]. intros b Lb. cbv beta in Lb. apply ends_ret. cbn [fst snd].
  split; [apply ok_SUCCESS|]. split; [exact Hs|]. intros _. lia.
Qed.

Lemma i0_bounds : (i0_of D M <= 1)%nat /\ forall i, (i0_of D M <= i < i0_of D M + (D + 1 - i0_of D M))%nat -> (M - 1 + i - D < M)%nat /\ (D - i < M)%nat.
Proof. unfold i0_of. destruct (Nat.leb_spec D (M - 1)); (split; [lia|intros; lia]). Qed.

Lemma ends_refl_coeff cs XI tm : (M <= length cs)%nat -> long (4 * (D + 1)) tm -> ends (tm_refl_coeff E M cs XI D T D tm kappa o) (stage cs).
Proof.
  intros Lc Lt. pose proof i0_bounds as [I0 I1]. unfold long in Lt. unfold tm_refl_coeff.
  eapply ends_bind; [apply ends_b_coefficients; exact Lc|]. intros [c [cs1 b]] (Hc & Hs & Hb). cbn [fst snd] in *.
  destruct (Z.eqb_spec c SUCCESS) as [Ec|Nc]; cbn [negb]; [|apply ends_ret; split; [exact Hc|]; split; [exact Hs|]; split; [exact Lt|intros; contradiction]].
  specialize (Hb Ec). cbv zeta.
  eapply ends_bind; [apply (ends_for (long (4 * (D + 1)))); [exact Lt|]|].
  { intros i t Hi Ht. unfold long in *. run. }
  intros t1 Ht1. unfold long in Ht1.
  eapply ends_bind; [apply (ends_for (long (4 * (D + 1)))); [exact Ht1|]|].
  { intros i t Hi Ht. unfold long in *. pose proof (I1 i Hi) as [A B]. run. }
  intros t2 Ht2. unfold long in Ht2. repeat stp. apply ends_ret. split; [apply ok_SUCCESS|]. split; [exact Hs|]. split; [unfold long; cbn [snd]; lia|]. intros _. cbn [snd]. lead. rewrite Vx. intros Z; apply (f_equal fst) in Z; cbn in Z; lra.
Qed.

Lemma ends_b_of_xi cs XI tm : (M <= length cs)%nat -> long (4 * (D + 1)) tm -> ends (tm_from_b_of_xi E M cs XI D T D tm kappa o) (stage cs).
Proof.
  intros Lc Lt. pose proof i0_bounds as [I0 I1]. unfold long in Lt. unfold tm_from_b_of_xi.
  eapply ends_bind; [apply ends_b_coefficients; exact Lc|]. intros [c [cs1 b]] (Hc & Hs & Hb). cbn [fst snd] in *.
  destruct (Z.eqb_spec c SUCCESS) as [Ec|Nc]; cbn [negb]; [|apply ends_ret; split; [exact Hc|]; split; [exact Hs|]; split; [exact Lt|intros; contradiction]].
  specialize (Hb Ec). cbv zeta.
  eapply ends_bind; [apply (ends_for (long (4 * (D + 1)))); [exact Lt|]|].
  { intros i t Hi Ht. unfold long in *. run. }
  intros t1 Ht1. unfold long in Ht1.
  eapply ends_bind; [apply (ends_for (long (4 * (D + 1)))); [exact Ht1|]|].
  { intros i t Hi Ht. unfold long in *. pose proof (I1 i Hi) as [A B]. run. }
  intros t2 Ht2. unfold long in Ht2.
  eapply ends_bind; [apply ends_rd; lia|]. intros p Hp. cbv beta in Hp.
  eapply ends_bind; [apply (io_specfact E kappa HE); exact Hp|]. intros [c1 a] (Hc1 & La & Na). cbn [fst snd] in *.
  apply ends_check; [exact Hc1|intros c' Hc' Nc; split; [exact Hc'|]; split; [exact Hs|]; split; [exact Ht2|intros; contradiction]|]. intros Ec1. specialize (Na Ec1).
  eapply ends_bind; [apply ends_wr; lia|]. intros t3 [Ht3 Nt3]. specialize (Nt3 D ltac:(lia)). cbn [Nat.add] in Nt3.
  eapply ends_bind; [apply (ends_for (longv (nth D a (RtoC 0)) (4 * (D + 1)))); [split; [lia|exact Nt3]|]|].
  { intros i t Hi [Ht Hv]. unfold longv in *. run. }
  intros t4 [Ht4 Hv4]. apply ends_ret. split; [apply ok_SUCCESS|]. split; [exact Hs|]. split; [exact Ht4|]. intros _. cbn [snd]. rewrite Hv4. exact Na.
Qed.

Lemma degree_1 : nse_degree (i_disc o) = 1%nat.
Proof. destruct Hd as [-> | ->]; reflexivity. Qed.

Lemma ends_B_of_tau cs tm : (M <= length cs)%nat -> long (4 * (D + 1)) tm -> ends (tm_from_B_of_tau E M cs D T D tm kappa o) (stage cs).
Proof.
  intros Lc Lt. unfold long in Lt.
  assert (Bad : forall c, ok_code c -> c <> SUCCESS -> ends (Ret (c, (cs, tm))) (stage cs)).
  { intros c Hc Nc. apply ends_ret. split; [exact Hc|]. split; [apply same_refl|]. split; [exact Lt|]. intros; contradiction. }
  unfold tm_from_B_of_tau. cbv zeta.
  destruct (Nat.eqb_spec M D) as [EM|]; cbn [negb]; [|now apply Bad; [apply ok_inval|]].
  destruct (Req_EM_T (fst T) (- snd T)); [|now apply Bad; [apply ok_inval|]].
  destruct (i_meth o); try (now apply Bad; [apply ok_inval|]).
  eapply ends_bind; [now apply ends_step|]. intros eps_t _.
  eapply ends_bind; [apply (ends_for (long (4 * (D + 1)))); [exact Lt|]|].
  { intros i t Hi Ht. unfold long in *. stp. rewrite degree_1. unfold cdivr. cbn [INR]. destruct (Req_EM_T 1 0); [lra|]. cbn [bind]. run. }
  intros t1 Ht1. unfold long in Ht1. do 4 stp.
  eapply ends_bind; [apply ends_rd; lia|]. intros p Hp. cbv beta in Hp.
  eapply ends_bind; [apply (io_specfact E kappa HE); lia|]. intros [c1 a] (Hc1 & La & Na). cbn [fst snd] in *.
  apply ends_check; [exact Hc1|intros c' Hc' Nc; split; [exact Hc'|]; split; [apply same_refl|]; split; [unfold long; cbn [snd]; lia|intros; contradiction]|]. intros Ec1. specialize (Na Ec1).
  eapply ends_bind; [apply ends_wr; lia|]. intros t3 [Ht3 Nt3]. specialize (Nt3 (D - 1)%nat ltac:(lia)). replace (1 + (D - 1))%nat with D in Nt3 by lia.
  eapply ends_bind; [apply (ends_for (longv (nth (D - 1) a (RtoC 0)) (4 * (D + 1)))); [split; [lia|exact Nt3]|]|].
  { intros i t Hi [Ht Hv]. unfold longv in *. run. }
  intros t4 [Ht4 Hv4]. repeat stp. apply ends_ret. split; [apply ok_SUCCESS|]. split; [apply same_refl|]. split; [unfold long; cbn [snd]; lia|]. intros _. cbn [snd]. lead. rewrite Hv4. exact Na.
Qed.

(** ** AB_FROM_ITER *)
Definition below_one (n : nat) (l : list C) : Prop := forall i, (i < n)%nat -> (Cmod (nth i l (RtoC 0)) < 1)%R.
Definition bufs_ok (w : ibufs) : Prop :=
  length (ib_re w) = M /\ length (ib_in w) = M /\ length (ib_out w) = M /\ length (ib_a w) = D /\ length (ib_b w) = D /\ below_one M (ib_re w).
Lemma ends_reverse_b b : length b = D -> ends (reverse_b D b) (fun l => length l = D).
Proof.
  intros L. unfold reverse_b. apply (ends_for (fun l => length l = D)); [exact L|]. intros i t Hi Ht.
  assert (i < D)%nat by (pose proof (Nat.div_le_upper_bound D 2 D); lia). run.
Qed.
Lemma Cmod_turn (a : R) (c : C) : Cmod (c * Cexp (Ci * RtoC a)) = Cmod c.
Proof. rewrite Cmod_mult, Cmod_Cexp. replace (fst (Ci * RtoC a)) with 0%R by (cbn; ring). rewrite exp_0. ring. Qed.
Lemma ends_reorder_phase cs ph dst : (M <= length cs)%nat -> below_one M cs -> (forall i, (i < M)%nat -> exists a : R, nth i ph (RtoC 0) = RtoC a) ->
  length ph = M -> length dst = M -> ends (reorder_phase M cs ph dst) (fun l => length l = M /\ below_one M l).
Proof.
  intros Lc Bc Rp Lp Ld. pose proof half_M as HH. unfold reorder_phase. pose (S1 := fun x : C => (Cmod x < 1)%R).
  assert (A1 : forall i j, (i < M)%nat -> (j < M)%nat -> ends (c <- aget cs i ;; p <- aget ph j ;; Ret (c * Cexp (Ci * p))) S1).
  { intros i j Hi Hj. eapply ends_bind; [apply ends_aget; lia|]. intros x ->. eapply ends_bind; [apply ends_aget; lia|]. intros y ->. apply ends_ret.
    destruct (Rp j Hj) as (a & ->). unfold S1. rewrite Cmod_turn. now apply Bc. }
  eapply ends_bind; [apply (ends_fill S1); [lia|intros i Hi; apply A1; lia]|]. intros d1 (L1 & Q1 & N1).
  eapply ends_imp; [apply (ends_fill S1); [lia|intros i Hi; apply A1; lia]|]. intros d2 (L2 & Q2 & N2). split; [lia|].
  intros i Hi. destruct (Nat.lt_ge_cases i (M / 2 + 1)) as [A|A]; [|apply Q2; lia].
  assert (Z : nth i d2 (RtoC 0) = nth i d1 (RtoC 0)) by (apply nth_of_error; apply N2; lia). rewrite Z. apply Q1. lia.
Qed.

Lemma ends_iter_pass cs w pc pcd : M = D -> (M <= length cs)%nat -> below_one M cs -> bufs_ok w ->
  kappa = (-1)%Z -> ends (iter_pass E M D cs kappa w pc pcd) (fun x => ok_code (fst x) /\ bufs_ok (fst (fst (fst (snd x)))) /\
    (fst x = SUCCESS -> nth (D - 1) (ib_a (fst (fst (fst (snd x))))) (RtoC 0) <> 0)).
Proof.
  intros EM Lc Bc Hw Ek. assert (Hw' := Hw). destruct Hw' as (L1 & L2 & L3 & L4 & L5 & B1). unfold iter_pass.
  eapply ends_bind; [apply (ends_fill (fun _ => True)); [lia|]|].
  { intros i Hi. eapply ends_bind; [apply ends_aget; lia|]. intros x ->. cbv zeta. rewrite Ek.
    assert (G : (0 < 1 + -1 * (Cmod (nth i (ib_re w) (RtoC 0)) * Cmod (nth i (ib_re w) (RtoC 0))))%R).
    { assert (Z := B1 i ltac:(lia)). pose proof (Cmod_ge_0 (nth i (ib_re w) (RtoC 0))) as Z0. revert Z Z0. generalize (Cmod (nth i (ib_re w) (RtoC 0))). clear. intros r H H0. nra. }
    destruct (Rlt_dec _ 0) as [Hlt|_]; [exfalso; revert Hlt G; clear; lra|].
    unfold cdivr. destruct (Req_EM_T _ 0) as [Hz|_]; [|cbn [bind]; now apply ends_ret].
    exfalso. apply sqrt_lt_R0 in G. revert Hz G. clear. lra. }
  intros fin (Lf & _ & _).
  eapply ends_bind; [apply ends_fft; lia|]. intros b Lb. cbv beta in Lb.
  eapply ends_bind; [apply ends_reverse_b; lia|]. intros b' Lb'. cbv beta in Lb'.
  eapply ends_bind; [apply ends_rd; lia|]. intros p Hp. cbv beta in Hp.
  eapply ends_bind; [apply (io_specfact E kappa HE); lia|]. intros [c1 a] (Hc1 & La & Na). cbn [fst snd] in *.
  apply ends_check; [exact Hc1|intros c' Hc' Nc; split; [exact Hc'|split; [exact Hw|intros; contradiction]]|]. intros Ec1. specialize (Na Ec1).
  eapply ends_bind; [apply ends_wr; lia|]. intros a' [La' Na']. specialize (Na' (D - 1)%nat ltac:(lia)). cbn [Nat.add] in Na'.
  eapply ends_bind; [apply (ends_fill (fun _ => True)); [lia|]|].
  { intros i Hi. eapply ends_imp; [apply ends_aget; lia|]. intros; exact I. }
  intros fin2 (Lf2 & _ & _).
  eapply ends_bind; [apply ends_fft; lia|]. intros fo Lfo. cbv beta in Lfo.
  eapply ends_bind; [apply (ends_fill (fun z => exists a : R, z = RtoC a)); [lia|]|].
  { intros i Hi. eapply ends_bind; [apply ends_aget; lia|]. intros x _. apply ends_ret. now eexists. }
  intros fo2 (Lfo2 & Rf & _). cbv zeta.
  eapply ends_bind; [apply ends_reorder_phase; [exact Lc|exact Bc|intros i Hi; apply Rf; lia|lia|lia]|]. intros re [Lre Bre].
  assert (W : bufs_ok {| ib_re := re; ib_in := fin2; ib_out := fo2; ib_a := a'; ib_b := b' |}) by (unfold bufs_ok; cbn [ib_re ib_in ib_out ib_a ib_b]; repeat (split; [lia|]); exact Bre).
  match goal with |- ends (if ?c then _ else _) _ => destruct c end; [|match goal with |- ends (if ?c then _ else _) _ => destruct c end]; apply ends_ret; (split; [apply ok_SUCCESS|split; [exact W|]]; intros _; cbn [fst snd ib_a]; rewrite Na'; exact Na).
Qed.
Lemma ends_iter_loop cs n : forall w pc pcd, M = D -> (M <= length cs)%nat -> below_one M cs -> bufs_ok w -> kappa = (-1)%Z ->
  (1 <= n)%nat \/ nth (D - 1) (ib_a w) (RtoC 0) <> 0 ->
  ends (iter_loop E n M D cs kappa w pc pcd) (fun x => ok_code (fst x) /\ bufs_ok (snd x) /\ (fst x = SUCCESS -> nth (D - 1) (ib_a (snd x)) (RtoC 0) <> 0)).
Proof.
  induction n as [|n IH]; intros w pc pcd EM Lc Bc Hw Ek Hn; cbn [iter_loop].
  { apply ends_ret. split; [apply ok_SUCCESS|]. split; [exact Hw|]. intros _. destruct Hn as [Hn|Hn]; [lia|exact Hn]. }
  eapply ends_bind; [now apply ends_iter_pass|]. intros [c [[[w1 pc1] pcd1] stop]] (Hc & Hw1 & Hn1). cbn [fst snd] in Hc, Hw1, Hn1.
  destruct (Z.eqb_spec c SUCCESS) as [Ec|Nc]; cbn [negb]; [|apply ends_ret; split; [exact Hc|split; [exact Hw1|intros; contradiction]]].
  specialize (Hn1 Ec). destruct stop; [apply ends_ret; split; [apply ok_SUCCESS|split; [exact Hw1|intros _; exact Hn1]]|]. apply IH; auto.
Qed.
Lemma ends_ab_matrix a b tm : length a = D -> length b = D -> long (4 * (D + 1)) tm ->
  ends (ab_matrix D D kappa a b tm) (longv (nth (D - 1) a (RtoC 0)) (4 * (D + 1))).
Proof.
  intros La Lb Lt. unfold ab_matrix.
  eapply ends_bind; [apply (ends_fori (fun i t => length t = (4 * (D + 1))%nat /\ ((D <= i)%nat -> nth D t (RtoC 0) = nth (D - 1) a (RtoC 0)))); [split; [exact Lt|lia]|]|].
  { intros i t Hi [Ht _]. repeat stp. eapply ends_imp; [st|]. cbv beta. intros t' (L' & V' & N'). split; [lia|]. intros Hi'. assert (i = D - 1)%nat by lia. subst i.
    lead. replace (1 + (D - 1))%nat with D in * by lia. congruence. }
  intros t1 [Ht1 Hv1]. specialize (Hv1 ltac:(lia)). unfold longv. run.
Qed.
Lemma ends_ab_from_iter cs XI tm : (1 <= i_maxiter o)%nat -> (M <= length cs)%nat -> below_one M cs -> long (4 * (D + 1)) tm -> ends (tm_ab_from_iter E M cs XI D T D tm kappa o) (stage cs).
Proof.
  intros Hit Lc Bc Lt.
  assert (Bad : forall c, ok_code c -> c <> SUCCESS -> ends (Ret (c, (cs, tm))) (stage cs)).
  { intros c Hc Nc. apply ends_ret. split; [exact Hc|]. split; [apply same_refl|]. split; [exact Lt|]. intros; contradiction. }
  unfold tm_ab_from_iter. cbv zeta.
  destruct (not_power_of_two D); [now apply Bad; [apply ok_inval|]|].
  destruct (Nat.eqb_spec M D) as [EM|]; cbn [negb]; [|now apply Bad; [apply ok_inval|]].
  rewrite Nat.eqb_refl. cbn [negb].
  destruct (Z.eqb_spec kappa (-1)) as [Ek|]; cbn [negb]; [|now apply Bad; [apply ok_inval|]].
  match goal with |- ends (if ?c then _ else _) _ => destruct c end; [now apply Bad; [apply ok_nomem|]|].
  apply ends_check; [apply (io_plan E kappa HE)|intros c' Hc' Nc; split; [exact Hc'|split; [apply same_refl|split; [exact Lt|intros; contradiction]]]|]. intros _.
  apply ends_check; [apply (io_plan E kappa HE)|intros c' Hc' Nc; split; [exact Hc'|split; [apply same_refl|split; [exact Lt|intros; contradiction]]]|]. intros _.
  eapply ends_bind; [apply ends_remove_boundary; [exact Lc|apply (io_junk E kappa HE)]|]. intros [c [cs1 re]] (Hc & Hs & Hl & _ & Hr). cbn [fst snd] in *.
  apply ends_check; [exact Hc|intros c' Hc' Nc; split; [exact Hc'|split; [exact Hs|split; [exact Lt|intros; contradiction]]]|]. intros Ec. specialize (Hr Ec).
  assert (B1 : below_one M cs1). { intros i Hi. destruct Hs as [_ Hs]. rewrite Hs by exact Hi. now apply Bc. }
  assert (L1 : length cs1 = length cs) by now apply same_len.
  eapply ends_bind; [apply ends_iter_loop; [exact EM|lia|exact B1| |exact Ek|now left]|].
  { unfold bufs_ok. cbn [ib_re ib_in ib_out ib_a ib_b]. rewrite !(io_junk E kappa HE). repeat (split; [first [exact Hl|reflexivity]|]).
    intros i Hi. destruct (Hr i Hi) as (j & Hj & ->). now apply B1. }
  intros [c2 w] (Hc2 & (_ & _ & _ & La & Lb & _) & Hn). cbn [fst snd] in *.
  destruct (Z.eqb_spec c2 SUCCESS) as [Ec2|Nc2]; cbn [negb]; [|apply ends_ret; split; [exact Hc2|split; [exact Hs|split; [exact Lt|intros; contradiction]]]].
  eapply ends_bind; [now apply ends_ab_matrix|]. intros t2 [Ht2 Hv2]. apply ends_ret. split; [apply ok_SUCCESS|split; [exact Hs|split; [exact Ht2|]]].
  intros _. cbn [snd]. rewrite Hv2. now apply Hn.
Qed.

(** ** The call *)
Lemma ends_pass (cs : list C) e : ends e (stage cs) -> ends (x <- e ;; let '(code, st) := x in check code st (Ret (SUCCESS, st))) (stage cs).
Proof.
  intros H. eapply ends_bind; [exact H|]. intros [c st0] (Hc & Hs & Hl & Hn). cbn [fst snd] in *.
  apply ends_check; [exact Hc|intros c' Hc' Nc; split; [exact Hc'|split; [exact Hs|split; [exact Hl|intros; contradiction]]]|].
  intros Ec. apply ends_ret. split; [apply ok_SUCCESS|split; [exact Hs|split; [exact Hl|intros _; now apply Hn]]].
Qed.
Lemma ends_refl cs XI tm : (M <= length cs)%nat -> (i_meth o = IM_AB_FROM_ITER -> (1 <= i_maxiter o)%nat /\ below_one M cs) -> long (4 * (D + 1)) tm ->
  ends (tm_from_reflection_coefficient E M cs XI D T D tm kappa o) (stage cs).
Proof.
  intros Lc Bc Lt. unfold tm_from_reflection_coefficient.
  assert (Bad : ends (Ret (EC_INVALID_ARGUMENT, (cs, tm))) (stage cs)).
  { apply ends_ret. split; [apply ok_inval|]. split; [apply same_refl|]. split; [exact Lt|discriminate]. }
  destruct (i_meth o) eqn:Em; try exact Bad; apply ends_pass; first [now apply ends_refl_coeff|now apply ends_ab_from_iter; try apply Bc].
Qed.
Lemma ends_invert cs XI bs q k : D = (2 ^ k)%nat -> (1 <= k)%nat -> (fst T < snd T)%R -> (M <= length cs)%nat -> (D <= length q)%nat -> (i_cs o <> IC_B_OF_TAU -> XI <> None) ->
  (i_cs o = IC_REFLECTION_COEFFICIENT -> i_meth o = IM_AB_FROM_ITER -> (1 <= i_maxiter o)%nat /\ below_one M cs) ->
  ends (invert_contspec E M cs XI 0 bs D q T kappa o) (fun x => ok_code (fst x) /\ same_moduli cs (fst (snd x)) /\ kept D q (snd (snd x))).
Proof.
  intros Hk1 Hk2 HT Lc Lq HX Bc. unfold invert_contspec. rewrite degree_1, Nat.mul_1_r. cbv zeta. destruct (Nat.eqb_spec D 0); [lia|].
  destruct (ie_alloc E 0); cbn [negb]; [|apply ends_ret; cbn [fst snd]; split; [apply ok_nomem|]; split; [apply same_refl|apply kept_refl]].
  assert (Lt : long (4 * (D + 1)) (ie_junk E 0 (4 * (D + 1)))) by apply (io_junk E kappa HE).
  eapply (ends_bind _ _ (stage cs)).
  - destruct (i_cs o).
    + destruct XI as [XI|]; [|exfalso; now apply HX]. cbn [deref bind].
      assert (Pr : (match bs with Some bs => precompensate M cs XI 0 bs | None => if Nat.eqb 0 0 then Ret cs else UB end) = Ret cs) by (destruct bs; reflexivity).
      rewrite Pr. cbn [bind]. apply ends_pass, ends_refl; auto.
    + destruct XI as [XI|]; [|exfalso; now apply HX]. cbn [deref bind]. apply ends_pass, ends_b_of_xi; auto.
    + apply ends_pass, ends_B_of_tau; auto.
    + apply ends_ret. split; [apply ok_inval|]. split; [apply same_refl|]. split; [exact Lt|discriminate].
  - intros [c [cs1 tm]] (Hc & Hs & Hl & Hn). cbn [fst snd] in *.
    destruct (Z.eqb_spec c SUCCESS) as [Ec|Nc]; cbn [negb]; [|apply ends_ret; cbn [fst snd]; split; [exact Hc|]; split; [exact Hs|apply kept_refl]].
    rewrite step_ok by exact HD. cbn [bind].
    eapply ends_bind; [apply (io_finv E kappa HE k); [exact Hk2|exact Hk1| |exact Hd|exact Hl|now apply Hn|exact Lq]|].
    { apply Rdiv_lt_0_compat; [lra|]. apply lt_0_INR. lia. }
    intros [c2 q2] [Hc2 K2]. cbn [fst snd] in *.
    apply ends_check; [exact Hc2|intros c' Hc' _; cbn [fst snd]; tauto|]. intros _. apply ends_ret. cbn [fst snd]. split; [apply ok_SUCCESS|]. tauto.
Qed.
End Safe.

(** ** Specification: the arrays after the call.  The first n entries may have changed, the others and the length have not.  None is a NULL pointer. *)
Definition only_first (n : nat) (l l' : option (list C)) : Prop :=
  match l, l' with
  | None, None => True
  | Some a, Some b => length b = length a /\ forall i, (n <= i)%nat -> nth_error b i = nth_error a i
  | _, _ => False
  end.
Definition moduli_unchanged (n : nat) (l l' : option (list C)) : Prop :=
  match l, l' with Some a, Some b => forall i, (i < n)%nat -> Cmod (nth i b (RtoC 0)) = Cmod (nth i a (RtoC 0)) | _, _ => True end.
Definition options_of (user : option iopts) : iopts := match user with Some o => o | None => inverse_default_opts end.

(** C102.  fnft_nsev_inverse(M, contspec, XI, 0, ...): whatever the arguments, the options and the outcomes of the memory allocations, the
    call comes to an end, without an access outside of the arrays and without a division by zero; the code is not INT_MIN; it changes at most
    the first D entries of q and the first M entries of contspec, the latter only by factors of modulus one.  AB_FROM_ITER needs a reflection
    coefficient of modulus below one and max_iter > 0. *)
Theorem nsev_inverse_safe : forall E M contspec XI bs nc D q T kappa user, ienv_ok E kappa ->
  (forall l, contspec = Some l -> (M <= length l)%nat) -> (forall l, q = Some l -> (D <= length l)%nat) ->
  (forall l i, contspec = Some l -> i_cs (options_of user) = IC_REFLECTION_COEFFICIENT -> i_meth (options_of user) = IM_AB_FROM_ITER -> (i < M)%nat ->
     (1 <= i_maxiter (options_of user))%nat /\ (Cmod (nth i l (RtoC 0)) < 1)%R) ->
  exists code contspec' q', fnft_nsev_inverse E M contspec XI 0 bs nc D q T kappa user = Ret (code, (contspec', q')) /\
    code <> INT_MIN /\ only_first M contspec contspec' /\ moduli_unchanged M contspec contspec' /\ only_first D q q'.
Proof.
  intros E M contspec XI bs nc D q T kappa user HE HL HQ HB.
  assert (Hl : forall l, bs = Some l -> (0 <= length l)%nat) by (intros; lia).
  assert (Same : forall code, code <> INT_MIN -> fnft_nsev_inverse E M contspec XI 0 bs nc D q T kappa user = Ret (code, (contspec, q)) ->
    exists code contspec' q', fnft_nsev_inverse E M contspec XI 0 bs nc D q T kappa user = Ret (code, (contspec', q')) /\
    code <> INT_MIN /\ only_first M contspec contspec' /\ moduli_unchanged M contspec contspec' /\ only_first D q q').
  { intros code Hc Ec. exists code, contspec, q. split; [exact Ec|]. split; [exact Hc|]. destruct contspec, q; cbn; repeat split. }
  destruct (inverse_check_spec M contspec XI 0 bs nc D q T kappa (options_of user) Hl) as (code & Ec & [[-> A]|[Hc N]]).
  2:{ apply (Same code); [destruct Hc as [-> | ->]; discriminate|]. unfold fnft_nsev_inverse. fold (options_of user). rewrite Ec. cbn [bind]. destruct Hc as [-> | ->]; reflexivity. }
  destruct A as [A1 _ A2 A3 [k [Hk ED]] Aq AT _ _ _ Ad].
  destruct q as [q|]; [|now elim Aq]. destruct T as [T|]; [|destruct AT as (? & ? & ? & _); discriminate]. destruct contspec as [cs|]; [|exfalso; destruct A1 as [A1|A1]; [now apply A1|lia]].
  destruct (A2 ltac:(discriminate)) as [HE2 HDM]. assert (HT : (fst T < snd T)%R) by (destruct AT as (a & b & Eab & Hab); injection Eab as ->; exact Hab).
  assert (HD : (2 <= D)%nat). { rewrite ED. destruct k as [|k]; [lia|]. cbn. pose proof (Nat.pow_nonzero 2 k). lia. }
  destruct (ends_invert E kappa HE M D T (options_of user) HD HDM HE2 Ad cs XI bs q k ED Hk HT (HL cs eq_refl) (HQ q eq_refl) (A3 ltac:(discriminate))) as ([c [cs' q']] & Ei & Hc & Hs & Hq).
  { intros H1 H2. split; [apply (HB cs 0%nat eq_refl H1 H2); lia|intros i Hi; now apply (HB cs i eq_refl)]. }
  cbn [fst snd] in *. exists c, (Some cs'), (Some q'). split.
  - unfold fnft_nsev_inverse. fold (options_of user). rewrite Ec. cbn [bind]. change (negb (Z.eqb SUCCESS SUCCESS)) with false. cbn [deref bind].
    rewrite Ei. cbn [bind]. destruct (Z.eqb_spec c SUCCESS) as [->|]; reflexivity.
  - destruct Hs as [Hs1 Hs2]. split; [intros ->; unfold ok_code, INT_MIN in Hc; lia|]. cbn [only_first moduli_unchanged]. split; [exact Hs1|]. split; [exact Hs2|exact Hq].
Qed.
