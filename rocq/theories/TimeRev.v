(** * C103: time reversal *)
From Coq Require Import Reals Lra List Permutation QArith Qreals.
From Coquelicot Require Import Coquelicot.
From Verif Require Import Loop CExp CConj CMean CField DiscTables DiscModel FscatterSpec FscatterProof ScatterSpec ScatterRun MatExp ScatterMatProps
  NsevModel NsevSpec NftSpec NsevLib NsevCsTop NsevEnergy StepNft KdvEnergy.
From Verif Require Import Symm Symm2 SymmTop.
Import ListNotations.
Local Open Scope C_scope.

(** ** Reflection in the second diagonal reverses products *)
Definition flip (X : mat2) : mat2 := M2 (a22 X) (a12 X) (a21 X) (a11 X).
Lemma flip_mul X Y : flip (mmul X Y) = mmul (flip Y) (flip X).
Proof. apply mat2_eq; cbn [a11 a12 a21 a22 mmul flip]; ring. Qed.
Lemma flip_add X Y : flip (madd X Y) = madd (flip X) (flip Y). Proof. reflexivity. Qed.
Lemma flip_scal c X : flip (mscal c X) = mscal c (flip X). Proof. reflexivity. Qed.
Lemma flip_one : flip mone = mone. Proof. reflexivity. Qed.
Lemma flip_zero : flip mzero = mzero. Proof. reflexivity. Qed.
Lemma flip_det X : mdet (flip X) = mdet X. Proof. unfold mdet, flip. cbn [a11 a12 a21 a22]. ring. Qed.
Lemma flip_exp X : flip (mexp X) = mexp (flip X).
Proof. unfold mexp. rewrite flip_det. unfold mexp_at. apply mat2_eq; cbn [a11 a12 a21 a22 mscal madd mmul flip mone mzero]; ring. Qed.
Lemma descending_last n M : descending (S n) M = mmul (descending n (fun j => M (S j))) (M 0%nat).
Proof.
  revert M. induction n as [|n IH]; intros M.
  - cbn [descending]. apply mat2_eq; cbn [a11 a12 a21 a22 mmul mone]; ring.
  - change (descending (S (S n)) M) with (mmul (M (S n)) (descending (S n) M)). rewrite IH. cbn [descending]. apply mmul_assoc.
Qed.
Lemma flip_descending n : forall M, flip (descending n M) = descending n (fun j => flip (M (n - 1 - j)%nat)).
Proof.
  induction n as [|n IH]; intros M; [apply flip_one|]. rewrite descending_last, flip_mul, IH. cbn [descending]. f_equal.
  - f_equal. f_equal. lia.
  - apply descending_ext. intros j Hj. f_equal. f_equal. lia.
Qed.
Lemma word_app EA EB w1 w2 : word_val EA EB (w1 ++ w2) = mmul (word_val EA EB w1) (word_val EA EB w2).
Proof.
  induction w1 as [|[l a] w IH].
  - change (word_val EA EB w2 = mmul mone (word_val EA EB w2)). generalize (word_val EA EB w2). intros X. apply mat2_eq; cbn [a11 a12 a21 a22 mmul mone]; ring.
  - cbn [app word_val fold_right]. fold (word_val EA EB (w ++ w2)). fold (word_val EA EB w). rewrite IH. apply mmul_assoc.
Qed.
Lemma flip_word EA EB EA' EB' : (forall a, flip (EA a) = EA' a) -> (forall a, flip (EB a) = EB' a) -> forall w, flip (word_val EA EB w) = word_val EA' EB' (rev w).
Proof.
  intros HA HB w. induction w as [|[l a] w IH]; [apply flip_one|]. cbn [rev]. rewrite word_app, <- IH. cbn [word_val fold_right fst snd]. fold (word_val EA EB w).
  rewrite flip_mul. f_equal. destruct l; rewrite ?HA, ?HB; apply mat2_eq; cbn [a11 a12 a21 a22 mmul mone]; ring.
Qed.
Lemma scheme_perm EA EB s s' : Permutation s s' -> scheme_val EA EB s = scheme_val EA EB s'.
Proof.
  induction 1; cbn [scheme_val fold_right]; [reflexivity| | |congruence].
  - fold (scheme_val EA EB l). fold (scheme_val EA EB l'). now rewrite IHPermutation.
  - fold (scheme_val EA EB l). apply mat2_eq; cbn [a11 a12 a21 a22 madd]; ring.
Qed.
Definition rev_scheme (s : scheme) : scheme := map (fun t => (fst t, rev (snd t))) s.
Lemma flip_scheme EA EB EA' EB' : (forall a, flip (EA a) = EA' a) -> (forall a, flip (EB a) = EB' a) -> forall s, Permutation (rev_scheme s) s -> flip (scheme_val EA EB s) = scheme_val EA' EB' s.
Proof.
  intros HA HB s Hs. rewrite <- (scheme_perm EA' EB' _ _ Hs). clear Hs. induction s as [|[c w] s IH]; [apply flip_zero|].
  cbn [rev_scheme map scheme_val fold_right fst snd]. fold (scheme_val EA EB s). fold (rev_scheme s). fold (scheme_val EA' EB' (rev_scheme s)).
  now rewrite flip_add, flip_scal, IH, (flip_word _ _ _ _ HA HB).
Qed.

(** ** The methods that are symmetric in time *)
Definition reversible (d : akns_disc) : Prop :=
  match d with
  | A_BO | A_2SPLIT2A | A_2SPLIT2B | A_2SPLIT2S | A_2SPLIT2_MODAL | A_2SPLIT3S | A_2SPLIT4A | A_2SPLIT4B | A_2SPLIT6A | A_2SPLIT6B | A_2SPLIT8A | A_2SPLIT8B => True
  | _ => False
  end.
Lemma reversible_perm d s : reversible d -> d <> A_2SPLIT2A -> scheme_of d = Some s -> Permutation (rev_scheme s) s.
Proof.
  intros H N E. destruct d; try contradiction; try discriminate E; cbn [scheme_of] in E; injection E as <-; try (vm_compute; apply Permutation_refl).
  - vm_compute. apply perm_swap.
  - vm_compute. apply perm_skip, perm_skip, perm_swap.
Qed.
Lemma flip_A (h : R) lam : flip (mscal (RtoC h) (akns_A lam 0 0)) = mscal (RtoC h) (akns_A (- lam) 0 0).
Proof. apply mat2_eq; cbn [a11 a12 a21 a22 mscal akns_A flip]; ring. Qed.
Lemma flip_expA lam (t : R) : flip (expA lam t) = expA (- lam) t.
Proof. now rewrite !expA_mexp, flip_exp, flip_A. Qed.
Lemma flip_expB q r (t : C) : flip (expB q r t) = expB q r t.
Proof. now rewrite expB_mexp, flip_exp. Qed.
Lemma flip_step d (h : R) q r lam : reversible d -> is_fast d -> flip (fast_step d h q r lam) = fast_step d h q r (- lam).
Proof.
  intros Hr Hf.
  assert (HG : forall s deg, Permutation (rev_scheme s) s -> flip (splitting lam q r h deg s) = splitting (- lam) q r h deg s).
  { intros s deg Hs. unfold splitting. apply flip_scheme; [intros; apply flip_expA|intros; apply flip_expB|exact Hs]. }
  assert (HP := reversible_perm d).
  destruct d; try contradiction; try (destruct Hf as [Hf|Hf]; [discriminate Hf|now contradiction Hf]); cbn [fast_step scheme_of];
    try (apply HG, HP; [exact I|discriminate|reflexivity]).
  all: rewrite !flip_mul, !flip_expA, ?flip_expB; first [apply eq_sym, mmul_assoc | idtac].
  all: rewrite <- mmul_assoc; reflexivity.
Qed.
Lemma flip_bo (h lam q r : C) : flip (X_BO h lam q r) = X_BO h (- lam) q r.
Proof. unfold X_BO. apply mat2_eq; cbn [a11 a12 a21 a22 mscal madd akns_A offd flip]; ring. Qed.
Lemma flip_scattering d (h : R) lam (q r q' r' : nat -> C) n : akns_upsampling_factor d = 1%nat -> reversible d ->
  (forall j, (j < n)%nat -> q' j = q (n - 1 - j)%nat /\ r' j = r (n - 1 - j)%nat) ->
  flip (scattering d (weights d) h q r n lam) = scattering d (weights d) h q' r' n (- lam) /\
  (scattering_exact d (weights d) h q r n lam -> scattering_exact d (weights d) h q' r' n (- lam)).
Proof.
  intros U Hr Hq. unfold scattering, scattering_exact. rewrite U. change (INR 1) with 1%R.
  assert (E1 : forall x : R, (x / 1 = x)%R) by (intros; field). rewrite !E1.
  destruct (up1 d U) as [[N Hf]|EB].
  - destruct (akns_degree d) as [|m]; [contradiction|]. split.
    + rewrite flip_descending. apply descending_ext. intros j Hj. destruct (Hq j Hj) as [-> ->]. now apply flip_step.
    + intros X j Hj. destruct (Hq j Hj) as [-> ->]. apply X. lia.
  - subst d. cbn [akns_degree slow_steps]. assert (EX : forall h q r j lam, step_core A_BO (weights A_BO) (RtoC h) q r j lam = X_BO (RtoC h) lam (q j) (r j)).
    { intros. unfold step_core. assert (EW : weights A_BO = [RtoC 1]) by reflexivity. rewrite EW. change (length [RtoC 1]) with 1%nat. rewrite Nat.mod_1_r. cbn [nth]. f_equal. ring. }
    split.
    + rewrite flip_descending. apply descending_ext. intros j Hj. unfold slow_step, sandwich. cbn [step_outer]. rewrite !EX, flip_exp, flip_bo. destruct (Hq j Hj) as [-> ->]. reflexivity.
    + intros X j Hj. destruct (X (n - 1 - j)%nat ltac:(lia)) as [X1 _]. split; [|exact I]. rewrite EX in X1. rewrite EX. destruct (Hq j Hj) as [-> ->]. rewrite <- flip_bo.
      unfold sinc_exact in *. now rewrite flip_det.
Qed.

(** ** On the real axis the second row is determined by the first one *)
Definition star (c : C) (X : mat2) : mat2 := M2 (Cconj (a22 X)) (c * Cconj (a21 X)) (c * Cconj (a12 X)) (Cconj (a11 X)).
Definition jmap (c : C) (X : mat2) : mat2 := M2 (a22 X) (c * a21 X) (c * a12 X) (a11 X).
Lemma jmap_morph c : c * c = 1 -> morph (jmap c).
Proof.
  intros Hc. assert (Hx : forall x : C, c * (c * x) = x) by (intros; transitivity (c * c * x); [ring|rewrite Hc; ring]).
  constructor; intros; try (apply mat2_eq; cbn [a11 a12 a21 a22 mscal madd jmap mone mzero]; ring).
  - apply mat2_eq; cbn [a11 a12 a21 a22 mmul jmap]; try ring.
    + transitivity (c * c * (a21 X * a12 Y) + a22 X * a22 Y); [rewrite Hc; ring|ring].
    + transitivity (c * c * (a12 X * a21 Y) + a11 X * a11 Y); [rewrite Hc; ring|ring].
  - unfold mexp. assert (E : mdet (jmap c X) = mdet X).
    { unfold mdet, jmap; cbn [a11 a12 a21 a22]. transitivity (a11 X * a22 X - c * c * (a12 X * a21 X)); [ring|rewrite Hc; ring]. }
    rewrite E. unfold mexp_at. apply mat2_eq; cbn [a11 a12 a21 a22 mscal madd mmul jmap mone mzero]; ring.
Qed.
Lemma star_morph c : c * c = 1 -> morph (star c).
Proof.
  intros Hc. assert (J := jmap_morph c Hc). assert (K := conj_morph).
  assert (E : forall X, star c X = jmap c (mconj X)) by reflexivity.
  constructor; intros; rewrite !E.
  - now rewrite (mo_mul _ K), (mo_mul _ J).
  - now rewrite (mo_add _ K), (mo_add _ J).
  - now rewrite (mo_scal _ K), (mo_scal _ J).
  - now rewrite (mo_one _ K), (mo_one _ J).
  - now rewrite (mo_zero _ K), (mo_zero _ J).
  - now rewrite (mo_exp _ K), (mo_exp _ J).
Qed.
Lemma star_dets c : c * c = 1 -> dets (star c).
Proof.
  intros Hc X. assert (E : mdet (star c X) = mdet (mconj X)).
  { unfold mdet, star, mconj; cbn [a11 a12 a21 a22]. transitivity (Cconj (a11 X) * Cconj (a22 X) - c * c * (Cconj (a12 X) * Cconj (a21 X))); [ring|rewrite Hc; ring]. }
  rewrite E. apply conj_dets.
Qed.
Lemma star_cov c (h l : R) q r : c * c = 1 -> Cconj c = c -> r = c * Cconj q -> covariant (star c) (RtoC h) (RtoC l) q r (RtoC h) (RtoC l) q r.
Proof.
  intros Hc Rc ->. assert (Ei : Cconj Ci = - Ci) by (apply Ceq; cbn; ring).
  assert (Hx : forall x : C, c * (c * x) = x) by (intros; transitivity (c * c * x); [ring|rewrite Hc; ring]).
  constructor; apply mat2_eq; cbn [a11 a12 a21 a22 mscal star akns_A offd]; rewrite ?Cmult_conj, ?Cconj_opp, ?Ei, ?Cconj_conj, ?Rc, ?Cconj_R; try ring.
  transitivity (RtoC h * (c * (c * q))); [ring|now rewrite Hx].
Qed.
(** the sign of r = c conj q *)
Definition sgn (kappa : Z) : C := if (kappa =? 1)%Z then - (1) else 1.
Lemma sgn_facts kappa : sgn kappa * sgn kappa = 1 /\ Cconj (sgn kappa) = sgn kappa /\ forall x, nse_r_from_q kappa x = sgn kappa * Cconj x.
Proof. unfold sgn, nse_r_from_q. destruct (kappa =? 1)%Z; (split; [ring|]); (split; [rewrite ?Cconj_opp, ?(Cconj_R 1); reflexivity|intros; ring]). Qed.
