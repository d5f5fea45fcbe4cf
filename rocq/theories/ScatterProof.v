(** * Refinement proofs for the slow scattering: products, normalisation, change of basis *)
From Coq Require Import Reals Lra Lia List ZArith.
From Coquelicot Require Import Coquelicot.
From Verif Require Import Base Loop Mem Fields ErrModel CExp CField CDeriv CMean MiscNumModel MiscNumProps MiscMetricProps MiscSincBound
  DiscTables DiscModel DiscProps FscatterSpec FscatterProof FscatterModel FscatterProps ScatterSpec MatExp ScatterStep ScatterModel.
Import ListNotations.
Local Open Scope C_scope.

(** ** The matrices built by U_BO and U_ES4 *)
Definition kBO (q r l h : C) : C := Csqrt (q * r - l * l) * h.
Lemma kBO_sq q r l h : kBO q r l h * kBO q r l h = - mdet (X_BO h l q r).
Proof.
  unfold kBO, X_BO, akns_A, mdet. cbn [a11 a12 a21 a22 mscal].
  replace (Csqrt (q * r - l * l) * h * (Csqrt (q * r - l * l) * h)) with (Csqrt (q * r - l * l) * Csqrt (q * r - l * l) * (h * h)) by ring.
  rewrite Csqrt_sq. replace (h * (- Ci * l) * (h * (Ci * l))) with (- (Ci * Ci) * (h * h * l * l)) by ring. rewrite Ci_sqr. ring.
Qed.
Lemma U_BO_value q r l h : U_BO q r l h false = Ret (l4 (cexp_at (kBO q r l h) (X_BO h l q r))).
Proof.
  unfold U_BO, cexp_at, csinc, l4, kBO, X_BO, akns_A. cbn [a11 a12 a21 a22 madd mscal mone].
  replace (Ci * (Csqrt (q * r - l * l) * h)) with (Ci * Csqrt (q * r - l * l) * h) by ring. f_equal. leq; ring.
Qed.
Definition dBO (q r l h : C) : mat2 :=
  let k := kBO q r l h in let f := (Ccosh k - csinc k) / (k * k) in
  dform (- l * h * h) (csinc k) f (csd k) (csd k) f (X_BO h l q r) (mscal h (M2 (- Ci) 0 0 Ci)).
Lemma U_BO_deriv q r l h : kBO q r l h <> 0 -> U_BO q r l h true = Ret (d16 (cexp_at (kBO q r l h) (X_BO h l q r)) (dBO q r l h)).
Proof.
  intros N. unfold U_BO. cbn [repeat]. cbv beta zeta. cbn [wrs aset bind]. 
  unfold rd, wr. cbn [Nat.add Nat.leb length firstn skipn bind app]. cbn [wrs aset bind].
  unfold d16, dBO, dform, cexp_at, csinc, csd, X_BO, akns_A. cbn [a11 a12 a21 a22 madd mscal mone].
  assert (Nk : Csqrt (q * r - l * l) <> 0) by (intros E; apply N; unfold kBO; rewrite E; ring).
  assert (Nh : h <> 0) by (intros E; apply N; unfold kBO; rewrite E; ring).
  unfold kBO. set (k := Csqrt (q * r - l * l)) in *.
  replace (q * r - l * l) with (k * k) by apply Csqrt_sq. clearbody k.
  replace (Ci * (k * h)) with (Ci * k * h) by ring. replace (Ci * h * k) with (Ci * k * h) by ring.
  set (s := misc_CSINC _). set (g := misc_CSINC_derivative _). set (c := Ccosh _). clearbody s g c.
  f_equal. leq; try ring.
  - replace (- l * h * h * ((c - s) / (k * h * (k * h))) * (h * (- Ci * l))) with (Ci * l * l * h * (c - s) / (k * k)) by (field; auto).
    field. auto.
  - field. auto.
  - field. auto.
  - field. auto.
Qed.
Lemma dBO_approx q r l h : (1 / 100000000 <= Cmod (kBO q r l h))%R -> approx_dexp (fun z => X_BO h z q r) l (dBO q r l h).
Proof.
  intros L. unfold dBO. set (k := kBO q r l h) in *. rewrite <- (csinc_exact k L) || idtac.
  assert (E : (Ccosh k - csinc k) / (k * k) = Fd k) by (unfold Fd; now rewrite csinc_exact).
  rewrite E. apply (approx_dform (fun z => X_BO h z q r) l).
  - unfold X_BO, akns_A. refine (conj _ (conj _ (conj _ _))); cbn [a11 a12 a21 a22 mscal].
    + eapply Cderive_eq; [apply Cderive_scal, Cderive_scal, Cderive_id|ring].
    + eapply Cderive_eq; [apply Cderive_const|ring].
    + eapply Cderive_eq; [apply Cderive_const|ring].
    + eapply Cderive_eq; [apply Cderive_scal, Cderive_scal, Cderive_id|ring].
  - apply kBO_sq.
  - exact L.
  - unfold X_BO, akns_A. cbn [a11 a12 a21 a22 mscal].
    replace (h * 0 * (h * r) + h * q * (h * 0) - h * - Ci * (h * (Ci * l)) - h * (- Ci * l) * (h * Ci)) with (2 * (Ci * Ci) * l * h * h) by ring.
    rewrite Ci_sqr. ring.
  - now left.
  - now right.
  - now right.
  - now left.
Qed.

Definition pauli (a1 a2 a3 : C) : mat2 := M2 a3 (a1 - Ci * a2) (a1 + Ci * a2) (- a3).
Definition kES (a1 a2 a3 : C) : C := - Ci * Csqrt (- (a1 * a1) - a2 * a2 - a3 * a3).
Lemma kES_sq a1 a2 a3 : kES a1 a2 a3 * kES a1 a2 a3 = - mdet (pauli a1 a2 a3).
Proof.
  unfold kES, pauli, mdet. cbn [a11 a12 a21 a22]. set (w := Csqrt _).
  replace (- Ci * w * (- Ci * w)) with (Ci * Ci * (w * w)) by ring. unfold w. rewrite Csqrt_sq.
  replace ((a1 - Ci * a2) * (a1 + Ci * a2)) with (a1 * a1 - Ci * Ci * (a2 * a2)) by ring. rewrite Ci_sqr. ring.
Qed.
Lemma kES_i a1 a2 a3 : Ci * kES a1 a2 a3 = Csqrt (- (a1 * a1) - a2 * a2 - a3 * a3).
Proof. unfold kES. set (w := Csqrt _). replace (Ci * (- Ci * w)) with (- (Ci * Ci) * w) by ring. rewrite Ci_sqr. ring. Qed.
Lemma U_ES4_value a1 a2 a3 x y z : U_ES4 a1 a2 a3 false x y z = Ret (l4 (cexp_at (kES a1 a2 a3) (pauli a1 a2 a3))).
Proof.
  unfold U_ES4, cexp_at, csinc, l4, pauli. cbn [a11 a12 a21 a22 madd mscal mone].
  replace (Ccos (Csqrt (- (a1 * a1) - a2 * a2 - a3 * a3))) with (Ccosh (kES a1 a2 a3)).
  2:{ rewrite Ccos_cosh. rewrite <- kES_i, Cmult_assoc, Ci_sqr. replace (- (1) * kES a1 a2 a3) with (- kES a1 a2 a3) by ring. now rewrite Ccosh_opp. }
  rewrite kES_i. f_equal. leq; ring.
Qed.
Definition dES (a1 a2 a3 t0 t1 t2 : C) : mat2 :=
  let k := kES a1 a2 a3 in dform (a1 * t0 + a2 * t1 + a3 * t2) (csinc k) (csd k) (csd k) (csd k) (csd k) (pauli a1 a2 a3) (pauli t0 t1 t2).
Lemma U_ES4_deriv a1 a2 a3 t0 t1 t2 : kES a1 a2 a3 <> 0 ->
  U_ES4 a1 a2 a3 true t0 t1 t2 = Ret (d16 (cexp_at (kES a1 a2 a3) (pauli a1 a2 a3)) (dES a1 a2 a3 t0 t1 t2)).
Proof.
  intros N. unfold U_ES4. cbn [repeat]. cbv beta zeta. cbn [wrs aset bind].
  unfold rd, wr. cbn [Nat.add Nat.leb length firstn skipn bind app]. cbn [wrs aset bind].
  unfold d16, dES, dform, cexp_at, csinc, csd, pauli. cbn [a11 a12 a21 a22 madd mscal mone]. rewrite !kES_i.
  replace (Ccos (Csqrt (- (a1 * a1) - a2 * a2 - a3 * a3))) with (Ccosh (kES a1 a2 a3)).
  2:{ rewrite Ccos_cosh. rewrite <- kES_i, Cmult_assoc, Ci_sqr. replace (- (1) * kES a1 a2 a3) with (- kES a1 a2 a3) by ring. now rewrite Ccosh_opp. }
  set (c := Ccosh _). clearbody c. unfold kES in *. set (w := Csqrt _) in *.
  assert (Nw : w <> 0) by (intros E; apply N; rewrite E; ring).
  set (s := misc_CSINC _). set (g := misc_CSINC_derivative _). clearbody s g w.
  f_equal. leq; try ring; field; auto using Ci_neq0.
Qed.
Lemma dES_approx (X : C -> mat2) l a1 a2 a3 t0 t1 t2 : X l = pauli a1 a2 a3 -> Mderive X l (pauli t0 t1 t2) ->
  (1 / 100000000 <= Cmod (kES a1 a2 a3))%R -> approx_dexp X l (dES a1 a2 a3 t0 t1 t2).
Proof.
  intros EX HX L. unfold dES. set (k := kES a1 a2 a3) in *. rewrite <- EX. apply (approx_dform X l).
  - exact HX.
  - rewrite EX. apply kES_sq.
  - exact L.
  - rewrite EX. unfold pauli. cbn [a11 a12 a21 a22].
    replace ((t0 - Ci * t1) * (a1 + Ci * a2) + (a1 - Ci * a2) * (t0 + Ci * t1)) with (2 * (t0 * a1) - 2 * (Ci * Ci) * (t1 * a2)) by ring.
    rewrite Ci_sqr. ring.
  - now right.
  - now right.
  - now right.
  - now right.
Qed.
(** the code matrix in terms of modulus of the determinant *)
Lemma det_root_bound k X : k * k = - mdet X -> (1 / 10000000000000000 <= Cmod (mdet X))%R -> (1 / 100000000 <= Cmod k)%R.
Proof.
  intros Hk H. rewrite <- Cmod_opp, (Cmod_root k _ Hk) in H. pose proof (Cmod_ge_0 k).
  destruct (Rle_dec (1 / 100000000) (Cmod k)) as [L|L]; [exact L|]. exfalso. nra.
Qed.
