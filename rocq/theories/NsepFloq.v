(** * The polynomials whose roots fnft_nsep computes are the Floquet discriminant and the entry 12 of the monodromy matrix (C95) *)
From Coq Require Import Reals Lra Lia List ZArith QArith Qreals.
From Coquelicot Require Import Coquelicot.
From Verif Require Import Base Loop Mem Fields ErrModel CExp CField CConj DiscTables DiscModel DiscProps DiscPreProps DiscPreNse PolySpec MatSpec FscatterSpec FscatterModel FscatterProof FscatterProps
  ScatterSpec MatExp ScatterStep ScatterModel ScatterRun ScatterProps ScatterMatProps ScatterNse PolyFmultProof NsevSpec NftSpec NsevFast NsevLib NsevCsTop NsevEnergy KdvFast NsepModel NsepSafe.
Import ListNotations.
Local Close Scope Q_scope.
Local Open Scope C_scope.

(** ** The symmetry a22(lambda) = conj a11(conj lambda) of the product of steps with r = -kappa conj q *)
Section Sym.
Variable kap : R.
Hypothesis Hkap : kap = 1%R \/ kap = (-1)%R.
Let k : C := RtoC kap.
Lemma kk : k * k = 1.
Proof. unfold k. rewrite <- RtoC_mult. f_equal. destruct Hkap as [-> | ->]; ring. Qed.
Lemma kconj : Cconj k = k. Proof. apply Cconj_R. Qed.
Definition mirror (M N : mat2) : Prop := a11 N = Cconj (a22 M) /\ a22 N = Cconj (a11 M) /\ a12 N = - k * Cconj (a21 M) /\ a21 N = - k * Cconj (a12 M).
Lemma mirror_mul M N M' N' : mirror M N -> mirror M' N' -> mirror (mmul M M') (mmul N N').
Proof.
  intros (A & B & F & G) (A' & B' & F' & G'). unfold mirror. cbn [a11 a12 a21 a22 mmul]. rewrite A, B, F, G, A', B', F', G', !Cplus_conj, !Cmult_conj.
  assert (K : forall x y : C, - k * x * (- k * y) = x * y) by (intros x y; transitivity (k * k * (x * y)); [ring|rewrite kk; ring]).
  rewrite !K. repeat split; ring.
Qed.
Lemma mirror_add M N M' N' : mirror M N -> mirror M' N' -> mirror (madd M M') (madd N N').
Proof.
  intros (A & B & F & G) (A' & B' & F' & G'). unfold mirror. cbn [a11 a12 a21 a22 madd]. rewrite A, B, F, G, A', B', F', G', !Cplus_conj. repeat split; ring.
Qed.
Lemma mirror_scal (x : R) M N : mirror M N -> mirror (mscal (RtoC x) M) (mscal (RtoC x) N).
Proof.
  intros (A & B & F & G). unfold mirror. cbn [a11 a12 a21 a22 mscal]. rewrite A, B, F, G, !Cmult_conj, !Cconj_R. repeat split; ring.
Qed.
Lemma mirror_one : mirror mone mone.
Proof. unfold mirror, mone. cbn [a11 a12 a21 a22]. rewrite !Cconj_R. repeat split; ring. Qed.
Lemma mirror_zero : mirror mzero mzero.
Proof. unfold mirror, mzero. cbn [a11 a12 a21 a22]. rewrite !Cconj_R. repeat split; ring. Qed.
Lemma mirror_self M : unitary_like k M -> mirror M M.
Proof.
  unfold unitary_like, mirror. intros [A B]. rewrite A, Cconj_conj. repeat split; [exact B|]. rewrite B, Cmult_conj, Cconj_opp, kconj, Cconj_conj. transitivity (k * k * a21 M); [rewrite kk; ring|ring].
Qed.
Lemma mirror_expA (lam : C) (t : R) : mirror (expA (Cconj lam) t) (expA lam t).
Proof.
  unfold mirror, expA. cbn [a11 a12 a21 a22]. rewrite !Cconj_R, <- !Cexp_conj, !Cmult_conj, Cconj_opp, Cconj_R, Cconj_conj.
  replace (Cconj Ci) with (- Ci) by (apply Ceq; cbn; ring). repeat split; try ring; f_equal; ring.
Qed.
Lemma mirror_descending n M N : (forall i, (i < n)%nat -> mirror (M i) (N i)) -> mirror (descending n M) (descending n N).
Proof. induction n as [|n IH]; intros H; cbn [descending]; [apply mirror_one|]. apply mirror_mul; [apply H; lia|apply IH; intros i Hi; apply H; lia]. Qed.
Lemma mirror_word EA EA' EB EB' w : (forall a, mirror (EA a) (EA' a)) -> (forall a, mirror (EB a) (EB' a)) -> mirror (word_val EA EB w) (word_val EA' EB' w).
Proof.
  intros HA HB. unfold word_val. induction w as [|f w IH]; cbn [fold_right]; [apply mirror_one|]. apply mirror_mul; [|exact IH]. destruct (fst f); auto.
Qed.
Lemma mirror_scheme EA EA' EB EB' s : (forall a, mirror (EA a) (EA' a)) -> (forall a, mirror (EB a) (EB' a)) -> mirror (scheme_val EA EB s) (scheme_val EA' EB' s).
Proof.
  intros HA HB. unfold scheme_val. induction s as [|t s IH]; cbn [fold_right]; [apply mirror_zero|]. apply mirror_add; [|exact IH]. apply mirror_scal. now apply mirror_word.
Qed.
Lemma mirror_expB q r (t : R) : r = - k * Cconj q -> mirror (expB q r (RtoC t)) (expB q r (RtoC t)).
Proof. intros H. apply mirror_self. now apply (sp_expB kap Hkap q r t). Qed.
Lemma mirror_fast d (h : R) (q r lam : C) : is_fast d -> r = - k * Cconj q -> (d = A_2SPLIT2_MODAL -> kap = (-1)%R -> (Rabs h * Cmod q < 1)%R) ->
  mirror (fast_step d h q r (Cconj lam)) (fast_step d h q r lam).
Proof.
  intros Hf Hr Hm.
  assert (G : mirror match scheme_of d with Some s => splitting (Cconj lam) q r h (akns_degree d) s | None => mone end match scheme_of d with Some s => splitting lam q r h (akns_degree d) s | None => mone end).
  { destruct (scheme_of d) as [s|]; [|apply mirror_one]. unfold splitting. apply mirror_scheme; intros a; [apply mirror_expA|now apply mirror_expB]. }
  destruct d; try exact G; cbn [fast_step]; (apply mirror_mul; [apply mirror_expA|apply mirror_mul; [|apply mirror_expA]]).
  - apply mirror_self. apply (sp_modal kap Hkap q r h Hr). now apply Hm.
  - now apply mirror_expB.
Qed.
Lemma mirror_scattering d (eps : R) (q r : nat -> C) n lam : is_fast d -> (forall i, (i < n)%nat -> r i = - k * Cconj (q i)) ->
  (d = A_2SPLIT2_MODAL -> kap = (-1)%R -> forall i, (i < n)%nat -> (Rabs (step_size d eps) * Cmod (q i) < 1)%R) ->
  mirror (scattering d (weights d) eps q r n (Cconj lam)) (scattering d (weights d) eps q r n lam).
Proof.
  intros Hf Hr Hm. pose proof (degree_pos d Hf) as Nd. unfold scattering. destruct (akns_degree d); [contradiction|].
  apply mirror_descending. intros i Hi. apply mirror_fast; auto.
Qed.
End Sym.

(** ** The array that nse_fscatter returns: all four entries *)
Section Fsc.
Variable expo : list C -> Z.
Variables junk0 junk1 junk2 junkp : nat -> list C.
Hypothesis Hj0 : forall n, length (junk0 n) = n.
Hypothesis Hj1 : forall n, length (junk1 n) = n.
Hypothesis Hj2 : forall n, length (junk2 n) = n.
Hypothesis Hjp : forall n, length (junkp n) = n.
Lemma nfscatter_entries norm N (q r res : list C) (eps : R) nd d numel : nse_to_akns nd = Some d -> is_fast d ->
  (2 <= N)%nat -> (Z.of_nat N <= 2147483647)%Z -> (0 < eps)%R -> (N <= length q)%nat -> (N <= length r)%nat ->
  akns_fscatter_numel N d = Ret numel -> (numel <= length res)%nat ->
  (forall j, (j < N)%nat -> fast_exact d (step_size d eps) (nthC q j) (nthC r j)) ->
  let deg := (N * akns_degree d)%nat in
  exists tm W, nse_fscatter expo junk0 junk1 junk2 junkp norm N (Some q) (Some r) eps (Some res) true nd = Ret (SUCCESS, Some deg, Some tm, W)
    /\ length tm = length res /\ (4 * (deg + 1) <= length tm)%nat /\ (norm = false -> W = 0%Z)
    /\ forall lam x y, (x < 2)%nat -> (y < 2)%nat -> let S := scattering d (weights d) eps (nthC q) (nthC r) N lam in
       RtoC (powerRZ 2 W) * peval (K := CF) (firstn (deg + 1) (skipn ((x * 2 + y) * (deg + 1)) tm)) (zmap d eps lam)
       = Cexp (Ci * lam * RtoC (INR N * step_size d eps)) * entry (shifted_of d (step_size d eps) lam S) x y.
Proof.
  intros Hd Hf HN HN2 He Lq Lr Hnum Lres Hx deg.
  set (Ms := fun i => match akns_sample d eps (nth i q (RtoC 0)) (nth i r (RtoC 0)) with Some (Some ls) => ls | _ => ([], [], [], []) end).
  assert (HM : forall i, (i < N)%nat -> akns_sample d eps (nth i q (RtoC 0)) (nth i r (RtoC 0)) = Some (Some (Ms i)) /\ forall lam,
     poly_mat (Ms i) (zmap d eps lam) = mscal (Cexp (Ci * lam * RtoC (step_size d eps))) (raw_step d (step_size d eps) (nthC q i) (nthC r i) lam)).
  { intros i Hi. destruct (fast_sample d eps (nthC q i) (nthC r i) Hf (Hx i Hi)) as (ls & El & E). unfold nthC in El. unfold Ms. rewrite El. split; [reflexivity|exact E]. }
  pose proof (degree_pos d Hf) as Nd.
  destruct (akns_fscatter_product expo junk0 junk1 junk2 junkp Hj0 Hj1 Hj2 Hjp norm N q r res eps d numel Ms HN HN2 He Nd Lq Lr Hnum Lres (fun i Hi => proj1 (HM i Hi)))
    as (tm & W & E & Lt & HW & Hprod).
  exists tm, W. split. { eapply nse_fscatter_is_akns; try eassumption; lia. }
  split; [exact Lt|]. split.
  { rewrite Lt. unfold akns_fscatter_numel in Hnum. destruct (Nat.eqb_spec (akns_degree d) 0) as [Ez|_]; [contradiction|].
    destruct (poly_fmult_numel_value 4 (akns_degree d) N ltac:(lia) ltac:(lia)) as (k & Ek & Hk & _).
    assert (Hn : numel = (4 * (akns_degree d + 1) * 2 ^ k)%nat) by congruence. unfold deg. nia. }
  split; [exact HW|]. intros lam x y Hx2 Hy2 S.
  assert (ED : descending N (fun i => poly_mat (Ms i) (zmap d eps lam))
             = mscal (Cexp (Ci * lam * RtoC (INR N * step_size d eps))) (descending N (fun j => raw_step d (step_size d eps) (nthC q j) (nthC r j) lam))).
  { rewrite (descending_ext N _ (fun j => mscal (Cexp (Ci * lam * RtoC (step_size d eps))) (raw_step d (step_size d eps) (nthC q j) (nthC r j) lam))) by (intros j Hj; apply HM; exact Hj).
    rewrite descending_scal, Cexp_pown. f_equal. f_equal. rewrite RtoC_mult. ring. }
  assert (ES : S = descending N (fun j => fast_step d (step_size d eps) (nthC q j) (nthC r j) lam)).
  { unfold S, scattering. destruct (akns_degree d); [contradiction|reflexivity]. }
  rewrite (raw_shifted d (step_size d eps) (nthC q) (nthC r) N lam Hf ltac:(lia)) in ED. rewrite <- ES in ED.
  pose proof (Hprod (zmap d eps lam) x y Hx2 Hy2) as Q. rewrite ED, zpow_powerRZ in Q.
  assert (EM : forall c X, entry (mscal c X) x y = c * entry X x y) by (intros c X; destruct x as [|[|]], y as [|[|]]; try lia; reflexivity).
  rewrite EM in Q. exact Q.
Qed.
End Fsc.
Lemma shifted_diag d (h : R) lam S : a11 (shifted_of d h lam S) = a11 S /\ a22 (shifted_of d h lam S) = a22 S /\
  a12 (shifted_of d h lam S) = (if half_shifted d then Cexp (Ci * lam * RtoC h) else RtoC 1) * a12 S.
Proof.
  unfold shifted_of. destruct (half_shifted d); [|repeat split; ring]. unfold expA. cbn [a11 a12 a21 a22 mmul].
  set (x := Cexp (- Ci * lam * RtoC (- (h / 2)))). set (y := Cexp (- Ci * lam * RtoC (h / 2))). set (u := Cexp (Ci * lam * RtoC (- (h / 2)))). set (v := Cexp (Ci * lam * RtoC (h / 2))).
  assert (X1 : x * y = 1) by (unfold x, y; rewrite <- Cexp_plus, <- Cexp_0; f_equal; rewrite RtoC_opp; ring).
  assert (X2 : u * v = 1) by (unfold u, v; rewrite <- Cexp_plus, <- Cexp_0; f_equal; rewrite RtoC_opp; ring).
  assert (X3 : x * v = Cexp (Ci * lam * RtoC h)).
  { unfold x, v. rewrite <- Cexp_plus. f_equal. replace (RtoC h) with (RtoC (h / 2) + RtoC (h / 2)) by (rewrite <- RtoC_plus; f_equal; field). rewrite RtoC_opp. ring. }
  split; [|split].
  - transitivity (a11 S * (x * y)); [ring|rewrite X1; ring].
  - transitivity (a22 S * (u * v)); [ring|rewrite X2; ring].
  - rewrite <- X3. ring.
Qed.

(** ** The trace polynomial *)
Lemma trace_poly_value deg tm : (deg + 1 <= length tm)%nat -> exists p, trace_poly deg tm = Ret p /\ length p = (deg + 1)%nat /\
  forall i, (i <= deg)%nat -> nth i p 0 = nth i tm 0 + Cconj (nth (deg - i) tm 0).
Proof.
  intros H. unfold trace_poly.
  match goal with |- exists p, for_ ?n ?lo ?f ?s = _ /\ _ => destruct (for_inv (fun i (p : list C) => length p = i /\ forall j, (j < i)%nat -> nth j p 0 = nth j tm 0 + Cconj (nth (deg - j) tm 0)) f n lo s) as (p & E & L & V) end.
  - split; [reflexivity|]. intros j Hj. lia.
  - intros i p Hi [L V]. rewrite (aget_nth tm (RtoC 0) i) by lia. cbn [bind]. rewrite (aget_nth tm (RtoC 0) (deg - i)) by lia. cbn [bind].
    eexists. split; [reflexivity|]. split; [rewrite app_length; cbn; lia|]. intros j Hj. destruct (Nat.eq_dec j i) as [->|N].
    + rewrite app_nth2 by lia. replace (i - length p)%nat with O by lia. reflexivity.
    + rewrite app_nth1 by lia. apply V. lia.
  - exists p. split; [exact E|]. split; [lia|]. intros i Hi. apply V. lia.
Qed.
Ltac toC := match goal with |- @eq _ ?a ?b => change (@eq C a b) end.
Definition zpoly (deg : nat) (f : nat -> C) (z : C) : C := fsum (K := CF) (deg + 1) (fun i => f i * fpow (K := CF) z (deg - i)).
Lemma peval_zpoly deg (p : list C) (z : C) : length p = (deg + 1)%nat -> peval (K := CF) p z = zpoly deg (fun i => nth i p 0) z.
Proof.
  intros L. unfold peval, zpoly. change (@length (car CF) p) with (@length C p). rewrite L. apply (fsum_ext (K := CF)). intros i Hi.
  replace (deg + 1 - 1 - i)%nat with (deg - i)%nat by lia. reflexivity.
Qed.
Lemma fpow_conj (z : C) n : Cconj (fpow (K := CF) z n) = fpow (K := CF) (Cconj z) n.
Proof. induction n as [|n IH]; [apply Cconj_R|]. cbn [fpow]. change (@fmul CF) with Cmult. now rewrite Cmult_conj, IH. Qed.
(** sum_i conj(f (deg-i)) z^(deg-i) = z^deg conj(P(w)) for conj w = 1/z *)
Lemma zpoly_reversed deg (f : nat -> C) (z w : C) : Cconj w * z = 1 ->
  zpoly deg (fun i => Cconj (f (deg - i)%nat)) z = fpow (K := CF) z deg * Cconj (zpoly deg f w).
Proof.
  intros H. unfold zpoly. rewrite ResampleProof.fsum_conj. rewrite (fsum_rev (K := CF)).
  transitivity (fsum (K := CF) (deg + 1) (fun i => @fmul CF (fpow (K := CF) z deg) (Cconj (f i * fpow (K := CF) w (deg - i))))); [|apply (fsum_scal (K := CF))].
  apply (fsum_ext (K := CF)). intros i Hi. toC.
  replace (deg - (deg + 1 - 1 - i))%nat with i by lia. rewrite Cmult_conj, fpow_conj.
  assert (E : fpow (K := CF) z deg = fpow (K := CF) z (deg - i) * fpow (K := CF) z i).
  { change Cmult with (@fmul CF). rewrite <- (fpow_add (K := CF)). f_equal. lia. }
  change (@fmul CF) with Cmult. rewrite E.
  assert (E1 : fpow (K := CF) (Cconj w) (deg - i) * fpow (K := CF) z (deg - i) = 1).
  { change Cmult with (@fmul CF). rewrite <- (fpow_mul_base (K := CF)). change (@fmul CF) with Cmult. rewrite H. apply (fpow_one (K := CF)). }
  transitivity (Cconj (f i) * fpow (K := CF) z i * (fpow (K := CF) (Cconj w) (deg - i) * fpow (K := CF) z (deg - i))); [rewrite E1; ring|ring].
Qed.
Lemma zpoly_add deg f g z : zpoly deg (fun i => f i + g i) z = zpoly deg f z + zpoly deg g z.
Proof.
  unfold zpoly. change Cplus with (@fadd CF). rewrite <- (fsum_add (K := CF)). apply (fsum_ext (K := CF)). intros i Hi. change (@fadd CF) with Cplus. toC. ring.
Qed.
Lemma zpoly_ext deg f g z : (forall i, (i <= deg)%nat -> f i = g i) -> zpoly deg f z = zpoly deg g z.
Proof. intros H. apply (fsum_ext (K := CF)). intros i Hi. rewrite H by lia. reflexivity. Qed.
Lemma zpoly_single deg m (c z : C) : (m <= deg)%nat -> zpoly deg (fun i => if Nat.eqb i m then c else 0) z = c * fpow (K := CF) z (deg - m).
Proof.
  intros H. unfold zpoly. rewrite (fsum_single (K := CF) (deg + 1) m _ ltac:(lia)).
  - now rewrite Nat.eqb_refl.
  - intros i Hi Hn. destruct (Nat.eqb_spec i m); [lia|]. change (RtoC 0 * fpow (K := CF) z (deg - i) = RtoC 0). ring.
Qed.
(** ** Evaluation of the trace polynomial *)
Lemma Cconj_Ci : Cconj Ci = - Ci.
Proof. apply Ceq; cbn; ring. Qed.
Lemma zmap_rew d eps lam : akns_degree d <> O -> akns_upsampling_factor d <> O ->
  zmap d eps lam = Cexp (2 * Ci * lam * RtoC (eps / (INR (akns_degree d) * INR (akns_upsampling_factor d)))).
Proof.
  intros A B. unfold zmap. f_equal. assert (H : (INR (akns_degree d) * INR (akns_upsampling_factor d))%R <> 0%R) by (apply Rmult_integral_contrapositive_currified; now apply not_0_INR).
  rewrite RtoC_div by exact H. field. intros H0. apply RtoC_inj in H0. contradiction.
Qed.
Lemma zmap_mirror d eps lam : akns_degree d <> O -> akns_upsampling_factor d <> O -> Cconj (zmap d eps (Cconj lam)) * zmap d eps lam = 1.
Proof.
  intros A B. rewrite !zmap_rew by assumption. rewrite <- Cexp_conj, <- Cexp_plus, <- Cexp_0. f_equal.
  rewrite !Cmult_conj, !Cconj_R, Cconj_conj, Cconj_Ci. ring.
Qed.
Lemma Cexp_fpow (x : C) n : fpow (K := CF) (Cexp x) n = Cexp (RtoC (INR n) * x).
Proof.
  induction n as [|n IH]; [cbn [fpow INR]; rewrite Cmult_0_l, Cexp_0; reflexivity|]. cbn [fpow]. rewrite IH. change (@fmul CF) with Cmult. rewrite <- Cexp_plus. f_equal.
  rewrite S_INR, RtoC_plus. ring.
Qed.
Lemma zmap_half d eps lam N m : akns_degree d <> O -> akns_upsampling_factor d <> O -> (N * akns_degree d = 2 * m)%nat ->
  fpow (K := CF) (zmap d eps lam) m = Cexp (Ci * lam * RtoC (INR N * step_size d eps)).
Proof.
  intros A B E. rewrite zmap_rew by assumption. rewrite Cexp_fpow. f_equal.
  assert (E2 : (INR N * INR (akns_degree d) = 2 * INR m)%R) by (rewrite <- mult_INR, E, mult_INR; reflexivity).
  assert (E3 : (INR m * (eps / (INR (akns_degree d) * INR (akns_upsampling_factor d))) * 2 = INR N * step_size d eps)%R).
  { unfold step_size. apply not_0_INR in A, B. transitivity (2 * INR m * eps / (INR (akns_degree d) * INR (akns_upsampling_factor d)))%R; [field; auto|]. rewrite <- E2. field; auto. }
  rewrite <- E3, !RtoC_mult. ring.
Qed.
Section Trace.
Variables (kap : R) (d : akns_disc) (eps : R) (q r : nat -> C) (N : nat).
Hypothesis Hkap : kap = 1%R \/ kap = (-1)%R.
Hypothesis Hf : is_fast d.
Hypothesis Hu : akns_upsampling_factor d <> O.
Hypothesis Hr : forall i, (i < N)%nat -> r i = - RtoC kap * Cconj (q i).
Hypothesis Hm : d = A_2SPLIT2_MODAL -> kap = (-1)%R -> forall i, (i < N)%nat -> (Rabs (step_size d eps) * Cmod (q i) < 1)%R.
Let S lam := scattering d (weights d) eps q r N lam.
Let X lam := Cexp (Ci * lam * RtoC (INR N * step_size d eps)).
Let deg := (N * akns_degree d)%nat.
Lemma trace_value (W : Z) (tm p : list C) (c lam : C) m : (deg = 2 * m)%nat -> (deg + 1 <= length tm)%nat -> length p = (deg + 1)%nat ->
  (forall lam, RtoC (powerRZ 2 W) * peval (K := CF) (firstn (deg + 1) tm) (zmap d eps lam) = X lam * a11 (S lam)) ->
  (forall i, (i <= deg)%nat -> nth i p 0 = nth i tm 0 + Cconj (nth (deg - i) tm 0) + (if Nat.eqb i m then c * RtoC (powerRZ 2 (- W)) else 0)) ->
  RtoC (powerRZ 2 W) * peval (K := CF) p (zmap d eps lam) = X lam * (a11 (S lam) + a22 (S lam) + c).
Proof.
  intros Em Lt Lp HP Hp. pose proof (degree_pos d Hf) as Nd.
  set (z := zmap d eps lam). rewrite (peval_zpoly deg p z Lp). rewrite (zpoly_ext deg _ _ z Hp).
  rewrite (zpoly_add deg (fun i => nth i tm 0 + Cconj (nth (deg - i) tm 0)) (fun i => if Nat.eqb i m then c * RtoC (powerRZ 2 (- W)) else 0)).
  rewrite (zpoly_add deg (fun i => nth i tm 0) (fun i => Cconj (nth (deg - i) tm 0))).
  rewrite zpoly_single by lia. rewrite (zpoly_reversed deg (fun i => nth i tm 0) z (zmap d eps (Cconj lam))) by (apply zmap_mirror; assumption).
  assert (HZ : forall l, RtoC (powerRZ 2 W) * zpoly deg (fun i => nth i tm 0) (zmap d eps l) = X l * a11 (S l)).
  { intros l. rewrite <- HP. f_equal. rewrite (peval_zpoly deg) by (rewrite firstn_length; lia). apply zpoly_ext. intros i Hi. symmetry. apply nth_firstn. lia. }
  pose proof (HZ lam) as Z1. pose proof (HZ (Cconj lam)) as Z2. clear HZ. fold z in Z1.
  apply (f_equal Cconj) in Z2. rewrite !Cmult_conj, Cconj_R in Z2.
  replace (deg - m)%nat with m by lia.
  assert (E1 : fpow (K := CF) z m = X lam) by (unfold z, X; apply zmap_half; assumption).
  assert (E2 : fpow (K := CF) z deg = X lam * X lam).
  { replace deg with (m + m)%nat by lia. rewrite (fpow_add (K := CF)), E1. reflexivity. }
  rewrite E1, E2.
  destruct (mirror_scattering kap Hkap d eps q r N lam Hf Hr Hm) as (_ & M22 & _). fold (S lam) (S (Cconj lam)) in M22. rewrite <- M22 in Z2.
  assert (E3 : X lam * Cconj (X (Cconj lam)) = 1).
  { unfold X. rewrite <- Cexp_conj, <- Cexp_plus, <- Cexp_0. f_equal. rewrite !Cmult_conj, Cconj_R, Cconj_conj, Cconj_Ci. ring. }
  assert (E4 : RtoC (powerRZ 2 W) * RtoC (powerRZ 2 (- W)) = 1).
  { rewrite <- RtoC_mult. f_equal. rewrite <- powerRZ_add by lra. rewrite Z.add_opp_diag_r. reflexivity. }
  transitivity (RtoC (powerRZ 2 W) * zpoly deg (fun i => nth i tm 0) z + X lam * X lam * (RtoC (powerRZ 2 W) * Cconj (zpoly deg (fun i => nth i tm 0) (zmap d eps (Cconj lam))))
      + (RtoC (powerRZ 2 W) * RtoC (powerRZ 2 (- W))) * (c * X lam)); [ring|]. rewrite Z1, Z2, E4.
  transitivity (X lam * a11 (S lam) + X lam * (X lam * Cconj (X (Cconj lam))) * a22 (S lam) + c * X lam); [ring|]. rewrite E3. ring.
Qed.
End Trace.
