(** * fnft_nsev_inverse undoes fnft_nsev (C89): the values b(xi) computed by the forward transform give back the samples *)
From Coq Require Import Reals ZArith List Lia Lra Qreals.
From Coquelicot Require Import Coquelicot.
From Verif Require Import Base Loop Series Fields CField CConj CExp ErrModel DiscTables DiscModel DiscProps DiscPreProps FscatterSpec FscatterProof FscatterProps FinvModel FinvAlg FinvMult FinvRun FinvProof FinvTop FinvProps InvSpec InvCsSpec InvCsAlg InvModel InvGrid InvPeel InvPeelTop InvCs InvCsTop InvCsB
  CMean Mem MatExp ScatterSpec ScatterStep ScatterProof ScatterLoop ScatterMatProps NsevModel NsevSpec NftSpec NsevLib NsevCsTop ScatterRun NsevEnv NsevCsEx InvCsEx.
Import ListNotations.
Local Open Scope C_scope.

Definition akns_of (s : scheme) : akns_disc := match s with Split2A => A_2SPLIT2A | Modal => A_2SPLIT2_MODAL end.
(** the constant factor of a sample *)
Definition sconst (s : scheme) (kappa h : R) (q : C) : mat2 :=
  let r := - RtoC kappa * Cconj q in
  match s with Split2A => expB q r (RtoC h) | Modal => modal h q r end.
Lemma sample_const s kappa h q z : sample s kappa h q z = mmul (sconst s kappa h q) (M2 1 0 0 z).
Proof. destruct s; cbn [sample sconst]; [reflexivity|]. unfold modal. set (w := 1 / Csqrt _). mring. Qed.
Lemma fast_step_eq s kappa h q lam : fast_step (akns_of s) h q (- RtoC kappa * Cconj q) lam = mmul (expA lam (h / 2)) (mmul (sconst s kappa h q) (expA lam (h / 2))).
Proof. destruct s; reflexivity. Qed.
Lemma half_inv (w : C) (h : R) : Cexp (w * RtoC (h / 2)) * Cexp (w * RtoC (- h / 2)) = 1.
Proof. rewrite <- Cexp_plus, <- Cexp_0. f_equal. rewrite <- Cmult_plus_distr_l, <- RtoC_plus. replace (h / 2 + - h / 2)%R with 0%R by field. ring. Qed.
Lemma half_sq (w : C) (h : R) : Cexp (w * RtoC (h / 2)) * Cexp (w * RtoC (h / 2)) = Cexp (w * RtoC h).
Proof. rewrite <- Cexp_plus. f_equal. rewrite <- Cmult_plus_distr_l, <- RtoC_plus. now replace (h / 2 + h / 2)%R with h by field. Qed.
(** the step matrices of the forward transform and the transfer matrix of the inverse one *)
Lemma steps_transfer s kappa h (q : nat -> C) lam n :
  descending n (fun j => fast_step (akns_of s) h (q j) (- RtoC kappa * Cconj (q j)) lam) =
  mscal (Cexp (- Ci * lam * RtoC h * RtoC (INR n))) (mmul (expA lam (h / 2)) (mmul (transfer s kappa h q n (Cexp (2 * Ci * lam * RtoC h))) (expA lam (- h / 2)))).
Proof.
  induction n as [|n IH].
  - cbn [descending transfer INR]. rewrite Cmult_0_r, Cexp_0. unfold expA. apply mat2_eq; unfold mscal, mmul, mone; cbn [a11 a12 a21 a22]; try ring.
    + symmetry. transitivity (Cexp (- Ci * lam * RtoC (h / 2)) * Cexp (- Ci * lam * RtoC (- h / 2))); [ring|apply half_inv].
    + symmetry. transitivity (Cexp (Ci * lam * RtoC (h / 2)) * Cexp (Ci * lam * RtoC (- h / 2))); [ring|apply half_inv].
  - cbn [descending transfer]. rewrite IH, fast_step_eq, sample_const.
    set (T := transfer s kappa h q n _). set (X := sconst s kappa h (q n)). set (z := Cexp (2 * Ci * lam * RtoC h)).
    assert (Hh : mmul (expA lam (h / 2)) (expA lam (h / 2)) = mscal (Cexp (- Ci * lam * RtoC h)) (M2 1 0 0 z)).
    { unfold expA, z. apply mat2_eq; unfold mmul, mscal; cbn [a11 a12 a21 a22]; try ring.
      - rewrite <- (half_sq (- Ci * lam) h). ring.
      - transitivity (Cexp (Ci * lam * RtoC h)); [rewrite <- (half_sq (Ci * lam) h); ring|]. rewrite <- Cexp_plus. f_equal. ring. }
    rewrite S_INR, RtoC_plus. replace (- Ci * lam * RtoC h * (RtoC (INR n) + RtoC 1)) with (- Ci * lam * RtoC h + - Ci * lam * RtoC h * RtoC (INR n)) by ring. rewrite Cexp_plus.
    set (c := Cexp (- Ci * lam * RtoC h)) in *. set (cn := Cexp (- Ci * lam * RtoC h * RtoC (INR n))). set (A := expA lam (h / 2)) in *. set (B := expA lam (- h / 2)).
    transitivity (mscal cn (mmul A (mmul X (mmul (mmul A A) (mmul T B))))); [clear; clearbody A B X T cn; mring|]. rewrite Hh. clear. clearbody A B X T cn c z. mring.
Qed.

Lemma ladd_length a : forall b, length (ladd a b) = Nat.max (length a) (length b).
Proof. induction a as [|x a IH]; intros [|y b]; cbn [ladd length]; try lia. now rewrite IH. Qed.
(** the first column of the transfer matrix of n+1 samples: two polynomials of degree n *)
Lemma column_poly s kappa h (q : nat -> C) n : exists P1 P2, length P1 = S n /\ length P2 = S n /\
  forall z, a11 (transfer s kappa h q (S n) z) = polyval P1 z /\ a21 (transfer s kappa h q (S n) z) = polyval P2 z.
Proof.
  induction n as [|n (P1 & P2 & L1 & L2 & IH)].
  - exists [a11 (sconst s kappa h (q 0%nat))], [a21 (sconst s kappa h (q 0%nat))]. repeat split; cbn [transfer]; rewrite sample_const; set (X := sconst _ _ _ _); unfold mmul, mone; cbn [a11 a12 a21 a22 polyval fold_right]; ring.
  - set (X := sconst s kappa h (q (S n))).
    set (lin := fun u v : C => ladd (map (Cmult u) P1) (RtoC 0 :: map (Cmult v) P2)).
    assert (Ls : forall (l : list C) w z, polyval (map (Cmult w) l) z = w * polyval l z).
    { intros l w z. induction l as [|x l IHl]; cbn [map]; [rewrite !polyval_nil; ring|]. rewrite !polyval_cons, IHl. ring. }
    assert (Ll : forall u v, length (lin u v) = S (S n)).
    { intros u v. unfold lin. rewrite ladd_length. cbn [length]. rewrite !map_length. lia. }
    assert (Lv : forall u v z, polyval (lin u v) z = u * polyval P1 z + v * (z * polyval P2 z)).
    { intros u v z. unfold lin. rewrite polyval_ladd, polyval_cons, !Ls. ring. }
    exists (lin (a11 X) (a12 X)), (lin (a21 X) (a22 X)). split; [apply Ll|]. split; [apply Ll|]. intros z. rewrite !Lv. destruct (IH z) as [<- <-].
    change (transfer s kappa h q (S (S n)) z) with (mmul (sample s kappa h (q (S n)) z) (transfer s kappa h q (S n) z)).
    rewrite sample_const. fold X. set (T := transfer s kappa h q (S n) z). clearbody X T. unfold mmul. cbn [a11 a12 a21 a22]. split; ring.
Qed.
(** the polynomial a does not vanish at z = 0 *)
Lemma column_start s kappa h (q : nat -> C) n : exact_scheme s kappa -> (0 < h)%R -> (forall j, (j < n)%nat -> in_range s (IZR kappa) h (q j)) ->
  a11 (transfer s (IZR kappa) h q n 0) <> 0.
Proof.
  intros Hs Hh Hr. induction n as [|n IH]; [cbn; intros E; injection E as E; lra|]. cbn [transfer]. rewrite (sample_eq s kappa h q 0 n Hs Hh) by (apply Hr; lia).
  unfold sample_mat, mscal, mmul. cbn [a11 a12 a21 a22].
  assert (N := s_c_n0 s kappa h (q n) Hs Hh ltac:(apply Hr; lia)). assert (N2 := IH ltac:(intros; apply Hr; lia)). set (T := transfer _ _ _ _ _ _) in *. set (c := s_c _ _ _ _) in *.
  match goal with |- ?x <> _ => replace x with (c * a11 T) by ring end. now apply Cmult_neq_0.
Qed.
Lemma polyval_pad P n z : polyval (P ++ repeat (RtoC 0) n) z = polyval P z.
Proof.
  induction P as [|x P IH]; cbn [app]; [|now rewrite !polyval_cons, IH]. induction n as [|n IH]; cbn [repeat]; [reflexivity|]. rewrite polyval_cons, IH, polyval_nil. ring.
Qed.

(** what fnft_nsev puts into the second half of contspec: the polynomial b at the nodes, times the phase *)
Lemma b_target s (kappa : Z) T D (q : nat -> C) (xi : R) : (2 <= D)%nat -> let eps := spacing T D in
  let S := scattering (akns_of s) (weights (akns_of s)) eps q (fun j => - RtoC (IZR kappa) * Cconj (q j)) D (RtoC xi) in
  nft_b_of S T eps (RtoC xi) * Cexp (2 * Ci * RtoC xi * RtoC (snd T)) = a21 (transfer s (IZR kappa) eps q D (Cexp (2 * Ci * RtoC xi * RtoC eps))).
Proof.
  intros HD eps S. unfold nft_b_of. assert (ES : S = descending D (fun j => fast_step (akns_of s) eps (q j) (- RtoC (IZR kappa) * Cconj (q j)) (RtoC xi))).
  { unfold S, scattering. destruct s; cbn [akns_of akns_degree akns_upsampling_factor INR]; now replace (eps / 1)%R with eps by field. }
  rewrite ES, steps_transfer. set (Tr := transfer _ _ _ _ _ _). unfold mscal, mmul, expA. cbn [a11 a12 a21 a22].
  set (x := RtoC xi).
  assert (Ed : (INR (D - 1) * eps = snd T - fst T)%R) by (unfold eps, spacing; field; apply not_0_INR; lia).
  rewrite minus_INR in Ed by lia. cbn [INR] in Ed.
  transitivity (a21 Tr * (Cexp (- Ci * x * RtoC eps * RtoC (INR D)) * Cexp (Ci * x * RtoC (eps / 2)) * Cexp (- Ci * x * RtoC (- eps / 2)) * Cexp (- Ci * x * RtoC (fst T - eps / 2)) * Cexp (- Ci * x * RtoC (snd T + eps / 2)) * Cexp (2 * Ci * x * RtoC (snd T)))); [ring|].
  rewrite <- !Cexp_plus. match goal with |- _ * Cexp ?w = _ => replace w with (RtoC 0) end; [rewrite Cexp_0; ring|].
  transitivity (Ci * x * RtoC (snd T - fst T - (INR D - 1) * eps)).
  - rewrite <- Ed. replace ((INR D - 1) * eps - (INR D - 1) * eps)%R with 0%R by ring. ring.
  - unfold Rdiv. repeat first [rewrite RtoC_plus|rewrite RtoC_minus|rewrite RtoC_mult|rewrite RtoC_opp]. rewrite !RtoC_inv by lra. field.
Qed.

(** the code's sinc is exact at these samples (2SPLIT2A only) *)
Definition not_tiny (s : scheme) (eps : R) (q : C) : Prop := s = Split2A -> q = 0 \/ (1 / 100000000 <= eps * Cmod q)%R.
Lemma fast_exact_ok s (kappa : Z) (eps : R) (q : C) : (0 < eps)%R -> exact_scheme s kappa -> not_tiny s eps q -> in_range s (IZR kappa) eps q ->
  fast_exact (akns_of s) eps q (- RtoC (IZR kappa) * Cconj q).
Proof.
  intros He Hs Ht Hr. destruct s; cbn [akns_of fast_exact exact_scheme in_range] in *.
  - subst kappa. intros s t f Es It If Ef. injection Es as <-. destruct It as [<-|[]]. cbn [snd] in If. destruct If as [<-|[<-|[]]]; [|discriminate Ef]. cbn [snd akns_degree INR].
    replace (Q2R (QArith_base.Qmake 1 1)) with 1%R by (unfold Q2R; cbn; field). replace (1 * (eps / 1))%R with eps by field. cbv zeta.
    assert (Em : Cmod (RtoC eps * Csqrt (- q * (- RtoC 1 * Cconj q))) = (eps * Cmod q)%R).
    { rewrite Cmod_mult, Cmod_R, Rabs_pos_eq by lra. f_equal. apply Rsqr_inj; [apply Cmod_ge_0|apply Cmod_ge_0|]. unfold Rsqr. rewrite <- Cmod_mult, Csqrt_sq.
      rewrite !Cmod_mult, !Cmod_opp, Cmod_R, Rabs_R1, Cmod_conj. ring. }
    destruct (Ht eq_refl) as [E|G]; [left|right; rewrite Em; exact G]. apply Cmod_eq_0. rewrite Em, E, Cmod_0. ring.
  - intros E. apply Hr. assert (E2 : RtoC (1 + IZR kappa * (eps * Cmod q) ^ 2) = 1 - RtoC eps * q * (RtoC eps * (- RtoC (IZR kappa) * Cconj q))).
    { replace (RtoC eps * q * (RtoC eps * (- RtoC (IZR kappa) * Cconj q))) with (- RtoC (IZR kappa) * RtoC eps * RtoC eps * (q * Cconj q)) by ring. rewrite mul_conj.
      replace ((eps * Cmod q) ^ 2)%R with (eps * eps * (Cmod q * Cmod q))%R by ring. rewrite !RtoC_plus, !RtoC_mult. ring. }
    rewrite E in E2. apply RtoC_inj. rewrite E2. ring.
Qed.

(** ** The theorem.  D = 2^p samples, M = 2m >= D frequencies on the grid X of fnft_nsev_inverse_XI.  The forward transform
   is called with contspec type AB; the second half of its result is given to the inverse transform as b(xi).  If the
   spectral factorization of the inverse transform is exact for this signal (it returns the polynomial a when it is given
   the polynomial b), the inverse transform returns the samples. *)
Theorem nsev_roundtrip L E s p m T XI0 X kappa (q : list C) user dflt o u cs oi (q0 : list C) :
  let D := (2 ^ p)%nat in let M := (2 * m)%nat in let eps := spacing T D in
  lib_ok L -> well E -> runs_finvscatter E ->
  (1 <= p)%nat -> (D <= M)%nat -> (Z.of_nat D <= 2147483647)%Z -> (fst T < snd T)%R -> exact_scheme s kappa ->
  length q = D -> (forall n, (n < D)%nat -> in_range s (IZR kappa) eps (nth n q 0) /\ not_tiny s eps (nth n q 0)) ->
  fnft_nsev_inverse_XI D (Some T) M (Some XI0) (disc_of s) = Ret (SUCCESS, Some X) ->
  (* the forward call *)
  (match user with Some o => o | None => dflt end) = o -> discretization o = disc_of s -> contspec_type o = CS_AB -> richardson_extrapolation_flag o <> 1%nat ->
  u_bs u = None -> u_cs u = Some cs -> (2 * M <= length cs)%nat ->
  (* the inverse call *)
  i_disc oi = disc_of s -> i_cs oi = IC_B_OF_XI -> length q0 = D ->
  (forall cb, length cb = (D + 1)%nat -> (forall z, polyval (rev cb) z = a21 (transfer s (IZR kappa) eps (fun n => nth n q 0) D z)) ->
     exists ca, ie_specfact E 1 D cb (i_os oi) kappa = Ret (SUCCESS, ca) /\ length ca = (D + 1)%nat /\
       forall z, polyval (rev ca) z = a11 (transfer s (IZR kappa) eps (fun n => nth n q 0) D z)) ->
  exists u' user' dflt' cs', fnft_nsev (lib_env L) D (Some q) (Some T) M (Some X) kappa user dflt u = Ret (SUCCESS, u', user', dflt') /\ u_cs u' = Some cs' /\
  exists b', fnft_nsev_inverse E M (Some (firstn M (skipn M cs'))) (Some X) 0 None None D (Some q0) (Some T) kappa (Some oi) = Ret (SUCCESS, (Some b', Some q)).
Proof.
  intros D M eps HL HE HF Hp HM H31 HT Hs Lq Hq HXI Eo Ed Ec Hr Ebs Ecs Lcs Eid Eic Lq0 Hspec.
  assert (HD : (2 <= D)%nat) by (unfold D; change 2%nat with (2 ^ 1)%nat at 1; apply Nat.pow_le_mono_r; lia).
  assert (Hk : kappa = 1%Z \/ kappa = (-1)%Z) by (destruct s; cbn in Hs; tauto).
  assert (He : (0 < eps)%R) by (apply spacing_pos; assumption).
  assert (HX : (fst X < snd X)%R).
  { destruct (inverse_XI_grid D m T (disc_of s) (akns_of s) HD HT ltac:(lia) ltac:(destruct s; reflexivity) ltac:(destruct s; discriminate) ltac:(destruct s; discriminate) XI0) as (XI' & EX & Hlt & _).
    fold M in EX. rewrite HXI in EX. injection EX as <-. exact Hlt. }
  assert (V : nsev_valid D (Some q) (Some T) (Some X) kappa o u).
  { constructor; try discriminate; try assumption.
    - destruct T as [t0 t1]. exists t0, t1. split; [reflexivity|exact HT].
    - intros _. destruct X as [t0 t1]. exists t0, t1. split; [reflexivity|exact HX].
    - congruence.
    - rewrite Ed. destruct s; discriminate.
    - rewrite Ebs. intros _ _ H. now contradiction H. }
  assert (Eak : nse_to_akns (disc_of s) = Some (akns_of s)) by (destruct s; reflexivity).
  assert (Eup : akns_upsampling_factor (akns_of s) = 1%nat) by (destruct s; reflexivity).
  destruct (nsev_contspec_is_discrete_nft L HL D q T M X kappa user dflt u cs (akns_of s)) as (pr & Ep & Hpl & Hmain); try (rewrite Eo); try assumption; try lia; try (rewrite Ec; exact Lcs); try (rewrite Ec; discriminate); try (now rewrite Ed); try (now right); try (rewrite Eup; now rewrite Nat.mul_1_r).
  rewrite Eo in Hmain. destruct (Hpl Eup) as [Eq Er]. rewrite Eq, Er, Eup, Nat.mul_1_r in Hmain. cbv zeta in Hmain. fold eps in Hmain.
  set (r := map (nse_r_from_q kappa) q) in *.
  assert (Nr : forall j, (j < D)%nat -> nthC r j = - RtoC (IZR kappa) * Cconj (nth j q 0)).
  { intros j Hj. unfold nthC, r. rewrite nth_indep with (d' := nse_r_from_q kappa 0) by (rewrite map_length; lia). rewrite map_nth.
    unfold nse_r_from_q. destruct Hk as [-> | ->]; cbn [Z.eqb Pos.eqb]; apply Ceq; cbn; ring. }
  set (qf := fun n => nth n q (RtoC 0)) in *.
  assert (ES : forall lam, scattering (akns_of s) (weights (akns_of s)) eps (nthC q) (nthC r) D lam = scattering (akns_of s) (weights (akns_of s)) eps qf (fun j => - RtoC (IZR kappa) * Cconj (qf j)) D lam).
  { intros lam. assert (Dg : akns_degree (akns_of s) = 1%nat) by (destruct s; reflexivity). unfold scattering. rewrite Dg. apply descending_ext. intros j Hj. rewrite (Nr j Hj). reflexivity. }
  destruct Hmain as [Hm1 Hm2].
  { intros i Hi. assert (Dg : akns_degree (akns_of s) = 1%nat) by (destruct s; reflexivity). unfold scattering_exact. rewrite Dg, Eup. intros j Hj. cbn [INR]. replace (eps / 1)%R with eps by field.
    rewrite (Nr j Hj). destruct (Hq j Hj) as [H1 H2]. now apply fast_exact_ok. }
  destruct (Hm2 (or_introl Ebs) (or_introl Ec)) as (u' & user' & dflt' & Erun). destruct (Hm1 u' user' dflt' Erun) as (cs' & Ecs' & Hsp & Hkept).
  exists u', user', dflt', cs'. split; [exact Erun|]. split; [exact Ecs'|]. rewrite Ec in Hsp. cbn [spectrum_is] in Hsp.
  assert (Lcs' : length cs' = length cs) by apply Hkept.
  set (b := firstn M (skipn M cs')).
  assert (Lb : length b = M) by (unfold b; rewrite firstn_length, skipn_length; lia).
  assert (Nb : forall i, (i < M)%nat -> nth i b (RtoC 0) = nth (M + i) cs' 0) by (intros i Hi; unfold b; rewrite nth_firstn by exact Hi; now rewrite nth_skipn').
  destruct (nsev_inverse_b_recovers E s p m T (Some X) b q0 kappa oi HE HF Hp HM HT Hk Eid Lb) with (XI0 := XI0) (X := X) as (P & HP & Hinv); try assumption; try reflexivity; try (left; discriminate); try (fold D; lia).
  fold D M in HP, Hinv. change ((snd T - fst T) / INR (D - 1))%R with eps in HP, Hinv.
  destruct (column_poly s (IZR kappa) eps qf (D - 1)) as (P1 & P2 & L1 & L2 & Hcol). replace (S (D - 1)) with D in * by lia.
  assert (EP : P = P2 ++ repeat (RtoC 0) (M - D)).
  { apply (interpolates_unique s D m T XI0 X HD ltac:(lia) HT HXI P (P2 ++ repeat (RtoC 0) (M - D)) _ HP). split; [rewrite app_length, repeat_length; fold M; lia|].
    intros n Hn. rewrite polyval_pad. destruct (Hcol (node D m T X n)) as [_ <-]. unfold node. fold M. change ((snd T - fst T) / INR (D - 1))%R with eps.
    fold M in Hn. rewrite (Nb n Hn). destruct (Hsp n Hn) as [_ ->]. rewrite ES.
    assert (Eg : NftSpec.grid_point X M n = InvGrid.grid_point X M n) by (unfold NftSpec.grid_point, InvGrid.grid_point, spacing; ring). rewrite Eg.
    symmetry. exact (b_target s kappa T D qf (InvGrid.grid_point X M n) HD). }
  destruct (Hspec (top_coeffs D P)) as (ca & Eca & Lca & Hca).
  { apply length_top. rewrite EP, app_length. lia. }
  { intros z. fold qf. destruct (Hcol z) as [_ ->]. unfold top_coeffs. rewrite rev_involutive, EP. rewrite <- app_assoc.
    assert (Ez : repeat (RtoC 0) (M - D) ++ [RtoC 0] = RtoC 0 :: repeat (RtoC 0) (M - D)) by (now rewrite <- repeat_cons).
    rewrite Ez, firstn_app, firstn_all2 by lia. rewrite L2. replace (D + 1 - D)%nat with 1%nat by lia. cbn [firstn]. exact (polyval_pad P2 1 z). }
  destruct (Hinv ca Eca Lca) with (qv := qf) as (b' & q' & Einv & Hsamp).
  { assert (H0 := column_start s kappa eps qf D Hs He ltac:(intros j Hj; apply Hq; exact Hj)). fold qf in Hca. rewrite <- Hca in H0.
    replace (polyval (rev ca) 0) with (nth D ca (RtoC 0)) in H0; [exact H0|]. replace (nth D ca (RtoC 0)) with (nth 0 (rev ca) (RtoC 0)) by (rewrite rev_nth by lia; f_equal; lia).
    destruct (rev ca); [reflexivity|]. rewrite polyval_cons. cbn [nth]. ring. }
  { intros n Hn. apply Hq. exact Hn. }
  { unfold same_reflection. exists []. intros z. rewrite Hca. fold qf. destruct (Hcol z) as [_ ->]. rewrite EP, polyval_pad. rewrite app_nil_r.
    rewrite <- (app_nil_l (repeat _ _)), polyval_pad, polyval_nil. ring. }
  exists b'. rewrite Einv. do 3 f_equal. destruct Hsamp as [Lq' Hsamp]. f_equal. apply (nth_ext _ _ (RtoC 0) (RtoC 0)); [lia|]. intros n Hn. rewrite Hsamp. destruct (Nat.ltb_spec n D); [reflexivity|lia].
Qed.

(** The hypotheses can be met: a routine that returns the coefficients of a. *)
Definition env_fixed (ca : list C) : ienv := {| ie_alloc := ie_alloc env0; ie_junk := ie_junk env0; ie_plan := ie_plan env0;
  ie_specfact := fun _ _ _ _ _ => Ret (SUCCESS, ca); ie_finv := ie_finv env0; ie_sbs := ie_sbs env0 |}.
Definition u_all : NsevModel.outs := {| u_cs := Some (repeat (RtoC 0) 9); u_K := None; u_bs := None; u_nc := None |}.
(** the samples 1/2 and 1/3, focusing, both schemes: the spectrum computed at four frequencies is inverted exactly *)
Theorem roundtrip_example s : exists ca X u' cs' b',
  fnft_nsev_inverse_XI 2 (Some (0, 1)%R) 4 (Some (0, 0)%R) (disc_of s) = Ret (SUCCESS, Some X) /\
  (exists user' dflt', fnft_nsev (lib_env L7) 2 (Some q2) (Some (0, 1)%R) 4 (Some X) 1 (Some (cs_opts CS_AB (disc_of s))) plain u_all = Ret (SUCCESS, u', user', dflt')) /\ u_cs u' = Some cs' /\
  fnft_nsev_inverse (env_fixed ca) 4 (Some (firstn 4 (skipn 4 cs'))) (Some X) 0 None None 2 (Some (j0 2)) (Some (0, 1)%R) 1 (Some (opts0 IC_B_OF_XI s)) = Ret (SUCCESS, (Some b', Some q2)).
Proof.
  destruct (column_poly s (IZR 1) 1%R (fun n => nth n q2 (RtoC 0)) 1) as (P1 & P2 & L1 & L2 & Hcol).
  destruct (inverse_XI_grid 2 2 (0, 1)%R (disc_of s) (akns_of s) ltac:(lia) ltac:(cbn; lra) ltac:(lia) ltac:(destruct s; reflexivity) ltac:(destruct s; discriminate) ltac:(destruct s; discriminate) (0, 0)%R) as (X & EX & _).
  exists (rev (P1 ++ [RtoC 0])), X.
  assert (Es : spacing (0, 1)%R 2 = 1%R) by apply spacing2.
  assert (M2 : forall n, (n < 2)%nat -> Cmod (nth n q2 (RtoC 0)) = (/ (2 + INR n))%R).
  { intros [|[|n]] Hn; [| |lia]; cbn [nth q2 INR]; rewrite Cmod_R, Rabs_pos_eq by lra; lra. }
  destruct (nsev_roundtrip L7 (env_fixed (rev (P1 ++ [RtoC 0]))) s 1 2 (0, 1)%R (0, 0)%R X 1 q2 (Some (cs_opts CS_AB (disc_of s))) plain (cs_opts CS_AB (disc_of s)) u_all (repeat (RtoC 0) 9) (opts0 IC_B_OF_XI s) (j0 2))
    as (u' & user' & dflt' & cs' & Er & Ecs & b' & Ei); try reflexivity; try (cbn; lia); try (cbn; lra); try exact EX; try apply L7_ok; try apply env0_well; try apply env0_finv; try discriminate.
  - destruct s; cbn; auto.
  - intros n Hn. change (2 ^ 1)%nat with 2%nat in *. rewrite Es. assert (Hm := M2 n Hn). assert (B : (0 <= INR n)%R) by apply pos_INR.
    assert (B1 : (INR n <= 1)%R) by (change 1%R with (INR 1); apply le_INR; lia).
    assert (Bm : (1/3 <= Cmod (nth n q2 (RtoC 0)) <= 1/2)%R).
    { destruct n as [|[|n]]; [| |lia]; rewrite Hm; cbn [INR]; lra. }
    clear - Bm. split; [|intros _; right; lra]. destruct s; cbn [in_range].
    + assert (H := PI2_3_2). assert (P2 := PI2_1). unfold PI2 in *. lra.
    + intros H. assert (G := pow2_ge_0 (1 * Cmod (nth n q2 (RtoC 0)))). lra.
  - change (2 ^ 1)%nat with 2%nat. rewrite Es. intros cb Lcb Hcb. exists (rev (P1 ++ [RtoC 0])). split; [reflexivity|]. split; [rewrite rev_length, app_length, L1; reflexivity|].
    intros z. destruct (Hcol z) as [-> _]. rewrite rev_involutive. exact (polyval_pad P1 1 z).
  - exists u', cs', b'. split; [exact EX|]. split; [exists user', dflt'; exact Er|]. split; [exact Ecs|exact Ei].
Qed.
