(** * Fast scattering: C32, C33, C34 and the link to the degree table (C25) *)
From Coq Require Import Reals List QArith Qreals ZArith Lia Lra.
From Coquelicot Require Import Coquelicot.
From Verif Require Import Base Loop Fields PolySpec MatSpec CField CExp CDeriv MiscNumModel ErrModel KissProof KissProps PolyFmultModel PolyFmultProof PolyFmultProps
  DiscTables DiscModel FftAppProps FscatterTab FscatterSpec FscatterAlg FscatterModel FscatterProof.
Import ListNotations.
Local Open Scope C_scope.

(** ** C32 *)
(** the polynomial matrix of one sample at z *)
Definition poly_mat (ls : list C * list C * list C * list C) (z : C) : mat2 :=
  let '(l11, l12, l21, l22) := ls in
  M2 (peval (K := CF) l11 z) (peval (K := CF) l12 z) (peval (K := CF) l21 z) (peval (K := CF) l22 z).
Lemma poly_mat_hmat ls z : poly_mat ls z = hmat z ls.
Proof. destruct ls as [[[l11 l12] l21] l22]. cbn. now rewrite !hor_peval. Qed.

(** the step size of one sample; the upsampled methods 4SPLIT4A/B use half the grid spacing *)
Definition step_size (d : akns_disc) (eps_t : R) : R := (eps_t / INR (akns_upsampling_factor d))%R.
(** arguments at which misc_CSINC is used *)
Definition sinc_args_ok (d : akns_disc) (s : scheme) (h : R) (q r : C) : Prop :=
  forall t f, In t s -> In f (snd t) -> fst f = LB ->
    sinc_ok (RtoC (Q2R (snd f) * (h / INR (akns_degree d))) * Csqrt (- q * r)).

Lemma step_is_scheme d f s q r z (c sn : R -> C) : akns_step d = Some f -> scheme_of d = Some s ->
  hmat z (f (fun a => mk3 (c a) (q * sn a) (r * sn a))) = scheme_val (diagz z) (bmat (fun a => mk3 (c a) (q * sn a) (r * sn a))) s.
Proof.
  intros Hf Hs. destruct d; try discriminate Hf; injection Hf as <-;
  lazymatch goal with
  | |- hmat _ (step_2SPLIT1A _) = _ => exact (alg_2SPLIT1A q r z c sn s Hs)
  | |- hmat _ (step_2SPLIT1B _) = _ => exact (alg_2SPLIT1B q r z c sn s Hs)
  | |- hmat _ (step_2SPLIT2B _) = _ => exact (alg_2SPLIT2B q r z c sn s Hs)
  | |- hmat _ (step_2SPLIT2S _) = _ => exact (alg_2SPLIT2S q r z c sn s Hs)
  | |- hmat _ (step_2SPLIT3A _) = _ => exact (alg_2SPLIT3A q r z c sn s Hs)
  | |- hmat _ (step_2SPLIT3B _) = _ => exact (alg_2SPLIT3B q r z c sn s Hs)
  | |- hmat _ (step_2SPLIT3S _) = _ => exact (alg_2SPLIT3S q r z c sn s Hs)
  | |- hmat _ (step_2SPLIT4A _) = _ => exact (alg_2SPLIT4A q r z c sn s Hs)
  | |- hmat _ (step_2SPLIT4B _) = _ => exact (alg_2SPLIT4B q r z c sn s Hs)
  | |- hmat _ (step_2SPLIT5A _) = _ => exact (alg_2SPLIT5A q r z c sn s Hs)
  | |- hmat _ (step_2SPLIT5B _) = _ => exact (alg_2SPLIT5B q r z c sn s Hs)
  | |- hmat _ (step_2SPLIT6A _) = _ => exact (alg_2SPLIT6A q r z c sn s Hs)
  | |- hmat _ (step_2SPLIT6B _) = _ => exact (alg_2SPLIT6B q r z c sn s Hs)
  | |- hmat _ (step_2SPLIT7A _) = _ => exact (alg_2SPLIT7A q r z c sn s Hs)
  | |- hmat _ (step_2SPLIT7B _) = _ => exact (alg_2SPLIT7B q r z c sn s Hs)
  | |- hmat _ (step_2SPLIT8A _) = _ => exact (alg_2SPLIT8A q r z c sn s Hs)
  | |- hmat _ (step_2SPLIT8B _) = _ => exact (alg_2SPLIT8B q r z c sn s Hs)
  end.
Qed.

(** every scheme's sample is computed by its table with step h/deg *)
Lemma akns_sample_step d s eps_t q r : scheme_of d = Some s ->
  exists f, akns_step d = Some f /\
    akns_sample d eps_t q r = Some (Some (f (fun a => zfsm (a * step_size d eps_t / INR (akns_degree d)) q r))).
Proof.
  intros H. assert (E1 : (eps_t / INR 1)%R = eps_t) by (simpl; field). assert (E2 : (eps_t / INR 2)%R = (eps_t / 2)%R) by (simpl; field).
  unfold step_size. destruct d; try discriminate H; eexists; (split; [reflexivity|]);
  unfold akns_sample; cbn [akns_step akns_upsampling_factor]; rewrite ?E1, ?E2; reflexivity.
Qed.

Lemma degree_neq0 d s : scheme_of d = Some s -> INR (akns_degree d) <> 0%R.
Proof. intros H. apply not_0_INR. destruct d; try discriminate H; discriminate. Qed.
Lemma ups_neq0 d s : scheme_of d = Some s -> INR (akns_upsampling_factor d) <> 0%R.
Proof. intros H. apply not_0_INR. destruct d; try discriminate H; discriminate. Qed.

(** The coefficients that the fast scattering computes for one sample (q,r) are, at
   z = exp(2 i lambda eps_t/(deg*ups)) (which is the map lambda_to_z of the library), the splitting of the
   matrix exponential, up to the factor exp(i lambda h) = z^(deg/2). *)
Theorem fscatter_is_splitting d s eps_t (q r lam : C) :
  scheme_of d = Some s -> sinc_args_ok d s (step_size d eps_t) q r ->
  exists ls, akns_sample d eps_t q r = Some (Some ls) /\
    splitting lam q r (step_size d eps_t) (akns_degree d) s
    = mscal (Cexp (- Ci * lam * RtoC (step_size d eps_t)))
            (poly_mat ls (Cexp (2 * Ci * lam * RtoC eps_t / RtoC (INR (akns_degree d) * INR (akns_upsampling_factor d))))).
Proof.
  intros Hs Hok. destruct (akns_sample_step d s eps_t q r Hs) as (f & Hf & Hl).
  eexists. split; [exact Hl|]. clear Hl.
  pose proof (degree_neq0 d s Hs) as Nd. pose proof (ups_neq0 d s Hs) as Nu.
  set (h := step_size d eps_t) in *. set (n := INR (akns_degree d)) in *.
  unfold splitting. fold n. rewrite (scheme_val_diag (akns_degree d) lam (h / n)) by now apply schemes_ok. fold n.
  replace (n * (h / n))%R with h by (field; exact Nd).
  assert (Ez : 2 * Ci * lam * RtoC eps_t / RtoC (n * INR (akns_upsampling_factor d)) = 2 * Ci * lam * RtoC (h / n)).
  { unfold h, step_size. assert (N3 : (n * INR (akns_upsampling_factor d))%R <> 0%R) by now apply Rmult_integral_contrapositive.
    replace (RtoC eps_t) with (RtoC (n * INR (akns_upsampling_factor d)) * RtoC (eps_t / INR (akns_upsampling_factor d) / n)).
    - field. intros E. apply N3. now apply RtoC_inj.
    - rewrite <- RtoC_mult. f_equal. field. now split. }
  rewrite Ez. set (z := Cexp (2 * Ci * lam * RtoC (h / n))).
  f_equal. rewrite poly_mat_hmat.
  transitivity (scheme_val (diagz z) (bmat (fun a => zfsm (a * h / n) q r)) s).
  - apply scheme_val_ext. intros t g Ht Hg Hl. specialize (Hok t g Ht Hg Hl). fold n in Hok.
    rewrite <- (zfsm_exp _ _ _ Hok). unfold bmat, m3mat.
    replace (Q2R (snd g) * h / n)%R with (Q2R (snd g) * (h / n))%R by (field; exact Nd). reflexivity.
  - symmetry. exact (step_is_scheme d f s q r z (fun a => m0 (zfsm (a * h / n) q r))
      (fun a => RtoC (a * h / n) * misc_CSINC (RtoC (a * h / n) * Csqrt (- q * r))) Hf Hs).
Qed.
(** without the condition on the arguments of misc_CSINC: the same with the matrices of the code (zfsm) in place of exp(tB) *)
Theorem fscatter_is_splitting_of_code_matrices d s eps_t (q r z : C) : scheme_of d = Some s ->
  exists ls, akns_sample d eps_t q r = Some (Some ls) /\
    poly_mat ls z = scheme_val (diagz z) (fun a => m3mat (zfsm (Q2R a * step_size d eps_t / INR (akns_degree d)) q r)) s.
Proof.
  intros Hs. destruct (akns_sample_step d s eps_t q r Hs) as (f & Hf & Hl). eexists. split; [exact Hl|].
  rewrite poly_mat_hmat. set (h := step_size d eps_t). set (n := INR (akns_degree d)).
  exact (step_is_scheme d f s q r z (fun a => m0 (zfsm (a * h / n) q r))
      (fun a => RtoC (a * h / n) * misc_CSINC (RtoC (a * h / n) * Csqrt (- q * r))) Hf Hs).
Qed.
(** expB is the matrix exponential: U(0) = I, U' = B U, U(s+t) = U(s) U(t), det U = 1; expA likewise by definition *)
Theorem expB_is_exponential q r : expB q r 0 = mone /\
  (forall s t, expB q r (s + t) = mmul (expB q r s) (expB q r t)) /\ (forall t, mdet (expB q r t) = 1) /\
  forall t, let U := expB q r t in let B := M2 0 q r 0 in
    Cderive (fun t => a11 (expB q r t)) t (a11 (mmul B U)) /\ Cderive (fun t => a12 (expB q r t)) t (a12 (mmul B U)) /\
    Cderive (fun t => a21 (expB q r t)) t (a21 (mmul B U)) /\ Cderive (fun t => a22 (expB q r t)) t (a22 (mmul B U)).
Proof. exact (conj (expB_0 q r) (conj (expB_plus q r) (conj (expB_det q r) (expB_derive q r)))). Qed.
(** 2SPLIT2A: the implemented scheme e^B e^A in the basis changed by e^(A/2) is the symmetric splitting e^(A/2) e^B e^(A/2) *)
Theorem split2A_basis_change lam q r (h : R) s : scheme_of A_2SPLIT2A = Some s ->
  mmul (expA lam (h / 2)) (mmul (splitting lam q r h 1 s) (expA lam (- (h / 2))))
  = mmul (expA lam (h / 2)) (mmul (expB q r (RtoC h)) (expA lam (h / 2))).
Proof.
  intros H. injection H as <-. unfold splitting, scheme_val, word_val. cbn [fold_right fst snd].
  replace (Q2R 1 * (h / INR 1))%R with h by (unfold Q2R; simpl; field).
  replace (RtoC (Q2R 1)) with (RtoC 1) by (unfold Q2R; simpl; f_equal; field).
  assert (E : expA lam h = mmul (expA lam (h / 2)) (expA lam (h / 2))) by (rewrite <- expA_plus; f_equal; field).
  assert (E0 : mmul (expA lam (h / 2)) (expA lam (- (h / 2))) = mone) by (rewrite <- expA_plus, Rplus_opp_r; apply expA_0).
  rewrite E. f_equal.
  transitivity (mmul (expB q r (RtoC h)) (mmul (expA lam (h / 2)) (mmul (expA lam (h / 2)) (expA lam (- (h / 2)))))).
  - mring.
  - now rewrite E0, mmul_one_r.
Qed.
(** 2SPLIT2_MODAL: with Q = eps_t q, R = eps_t r the sample matrix is [1 Q; R 1]/sqrt(1-QR) diag(1,z),
   of determinant z; the error E_DIV_BY_ZERO is raised exactly if QR = 1 *)
Theorem fscatter_modal eps_t (q r z : C) :
  let Q := RtoC eps_t * q in let R := RtoC eps_t * r in
  (Q * R = 1 /\ akns_sample A_2SPLIT2_MODAL eps_t q r = Some None) \/
  (Q * R <> 1 /\ exists ls scl, akns_sample A_2SPLIT2_MODAL eps_t q r = Some (Some ls) /\ scl * scl * (1 - Q * R) = 1 /\
     poly_mat ls z = mscal scl (mmul (M2 1 Q R 1) (M2 1 0 0 z)) /\ mdet (poly_mat ls z) = z).
Proof.
  cbv zeta. unfold akns_sample, step_MODAL. set (Q := RtoC eps_t * q). set (R := RtoC eps_t * r).
  pose proof (Csqrt_sqr (1 - Q * R)) as Hs. destruct (Ceq_dec (Csqrt (1 - Q * R)) 0) as [Z|N].
  - left. split; [|reflexivity]. rewrite Z in Hs. replace (Q * R) with (1 - (1 - Q * R)) by ring. rewrite <- Hs. ring.
  - right. split. { intros E. apply N. rewrite E in *. unfold Csqrt. replace (1 - 1) with (RtoC 0) by ring. destruct (Ceq_dec 0 0); congruence. }
    set (w := Csqrt (1 - Q * R)) in *. eexists. exists (1 / w). split; [reflexivity|].
    assert (E1 : 1 / w * (1 / w) * (1 - Q * R) = 1) by (rewrite <- Hs; field; exact N). split; [exact E1|].
    rewrite poly_mat_hmat. cbn [hmat]. unfold hor. cbn [fold_left].
    split; [mring|]. unfold mdet. cbn [a11 a12 a21 a22]. 
    transitivity (1 / w * (1 / w) * (1 - Q * R) * z); [ring|]. rewrite E1. ring.
Qed.

(** ** The array p *)
Lemma wr_list_ok l : forall off a, (off + length l <= length a)%nat ->
  exists a', wr_list l off a = Ret a' /\ length a' = length a /\
    forall j d, nth j a' d = if andb (off <=? j)%nat (j <? off + length l)%nat then nth (j - off) l d else nth j a d.
Proof.
  induction l as [|x l IH]; intros off a H; cbn [wr_list length] in *.
  - exists a. split; [reflexivity|]. split; [reflexivity|]. intros j d.
    destruct (Nat.leb_spec off j), (Nat.ltb_spec j (off + 0)); cbn [andb]; try reflexivity; lia.
  - rewrite aset_upd by lia. cbn [bind]. destruct (IH (S off) (upd a off x)) as (a' & E & L & Hn); [rewrite upd_length; lia|].
    exists a'. split; [exact E|]. split; [rewrite L; apply upd_length|]. intros j d. rewrite Hn, nth_upd by lia.
    destruct (Nat.leb_spec (S off) j), (Nat.ltb_spec j (S off + length l)), (Nat.leb_spec off j), (Nat.ltb_spec j (off + S (length l))), (Nat.eqb_spec j off);
      cbn [andb]; try lia; try reflexivity.
    + replace (j - off)%nat with (S (j - S off)) by lia. reflexivity.
    + subst. now rewrite Nat.sub_diag.
Qed.
Definition pick (ls : list C * list C * list C * list C) (ab : nat) : list C :=
  let '(l11, l12, l21, l22) := ls in match ab with 0%nat => l11 | 1%nat => l12 | 2%nat => l21 | _ => l22 end.
Lemma sample_lengths d eps_t q r ls : akns_sample d eps_t q r = Some (Some ls) ->
  forall ab, length (pick ls ab) = (akns_degree d + 1)%nat.
Proof.
  intros H ab. destruct d; cbn [akns_sample akns_step] in H; try discriminate H.
  all: try (injection H as <-; destruct ab as [|[|[|ab]]]; reflexivity).
  unfold step_MODAL in H. destruct (Ceq_dec _ 0) in H; [discriminate H|]. injection H as <-; destruct ab as [|[|[|ab]]]; reflexivity.
Qed.
(** the sample that block k of the array p belongs to *)
Definition qr_at (q r : list C) (i : nat) : C * C := (nth i q (RtoC 0), nth i r (RtoC 0)).
Definition sample_at (d : akns_disc) (eps_t : R) (q r : list C) (i : nat) := akns_sample d eps_t (nth i q (RtoC 0)) (nth i r (RtoC 0)).

Lemma mul_block k D n : (k < D)%nat -> (k * n + n <= D * n)%nat. Proof. intros. nia. Qed.
Lemma blocks_disjoint k k' n : (k' < k)%nat -> (k' * n + n <= k * n)%nat. Proof. intros. nia. Qed.

Ltac split_ifs := repeat match goal with |- context [if andb (?a <=? ?b)%nat (?c <? ?e)%nat then _ else _] =>
  destruct (Nat.leb_spec a b); [destruct (Nat.ltb_spec c e)|]; cbn [andb]; try (exfalso; lia) end.
Lemma sample_loop_ok d eps_t D q r p :
  (D <= length q)%nat -> (D <= length r)%nat -> (4 * (D * (akns_degree d + 1)) <= length p)%nat ->
  (forall i, (i < D)%nat -> exists ls, sample_at d eps_t q r i = Some (Some ls)) ->
  exists p', sample_loop d eps_t D q r p = Ret (SUCCESS, p') /\ length p' = length p /\
    forall k ls ab j, (k < D)%nat -> (ab < 4)%nat -> (j < akns_degree d + 1)%nat -> sample_at d eps_t q r (D - 1 - k) = Some (Some ls) ->
      nth (ab * (D * (akns_degree d + 1)) + k * (akns_degree d + 1) + j) p' (RtoC 0) = nth j (pick ls ab) (RtoC 0).
Proof.
  intros Lq Lr Lp Hall. unfold sample_loop. set (n := (akns_degree d + 1)%nat) in *.
  destruct (for_inv (fun k (st : Z * list C) => fst st = SUCCESS /\ length (snd st) = length p /\
     forall k' ls ab j, (k' < k)%nat -> (ab < 4)%nat -> (j < n)%nat -> sample_at d eps_t q r (D - 1 - k') = Some (Some ls) ->
      nth (ab * (D * n) + k' * n + j) (snd st) (RtoC 0) = nth j (pick ls ab) (RtoC 0))
    (fun k st =>
    let '(code, p) := st in
    if Z.eqb code SUCCESS then
      qi <- aget q (D - 1 - k) ;;
      ri <- aget r (D - 1 - k) ;;
      match akns_sample d eps_t qi ri with
      | Some (Some (l11, l12, l21, l22)) =>
          p <- wr_list l11 (k * n) p ;;
          p <- wr_list l12 (D * n + k * n) p ;;
          p <- wr_list l21 (D * n + D * n + k * n) p ;;
          p <- wr_list l22 (D * n + D * n + D * n + k * n) p ;;
          Ret (SUCCESS, p)
      | Some None => Ret (EC_DIV_BY_ZERO, p)
      | None => Ret (EC_INVALID_ARGUMENT, p)
      end
    else Ret st) D 0 (SUCCESS, p)) as ([code p'] & E & H1 & H2 & H3).
  - cbn [fst snd]. split; [reflexivity|]. split; [reflexivity|]. intros; lia.
  - intros k [code pk] Hk (Hc & Hl & Hn). cbn [fst snd] in *. subst code. cbn [Z.eqb SUCCESS].
    rewrite (aget_nth q (RtoC 0)) by lia. rewrite (aget_nth r (RtoC 0)) by lia. cbn [bind].
    destruct (Hall (D - 1 - k)%nat ltac:(lia)) as (ls & Els). unfold sample_at in Els. rewrite Els.
    pose proof (sample_lengths _ _ _ _ _ Els) as Hlen. fold n in Hlen.
    destruct ls as [[[l11 l12] l21] l22].
    pose proof (Hlen 0%nat) as A0. pose proof (Hlen 1%nat) as A1. pose proof (Hlen 2%nat) as A2. pose proof (Hlen 3%nat) as A3. cbn [pick] in A0, A1, A2, A3.
    pose proof (mul_block k D n ltac:(lia)) as Bk.
    destruct (wr_list_ok l11 (k * n) pk) as (p1 & E1 & L1 & N1); [lia|]. rewrite E1. cbn [bind].
    destruct (wr_list_ok l12 (D * n + k * n) p1) as (p2 & E2 & L2 & N2); [lia|]. rewrite E2. cbn [bind].
    destruct (wr_list_ok l21 (D * n + D * n + k * n) p2) as (p3 & E3 & L3 & N3); [lia|]. rewrite E3. cbn [bind].
    destruct (wr_list_ok l22 (D * n + D * n + D * n + k * n) p3) as (p4 & E4 & L4 & N4); [lia|]. rewrite E4. cbn [bind].
    eexists. split; [reflexivity|]. cbn [fst snd]. split; [reflexivity|]. split; [lia|].
    intros k' ls' ab j Hk' Hab Hj Els'. rewrite N4, N3, N2, N1, A0, A1, A2, A3.
    destruct (Nat.eq_dec k' k) as [->|Nk].
    + unfold sample_at in Els'. rewrite Els in Els'. injection Els' as <-.
      destruct ab as [|[|[|[|ab]]]]; [| | | |lia]; cbn [Nat.mul pick];
      split_ifs; try (f_equal; lia); exfalso; lia.
    + assert (Hkk : (k' < k)%nat) by lia. pose proof (blocks_disjoint k k' n Hkk) as Bd.
      specialize (Hn k' ls' ab j Hkk Hab Hj Els').
      destruct ab as [|[|[|[|ab]]]]; [| | | |lia]; cbn [Nat.mul pick] in *;
      split_ifs; try exact Hn; exfalso; lia.
  - cbn [fst snd Nat.add] in *. subst code. exists p'. split; [exact E|]. split; [exact H2|].
    intros k ls ab j Hk. apply H3. lia.
Qed.

(** a sample fails (2SPLIT2_MODAL with eps_t^2 q r = 1): error, whatever the other samples *)
Lemma sample_loop_fails d eps_t D q r p : akns_degree d <> 0%nat ->
  (D <= length q)%nat -> (D <= length r)%nat -> (4 * (D * (akns_degree d + 1)) <= length p)%nat ->
  (exists i, (i < D)%nat /\ sample_at d eps_t q r i = Some None) ->
  exists p', sample_loop d eps_t D q r p = Ret (EC_DIV_BY_ZERO, p').
Proof.
  intros Hd Lq Lr Lp (i0 & Hi0 & Hf). unfold sample_loop. set (n := (akns_degree d + 1)%nat) in *.
  match goal with |- context [for_ D 0 ?body ?s0] => destruct (for_inv (fun k (st : Z * list C) => length (snd st) = length p /\
     ((fst st = SUCCESS /\ (i0 < D - k)%nat) \/ fst st = EC_DIV_BY_ZERO)) body D 0 s0) as ([code p'] & E & H1 & H2) end.
  - cbn [fst snd]. split; [reflexivity|]. left. split; [reflexivity|lia].
  - intros k [code pk] Hk (Hl & Hc). cbn [fst snd] in *. destruct Hc as [(-> & Hi)| ->].
    2: { cbn [Z.eqb EC_DIV_BY_ZERO SUCCESS]. eexists. split; [reflexivity|]. cbn [fst snd]. auto. }
    cbn [Z.eqb SUCCESS].
    rewrite (aget_nth q (RtoC 0)) by lia. rewrite (aget_nth r (RtoC 0)) by lia. cbn [bind].
    destruct (akns_sample d eps_t (nth (D - 1 - k) q (RtoC 0)) (nth (D - 1 - k) r (RtoC 0))) as [[ls|]|] eqn:Els.
    + pose proof (sample_lengths _ _ _ _ _ Els) as Hlen. fold n in Hlen.
      destruct ls as [[[l11 l12] l21] l22].
      pose proof (Hlen 0%nat) as A0. pose proof (Hlen 1%nat) as A1. pose proof (Hlen 2%nat) as A2. pose proof (Hlen 3%nat) as A3. cbn [pick] in A0, A1, A2, A3.
      pose proof (mul_block k D n ltac:(lia)) as Bk.
      destruct (wr_list_ok l11 (k * n) pk) as (p1 & E1 & L1 & N1); [lia|]. rewrite E1. cbn [bind].
      destruct (wr_list_ok l12 (D * n + k * n) p1) as (p2 & E2 & L2 & N2); [lia|]. rewrite E2. cbn [bind].
      destruct (wr_list_ok l21 (D * n + D * n + k * n) p2) as (p3 & E3 & L3 & N3); [lia|]. rewrite E3. cbn [bind].
      destruct (wr_list_ok l22 (D * n + D * n + D * n + k * n) p3) as (p4 & E4 & L4 & N4); [lia|]. rewrite E4. cbn [bind].
      eexists. split; [reflexivity|]. cbn [fst snd]. split; [lia|]. left. split; [reflexivity|].
      assert (i0 <> (D - 1 - k)%nat). { intros ->. unfold sample_at in Hf. rewrite Els in Hf. discriminate Hf. } lia.
    + eexists. split; [reflexivity|]. cbn [fst snd]. auto.
    + exfalso. destruct d; cbn [akns_sample akns_step] in Els; try discriminate Els; apply Hd; reflexivity.
  - cbn [fst snd Nat.add] in *. destruct H2 as [(_ & H2)|H2]; [lia|]. subst code. exists p'. exact E.
Qed.

(** ** Matrix products *)
Lemma entry_mmul X Y i j : (i < 2)%nat -> (j < 2)%nat ->
  entry (mmul X Y) i j = nmmul (K := CF) 2 (entry X) (entry Y) i j.
Proof.
  intros Hi Hj. unfold nmmul. cbn [fsum]. destruct i as [|[|i]]; destruct j as [|[|j]]; try lia; cbn [entry mmul a11 a12 a21 a22];
  cbn [CF fadd fmul f0 car]; ring.
Qed.
Lemma mprod_list_app l l' : fold_right mmul mone (l ++ l') = mmul (fold_right mmul mone l) (fold_right mmul mone l').
Proof. induction l as [|x l IH]; [symmetry; apply mmul_one_l|]. cbn [app fold_right]. now rewrite IH, mmul_assoc. Qed.
Lemma descending_list n M : fold_right mmul mone (map (fun t => M (n - 1 - t)%nat) (seq 0 n)) = descending n M.
Proof.
  induction n as [|n IH]; [reflexivity|]. cbn [descending seq map fold_right]. f_equal; [f_equal; lia|].
  rewrite <- IH. rewrite <- seq_shift, map_map. f_equal. apply map_ext. intros t. f_equal. lia.
Qed.
Lemma nmprod_list n (M : nat -> mat2) i j : (i < 2)%nat -> (j < 2)%nat ->
  nmprod (K := CF) 2 n (fun t => entry (M t)) i j = entry (fold_right mmul mone (map M (seq 0 n))) i j.
Proof.
  revert i j. induction n as [|n IH]; intros i j Hi Hj.
  - cbn [nmprod seq map fold_right]. unfold nmone. destruct i as [|[|i]]; destruct j as [|[|j]]; try lia; reflexivity.
  - rewrite seq_S, map_app, mprod_list_app. cbn [map fold_right Nat.add]. rewrite mmul_one_r, entry_mmul by assumption.
    cbn [nmprod]. unfold nmmul. apply (fsum_ext (K := CF)). intros k Hk. now rewrite IH by assumption.
Qed.

Section Full.
Variable expo : list C -> Z.
Variables junk0 junk1 junk2 junkp : nat -> list C.
Hypothesis Hj0 : forall l, length (junk0 l) = l.
Hypothesis Hj1 : forall l, length (junk1 l) = l.
Hypothesis Hj2 : forall l, length (junk2 l) = l.
Hypothesis Hjp : forall l, length (junkp l) = l.
Local Notation fsc := (akns_fscatter expo junk0 junk1 junk2 junkp).

(** C33.  If all samples are admissible the result holds, at offset (2i+j)(D deg+1), the coefficients of the
   entry (i,j) of M_(D-1)(z)...M_0(z), up to the factor 2^W that is reported (0 if W_ptr is NULL). *)
Theorem akns_fscatter_product normalize D (q r res : list C) (eps_t : R) d numel (M : nat -> list C * list C * list C * list C) :
  (2 <= D)%nat -> (Z.of_nat D <= 2147483647)%Z -> (0 < eps_t)%R -> akns_degree d <> 0%nat ->
  (D <= length q)%nat -> (D <= length r)%nat -> akns_fscatter_numel D d = Ret numel -> (numel <= length res)%nat ->
  (forall i, (i < D)%nat -> akns_sample d eps_t (nth i q (RtoC 0)) (nth i r (RtoC 0)) = Some (Some (M i))) ->
  exists r' W, fsc normalize D (Some q) (Some r) eps_t (Some res) true d = Ret (SUCCESS, Some (D * akns_degree d)%nat, Some r', W) /\
    length r' = length res /\ (normalize = false -> W = 0%Z) /\
    forall (z : C) i j, (i < 2)%nat -> (j < 2)%nat ->
      zpow (K := CF) (RtoC 2) W * peval (K := CF) (coeffs (K := CF) r' ((i * 2 + j) * (D * akns_degree d + 1)) (D * akns_degree d + 1)) z
      = entry (descending D (fun i => poly_mat (M i) z)) i j.
Proof.
  intros HD HD2 He Hd Lq Lr Hnum Lres HM. unfold akns_fscatter.
  replace (orb (D =? 0)%nat (2147483647 <? Z.of_nat D)%Z) with false.
  2: { symmetry. apply Bool.orb_false_iff. split; [apply Nat.eqb_neq|apply Z.ltb_ge]; lia. }
  destruct (Rle_dec eps_t 0) as [Hle|_]; [lra|]. cbn [negb]. rewrite Hnum. cbn [bind].
  unfold akns_fscatter_numel in Hnum. destruct (Nat.eqb_spec (akns_degree d) 0) as [Ez|_]; [contradiction|].
  destruct (poly_fmult_numel_value 4 (akns_degree d) D ltac:(lia) ltac:(lia)) as (k & Ek & Hk & _).
  assert (Hnumel : numel = (4 * (akns_degree d + 1) * 2 ^ k)%nat) by congruence.
  assert (Hbig : (4 * (D * (akns_degree d + 1)) <= numel)%nat) by (rewrite Hnumel; nia).
  destruct (Nat.eqb_spec numel 0) as [Ez|_]; [nia|].
  destruct (sample_loop_ok d eps_t D q r (junkp numel) Lq Lr) as (p & E & Lp & Hp).
  { rewrite Hjp. exact Hbig. } { intros i Hi. exists (M i). now apply HM. }
  rewrite E. cbn [bind]. cbn [negb Z.eqb SUCCESS].
  destruct (poly_fmult2x2_product expo junk0 junk1 junk2 Hj0 Hj1 Hj2 normalize (akns_degree d) D p res numel HD ltac:(lia) Hnum)
    as (p' & r' & W & E2 & _ & Lr' & HW & Hprod).
  { rewrite Lp, Hjp. apply le_n. } { exact Lres. }
  rewrite E2. cbn [bind]. cbn [Z.eqb SUCCESS]. exists r', W. split; [reflexivity|]. split; [exact Lr'|]. split; [exact HW|].
  intros z i j Hi Hj. etransitivity; [apply (Hprod z i j Hi Hj)|].
  rewrite <- descending_list, <- nmprod_list by assumption.
  apply (nmprod_ext (K := CF)); [|assumption..]. intros t a b Ht Ha Hb.
  assert (Es : sample_at d eps_t q r (D - 1 - t) = Some (Some (M (D - 1 - t)%nat))) by (apply HM; lia).
  assert (EC : forall ab, (ab < 4)%nat -> coeffs (K := CF) p (ab * (D * (akns_degree d + 1)) + t * (akns_degree d + 1)) (akns_degree d + 1) = pick (M (D - 1 - t)%nat) ab).
  { intros ab Hab. pose proof (mul_block t D (akns_degree d + 1) Ht) as Bt.
    assert (Lc : length (coeffs (K := CF) p (ab * (D * (akns_degree d + 1)) + t * (akns_degree d + 1)) (akns_degree d + 1)) = (akns_degree d + 1)%nat).
    { unfold coeffs. rewrite firstn_length, skipn_length.
      assert (Lp2 : @length (car CF) p = numel) by (etransitivity; [exact Lp|apply Hjp]). rewrite Lp2. clear - Hab Bt Hbig. nia. }
    apply (list_eq_nth _ _ (RtoC 0)).
    - etransitivity; [exact Lc|]. symmetry. exact (sample_lengths _ _ _ _ _ Es ab).
    - intros j' Hj'. assert (Hj'' : (j' < akns_degree d + 1)%nat) by (rewrite <- Lc; exact Hj').
      etransitivity; [exact (nth_coeffs (K := CF) p _ _ j' Hj'')|]. exact (Hp t _ ab j' Ht Hab Hj'' Es). }
  assert (Hab : (a * 2 + b < 4)%nat) by lia.
  etransitivity; [exact (f_equal (fun l => peval (K := CF) l z) (EC (a * 2 + b)%nat Hab))|].
  destruct (M (D - 1 - t)%nat) as [[[l11 l12] l21] l22]. destruct a as [|[|a]]; destruct b as [|[|b]]; try lia; reflexivity.
Qed.
(** all arguments valid except for the discretization: it is rejected exactly if its degree is reported as 0 (C25) *)
Theorem akns_fscatter_unknown_discretization normalize D (q r res : list C) (eps_t : R) d :
  (1 <= D)%nat -> (Z.of_nat D <= 2147483647)%Z -> (0 < eps_t)%R -> akns_degree d = 0%nat ->
  fsc normalize D (Some q) (Some r) eps_t (Some res) true d = Ret (EC_INVALID_ARGUMENT, None, Some res, 0%Z).
Proof.
  intros HD HD2 He Hd. unfold akns_fscatter.
  replace (orb (D =? 0)%nat (2147483647 <? Z.of_nat D)%Z) with false.
  2: { symmetry. apply Bool.orb_false_iff. split; [apply Nat.eqb_neq|apply Z.ltb_ge]; lia. }
  destruct (Rle_dec eps_t 0) as [Hle|_]; [lra|]. cbn [negb]. unfold akns_fscatter_numel. rewrite Hd. reflexivity.
Qed.
(** invalid arguments: error 2, nothing written *)
Theorem akns_fscatter_invalid_arguments normalize D q r (eps_t : R) res deg_ptr d :
  (D = 0%nat \/ (2147483647 < Z.of_nat D)%Z \/ q = None \/ r = None \/ (eps_t <= 0)%R \/ res = None \/ deg_ptr = false) ->
  fsc normalize D q r eps_t res deg_ptr d = Ret (EC_INVALID_ARGUMENT, None, res, 0%Z).
Proof.
  intros H. unfold akns_fscatter.
  destruct (Nat.eqb_spec D 0); [reflexivity|]. destruct (Z.ltb_spec 2147483647 (Z.of_nat D)); [reflexivity|]. cbn [orb].
  destruct q; [|reflexivity]. destruct r; [|reflexivity]. destruct (Rle_dec eps_t 0); [reflexivity|]. destruct res; [|reflexivity].
  destruct deg_ptr; [|reflexivity]. exfalso. destruct H as [H|[H|[H|[H|[H|[H|H]]]]]]; try discriminate H; try lia; contradiction.
Qed.
(** 2SPLIT2_MODAL with eps_t^2 q_i r_i = 1 for some i: error, result untouched *)
Theorem akns_fscatter_division_by_zero normalize D (q r res : list C) (eps_t : R) :
  (1 <= D)%nat -> (Z.of_nat D <= 2147483647)%Z -> (0 < eps_t)%R -> (D <= length q)%nat -> (D <= length r)%nat ->
  (exists i, (i < D)%nat /\ RtoC eps_t * nth i q (RtoC 0) * (RtoC eps_t * nth i r (RtoC 0)) = 1) ->
  fsc normalize D (Some q) (Some r) eps_t (Some res) true A_2SPLIT2_MODAL = Ret (EC_DIV_BY_ZERO, Some 1%nat, Some res, 0%Z).
Proof.
  intros HD HD2 He Lq Lr (i & Hi & HQR). unfold akns_fscatter.
  replace (orb (D =? 0)%nat (2147483647 <? Z.of_nat D)%Z) with false.
  2: { symmetry. apply Bool.orb_false_iff. split; [apply Nat.eqb_neq|apply Z.ltb_ge]; lia. }
  destruct (Rle_dec eps_t 0) as [Hle|_]; [lra|]. cbn [negb]. unfold akns_fscatter_numel. change (akns_degree A_2SPLIT2_MODAL) with 1%nat. cbn [Nat.eqb].
  destruct (poly_fmult_numel_value 4 1 D ltac:(lia) ltac:(lia)) as (k & Ek & Hk & _). rewrite Ek. cbn [bind].
  destruct (Nat.eqb_spec (4 * (1 + 1) * 2 ^ k) 0) as [Ez|_]; [pose proof (Nat.pow_nonzero 2 k); lia|].
  destruct (sample_loop_fails A_2SPLIT2_MODAL eps_t D q r (junkp (4 * (1 + 1) * 2 ^ k)%nat)) as (p & E); try assumption.
  - discriminate. - rewrite Hjp. cbn [akns_degree]. lia.
  - exists i. split; [exact Hi|]. unfold sample_at.
    destruct (fscatter_modal eps_t (nth i q (RtoC 0)) (nth i r (RtoC 0)) 0) as [(_ & HM)|(N & _)]; [exact HM|contradiction].
  - rewrite E. reflexivity.
Qed.
(** a single sample: the return code of poly_fmult2x2 is uninitialised *)
Theorem akns_fscatter_one_sample_refuted normalize (q r res : list C) (eps_t : R) d M :
  (0 < eps_t)%R -> akns_degree d <> 0%nat -> (1 <= length q)%nat -> (1 <= length r)%nat ->
  akns_sample d eps_t (nth 0 q (RtoC 0)) (nth 0 r (RtoC 0)) = Some (Some M) ->
  fsc normalize 1 (Some q) (Some r) eps_t (Some res) true d = UB.
Proof.
  intros He Hd Lq Lr HM. unfold akns_fscatter. cbn [Nat.eqb orb Z.ltb Z.of_nat Z.compare Pos.of_succ_nat Pos.compare Pos.compare_cont].
  destruct (Rle_dec eps_t 0) as [Hle|_]; [lra|]. cbn [negb]. unfold akns_fscatter_numel.
  destruct (Nat.eqb_spec (akns_degree d) 0) as [Ez|_]; [contradiction|].
  destruct (poly_fmult_numel_value 4 (akns_degree d) 1 ltac:(lia) ltac:(lia)) as (k & Ek & Hk & _). rewrite Ek. cbn [bind].
  destruct (Nat.eqb_spec (4 * (akns_degree d + 1) * 2 ^ k) 0) as [Ez|_]; [pose proof (Nat.pow_nonzero 2 k); nia|].
  destruct (sample_loop_ok d eps_t 1 q r (junkp (4 * (akns_degree d + 1) * 2 ^ k)%nat)) as (p & E & _); try assumption.
  - rewrite Hjp. nia. - intros i Hi. exists M. replace i with 0%nat by lia. exact HM.
  - rewrite E. cbn [bind negb Z.eqb SUCCESS]. unfold poly_fmult2x2, poly_fmultM.
    change (np2 1) with (Ret 1%nat). cbn [bind]. change (1 <? 1)%nat with false. cbn [bind].
    destruct (two_polys_len _); reflexivity.
Qed.

(** C33 for the NSE and KdV wrappers *)
Theorem nse_fscatter_is_akns normalize D (q res : list C) r (eps_t : R) d ad deg r' W : (1 <= D)%nat -> (0 < eps_t)%R ->
  nse_to_akns d = Some ad ->
  fsc normalize D (Some q) r eps_t (Some res) true ad = Ret (SUCCESS, deg, r', W) ->
  nse_fscatter expo junk0 junk1 junk2 junkp normalize D (Some q) r eps_t (Some res) true d = Ret (SUCCESS, deg, r', W).
Proof.
  intros HD He Hm E. unfold nse_fscatter. destruct (Nat.eqb_spec D 0); [lia|]. destruct (Rle_dec eps_t 0); [lra|].
  cbn [negb]. rewrite Hm, E. reflexivity.
Qed.
(** KdV: the non-vanilla discretizations call the AKNS routine with q and r exchanged *)
Theorem kdv_fscatter_is_akns normalize D (q res : list C) r (eps_t : R) d ad v deg r' W : (1 <= D)%nat -> (0 < eps_t)%R ->
  kdv_to_akns d = Some ad -> kdv_vanilla_flag d = Some v ->
  (if v then fsc normalize D (Some q) r eps_t (Some res) true ad else fsc normalize D r (Some q) eps_t (Some res) true ad)
    = Ret (SUCCESS, deg, r', W) ->
  kdv_fscatter expo junk0 junk1 junk2 junkp normalize D (Some q) r eps_t (Some res) true d = Ret (SUCCESS, deg, r', W).
Proof.
  intros HD He Hm Hv E. unfold kdv_fscatter. destruct (Nat.eqb_spec D 0); [lia|]. destruct (Rle_dec eps_t 0); [lra|].
  cbn [negb]. rewrite Hm, Hv. destruct v; rewrite E; reflexivity.
Qed.
(** every KdV discretization has its vanilla flag, so the ignored return code is harmless *)
Theorem kdv_fscatter_flag_defined d ad : kdv_to_akns d = Some ad -> exists v, kdv_vanilla_flag d = Some v.
Proof. destruct d; intros H; try discriminate H; eexists; reflexivity. Qed.

(** ** C34 *)
Definition product_splitting (d : akns_disc) : Prop :=
  d = A_2SPLIT1A \/ d = A_2SPLIT1B \/ d = A_2SPLIT2A \/ d = A_2SPLIT2B \/ d = A_2SPLIT2_MODAL.
(** the argument of misc_CSINC in the product splittings: h sqrt(-qr), h/2 sqrt(-qr) for 2SPLIT2B *)
Definition product_sinc_ok (d : akns_disc) (eps_t : R) (q r : C) : Prop :=
  match d with
  | A_2SPLIT2_MODAL => True
  | A_2SPLIT2B => sinc_ok (RtoC (eps_t / 2) * Csqrt (- q * r))
  | _ => sinc_ok (RtoC eps_t * Csqrt (- q * r))
  end.
Lemma zfsm_det eps q r : sinc_ok (RtoC eps * Csqrt (- q * r)) -> mdet (m3mat (zfsm eps q r)) = 1.
Proof. intros H. rewrite zfsm_exp by exact H. apply expB_det. Qed.
Theorem sample_determinant d eps_t (q r z : C) ls : product_splitting d -> product_sinc_ok d eps_t q r ->
  akns_sample d eps_t q r = Some (Some ls) -> mdet (poly_mat ls z) = z.
Proof.
  intros Hd Hok Hs.
  assert (G : forall d s, scheme_of d = Some s -> akns_sample d eps_t q r = Some (Some ls) ->
    poly_mat ls z = scheme_val (diagz z) (fun a => m3mat (zfsm (Q2R a * step_size d eps_t / INR (akns_degree d)) q r)) s).
  { intros d' s' Hs' E. destruct (fscatter_is_splitting_of_code_matrices d' s' eps_t q r z Hs') as (ls' & E' & H). rewrite E in E'. injection E' as <-. exact H. }
  assert (E1 : (Q2R 1 * (eps_t / INR 1) / INR 1)%R = eps_t) by (unfold Q2R; simpl; field).
  assert (E2 : (Q2R (1#2) * (eps_t / INR 1) / INR 1)%R = (eps_t / 2)%R) by (unfold Q2R; simpl; field).
  assert (D1 : mdet (diagz z 1) = z) by (unfold mdet, diagz; cbn [a11 a12 a21 a22]; change (zp z (Z.to_nat (Qnum 1))) with (z * 1); ring).
  assert (S1 : forall X, madd (mscal (RtoC (Q2R 1)) X) mzero = X).
  { intros X. replace (Q2R 1) with 1%R by (unfold Q2R; simpl; field). mring. }
  destruct Hd as [-> |[-> |[-> |[-> | ->]]]].
  - rewrite (G A_2SPLIT1A _ eq_refl Hs). unfold scheme_val, word_val, step_size. cbn [fold_right fst snd akns_degree akns_upsampling_factor].
    rewrite E1, S1, mmul_one_r, mdet_mul, D1, zfsm_det by exact Hok. ring.
  - rewrite (G A_2SPLIT1B _ eq_refl Hs). unfold scheme_val, word_val, step_size. cbn [fold_right fst snd akns_degree akns_upsampling_factor].
    rewrite E1, S1, mmul_one_r, mdet_mul, D1, zfsm_det by exact Hok. ring.
  - rewrite (G A_2SPLIT2A _ eq_refl Hs). unfold scheme_val, word_val, step_size. cbn [fold_right fst snd akns_degree akns_upsampling_factor].
    rewrite E1, S1, mmul_one_r, mdet_mul, D1, zfsm_det by exact Hok. ring.
  - rewrite (G A_2SPLIT2B _ eq_refl Hs). unfold scheme_val, word_val, step_size. cbn [fold_right fst snd akns_degree akns_upsampling_factor swap_word map strang strang_tail flip].
    change (Qred (1 / 2)) with (1#2)%Q.
    rewrite E2, S1, mmul_one_r, !mdet_mul, D1, !zfsm_det by exact Hok. ring.
  - destruct (fscatter_modal eps_t q r z) as [(_ & E)|(_ & ls' & scl & E & _ & _ & H)]; rewrite Hs in E; [discriminate E|].
    injection E as <-. exact H.
Qed.
Lemma descending_det n M z : (forall i, (i < n)%nat -> mdet (M i) = z) -> mdet (descending n M) = Cpown z n.
Proof.
  induction n as [|n IH]; intros H; cbn [descending Cpown].
  - unfold mdet. cbn [mone a11 a12 a21 a22]. ring.
  - rewrite mdet_mul, IH, H by (intros; auto). reflexivity.
Qed.
(** the determinant of the transfer matrix of D samples is z^D (times 4^-W) *)
Theorem akns_fscatter_determinant normalize D (q r res : list C) (eps_t : R) d numel M :
  product_splitting d -> (2 <= D)%nat -> (Z.of_nat D <= 2147483647)%Z -> (0 < eps_t)%R ->
  (D <= length q)%nat -> (D <= length r)%nat -> akns_fscatter_numel D d = Ret numel -> (numel <= length res)%nat ->
  (forall i, (i < D)%nat -> akns_sample d eps_t (nth i q (RtoC 0)) (nth i r (RtoC 0)) = Some (Some (M i))) ->
  (forall i, (i < D)%nat -> product_sinc_ok d eps_t (nth i q (RtoC 0)) (nth i r (RtoC 0))) ->
  exists r' W, fsc normalize D (Some q) (Some r) eps_t (Some res) true d = Ret (SUCCESS, Some D, Some r', W) /\
    forall z : C, let T i j := zpow (K := CF) (RtoC 2) W * peval (K := CF) (coeffs (K := CF) r' ((i * 2 + j) * (D + 1)) (D + 1)) z in
      T 0%nat 0%nat * T 1%nat 1%nat - T 0%nat 1%nat * T 1%nat 0%nat = Cpown z D.
Proof.
  intros Hd HD HD2 He Lq Lr Hnum Lres HM Hok.
  assert (Hdeg : akns_degree d = 1%nat) by (destruct Hd as [-> |[-> |[-> |[-> | ->]]]]; reflexivity).
  destruct (akns_fscatter_product normalize D q r res eps_t d numel M HD HD2 He ltac:(lia) Lq Lr Hnum Lres HM) as (r' & W & E & _ & _ & H).
  rewrite Hdeg, Nat.mul_1_r in E, H. exists r', W. split; [exact E|]. intros z T. unfold T. rewrite !H by lia.
  cbn [entry]. apply (descending_det D (fun i => poly_mat (M i) z) z). intros i Hi. apply (sample_determinant d eps_t (nth i q (RtoC 0)) (nth i r (RtoC 0))); auto.
Qed.
End Full.

(** ** Concrete cases *)
Lemma Cmod_sqrt_1 : Cmod (Csqrt (- (1) * - (1))) = 1%R.
Proof.
  pose proof (Csqrt_sqr (- (1) * - (1))) as H. set (w := Csqrt _) in *. apply (f_equal Cmod) in H.
  rewrite Cmod_mult in H. replace (- (1) * - (1)) with (RtoC 1) in H by ring. rewrite Cmod_1 in H.
  pose proof (Cmod_ge_0 w). nra.
Qed.
(** q = 1, r = -1 (a defocusing sample), eps_t = 1: the conditions hold for every scheme *)
Example ex_sinc_args d s : scheme_of d = Some s -> sinc_args_ok d s (step_size d 1) 1 (- (1)).
Proof.
  intros H t f Ht Hf Hl. right. rewrite Cmod_mult, Cmod_sqrt_1, Rmult_1_r, Cmod_R.
  assert (Hmin : Qle (1#2) (snd f)).
  { apply Qle_bool_iff.
    assert (A : forallb (fun t => forallb (fun f => orb (match fst f with LA => true | LB => false end) (Qle_bool (1#2) (snd f))) (snd t)) s = true)
      by (destruct d; try discriminate H; injection H as <-; vm_compute; reflexivity).
    rewrite forallb_forall in A. specialize (A t Ht). rewrite forallb_forall in A. specialize (A f Hf). now rewrite Hl in A. }
  apply Qle_Rle in Hmin. replace (Q2R (1#2)) with (1/2)%R in Hmin by (unfold Q2R; simpl; field).
  unfold step_size.
  assert (Hd : (1 <= INR (akns_degree d) <= 105)%R /\ (1 <= INR (akns_upsampling_factor d) <= 2)%R).
  { destruct d; try discriminate H; cbn [akns_degree akns_upsampling_factor]; repeat split; try (change 1%R with (INR 1); apply le_INR; lia);
    try (replace 105%R with (INR 105) by (rewrite INR_IZR_INZ; reflexivity); apply le_INR; lia); (change 2%R with (INR 2); apply le_INR; lia). }
  destruct Hd as ((D1 & D2) & (U1 & U2)). set (n := INR (akns_degree d)) in *. set (u := INR (akns_upsampling_factor d)) in *.
  assert (A1 : (1 / 2 <= 1 / u)%R) by (unfold Rdiv; rewrite !Rmult_1_l; apply Rinv_le_contravar; lra).
  assert (A2 : (1 / 210 <= 1 / u / n)%R).
  { unfold Rdiv at 2. apply Rle_trans with (1/2 * / 105)%R; [lra|]. apply Rmult_le_compat; try lra; apply Rinv_le_contravar; lra. }
  rewrite Rabs_pos_eq; [|apply Rmult_le_pos; lra]. apply Rle_trans with (1/2 * (1/210))%R; [lra|]. apply Rmult_le_compat; lra.
Qed.
(** three samples, fourth-order splitting, normalisation on: the hypotheses of the product theorem are met *)
Example ex_product : exists r' W,
  akns_fscatter (fun _ => 1%Z) (repeat (RtoC 0)) (repeat (RtoC 0)) (repeat (RtoC 0)) (repeat Ci) true 3
    (Some [RtoC 1; Ci; RtoC 2]) (Some [- (1); Ci; - (2)]) (1/4) (Some (repeat (RtoC 0) 80)) true A_2SPLIT4A
  = Ret (SUCCESS, Some 12%nat, Some r', W).
Proof.
  assert (L : forall x n, length (repeat (x : C) n) = n) by (intros; apply repeat_length).
  destruct (akns_fscatter_product (fun _ => 1%Z) _ _ _ _ (L (RtoC 0)) (L (RtoC 0)) (L (RtoC 0)) (L Ci) true 3
    [RtoC 1; Ci; RtoC 2] [- (1); Ci; - (2)] (repeat (RtoC 0) 80) (1/4) A_2SPLIT4A 80
    (fun i => step_2SPLIT4A (fun a => zfsm (a * (1/4) / INR 4) (nth i [RtoC 1; Ci; RtoC 2] (RtoC 0)) (nth i [- (1); Ci; - (2)] (RtoC 0)))))
    as (r' & W & E & _); try (cbn [length]; lia); try lra; try discriminate; try reflexivity.
  exists r', W. exact E.
Qed.
Print Assumptions fscatter_is_splitting.
Print Assumptions fscatter_is_splitting_of_code_matrices.
Print Assumptions expB_is_exponential.
Print Assumptions split2A_basis_change.
Print Assumptions fscatter_modal.
Print Assumptions akns_fscatter_product.
Print Assumptions akns_fscatter_unknown_discretization.
Print Assumptions akns_fscatter_invalid_arguments.
Print Assumptions akns_fscatter_division_by_zero.
Print Assumptions akns_fscatter_one_sample_refuted.
Print Assumptions nse_fscatter_is_akns.
Print Assumptions kdv_fscatter_is_akns.
Print Assumptions sample_determinant.
Print Assumptions akns_fscatter_determinant.
