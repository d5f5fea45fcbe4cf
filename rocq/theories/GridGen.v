(** * The general grid search *)
From Coq Require Import Reals Lra.
From Coquelicot Require Import Coquelicot.
From Verif Require Export GridProps.
Local Open Scope C_scope.

Section Gen.
Variables (deg : nat) (p : list C) (M : nat) (phi0 phi1 : R).
Hypothesis (Hp : length p = (deg + 1)%nat) (HM : (2 <= M)%nat) (Hphi : (phi0 < phi1)%R).
Let eps := grid_eps phi0 phi1 M.
Hypothesis (Heps1 : eps <> 1%R).
Local Notation pv z := (peval (K := CF) p z : C).
Local Notation z0 i := (eitheta (angle phi0 phi1 M i)).
Lemma He0 : (0 < eps)%R. Proof. unfold eps. now apply grid_eps_pos. Qed.
Lemma ring_nz k : (k <= 2)%nat -> (1 + (INR k - 1) * eps <> 0)%R.
Proof. intros Hk. pose proof He0. destruct k as [|[|[|]]]; simpl INR; [|lra|lra|lia]. replace (1 + (0 - 1) * eps)%R with (1 - eps)%R by ring. lra. Qed.
Definition good (vals : list C) (k : nat) : Prop :=
  length vals = (3 * M)%nat /\ forall r j, (r < k)%nat -> (j < M)%nat -> nth (r * M + j) vals 0 = pv (ring_point phi0 phi1 M r j).
Lemma gs_rings_ok junk : (forall k a n, length (junk k a n) = n) ->
  forall cnt k vals, (k + cnt = 3)%nat -> good vals k ->
  exists vals', gs_rings cnt k junk deg p phi0 eps M vals = Ret (0%Z, vals') /\ good vals' 3.
Proof.
  intros Hj. induction cnt as [|cnt IH]; intros k vals Hk (L & G).
  - exists vals. split; [reflexivity|]. replace 3%nat with k by lia. split; assumption.
  - cbn [gs_rings]. destruct (rd_ok vals (k * M) M 0) as (blk & E & Lb & _); [rewrite L; nia|]. rewrite E. cbn [bind].
    assert (Hnz : (1 + (INR k - 1) * eps <> 0)%R) by (apply ring_nz; lia).
    destruct (poly_chirpz_spec (junk k) deg p (ring_A phi0 eps k) (cis eps) M blk) as (b & E1 & L1 & N1 & _); auto; try lia.
    { unfold ring_A. apply Cmult_neq_0; [|apply Cexp_neq0]. intros Q. apply Hnz. now injection Q. }
    { apply Cexp_neq0. }
    rewrite E1. cbn [bind]. change (0 =? 0)%Z with true. cbn [negb].
    destruct (wr_ok vals (k * M) b 0) as (v' & E2 & L2 & N2); [rewrite L, L1, Lb; nia|]. rewrite E2. cbn [bind].
    apply IH; [lia|]. split; [lia|]. intros r j Hr Hjm. rewrite N2, L1, Lb.
    destruct (Nat.eq_dec r k) as [->|Nr].
    + rewrite (proj2 (Nat.leb_le (k * M) (k * M + j))) by lia. rewrite (proj2 (Nat.ltb_lt (k * M + j) (k * M + M))) by lia. cbn [andb].
      replace (k * M + j - k * M)%nat with j by lia. rewrite N1 by exact Hjm. f_equal. unfold ring_A. now apply chirp_node.
    + assert (Hlt : (r * M + j < k * M)%nat) by nia. destruct (Nat.leb_spec (k * M) (r * M + j)); [lia|]. cbn [andb]. apply G; lia.
Qed.
Lemma ring1 j : ring_point phi0 phi1 M 1 j = z0 j.
Proof. unfold ring_point. simpl INR. replace (1 + (1 - 1) * ((phi1 - phi0) / INR (M - 1)))%R with 1%R by ring. now rewrite Rinv_1, Cmult_1_l. Qed.

Lemma rgt_false a b : rgt a b = false <-> (a <= b)%R.
Proof. unfold rgt. destruct (Rlt_dec b a); split; intros; try discriminate; try lra; reflexivity. Qed.
Lemma gs_skip_ok vals i : good vals 3 -> (1 <= i <= M - 2)%nat ->
  exists b, gs_skip vals M i = Ret b /\ (b = false <-> local_min p phi0 phi1 M i).
Proof.
  intros (L & G) Hi. unfold gs_skip.
  assert (V : forall r j, (r < 3)%nat -> (j < M)%nat -> forall n, n = (r * M + j)%nat -> aget vals n = Ret (pv (ring_point phi0 phi1 M r j))).
  { intros r j Hr Hj n ->. rewrite (aget_nth vals 0) by nia. now rewrite G. }
  rewrite (V 1%nat i) by lia. cbn [bind].
  rewrite (V 0%nat (i - 1)%nat) by lia. cbn [bind]. rewrite (V 0%nat i) by lia. rewrite (V 0%nat (i + 1)%nat) by lia.
  rewrite (V 1%nat (i - 1)%nat) by lia. rewrite (V 1%nat (i + 1)%nat) by lia.
  rewrite (V 2%nat (i - 1)%nat) by lia. rewrite (V 2%nat i) by lia. rewrite (V 2%nat (i + 1)%nat) by lia. cbn [bind].
  assert (Y : forall b, (b = false <-> forall k j, (k <= 2)%nat -> (i - 1 <= j <= i + 1)%nat ->
      (Cmod (pv (ring_point phi0 phi1 M 1 i)) <= Cmod (pv (ring_point phi0 phi1 M k j)))%R) -> (b = false <-> local_min p phi0 phi1 M i)).
  { intros b. unfold local_min. now rewrite ring1. }
  repeat match goal with |- context [rgt ?a ?b] =>
    let Q := fresh "Q" in destruct (rgt a b) eqn:Q;
    [ exists true; split; [reflexivity|]; apply Y; split; [discriminate|]; intros W;
      assert (rgt a b = false) by (apply rgt_false; apply W; lia); congruence
    | apply rgt_false in Q ] end.
  exists false. split; [reflexivity|]. apply Y. split; [|reflexivity]. intros _ k j Hk Hj.
  assert (k = 0 \/ k = 1 \/ k = 2)%nat as [-> | [-> | ->]] by lia;
  assert (j = i - 1 \/ j = i \/ j = i + 1)%nat as [-> | [-> | ->]] by lia; try assumption. lra.
Qed.

Definition fitc (i : nat) : C := csum (fit_set i) (fun jk => Cconj (fit_point phi0 phi1 M (snd jk) (fst jk) - z0 i)
                              * (pv (ring_point phi0 phi1 M (snd jk) (fst jk)) - pv (z0 i))).
Definition fitr (i : nat) : R := rsum (fit_set i) (fun jk => (Cmod (fit_point phi0 phi1 M (snd jk) (fst jk) - z0 i)%C) ^ 2)%R.
Lemma gs_fit_ok vals i : good vals 3 -> (1 <= i <= M - 2)%nat ->
  gs_fit vals M phi0 eps (z0 i) (pv (z0 i)) i = Ret (fitc i, fitr i).
Proof.
  intros (L & G) Hi. unfold gs_fit, fitc, fitr.
  assert (V : forall r j n, (r < 3)%nat -> (j < M)%nat -> n = (r * M + j)%nat -> aget vals n = Ret (pv (ring_point phi0 phi1 M r j))).
  { intros r j n Hr Hj ->. rewrite (aget_nth vals 0) by nia. now rewrite G. }
  assert (B : forall j k st, (j < M)%nat -> (k < 3)%nat -> gs_fit_body vals M phi0 eps (z0 i) (pv (z0 i)) j k st =
    if (j =? 0)%nat && (k =? 1)%nat then Ret st else
    Ret (fst st + Cconj (fit_point phi0 phi1 M k j - z0 i) * (pv (ring_point phi0 phi1 M k j) - pv (z0 i)),
         (snd st + (Cmod (fit_point phi0 phi1 M k j - z0 i)%C) ^ 2)%R)).
  { intros j k [c t] Hj Hk. unfold gs_fit_body. destruct ((j =? 0)%nat && (k =? 1)%nat); [reflexivity|].
    rewrite (V k j) by lia. cbn [bind fst snd]. rewrite cis_e. unfold fit_point. fold (angle phi0 phi1 M j).
    change ((phi1 - phi0) / INR (M - 1))%R with eps. change (phi0 + INR j * eps)%R with (angle phi0 phi1 M j). f_equal. f_equal. ring. }
  clear V G L.
  destruct i as [|[|i]]; [lia| |].
  - cbn [Nat.sub for_]. repeat (rewrite B by lia; cbn [Nat.eqb andb bind]).
    unfold fit_set. cbn -[pv Cconj fit_point ring_point angle Cmod pow Cmult Cminus Cplus RtoC]. cbn [fst snd]. f_equal. f_equal; ring.
  - replace (S (S i) - 1)%nat with (S i) by lia. cbn [for_]. repeat (rewrite B by lia; cbn [Nat.eqb andb bind]).
    unfold fit_set. cbn -[pv Cconj fit_point ring_point angle Cmod pow Cmult Cminus Cplus RtoC]. cbn [fst snd]. f_equal. f_equal; ring.
Qed.

Lemma rsum_nonneg {A} (l : list A) f : (forall a, 0 <= f a)%R -> (0 <= rsum l f)%R.
Proof. intros H. induction l as [|a l IH]; [apply Rle_refl|]. cbn. pose proof (H a). unfold rsum in IH. lra. Qed.
Lemma fitr_pos i : (1 <= i)%nat -> (0 < fitr i)%R.
Proof.
  intros Hi. unfold fitr, fit_set. replace (seq (i - 1) 3) with ((i - 1)%nat :: seq i 2).
  2: { destruct i as [|i]; [lia|]. cbn [Nat.sub]. rewrite Nat.sub_0_r. reflexivity. }
  cbn [list_prod map seq app filter fst snd]. change (0 =? 1)%nat with false. rewrite Bool.andb_false_r. cbn [negb rsum fold_right fst snd].
  apply Rplus_lt_le_0_compat.
  - apply pow_lt. apply Cmod_gt_0. intros E. apply (f_equal Cmod) in E || idtac.
    assert (Q : fit_point phi0 phi1 M 0 (i - 1) = z0 i) by (replace (fit_point phi0 phi1 M 0 (i - 1)) with (fit_point phi0 phi1 M 0 (i - 1) - z0 i + z0 i) by ring; apply Cmod_eq_0 in E || idtac; try (rewrite Cmod_0 in E; apply Cmod_eq_0 in E); rewrite E; ring).
    apply (f_equal Cmod) in Q. unfold fit_point in Q. rewrite Cmod_mult, !e_mod, Cmod_R, Rmult_1_r in Q.
    change ((phi1 - phi0) / INR (M - 1))%R with eps in Q. cbn [INR] in Q. pose proof He0. rewrite Rabs_pos_eq in Q by nra. nra.
  - apply (rsum_nonneg _ (fun jk => (Cmod (fit_point phi0 phi1 M (snd jk) (fst jk) - z0 i)%C) ^ 2)%R). intros a. apply pow_le, Cmod_ge_0.
Qed.
Lemma slope_eq i : ls_slope p phi0 phi1 M i = fitc i / RtoC (fitr i). Proof. reflexivity. Qed.
Definition accepted (i : nat) (z : C) : Prop :=
  local_min p phi0 phi1 M i /\ estimate p phi0 phi1 M i z /\ (Cmod (z - z0 i)%C <= eps)%R.
Lemma estimate_unique i z z' : estimate p phi0 phi1 M i z -> estimate p phi0 phi1 M i z' -> z = z'.
Proof. unfold estimate. intros [(N & E)|(N & _ & E)] [(N' & E')|(N' & _ & E')]; congruence. Qed.
Lemma gs_step vals i : good vals 3 -> (1 <= i <= M - 2)%nat ->
  exists o : option C,
    (forall cnt nroots roots, (nroots < length roots)%nat ->
       gs_loop (S cnt) i vals M phi0 eps nroots roots =
       match o with None => gs_loop cnt (S i) vals M phi0 eps nroots roots
                  | Some z => gs_loop cnt (S i) vals M phi0 eps (S nroots) (upd roots nroots z) end)
    /\ (forall z, o = Some z <-> accepted i z).
Proof.
  intros G Hi. destruct (gs_skip_ok vals i G Hi) as (b & Eb & Hb).
  assert (Ev : aget vals (M + i) = Ret (pv (z0 i))).
  { destruct G as (L & G). rewrite (aget_nth vals 0) by nia. f_equal. rewrite <- ring1. rewrite <- (G 1%nat i) by lia. f_equal. lia. }
  pose proof (fitr_pos i ltac:(lia)) as Pos.
  assert (Est : accepted i (z0 i - pv (z0 i) / ls_slope p phi0 phi1 M i) -> True) by auto. clear Est.
  destruct b.
  { exists None. split.
    - intros cnt nroots roots _. cbn [gs_loop]. rewrite Eb. reflexivity.
    - intros z. split; [discriminate|]. intros (A & _). apply Hb in A. discriminate. }
  assert (Hmin : local_min p phi0 phi1 M i) by (now apply Hb).
  assert (Unf : forall cnt nroots roots, gs_loop (S cnt) i vals M phi0 eps nroots roots =
     if ceq (ls_slope p phi0 phi1 M i) 0 then
        if negb (ceq (pv (z0 i)) 0) then gs_loop cnt (S i) vals M phi0 eps nroots roots
        else roots <- aset roots nroots (z0 i) ;; gs_loop cnt (S i) vals M phi0 eps (S nroots) roots
      else
        if rgt (Cmod (z0 i - pv (z0 i) / ls_slope p phi0 phi1 M i - z0 i)) eps then gs_loop cnt (S i) vals M phi0 eps nroots roots
        else roots <- aset roots nroots (z0 i - pv (z0 i) / ls_slope p phi0 phi1 M i) ;;
             gs_loop cnt (S i) vals M phi0 eps (S nroots) roots).
  { intros cnt nroots roots. cbn [gs_loop]. rewrite Eb. cbn [bind]. rewrite Ev. cbn [bind]. rewrite cis_e.
    change (phi0 + INR i * eps)%R with (angle phi0 phi1 M i). rewrite (gs_fit_ok vals i G Hi). cbn [bind].
    destruct (Req_EM_T (fitr i) 0) as [Z|_]; [lra|]. rewrite slope_eq. reflexivity. }
  unfold ceq, rgt in Unf. destruct (Ceq_dec (ls_slope p phi0 phi1 M i) 0) as [Z|NZ].
  - destruct (Ceq_dec (pv (z0 i)) 0) as [Y|NY]; cbn [negb] in Unf.
    + exists (Some (z0 i)). split.
      * intros cnt nroots roots Hn. rewrite Unf, aset_upd by exact Hn. reflexivity.
      * assert (A : accepted i (z0 i)).
        { split; [exact Hmin|]. split; [right; auto|]. replace (z0 i - z0 i) with (RtoC 0) by ring. rewrite Cmod_0. pose proof He0. lra. }
        intros z. split; [intros [= <-]; exact A|]. intros (_ & B & _). f_equal. destruct A as (_ & A & _). now apply (estimate_unique i).
    + exists None. split.
      * intros cnt nroots roots _. apply Unf.
      * intros z. split; [discriminate|]. intros (_ & [(A & _)|(_ & A & _)] & _); contradiction.
  - destruct (Rlt_dec eps (Cmod (z0 i - pv (z0 i) / ls_slope p phi0 phi1 M i - z0 i))) as [Q|Q].
    + exists None. split.
      * intros cnt nroots roots _. apply Unf.
      * intros z. split; [discriminate|]. intros (_ & [(_ & A)|(A & _)] & B); [|contradiction]. subst z. lra.
    + exists (Some (z0 i - pv (z0 i) / ls_slope p phi0 phi1 M i)). split.
      * intros cnt nroots roots Hn. rewrite Unf, aset_upd by exact Hn. reflexivity.
      * assert (A : accepted i (z0 i - pv (z0 i) / ls_slope p phi0 phi1 M i)).
        { split; [exact Hmin|]. split; [left; auto|]. lra. }
        intros z. split; [intros [= <-]; exact A|]. intros (_ & B & _). f_equal. destruct A as (_ & A & _). now apply (estimate_unique i).
Qed.
Lemma gs_loop_ok vals : good vals 3 -> forall cnt i nroots (roots : list C) (acc : list (nat * C)),
  (1 <= i)%nat -> (i + cnt = M - 1)%nat -> (nroots <= i - 1)%nat -> (M - 2 <= length roots)%nat -> nroots = length acc ->
  (forall k, (k < nroots)%nat -> nth k roots 0 = snd (nth k acc (0%nat, RtoC 0))) ->
  increasing (map fst acc) -> (forall j, In j (map fst acc) -> (j < i)%nat) ->
  (forall j z, In (j, z) acc <-> (1 <= j < i)%nat /\ accepted j z) ->
  exists roots' acc', gs_loop cnt i vals M phi0 eps nroots roots = Ret (0%Z, length acc', roots')
    /\ length roots' = length roots
    /\ (forall k, (k < length acc')%nat -> nth k roots' 0 = snd (nth k acc' (0%nat, RtoC 0)))
    /\ (forall k, (length acc' <= k)%nat -> nth k roots' 0 = nth k roots 0)
    /\ (length acc <= length acc' <= M - 2)%nat
    /\ increasing (map fst acc') /\ (forall j z, In (j, z) acc' <-> (1 <= j <= M - 2)%nat /\ accepted j z).
Proof.
  intros G. induction cnt as [|cnt IH]; intros i nroots roots acc H1 Hi Hn HL Ha Hr Hinc Hlt Hin.
  - exists roots, acc. cbn [gs_loop]. rewrite Ha in *. split; [reflexivity|]. split; [reflexivity|]. split; [exact Hr|]. split; [auto|].
    split; [lia|]. split; [exact Hinc|]. intros j z. rewrite Hin. split; intros (A & B); (split; [lia|exact B]).
  - destruct (gs_step vals i G ltac:(lia)) as (o & E & Ho). rewrite E by lia. destruct o as [z|].
    + assert (Az : accepted i z) by (now apply Ho).
      destruct (IH (S i) (S nroots) (upd roots nroots z) (acc ++ [(i, z)])) as (r' & a' & E' & L' & R1 & R2 & B & I1 & I2).
      * lia. * lia. * lia. * rewrite upd_length. lia. * rewrite app_length. cbn. lia.
      * intros k Hk. rewrite nth_upd by lia. destruct (Nat.eqb_spec k nroots) as [->|Nk].
        -- rewrite app_nth2 by lia. rewrite Ha, Nat.sub_diag. reflexivity.
        -- rewrite app_nth1 by lia. apply Hr. lia.
      * rewrite map_app. cbn [map fst]. clear - Hinc Hlt. induction (map fst acc) as [|a l IHl]; [cbn; auto|].
        cbn [app increasing] in *. destruct Hinc as (A & B). split; [|apply IHl; [exact B|intros j Hj; apply Hlt; now right]].
        destruct l as [|b l]; cbn [app]; [apply Hlt; now left|exact A].
      * intros j. rewrite map_app, in_app_iff. cbn [map fst In]. intros [A|[<-|[]]]; [apply Hlt in A; lia|lia].
      * intros j z'. rewrite in_app_iff, Hin. cbn [In]. split.
        -- intros [(A & B)|[[= <- <-]|[]]]; (split; [lia|assumption]).
        -- intros (A & B). destruct (Nat.eq_dec j i) as [->|Nj]; [|left; split; [lia|exact B]].
           right. left. f_equal. apply Ho in B. now injection B.
      * exists r', a'. split; [exact E'|]. split; [rewrite L'; apply upd_length|]. split; [exact R1|].
        rewrite app_length in B. cbn [length] in B.
        split; [|split; [lia|split; [exact I1|exact I2]]].
        intros k Hk. rewrite R2 by exact Hk. rewrite nth_upd by lia. destruct (Nat.eqb_spec k nroots); [lia|reflexivity].
    + destruct (IH (S i) nroots roots acc) as (r' & a' & HH); auto; try lia.
      * intros j Hj. apply Hlt in Hj. lia.
      * intros j z. rewrite Hin. split; intros (A & B); (split; [|exact B]); [lia|].
        destruct (Nat.eq_dec j i) as [->|Nj]; [|lia]. apply Ho in B. discriminate.
      * exists r', a'. exact HH.
Qed.
End Gen.

(** ** poly_roots_fftgridsearch *)
Theorem gridsearch_result junk junkv (deg : nat) (p : list C) (M : nat) (phi0 phi1 : R) (roots : list C) :
  (forall k a n, length (junk k a n) = n) -> (forall n, length (junkv n) = n) -> (2 <= deg)%nat -> length p = (deg + 1)%nat ->
  (2 <= M)%nat -> (phi0 < phi1)%R -> ((phi1 - phi0) / INR (M - 1) <> 1)%R -> (M - 2 <= length roots)%nat ->
  exists roots' (acc : list (nat * C)),
    poly_roots_fftgridsearch junk junkv deg (Some p) (Some M) (Some (Fin phi0, Fin phi1)) (Some roots)
      = Ret (0%Z, Some (length acc), Some roots')
    /\ length roots' = length roots /\ (length acc <= M - 2)%nat
    /\ (forall k, (k < length acc)%nat -> nth k roots' 0 = snd (nth k acc (0%nat, RtoC 0)))
    /\ (forall k, (length acc <= k)%nat -> nth k roots' 0 = nth k roots 0)
    /\ increasing (map fst acc)
    (* exactly the interior grid points with locally minimal modulus whose estimate is close *)
    /\ (forall i z, In (i, z) acc <-> (1 <= i <= M - 2)%nat /\ local_min p phi0 phi1 M i /\ estimate p phi0 phi1 M i z
          /\ (Cmod (z - eitheta (angle phi0 phi1 M i))%C <= (phi1 - phi0) / INR (M - 1))%R).
Proof.
  intros Hj Hjv Hd Hp HM Hphi Heps HL. unfold poly_roots_fftgridsearch.
  destruct (Nat.ltb_spec deg 2) as [?|_]; [lia|]. destruct (Nat.ltb_spec M 2) as [?|_]; [lia|].
  rewrite phi_bad_fin by exact Hphi. cbn [fst snd phi_val].
  destruct (gs_rings_ok deg p M phi0 phi1 Hp HM Hphi Heps junk Hj 3 0 (junkv (3 * M)%nat)) as (vals & E & G); [reflexivity| |].
  { split; [apply Hjv|]. intros r j Hr. lia. }
  rewrite E. cbn [bind]. change (0 =? 0)%Z with true. cbn [negb].
  destruct (gs_loop_ok deg p M phi0 phi1 Hp HM Hphi Heps vals G (M - 2) 1 0 roots []) as (r' & acc & E' & L' & R1 & R2 & B & I1 & I2);
    [lia|lia|lia|lia|reflexivity|intros k Hk; lia|exact I|intros j []|intros j z; split; [intros []|lia]|].
  rewrite E'. cbn [bind]. change (0 =? 0)%Z with true. cbn [negb].
  exists r', acc. split; [reflexivity|]. split; [exact L'|]. split; [lia|]. split; [exact R1|]. split; [exact R2|]. split; [exact I1|]. exact I2.
Qed.
