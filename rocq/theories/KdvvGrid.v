(** * The grid search of fnft_kdvv (C50): proofs *)
From Coq Require Import Reals Lra Sorted.
From Coquelicot Require Import Coquelicot.
From Verif Require Import Loop MiscSpec MiscProof MiscProps MiscMetricProps MiscNumProps PolyFmultProof DiscProps NsevSpec NsevProps
  NsevSafe NsevSafe2 NsevSafe3 NsevSafe4 KdvvSpec KdvvProps KdvvSafe.
Local Open Scope C_scope.

(** the scaling factors used for the cell that ends at the grid point i *)
Definition cell_scale (Ws : option (list Z)) (i : nat) : R * R :=
  match Ws with
  | None => (1, 1)%R
  | Some w => let s := Z.quot (nth i w 0%Z - nth (i - 1) w 0%Z) 2 in (powerRZ 2 s, powerRZ 2 (- s))
  end.
(** the value stored for the candidate i *)
Definition hit (a x : nat -> C) (Ws : option (list Z)) (i : nat) (z : C) : Prop :=
  (a i = 0 -> z = x i) /\
  (sign_change a i -> let s := cell_scale Ws i in
     z = (x (i - 1)%nat * RtoC (fst s) * RtoC (fst (a i)) - x i * RtoC (snd s) * RtoC (fst (a (i - 1)%nat)))
         / RtoC (fst s * fst (a i) - snd s * fst (a (i - 1)%nat))%R).

Lemma cell_scale_pos Ws i : (0 < fst (cell_scale Ws i))%R /\ (0 < snd (cell_scale Ws i))%R.
Proof. destruct Ws as [w|]; cbn [cell_scale fst snd]; [split; apply powerRZ_lt; lra|lra]. Qed.
Lemma weights_nonzero (s1 s2 x y : R) : (0 < s1)%R -> (0 < s2)%R -> (x * y < 0)%R -> (s1 * x - s2 * y <> 0)%R.
Proof.
  intros H1 H2 Hxy. destruct (Rlt_dec 0 x) as [Hx|Hx].
  - assert (y < 0)%R by nra. nra.
  - assert (0 < y)%R by nra. assert (x < 0)%R by nra. nra.
Qed.

Lemma hit_found a x Ws i z : hit a x Ws i z -> found_at a x i z.
Proof.
  intros [H1 H2]. split; [exact H1|]. intros Hs. specialize (H2 Hs). cbv zeta in H2. destruct Hs as (_ & _ & Hs).
  destruct (cell_scale_pos Ws i) as [P1 P2]. set (s1 := fst (cell_scale Ws i)) in *. set (s2 := snd (cell_scale Ws i)) in *.
  set (u := fst (a i)) in *. set (v := fst (a (i - 1)%nat)) in *.
  pose proof (weights_nonzero s1 s2 u v P1 P2 Hs) as Hd.
  exists (- s2 * v / (s1 * u - s2 * v))%R. split.
  - destruct (Rlt_dec 0 u) as [Hu|Hu].
    + assert (v < 0)%R by nra. assert (0 < s1 * u)%R by nra. assert (0 < - s2 * v)%R by nra. split.
      * apply Rdiv_lt_0_compat; lra.
      * apply (Rmult_lt_reg_r (s1 * u - s2 * v)); [lra|]. unfold Rdiv. rewrite Rmult_assoc, Rinv_l by exact Hd. lra.
    + assert (0 < v)%R by nra. assert (u < 0)%R by nra. assert (s1 * u < 0)%R by nra. assert (0 < s2 * v)%R by nra.
      replace (- s2 * v / (s1 * u - s2 * v))%R with (s2 * v / (s2 * v - s1 * u))%R by (field; lra). split.
      * apply Rdiv_lt_0_compat; lra.
      * apply (Rmult_lt_reg_r (s2 * v - s1 * u)); [lra|]. unfold Rdiv. rewrite Rmult_assoc, Rinv_l by lra. lra.
  - rewrite H2. replace (1 - - s2 * v / (s1 * u - s2 * v))%R with (s1 * u / (s1 * u - s2 * v))%R by (field; exact Hd).
    rewrite !RtoC_div, !RtoC_mult, RtoC_opp by exact Hd. unfold Cdiv. ring.
Qed.

(** without scaling, or if the exponents of the scaling factors differ by an even number, the value is the zero of the
   straight line through the true values of Re a *)
Lemma hit_secant a x Ws i z : hit a x Ws i z -> sign_change a i ->
  (forall w, Ws = Some w -> Z.Even (nth i w 0%Z - nth (i - 1) w 0%Z)) ->
  let val j := RtoC (fst (a j) * match Ws with Some w => powerRZ 2 (nth j w 0%Z) | None => 1 end)%R in
  is_secant_zero (x (i - 1)%nat) (x i) (val (i - 1)%nat) (val i) z.
Proof.
  intros [_ H2] Hs He. specialize (H2 Hs). cbv zeta in *. destruct Hs as (_ & _ & Hs). unfold is_secant_zero.
  destruct (cell_scale_pos Ws i) as [P1 P2]. pose proof (weights_nonzero _ _ _ _ P1 P2 Hs) as Hd.
  set (u := fst (a i)) in *. set (v := fst (a (i - 1)%nat)) in *.
  assert (HC : exists c, c <> 0%R /\ match Ws with Some w => powerRZ 2 (nth i w 0%Z) | None => 1 end = (c * fst (cell_scale Ws i))%R
     /\ match Ws with Some w => powerRZ 2 (nth (i - 1) w 0%Z) | None => 1 end = (c * snd (cell_scale Ws i))%R).
  { destruct Ws as [w|]; cbn [cell_scale fst snd]; [|exists 1%R; repeat split; lra].
    destruct (He w eq_refl) as (k & Hk). exists (powerRZ 2 (nth (i - 1) w 0%Z + k)). split; [apply powerRZ_NOR; lra|].
    rewrite Hk. replace (2 * k)%Z with (k * 2)%Z by ring. rewrite Z.quot_mul by discriminate.
    rewrite <- !powerRZ_add by lra. split; f_equal; lia. }
  destruct HC as (c & Hc & -> & ->). set (s1 := fst (cell_scale Ws i)) in *. set (s2 := snd (cell_scale Ws i)) in *.
  assert (Hcd : (c * (s1 * u - s2 * v) <> 0)%R) by (apply Rmult_integral_contrapositive; auto).
  split.
  - intros E. apply RtoC_inj in E. apply Hcd. lra.
  - rewrite H2.
    assert (HcC : RtoC c <> 0) by (intros E; apply RtoC_inj in E; contradiction).
    assert (HdC : RtoC s1 * RtoC u - RtoC s2 * RtoC v <> 0).
    { rewrite <- !RtoC_mult, <- RtoC_minus. intros E. apply RtoC_inj in E. contradiction. }
    rewrite RtoC_minus, !RtoC_mult. field. split; [|exact HdC]. intros E. apply Hcd. apply RtoC_inj.
    rewrite RtoC_mult, RtoC_minus, !RtoC_mult. rewrite <- E. ring.
Qed.

Lemma firstn_upd {A} (l : list A) n x : (n < length l)%nat -> firstn (S n) (upd l n x) = firstn n l ++ [x].
Proof. revert n. induction l as [|a l IH]; intros [|n] H; cbn in *; try lia; [reflexivity|]. f_equal. apply IH. lia. Qed.
Lemma firstn_upd_low {A} (l : list A) n m x : (n <= m)%nat -> firstn n (upd l m x) = firstn n l.
Proof. revert n m. induction l as [|a l IH]; intros [|n] [|m] H; cbn in *; try lia; try reflexivity. f_equal. apply IH. lia. Qed.

Definition sc_at (sc : list C) (i : nat) : C := nth (4 * i) sc 0.
Definition pt_at (xi : list C) (i : nat) : C := nth i xi 0.

Lemma crossings_spec M xi sc Ws Kmax : length xi = M -> length sc = (4 * M)%nat -> (forall w, Ws = Some w -> (M <= length w)%nat) ->
  forall cnt i K bs, (i + cnt = M)%nat -> (K <= Kmax)%nat -> (Kmax <= length bs)%nat ->
  exists c K' bs' is, crossings cnt i xi sc Ws Kmax K bs = Ret (c, (K', bs')) /\ kept Kmax bs bs' /\ (K' <= Kmax)%nat
    /\ StronglySorted Nat.lt is /\ (forall j, In j is <-> (i <= j < M)%nat /\ candidate (sc_at sc) j)
    /\ ((K + length is <= Kmax)%nat -> c = SUCCESS /\ K' = (K + length is)%nat
         /\ exists zs, Forall2 (hit (sc_at sc) (pt_at xi) Ws) is zs /\ firstn K' bs' = firstn K bs ++ zs)
    /\ ((Kmax < K + length is)%nat -> c = (- EC_OTHER)%Z).
Proof.
  intros Lx Ls Lw. induction cnt as [|k IH]; intros i K bs Hi HK Hb; cbn [crossings].
  - exists SUCCESS, K, bs, []. split; [reflexivity|]. split; [apply kept_refl|]. split; [lia|]. split; [constructor|].
    split; [intros j; split; [contradiction|lia]|]. split; [|cbn [length]; lia].
    intros _. split; [reflexivity|]. cbn [length]. split; [lia|]. exists []. split; [constructor|]. now rewrite app_nil_r.
  - cbv zeta. change (E_SUBROUTINE EC_OTHER) with (Ret (- EC_OTHER)%Z). cbn [bind].
    assert (Ha : forall j, (j < M)%nat -> aget sc (4 * j) = Ret (sc_at sc j)) by (intros j Hj; apply aget_nth; lia).
    assert (Hx : forall j, (j < M)%nat -> aget xi j = Ret (pt_at xi j)) by (intros j Hj; apply aget_nth; lia).
    rewrite Ha by lia. cbn [bind].
    (* no candidate *)
    assert (Hno : ~ candidate (sc_at sc) i -> exists c K' bs' is, crossings k (S i) xi sc Ws Kmax K bs = Ret (c, (K', bs')) /\ kept Kmax bs bs' /\ (K' <= Kmax)%nat
      /\ StronglySorted Nat.lt is /\ (forall j, In j is <-> (i <= j < M)%nat /\ candidate (sc_at sc) j)
      /\ ((K + length is <= Kmax)%nat -> c = SUCCESS /\ K' = (K + length is)%nat
         /\ exists zs, Forall2 (hit (sc_at sc) (pt_at xi) Ws) is zs /\ firstn K' bs' = firstn K bs ++ zs)
      /\ ((Kmax < K + length is)%nat -> c = (- EC_OTHER)%Z)).
    { intros Hn. destruct (IH (S i) K bs) as (c & K' & bs' & is & E & H1 & H2 & H3 & H4 & H5 & H6); [lia|exact HK|exact Hb|].
      exists c, K', bs', is. split; [exact E|]. split; [exact H1|]. split; [exact H2|]. split; [exact H3|]. split; [|auto].
      intros j. rewrite H4. split; intros [Hj Hc]; (split; [|exact Hc]); [lia|].
      destruct (Nat.eq_dec i j) as [->|]; [contradiction|lia]. }
    (* the candidate i with the value z *)
    assert (Hyes : forall z, candidate (sc_at sc) i -> hit (sc_at sc) (pt_at xi) Ws i z -> exists c K' bs' is,
      (if (Kmax <=? K)%nat then Ret ((- EC_OTHER)%Z, (K, bs)) else bs <- aset bs K z ;; crossings k (S i) xi sc Ws Kmax (S K) bs) = Ret (c, (K', bs')) /\ kept Kmax bs bs' /\ (K' <= Kmax)%nat
      /\ StronglySorted Nat.lt is /\ (forall j, In j is <-> (i <= j < M)%nat /\ candidate (sc_at sc) j)
      /\ ((K + length is <= Kmax)%nat -> c = SUCCESS /\ K' = (K + length is)%nat
         /\ exists zs, Forall2 (hit (sc_at sc) (pt_at xi) Ws) is zs /\ firstn K' bs' = firstn K bs ++ zs)
      /\ ((Kmax < K + length is)%nat -> c = (- EC_OTHER)%Z)).
    { intros z Hc Hz. destruct (Nat.leb_spec Kmax K) as [Hf|Hf].
      - destruct (IH (S i) K bs) as (c & K' & bs' & is & _ & _ & _ & H3 & H4 & _); [lia|exact HK|exact Hb|].
        exists (- EC_OTHER)%Z, K, bs, (i :: is). split; [reflexivity|]. split; [apply kept_refl|]. split; [exact HK|]. split.
        { constructor; [exact H3|]. apply Forall_forall. intros j Hj. apply H4 in Hj. lia. }
        split; [|split; [cbn [length]; lia|reflexivity]]. intros j. cbn [In]. rewrite H4. split.
        + intros [<-|[Hj Hcj]]; [split; [lia|exact Hc]|split; [lia|exact Hcj]].
        + intros [Hj Hcj]. destruct (Nat.eq_dec i j); [now left|right; split; [lia|exact Hcj]].
      - rewrite aset_upd by lia. cbn [bind].
        destruct (IH (S i) (S K) (upd bs K z)) as (c & K' & bs' & is & E & H1 & H2 & H3 & H4 & H5 & H6); [lia|lia|rewrite upd_length; lia|].
        exists c, K', bs', (i :: is). split; [exact E|]. split. { eapply kept_trans; [|exact H1]. apply kept_upd. lia. }
        split; [exact H2|]. split.
        { constructor; [exact H3|]. apply Forall_forall. intros j Hj. apply H4 in Hj. lia. }
        split; [|split].
        + intros j. cbn [In]. rewrite H4. split.
          * intros [<-|[Hj Hcj]]; [split; [lia|exact Hc]|split; [lia|exact Hcj]].
          * intros [Hj Hcj]. destruct (Nat.eq_dec i j); [now left|right; split; [lia|exact Hcj]].
        + cbn [length]. intros HL. destruct H5 as (S1 & S2 & zs & F & Ez); [lia|]. split; [exact S1|]. split; [lia|].
          exists (z :: zs). split; [now constructor|]. rewrite Ez, firstn_upd by lia. now rewrite <- app_assoc.
        + cbn [length]. intros HL. apply H6. lia. }
    unfold ceq at 1. destruct (Ceq_dec (sc_at sc i) 0) as [Ez|Nz].
    + destruct (Hyes (pt_at xi i)) as (c & K' & bs' & is & E & HH); [now left| |].
      { split; [reflexivity|]. intros (Hn & _). contradiction. }
      exists c, K', bs', is. split; [|exact HH]. rewrite <- E. destruct (Kmax <=? K)%nat; [reflexivity|]. rewrite Hx by lia. reflexivity.
    + destruct (Nat.eqb_spec i 0) as [E0|N0].
      { apply Hno. intros [Hz|(_ & Hz & _)]; [contradiction|lia]. }
      rewrite Ha by lia. cbn [bind]. destruct (Rlt_dec (fst (sc_at sc i) * fst (sc_at sc (i - 1))) 0) as [Hlt|Hge].
      2:{ apply Hno. intros [Hz|(_ & _ & Hz)]; [contradiction|lra]. }
      assert (Hsc : sign_change (sc_at sc) i) by (split; [exact Nz|split; [lia|exact Hlt]]).
      destruct (cell_scale_pos Ws i) as [P1 P2]. pose proof (weights_nonzero _ _ _ _ P1 P2 Hlt) as Hd.
      set (s := cell_scale Ws i) in *.
      set (z := (pt_at xi (i - 1)%nat * RtoC (fst s) * RtoC (fst (sc_at sc i)) - pt_at xi i * RtoC (snd s) * RtoC (fst (sc_at sc (i - 1)%nat)))
         / RtoC (fst s * fst (sc_at sc i) - snd s * fst (sc_at sc (i - 1)%nat))%R).
      destruct (Hyes z) as (c & K' & bs' & is & E & HH); [now right| |].
      { split; [contradiction|]. intros _. reflexivity. }
      exists c, K', bs', is. split; [|exact HH]. rewrite <- E. destruct (Kmax <=? K)%nat; [reflexivity|].
      assert (Escl : match Ws with
               | None => Ret (1, 1)%R
               | Some Ws => l <- aget Ws i ;; l' <- aget Ws (i - 1) ;;
                            Ret (powerRZ 2 (Z.quot (l - l') 2), powerRZ 2 (- Z.quot (l - l') 2))
               end = Ret s).
      { unfold s. destruct Ws as [w|]; [|reflexivity]. specialize (Lw w eq_refl). rewrite !(aget_nth w 0%Z) by lia. reflexivity. }
      rewrite Escl. cbn [bind]. rewrite !Hx by lia. cbn [bind].
      match goal with |- context [cdivr _ ?d] => replace d with (fst s * fst (sc_at sc i) - snd s * fst (sc_at sc (i - 1)%nat))%R by (unfold Cminus, Cplus, Copp, Cmult, RtoC; cbn [fst snd]; ring) end.
      rewrite cdivr_ok by exact Hd. reflexivity.
Qed.

Lemma grid_axis E M dist i : on_imaginary_axis (pt_at (search_grid E M dist) i).
Proof.
  unfold pt_at. destruct (Nat.lt_ge_cases i (length (search_grid E M dist))) as [H|H].
  - assert (HI := nth_In _ (RtoC 0) H). apply in_map_iff in HI. destruct HI as (j & Ej & _). rewrite <- Ej. reflexivity.
  - rewrite nth_overflow by exact H. reflexivity.
Qed.
Lemma found_axis a x i z : (forall j, on_imaginary_axis (x j)) -> candidate a i -> found_at a x i z -> on_imaginary_axis z.
Proof.
  intros Hx Hc [H1 H2]. destruct Hc as [Hc|Hc]; [rewrite (H1 Hc); apply Hx|]. destruct (H2 Hc) as (t & _ & ->).
  unfold on_imaginary_axis in *. unfold Cplus, Cmult, RtoC. cbn [fst snd]. rewrite !Hx. ring.
Qed.
Lemma search_grid_length E M dist : length (search_grid E M dist) = M.
Proof. unfold search_grid. now rewrite map_length, seq_length. Qed.

(** ** The bound on the bound states *)
Lemma max_re_spec cnt stride (q : list C) : (forall i, (i < cnt)%nat -> (stride * i < length q)%nat) ->
  exists b, max_re cnt stride q = Ret b /\ (0 <= b)%R /\ (forall i, (i < cnt)%nat -> (fst (nth (stride * i) q 0) <= b)%R)
    /\ (b = 0%R \/ exists i, (i < cnt)%nat /\ b = fst (nth (stride * i) q 0)).
Proof.
  intros HL. unfold max_re.
  match goal with |- context [for_ cnt 0 ?f ?s] => destruct (for_inv (fun n b => (0 <= b)%R /\ (forall i, (i < n)%nat -> (fst (nth (stride * i) q 0) <= b)%R)
    /\ (b = 0%R \/ exists i, (i < n)%nat /\ b = fst (nth (stride * i) q 0))) f cnt 0%nat s) as (b & Eb & Hb) end.
  - split; [lra|]. split; [intros; lia|now left].
  - intros i b Hi (H1 & H2 & H3). rewrite (aget_nth q 0) by (apply HL; lia). cbn [bind]. eexists. split; [reflexivity|].
    destruct (Rlt_dec (fst (nth (stride * i) q 0)) b) as [Hl|Hg].
    + split; [exact H1|]. split.
      * intros j Hj. destruct (Nat.eq_dec j i) as [->|]; [lra|apply H2; lia].
      * destruct H3 as [H3|(j & Hj & H3)]; [now left|right; exists j; split; [lia|exact H3]].
    + split; [lra|]. split.
      * intros j Hj. destruct (Nat.eq_dec j i) as [->|]; [lra|]. specialize (H2 j ltac:(lia)). lra.
      * right. exists i. split; [lia|reflexivity].
  - exists b. auto.
Qed.
(** every how manyth preprocessed sample is a sample of the potential, and the safety factor *)
Definition sample_stride (d : kdv_disc) : nat := match d with K_ES4_VANILLA | K_TES4_VANILLA | K_ES4 | K_TES4 => 3 | _ => 1 end.
Definition safety_factor (d : kdv_disc) : R := if (kdv_upsampling_factor d <=? 2)%nat then 1 else 2.
Lemma bound_squared_spec D Dg (q : list C) d : kdv_known d -> D = (Dg * kdv_upsampling_factor d)%nat -> length q = D ->
  exists b, bound_squared D q d = Ret (safety_factor d * b)%R /\ (0 <= b)%R
    /\ (forall i, (sample_stride d * i < D)%nat -> (fst (nth (sample_stride d * i) q 0) <= b)%R)
    /\ (b = 0%R \/ exists i, (sample_stride d * i < D)%nat /\ b = fst (nth (sample_stride d * i) q 0)).
Proof.
  intros Hd HD Lq. unfold bound_squared, safety_factor.
  destruct (max_re_spec D 1 q) as (b & Eb & B1 & B2 & B3); [intros; lia|].
  assert (H1 : sample_stride d = 1%nat -> (0 <= b)%R
    /\ (forall i, (sample_stride d * i < D)%nat -> (fst (nth (sample_stride d * i) q 0) <= b)%R)
    /\ (b = 0%R \/ exists i, (sample_stride d * i < D)%nat /\ b = fst (nth (sample_stride d * i) q 0))).
  { intros ->. split; [exact B1|]. split; [intros i Hi; apply B2; lia|]. destruct B3 as [B3|(i & Hi & B3)]; [now left|right; exists i; split; [lia|exact B3]]. }
  destruct (Nat.leb_spec (kdv_upsampling_factor d) 2) as [Hu|Hu].
  - exists b. rewrite Eb, Rmult_1_l. split; [reflexivity|]. apply H1. destruct d; cbn in *; try reflexivity; lia.
  - rewrite Eb. destruct (max_re_spec ((D + 2) / 3) 3 q) as (b' & Eb' & B1' & B2' & B3').
    { intros i Hi. pose proof (Nat.div_mod (D + 2) 3 ltac:(lia)). pose proof (Nat.mod_upper_bound (D + 2) 3 ltac:(lia)). lia. }
    rewrite Eb'. assert (Hr : forall i, (3 * i < D)%nat -> (i < (D + 2) / 3)%nat).
    { intros i Hi. pose proof (Nat.div_mod (D + 2) 3 ltac:(lia)). pose proof (Nat.mod_upper_bound (D + 2) 3 ltac:(lia)). lia. }
    assert (H3 : sample_stride d = 3%nat -> (0 <= b')%R
      /\ (forall i, (sample_stride d * i < D)%nat -> (fst (nth (sample_stride d * i) q 0) <= b')%R)
      /\ (b' = 0%R \/ exists i, (sample_stride d * i < D)%nat /\ b' = fst (nth (sample_stride d * i) q 0))).
    { intros ->. split; [exact B1'|]. split; [intros i Hi; apply B2'; now apply Hr|]. destruct B3' as [B3'|(i & Hi & B3')]; [now left|right; exists i; split; [|exact B3']].
      pose proof (Nat.div_mod (D + 2) 3 ltac:(lia)). pose proof (Nat.mod_upper_bound (D + 2) 3 ltac:(lia)). lia. }
    destruct d; cbn [bind sample_stride] in *; try (exists b; split; [f_equal; ring|now apply H1]); (exists b'; split; [f_equal; ring|now apply H3]).
Qed.
