(** * Refinement proofs for the slow scattering: the precomputed arrays, the steps *)
From Coq Require Import Reals Lra Lia List ZArith.
From Coquelicot Require Import Coquelicot.
From Verif Require Import Base Loop Mem Fields ErrModel CExp CField CDeriv CMean MiscNumModel MiscNumProps MiscMetricProps MiscSincBound
  DiscTables DiscModel DiscProps FscatterSpec FscatterProof FscatterModel FscatterProps ScatterSpec MatExp ScatterStep ScatterModel ScatterProof.
Import ListNotations.
Local Open Scope C_scope.

(** ** tmp1, tmp2, ... *)
Lemma triples_mul D m : D = (3 * m)%nat -> triples D = m.
Proof. intros HD. unfold triples. rewrite HD. replace (3 * m + 2)%nat with (2 + m * 3)%nat by lia. rewrite Nat.div_add by lia. reflexivity. Qed.
Section Pre.
Variables (D m : nat) (q r : list C) (eps_t : R).
Hypothesis HD : D = (3 * m)%nat.
Hypothesis Hq : (D <= length q)%nat.
Hypothesis Hr : (D <= length r)%nat.
Let qf i := nth i q (RtoC 0).
Let rf i := nth i r (RtoC 0).
Let triples_m := triples_mul D m HD.
Lemma pre_loop_ok (f : C -> C -> C -> C -> C -> C -> list C) L : (L <= 3)%nat -> (forall a b c x y z, length (f a b c x y z) = L) ->
  exists t, pre_loop D q r f = Ret t /\ length t = D /\ forall i j, (i < m)%nat -> (j < L)%nat ->
    nth (3 * i + j) t (RtoC 0) = nth j (f (qf (3*i)) (qf (3*i+1)) (qf (3*i+2)) (rf (3*i)) (rf (3*i+1)) (rf (3*i+2)))%nat (RtoC 0).
Proof.
  intros HL Hf. unfold pre_loop. rewrite triples_m.
  pose (P := fun (k : nat) (t : list C) => length t = D /\ forall i j, (i < k)%nat -> (j < L)%nat ->
    nth (3 * i + j) t (RtoC 0) = nth j (f (qf (3*i)) (qf (3*i+1)) (qf (3*i+2)) (rf (3*i)) (rf (3*i+1)) (rf (3*i+2)))%nat (RtoC 0)).
  match goal with |- exists t, for_ ?n ?lo ?b ?s = _ /\ _ => destruct (for_inv P b n lo s) as (t & E & Lt & Ht) end.
  - split; [apply repeat_length|]. intros i j Hi. lia.
  - intros i t Hi (Lt & Ht). rewrite !(aget_nth _ (RtoC 0)) by lia. cbn [bind].
    destruct (wr_list_ok (f (qf (3*i)%nat) (qf (3*i+1)%nat) (qf (3*i+2)%nat) (rf (3*i)%nat) (rf (3*i+1)%nat) (rf (3*i+2)%nat)) (3 * i) t) as (t' & E & L' & N').
    { rewrite Hf. lia. }
    exists t'. split; [exact E|]. split; [lia|]. intros i' j Hi' Hj. rewrite N', Hf.
    destruct (Nat.leb_spec (3 * i) (3 * i' + j)), (Nat.ltb_spec (3 * i' + j) (3 * i + L)); cbn [andb].
    + assert (i' = i) by lia. subst i'. replace (3 * i + j - 3 * i)%nat with j by lia. reflexivity.
    + apply Ht; lia.
    + apply Ht; lia.
    + apply Ht; lia.
  - exists t. split; [exact E|]. split; [exact Lt|]. intros i j Hi Hj. apply Ht; lia.
Qed.
End Pre.

Definition weights (d : akns_disc) : list C := match akns_method_weights d with inr (_, w) => w | inl _ => [] end.
Definition multiple3 (d : akns_disc) (D : nat) : Prop := match d with A_ES4 | A_TES4 => (D mod 3 = 0)%nat | _ => True end.

Lemma e3_C (e : R) : RtoC (e * e * e) = RtoC e * RtoC e * RtoC e. Proof. now rewrite !RtoC_mult. Qed.
Lemma e2_C (e : R) : RtoC (e * e) = RtoC e * RtoC e. Proof. now rewrite !RtoC_mult. Qed.
Ltac pauli_tac := apply mat2_eq; cbn [a11 a12 a21 a22 madd mscal mmul mcomm mopp offd akns_A mone]; field [Ci_sqr].

Lemma pauli_es4 (e : R) (l q0 q1 q2 r0 r1 r2 : C) :
  let t := es4_tmp1 e q0 q1 q2 r0 r1 r2 in let e3 := RtoC (e * e * e) in
  pauli (nth 0 t (RtoC 0) + e3 * (l * Ci * (q1 - r1)) / 12) (nth 1 t (RtoC 0) - e3 * l * (q1 + r1) / 12) (- RtoC e * Ci * l + nth 2 t (RtoC 0))
  = X_ES4 (RtoC e) l q0 q1 q2 r0 r1 r2.
Proof.
  cbv zeta. unfold es4_tmp1, pauli, X_ES4. cbn [nth]. rewrite e3_C, half_inv. generalize (RtoC e) as h. intros h. pauli_tac.
Qed.
Lemma pauli_es4_back (e : R) (l q0 q1 q2 r0 r1 r2 : C) :
  let t := es4_tmp1 e q0 q1 q2 r0 r1 r2 in let e3 := RtoC (e * e * e) in
  pauli (- nth 0 t (RtoC 0) - e3 * (l * Ci * (q1 - r1)) / 12) (- nth 1 t (RtoC 0) + e3 * l * (q1 + r1) / 12) (RtoC e * Ci * l - nth 2 t (RtoC 0))
  = mopp (X_ES4 (RtoC e) l q0 q1 q2 r0 r1 r2).
Proof.
  cbv zeta. unfold es4_tmp1, pauli, X_ES4. cbn [nth]. rewrite e3_C, half_inv. generalize (RtoC e) as h. intros h. pauli_tac.
Qed.
Lemma pauli_es4_deriv (e : R) (l q0 q1 q2 r0 r1 r2 : C) :
  let t := es4_tmp2 e q0 q1 q2 r0 r1 r2 in
  Mderive (fun z => X_ES4 (RtoC e) z q0 q1 q2 r0 r1 r2) l (pauli (nth 0 t (RtoC 0)) (nth 1 t (RtoC 0)) (nth 2 t (RtoC 0))).
Proof.
  cbv zeta. unfold es4_tmp2, pauli, X_ES4. cbn [nth]. rewrite e3_C. generalize (RtoC e) as h. intros h.
  unfold Mderive. cbn [a11 a12 a21 a22 madd mscal mmul mcomm mopp offd akns_A mone].
  refine (conj _ (conj _ (conj _ _))).
  - apply (Cderive_ext (fun z => h * (- Ci) * z + h * h * h / 12 * (q1 * r0 - q0 * r1))); [intros t; ring|].
    eapply Cderive_eq; [apply Cderive_plus; [apply Cderive_scal, Cderive_id|apply Cderive_const]|ring].
  - apply (Cderive_ext (fun z => h * h * h / 6 * Ci * q1 * z + (h * q0 + h * h * h / 24 * q2))); [intros t; field|].
    eapply Cderive_eq; [apply Cderive_plus; [apply Cderive_scal, Cderive_id|apply Cderive_const]|field].
  - apply (Cderive_ext (fun z => - (h * h * h / 6) * Ci * r1 * z + (h * r0 + h * h * h / 24 * r2))); [intros t; field|].
    eapply Cderive_eq; [apply Cderive_plus; [apply Cderive_scal, Cderive_id|apply Cderive_const]|field].
  - apply (Cderive_ext (fun z => h * Ci * z + h * h * h / 12 * (r1 * q0 - r0 * q1))); [intros t; field|].
    eapply Cderive_eq; [apply Cderive_plus; [apply Cderive_scal, Cderive_id|apply Cderive_const]|field].
Qed.
Lemma pauli_tes4 (e : R) (q0 q1 q2 r0 r1 r2 : C) :
  let P t := pauli (nth 0 t (RtoC 0)) (nth 1 t (RtoC 0)) (RtoC 0) in
  P (tes4_tmp1 e q0 q1 q2 r0 r1 r2) = X_TES4 (- (1)) (RtoC e) q1 q2 r1 r2 /\
  P (tes4_tmp2 e q0 q1 q2 r0 r1 r2) = X_TES4 1 (RtoC e) q1 q2 r1 r2 /\
  P (tes4_tmp3 e q0 q1 q2 r0 r1 r2) = mopp (X_TES4 1 (RtoC e) q1 q2 r1 r2) /\
  P (tes4_tmp4 e q0 q1 q2 r0 r1 r2) = mopp (X_TES4 (- (1)) (RtoC e) q1 q2 r1 r2).
Proof.
  cbv zeta. unfold tes4_tmp1, tes4_tmp2, tes4_tmp3, tes4_tmp4, pauli, X_TES4. cbn [nth]. rewrite e3_C, e2_C. generalize (RtoC e) as h. intros h.
  refine (conj _ (conj _ (conj _ _))); pauli_tac.
Qed.

Section Steps.
Variables (D : nat) (q r : list C) (eps_t : R).
Hypothesis Hq : (D <= length q)%nat.
Hypothesis Hr : (D <= length r)%nat.
Definition nthC (l : list C) (i : nat) : C := nth i l (RtoC 0).
Let qf := nthC q.
Let rf := nthC r.
Definition arr (f : R -> C -> C -> C -> C -> C -> C -> list C) (L : nat) (t : list C) : Prop :=
  length t = D /\ forall i j, (i < D / 3)%nat -> (j < L)%nat ->
    nthC t (3 * i + j) = nth j (f eps_t (qf (3*i)) (qf (3*i+1)) (qf (3*i+2)) (rf (3*i)) (rf (3*i+1)) (rf (3*i+2)))%nat (RtoC 0).
Definition prepared (d : akns_disc) (pr : prep) : Prop :=
  match stepper_of d, pr with
  | Some S_BO, P_BO es => es = map (fun x => x * RtoC eps_t) (weights d)
  | Some S_ES4, P_ES4 t1 t2 => arr es4_tmp1 3 t1 /\ arr es4_tmp2 3 t2
  | Some S_TES4, P_TES4 t1 t2 t3 t4 => arr tes4_tmp1 2 t1 /\ arr tes4_tmp2 2 t2 /\ arr tes4_tmp3 2 t3 /\ arr tes4_tmp4 2 t4
  | _, _ => False
  end.
Lemma pre_arr f L : (D mod 3 = 0)%nat -> (L <= 3)%nat -> (forall a b c x y z, length (f eps_t a b c x y z) = L) ->
  exists t, pre_loop D q r (f eps_t) = Ret t /\ arr f L t.
Proof.
  intros HD HL Hf. destruct (pre_loop_ok D (D / 3) q r) with (f := f eps_t) (L := L) as (t & E & Lt & Ht); try assumption.
  - pose proof (Nat.div_mod D 3). lia.
  - exists t. split; [exact E|]. split; assumption.
Qed.
Lemma prepare_ok d : is_slow d -> multiple3 d D -> exists pr, prepare D q r eps_t d = Ret (inr pr) /\ prepared d pr.
Proof.
  intros Hs Hm. unfold prepare, prepared.
  destruct Hs as [->|[->|[->|[->|[->|[->| ->]]]]]]; cbn [stepper_of];
    try (eexists; split; [reflexivity|reflexivity]).
  - cbn [multiple3] in Hm.
    destruct (pre_arr es4_tmp1 3 Hm) as (t1 & E1 & A1); [lia|reflexivity|].
    destruct (pre_arr es4_tmp2 3 Hm) as (t2 & E2 & A2); [lia|reflexivity|].
    rewrite E1. cbn [bind]. rewrite E2. cbn [bind]. eexists. split; [reflexivity|]. cbn iota. now split.
  - cbn [multiple3] in Hm.
    destruct (pre_arr tes4_tmp1 2 Hm) as (t1 & E1 & A1); [lia|reflexivity|].
    destruct (pre_arr tes4_tmp2 2 Hm) as (t2 & E2 & A2); [lia|reflexivity|].
    destruct (pre_arr tes4_tmp3 2 Hm) as (t3 & E3 & A3); [lia|reflexivity|].
    destruct (pre_arr tes4_tmp4 2 Hm) as (t4 & E4 & A4); [lia|reflexivity|].
    rewrite E1. cbn [bind]. rewrite E2. cbn [bind]. rewrite E3. cbn [bind]. rewrite E4. cbn [bind]. eexists. split; [reflexivity|]. cbn iota. repeat split; assumption || apply A1 || apply A2 || apply A3 || apply A4.
Qed.

Lemma weights_length d : is_slow d -> stepper_of d = Some S_BO -> length (weights d) = akns_upsampling_factor d /\ (0 < length (weights d))%nat.
Proof. intros Hs. destruct Hs as [->|[->|[->|[->|[->|[->| ->]]]]]]; cbn [stepper_of]; intros E; try discriminate; split; try reflexivity; cbv; lia. Qed.

Lemma aget_nthC (l : list C) i : (i < length l)%nat -> aget l i = Ret (nthC l i).
Proof. apply aget_nth. Qed.

Lemma arr_get f L t : arr f L t -> forall i j, (i < D / 3)%nat -> (j < L)%nat -> (L <= 3)%nat ->
  aget t (3 * i + j) = Ret (nth j (f eps_t (qf (3*i)) (qf (3*i+1)) (qf (3*i+2)) (rf (3*i)) (rf (3*i+1)) (rf (3*i+2)))%nat (RtoC 0)).
Proof.
  intros (A & B) i j Hi Hj HL. rewrite aget_nthC; [f_equal; now apply B|]. rewrite A. pose proof (Nat.div_mod D 3). lia.
Qed.

Lemma rd_d16 H H' : rd (d16 H H') 0 8 = Ret (firstn 8 (d16 H H')) /\ rd (d16 H H') 8 8 = Ret (skipn 8 (d16 H H')).
Proof. split; reflexivity. Qed.

Lemma half_false M H : mm 2 2 2 (l4 M) (l4 H) = Ret (l4 (mmul M H)). Proof. apply mm222. Qed.
Lemma half_true M H H' :
  (h0 <- rd (d16 H H') 0 8 ;; h1 <- rd (d16 H H') 8 8 ;; x <- mm 2 2 4 (l4 M) h0 ;; y <- mm 2 2 4 (l4 M) h1 ;; Ret (x ++ y))
  = Ret (d16 (mmul M H) (mmul M H')).
Proof.
  destruct (rd_d16 H H') as [-> ->]. cbn [bind]. rewrite mm224_top. cbn [bind]. rewrite mm224_bot. cbn [bind]. rewrite firstn_skipn. reflexivity.
Qed.

Definition step_result (pr : prep) (d : akns_disc) (l : C) (i : nat) : Prop :=
  let w := weights d in let ups := akns_upsampling_factor d in let h := RtoC eps_t in
  exists V, approx_step d w h qf rf i l V
    /\ (forall H, step q r eps_t false ups pr l i (l4 H) = Ret (l4 (mmul V H)))
    /\ (core_ok d w h qf rf i l -> exists V', approx_dstep d w h qf rf i l V V'
         /\ forall H H', step q r eps_t true ups pr l i (d16 H H') = Ret (d16 (mmul V H) (madd (mmul V' H) (mmul V H')))).

Lemma neq0_of_le (k : C) : (1 / 100000000 <= Cmod k)%R -> k <> 0.
Proof. intros H ->. rewrite Cmod_0 in H. lra. Qed.

Lemma step_ok d pr l i : is_slow d -> multiple3 d D -> prepared d pr -> (i < slow_steps d D)%nat -> step_result pr d l i.
Proof.
  intros Hs Hm Hp Hi. unfold step_result. unfold prepared in Hp. destruct (stepper_of d) as [s|] eqn:Es; [|contradiction].
  destruct s, pr; try contradiction.
  - (* BO, CF *)
    destruct (weights_length d Hs Es) as [Lw L0].
    assert (EC : forall z, step_core d (weights d) (RtoC eps_t) qf rf i z = X_BO (nth (i mod length (weights d)) (weights d) (RtoC 0) * RtoC eps_t) z (qf i) (rf i)).
    { intros z. destruct Hs as [->|[->|[->|[->|[->|[->| ->]]]]]]; cbn [stepper_of] in Es; try discriminate; reflexivity. }
    assert (EO : step_outer d (RtoC eps_t) qf rf i = None).
    { destruct Hs as [->|[->|[->|[->|[->|[->| ->]]]]]]; cbn [stepper_of] in Es; try discriminate; reflexivity. }
    assert (ED : slow_steps d D = D).
    { destruct Hs as [->|[->|[->|[->|[->|[->| ->]]]]]]; cbn [stepper_of] in Es; try discriminate; reflexivity. }
    set (w := weights d) in *. rewrite Hp. rewrite <- Lw. set (hh := nth (i mod length w) w (RtoC 0) * RtoC eps_t) in *.
    assert (EH : aget (map (fun x => x * RtoC eps_t) w) (i mod length w) = Ret hh).
    { rewrite aget_nthC.
      - unfold nthC. rewrite (nth_indep _ _ (RtoC 0 * RtoC eps_t)).
        + rewrite (map_nth (fun x => x * RtoC eps_t)). reflexivity.
        + rewrite map_length. apply Nat.mod_upper_bound. lia.
      - rewrite map_length. apply Nat.mod_upper_bound. lia. }
    exists (cexp_at (kBO (qf i) (rf i) l hh) (X_BO hh l (qf i) (rf i))). split; [|split].
    + unfold approx_step. rewrite EO, EC. eexists. exists mone, mone. split; [apply approx_cexp, kBO_sq|reflexivity].
    + intros H. unfold step. rewrite !aget_nthC by lia. cbn [bind]. rewrite EH. cbn [bind]. fold (qf i) (rf i).
      rewrite U_BO_value. cbn [bind dimof]. apply mm222.
    + intros HC. unfold core_ok in HC. rewrite EC in HC. pose proof (det_root_bound _ _ (kBO_sq (qf i) (rf i) l hh) HC) as HK.
      exists (dBO (qf i) (rf i) l hh). split.
      * unfold approx_dstep. rewrite EO, EC. exists (cexp_at (kBO (qf i) (rf i) l hh) (X_BO hh l (qf i) (rf i))), (dBO (qf i) (rf i) l hh), mone, mone.
        split; [apply approx_cexp, kBO_sq|]. split; [|split; reflexivity].
        destruct (dBO_approx (qf i) (rf i) l hh HK) as (E & HE & HE2). exists E. split; [|].
        -- refine (Mderive_ext _ _ _ _ _ HE). intros t. now rewrite EC.
        -- rewrite !EC. split; [apply HE2|]. intros dl Hdl. apply HE2. refine (Cderive_ext _ _ _ _ _ Hdl). intros t. now rewrite EC.
      * intros H H'. unfold step. rewrite !aget_nthC by lia. cbn [bind]. rewrite EH. cbn [bind]. fold (qf i) (rf i).
        rewrite U_BO_deriv by now apply neq0_of_le. cbn [bind dimof]. apply mm444.
  - (* ES4 *)
    assert (d = A_ES4) as -> by (destruct Hs as [->|[->|[->|[->|[->|[->| ->]]]]]]; cbn [stepper_of] in Es; congruence).
    destruct Hp as [A1 A2]. cbn [slow_steps] in Hi. cbn [multiple3] in Hm.
    assert (HiD : (3 * i + 2 < D)%nat) by (pose proof (Nat.div_mod D 3); lia).
    set (q0 := qf (3 * i)%nat). set (q1 := qf (3 * i + 1)%nat). set (q2 := qf (3 * i + 2)%nat).
    set (r0 := rf (3 * i)%nat). set (r1 := rf (3 * i + 1)%nat). set (r2 := rf (3 * i + 2)%nat).
    set (t := es4_tmp1 eps_t q0 q1 q2 r0 r1 r2).
    set (a1 := nth 0 t (RtoC 0) + RtoC (eps_t * eps_t * eps_t) * (l * Ci * (q1 - r1)) / 12).
    set (a2 := nth 1 t (RtoC 0) - RtoC (eps_t * eps_t * eps_t) * l * (q1 + r1) / 12).
    set (a3 := - RtoC eps_t * Ci * l + nth 2 t (RtoC 0)).
    assert (EX : pauli a1 a2 a3 = X_ES4 (RtoC eps_t) l q0 q1 q2 r0 r1 r2) by apply pauli_es4.
    assert (EA : es4_args q r eps_t tmp1 l (3 * i) = Ret (a1, a2, a3)).
    { unfold es4_args. rewrite !aget_nthC by lia. cbn [bind].
      replace (aget tmp1 (3 * i)) with (aget tmp1 (3 * i + 0)) by (f_equal; lia).
      rewrite !(arr_get _ _ _ A1) by lia. cbn [bind]. reflexivity. }
    exists (cexp_at (kES a1 a2 a3) (pauli a1 a2 a3)). split; [|split].
    + unfold approx_step. cbn [step_outer step_core]. eexists. exists mone, mone. split; [|reflexivity].
      fold q0 q1 q2 r0 r1 r2. rewrite <- EX. apply approx_cexp, kES_sq.
    + intros H. unfold step. rewrite EA. cbn [bind]. rewrite U_ES4_value. cbn [bind dimof]. apply mm222.
    + intros HC. unfold core_ok in HC. cbn [step_core] in HC. fold q0 q1 q2 r0 r1 r2 in HC. rewrite <- EX in HC.
      pose proof (det_root_bound _ _ (kES_sq a1 a2 a3) HC) as HK.
      set (t' := es4_tmp2 eps_t q0 q1 q2 r0 r1 r2).
      exists (dES a1 a2 a3 (nth 0 t' (RtoC 0)) (nth 1 t' (RtoC 0)) (nth 2 t' (RtoC 0))). split.
      * unfold approx_dstep. cbn [step_outer step_core]. do 2 eexists. exists mone, mone. split; [|split; [|split; reflexivity]].
        -- fold q0 q1 q2 r0 r1 r2. rewrite <- EX. apply approx_cexp, kES_sq.
        -- apply dES_approx; [symmetry; exact EX|apply pauli_es4_deriv|exact HK].
      * intros H H'. unfold step. rewrite EA. cbn [bind].
        replace (aget tmp2 (3 * i)) with (aget tmp2 (3 * i + 0)) by (f_equal; lia).
        rewrite !(arr_get _ _ _ A2) by lia. cbn [bind]. fold q0 q1 q2 r0 r1 r2. fold t'.
        rewrite U_ES4_deriv by now apply neq0_of_le. cbn [bind dimof]. apply mm444.
  - (* TES4 *)
    assert (d = A_TES4) as -> by (destruct Hs as [->|[->|[->|[->|[->|[->| ->]]]]]]; cbn [stepper_of] in Es; congruence).
    destruct Hp as (A1 & A2 & _ & _). cbn [slow_steps] in Hi. cbn [multiple3] in Hm.
    assert (HiD : (3 * i + 2 < D)%nat) by (pose proof (Nat.div_mod D 3); lia).
    set (q0 := qf (3 * i)%nat). set (q1 := qf (3 * i + 1)%nat). set (q2 := qf (3 * i + 2)%nat).
    set (r0 := rf (3 * i)%nat). set (r1 := rf (3 * i + 1)%nat). set (r2 := rf (3 * i + 2)%nat).
    destruct (pauli_tes4 eps_t q0 q1 q2 r0 r1 r2) as (E1 & E2 & _ & _). cbv zeta in E1, E2.
    set (u1 := nth 0 (tes4_tmp1 eps_t q0 q1 q2 r0 r1 r2) (RtoC 0)) in *. set (u2 := nth 1 (tes4_tmp1 eps_t q0 q1 q2 r0 r1 r2) (RtoC 0)) in *.
    set (v1 := nth 0 (tes4_tmp2 eps_t q0 q1 q2 r0 r1 r2) (RtoC 0)) in *. set (v2 := nth 1 (tes4_tmp2 eps_t q0 q1 q2 r0 r1 r2) (RtoC 0)) in *.
    assert (G1 : aget tmp1 (3 * i) = Ret u1) by (replace (3 * i)%nat with (3 * i + 0)%nat by lia; now rewrite (arr_get _ _ _ A1) by lia).
    assert (G2 : aget tmp1 (3 * i + 1) = Ret u2) by now rewrite (arr_get _ _ _ A1) by lia.
    assert (G3 : aget tmp2 (3 * i) = Ret v1) by (replace (3 * i)%nat with (3 * i + 0)%nat by lia; now rewrite (arr_get _ _ _ A2) by lia).
    assert (G4 : aget tmp2 (3 * i + 1) = Ret v2) by now rewrite (arr_get _ _ _ A2) by lia.
    set (VR := cexp_at (kES u1 u2 (RtoC 0)) (pauli u1 u2 (RtoC 0))). set (VL := cexp_at (kES v1 v2 (RtoC 0)) (pauli v1 v2 (RtoC 0))).
    set (h := RtoC eps_t). set (Vc := cexp_at (kBO q0 r0 l h) (X_BO h l q0 r0)).
    assert (AR : approx_exp (X_TES4 (- (1)) h q1 q2 r1 r2) VR) by (unfold h; rewrite <- E1; apply approx_cexp, kES_sq).
    assert (AL : approx_exp (X_TES4 1 h q1 q2 r1 r2) VL) by (unfold h; rewrite <- E2; apply approx_cexp, kES_sq).
    assert (AC : approx_exp (X_BO h l q0 r0) Vc) by apply approx_cexp, kBO_sq.
    exists (mmul VL (mmul Vc VR)). split; [|split].
    + unfold approx_step. cbn [step_outer step_core]. exists Vc, VL, VR. split; [exact AC|]. split; [exact AL|]. split; [exact AR|reflexivity].
    + intros H. unfold step. rewrite !aget_nthC by lia. cbn [bind]. rewrite G1, G2, G3, G4. cbn [bind dimof].
      rewrite !U_ES4_value. cbn [bind]. fold VR VL. rewrite mm222. cbn [bind]. fold (qf (3 * i)%nat) (rf (3 * i)%nat). fold q0 r0 h.
      rewrite U_BO_value. cbn [bind]. fold Vc. rewrite mm222. cbn [bind]. rewrite mm222. now rewrite !mmul_assoc.
    + intros HC. unfold core_ok in HC. cbn [step_core] in HC. fold q0 r0 in HC.
      pose proof (det_root_bound _ _ (kBO_sq q0 r0 l h) HC) as HK.
      exists (mmul VL (mmul (dBO q0 r0 l h) VR)). split.
      * unfold approx_dstep. cbn [step_outer step_core]. exists Vc, (dBO q0 r0 l h), VL, VR. split; [exact AC|].
        split; [exact (dBO_approx q0 r0 l h HK)|]. split; [exact AL|]. split; [exact AR|]. split; reflexivity.
      * intros H H'. unfold step. rewrite !aget_nthC by lia. cbn [bind]. rewrite G1, G2, G3, G4. cbn [bind dimof].
        rewrite !U_ES4_value. cbn [bind]. fold VR VL. rewrite half_true. cbn [bind]. fold (qf (3 * i)%nat) (rf (3 * i)%nat). fold q0 r0 h.
        rewrite U_BO_deriv by now apply neq0_of_le. cbn [bind]. fold Vc. rewrite mm444. cbn [bind]. rewrite half_true. f_equal. f_equal; mring.
Qed.
End Steps.
