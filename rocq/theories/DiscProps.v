(** * Theorems about the discretization tables, transforms, bases and phase factors (C25-C30) *)
From Coq Require Import Reals Lra String.
From Coquelicot Require Import Coquelicot.
From Verif Require Import DiscSpec DiscModel CDeriv.
Local Open Scope C_scope.

(** ** C25 *)
Ltac tab := first [reflexivity | vm_compute; intros;
  first [reflexivity | discriminate | congruence | exfalso; match goal with H : _ -> False |- _ => apply H; reflexivity end]].
(** Three names exist only in the AKNS enumeration and are implemented nowhere
   (fnft__akns_discretization_t.h:133, "TODO: added all discretization after this one"). *)
Definition akns_implemented (d : akns_disc) : Prop :=
  d <> A_other /\ d <> A_FTES4_4A /\ d <> A_FTES4_4B /\ d <> A_4SPLIT6B.

Theorem akns_tables_match_names d : akns_implemented d ->
  akns_method_order d = name_order (akns_name d) /\ akns_upsampling_factor d = name_upsampling (akns_name d)
  /\ (akns_degree d <> 0%nat <-> name_fast (akns_name d) = true) /\ akns_boundary_coeff d = Some (1/2)%R.
Proof. intros (H1 & H2 & H3 & H4). destruct d; try congruence; repeat split; tab. Qed.

Theorem akns_others_are_flagged d : ~ akns_implemented d ->
  akns_method_order d = 0%nat /\ akns_upsampling_factor d = 0%nat /\ akns_degree d = 0%nat
  /\ akns_boundary_coeff d = None /\ akns_weight_class d = None /\ akns_pre_class d = None.
Proof.
  intros H. unfold akns_implemented in H. destruct d; try (exfalso; apply H; repeat split; discriminate); repeat split; reflexivity.
Qed.

Theorem nse_map_keeps_name d a : nse_to_akns d = Some a <-> (d <> N_other /\ nse_name d = akns_name a).
Proof.
  split.
  - destruct d; intros H; try discriminate; injection H as <-; split; (discriminate || reflexivity).
  - intros [H E]. destruct d; try congruence; destruct a; vm_compute in E; congruence || reflexivity.
Qed.

Theorem kdv_map_keeps_name d a : kdv_to_akns d = Some a <-> (d <> K_other /\ strip_suffix "_VANILLA"%string (kdv_name d) = akns_name a).
Proof.
  split.
  - destruct d; intros H; try discriminate; injection H as <-; split; (discriminate || reflexivity).
  - intros [H E]. destruct d; try congruence; destruct a; vm_compute in E; congruence || reflexivity.
Qed.

Theorem kdv_vanilla_flag_is_suffix d : d <> K_other -> kdv_vanilla_flag d = Some (is_vanilla (kdv_name d)).
Proof. intros H. destruct d; try congruence; reflexivity. Qed.

(** Hence the NSE and KdV values are those of their names, too. *)
Theorem nse_tables_match_names d : d <> N_other ->
  nse_method_order d = name_order (nse_name d) /\ nse_upsampling_factor d = name_upsampling (nse_name d)
  /\ (nse_degree d <> 0%nat <-> name_fast (nse_name d) = true) /\ nse_boundary_coeff d = Some (1/2)%R.
Proof. intros H. destruct d; try congruence; repeat split; tab. Qed.

Theorem kdv_tables_match_names d : d <> K_other ->
  kdv_method_order d = name_order (kdv_name d) /\ kdv_upsampling_factor d = name_upsampling (kdv_name d)
  /\ (kdv_degree d <> 0%nat <-> name_fast (kdv_name d) = true) /\ kdv_boundary_coeff d = Some (1/2)%R.
Proof. intros H. destruct d; try congruence; repeat split; tab. Qed.

Theorem man_tables_match_names d : d <> M_other ->
  man_upsampling_factor d = name_upsampling (man_name d)
  /\ (man_degree d <> 0%nat <-> name_fast (man_name d) = true) /\ man_boundary_coeff d = Some (1/2)%R
  /\ (name_fast (man_name d) = true -> man_method_order d = name_order (man_name d)).
Proof. intros H. destruct d; try congruence; repeat split; tab. Qed.

(** The order of the slow Manakov methods is reported as 0 ("not implemented"), although they have
   orders 2 and 4. *)
Theorem man_order_of_slow_methods_refuted :
  exists d, man_upsampling_factor d <> 0%nat /\ name_order (man_name d) <> 0%nat /\ man_method_order d = 0%nat.
Proof. exists M_BO. repeat split; tab. Qed.

(** weights exist exactly for the known methods other than ES4/TES4, one step weight per sample *)
Theorem method_weights_lengths d :
  match akns_method_weights d with
  | inl c => c = 2%Z /\ (~ akns_implemented d \/ akns_pre_class d = Some P_ES4)
  | inr (w, e) => length e = akns_upsampling_factor d /\ exists cols, (length w = length e * cols)%nat
  end.
Proof.
  unfold akns_method_weights. destruct d eqn:E; cbn [akns_weight_class];
  try (split; [reflexivity|]; first [right; reflexivity|left; unfold akns_implemented; intros (? & ? & ? & ?); congruence]);
  (split; [reflexivity|]; first [exists 1%nat; reflexivity|exists 2%nat; reflexivity|exists 3%nat; reflexivity]).
Qed.

(** ** C26 *)
Theorem kdv_slow_companion d : d <> K_other ->
  exists d', kdv_slow_discretization d = Some d' /\ kdv_degree d' = 0%nat
    /\ kdv_upsampling_factor d' = kdv_upsampling_factor d /\ kdv_vanilla_flag d' = kdv_vanilla_flag d
    /\ kdv_method_order d' = kdv_method_order d
    /\ kdv_slow_discretization d' = Some d' /\ (kdv_degree d = 0%nat -> d' = d).
Proof. intros H. destruct d; try congruence; eexists; repeat split; try reflexivity; intros E; vm_compute in E; congruence. Qed.

Theorem kdv_slow_unknown : kdv_slow_discretization K_other = None.
Proof. reflexivity. Qed.

(** The companion also "shares the same preprocessing of the potential" (comment at fnft__kdv_discretization.c):
   the AKNS preprocessing branch is the same. *)
Theorem kdv_slow_same_preprocessing d d' a a' : kdv_slow_discretization d = Some d' ->
  kdv_to_akns d = Some a -> kdv_to_akns d' = Some a' -> akns_pre_class a' = akns_pre_class a /\ akns_weight_class a' = akns_weight_class a.
Proof. destruct d; intros E1 E2 E3; try discriminate; injection E1 as <-; injection E2 as <-; injection E3 as <-; split; reflexivity. Qed.

(** ** C27 *)
Lemma aget_Ret_nth (l : list C) i d : (i < length l)%nat -> aget l i = Ret (nth i l d).
Proof. apply aget_nth. Qed.

Lemma fill_map (g : C -> C) n vals : (n <= length vals)%nat ->
  exists vals', fill n 0 (fun i => v <- aget vals i ;; Ret (g v)) vals = Ret vals' /\ length vals' = length vals
    /\ (forall i, (i < n)%nat -> nth i vals' 0 = g (nth i vals 0)) /\ (forall i, (n <= i)%nat -> nth i vals' 0 = nth i vals 0).
Proof.
  intros L. destruct (fill_ok (fun i => g (nth i vals 0)) (RtoC 0) n 0 (fun i => v <- aget vals i ;; Ret (g v)) vals) as (v' & E & L' & N').
  { lia. } { intros i Hi. now rewrite (aget_nth vals 0) by lia. }
  exists v'. split; [exact E|]. split; [exact L'|]. split; intros i Hi; rewrite N'; cbn [Nat.leb andb Nat.add];
  destruct (Nat.ltb_spec i n); (lia || reflexivity).
Qed.

(** total step factor s = degree*upsampling (for FTES4_suzuki: 6) *)
Lemma RtoC_neq0 (x : R) : x <> 0%R -> RtoC x <> 0.
Proof. intros H E. injection E. exact H. Qed.

Lemma z_of_lambda_of_z (eps_t s : R) (z : C) : eps_t <> 0%R -> s <> 0%R -> z <> 0 ->
  Cexp (2 * Ci * (Clog z / (2 * Ci * RtoC eps_t / RtoC s)) * RtoC eps_t / RtoC s) = z.
Proof.
  intros He Hs Hz. rewrite <- (Cexp_log z Hz) at 2. f_equal. field.
  repeat split; try exact C2_neq0; try exact Ci_neq0; now apply RtoC_neq0.
Qed.

Lemma two_i_arg (eps_t s : R) (lam : C) : s <> 0%R ->
  2 * Ci * lam * RtoC eps_t / RtoC s = ((- (2 * snd lam * eps_t / s))%R, (2 * fst lam * eps_t / s)%R).
Proof.
  intros Hs. destruct lam as [a b]. apply Ceq; cbn; unfold Cdiv, Cinv; cbn; field; exact Hs.
Qed.

Lemma lambda_of_z_of_lambda (eps_t s : R) (lam : C) : eps_t <> 0%R -> s <> 0%R ->
  (- PI < 2 * fst lam * eps_t / s <= PI)%R ->
  Clog (Cexp (2 * Ci * lam * RtoC eps_t / RtoC s)) / (2 * Ci * RtoC eps_t / RtoC s) = lam.
Proof.
  intros He Hs Hb. rewrite Clog_exp.
  - field. repeat split; try exact C2_neq0; try exact Ci_neq0; now apply RtoC_neq0.
  - rewrite two_i_arg by exact Hs. cbn [fst snd]. exact Hb.
Qed.

Lemma step_modulus (eps_t s : R) (lam : C) : s <> 0%R ->
  Cmod (Cexp (2 * Ci * lam * RtoC eps_t / RtoC s)) = exp (- (2 * snd lam * eps_t / s)).
Proof. intros Hs. rewrite Cmod_Cexp, two_i_arg by exact Hs. reflexivity. Qed.

Section C27.
  (** [L2Z], [Z2L]: one of the pairs of routines, called with the discretization fixed;
     [s]: number such that z = exp(2 i lambda eps_t / s) *)
  Definition is_pair (L2Z Z2L : nat -> R -> list C -> out (Z * list C)) (s : R) : Prop :=
    (0 < s)%R
    /\ (forall n eps_t (vals : list C), (n <= length vals)%nat -> exists v', L2Z n eps_t vals = Ret (0%Z, v') /\ length v' = length vals
         /\ (forall i, (i < n)%nat -> nth i v' 0 = Cexp (2 * Ci * nth i vals 0 * RtoC eps_t / RtoC s))
         /\ (forall i, (n <= i)%nat -> nth i v' 0 = nth i vals 0))
    /\ (forall n eps_t (vals : list C), eps_t <> 0%R -> (n <= length vals)%nat -> exists v', Z2L n eps_t vals = Ret (0%Z, v') /\ length v' = length vals
         /\ (forall i, (i < n)%nat -> nth i v' 0 = Clog (nth i vals 0) / (2 * Ci * RtoC eps_t / RtoC s))
         /\ (forall i, (n <= i)%nat -> nth i v' 0 = nth i vals 0)).

  Lemma pair_round_trips L2Z Z2L s : is_pair L2Z Z2L s ->
    (forall n eps_t (vals v1 : list C), eps_t <> 0%R -> (n <= length vals)%nat ->
       (forall i, (i < n)%nat -> (- PI < 2 * fst (nth i vals 0) * eps_t / s <= PI)%R) ->
       L2Z n eps_t vals = Ret (0%Z, v1) -> Z2L n eps_t v1 = Ret (0%Z, vals))
    /\ (forall n eps_t (vals v1 : list C), eps_t <> 0%R -> (n <= length vals)%nat ->
       (forall i, (i < n)%nat -> nth i vals 0 <> 0) ->
       Z2L n eps_t vals = Ret (0%Z, v1) -> L2Z n eps_t v1 = Ret (0%Z, vals)).
  Proof.
    intros (Hs & H1 & H2). split; intros n eps_t vals v1 He Hn Hd E.
    - destruct (H1 n eps_t vals Hn) as (v & E1 & L1 & N1 & N1'). rewrite E1 in E. injection E as <-.
      destruct (H2 n eps_t v He ltac:(lia)) as (v2 & E2 & L2 & N2 & N2'). rewrite E2. do 2 f_equal.
      apply (list_eq_nth _ _ (RtoC 0)); [lia|]. intros i _. destruct (Nat.lt_ge_cases i n).
      + rewrite N2, N1 by assumption. apply lambda_of_z_of_lambda; auto. lra.
      + rewrite N2', N1' by assumption. reflexivity.
    - destruct (H2 n eps_t vals He Hn) as (v & E1 & L1 & N1 & N1'). rewrite E1 in E. injection E as <-.
      destruct (H1 n eps_t v ltac:(lia)) as (v2 & E2 & L2 & N2 & N2'). rewrite E2. do 2 f_equal.
      apply (list_eq_nth _ _ (RtoC 0)); [lia|]. intros i _. destruct (Nat.lt_ge_cases i n).
      + rewrite N2, N1 by assumption. apply z_of_lambda_of_z; auto. lra.
      + rewrite N2', N1' by assumption. reflexivity.
  Qed.

  Lemma akns_pair d : akns_implemented d -> name_fast (akns_name d) = true ->
    is_pair (fun n e v => akns_lambda_to_z n e v d) (fun n e v => akns_z_to_lambda n e v d)
      (INR (akns_degree d) * INR (akns_upsampling_factor d)).
  Proof.
    intros (I1 & I2 & I3 & I4) H.
    assert (Hd : akns_degree d <> 0%nat /\ akns_upsampling_factor d <> 0%nat).
    { destruct d; try congruence; vm_compute in H; try discriminate; vm_compute; split; congruence. }
    destruct Hd as [Hd Hu]. unfold is_pair, akns_lambda_to_z, akns_z_to_lambda.
    apply Nat.eqb_neq in Hd as Hd'. apply Nat.eqb_neq in Hu as Hu'. rewrite Hd', Hu'.
    split; [apply Rmult_lt_0_compat; apply lt_0_INR; lia|]. split.
    - intros n eps_t vals Hn.
      destruct (fill_map (fun v => Cexp (2 * Ci * v * RtoC eps_t / RtoC (INR (akns_degree d) * INR (akns_upsampling_factor d)))) n vals Hn) as (v' & E & R0).
      exists v'. rewrite E. split; [reflexivity|exact R0].
    - intros n eps_t vals He Hn.
      destruct (fill_map (fun v => Clog v / (2 * Ci * RtoC eps_t / RtoC (INR (akns_degree d) * INR (akns_upsampling_factor d)))) n vals Hn) as (v' & E & R0).
      exists v'. rewrite E. split; [reflexivity|exact R0].
  Qed.
End C27.

(** [s d]: z = exp(2 i lambda eps_t / s) *)
Definition akns_s d : R := (INR (akns_degree d) * INR (akns_upsampling_factor d))%R.
Definition man_s d : R := match d with M_FTES4_suzuki => 6%R | _ => (INR (man_degree d) * INR (man_upsampling_factor d))%R end.

Lemma via_akns_pair {X} (m : X -> option akns_disc) (d : X) a : m d = Some a -> akns_implemented a -> name_fast (akns_name a) = true ->
  is_pair (fun n e v => via_akns m d v (akns_lambda_to_z n e v)) (fun n e v => via_akns m d v (akns_z_to_lambda n e v)) (akns_s a).
Proof. intros E I H. unfold via_akns. rewrite E. now apply akns_pair. Qed.

Lemma man_pair d : name_fast (man_name d) = true ->
  is_pair (fun n e v => man_lambda_to_z n e v d) (fun n e v => man_z_to_lambda n e v d) (man_s d).
Proof.
  intros H.
  assert (Hc : d = M_FTES4_suzuki \/ (d <> M_FTES4_suzuki /\ man_degree d <> 0%nat /\ man_upsampling_factor d <> 0%nat)).
  { destruct d; vm_compute in H; try discriminate; auto; right; vm_compute; repeat split; congruence. }
  destruct Hc as [->|(Hn & Hd & Hu)].
  - cbn [man_s man_lambda_to_z man_z_to_lambda]. split; [lra|]. split.
    + intros n eps_t vals L. destruct (fill_map (fun v => Cexp (Ci * v * RtoC eps_t / 3)) n vals L) as (v' & E & L' & N1 & N2).
      cbn [man_lambda_to_z]. rewrite E. exists v'. split; [reflexivity|]. split; [exact L'|]. split; [|exact N2].
      intros i Hi. rewrite N1 by exact Hi. f_equal. apply Ceq; cbn; unfold Cdiv, Cinv; cbn; field.
    + intros n eps_t vals He L. destruct (fill_map (fun v => Clog v * 3 / (Ci * RtoC eps_t)) n vals L) as (v' & E & L' & N1 & N2).
      cbn [man_z_to_lambda]. rewrite E. exists v'. split; [reflexivity|]. split; [exact L'|]. split; [|exact N2].
      intros i Hi. rewrite N1 by exact Hi. apply RtoC_neq0 in He.
      assert (H3 : RtoC 3 <> 0) by (apply RtoC_neq0; lra).
      replace (RtoC 6) with (2 * RtoC 3) by (rewrite <- RtoC_mult; f_equal; lra).
      field. repeat split; try exact C2_neq0; try exact Ci_neq0; assumption.
  - assert (E1 : forall n e v, man_lambda_to_z n e v d = (vals <- fill n 0 (fun i => w <- aget v i ;; Ret (Cexp (2 * Ci * w * RtoC e / RtoC (man_s d)))) v ;; Ret (0%Z, vals))).
    { intros. destruct d; vm_compute in Hd; try congruence; reflexivity. }
    assert (E2 : forall n e v, man_z_to_lambda n e v d = (vals <- fill n 0 (fun i => w <- aget v i ;; Ret (Clog w * RtoC (man_s d) / (2 * Ci * RtoC e))) v ;; Ret (0%Z, vals))).
    { intros. destruct d; vm_compute in Hd; try congruence; reflexivity. }
    assert (Hs : (0 < man_s d)%R).
    { unfold man_s. destruct d; try congruence; (apply Rmult_lt_0_compat; apply lt_0_INR; lia). }
    split; [exact Hs|]. split.
    + intros n eps_t vals L. destruct (fill_map (fun v => Cexp (2 * Ci * v * RtoC eps_t / RtoC (man_s d))) n vals L) as (v' & E & R0).
      rewrite E1, E. exists v'. split; [reflexivity|exact R0].
    + intros n eps_t vals He L. destruct (fill_map (fun v => Clog v * RtoC (man_s d) / (2 * Ci * RtoC eps_t)) n vals L) as (v' & E & L' & N1 & N2).
      rewrite E2, E. exists v'. split; [reflexivity|]. split; [exact L'|]. split; [|exact N2].
      intros i Hi. rewrite N1 by exact Hi. apply RtoC_neq0 in He.
      assert (H3 : RtoC (man_s d) <> 0) by (apply RtoC_neq0; lra).
      field. repeat split; try exact C2_neq0; try exact Ci_neq0; assumption.
Qed.

(** The property for one of the four equation classes *)
Definition transforms_ok (L2Z Z2L : nat -> R -> list C -> out (Z * list C)) (s : R) : Prop :=
  (* values: z = exp(2 i lambda eps_t/s), entries from n on are not touched *)
  (forall n eps_t (vals : list C), (n <= length vals)%nat -> exists v', L2Z n eps_t vals = Ret (0%Z, v') /\ length v' = length vals
     /\ (forall i, (i < n)%nat -> nth i v' 0 = Cexp (2 * Ci * nth i vals 0 * RtoC eps_t / RtoC s)
          /\ Cmod (nth i v' 0) = exp (- (2 * snd (nth i vals 0) * eps_t / s)))
     /\ (forall i, (n <= i)%nat -> nth i v' 0 = nth i vals 0))
  (* lambda -> z -> lambda *)
  /\ (forall n eps_t (vals v1 : list C), eps_t <> 0%R -> (n <= length vals)%nat ->
       (forall i, (i < n)%nat -> (- PI < 2 * fst (nth i vals 0) * eps_t / s <= PI)%R) ->
       L2Z n eps_t vals = Ret (0%Z, v1) -> Z2L n eps_t v1 = Ret (0%Z, vals))
  (* z -> lambda -> z *)
  /\ (forall n eps_t (vals : list C), eps_t <> 0%R -> (n <= length vals)%nat -> (forall i, (i < n)%nat -> nth i vals 0 <> 0) ->
       exists v1, Z2L n eps_t vals = Ret (0%Z, v1) /\ L2Z n eps_t v1 = Ret (0%Z, vals)).

Lemma pair_ok L2Z Z2L s : is_pair L2Z Z2L s -> transforms_ok L2Z Z2L s.
Proof.
  intros H. destruct (pair_round_trips _ _ _ H) as [R1 R2]. destruct H as (Hs & H1 & H2). split; [|split].
  - intros n eps_t vals Hn. destruct (H1 n eps_t vals Hn) as (v' & E & L & N1 & N2). exists v'. split; [exact E|].
    split; [exact L|]. split; [|exact N2]. intros i Hi. split; [now apply N1|]. rewrite N1 by exact Hi. apply step_modulus. lra.
  - exact R1.
  - intros n eps_t vals He Hn Hz. destruct (H2 n eps_t vals He Hn) as (v1 & E & _). exists v1. split; [exact E|].
    exact (R2 n eps_t vals v1 He Hn Hz E).
Qed.

Theorem akns_transforms_inverse d : akns_implemented d -> name_fast (akns_name d) = true ->
  transforms_ok (fun n e v => akns_lambda_to_z n e v d) (fun n e v => akns_z_to_lambda n e v d) (akns_s d).
Proof. intros I H. apply pair_ok. now apply akns_pair. Qed.

Theorem nse_transforms_inverse d : name_fast (nse_name d) = true ->
  transforms_ok (fun n e v => nse_lambda_to_z n e v d) (fun n e v => nse_z_to_lambda n e v d)
    (INR (nse_degree d) * INR (nse_upsampling_factor d)).
Proof.
  intros H. assert (Ha : exists a, nse_to_akns d = Some a /\ akns_implemented a /\ name_fast (akns_name a) = true).
  { destruct d; vm_compute in H; try discriminate; (eexists; split; [reflexivity|split; [repeat split; discriminate|reflexivity]]). }
  destruct Ha as (a & Ea & Ia & Fa). unfold nse_degree, nse_upsampling_factor, via. rewrite Ea. apply pair_ok. now apply via_akns_pair.
Qed.

Theorem kdv_transforms_inverse d : name_fast (kdv_name d) = true ->
  transforms_ok (fun n e v => kdv_lambda_to_z n e v d) (fun n e v => kdv_z_to_lambda n e v d)
    (INR (kdv_degree d) * INR (kdv_upsampling_factor d)).
Proof.
  intros H. assert (Ha : exists a, kdv_to_akns d = Some a /\ akns_implemented a /\ name_fast (akns_name a) = true).
  { destruct d; vm_compute in H; try discriminate; (eexists; split; [reflexivity|split; [repeat split; discriminate|reflexivity]]). }
  destruct Ha as (a & Ea & Ia & Fa). unfold kdv_degree, kdv_upsampling_factor, via. rewrite Ea. apply pair_ok. now apply via_akns_pair.
Qed.

Theorem man_transforms_inverse d : name_fast (man_name d) = true ->
  transforms_ok (fun n e v => man_lambda_to_z n e v d) (fun n e v => man_z_to_lambda n e v d) (man_s d).
Proof. intros H. apply pair_ok. now apply man_pair. Qed.

Theorem transforms_reject_slow n e v :
  (forall d, ~ akns_implemented d \/ name_fast (akns_name d) = false -> akns_lambda_to_z n e v d = Ret (2%Z, v) /\ akns_z_to_lambda n e v d = Ret (2%Z, v))
  /\ (forall d, name_fast (man_name d) = false -> man_lambda_to_z n e v d = Ret (2%Z, v) /\ man_z_to_lambda n e v d = Ret (2%Z, v))
  /\ (forall d, name_fast (nse_name d) = false -> exists c, c <> 0%Z /\ nse_lambda_to_z n e v d = Ret (c, v) /\ nse_z_to_lambda n e v d = Ret (c, v))
  /\ (forall d, name_fast (kdv_name d) = false -> exists c, c <> 0%Z /\ kdv_lambda_to_z n e v d = Ret (c, v) /\ kdv_z_to_lambda n e v d = Ret (c, v)).
Proof.
  split; [|split; [|split]].
  - intros d H.
    assert (Hd : akns_degree d = 0%nat).
    { destruct H as [H|H]; [apply akns_others_are_flagged; exact H|]. destruct d; vm_compute in H; try discriminate; reflexivity. }
    unfold akns_lambda_to_z, akns_z_to_lambda. rewrite Hd. destruct (akns_upsampling_factor d =? 0)%nat; split; reflexivity.
  - intros d H. destruct d; vm_compute in H; try discriminate; split; reflexivity.
  - intros d H. destruct d; vm_compute in H; try discriminate;
    (exists 2%Z; split; [discriminate|split; reflexivity]) || (exists (-2)%Z; split; [discriminate|split; reflexivity]).
  - intros d H. destruct d; vm_compute in H; try discriminate;
    (exists 2%Z; split; [discriminate|split; reflexivity]) || (exists (-2)%Z; split; [discriminate|split; reflexivity]).
Qed.

(** real lambda go to the unit circle, Im lambda > 0 to its inside (eps_t > 0) *)
Theorem upper_half_plane_is_inside s eps_t lam : (0 < s)%R -> (0 < eps_t)%R ->
  let z := Cexp (2 * Ci * lam * RtoC eps_t / RtoC s) in
  (snd lam = 0 <-> Cmod z = 1)%R /\ ((0 < snd lam)%R <-> (Cmod z < 1)%R).
Proof.
  intros Hs He z. unfold z. rewrite step_modulus by lra.
  assert (Hk : (0 < 2 * eps_t / s)%R) by (apply Rdiv_lt_0_compat; lra).
  replace (2 * snd lam * eps_t / s)%R with (snd lam * (2 * eps_t / s))%R by (field; lra).
  set (k := (2 * eps_t / s)%R) in *. clearbody k. rewrite <- exp_0. split; split; intros H.
  - rewrite H. f_equal. lra.
  - apply exp_inv in H. nra.
  - apply exp_increasing. nra.
  - apply exp_lt_inv in H. nra.
Qed.

(** ** C28 *)
(** row-major n x n product and identity *)
Definition matprod (n : nat) (A B : list C) : list C :=
  tabulate (n * n) (fun k => fold_right Cplus 0 (map (fun j => nth (k / n * n + j) A 0 * nth (j * n + k mod n) B 0) (seq 0 n))).
Definition matid (n : nat) : list C := tabulate (n * n) (fun k => if (k / n =? k mod n)%nat then RtoC 1 else RtoC 0).
Definition size_of (df : bool) : nat := if df then 4%nat else 2%nat.

Lemma list4 (T : list C) : length T = 4%nat -> exists a b c d, T = [a; b; c; d].
Proof. destruct T as [|a [|b [|c [|d [|e T]]]]]; try discriminate. intros _. now exists a, b, c, d. Qed.
Lemma list16 (T : list C) : length T = 16%nat -> exists a b c d e f g h i j k l m n o p, T = [a; b; c; d; e; f; g; h; i; j; k; l; m; n; o; p].
Proof.
  do 17 (destruct T as [|? T]; try discriminate). intros _. do 16 eexists. reflexivity.
Qed.

Definition blocks (t11 t12 t21 t22 d11 d12 d21 d22 : C) : list C :=
  [t11; t12; RtoC 0; RtoC 0;  t21; t22; RtoC 0; RtoC 0;  d11; d12; t11; t12;  d21; d22; t21; t22].

Lemma writes_spec (df : bool) T t11 t12 t21 t22 d11 d12 d21 d22 : length T = (size_of df * size_of df)%nat ->
  (T <- wrs T (branch_writes df t11 t12 t21 t22 d11 d12 d21 d22) ;;
   (if df then (T <- fill_last_columns T ;; Ret (0%Z, T)) else Ret (0%Z, T)))
  = Ret (0%Z, if df then blocks t11 t12 t21 t22 d11 d12 d21 d22 else [t11; t12; t21; t22]).
Proof.
  destruct df; intros L.
  - destruct (list16 T L) as (a & b & c & d & e & f & g & h & i & j & k & l & m & n & o & p & ->). reflexivity.
  - destruct (list4 T L) as (a & b & c & d & ->). reflexivity.
Qed.

(** the eight numbers of the branches *)
Definition oct (ws : list (nat * C)) : list C := map snd ws.

Section Basis.
Variables (d : akns_disc) (vanilla df : bool) (eps_t : R).
Hypothesis Hd : akns_implemented d.

Lemma kdv_classes : exists m, akns_to_S_kdv_class d = Some m /\ akns_from_S_kdv_class d = Some m.
Proof. destruct Hd as (H1 & H2 & H3 & H4). destruct d; try congruence; eexists; split; reflexivity. Qed.
Lemma nse_classes : exists m, akns_to_S_nse_class d = Some m /\ akns_from_S_nse_class d = Some m.
Proof. destruct Hd as (H1 & H2 & H3 & H4). destruct d; try congruence; eexists; split; reflexivity. Qed.
End Basis.

Lemma half_2 : RtoC (1/2) * 2 = 1. Proof. rewrite <- RtoC_mult. f_equal. lra. Qed.
Lemma half_inv : RtoC (1/2) = / 2.
Proof. apply Ceq; cbn; field. Qed.
Lemma mhalf_inv : RtoC (-1/2) = - / 2.
Proof. apply Ceq; cbn; field. Qed.
Lemma exp_half_inv (xi e : C) : Cexp (RtoC (-1/2) * Ci * xi * e) = / Cexp (RtoC (1/2) * Ci * xi * e).
Proof. rewrite <- Cexp_opp. f_equal. rewrite half_inv, mhalf_inv. ring. Qed.

Lemma Cm1 : RtoC (-1) = - (1). Proof. apply Ceq; cbn; ring. Qed.
Lemma negCi : - Ci = / Ci. Proof. now rewrite Cinv_Ci. Qed.
Ltac mat_eq := unfold matprod, matid, tabulate, size_of, blocks; cbn -[Cmult Cplus Copp Cinv Cdiv RtoC Cexp Ci];
  repeat match goal with |- cons _ _ = cons _ _ => apply f_equal2 | |- nil = nil => reflexivity end.
Ltac side := repeat split; try exact C2_neq0; try exact Ci_neq0; try apply Cexp_neq0; try assumption.

Theorem change_of_basis_inverse pde d vanilla df (xi : C) (eps_t : R) T1 T2 : akns_implemented d ->
  (pde = PDE_NSE \/ (pde = PDE_KdV /\ xi <> 0)) ->
  length T1 = (size_of df * size_of df)%nat -> length T2 = (size_of df * size_of df)%nat ->
  exists A B, akns_to_S T1 xi df eps_t d vanilla pde = Ret (0%Z, A) /\ akns_from_S T2 xi df eps_t d vanilla pde = Ret (0%Z, B)
    /\ length A = (size_of df * size_of df)%nat /\ length B = (size_of df * size_of df)%nat
    /\ matprod (size_of df) A B = matid (size_of df) /\ matprod (size_of df) B A = matid (size_of df).
Proof.
  intros Hd Hp L1 L2. unfold akns_to_S, akns_from_S, basis_matrix. destruct Hp as [->|[-> Hxi]].
  - destruct (nse_classes d Hd) as (m & E1 & E2). rewrite E1, E2. unfold id_writes. rewrite !writes_spec by assumption.
    do 2 eexists. split; [reflexivity|]. split; [reflexivity|].
    destruct df; (split; [reflexivity|]; split; [reflexivity|]; split); mat_eq; ring.
  - destruct (Ceq_dec xi 0) as [Ez|_]; [now destruct (Hxi Ez)|].
    destruct (kdv_classes d Hd) as (m & E1 & E2). rewrite E1, E2. unfold to_S_kdv_writes, from_S_kdv_writes.
    pose proof (Cexp_neq0 (RtoC (1/2) * Ci * xi * RtoC eps_t)) as He.
    destruct m, vanilla; rewrite !writes_spec by assumption;
    (do 2 eexists; split; [reflexivity|]; split; [reflexivity|];
    destruct df; (split; [reflexivity|]; split; [reflexivity|]; split); mat_eq;
    rewrite ?exp_half_inv, ?half_inv, ?mhalf_inv, ?negCi; try (set (E := Cexp _) in *; clearbody E);
    rewrite ?Cm1; field; side).
Qed.

Lemma der_explin k e x : Cderive (fun x => Cexp (k * Ci * x * e)) x (k * Ci * e * Cexp (k * Ci * x * e)).
Proof.
  eapply Cderive_eq.
  - apply (Cderive_comp Cexp (fun x => k * Ci * x * e) x); [apply Cderive_exp|].
    apply (Cderive_ext (fun x => (k * Ci * e) * x)); [intros; ring|]. apply Cderive_scal, Cderive_id.
  - ring.
Qed.
Lemma der_inv (x : C) : x <> 0 -> Cderive (fun z => / z) x (- / (x * x)).
Proof. apply Cderive_inv. Qed.
Ltac der := first [ apply der_explin | apply Cderive_const | apply Cderive_id | (apply der_inv; assumption)
  | (eapply Cderive_mult; der) | (eapply Cderive_opp; der) | (eapply Cderive_plus; der) | (eapply Cderive_minus; der) ].

(** the derivative rows are the derivatives with respect to xi of the upper left block, and the matrix has the block
   structure [[M, 0], [M', M]] *)
Theorem change_of_basis_derivative pde d vanilla (eps_t : R) : akns_implemented d -> (pde = PDE_NSE \/ pde = PDE_KdV) ->
  exists A B : C -> list C,
    (forall (xi : C) T, xi <> 0 -> length T = 16%nat ->
       akns_to_S T xi true eps_t d vanilla pde = Ret (0%Z, A xi) /\ akns_from_S T xi true eps_t d vanilla pde = Ret (0%Z, B xi))
    /\ (forall (xi : C) r c, xi <> 0 -> (r < 2)%nat -> (c < 2)%nat ->
         Cderive (fun x => nth (4 * r + c) (A x) 0) xi (nth (4 * (r + 2) + c) (A xi) 0)
         /\ Cderive (fun x => nth (4 * r + c) (B x) 0) xi (nth (4 * (r + 2) + c) (B xi) 0)
         /\ nth (4 * r + c + 2) (A xi) 0 = 0 /\ nth (4 * (r + 2) + c + 2) (A xi) 0 = nth (4 * r + c) (A xi) 0
         /\ nth (4 * r + c + 2) (B xi) 0 = 0 /\ nth (4 * (r + 2) + c + 2) (B xi) 0 = nth (4 * r + c) (B xi) 0).
Proof.
  intros Hd [->| ->].
  - exists (fun _ => blocks 1 0 0 1 0 0 0 0), (fun _ => blocks 1 0 0 1 0 0 0 0). split.
    + intros xi T Hxi L. unfold akns_to_S, akns_from_S, basis_matrix. destruct (nse_classes d Hd) as (m & E1 & E2).
      rewrite E1, E2. unfold id_writes. split; apply (writes_spec true); exact L.
    + intros xi r c _ Hr Hc. destruct r as [|[|r]]; [| |lia]; (destruct c as [|[|c]]; [| |lia]);
      cbn -[Cderive RtoC]; refine (conj _ (conj _ (conj _ (conj _ (conj _ _))))); first [reflexivity|apply Cderive_const].
  - destruct (kdv_classes d Hd) as (m & E1 & E2).
    set (fA := fun xi => let l := oct (to_S_kdv_writes true vanilla m xi eps_t) in
       blocks (nth 0 l 0) (nth 1 l 0) (nth 2 l 0) (nth 3 l 0) (nth 4 l 0) (nth 5 l 0) (nth 6 l 0) (nth 7 l 0)).
    set (fB := fun xi => let l := oct (from_S_kdv_writes true vanilla m xi eps_t) in
       blocks (nth 0 l 0) (nth 1 l 0) (nth 2 l 0) (nth 3 l 0) (nth 4 l 0) (nth 5 l 0) (nth 6 l 0) (nth 7 l 0)).
    exists fA, fB. split.
    + intros xi T Hxi L. unfold akns_to_S, akns_from_S, basis_matrix. destruct (Ceq_dec xi 0) as [Ez|_]; [now destruct (Hxi Ez)|].
      rewrite E1, E2. unfold fA, fB, to_S_kdv_writes, from_S_kdv_writes.
      destruct m, vanilla; (split; apply (writes_spec true); exact L).
    + intros xi r c Hxi Hr Hc. unfold fA, fB, to_S_kdv_writes, from_S_kdv_writes, blocks, oct, branch_writes. clear fA fB.
      destruct r as [|[|r]]; [| |lia]; (destruct c as [|[|c]]; [| |lia]); destruct m, vanilla;
      cbn -[Cderive RtoC Cmult Cdiv Copp Cplus Cminus Cexp Ci]; refine (conj _ (conj _ (conj _ (conj _ (conj _ _))))); try reflexivity;
      (eapply Cderive_eq; [unfold Cdiv; der|]);
      cbv beta; rewrite ?exp_half_inv, ?half_inv, ?mhalf_inv, ?Cm1; try (set (E := Cexp _) in *; assert (HE : E <> 0) by apply Cexp_neq0; clearbody E);
      field; side.
Qed.

Theorem change_of_basis_errors T (xi : C) df eps_t d vanilla pde : 
  ((pde = PDE_KdV /\ xi = 0) -> akns_to_S T xi df eps_t d vanilla pde = Ret ((-3)%Z, T) /\ akns_from_S T xi df eps_t d vanilla pde = Ret ((-3)%Z, T))
  /\ ((pde = PDE_KdV /\ xi <> 0 \/ pde = PDE_NSE) /\ ~ akns_implemented d \/ pde = PDE_other ->
       akns_to_S T xi df eps_t d vanilla pde = Ret ((-2)%Z, T) /\ akns_from_S T xi df eps_t d vanilla pde = Ret ((-2)%Z, T)).
Proof.
  split.
  - intros [-> ->]. unfold akns_to_S, akns_from_S, basis_matrix. destruct (Ceq_dec 0 0) as [_|n]; [split; reflexivity|now destruct n].
  - intros H. unfold akns_to_S, akns_from_S, basis_matrix.
    assert (Hc : ~ akns_implemented d -> akns_to_S_kdv_class d = None /\ akns_from_S_kdv_class d = None /\ akns_to_S_nse_class d = None /\ akns_from_S_nse_class d = None).
    { intros Hd. unfold akns_implemented in Hd. destruct d; try (exfalso; apply Hd; repeat split; discriminate); repeat split; reflexivity. }
    destruct H as [[[[-> Hx]| ->] Hd]| ->].
    + destruct (Ceq_dec xi 0) as [Ez|_]; [now destruct (Hx Ez)|]. destruct (Hc Hd) as (-> & -> & _). split; reflexivity.
    + destruct (Hc Hd) as (_ & _ & -> & ->). split; reflexivity.
    + split; reflexivity.
Qed.

(** the KdV wrappers: the vanilla flag of the name is passed on *)
Theorem kdv_change_of_basis_inverse d df (xi : C) (eps_t : R) T1 T2 : d <> K_other -> xi <> 0 ->
  length T1 = (size_of df * size_of df)%nat -> length T2 = (size_of df * size_of df)%nat ->
  exists A B, kdv_to_S T1 xi df eps_t d = Ret (0%Z, A) /\ kdv_from_S T2 xi df eps_t d = Ret (0%Z, B)
    /\ matprod (size_of df) A B = matid (size_of df) /\ matprod (size_of df) B A = matid (size_of df).
Proof.
  intros Hd Hx L1 L2. unfold kdv_to_S, kdv_from_S, kdv_basis.
  assert (Ha : exists a v, kdv_to_akns d = Some a /\ kdv_vanilla_flag d = Some v /\ akns_implemented a).
  { destruct d; try congruence; do 2 eexists; (split; [reflexivity|split; [reflexivity|repeat split; discriminate]]). }
  destruct Ha as (a & v & -> & -> & Ia).
  destruct (change_of_basis_inverse PDE_KdV a v df xi eps_t T1 T2 Ia (or_intror (conj eq_refl Hx)) L1 L2) as (A & B & E1 & E2 & _ & _ & P1 & P2).
  exists A, B. auto.
Qed.

(** ** C29 *)
Definition phase_consistent (rho a b : phase_result) : Prop :=
  exists pr pa pb, rho = POk (Some pr) /\ a = POk (Some pa) /\ b = POk (Some pb) /\ pr = (pb - pa)%R.

Ltac phase := do 3 eexists; (split; [reflexivity|]; split; [reflexivity|]; split; [reflexivity|]);
  unfold nse_degree, kdv_degree, via; cbn -[INR]; unfold man_boundary_coeff, akns_boundary_coeff; try field; try lra; apply not_0_INR; discriminate.

Theorem nse_phase_factors_consistent d (eps_t T0 T1 : R) D : d <> N_other ->
  phase_consistent (nse_phase_factor_rho eps_t T1 d) (nse_phase_factor_a eps_t D T0 T1 d) (nse_phase_factor_b eps_t D T0 T1 d).
Proof. intros H. destruct d; try congruence; phase. Qed.
Theorem kdv_phase_factors_consistent d (eps_t T0 T1 : R) D : d <> K_other ->
  phase_consistent (kdv_phase_factor_rho eps_t T1 d) (kdv_phase_factor_a eps_t D T0 T1 d) (kdv_phase_factor_b eps_t D T0 T1 d).
Proof. intros H. destruct d; try congruence; phase. Qed.
Theorem man_phase_factors_consistent d (eps_t T0 T1 : R) D : d <> M_other ->
  phase_consistent (man_phase_factor_rho eps_t T1 d) (man_phase_factor_a eps_t D T0 T1 d) (man_phase_factor_b eps_t D T0 T1 d).
Proof. intros H. destruct d; try congruence; phase. Qed.

(** For a signal on the grid T0 + n eps_t, n=0..D-1 (so T1 = T0 + (D-1) eps_t) the factor of [a] of the slow methods is the total
   duration D*eps_t of the steps, and the one of the fast polynomial methods (which drop z^-1 per unit of lambda) is 0. *)
Theorem phase_factor_a_on_grid (eps_t T0 : R) D d : (1 <= D)%nat -> d <> N_other ->
  nse_phase_factor_a eps_t D T0 (T0 + (INR D - 1) * eps_t) d
  = POk (Some (if name_fast (nse_name d) then 0%R else (INR D * eps_t)%R)).
Proof.
  intros HD H. assert (E : forall x y : R, x = y -> POk (Some x) = POk (Some y)) by (intros; now subst).
  destruct d; try congruence; apply E; cbn -[INR]; field.
Qed.

(** ** C30 *)
Theorem phase_factors_a_b_reject_unknown eps_t D T0 T1 :
  nse_phase_factor_a eps_t D T0 T1 N_other = PErr 2 /\ nse_phase_factor_b eps_t D T0 T1 N_other = PErr 2
  /\ kdv_phase_factor_a eps_t D T0 T1 K_other = PErr 2 /\ kdv_phase_factor_b eps_t D T0 T1 K_other = PErr 2
  /\ man_phase_factor_a eps_t D T0 T1 M_other = PErr 2 /\ man_phase_factor_b eps_t D T0 T1 M_other = PErr 2
  /\ man_phase_factor_rho eps_t T1 M_other = PErr 2.
Proof. repeat split. Qed.

(** The rho functions of NSE and KdV return SUCCESS with a NaN. *)
Theorem phase_factor_rho_rejects_unknown_refuted eps_t T1 :
  nse_phase_factor_rho eps_t T1 N_other = POk None /\ kdv_phase_factor_rho eps_t T1 K_other = POk None.
Proof. split; reflexivity. Qed.

(** ** Concrete cases *)
Example names_ex : akns_implemented A_4SPLIT4B /\ name_fast (akns_name A_4SPLIT4B) = true /\ akns_degree A_4SPLIT4B = 2%nat
  /\ akns_upsampling_factor A_4SPLIT4B = 2%nat /\ nse_to_akns N_CF6_4 = Some A_CF6_4 /\ kdv_to_akns K_2SPLIT8A_VANILLA = Some A_2SPLIT8A.
Proof. unfold akns_implemented. repeat split; try discriminate; reflexivity. Qed.
(** lambda = 1+i with step 1/4 satisfies the hypothesis of the round trip for 2SPLIT4B (s = 2*degree) *)
Example transform_ex : (- PI < 2 * fst ((1, 1)%R : C) * (1/4) / akns_s A_2SPLIT4B <= PI)%R.
Proof. assert (H := PI2_3_2). unfold PI2 in H. unfold akns_s. cbn. lra. Qed.
Example phase_ex : nse_phase_factor_rho 1 2 N_BO = POk (Some (-2 * (2 + 1 * (1/2)))%R).
Proof. reflexivity. Qed.
Example slow_ex : kdv_slow_discretization K_4SPLIT4A = Some K_CF4_2 /\ kdv_slow_discretization K_2SPLIT3A_VANILLA = Some K_BO_VANILLA.
Proof. split; reflexivity. Qed.

Print Assumptions akns_tables_match_names.
Print Assumptions akns_others_are_flagged.
Print Assumptions nse_map_keeps_name.
Print Assumptions kdv_map_keeps_name.
Print Assumptions kdv_vanilla_flag_is_suffix.
Print Assumptions nse_tables_match_names.
Print Assumptions kdv_tables_match_names.
Print Assumptions man_tables_match_names.
Print Assumptions man_order_of_slow_methods_refuted.
Print Assumptions method_weights_lengths.
Print Assumptions kdv_slow_companion.
Print Assumptions kdv_slow_same_preprocessing.
Print Assumptions akns_transforms_inverse.
Print Assumptions nse_transforms_inverse.
Print Assumptions kdv_transforms_inverse.
Print Assumptions man_transforms_inverse.
Print Assumptions transforms_reject_slow.
Print Assumptions upper_half_plane_is_inside.
Print Assumptions change_of_basis_inverse.
Print Assumptions change_of_basis_derivative.
Print Assumptions change_of_basis_errors.
Print Assumptions kdv_change_of_basis_inverse.
Print Assumptions nse_phase_factors_consistent.
Print Assumptions kdv_phase_factors_consistent.
Print Assumptions man_phase_factors_consistent.
Print Assumptions phase_factor_a_on_grid.
Print Assumptions phase_factors_a_b_reject_unknown.
Print Assumptions phase_factor_rho_rejects_unknown_refuted.
