(** * nsev_inverse: the frequency grid and the order of the samples *)
From Coq Require Import Reals ZArith List Lia Lra.
From Coquelicot Require Import Coquelicot.
From Verif Require Import CExp CField NsevProps NsevSafe NsevSpec KdvvProps DiscProps InvModel.
Import ListNotations.
Local Open Scope C_scope.

(** ** Specification: x_n = x_0 + n (x_1 - x_0) / (m - 1); roots of unity *)
Definition grid_point (XI : R * R) (M n : nat) : R := (fst XI + INR n * ((snd XI - fst XI) / INR (M - 1)))%R.
Definition unity_root (M k : nat) : C := Cexp (2 * RtoC PI * Ci * RtoC (INR k) / RtoC (INR M)).
(** the z that belongs to xi; s: degree per step size *)
Definition z_of (eps_t s : R) (xi : R) : C := Cexp (2 * Ci * RtoC xi * RtoC eps_t / RtoC s).

Lemma RtoC_i (x : R) : RtoC x * Ci = (0%R, x). Proof. apply Ceq; cbn; ring. Qed.
Lemma Cdiv_R (x y : R) : y <> 0%R -> RtoC x / RtoC y = RtoC (x / y).
Proof. intros H. now rewrite RtoC_div. Qed.
Lemma unity_im (M k : nat) : M <> O -> 2 * RtoC PI * Ci * RtoC (INR k) / RtoC (INR M) = (0%R, (2 * PI * INR k / INR M)%R).
Proof.
  intros H. assert (N : INR M <> 0%R) by (apply not_0_INR; exact H).
  transitivity (RtoC (2 * PI * INR k / INR M)%R * Ci); [|apply RtoC_i]. rewrite <- Cdiv_R by exact N. rewrite !RtoC_mult. field. now apply RtoC_neq0.
Qed.
Lemma div_i (x : R) (e s : R) : e <> 0%R -> s <> 0%R -> ((0%R, x) : C) / (2 * Ci * RtoC e / RtoC s) = RtoC (x * s / (2 * e))%R.
Proof.
  intros He Hs. rewrite <- RtoC_i. rewrite <- Cdiv_R by lra. rewrite !RtoC_mult. field.
  repeat split; try exact C2_neq0; try exact Ci_neq0; now apply RtoC_neq0.
Qed.
Lemma Carg_m1 : Carg (RtoC (-1)) = PI.
Proof.
  assert (H := Clog_exp (0%R, PI)). cbn [snd] in H. assert (P := PI_RGT_0). specialize (H ltac:(lra)).
  assert (E : Cexp (0%R, PI) = RtoC (-1)) by (unfold Cexp; cbn [fst snd]; rewrite exp_0, cos_PI, sin_PI; apply Ceq; cbn; ring).
  rewrite E in H. exact (f_equal snd H).
Qed.
Lemma Clog_m1 : Clog (RtoC (-1)) = (0%R, PI).
Proof.
  unfold Clog. rewrite Carg_m1. f_equal. rewrite Cmod_R, Rabs_left by lra. replace (- -1)%R with 1%R by ring. apply ln_1.
Qed.
Lemma Clog_first m : (1 <= m)%nat -> Clog (unity_root (2 * m) (m + 1)) = (0%R, (- PI + 2 * PI / INR (2 * m))%R).
Proof.
  intros H. assert (P := PI_RGT_0). assert (Nm : (1 <= INR m)%R) by (change 1%R with (INR 1); now apply le_INR).
  unfold unity_root. rewrite unity_im by lia.
  replace ((0%R, (2 * PI * INR (m + 1) / INR (2 * m))%R) : C) with (((0%R, (- PI + 2 * PI / INR (2 * m))%R) : C) + (0%R, (2 * PI * IZR 1)%R)).
  - rewrite Cexp_2PI. apply Clog_exp. cbn [snd]. rewrite mult_INR. change (INR 2) with 2%R.
    assert (Q : (0 < 2 * PI / (2 * INR m) <= PI)%R).
    { split; [apply Rdiv_lt_0_compat; lra|]. apply Rmult_le_reg_r with (2 * INR m)%R; [lra|]. unfold Rdiv. rewrite Rmult_assoc, Rinv_l by lra. nra. }
    lra.
  - apply Ceq; cbn [fst snd Cplus]; [ring|]. rewrite mult_INR, plus_INR. change (INR 2) with 2%R. change (INR 1) with 1%R. field. lra.
Qed.

Section Grid.
Variables (D m : nat) (T : R * R) (d : nse_disc) (a : akns_disc).
Hypothesis HD : (2 <= D)%nat.
Hypothesis HT : (fst T < snd T)%R.
Hypothesis Hm : (1 <= m)%nat.
Hypothesis Ha : nse_to_akns d = Some a.
Hypothesis Hdeg : akns_degree a <> O.
Hypothesis Hups : akns_upsampling_factor a <> O.
Let M := (2 * m)%nat.
Let eps_t := ((snd T - fst T) / INR (D - 1))%R.
Let s := (INR (akns_degree a) * INR (akns_upsampling_factor a))%R.
Let s_pos : (0 < s)%R. Proof. unfold s. apply Rmult_lt_0_compat; apply lt_0_INR; lia. Qed.
Let e_pos : (0 < eps_t)%R. Proof. unfold eps_t. apply Rdiv_lt_0_compat; [lra|]. apply lt_0_INR. lia. Qed.

(** the points of the grid and their z *)
Theorem inverse_XI_grid (XI : R * R) : exists XI', fnft_nsev_inverse_XI D (Some T) M (Some XI) d = Ret (SUCCESS, Some XI') /\ (fst XI' < snd XI')%R /\
  (forall n, (n < M)%nat -> (grid_point XI' M n = (- PI + 2 * PI * INR (n + 1) / INR M) * s / (2 * eps_t))%R) /\
  (forall k, (k <= m)%nat -> z_of eps_t s (grid_point XI' M (k + (m - 1))) = unity_root M k) /\
  (forall k, (m < k < M)%nat -> z_of eps_t s (grid_point XI' M (k - (m + 1))) = unity_root M k).
Proof.
  unfold fnft_nsev_inverse_XI. destruct (Nat.ltb_spec D 2); [lia|]. destruct (Nat.eqb_spec M 0); [unfold M in *; lia|]. cbn [no_ptr].
  rewrite (proj2 (bad_interval_spec (Some T))) by (exists (fst T), (snd T); split; [now destruct T|exact HT]). cbn [deref bind].
  unfold step. destruct (Nat.leb_spec D 1); [lia|]. cbn [bind]. fold eps_t. unfold nse_z_to_lambda, via_akns. rewrite Ha. unfold akns_z_to_lambda.
  destruct (Nat.eqb_spec (akns_upsampling_factor a) 0); [contradiction|]. destruct (Nat.eqb_spec (akns_degree a) 0); [contradiction|]. fold s.
  assert (M2 : (M / 2)%nat = m) by (unfold M; rewrite Nat.mul_comm; apply Nat.div_mul; lia).
  cbn [fill aget bind aset]. rewrite M2. fold (unity_root M (m + 1)). unfold M at 1. rewrite Clog_first, Clog_m1 by exact Hm. fold M.
  assert (Nm : (1 <= INR m)%R) by (change 1%R with (INR 1); now apply le_INR). assert (PP := PI_RGT_0).
  assert (IM : INR M = (2 * INR m)%R) by (unfold M; rewrite mult_INR; reflexivity).
  rewrite !div_i by lra. cbn [fst RtoC]. eexists. split; [reflexivity|]. cbn [fst snd].
  split.
  { assert (Mo : forall x y : R, (x < y)%R -> (x * s / (2 * eps_t) < y * s / (2 * eps_t))%R).
    { intros x y Hxy. apply Rmult_lt_compat_r; [apply Rinv_0_lt_compat; lra|]. apply Rmult_lt_compat_r; [exact s_pos|exact Hxy]. }
    apply Mo. assert (2 * PI / INR M <= PI)%R; [|lra]. rewrite IM. apply Rmult_le_reg_r with (2 * INR m)%R; [lra|]. unfold Rdiv. rewrite Rmult_assoc, Rinv_l by lra. nra. }
  assert (G : forall n, (n < M)%nat -> (grid_point ((- PI + 2 * PI / INR M) * s / (2 * eps_t), PI * s / (2 * eps_t)) M n = (- PI + 2 * PI * INR (n + 1) / INR M) * s / (2 * eps_t))%R).
  { intros n' Hn. unfold grid_point. cbn [fst snd]. rewrite minus_INR by (unfold M; lia). rewrite plus_INR. change (INR 1) with 1%R. rewrite IM. field. lra. }
  split; [exact G|].
  assert (Zs : forall n (c : Z), (n < M)%nat -> forall k, (INR (n + 1) = INR k + INR m + IZR c * INR M)%R ->
     z_of eps_t s (grid_point ((- PI + 2 * PI / INR M) * s / (2 * eps_t), PI * s / (2 * eps_t)) M n)%R = unity_root M k).
  { intros n' c Hn k Hk. rewrite G by exact Hn. unfold z_of, unity_root. rewrite unity_im by (unfold M; lia). rewrite two_i_arg by lra. cbn [fst snd].
    rewrite <- (Cexp_2PI c (0%R, (2 * PI * INR k / INR M)%R)). f_equal. apply Ceq; cbn [fst snd Cplus RtoC].
    - unfold Rdiv. ring.
    - rewrite Hk. rewrite IM. field. repeat split; lra. }
  split; intros k Hk.
  - apply (Zs _ 0%Z); [unfold M; lia|]. replace (k + (m - 1) + 1)%nat with (k + m)%nat by lia. rewrite plus_INR. ring.
  - apply (Zs _ (-1)%Z); [unfold M in *; lia|]. assert (Q : (INR (k - (m + 1) + 1) = INR k - INR m)%R).
    { replace (k - (m + 1) + 1)%nat with (k - m)%nat by lia. apply minus_INR. lia. }
    rewrite Q, IM. ring.
Qed.
(** the order for the FFT: entry k is the sample at the k-th root of unity; a permutation *)
Definition fft_index (k : nat) : nat := if (k <=? m)%nat then (k + (m - 1))%nat else (k - (m + 1))%nat.
Lemma fft_index_lt k : (k < M)%nat -> (fft_index k < M)%nat.
Proof. unfold fft_index, M. destruct (Nat.leb_spec k m); lia. Qed.
Lemma fft_index_inj k k' : (k < M)%nat -> (k' < M)%nat -> fft_index k = fft_index k' -> k = k'.
Proof. unfold fft_index, M. destruct (Nat.leb_spec k m), (Nat.leb_spec k' m); lia. Qed.
Theorem reorder_ok (src dst : list C) : length src = M -> length dst = M -> exists r, reorder M src dst = Ret r /\ length r = M /\
  forall k, (k < M)%nat -> nth k r (RtoC 0) = nth (fft_index k) src (RtoC 0).
Proof.
  intros Ls Ld. unfold reorder. assert (M2 : (M / 2)%nat = m) by (unfold M; rewrite Nat.mul_comm; apply Nat.div_mul; lia). rewrite M2.
  assert (MM : (M = m + m)%nat) by (unfold M; lia).
  destruct (fill_ok (fun i => nth (i + (m - 1)) src (RtoC 0)) (RtoC 0) (m + 1) 0 (fun i => aget src (i + (m - 1))) dst) as (r1 & E1 & L1 & N1); [lia| |].
  { intros i Hi. apply aget_nth. lia. }
  rewrite E1. cbn [bind].
  destruct (fill_ok (fun i => nth (i - (m + 1)) src (RtoC 0)) (RtoC 0) (M - (m + 1)) (m + 1) (fun i => aget src (i - (m + 1))) r1) as (r2 & E2 & L2 & N2); [lia| |].
  { intros i Hi. apply aget_nth. lia. }
  exists r2. split; [exact E2|]. split; [lia|]. intros k Hk. rewrite N2, N1. unfold fft_index.
  destruct (Nat.leb_spec (m + 1) k), (Nat.ltb_spec k (m + 1 + (M - (m + 1)))), (Nat.leb_spec 0 k), (Nat.ltb_spec k (0 + (m + 1))), (Nat.leb_spec k m); cbn [andb]; try lia; reflexivity.
Qed.
End Grid.

(** bad arguments *)
Theorem inverse_XI_rejects D T M XI d : (D < 2)%nat \/ M = O \/ XI = None \/ ~ proper_interval T ->
  fnft_nsev_inverse_XI D T M XI d = Ret (EC_INVALID_ARGUMENT, XI).
Proof.
  intros H. unfold fnft_nsev_inverse_XI. destruct (Nat.ltb_spec D 2); [reflexivity|]. destruct (Nat.eqb_spec M 0); [reflexivity|]. destruct XI as [XI|]; [|reflexivity]. cbn [no_ptr].
  destruct (bad_interval T) eqn:E; [reflexivity|]. apply bad_interval_spec in E. destruct H as [H|[H|[H|H]]]; [lia|contradiction|discriminate|contradiction].
Qed.
