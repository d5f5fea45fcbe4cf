(** * Discrete Fourier transform over a field: specification and theory *)
From Verif Require Export Base.

Section Dft.
Context {K : cfield}.
Add Field KF : (cfield_th K).
Local Open Scope cf_scope.

(** DFT of length n with root w: X_k = sum_j x_j w^(j k) *)
Definition dft (w : K) (n : nat) (x : nat -> K) (k : nat) : K :=
  fsum n (fun j => x j * w ^ (j * k)).
Definition dft_list (w : K) (n : nat) (x : list K) : list K :=
  tabulate n (dft w n (fun j => nth j x 0)).

(** w is a root of unity of order exactly n, with n invertible *)
Definition proot (w : K) (n : nat) : Prop :=
  (0 < n)%nat /\ w ^ n = 1 /\ (forall k, (0 < k < n)%nat -> w ^ k <> 1) /\ fofnat n <> (0 : K).

Lemma proot_neq0 w n : proot w n -> w <> 0.
Proof.
  intros (Hn & Hw & _) H. rewrite H, fpow_zero in Hw by exact Hn. symmetry in Hw. now apply (f1_neq_f0 (K:=K)).
Qed.

Lemma proot_orth w n k : proot w n -> (0 < k < n)%nat -> fsum n (fun j => w ^ (j * k)) = 0.
Proof.
  intros (Hn & Hw & Hk & _) H.
  apply (fmul_eq0 (w ^ k - 1)).
  - intros E. apply (Hk k H). transitivity ((w ^ k - 1) + 1); [ring|]. rewrite E; ring.
  - rewrite (fsum_ext n _ (fun j => (w ^ k) ^ j)) by (intros i _; rewrite Nat.mul_comm; apply fpow_pow).
    rewrite fsum_geom, <- fpow_pow, Nat.mul_comm, fpow_pow, Hw, fpow_one. ring.
Qed.

Lemma fpow_mod w n k : (0 < n)%nat -> w ^ n = 1 -> w ^ k = w ^ (k mod n) :> K.
Proof.
  intros Hn Hw. rewrite (Nat.div_mod k n) at 1 by lia.
  rewrite fpow_add, fpow_pow, Hw, fpow_one. ring.
Qed.

(** inverse root *)
Lemma finv_fpow (w : K) k : w <> 0 -> (/ w) ^ k = / (w ^ k).
Proof.
  intros Hw. apply (fmul_cancel_l (w ^ k)); [now apply fpow_neq0|].
  rewrite <- fpow_mul_base. replace (w * / w) with (1 : K) by (field; exact Hw).
  rewrite fpow_one. field. now apply fpow_neq0.
Qed.

Lemma proot_inv w n : proot w n -> proot (/ w) n.
Proof.
  intros H. pose proof (proot_neq0 w n H) as Hw0. destruct H as (Hn & Hw & Hk & Hc).
  split; [exact Hn|]. split; [|split; [|exact Hc]].
  - rewrite finv_fpow, Hw by exact Hw0. field. apply f1_neq_f0.
  - intros k Hk' E. apply (Hk k Hk'). rewrite finv_fpow in E by exact Hw0.
    transitivity (w ^ k * / (w ^ k)); [rewrite E; ring|]. field. now apply fpow_neq0.
Qed.

(** general orthogonality: sum_k w^(jk) (1/w)^(lk) = n [j=l] *)
Lemma proot_orth2 w n j l : proot w n -> (j < n)%nat -> (l < n)%nat ->
  fsum n (fun k => w ^ (j * k) * (/ w) ^ (k * l)) = if Nat.eqb j l then fofnat n else 0.
Proof.
  intros H Hj Hl. pose proof (proot_neq0 w n H) as Hw0.
  destruct (Nat.eqb_spec j l) as [->|Hne].
  - rewrite (fsum_ext n _ (fun _ => 1)).
    + rewrite fsum_const; ring.
    + intros k Hk. rewrite finv_fpow by exact Hw0. rewrite Nat.mul_comm. field. now apply fpow_neq0.
  - destruct (Nat.lt_total j l) as [Hlt|[Heq|Hgt]]; [|contradiction|].
    + rewrite (fsum_ext n _ (fun k => (/ w) ^ (k * (l - j)))).
      * apply proot_orth; [now apply proot_inv|lia].
      * intros k Hk. replace (k * l)%nat with (j * k + k * (l - j))%nat by nia.
        rewrite fpow_add, finv_fpow by exact Hw0. field. now apply fpow_neq0.
    + rewrite (fsum_ext n _ (fun k => w ^ (k * (j - l)))).
      * apply proot_orth; [exact H|lia].
      * intros k Hk. replace (j * k)%nat with (k * l + k * (j - l))%nat by nia.
        rewrite fpow_add, finv_fpow by exact Hw0. field. now apply fpow_neq0.
Qed.

(** inversion: unnormalised inverse transform gives n times the input *)
Theorem dft_inversion w n x l : proot w n -> (l < n)%nat ->
  dft (/ w) n (dft w n x) l = fofnat n * x l.
Proof.
  intros H Hl. unfold dft.
  rewrite (fsum_ext n _ (fun k => fsum n (fun j => x j * (w ^ (j * k) * (/ w) ^ (k * l))))).
  2:{ intros k Hk. rewrite <- fsum_scal_r. apply fsum_ext. intros j Hj. ring. }
  rewrite fsum_swap.
  rewrite (fsum_ext n _ (fun j => x j * (if Nat.eqb j l then fofnat n else 0))).
  2:{ intros j Hj. rewrite fsum_scal, (proot_orth2 w n j l H Hj Hl). reflexivity. }
  rewrite (fsum_single n l).
  - rewrite Nat.eqb_refl. ring.
  - exact Hl.
  - intros i Hi Hne. destruct (Nat.eqb_spec i l); [contradiction|ring].
Qed.

Lemma dft_ext w n x y k : (forall j, (j < n)%nat -> x j = y j) -> dft w n x k = dft w n y k.
Proof. intros H. apply fsum_ext. intros j Hj. now rewrite H. Qed.

Lemma finv_finv (w : K) : w <> 0 -> / / w = w.
Proof.
  intros Hw0.
  assert (Hi : / w <> 0).
  { intros E. apply (f1_neq_f0 (K:=K)). rewrite <- (finv_l w Hw0), E. ring. }
  apply (fmul_cancel_l (/ w)); [exact Hi|].
  rewrite finv_l by exact Hw0. rewrite <- (finv_l (/ w) Hi). ring.
Qed.

(** the other order *)
Theorem dft_inversion' w n x l : proot w n -> (l < n)%nat ->
  dft w n (dft (/ w) n x) l = fofnat n * x l.
Proof.
  intros H Hl. pose proof (proot_neq0 w n H) as Hw0.
  pose proof (dft_inversion (/ w) n x l (proot_inv w n H) Hl) as E.
  now rewrite finv_finv in E by exact Hw0.
Qed.

(** cyclic convolution *)
Definition cconv (n : nat) (x y : nat -> K) (l : nat) : K :=
  fsum n (fun i => fsum n (fun j => if Nat.eqb ((i + j) mod n) l then x i * y j else 0)).

Theorem dft_convolution w n x y l : proot w n -> (l < n)%nat ->
  dft (/ w) n (fun k => dft w n x k * dft w n y k) l = fofnat n * cconv n x y l.
Proof.
  intros H Hl. pose proof H as (Hn & Hw & _).
  rewrite <- (dft_inversion w n (cconv n x y) l H Hl).
  apply dft_ext. intros k Hk. unfold dft, cconv.
  (* right side: sum_m sum_i sum_j [..=m] x i y j w^(m k) *)
  rewrite (fsum_ext n (fun m => fsum n (fun i => fsum n (fun j => if Nat.eqb ((i + j) mod n) m then x i * y j else 0)) * w ^ (m * k))
    (fun m => fsum n (fun i => fsum n (fun j => if Nat.eqb ((i + j) mod n) m then x i * y j * w ^ (m * k) else 0)))).
  2:{ intros m Hm. rewrite <- fsum_scal_r. apply fsum_ext. intros i Hi.
      rewrite <- fsum_scal_r. apply fsum_ext. intros j Hj. destruct (Nat.eqb _ _); ring. }
  rewrite fsum_swap. rewrite <- fsum_scal_r. apply fsum_ext. intros i Hi.
  rewrite fsum_swap. rewrite <- fsum_scal. apply fsum_ext. intros j Hj.
  rewrite (fsum_single n ((i + j) mod n)).
  - rewrite Nat.eqb_refl.
    rewrite (fpow_mod w n (((i + j) mod n) * k) Hn Hw).
    rewrite Nat.mul_mod_idemp_l by lia.
    rewrite <- (fpow_mod w n ((i + j) * k) Hn Hw).
    rewrite Nat.mul_add_distr_r, fpow_add. ring.
  - apply Nat.mod_upper_bound. lia.
  - intros m Hm Hne. destruct (Nat.eqb_spec ((i + j) mod n) m); [congruence|reflexivity].
Qed.

(** if x has support [0,a], y has support [0,b] and a+b < n there is no wrap-around *)
Lemma cconv_no_wrap n a b x y l :
  (0 < n)%nat -> (a + b < n)%nat -> (l < n)%nat ->
  (forall i, (a < i)%nat -> x i = 0) -> (forall j, (b < j)%nat -> y j = 0) ->
  cconv n x y l = fsum (S l) (fun i => x i * y (l - i)%nat).
Proof.
  intros Hn Hab Hl Hx Hy. unfold cconv.
  transitivity (fsum n (fun i => if Nat.leb i l then x i * y (l - i)%nat else 0)).
  - apply fsum_ext. intros i Hi.
    destruct (Nat.lt_ge_cases a i) as [Hai|Hai].
    + rewrite fsum_zero'.
      * rewrite Hx by exact Hai. destruct (Nat.leb i l); ring.
      * intros j Hj. rewrite Hx by exact Hai. destruct (Nat.eqb _ _); ring.
    + destruct (Nat.leb_spec i l) as [Hil|Hil].
      * rewrite (fsum_single n (l - i)).
        -- replace (i + (l - i))%nat with l by lia. rewrite Nat.mod_small by lia.
           now rewrite Nat.eqb_refl.
        -- lia.
        -- intros j Hj Hne. destruct (Nat.lt_ge_cases b j) as [Hbj|Hbj].
           ++ rewrite (Hy j Hbj). destruct (Nat.eqb _ _); ring.
           ++ rewrite Nat.mod_small by lia. destruct (Nat.eqb_spec (i + j) l); [lia|reflexivity].
      * apply fsum_zero'. intros j Hj. destruct (Nat.lt_ge_cases b j) as [Hbj|Hbj].
        -- rewrite (Hy j Hbj). destruct (Nat.eqb _ _); ring.
        -- rewrite Nat.mod_small by lia. destruct (Nat.eqb_spec (i + j) l); [lia|reflexivity].
  - replace n with (S l + (n - S l))%nat by lia. rewrite fsum_split.
    rewrite (fsum_zero' (n - S l)).
    2:{ intros i Hi. destruct (Nat.leb_spec (S l + i) l); [lia|reflexivity]. }
    transitivity (fsum (S l) (fun i => if Nat.leb i l then x i * y (l - i)%nat else 0)); [ring|].
    apply fsum_ext. intros i Hi. destruct (Nat.leb_spec i l); [reflexivity|lia].
Qed.

(** decimation in time: the mixed-radix step *)
Lemma dft_decimate w p m x k : (0 < m)%nat -> (w ^ (p * m) = 1) ->
  dft w (p * m) x k
  = fsum p (fun r => w ^ (r * k) * dft (w ^ p) m (fun i => x (i * p + r)%nat) (k mod m)).
Proof.
  intros Hm Hw. unfold dft.
  rewrite Nat.mul_comm, fsum_mul, fsum_swap. apply fsum_ext. intros r Hr.
  rewrite <- fsum_scal. apply fsum_ext. intros i Hi.
  assert (E : w ^ ((i * p + r) * k) = w ^ (r * k) * (w ^ p) ^ (i * (k mod m))).
  { rewrite Nat.mul_add_distr_r, fpow_add.
    replace (i * p * k)%nat with (p * (i * k))%nat by lia. rewrite (fpow_pow w p).
    assert (Hwp : (w ^ p) ^ m = 1) by (rewrite <- fpow_pow; exact Hw).
    rewrite (fpow_mod (w ^ p) m (i * k) Hm Hwp), (fpow_mod (w ^ p) m (i * (k mod m)) Hm Hwp).
    rewrite Nat.mul_mod_idemp_r by lia. ring. }
  rewrite E. ring.
Qed.
End Dft.
