(** * Properties C14, C15, C16: FFT length, factorisation, and the transform itself *)
From Coq Require Import Reals Lra.
From Coquelicot Require Import Coquelicot.
From Verif Require Import Base Fields Dft KissModel KissSizeProof KissProof KissBfly KissWork.
Local Notation CF := Fields.CF.

(** C14 *)
Theorem next_fft_length_least n : (1 <= n)%nat ->
  exists r, next_fft_length n = Some r /\ (n <= r < 2 * n)%nat
    /\ (exists a b c, r = 2 ^ a * 3 ^ b * 5 ^ c)%nat
    /\ forall x, (n <= x < r)%nat -> ~ (exists a b c, x = 2 ^ a * 3 ^ b * 5 ^ c)%nat.
Proof. intros Hn. unfold next_fft_length. exact (next_fast_size_spec n Hn). Qed.

(** with desired length 0 the search never ends (whatever the fuel) *)
Theorem next_fft_length_of_zero_never_returns fuel fuel2 : next_fast_size fuel fuel2 0 = None.
Proof. apply next_fast_size_zero. Qed.

Example next_fft_length_ex : map next_fft_length [1; 7; 11; 17; 31]%nat
  = [Some 1; Some 8; Some 12; Some 18; Some 32]%nat.
Proof. vm_compute. reflexivity. Qed.

(** C15.  The factor list of the plan is (p1,m1),(p2,m2),..., with p1*m1 = n,
   p2*m2 = m1, ..., the last m is 1; every radix is >= 2 unless n = 1 *)
Fixpoint factor_chain (n : nat) (l : list (nat * nat)) : Prop :=
  match l with
  | [] => False
  | [(p, m)] => p = n /\ m = 1%nat
  | (p, m) :: l' => (2 <= p /\ 2 <= m /\ p * m = n)%nat /\ factor_chain m l'
  end.

Lemma good_factors_chain l : forall n, good_factors n l -> factor_chain n l.
Proof.
  induction l as [|[p m] l IH]; intros n H; [exact H|].
  cbn [good_factors] in H. destruct H as (H1 & H2 & H3 & H4). destruct l as [|x l].
  - cbn. subst m. lia.
  - destruct H4 as [Hm Hg]. cbn [factor_chain]. split; [|apply IH; exact Hg].
    split; [apply H3; nia|]. lia.
Qed.

Theorem kf_factor_chain fs n : (1 <= n)%nat ->
  exists l, kf_factor fs n = Some l /\ factor_chain n l
    /\ fold_right Nat.mul 1%nat (map fst l) = n
    /\ ((1 < n)%nat -> (2 ^ length l <= n)%nat).
Proof.
  intros Hn. destruct (kf_factor_spec fs n Hn) as (l & E & H). exists l.
  split; [exact E|]. split; [now apply good_factors_chain|].
  split; [now apply good_factors_prod|]. now apply good_factors_count.
Qed.

(** the buffer st->factors has 2*MAXFACTORS = 64 entries, i.e. 32 pairs: enough for n < 2^33 *)
Theorem factor_buffer_suffices fs n l : (1 <= n)%nat -> (Z.of_nat n < 2 ^ 33)%Z ->
  kf_factor fs n = Some l -> (2 * length l <= 64)%nat.
Proof.
  intros Hn H33 E. destruct (kf_factor_chain fs n Hn) as (l' & E' & _ & _ & Hc).
  rewrite E in E'. injection E' as <-.
  destruct (Nat.eq_dec n 1) as [->|H1].
  - unfold kf_factor in E. cbn [factor_loop] in E.
    destruct (next_radix (fs + 5) fs 1 4) as [p|]; [|discriminate].
    destruct (1 <? 1 / p)%nat eqn:H.
    + apply Nat.ltb_lt in H. exfalso. destruct (Nat.le_gt_cases p 1) as [Hp|Hp].
      * assert (Hp' : (p = 0 \/ p = 1)%nat) by lia. destruct Hp' as [-> | ->]; cbn in H; lia.
      * rewrite Nat.div_small in H by lia. lia.
    + injection E as <-. simpl. lia.
  - specialize (Hc ltac:(lia)). destruct (Nat.le_gt_cases (length l) 32) as [|Hgt]; [lia|exfalso].
    assert (A : (2 ^ 33 <= 2 ^ Z.of_nat (length l))%Z) by (apply Z.pow_le_mono_r; lia).
    assert (B : (Z.of_nat (2 ^ length l) = 2 ^ Z.of_nat (length l))%Z) by (rewrite Nat2Z.inj_pow; reflexivity).
    lia.
Qed.

Example kf_factor_ex : kf_factor (Nat.sqrt 120) 120 = Some [(4, 30); (2, 15); (3, 5); (5, 1)]%nat
  /\ kf_factor (Nat.sqrt 77) 77 = Some [(7, 11); (11, 1)]%nat /\ kf_factor 1 1 = Some [(1, 1)]%nat.
Proof. vm_compute. repeat split. Qed.

(** C16.  e^(i t) *)
Definition expi (t : R) : C := (cos t, sin t).
(** sum_{j<n} f j *)
Fixpoint Csum (n : nat) (f : nat -> C) : C :=
  match n with O => RtoC 0 | S n' => Cplus (Csum n' f) (f n') end.
(** exponent of the kernel: -2 pi j k / n forward, +2 pi j k / n inverse *)
Definition kernel (inverse : bool) (n j k : nat) : C :=
  expi ((if inverse then 1 else -1) * (2 * PI * INR j * INR k / INR n)).

Lemma Csum_fsum n f : Csum n f = fsum (K := CF) n f.
Proof. induction n as [|n IH]; [reflexivity|]. cbn [Csum fsum]. now rewrite IH. Qed.

Lemma kernel_pow inv n j k : n <> 0%nat -> kernel inv n j k = fpow (K := CF) (wroot inv n) (j * k).
Proof.
  intros Hn. unfold wroot. rewrite cis_pow, mult_INR. unfold kernel, expi, cis.
  assert (INR n <> 0%R) by (apply not_0_INR; exact Hn).
  destruct inv; simpl dsgn; f_equal; f_equal; field; assumption.
Qed.

Lemma kiss_fft_dft inv n x : (1 <= n)%nat -> (n <= length x)%nat ->
  kiss_fft inv n x = Ret (tabulate n (dft (K := CF) (wroot inv n) n (fun j => nth j x (RtoC 0)))).
Proof.
  intros Hn Hx. unfold kiss_fft.
  destruct (kf_factor_spec (Nat.sqrt n) n Hn) as (l & -> & Hg).
  rewrite (kf_work_spec inv n x Hx l n 1 0 Hg); try lia.
  rewrite fpow_1. f_equal. apply tabulate_ext. intros k Hk.
  apply (dft_ext (K := CF)). intros j Hj. now rewrite Nat.mul_1_r.
Qed.

Theorem kiss_fft_computes_dft inv n x : (1 <= n)%nat -> (n <= length x)%nat ->
  kiss_fft inv n x
  = Ret (tabulate n (fun k => Csum n (fun j => Cmult (nth j x (RtoC 0)) (kernel inv n j k)))).
Proof.
  intros Hn Hx. rewrite kiss_fft_dft by assumption. f_equal. apply tabulate_ext. intros k Hk.
  rewrite Csum_fsum. unfold dft. apply (fsum_ext (K := CF)). intros j Hj.
  rewrite kernel_pow by lia. reflexivity.
Qed.

(** inverse after forward (and forward after inverse) multiplies by n *)
Theorem kiss_fft_round_trip inv n x y : (1 <= n)%nat -> (n <= length x)%nat ->
  kiss_fft inv n x = Ret y ->
  kiss_fft (negb inv) n y = Ret (tabulate n (fun k => Cmult (RtoC (INR n)) (nth k x (RtoC 0)))).
Proof.
  intros Hn Hx E. rewrite kiss_fft_dft in E by assumption. injection E as <-.
  rewrite kiss_fft_dft; [|exact Hn|now rewrite tabulate_length].
  f_equal. apply tabulate_ext. intros k Hk. rewrite wroot_inv.
  rewrite (dft_ext (K := CF) _ n _ (dft (K := CF) (wroot inv n) n (fun j => nth j x (RtoC 0)))).
  2:{ intros j Hj. exact (nth_tabulate _ _ _ _ Hj). }
  change Cinv with (@finv CF). rewrite (dft_inversion (K := CF)) by (try exact Hk; apply wroot_proot; lia).
  now rewrite fofnat_C.
Qed.

(** the wrapper: exactly the valid arguments give a plan, and executing it gives the
   (unnormalised) transform in the direction asked for *)
Theorem fft_wrapper_plan_and_execute null_ptr old n is_inverse x y :
  let '(code, p) := create_plan null_ptr true old n is_inverse in
  if null_ptr || (n =? 0)%nat || negb ((is_inverse =? 1)%Z || (is_inverse =? -1)%Z)
  then code = 2%Z /\ p = old
  else code = 0%Z /\ ((n <= length x)%nat ->
    execute_plan p x y = Ret (0%Z, tabulate n (fun k => Csum n (fun j =>
       Cmult (nth j x (RtoC 0)) (kernel (is_inverse =? 1)%Z n j k))))).
Proof.
  unfold create_plan. destruct null_ptr; cbn [orb]; [now split|].
  destruct (Nat.eqb_spec n 0) as [->|Hn]; cbn [orb]; [now split|].
  destruct (Z.eqb_spec is_inverse 1) as [->|H1]; cbn [orb negb andb].
  - split; [reflexivity|]. intros Hx. change (Z.quot (1 + 1) 2 =? 0)%Z with false. cbn [negb execute_plan].
    rewrite kiss_fft_computes_dft by lia. reflexivity.
  - destruct (Z.eqb_spec is_inverse (-1)) as [->|H2]; cbn [orb negb andb].
    + split; [reflexivity|]. intros Hx. change (Z.quot (-1 + 1) 2 =? 0)%Z with true. cbn [negb execute_plan].
      rewrite kiss_fft_computes_dft by lia. reflexivity.
    + now split.
Qed.

(** a concrete case: the transform of (1,0,0) has three entries, all 1, and n = 3 meets the hypotheses *)
Example kiss_fft_ex : kiss_fft false 3 [RtoC 1; RtoC 0; RtoC 0] = Ret [RtoC 1; RtoC 1; RtoC 1].
Proof.
  rewrite kiss_fft_computes_dft by (simpl; lia). apply (f_equal (@Ret (list C))).
  unfold tabulate. cbn [seq map Csum nth].
  assert (E : forall k, kernel false 3 0 k = RtoC 1).
  { intros k. unfold kernel, expi. simpl (INR 0).
    replace (-1 * (2 * PI * 0 * INR k / INR 3))%R with 0%R by (unfold Rdiv; ring).
    now rewrite cos_0, sin_0. }
  rewrite !E. repeat f_equal; ring.
Qed.

Print Assumptions next_fft_length_least.
Print Assumptions kf_factor_chain.
Print Assumptions factor_buffer_suffices.
Print Assumptions kiss_fft_computes_dft.
Print Assumptions kiss_fft_round_trip.
Print Assumptions fft_wrapper_plan_and_execute.
