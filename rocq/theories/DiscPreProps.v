(** * Theorems about the preprocessing of the samples (C31) *)
From Coq Require Import Reals Lra.
From Coquelicot Require Import Coquelicot.
From Verif Require Import DiscModel MiscProof ResampleProof FftAppProps DiscPreProof DiscProps MiscNumProps.
Local Open Scope C_scope.

(** ** Specification *)
(** every [nskip]-th of the D samples is a step: there are Dsub >= 2 steps, all inside the signal; with
   Dsub = D requested every sample is a step *)
Definition grid_ok (D Dsub0 nskip : nat) (o : pre_out) : Prop :=
  (1 <= nskip)%nat /\ (2 <= po_Dsub o)%nat /\ ((po_Dsub o - 1) * nskip < D)%nat
  /\ po_first o = 0%nat /\ po_last o = ((po_Dsub o - 1) * nskip)%nat
  /\ (Dsub0 = D -> nskip = 1%nat /\ po_Dsub o = D).

(** the Gauss-Legendre nodes on [-1/2, 1/2] *)
Definition gauss_node (n c : nat) : R :=
  match n, c with
  | 2%nat, 0%nat => (- (sqrt 3 / 6))%R | 2%nat, 1%nat => (sqrt 3 / 6)%R
  | 3%nat, 0%nat => (- (sqrt 15 / 10))%R | 3%nat, 2%nat => (sqrt 15 / 10)%R
  | _, _ => 0%R
  end.

(** sum_{c < n} w_c x_c *)
Definition dot (w x : nat -> C) (n : nat) : C := fsum (K := CF) n (fun c => Cmult (w c) (x c)).

Lemma wdot_dot w x n : wdot w x n = dot w x n.
Proof. unfold dot. induction n as [|n IH]; [reflexivity|]. cbn. now rewrite IH. Qed.

Lemma for_ext {S : Type} (b1 b2 : nat -> S -> out S) cnt : forall lo st,
  (forall i st, b1 i st = b2 i st) -> for_ cnt lo b1 st = for_ cnt lo b2 st.
Proof.
  induction cnt as [|k IH]; intros lo st H; [reflexivity|]. cbn [for_]. rewrite H. destruct (b2 lo st); [cbn [bind]; now apply IH|reflexivity].
Qed.

Lemma sizes_full D : (2 <= D)%nat -> downsample_sizes D D = Ret (1%nat, D).
Proof.
  intros H. unfold downsample_sizes. destruct (Nat.ltb_spec D 2); [lia|]. destruct (Nat.ltb_spec D D); [lia|].
  unfold round_div. replace (2 * D + D)%nat with (D + 1 * (2 * D))%nat by lia. rewrite Nat.div_add by lia.
  rewrite Nat.div_small by lia. cbn [Nat.eqb Nat.add].
  replace (2 * D + 1)%nat with (1 + D * 2)%nat by lia. replace (2 * 1)%nat with 2%nat by lia. rewrite Nat.div_add by lia. cbn. reflexivity.
Qed.

Section AKNS.
Variables (junk : nat -> nat -> list C) (junkR : nat -> list R).
Hypothesis Hjunk : forall k n, length (junk k n) = n.
Hypothesis HjunkR : forall n, length (junkR n) = n.
Variables (D Dsub0 : nat) (q : list C) (rf : nat -> C -> C) (eps_t : R).
Hypothesis Lq : length q = D.
Hypothesis Heps : (0 < eps_t)%R.

(** entry: all checks passed *)
Lemma pre_entry (HD : (2 <= D)%nat) (d : akns_disc) : akns_upsampling_factor d <> 0%nat ->
  exists nskip Dsub, (1 <= nskip)%nat /\ (2 <= Dsub)%nat /\ ((Dsub - 1) * nskip < D)%nat
   /\ (Dsub0 = D -> nskip = 1%nat /\ Dsub = D)
   /\ akns_preprocess junk junkR D (Some q) rf eps_t Dsub0 d =
     (let u := akns_upsampling_factor d in
      let De := (Dsub * u)%nat in
      let qr := (junk 0%nat De, junk 1%nat De) in
      r <- match akns_pre_class d with
      | None => Ret (2%Z, qr)
      | Some P_plain =>
          qr <- for_ De 0 (fun k qr => x <- aget q (k * nskip) ;;
            a <- aset (fst qr) k x ;; b <- aset (snd qr) k (rf 0%nat x) ;; Ret (a, b)) qr ;; Ret (0%Z, qr)
      | Some P_CF4_2 => cf_branch junk junkR 2 Dsub nskip D eps_t q (rf 0%nat) (eps_t * (sqrt 3 / 6) * INR nskip) false d qr
      | Some P_CF4_3 => cf_branch junk junkR 3 Dsub nskip D eps_t q (rf 0%nat) (eps_t * sqrt (3/20) * INR nskip) true d qr
      | Some P_CF5_3 => cf_branch junk junkR 3 Dsub nskip D eps_t q (rf 0%nat) (eps_t * sqrt 15 / 10 * INR nskip) true d qr
      | Some P_CF6_4 => cf_branch junk junkR 4 Dsub nskip D eps_t q (rf 0%nat) (eps_t * INR nskip * sqrt 15 / 10) true d qr
      | Some P_ES4 => qr <- es4_branch Dsub nskip eps_t q rf qr ;; Ret (0%Z, qr)
      end ;;
      if (fst r =? 0)%Z
      then Ret (inr {| po_Dsub := Dsub; po_q := fst (snd r); po_r := snd (snd r); po_first := 0;
                       po_last := (Dsub - 1) * nskip |})
      else Ret (inl (fst r))).
Proof.
  intros Hu. destruct (sizes_spec D Dsub0 HD) as (s & m & E & H1 & H2 & H3).
  exists s, m. split; [exact H1|]. split; [exact H2|]. split; [exact H3|]. split.
  { intros ->. rewrite sizes_full in E by exact HD. injection E as <- <-. split; reflexivity. }
  unfold akns_preprocess. destruct (Nat.ltb_spec D 2); [lia|]. destruct (Rle_dec eps_t 0); [lra|].
  rewrite E. cbn [bind]. destruct (Nat.eqb_spec (akns_upsampling_factor d) 0); [contradiction|]. reflexivity.
Qed.

(** plain discretizations (BO and all 2SPLIT): sample k of the result is sample k*nskip of the signal *)
Theorem akns_preprocess_plain (d : akns_disc) : (2 <= D)%nat -> akns_upsampling_factor d = 1%nat ->
  exists nskip o, akns_preprocess junk junkR D (Some q) rf eps_t Dsub0 d = Ret (inr o)
    /\ grid_ok D Dsub0 nskip o /\ length (po_q o) = po_Dsub o /\ length (po_r o) = po_Dsub o
    /\ forall k, (k < po_Dsub o)%nat ->
         nth k (po_q o) 0 = nth (k * nskip) q 0 /\ nth k (po_r o) 0 = rf 0%nat (nth (k * nskip) q 0).
Proof.
  intros HD Hu. destruct (pre_entry HD d) as (s & m & H1 & H2 & H3 & H4 & E); [lia|]. rewrite E. clear E.
  cbv zeta. rewrite Hu, Nat.mul_1_r.
  assert (Hc : akns_pre_class d = Some P_plain) by (destruct d; vm_compute in Hu; try discriminate; reflexivity).
  rewrite Hc.
  destruct (plain_loop_spec m s q q (fun x => x) (rf 0%nat) (junk 0%nat m) (junk 1%nat m)) as (a & b & E & La & Lb & N).
  { apply Hjunk. } { apply Hjunk. } { intros k Hk. assert (k * s <= (m - 1) * s)%nat by (apply Nat.mul_le_mono_r; lia). lia. }
  assert (E' : for_ m 0 (fun k qr => x <- aget q (k * s) ;;
            a <- aset (fst qr) k x ;; b <- aset (snd qr) k (rf 0%nat x) ;; Ret (a, b)) (junk 0%nat m, junk 1%nat m) = Ret (a, b)).
  { rewrite <- E. apply for_ext. intros i st. destruct (aget q (i * s)); reflexivity. }
  rewrite E'. cbn [bind fst snd Z.eqb].
  eexists s, _. split; [reflexivity|]. cbn [po_q po_r po_Dsub]. split; [unfold grid_ok; cbn; auto 10|].
  split; [exact La|]. split; [exact Lb|]. exact N.
Qed.

Lemma cf_branch_spec (HD : (3 <= D)%nat) u Dsub nskip (f : C -> C) (c : R) (mid : bool) d w sw (a b : list C) :
  (0 < u)%nat -> (1 <= nskip)%nat -> (2 <= Dsub)%nat -> ((Dsub - 1) * nskip < D)%nat ->
  akns_method_weights d = inr (w, sw) -> (length w = u * (if mid then 3 else 2))%nat ->
  length a = (Dsub * u)%nat -> length b = (Dsub * u)%nat ->
  exists (a' b' : list C) (cols : list (list C)), cf_branch junk junkR u Dsub nskip D eps_t q f (c * eps_t * INR nskip) mid d (a, b) = Ret (0%Z, (a', b'))
    /\ length a' = (u * Dsub)%nat /\ length b' = (u * Dsub)%nat
    /\ (forall i, (i < (if mid then 3 else 2))%nat -> resampled junk junkR D eps_t
          ((if mid then nth i [- c; 0; c] 0 else nth i [- c; c] 0) * eps_t * INR nskip)%R q (nth i cols []))
    /\ forall k j, (k < Dsub)%nat -> (j < u)%nat ->
         nth (u * k + j) a' 0 = dot (fun m => nth (j * (if mid then 3 else 2) + m) w 0) (fun m => nth (k * nskip) (nth m cols []) 0) (if mid then 3 else 2)
      /\ nth (u * k + j) b' 0 = dot (fun m => nth (j * (if mid then 3 else 2) + m) w 0) (fun m => f (nth (k * nskip) (nth m cols []) 0)) (if mid then 3 else 2).
Proof.
  intros Hu H1 H2 H3 Hw Lw La Lb. unfold cf_branch.
  destruct (resample_new_spec junk junkR 2 D eps_t q (- (c * eps_t * INR nskip)) Hjunk HjunkR ltac:(lia) ltac:(lra) Lq) as (qm & Em & Lm & Rm).
  destruct (resample_new_spec junk junkR 3 D eps_t q (c * eps_t * INR nskip) Hjunk HjunkR ltac:(lia) ltac:(lra) Lq) as (qp & Ep & Lp & Rp).
  rewrite Em. cbn [bind fst snd Z.eqb negb]. rewrite Ep. cbn [bind fst snd Z.eqb negb]. rewrite Hw.
  set (cols := if mid then [qm; q; qp] else [qm; qp]).
  destruct (cf_loop_spec u (if mid then 3 else 2) w f cols Dsub nskip) with (q := a) (r := b) as (a' & b' & E & La' & Lb' & N).
  { unfold cols. destruct mid; reflexivity. } { lia. } { exact Hu. }
  { intros x Hx k Hk. assert (k * nskip <= (Dsub - 1) * nskip)%nat by (apply Nat.mul_le_mono_r; lia).
    assert (length x = D); [|lia]. unfold cols in Hx. destruct mid; cbn in Hx; intuition (subst; auto). }
  { lia. } { lia. }
  rewrite E. cbn [bind]. exists a', b', cols. split; [reflexivity|]. split; [lia|]. split; [lia|]. split.
  - specialize (Rm junk junkR Hjunk HjunkR). specialize (Rp junk junkR Hjunk HjunkR).
    assert (R0 : resampled junk junkR D eps_t 0 q q).
    { destruct (misc_resample_total junk junkR Hjunk HjunkR D eps_t ltac:(lia) ltac:(lra) 0 q Lq) as (q0 & R0).
      rewrite <- (misc_resample_zero_shift junk junkR Hjunk HjunkR D eps_t ltac:(lia) ltac:(lra) q q0 Lq R0) at 2. exact R0. }
    intros i Hi. unfold cols. destruct mid; destruct i as [|[|[|i]]]; try lia; cbn [nth].
    + now replace (- c * eps_t * INR nskip)%R with (- (c * eps_t * INR nskip))%R by ring.
    + now replace (0 * eps_t * INR nskip)%R with 0%R by ring.
    + exact Rp.
    + now replace (- c * eps_t * INR nskip)%R with (- (c * eps_t * INR nskip))%R by ring.
    + exact Rp.
  - intros k j Hk Hj. destruct (N k j Hk Hj) as [-> ->]. unfold cfq, cfr. rewrite !wdot_dot. split; reflexivity.
Qed.

(** the commutator-free methods (CFn_m and 4SPLIT): with the columns
   col_c = signal resampled by (Gauss node c)*eps_t*nskip (misc_resample, C11), entry j of step k is the weighted sum
   of the columns at sample k*nskip with the weights of row j *)
Theorem akns_preprocess_commutator_free (d : akns_disc) w sw : (3 <= D)%nat ->
  akns_method_weights d = inr (w, sw) -> (2 <= akns_upsampling_factor d)%nat ->
  exists (ncol nskip : nat) (o : pre_out) (cols : list (list C)), akns_preprocess junk junkR D (Some q) rf eps_t Dsub0 d = Ret (inr o)
    /\ (ncol = 2 \/ ncol = 3)%nat /\ length w = (akns_upsampling_factor d * ncol)%nat
    /\ grid_ok D Dsub0 nskip o
    /\ length (po_q o) = (akns_upsampling_factor d * po_Dsub o)%nat /\ length (po_r o) = (akns_upsampling_factor d * po_Dsub o)%nat
    /\ (forall c, (c < ncol)%nat -> resampled junk junkR D eps_t (gauss_node ncol c * eps_t * INR nskip) q (nth c cols []))
    /\ forall k j, (k < po_Dsub o)%nat -> (j < akns_upsampling_factor d)%nat ->
         nth (akns_upsampling_factor d * k + j) (po_q o) 0
           = dot (fun c => nth (j * ncol + c) w 0) (fun c => nth (k * nskip) (nth c cols []) 0) ncol
      /\ nth (akns_upsampling_factor d * k + j) (po_r o) 0
           = dot (fun c => nth (j * ncol + c) w 0) (fun c => rf 0%nat (nth (k * nskip) (nth c cols []) 0)) ncol.
Proof.
  intros HD Hw Hu. destruct (pre_entry ltac:(lia) d) as (s & m & H1 & H2 & H3 & H4 & E); [lia|]. rewrite E. clear E. cbv zeta.
  assert (F : forall (mid : bool) (c : R), (length w = akns_upsampling_factor d * (if mid then 3 else 2))%nat ->
     (forall i, (i < (if mid then 3 else 2))%nat -> gauss_node (if mid then 3 else 2) i = if mid then nth i [- c; 0; c]%R 0%R else nth i [- c; c]%R 0%R) ->
     exists (ncol nskip : nat) (o : pre_out) (cols : list (list C)),
      (r <- cf_branch junk junkR (akns_upsampling_factor d) m s D eps_t q (rf 0%nat) (c * eps_t * INR s) mid d
          (junk 0%nat (m * akns_upsampling_factor d)%nat, junk 1%nat (m * akns_upsampling_factor d)%nat) ;;
       if (fst r =? 0)%Z
       then Ret (inr {| po_Dsub := m; po_q := fst (snd r); po_r := snd (snd r); po_first := 0; po_last := (m - 1) * s |})
       else Ret (inl (fst r))) = Ret (inr o)
    /\ (ncol = 2 \/ ncol = 3)%nat /\ length w = (akns_upsampling_factor d * ncol)%nat
    /\ grid_ok D Dsub0 nskip o
    /\ length (po_q o) = (akns_upsampling_factor d * po_Dsub o)%nat /\ length (po_r o) = (akns_upsampling_factor d * po_Dsub o)%nat
    /\ (forall c, (c < ncol)%nat -> resampled junk junkR D eps_t (gauss_node ncol c * eps_t * INR nskip) q (nth c cols []))
    /\ forall k j, (k < po_Dsub o)%nat -> (j < akns_upsampling_factor d)%nat ->
         nth (akns_upsampling_factor d * k + j) (po_q o) 0
           = dot (fun c => nth (j * ncol + c) w 0) (fun c => nth (k * nskip) (nth c cols []) 0) ncol
      /\ nth (akns_upsampling_factor d * k + j) (po_r o) 0
           = dot (fun c => nth (j * ncol + c) w 0) (fun c => rf 0%nat (nth (k * nskip) (nth c cols []) 0)) ncol).
  { intros mid c Lw Hg.
    destruct (cf_branch_spec HD (akns_upsampling_factor d) m s (rf 0%nat) c mid d w sw
      (junk 0%nat (m * akns_upsampling_factor d)%nat) (junk 1%nat (m * akns_upsampling_factor d)%nat) ltac:(lia) H1 H2 H3 Hw Lw (Hjunk _ _) (Hjunk _ _))
      as (a & b & cols & E & La & Lb & Rc & N).
    rewrite E. cbn [bind fst snd Z.eqb]. eexists (if mid then 3 else 2)%nat, s, _, cols. split; [reflexivity|]. cbn [po_q po_r po_Dsub].
    split; [destruct mid; auto|]. split; [exact Lw|]. split; [unfold grid_ok; cbn; auto 10|]. split; [exact La|]. split; [exact Lb|]. split.
    - intros i Hi. rewrite Hg by exact Hi. specialize (Rc i Hi). destruct mid; exact Rc.
    - exact N. }
  assert (S15 : sqrt (3 / 20) = (sqrt 15 / 10)%R).
  { replace (3/20)%R with (15 / (10 * 10))%R by field. rewrite sqrt_div by lra. rewrite sqrt_square by lra. reflexivity. }
  assert (Lw : length w = (akns_upsampling_factor d * (match akns_pre_class d with Some P_CF4_2 => 2 | _ => 3 end))%nat /\
     (akns_pre_class d = Some P_CF4_2 /\ akns_upsampling_factor d = 2%nat \/ akns_pre_class d = Some P_CF4_3 /\ akns_upsampling_factor d = 3%nat
      \/ akns_pre_class d = Some P_CF5_3 /\ akns_upsampling_factor d = 3%nat \/ akns_pre_class d = Some P_CF6_4 /\ akns_upsampling_factor d = 4%nat)).
  { clear -Hw Hu. unfold akns_method_weights in Hw. destruct d; cbn in Hw; try discriminate; try (cbn in Hu; lia); injection Hw as <- _; split; auto. }
  destruct Lw as (Lw & [[Hc U]|[[Hc U]|[[Hc U]|[Hc U]]]]); rewrite Hc in *;
  rewrite ?S15.
  all: rewrite U in *.
  - destruct (F false (sqrt 3 / 6)%R Lw) as (ncol & nskip & o & cols & E & R).
    { intros [|[|i]] Hi; cbn in *; try lia; reflexivity. }
    exists ncol, nskip, o, cols. split; [|exact R]. rewrite <- E. now replace (eps_t * (sqrt 3 / 6) * INR s)%R with (sqrt 3 / 6 * eps_t * INR s)%R by ring.
  - destruct (F true (sqrt 15 / 10)%R Lw) as (ncol & nskip & o & cols & E & R).
    { intros [|[|[|i]]] Hi; cbn in *; try lia; reflexivity. }
    exists ncol, nskip, o, cols. split; [|exact R]. rewrite <- E. now replace (eps_t * (sqrt 15 / 10) * INR s)%R with (sqrt 15 / 10 * eps_t * INR s)%R by ring.
  - destruct (F true (sqrt 15 / 10)%R Lw) as (ncol & nskip & o & cols & E & R).
    { intros [|[|[|i]]] Hi; cbn in *; try lia; reflexivity. }
    exists ncol, nskip, o, cols. split; [|exact R]. rewrite <- E. now replace (eps_t * sqrt 15 / 10 * INR s)%R with (sqrt 15 / 10 * eps_t * INR s)%R by field.
  - destruct (F true (sqrt 15 / 10)%R Lw) as (ncol & nskip & o & cols & E & R).
    { intros [|[|[|i]]] Hi; cbn in *; try lia; reflexivity. }
    exists ncol, nskip, o, cols. split; [|exact R]. rewrite <- E. now replace (eps_t * INR s * sqrt 15 / 10)%R with (sqrt 15 / 10 * eps_t * INR s)%R by field.
Qed.

(** ES4 and TES4: the sample, its first and its second central difference (step eps_t*nskip), with zeros beyond the
   first and last step *)
Definition step_sample (m nskip : nat) (i : Z) : C :=
  if ((0 <=? i) && (i <? Z.of_nat m))%Z%bool then nth (Z.to_nat i * nskip) q 0 else 0.

Theorem akns_preprocess_derivatives (d : akns_disc) : (2 <= D)%nat -> d = A_ES4 \/ d = A_TES4 ->
  exists nskip o, akns_preprocess junk junkR D (Some q) rf eps_t Dsub0 d = Ret (inr o)
    /\ grid_ok D Dsub0 nskip o /\ length (po_q o) = (3 * po_Dsub o)%nat /\ length (po_r o) = (3 * po_Dsub o)%nat
    /\ let x := step_sample (po_Dsub o) nskip in let h := RtoC (eps_t * INR nskip) in
      forall k, (k < po_Dsub o)%nat ->
        nth (3 * k) (po_q o) 0 = x (Z.of_nat k)
     /\ nth (3 * k + 1) (po_q o) 0 = (x (Z.of_nat k + 1)%Z - x (Z.of_nat k - 1)%Z) / (2 * h)
     /\ nth (3 * k + 2) (po_q o) 0 = (x (Z.of_nat k + 1)%Z - 2 * x (Z.of_nat k) + x (Z.of_nat k - 1)%Z) / (h * h)
     /\ forall i, (i < 3)%nat -> nth (3 * k + i) (po_r o) 0 = rf i (nth (3 * k + i) (po_q o) 0).
Proof.
  intros HD Hd. assert (Hu : akns_upsampling_factor d = 3%nat /\ akns_pre_class d = Some P_ES4) by (destruct Hd; subst; split; reflexivity).
  destruct Hu as [Hu Hc]. destruct (pre_entry HD d) as (s & m & H1 & H2 & H3 & H4 & E); [lia|]. rewrite E. clear E. cbv zeta. rewrite Hu, Hc.
  assert (Hk : forall k, (k < m)%nat -> (k * s < length q)%nat).
  { intros k Hk. assert (k * s <= (m - 1) * s)%nat by (apply Nat.mul_le_mono_r; lia). lia. }
  destruct (es4_spec m s eps_t q rf H2 Hk (junk 0%nat (m * 3)%nat, junk 1%nat (m * 3)%nat)) as (a & b & E & La & Lb & N).
  { cbn. rewrite Hjunk. lia. } { cbn. rewrite Hjunk. lia. }
  rewrite E. cbn [bind fst snd Z.eqb]. eexists s, _. split; [reflexivity|]. cbn [po_q po_r po_Dsub].
  split; [unfold grid_ok; cbn; auto 10|]. split; [exact La|]. split; [exact Lb|]. intros k Hk'.
  assert (X : forall k1, DiscPreProof.xs m s q k1 = step_sample m s (Z.of_nat k1 - 1)).
  { intros [|k1]; unfold DiscPreProof.xs, step_sample.
    - reflexivity.
    - replace (Z.of_nat (S k1) - 1)%Z with (Z.of_nat k1) by lia. rewrite Nat2Z.id.
      destruct (Z.leb_spec 0 (Z.of_nat k1)); [|lia]. cbn [andb].
      destruct (Nat.ltb_spec k1 m), (Z.ltb_spec (Z.of_nat k1) (Z.of_nat m)); try lia; reflexivity. }
  destruct (N k 0%nat Hk' ltac:(lia)) as [N0 M0]. destruct (N k 1%nat Hk' ltac:(lia)) as [N1 M1]. destruct (N k 2%nat Hk' ltac:(lia)) as [N2 M2].
  rewrite Nat.add_0_r in N0. unfold es4_val in N0, N1, N2. rewrite !X in N0. rewrite !X in N1. rewrite !X in N2.
  replace (Z.of_nat (S k) - 1)%Z with (Z.of_nat k) in * by lia. replace (Z.of_nat (S (S k)) - 1)%Z with (Z.of_nat k + 1)%Z in * by lia.
  split; [exact N0|]. split; [exact N1|]. split; [exact N2|].
  intros i Hi. destruct (N k i Hk' Hi) as [-> ->]. reflexivity.
Qed.

(** errors: too few samples, no signal, bad step size, unknown discretization; D = 2 with a method that resamples *)
Theorem akns_preprocess_errors d qo : 
  ((D < 2)%nat -> akns_preprocess junk junkR D qo rf eps_t Dsub0 d = Ret (inl 2%Z))
  /\ akns_preprocess junk junkR D None rf eps_t Dsub0 d = Ret (inl 2%Z)
  /\ (forall e, (e <= 0)%R -> akns_preprocess junk junkR D qo rf e Dsub0 d = Ret (inl 2%Z))
  /\ ((2 <= D)%nat -> ~ akns_implemented d -> akns_preprocess junk junkR D (Some q) rf eps_t Dsub0 d = Ret (inl 2%Z))
  /\ (D = 2%nat -> akns_method_weights d <> inl 2%Z -> (2 <= akns_upsampling_factor d)%nat ->
       akns_preprocess junk junkR D (Some q) rf eps_t Dsub0 d = Ret (inl (-2)%Z)).
Proof.
  split; [|split; [|split; [|split]]].
  - intros H. unfold akns_preprocess. destruct (Nat.ltb_spec D 2); [reflexivity|lia].
  - unfold akns_preprocess. destruct (D <? 2)%nat; reflexivity.
  - intros e He. unfold akns_preprocess. destruct (D <? 2)%nat; [reflexivity|]. destruct qo; [|reflexivity]. destruct (Rle_dec e 0); [reflexivity|contradiction].
  - intros HD Hd. unfold akns_preprocess. destruct (D <? 2)%nat; [reflexivity|]. destruct (Rle_dec eps_t 0); [reflexivity|].
    destruct (sizes_spec D Dsub0 HD) as (s & m & E & _). rewrite E. cbn [bind].
    destruct (akns_others_are_flagged d Hd) as (_ & -> & _). reflexivity.
  - intros HD Hw Hu. destruct (pre_entry ltac:(lia) d) as (s & m & H1 & H2 & H3 & H4 & E); [lia|]. rewrite E. clear E. cbv zeta.
    assert (B : forall u delta mid a b, cf_branch junk junkR u m s D eps_t q (rf 0%nat) delta mid d (a, b) = Ret ((-2)%Z, (a, b))).
    { intros. unfold cf_branch, resample_new. unfold misc_resample. rewrite HD. cbn. reflexivity. }
    destruct d; cbn in Hu; try lia; cbn [akns_pre_class]; rewrite ?B; try reflexivity; now destruct Hw.
Qed.
End AKNS.
