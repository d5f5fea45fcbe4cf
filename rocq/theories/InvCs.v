(** * nsev_inverse: the transfer matrix built from samples of the continuous spectrum *)
From Coq Require Import Reals ZArith List Lia Lra.
From Coquelicot Require Import Coquelicot.
From Verif Require Import Base Mem Loop Series Fields CField CConj Dft FftUse MatSpec PolySpec ErrModel CExp KissModel KissProof DiscTables DiscProps NsevModel NsevSafe FscatterSpec FinvTop FinvProof InvModel InvGrid InvArgs InvTop InvCsSpec InvPeel InvCsAlg InvPeelTop.
Import ListNotations.
Local Open Scope C_scope.

(** ** the FFT gives the interpolating polynomial *)
Lemma unity_wroot M k : M <> O -> unity_root M k = fpow (K := CF) (Cinv (wroot false M)) k.
Proof.
  intros H. rewrite <- (wroot_inv false). cbn [negb]. rewrite wroot_pow by exact H. unfold unity_root. rewrite unity_im by exact H.
  unfold Cexp, cis. cbn [fst snd]. rewrite exp_0. replace (-2 * PI * INR k / INR M * -1)%R with (2 * PI * INR k / INR M)%R; [apply Ceq; cbn; ring|].
  field. apply not_0_INR. exact H.
Qed.
Lemma polyval_fsum (cs : list C) z : polyval cs z = fsum (K := CF) (length cs) (fun l => nth l cs (RtoC 0) * fpow (K := CF) z l).
Proof.
  destruct cs as [|c cs]; [reflexivity|]. rewrite (leval_polyval (c :: cs) (length cs)) by (cbn; lia). reflexivity.
Qed.
Lemma fpow_mul (z : C) a b : fpow (K := CF) (fpow (K := CF) z a) b = fpow (K := CF) z (b * a).
Proof. rewrite Nat.mul_comm. induction b as [|b IH]; [now rewrite Nat.mul_0_r|]. rewrite Nat.mul_succ_r, Nat.add_comm, fpow_add. cbn [fpow]. now rewrite IH. Qed.
(** values of a polynomial at the roots of unity *)
Lemma polyval_unity (cs : list C) k : cs <> [] -> polyval cs (unity_root (length cs) k) = dft (K := CF) (Cinv (wroot false (length cs))) (length cs) (fun l => nth l cs (RtoC 0)) k.
Proof.
  intros H. assert (L : length cs <> O) by (destruct cs; cbn; congruence). rewrite unity_wroot by exact L. rewrite polyval_fsum. unfold dft. apply (fsum_ext (K := CF)). intros l Hl.
  rewrite fpow_mul. reflexivity.
Qed.
Lemma unity_unique (cs ds : list C) : length cs = length ds -> (forall k, (k < length cs)%nat -> polyval cs (unity_root (length cs) k) = polyval ds (unity_root (length cs) k)) -> cs = ds.
Proof.
  intros L H. destruct cs as [|c0 cs0]; [destruct ds; [reflexivity|discriminate]|]. set (cs := c0 :: cs0) in *. set (M := length cs) in *.
  assert (HM : (1 <= M)%nat) by (unfold M, cs; cbn; lia). assert (Nd : ds <> []) by (destruct ds; [cbn in L; lia|congruence]).
  apply (nth_ext cs ds (RtoC 0) (RtoC 0)); [exact L|]. fold M. intros j Hj.
  assert (W := fft_nodes M HM).
  assert (A := dft_inversion' (K := CF) (wroot false M) M (fun l => nth l cs (RtoC 0)) j W Hj).
  assert (B := dft_inversion' (K := CF) (wroot false M) M (fun l => nth l ds (RtoC 0)) j W Hj).
  assert (E : dft (K := CF) (wroot false M) M (dft (finv (wroot false M : CF)) M (fun l : nat => nth l cs (RtoC 0))) j =
              dft (K := CF) (wroot false M) M (dft (finv (wroot false M : CF)) M (fun l : nat => nth l ds (RtoC 0))) j).
  { apply dft_ext. intros k Hk. assert (E1 := polyval_unity cs k ltac:(discriminate)). fold M in E1. assert (E2 := polyval_unity ds k Nd). rewrite <- L in E2.
    transitivity (polyval cs (unity_root M k)); [symmetry; exact E1|]. rewrite H by exact Hk. exact E2. }
  assert (F : fofnat (K := CF) M * nth j cs (RtoC 0) = fofnat (K := CF) M * nth j ds (RtoC 0)) by (etransitivity; [symmetry; exact A|]; etransitivity; [exact E|exact B]).
  rewrite fofnat_C in F. assert (N0 := INR_C_neq0 M ltac:(lia)). transitivity (RtoC (INR M) * nth j cs (RtoC 0) / RtoC (INR M)); [field; exact N0|]. rewrite F. field. exact N0.
Qed.
Lemma fft_interpolates (src dst : list C) M : (1 <= M)%nat -> length src = M -> length dst = M ->
  exists b, fft_exec false M src dst = Ret b /\ length b = M /\
  forall k, (k < M)%nat -> polyval (map (low_entry M) b) (unity_root M k) = nth k src (RtoC 0).
Proof.
  intros HM Ls Ld. destruct (fft_exec_spec false M src dst (fun k => nth k src (RtoC 0))) as (b & E & L & N); [lia|lia|lia|reflexivity|].
  exists b. split; [exact E|]. split; [lia|]. intros k Hk. assert (Lm : length (map (low_entry M) b) = M) by (rewrite map_length; lia).
  rewrite <- Lm at 2. rewrite polyval_unity by (destruct b; [cbn in L; lia|discriminate]). rewrite Lm.
  assert (Inv := dft_inversion (K := CF) (wroot false M) M (fun k => nth k src (RtoC 0)) k (fft_nodes M HM) Hk). rewrite fofnat_C in Inv.
  assert (N0 := INR_C_neq0 M ltac:(lia)).
  transitivity (/ RtoC (INR M) * dft (K := CF) (Cinv (wroot false M)) M (dft (K := CF) (wroot false M) M (fun k => nth k src (RtoC 0))) k).
  - unfold dft at 1 2. etransitivity; [|exact (fsum_scal (K := CF) M (/ RtoC (INR M)) _)]. apply (fsum_ext (K := CF)). intros j Hj.
    assert (Q : nth j (map (low_entry M) b) (RtoC 0) = nth j b (RtoC 0) / RtoC (INR M)).
    { rewrite nth_indep with (d' := low_entry M (RtoC 0)) by lia. rewrite map_nth. reflexivity. }
    rewrite Q, N by exact Hj. cbn [CF car fmul]. match goal with |- @eq _ ?a ?b => change (@eq C a b) end. field. exact N0.
  - transitivity (/ RtoC (INR M) * (RtoC (INR M) * nth k src (RtoC 0))); [f_equal; exact Inv|]. field. exact N0.
Qed.

(** ** grid index *)
Definition fft_pos (m n : nat) : nat := if (m - 1 <=? n)%nat then (n - (m - 1))%nat else (n + (m + 1))%nat.
Lemma fft_pos_ok m n : (1 <= m)%nat -> (n < 2 * m)%nat -> (fft_pos m n < 2 * m)%nat /\ fft_index m (fft_pos m n) = n.
Proof.
  intros Hm Hn. unfold fft_pos, fft_index. destruct (Nat.leb_spec (m - 1) n).
  - destruct (Nat.leb_spec (n - (m - 1)) m); lia.
  - destruct (Nat.leb_spec (n + (m + 1)) m); lia.
Qed.

(** the phase that is removed from the continuous spectrum *)
Definition cs_phase (eps_t : R) (D : nat) (T : R * R) (o : iopts) : phase_result :=
  match i_cs o with
  | IC_B_OF_XI => nse_phase_factor_b eps_t D (fst T) (snd T) (i_disc o)
  | _ => nse_phase_factor_rho eps_t (snd T) (i_disc o)
  end.

Section Coeffs.
Variables (E : ienv) (m D : nat) (T XI : R * R) (o : iopts) (cs : list C) (phi : R).
Let M := (2 * m)%nat.
Let eps_t := ((snd T - fst T) / INR (D - 1))%R.
Hypothesis HE : plenty E.
Hypothesis HJ : forall s n, length (ie_junk E s n) = n.
Hypothesis HP : forall s, ie_plan E s = SUCCESS.
Hypothesis Hm : (1 <= m)%nat.
Hypothesis HD : (2 <= D)%nat.
Hypothesis Lc : length cs = M.
Hypothesis Hcs : i_cs o = IC_REFLECTION_COEFFICIENT \/ i_cs o = IC_B_OF_XI.
Hypothesis Hph : cs_phase eps_t D T o = POk (Some phi).
(** the samples without the phase of the boundary *)
Definition unphased (n : nat) : C := nth n cs (RtoC 0) * Cexp (- Ci * RtoC (grid_point XI M n) * RtoC phi).

Lemma b_coefficients_ok s : exists cs' b, b_coefficients E s M cs XI D T o = Ret (SUCCESS, (cs', b)) /\ length cs' = M /\ length b = M /\
  (forall n, (n < M)%nat -> nth n cs' (RtoC 0) = unphased n) /\
  forall k, (k < M)%nat -> polyval (map (low_entry M) b) (unity_root M k) = unphased (fft_index m k).
Proof.
  unfold b_coefficients, remove_boundary. rewrite !HE. cbn [negb orb]. unfold step. destruct (Nat.leb_spec D 1); [lia|]. destruct (Nat.leb_spec M 1); [unfold M in *; lia|].
  cbn [bind]. fold eps_t.
  set (eps_xi := ((snd XI - fst XI) / INR (M - 1))%R).
  destruct (fill_ok unphased (RtoC 0) M 0 (fun i => c <- aget cs i ;; Ret (c * Cexp (- Ci * RtoC (fst XI + INR i * eps_xi) * RtoC phi))) cs) as (cs' & Ec & L' & N'); [lia| |].
  { intros i Hi. rewrite (aget_nth cs (RtoC 0)) by lia. reflexivity. }
  assert (N : forall n, (n < M)%nat -> nth n cs' (RtoC 0) = unphased n).
  { intros n Hn. rewrite N'. destruct (Nat.leb_spec 0 n); [|lia]. destruct (Nat.ltb_spec n (0 + M)); [|lia]. reflexivity. }
  destruct (reorder_ok D m A_2SPLIT2A HD Hm ltac:(discriminate) ltac:(discriminate) cs' (ie_junk E s M)) as (re & Er & Lr & Nr); [fold M; lia|apply HJ|]. fold M in Er, Lr, Nr.
  destruct (fft_interpolates re (ie_junk E (s + 1) M) M) as (b & Eb & Lb & Nb); [unfold M; lia|exact Lr|apply HJ|].
  exists cs', b. split; [|split; [lia|split; [exact Lb|split; [exact N|]]]].
  - assert (G : forall p, p = POk (Some phi) -> (p <- phase p;; check (fst p) (cs, ie_junk E s M)
       (contspec <- fill M 0 (fun i => c <- aget cs i;; Ret (c * Cexp (- Ci * RtoC (fst XI + INR i * eps_xi) * RtoC (snd p)))) cs;;
        re <- reorder M contspec (ie_junk E s M);; Ret (SUCCESS, (contspec, re)))) = Ret (SUCCESS, (cs', re))).
    { intros p ->. cbn [phase bind fst snd]. unfold check. change (Z.eqb SUCCESS SUCCESS) with true. cbv iota. rewrite Ec. cbn [bind]. rewrite Er. reflexivity. }
    assert (Go : match i_cs o with
        | IC_REFLECTION_COEFFICIENT | IC_B_OF_XI => True | _ => False end) by (destruct Hcs as [-> | ->]; exact I).
    unfold cs_phase in Hph. cbv zeta. destruct (i_cs o); try contradiction; rewrite (G _ Hph); cbn [bind]; unfold check; change (Z.eqb SUCCESS SUCCESS) with true; cbv iota;
      rewrite HP; change (Z.eqb SUCCESS SUCCESS) with true; cbv iota; rewrite Eb; reflexivity.
  - intros k Hk. rewrite Nb, Nr by exact Hk. apply N. apply (fft_index_lt D m A_2SPLIT2A HD Hm ltac:(discriminate) ltac:(discriminate)). exact Hk.
Qed.
End Coeffs.
