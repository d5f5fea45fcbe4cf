(** * Inverting a continuous spectrum: uniqueness, and instances that meet the hypotheses *)
From Coq Require Import Reals ZArith List Lia Lra.
From Coquelicot Require Import Coquelicot.
From Verif Require Import Base Mem ErrModel CExp CField CConj DiscTables NsevModel NsevSpec FscatterSpec FinvModel FinvProps SpecfactModel InvModel InvGrid InvArgs InvTop InvCsSpec InvPeel InvCsAlg InvPeelTop InvCs InvCsTop InvCsB.
Import ListNotations.
Local Open Scope C_scope.

(** the output is the only potential in the range of the scheme with the given reflection coefficient *)
Theorem nsev_inverse_refl_unique E s p m (T XI0 XI : R * R) (cs q : list C) o (P : list C) (qv : nat -> C) :
  let D := (2 ^ p)%nat in let M := (2 * m)%nat in let eps_t := ((snd T - fst T) / INR (D - 1))%R in
  well E -> runs_finvscatter E -> (1 <= p)%nat -> (D <= M)%nat -> (fst T < snd T)%R ->
  fnft_nsev_inverse_XI D (Some T) M (Some XI0) (disc_of s) = Ret (SUCCESS, Some XI) ->
  i_disc o = disc_of s -> length cs = M -> (D <= length q)%nat -> i_cs o = IC_REFLECTION_COEFFICIENT -> i_meth o = IM_DEFAULT \/ i_meth o = IM_REFL_COEFF ->
  interpolates P M (fun n => Cexp (2 * Ci * RtoC (grid_point XI M n) * RtoC eps_t)) (fun n => nth n cs (RtoC 0) * Cexp (2 * Ci * RtoC (grid_point XI M n) * RtoC (snd T))) ->
  (forall n, (n < D)%nat -> in_range s 1 eps_t (qv n)) -> same_reflection s 1 eps_t qv D (fun _ => 1) (polyval P) ->
  forall cs' q', fnft_nsev_inverse E M (Some cs) (Some XI) 0 None None D (Some q) (Some T) 1 (Some o) = Ret (SUCCESS, (Some cs', Some q')) ->
  forall n, (n < D)%nat -> nth n q' (RtoC 0) = qv n.
Proof.
  intros D M eps_t HE HF Hp HM HT HX Hd Lc Lq Ho Hmeth HPi Hr HR cs' q' Erun n Hn.
  destruct (nsev_inverse_refl_recovers E s p m T XI0 XI cs q 1 o HE HF Hp HM HT HX (or_introl eq_refl) Hd Lc Lq Ho Hmeth qv P) as (cs1 & q1 & E1 & S1); try assumption.
  { destruct s; cbn; auto. }
  assert (Eq := eq_trans (eq_sym Erun) E1). injection Eq as -> ->. rewrite (proj2 S1). fold D. destruct (Nat.ltb_spec n D); [reflexivity|lia].
Qed.

(** an environment: all allocations succeed, zeros in memory, the models of the subroutines *)
Definition j0 (n : nat) : list C := repeat (RtoC 0) n.
Definition env0 : ienv := {|
  ie_alloc := fun _ => true; ie_junk := fun _ => j0; ie_plan := fun _ => SUCCESS;
  ie_specfact := fun _ deg p os kappa =>
    x <- poly_specfact (fun _ => j0) deg (Some p) (Some (j0 (deg + 1))) os kappa ;; let '(code, r) := x in Ret (code, match r with Some r => r | None => [] end);
  ie_finv := fun deg tm q eps_t kappa d =>
    x <- nse_finvscatter (fun _ => j0) j0 j0 j0 deg (Some tm) (Some q) eps_t kappa d ;; let '(code, q', _) := x in Ret (code, match q' with Some q' => q' | None => q end);
  ie_sbs := fun _ _ _ _ K bs => Ret (SUCCESS, bs, repeat 0%Z K) |}.
Lemma env0_well : well env0. Proof. repeat split; try (intros; apply repeat_length). Qed.
Lemma env0_finv : runs_finvscatter env0.
Proof. exists (fun _ => j0), j0, j0, j0. repeat split; intros; try apply repeat_length; reflexivity. Qed.
Definition opts0 (c : icstype) (s : scheme) : iopts := {| i_disc := disc_of s; i_cs := c; i_meth := IM_DEFAULT; i_ds := ID_NORMING_CONSTANTS; i_maxiter := 100; i_os := 8 |}.

(** any 8 values of a reflection coefficient can be inverted with 4 samples *)
Example invert_refl (s : scheme) (cs : list C) : length cs = 8%nat -> exists XI cs' q',
  fnft_nsev_inverse_XI 4 (Some (-1, 1)%R) 8 (Some (0, 0)%R) (disc_of s) = Ret (SUCCESS, Some XI) /\
  fnft_nsev_inverse env0 8 (Some cs) (Some XI) 0 None None 4 (Some (j0 4)) (Some (-1, 1)%R) 1 (Some (opts0 IC_REFLECTION_COEFFICIENT s)) = Ret (SUCCESS, (Some cs', Some q')) /\ length q' = 4%nat.
Proof.
  intros L.
  assert (Ak : exists a, nse_to_akns (disc_of s) = Some a /\ akns_degree a = 1%nat /\ akns_upsampling_factor a = 1%nat) by (destruct s; cbn; eexists; repeat split; reflexivity).
  destruct Ak as (a & Ea & Da & Ua).
  destruct (inverse_XI_grid 4 4 (-1, 1)%R (disc_of s) a ltac:(lia) ltac:(cbn; lra) ltac:(lia) Ea ltac:(rewrite Da; discriminate) ltac:(rewrite Ua; discriminate) (0, 0)%R) as (XI & EX & _).
  destruct (nsev_inverse_refl_focusing env0 s 2 4 (-1, 1)%R (0, 0)%R XI cs (j0 4) 1 (opts0 IC_REFLECTION_COEFFICIENT s) env0_well env0_finv ltac:(lia) ltac:(cbn; lia) ltac:(cbn; lra) EX (or_introl eq_refl) eq_refl L ltac:(cbn; lia) eq_refl (or_introl eq_refl) eq_refl)
    as (cs' & q' & P & Er & _ & _ & _ & Lq & _).
  exists XI, cs', q'. split; [exact EX|]. split; [exact Er|exact Lq].
Qed.
(** the hypotheses of the theorems for b(xi) and B(tau) can be met: a factorization routine that returns A(z) = 1 *)
Definition env1 : ienv := {| ie_alloc := ie_alloc env0; ie_junk := ie_junk env0; ie_plan := ie_plan env0;
  ie_specfact := fun _ deg _ _ _ => Ret (SUCCESS, j0 deg ++ [RtoC 1]); ie_finv := ie_finv env0; ie_sbs := ie_sbs env0 |}.
Lemma env1_well : well env1. Proof. exact env0_well. Qed.
Lemma env1_finv : runs_finvscatter env1. Proof. exact env0_finv. Qed.
Example invert_tau (s : scheme) (cs : list C) : length cs = 4%nat -> exists cs' q',
  fnft_nsev_inverse env1 4 (Some cs) None 0 None None 4 (Some (j0 4)) (Some (-1, 1)%R) 1 (Some (opts0 IC_B_OF_TAU s)) = Ret (SUCCESS, (Some cs', Some q')) /\ length q' = 4%nat.
Proof.
  intros L.
  destruct (nsev_inverse_tau_focusing env1 s 2 2 (-1, 1)%R None cs (j0 4) 1 (opts0 IC_B_OF_TAU s) env1_well env1_finv ltac:(lia) ltac:(cbn; lia) ltac:(cbn; lra) (or_introl eq_refl) eq_refl L ltac:(cbn; lia) (or_intror eq_refl)
    eq_refl eq_refl eq_refl ltac:(cbn; lra) (j0 3 ++ [RtoC 1]) eq_refl eq_refl eq_refl C1n0) as (cs' & q' & Er & _ & _ & Lq & _).
  exists cs', q'. split; [exact Er|exact Lq].
Qed.
Example invert_b (s : scheme) (cs : list C) : length cs = 8%nat -> exists XI cs' q',
  fnft_nsev_inverse env1 8 (Some cs) (Some XI) 0 None None 4 (Some (j0 4)) (Some (-1, 1)%R) 1 (Some (opts0 IC_B_OF_XI s)) = Ret (SUCCESS, (Some cs', Some q')) /\ length q' = 4%nat.
Proof.
  intros L.
  assert (Ak : exists a, nse_to_akns (disc_of s) = Some a /\ akns_degree a = 1%nat /\ akns_upsampling_factor a = 1%nat) by (destruct s; cbn; eexists; repeat split; reflexivity).
  destruct Ak as (a & Ea & Da & Ua).
  destruct (inverse_XI_grid 4 4 (-1, 1)%R (disc_of s) a ltac:(lia) ltac:(cbn; lra) ltac:(lia) Ea ltac:(rewrite Da; discriminate) ltac:(rewrite Ua; discriminate) (0, 0)%R) as (XI & EX & _).
  destruct (nsev_inverse_b_focusing env1 s 2 4 (-1, 1)%R (Some XI) cs (j0 4) 1 (opts0 IC_B_OF_XI s) env1_well env1_finv ltac:(lia) ltac:(cbn; lia) ltac:(cbn; lra) (or_introl eq_refl) eq_refl L ltac:(cbn; lia) ltac:(left; congruence)
    (0, 0)%R XI eq_refl EX eq_refl eq_refl) as (P & _ & G).
  destruct (G (j0 4 ++ [RtoC 1]) eq_refl eq_refl C1n0) as (cs' & q' & Er & _ & _ & Lq & _). exists XI, cs', q'. split; [exact Er|exact Lq].
Qed.
Print Assumptions nsev_inverse_refl_recovers.
Print Assumptions nsev_inverse_refl_focusing.
Print Assumptions nsev_inverse_refl_unique.
Print Assumptions nsev_inverse_b_focusing.
Print Assumptions nsev_inverse_b_recovers.
Print Assumptions nsev_inverse_tau_focusing.
Print Assumptions nsev_inverse_tau_recovers.
Print Assumptions tau_trapezoid.
Print Assumptions nse_finvscatter_recovers.
Print Assumptions nse_finvscatter_focusing.
