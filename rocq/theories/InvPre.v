(** * nsev_inverse: the continuous spectrum is multiplied by the Blaschke product of the bound states *)
From Coq Require Import Reals ZArith List Lia Lra.
From Coquelicot Require Import Coquelicot.
From Verif Require Import CExp CField CConj CMean NsevProps InvModel InvSpec InvDarboux InvSoliton InvSolCode InvPerm InvSort InvGrid.
Import ListNotations.
Local Open Scope C_scope.

Lemma real_conj_neq (x : R) (l : C) : (0 < snd l)%R -> RtoC x - Cconj l <> 0.
Proof. intros H E. assert (Q := f_equal snd E). cbn in Q. lra. Qed.
(** |xi - l| = |xi - conj l| *)
Lemma factor_unit (x : R) (l : C) : (0 < snd l)%R -> Cmod (factor (RtoC x) l) = 1%R.
Proof.
  intros H. unfold factor. assert (N := real_conj_neq x l H). rewrite Cmod_div by exact N.
  assert (E : Cmod (RtoC x - l) = Cmod (RtoC x - Cconj l)).
  { rewrite <- (Cmod_conj (RtoC x - l)). f_equal. apply Ceq; cbn; ring. }
  rewrite E. apply Rinv_r. apply Rgt_not_eq. now apply Cmod_gt_0.
Qed.
Lemma blaschke_unit (x : R) ls : List.Forall (fun l : C => 0 < snd l)%R ls -> Cmod (blaschke ls (RtoC x)) = 1%R.
Proof.
  induction 1 as [|l ls H F IH]; cbn [blaschke fold_right]; [apply Cmod_1|]. rewrite Cmod_mult. fold (blaschke ls (RtoC x)). fold (factor (RtoC x) l). rewrite IH, factor_unit by exact H. ring.
Qed.
Theorem precompensate_ok M (cs : list C) XI (bs : list C) : (2 <= M)%nat -> length cs = M -> List.Forall (fun l : C => 0 < snd l)%R bs ->
  exists cs', precompensate M cs XI (length bs) bs = Ret cs' /\ length cs' = M /\
  forall i, (i < M)%nat -> nth i cs' (RtoC 0) = nth i cs (RtoC 0) * blaschke bs (RtoC (grid_point XI M i)) /\ Cmod (nth i cs' (RtoC 0)) = Cmod (nth i cs (RtoC 0)).
Proof.
  intros HM L P. assert (PF := P). rewrite Forall_forall in P. unfold precompensate. destruct (Nat.eqb_spec (length bs) 0) as [E0|_].
  { exists cs. split; [reflexivity|]. split; [exact L|]. intros i Hi. apply length_zero_iff_nil in E0. subst bs. cbn. split; [ring|reflexivity]. }
  unfold step. destruct (Nat.leb_spec M 1); [lia|]. cbn [bind].
  set (xi := fun i => (fst XI + INR i * ((snd XI - fst XI) / INR (M - 1)))%R).
  destruct (fill_ok (fun i => nth i cs (RtoC 0) * blaschke bs (RtoC (xi i))) (RtoC 0) M 0
    (fun i => c <- aget cs i ;; for_ (length bs) 0 (fun k c => l <- aget bs k ;; z <- cdivc (RtoC (xi i) - l) (RtoC (xi i) - Cconj l) ;; Ret (c * z)) c) cs) as (r & E & Lr & N); [lia| |].
  - intros i Hi. rewrite (aget_nth cs (RtoC 0)) by lia. cbn [bind].
    destruct (for_inv (fun k (c : C) => c = nth i cs (RtoC 0) * fold_right (fun j p => factor (RtoC (xi i)) (nth j bs (RtoC 0)) * p) 1 (seq 0 k))
      (fun k c => l <- aget bs k ;; z <- cdivc (RtoC (xi i) - l) (RtoC (xi i) - Cconj l) ;; Ret (c * z)) (length bs) 0 (nth i cs (RtoC 0))) as (c & Ec & I).
    + cbn. ring.
    + intros k c Hk ->. rewrite (aget_nth bs (RtoC 0)) by lia. cbn [bind]. rewrite cdivc_ok by (apply real_conj_neq, P, nth_In; lia). cbn [bind]. eexists. split; [reflexivity|].
      rewrite prod_snoc. unfold factor at 2. ring.
    + rewrite Ec. f_equal. rewrite I, blaschke_seq. reflexivity.
  - exists r. split; [exact E|]. split; [lia|]. intros i Hi. assert (Q : nth i r (RtoC 0) = nth i cs (RtoC 0) * blaschke bs (RtoC (grid_point XI M i))).
    { rewrite N. destruct (Nat.leb_spec 0 i); [|lia]. destruct (Nat.ltb_spec i (0 + M)); [|lia]. cbn [andb]. reflexivity. }
    split; [exact Q|]. rewrite Q, Cmod_mult, blaschke_unit by exact PF. ring.
Qed.
