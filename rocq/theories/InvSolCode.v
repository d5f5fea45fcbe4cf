(** * The multi-soliton branch of add_discrete_spectrum computes the Darboux transform *)
From Coq Require Import Reals List Lra Lia.
From Coquelicot Require Import Coquelicot.
From Verif Require Import CExp CField CConj FscatterSpec FscatterProof NsevProps InvModel InvSpec InvDarboux InvSoliton.
Import ListNotations.
Local Open Scope C_scope.

(** partial correctness of loops *)
Lemma for_Ret {S : Type} (P : nat -> S -> Prop) body cnt : forall lo st st', P lo st ->
  (forall i s s', (lo <= i < lo + cnt)%nat -> P i s -> body i s = Ret s' -> P (Datatypes.S i) s') ->
  for_ cnt lo body st = Ret st' -> P (lo + cnt)%nat st'.
Proof.
  induction cnt as [|k IH]; intros lo st st' H0 Hs E.
  - cbn in E. injection E as <-. now rewrite Nat.add_0_r.
  - cbn [for_] in E. destruct (body lo st) as [s1|] eqn:B; [|discriminate]. cbn [bind] in E.
    replace (lo + Datatypes.S k)%nat with (Datatypes.S lo + k)%nat by lia. apply (IH _ s1); [apply (Hs lo st); auto; lia| |exact E].
    intros i s s' Hi. apply Hs. lia.
Qed.
Lemma cdivc_ok (z w : C) : w <> 0 -> cdivc z w = Ret (z / w).
Proof. intros H. unfold cdivc, ceq. destruct (Ceq_dec w 0); [contradiction|reflexivity]. Qed.
Lemma cdivc_Ret (z w x : C) : cdivc z w = Ret x -> w <> 0 /\ x = z / w.
Proof. unfold cdivc, ceq. destruct (Ceq_dec w 0); [discriminate|]. intros E. inversion E. auto. Qed.

(** ** Coordinates: v = (c, - c rho), or (- c rho, c) for the samples with t < 0 *)
Definition rep (fw : bool) (c r : C) : C * C := if fw then (c, - (c * r)) else (- (c * r), c).
Definition comp (fw : bool) (v : C * C) : C := if fw then fst v else snd v.
Definition cj (fw : bool) (z : C) : C := if fw then z else Cconj z.
Lemma rep_neq0 fw (c r : C) : c <> 0 -> rep fw c r <> vzero.
Proof. intros H E. destruct fw; apply pair_equal_spec in E; destruct E; auto. Qed.
Lemma Cim2 (l : C) : 2 * Ci * RtoC (snd l) = l - Cconj l. Proof. apply Ceq; cbn; ring. Qed.
Lemma Cmod2 (z : C) : RtoC (1 + Cmod z * Cmod z) = 1 + z * Cconj z.
Proof. rewrite Cmod_sq. apply Ceq; cbn; ring. Qed.
Lemma one_norm_neq0 (z : C) : 1 + z * Cconj z <> 0.
Proof. rewrite <- Cmod2. intros E. apply (f_equal fst) in E. cbn in E. assert (H := Cmod_ge_0 z). nra. Qed.
Definition fcoef (l rho : C) : C := 2 * Ci * RtoC (snd l) / RtoC (1 + Cmod rho * Cmod rho).
Lemma step_q fw (l c rho : C) : c <> 0 -> - (2 * Ci * a12 (darboux_S l (rep fw c rho))) = cj fw (2 * Cconj rho * fcoef l rho * Ci).
Proof.
  intros Hc. assert (Nc : Cconj c <> 0) by (intros E; apply Hc; now apply Cconj_0). assert (N := one_norm_neq0 rho).
  unfold fcoef. rewrite Cim2, Cmod2. unfold rep, darboux_S, norm2, cj. destruct fw; cbn [fst snd a12].
  - rewrite !Cconj_opp, !Cmult_conj. field. split; [exact N|]. 
    replace (c * Cconj c + - (c * rho) * - (Cconj c * Cconj rho)) with ((c * Cconj c) * (1 + rho * Cconj rho)) by ring.
    apply Cmult_neq_0; [now apply Cmult_neq_0|exact N].
  - assert (Ei : Cconj Ci = - Ci) by (apply Ceq; cbn; ring). assert (E2 : Cconj 2 = 2) by (apply Ceq; cbn; ring). assert (E1 : Cconj 1 = 1) by (apply Ceq; cbn; ring).
    rewrite !Cmult_conj, Cconj_div by exact N. rewrite !Cconj_opp, !Cmult_conj, !Cconj_minus, !Cplus_conj, !Cmult_conj, !Cconj_conj, Ei, E2, E1. field.
    split; match goal with |- ?e <> _ => first [replace e with (1 + rho * Cconj rho) by ring; exact N
      | replace e with ((c * Cconj c) * (1 + rho * Cconj rho)) by ring; apply Cmult_neq_0; [now apply Cmult_neq_0|exact N]] end.
Qed.
Definition rho_num (li lj rho rj : C) : C := (lj - li) * rj + (rj - rho) * fcoef li rho.
Definition rho_den (li lj rho rj : C) : C := lj - Cconj li - (1 + Cconj rho * rj) * fcoef li rho.
Lemma step_vec fw (li lj c rho d rj : C) : c <> 0 ->
  mv (shifted lj (darboux_S li (rep fw c rho))) (rep fw d rj) =
  if fw then (d * rho_den li lj rho rj, - (d * rho_num li lj rho rj)) else (- (d * rho_num li lj rho rj), d * rho_den li lj rho rj).
Proof.
  intros Hc. assert (Nc : Cconj c <> 0) by (intros E; apply Hc; now apply Cconj_0). assert (N := one_norm_neq0 rho).
  unfold rho_num, rho_den, fcoef. rewrite Cim2, Cmod2. unfold rep, darboux_S, norm2, mv, shifted. destruct fw; cbn [fst snd a11 a12 a21 a22].
  - rewrite !Cconj_opp, !Cmult_conj.
    assert (M : c * Cconj c + - (c * rho) * - (Cconj c * Cconj rho) <> 0).
    { replace (c * Cconj c + - (c * rho) * - (Cconj c * Cconj rho)) with ((c * Cconj c) * (1 + rho * Cconj rho)) by ring.
      apply Cmult_neq_0; [now apply Cmult_neq_0|exact N]. }
    f_equal; field; split; assumption.
  - rewrite !Cconj_opp, !Cmult_conj.
    assert (M : - (c * rho) * - (Cconj c * Cconj rho) + c * Cconj c <> 0).
    { replace (- (c * rho) * - (Cconj c * Cconj rho) + c * Cconj c) with ((c * Cconj c) * (1 + rho * Cconj rho)) by ring.
      apply Cmult_neq_0; [now apply Cmult_neq_0|exact N]. }
    f_equal; field; split; assumption.
Qed.
Lemma rep_next fw (li lj c rho d rj : C) : c <> 0 -> rho_den li lj rho rj <> 0 ->
  mv (shifted lj (darboux_S li (rep fw c rho))) (rep fw d rj) = rep fw (d * rho_den li lj rho rj) (rho_num li lj rho rj / rho_den li lj rho rj).
Proof. intros Hc Hd. rewrite step_vec by exact Hc. unfold rep. destruct fw; f_equal; field; exact Hd. Qed.

(** ** The loop over the bound states *)
Definition dv : C * (C * C) := (RtoC 0, vzero).
Definition T_ (V : list (C * (C * C))) (i : nat) : C -> mat2 := fst (darboux (firstn i V) 0).
Definition q_ (V : list (C * (C * C))) (i : nat) : C := snd (darboux (firstn i V) 0).
(** vector j after i transforms *)
Definition v_ (V : list (C * (C * C))) (i j : nat) : C * C := mv (T_ V i (fst (nth j V dv))) (snd (nth j V dv)).
(** no vector has a zero where the code divides by it *)
Definition regular (fw : bool) (V : list (C * (C * C))) : Prop := forall i j, (i <= j < length V)%nat -> comp fw (v_ V i j) <> 0.
Lemma firstn_snoc {A} (l : list A) i d : (i < length l)%nat -> firstn (S i) l = firstn i l ++ [nth i l d].
Proof. revert i. induction l as [|x l IH]; intros [|i] H; cbn in *; try lia; [reflexivity|]. rewrite <- IH by lia. reflexivity. Qed.
Lemma v_next V i j : (i < length V)%nat ->
  v_ V (S i) j = mv (shifted (fst (nth j V dv)) (darboux_S (fst (nth i V dv)) (v_ V i i))) (v_ V i j).
Proof. intros H. unfold v_ at 1. unfold T_ at 1. rewrite (firstn_snoc V i dv H), darboux_snoc. unfold dstep. cbn [fst]. now rewrite mv_mmul. Qed.
Lemma q_next V i : (i < length V)%nat -> q_ V (S i) = q_ V i - 2 * Ci * a12 (darboux_S (fst (nth i V dv)) (v_ V i i)).
Proof. intros H. unfold q_ at 1. rewrite (firstn_snoc V i dv H), darboux_snoc. reflexivity. Qed.
Lemma v_zero V j : v_ V 0 j = snd (nth j V dv).
Proof. unfold v_, T_. cbn. unfold mv. cbn [mone a11 a12 a21 a22]. destruct (nth j V dv) as [l [x y]]. cbn [fst snd]. f_equal; ring. Qed.
Lemma nth_fst V j : nth j (map fst V) (RtoC 0) = fst (nth j V dv). Proof. exact (map_nth fst V dv j). Qed.

Definition outer (fw : bool) V (i : nat) (st : C * list C) : Prop :=
  length (snd st) = length V /\ fst st = cj fw (q_ V i) /\
  (forall j, (i <= j < length V)%nat -> exists c : C, c <> RtoC 0 /\ v_ V i j = rep fw c (nth j (snd st) (RtoC 0))) /\
  (forall k j, (k < i)%nat -> (k <= j < length V)%nat -> comp fw (v_ V k j) <> 0).
Definition inner (fw : bool) V (i j : nat) (rho : C) (rhok : list C) : Prop :=
  length rhok = length V /\ nth i rhok (RtoC 0) = rho /\
  (forall k, (i <= k < length V)%nat -> exists c : C, c <> RtoC 0 /\
     v_ V (if (Nat.ltb i k && Nat.ltb k j)%bool then S i else i) k = rep fw c (nth k rhok (RtoC 0))).
Lemma comp_rep fw (c r : C) : comp fw (rep fw c r) = c. Proof. now destruct fw. Qed.
Lemma cj_plus fw a b : cj fw (a + b) = cj fw a + cj fw b. Proof. destruct fw; cbn; [reflexivity|]. now rewrite Cplus_conj. Qed.
Lemma cj_cj fw a : cj fw (cj fw a) = a. Proof. destruct fw; cbn; [reflexivity|]. now rewrite Cconj_conj. Qed.

Section Step.
Variables (fw : bool) (V : list (C * (C * C))).
Let bs := map fst V.
Let K := length V.
Lemma inner_pre i j rho rhok : (i < j < K)%nat -> inner fw V i j rho rhok ->
  exists c d : C, c <> RtoC 0 /\ d <> RtoC 0 /\ v_ V i i = rep fw c rho /\ v_ V i j = rep fw d (nth j rhok (RtoC 0)) /\
  comp fw (v_ V (S i) j) = d * rho_den (fst (nth i V dv)) (fst (nth j V dv)) rho (nth j rhok (RtoC 0)).
Proof.
  intros H (L & N & R). destruct (R i ltac:(unfold K in H; lia)) as (c & Hc & Ec). destruct (R j ltac:(unfold K in H; lia)) as (d & Hd & Ed).
  rewrite Nat.ltb_irrefl in Ec. cbn [andb] in Ec. rewrite (Nat.ltb_irrefl j), andb_false_r in Ed. rewrite N in Ec.
  exists c, d. repeat split; auto. rewrite v_next by (unfold K in H; lia). rewrite Ec, Ed, step_vec by exact Hc. now destruct fw.
Qed.
Definition ibody (i : nat) (li rho : C) (j : nat) (rhok : list C) : out (list C) :=
  lj <- aget bs j ;; rj <- aget rhok j ;; z <- rho_update li lj rho (fcoef li rho) rj ;; aset rhok j z.
Lemma bs_get j : (j < K)%nat -> aget bs j = Ret (fst (nth j V dv)).
Proof. intros H. rewrite (aget_nth bs (RtoC 0)) by (unfold bs; rewrite map_length; exact H). unfold bs. now rewrite nth_fst. Qed.
Lemma inner_step i j rho rhok : (i < j < K)%nat -> inner fw V i j rho rhok ->
  let d := rho_den (fst (nth i V dv)) (fst (nth j V dv)) rho (nth j rhok (RtoC 0)) in
  (d = 0 -> ibody i (fst (nth i V dv)) rho j rhok = UB) /\
  (d <> 0 -> exists r, ibody i (fst (nth i V dv)) rho j rhok = Ret r /\ inner fw V i (S j) rho r).
Proof.
  intros H I d. assert (I0 := I). destruct (inner_pre _ _ _ _ H I) as (c & e & Hc & He & Ec & Ee & Ecomp). destruct I as (L & N & R).
  unfold ibody. rewrite bs_get by lia. cbn [bind]. rewrite (aget_nth rhok (RtoC 0)) by (rewrite L; exact (proj2 H)). cbn [bind].
  unfold rho_update. fold (rho_num (fst (nth i V dv)) (fst (nth j V dv)) rho (nth j rhok (RtoC 0))) (rho_den (fst (nth i V dv)) (fst (nth j V dv)) rho (nth j rhok (RtoC 0))).
  fold d. split; intros Hd.
  - unfold cdivc, ceq. destruct (Ceq_dec d 0); [reflexivity|contradiction].
  - rewrite cdivc_ok by exact Hd. cbn [bind]. rewrite aset_upd by (rewrite L; exact (proj2 H)). eexists. split; [reflexivity|].
    split; [now rewrite upd_length|]. split.
    + rewrite nth_upd by (rewrite L; exact (proj2 H)). destruct (Nat.eqb_spec i j); [lia|exact N].
    + intros k Hk. rewrite nth_upd by (rewrite L; exact (proj2 H)). destruct (Nat.eqb_spec k j) as [->|Nk].
      * destruct (Nat.ltb_spec i j); [|lia]. destruct (Nat.ltb_spec j (S j)); [|lia]. cbn [andb].
        exists (e * d). split; [now apply Cmult_neq_0|]. rewrite v_next by (unfold K in H; lia). rewrite Ec, Ee, rep_next by assumption. reflexivity.
      * destruct (R k Hk) as (c' & Hc' & E'). exists c'. split; [exact Hc'|]. rewrite <- E'. f_equal.
        destruct (Nat.ltb_spec i k), (Nat.ltb_spec k (S j)), (Nat.ltb_spec k j); cbn [andb]; try reflexivity; lia.
Qed.
Definition obody (i : nat) (st : C * list C) : out (C * list C) := soliton_step K i bs st.
Lemma obody_eq i st : (i < K)%nat -> length (snd st) = K ->
  obody i st = let rho := nth i (snd st) (RtoC 0) in let li := fst (nth i V dv) in
    rhok <- for_ (K - (i + 1)) (i + 1) (ibody i li rho) (snd st) ;; Ret (fst st + 2 * Cconj rho * fcoef li rho * Ci, rhok).
Proof.
  intros H L. destruct st as [qt rhok]. cbn [fst snd] in *. unfold obody, soliton_step. rewrite (aget_nth rhok (RtoC 0)) by (rewrite L; exact H). cbn [bind].
  rewrite bs_get by exact H. reflexivity.
Qed.
Lemma outer_inner i st : (i < K)%nat -> outer fw V i st -> inner fw V i (i + 1) (nth i (snd st) (RtoC 0)) (snd st).
Proof.
  intros H (L & Q & R & _). split; [exact L|]. split; [reflexivity|]. intros k Hk. destruct (R k Hk) as (c & Hc & E). exists c. split; [exact Hc|].
  rewrite <- E. f_equal. destruct (Nat.ltb_spec i k), (Nat.ltb_spec k (i + 1)); cbn [andb]; try reflexivity; lia.
Qed.
Lemma inner_outer i st rhok : (i < K)%nat -> outer fw V i st -> inner fw V i K (nth i (snd st) (RtoC 0)) rhok ->
  outer fw V (S i) (fst st + 2 * Cconj (nth i (snd st) (RtoC 0)) * fcoef (fst (nth i V dv)) (nth i (snd st) (RtoC 0)) * Ci, rhok).
Proof.
  intros H (L & Q & R & G) (L' & N' & R'). split; [exact L'|]. cbn [fst snd]. split; [|split].
  - rewrite q_next by exact H. destruct (R i ltac:(unfold K in H; lia)) as (c & Hc & E). rewrite E, Q. unfold Cminus. rewrite step_q by exact Hc.
    rewrite cj_plus, cj_cj. reflexivity.
  - intros j Hj. destruct (R' j ltac:(lia)) as (c & Hc & E). exists c. split; [exact Hc|]. rewrite <- E. f_equal.
    unfold K. destruct (Nat.ltb_spec i j), (Nat.ltb_spec j (length V)); cbn [andb]; try reflexivity; lia.
  - intros k j Hk Hj. destruct (Nat.eq_dec k i) as [->|]; [|apply G; lia]. destruct (R j Hj) as (c & Hc & E). rewrite E, comp_rep. exact Hc.
Qed.
Lemma obody_total i st : regular fw V -> (i < K)%nat -> outer fw V i st -> exists st', obody i st = Ret st' /\ outer fw V (S i) st'.
Proof.
  intros G H O. rewrite obody_eq; [|exact H|exact (proj1 O)]. cbv zeta.
  destruct (for_inv (fun j r => inner fw V i j (nth i (snd st) (RtoC 0)) r) (ibody i (fst (nth i V dv)) (nth i (snd st) (RtoC 0))) (K - (i + 1)) (i + 1) (snd st))
    as (r & E & I).
  - now apply outer_inner.
  - intros j r Hj I. destruct (inner_step i j _ _ ltac:(lia) I) as [_ S]. apply S. destruct (inner_pre i j _ _ ltac:(lia) I) as (c & d & _ & _ & _ & _ & Ec).
    intros Z. rewrite Z in Ec. apply (G (Datatypes.S i) j ltac:(unfold K in *; lia)). rewrite Ec. ring.
  - rewrite E. cbn [bind]. eexists. split; [reflexivity|]. apply inner_outer; auto. replace (i + 1 + (K - (i + 1)))%nat with K in I by lia. exact I.
Qed.
Lemma obody_partial i st st' : (i < K)%nat -> outer fw V i st -> obody i st = Ret st' -> outer fw V (S i) st'.
Proof.
  intros H O. rewrite obody_eq; [|exact H|exact (proj1 O)]. cbv zeta. intros E.
  apply bind_Ret in E. destruct E as (r & E & E'). injection E' as <-. apply inner_outer; auto.
  replace K with (i + 1 + (K - (i + 1)))%nat by lia. revert E. apply (for_Ret (fun j r => inner fw V i j (nth i (snd st) (RtoC 0)) r)); [now apply outer_inner|].
  intros j s s' Hj I E. destruct (inner_step i j _ _ ltac:(lia) I) as [S0 S1].
  destruct (Ceq_dec (rho_den (fst (nth i V dv)) (fst (nth j V dv)) (nth i (snd st) (RtoC 0)) (nth j s (RtoC 0))) 0) as [Z|Z].
  - rewrite S0 in E by exact Z. discriminate.
  - destruct (S1 Z) as (r' & E2 & I2). rewrite E2 in E. injection E as <-. exact I2.
Qed.
End Step.

(** the loop computes the Darboux transform if it is regular, and fails otherwise *)
Theorem loop_spec fw V rhok : length rhok = length V ->
  (forall j, (j < length V)%nat -> exists c : C, c <> RtoC 0 /\ snd (nth j V dv) = rep fw c (nth j rhok (RtoC 0))) ->
  (regular fw V -> exists r, for_ (length V) 0 (fun i st => soliton_step (length V) i (map fst V) st) (RtoC 0, rhok) = Ret (cj fw (snd (darboux V 0)), r)) /\
  (forall x, for_ (length V) 0 (fun i st => soliton_step (length V) i (map fst V) st) (RtoC 0, rhok) = Ret x -> regular fw V /\ fst x = cj fw (snd (darboux V 0))).
Proof.
  intros L H0.
  assert (I0 : outer fw V 0 (RtoC 0, rhok)).
  { split; [exact L|]. split; [cbn [fst]; destruct fw; [reflexivity|apply Ceq; cbn; ring]|]. split; [|intros; lia].
    intros j Hj. rewrite v_zero. apply H0. lia. }
  assert (QK : q_ V (length V) = snd (darboux V 0)) by (unfold q_; now rewrite firstn_all).
  split.
  - intros G. destruct (for_inv (outer fw V) (fun i st => soliton_step (length V) i (map fst V) st) (length V) 0 _ I0) as ([a r] & E & O).
    + intros i st Hi O. apply obody_total; auto. lia.
    + exists r. rewrite E. f_equal. f_equal. destruct O as (_ & Q & _). cbn [fst] in Q. cbn in Q. now rewrite Q, QK.
  - intros x E. assert (O : outer fw V (0 + length V) x).
    { revert E. apply (for_Ret (outer fw V)); [exact I0|]. intros i s s' Hi O E. apply (obody_partial fw V i s); auto. lia. }
    destruct O as (_ & Q & _ & G). split; [|cbn in Q; now rewrite Q, QK]. intros i j Hij. apply G; lia.
Qed.

(** ** One sample *)
Lemma nth_map_lt {A B} (f : A -> B) l i da db : (i < length l)%nat -> nth i (map f l) db = f (nth i l da).
Proof. intros H. rewrite (nth_indep _ db (f da)) by (rewrite map_length; exact H). apply map_nth. Qed.
Lemma rhok_build (w : C) t ds : for_ (length ds) 0 (fun i (acc : list C) => b <- aget (map snd ds) i ;; l <- aget (map fst ds) i ;; Ret (acc ++ [b * Cexp (w * l * RtoC t)])) []
  = Ret (map (fun x : C * C => snd x * Cexp (w * fst x * RtoC t)) ds).
Proof.
  destruct (for_inv (fun i (acc : list C) => acc = firstn i (map (fun x : C * C => snd x * Cexp (w * fst x * RtoC t)) ds))
    (fun i (acc : list C) => b <- aget (map snd ds) i ;; l <- aget (map fst ds) i ;; Ret (acc ++ [b * Cexp (w * l * RtoC t)])) (length ds) 0 []) as (r & E & ->).
  - reflexivity.
  - intros i acc Hi ->. assert (Hl : (i < length ds)%nat) by lia. rewrite (aget_nth (map snd ds) (RtoC 0)), (aget_nth (map fst ds) (RtoC 0)) by (rewrite map_length; exact Hl).
    cbn [bind]. eexists. split; [reflexivity|]. rewrite (firstn_snoc _ i (RtoC 0)) by (rewrite map_length; exact Hl). f_equal. f_equal.
    now rewrite !(nth_map_lt _ ds i (RtoC 0, RtoC 0)) by exact Hl.
  - rewrite E, firstn_all2; [reflexivity|]. rewrite map_length. lia.
Qed.
Definition inv_nc (x : C * C) : C * C := (fst x, 1 / snd x).
Lemma free_fst ds t : map fst (free_at ds t) = map fst ds. Proof. unfold free_at. now rewrite map_map. Qed.
Lemma free_len ds t : length (free_at ds t) = length ds. Proof. unfold free_at. apply map_length. Qed.
Lemma free_nth ds t j : (j < length ds)%nat -> nth j (free_at ds t) dv = (fst (nth j ds (RtoC 0, RtoC 0)), free_vec t (nth j ds (RtoC 0, RtoC 0))).
Proof.
  intros H. unfold free_at. now rewrite (nth_map_lt _ ds j (RtoC 0, RtoC 0)).
Qed.
Lemma rep_fw t (x : C * C) : free_vec t x = rep true (Cexp (- Ci * fst x * RtoC t)) (snd x * Cexp (2 * Ci * fst x * RtoC t)).
Proof.
  unfold free_vec, rep. f_equal. transitivity (- snd x * (Cexp (- Ci * fst x * RtoC t) * Cexp (2 * Ci * fst x * RtoC t))); [|ring].
  rewrite <- Cexp_plus. f_equal. f_equal. ring.
Qed.
Lemma rep_bw t (x : C * C) : snd x <> RtoC 0 ->
  free_vec t x = rep false (- snd x * Cexp (Ci * fst x * RtoC t)) (snd (inv_nc x) * Cexp (- (2) * Ci * fst (inv_nc x) * RtoC t)).
Proof.
  intros H. unfold free_vec, rep, inv_nc. cbn [fst snd]. f_equal. transitivity (Cexp (Ci * fst x * RtoC t) * Cexp (- (2) * Ci * fst x * RtoC t)).
  - rewrite <- Cexp_plus. f_equal. ring.
  - field. exact H.
Qed.
Lemma point_spec fw ds t : (fw = false -> List.Forall (fun x : C * C => snd x <> RtoC 0) ds) ->
  let r := soliton_point (length ds) (map fst ds) (map snd (if fw then ds else map inv_nc ds)) (if fw then 2 * Ci else - (2) * Ci) t in
  (regular fw (free_at ds t) -> r = Ret (cj fw (soliton ds t))) /\ (forall x, r = Ret x -> regular fw (free_at ds t) /\ x = cj fw (soliton ds t)).
Proof.
  intros Hb r. set (ds' := if fw then ds else map inv_nc ds) in *. set (w := if fw then 2 * Ci else - (2) * Ci) in *.
  assert (L' : length ds = length ds') by (unfold ds'; destruct fw; [|rewrite map_length]; reflexivity).
  assert (F' : map fst ds = map fst ds') by (unfold ds'; destruct fw; [|rewrite map_map]; reflexivity).
  set (rhok := map (fun x : C * C => snd x * Cexp (w * fst x * RtoC t)) ds').
  assert (R : r = (x <- for_ (length ds) 0 (fun i st => soliton_step (length ds) i (map fst ds) st) (RtoC 0, rhok) ;; Ret (fst x))).
  { unfold r, soliton_point. rewrite L', F', rhok_build. reflexivity. }
  assert (LS := loop_spec fw (free_at ds t) rhok). rewrite free_len, free_fst in LS. unfold soliton.
  fold (free_at ds t). destruct LS as [A B].
  - unfold rhok. now rewrite map_length.
  - intros j Hj. rewrite free_nth by exact Hj. cbn [snd]. set (dx := (RtoC 0, RtoC 0)).
    assert (N : nth j rhok (RtoC 0) = snd (nth j ds' dx) * Cexp (w * fst (nth j ds' dx) * RtoC t)).
    { unfold rhok. rewrite (nth_map_lt _ ds' j dx) by (rewrite <- L'; exact Hj). reflexivity. }
    rewrite N. unfold ds', w in *. destruct fw.
    + eexists. split; [|apply rep_fw]. apply Cexp_neq0.
    + rewrite (nth_map_lt _ ds j dx) by exact Hj.
      assert (Nb : snd (nth j ds dx) <> RtoC 0) by (specialize (Hb eq_refl); rewrite Forall_forall in Hb; apply Hb; now apply nth_In).
      eexists. split; [|apply (rep_bw t _ Nb)]. apply Cmult_neq_0; [|apply Cexp_neq0]. intros E. apply Nb. replace (snd (nth j ds dx)) with (- - snd (nth j ds dx)) by ring. rewrite E. ring.
  - split.
    + intros G. destruct (A G) as (y & E). rewrite R, E. reflexivity.
    + intros x E. rewrite R in E. apply bind_Ret in E. destruct E as (y & E & E'). injection E' as <-. now apply B.
Qed.

(** ** All samples *)
Lemma aset_inb {A} (a : list A) lo x a' : aset a lo x = Ret a' -> (lo < length a)%nat.
Proof.
  revert lo a'. induction a as [|y a IH]; intros [|lo] a' E; cbn in *; try discriminate; try lia.
  apply bind_Ret in E. destruct E as (r & E & _). apply IH in E. lia.
Qed.
Lemma fill_Ret {A} (d : A) cnt : forall lo f (a a' : list A), fill cnt lo f a = Ret a' ->
  length a' = length a /\ (lo + cnt <= length a \/ cnt = 0)%nat /\
  (forall i, (lo <= i < lo + cnt)%nat -> f i = Ret (nth i a' d)) /\ (forall i, ~ (lo <= i < lo + cnt)%nat -> nth i a' d = nth i a d).
Proof.
  induction cnt as [|k IH]; intros lo f a a' E.
  - cbn in E. injection E as <-. repeat split; auto. intros; lia.
  - cbn [fill] in E. apply bind_Ret in E. destruct E as (x & Ex & E). apply bind_Ret in E. destruct E as (a1 & E1 & E).
    assert (Hlo : (lo < length a)%nat).
    { exact (aset_inb _ _ _ _ E1). }
    rewrite aset_upd in E1 by exact Hlo. injection E1 as <-.
    destruct (IH _ _ _ _ E) as (L & B & F & O). rewrite upd_length in *. split; [exact L|]. split; [left; destruct B; lia|]. split.
    + intros i Hi. destruct (Nat.eq_dec i lo) as [->|Ni]; [|apply F; lia]. rewrite O by lia. rewrite nth_upd by exact Hlo. now rewrite Nat.eqb_refl.
    + intros i Hi. rewrite O by lia. rewrite nth_upd by exact Hlo. destruct (Nat.eqb_spec i lo); [lia|reflexivity].
Qed.
Lemma zc_le T e D : (zc_point T e D <= D)%nat.
Proof. unfold zc_point. destruct (find _ _) as [i|] eqn:F; [|lia]. apply find_some in F. destruct F as [F _]. apply in_seq in F. lia. Qed.
Definition forward (T : R * R) (eps_t : R) (D n : nat) : bool := (zc_point T eps_t D <=? n)%nat.
Definition all_regular ds T eps_t D : Prop := (forall n, (n < D)%nat -> regular (forward T eps_t D n) (free_at ds (time T eps_t n))) /\
  (zc_point T eps_t D <> 0%nat -> List.Forall (fun x : C * C => snd x <> RtoC 0) ds).
Lemma inv_fill ds : List.Forall (fun x : C * C => snd x <> RtoC 0) ds ->
  fill (length ds) 0 (fun i => b <- aget (map snd ds) i ;; cdivc 1 b) (map snd ds) = Ret (map snd (map inv_nc ds)).
Proof.
  intros H. destruct (fill_ok (fun i => 1 / nth i (map snd ds) (RtoC 0)) (RtoC 0) (length ds) 0 (fun i => b <- aget (map snd ds) i ;; cdivc 1 b) (map snd ds)) as (a & E & L & N).
  - rewrite map_length. lia.
  - intros i Hi. rewrite (aget_nth _ (RtoC 0)) by (rewrite map_length; lia). cbn [bind]. apply cdivc_ok.
    rewrite (nth_map_lt snd ds i (RtoC 0, RtoC 0)) by lia. rewrite Forall_forall in H. apply H. apply nth_In. lia.
  - rewrite E. f_equal. apply (nth_ext _ _ (RtoC 0) (RtoC 0)); [rewrite L, !map_length; reflexivity|]. intros i Hi. rewrite L, map_length in Hi.
    rewrite N. destruct (Nat.leb_spec 0 i); [|lia]. destruct (Nat.ltb_spec i (0 + length ds)); [|lia]. cbn [andb].
    rewrite map_map, !(nth_map_lt _ ds i (RtoC 0, RtoC 0)) by lia. reflexivity.
Qed.
Theorem multi_soliton_total ds T eps_t D (q : list C) : (D <= length q)%nat -> all_regular ds T eps_t D ->
  exists q', multi_soliton (length ds) (map fst ds) (map snd ds) T eps_t D q = Ret q' /\ length q' = length q /\
  forall n, nth n q' (RtoC 0) = if (n <? D)%nat then soliton ds (time T eps_t n) else nth n q (RtoC 0).
Proof.
  intros L [G B]. unfold multi_soliton, forward in *. set (zc := zc_point T eps_t D) in *. assert (Z : (zc <= D)%nat) by apply zc_le.
  destruct (fill_ok (fun n => soliton ds (time T eps_t n)) (RtoC 0) (D - zc) zc
    (fun n => soliton_point (length ds) (map fst ds) (map snd ds) (2 * Ci) (time T eps_t n)) q) as (q1 & E1 & L1 & N1); [lia| |].
  { intros n Hn. destruct (point_spec true ds (time T eps_t n)) as [A _]; [discriminate|]. apply A. specialize (G n ltac:(lia)).
    destruct (Nat.leb_spec zc n); [exact G|lia]. }
  rewrite E1. cbn [bind]. destruct (Nat.eqb_spec zc 0) as [E0|E0].
  - exists q1. split; [reflexivity|]. split; [exact L1|]. intros n. rewrite N1, E0. cbn [Nat.leb andb]. replace (0 + (D - 0))%nat with D by lia. reflexivity.
  - rewrite inv_fill by auto. cbn [bind].
    destruct (fill_ok (fun n => soliton ds (time T eps_t n)) (RtoC 0) zc 0
      (fun n => x <- soliton_point (length ds) (map fst ds) (map snd (map inv_nc ds)) (- (2) * Ci) (time T eps_t n) ;; Ret (Cconj x)) q1) as (q2 & E2 & L2 & N2); [lia| |].
    { intros n Hn. destruct (point_spec false ds (time T eps_t n)) as [A _]; [auto|]. cbv iota in A. rewrite A.
      - cbn [bind cj]. now rewrite Cconj_conj.
      - specialize (G n ltac:(lia)). destruct (Nat.leb_spec zc n); [lia|exact G]. }
    exists q2. split; [exact E2|]. split; [lia|]. intros n. rewrite N2, N1. change (0 + zc)%nat with zc. change (0 <=? n)%nat with true. cbn [andb].
    destruct (Nat.ltb_spec n zc), (Nat.leb_spec zc n), (Nat.ltb_spec n (zc + (D - zc))), (Nat.ltb_spec n D); cbn [andb]; try lia; reflexivity.
Qed.
Theorem multi_soliton_partial ds T eps_t D (q q' : list C) : multi_soliton (length ds) (map fst ds) (map snd ds) T eps_t D q = Ret q' ->
  all_regular ds T eps_t D /\ length q' = length q /\
  forall n, nth n q' (RtoC 0) = if (n <? D)%nat then soliton ds (time T eps_t n) else nth n q (RtoC 0).
Proof.
  unfold multi_soliton, all_regular, forward. set (zc := zc_point T eps_t D). assert (Z : (zc <= D)%nat) by apply zc_le. intros E.
  apply bind_Ret in E. destruct E as (q1 & E1 & E). destruct (fill_Ret (RtoC 0) _ _ _ _ _ E1) as (L1 & _ & F1 & O1).
  assert (P1 : forall n, (zc <= n < D)%nat -> regular true (free_at ds (time T eps_t n)) /\ nth n q1 (RtoC 0) = soliton ds (time T eps_t n)).
  { intros n Hn. destruct (point_spec true ds (time T eps_t n)) as [_ A]; [discriminate|]. apply A. apply F1. lia. }
  destruct (Nat.eqb_spec zc 0) as [E0|E0].
  - injection E as <-. split; [split; [|contradiction]|split; [exact L1|]].
    + intros n Hn. destruct (Nat.leb_spec zc n); [|lia]. apply P1. lia.
    + intros n. destruct (Nat.ltb_spec n D); [apply P1; lia|apply O1; lia].
  - apply bind_Ret in E. destruct E as (nc & En & E).
    assert (B : List.Forall (fun x : C * C => snd x <> RtoC 0) ds).
    { destruct (fill_Ret (RtoC 0) _ _ _ _ _ En) as (_ & _ & Fn & _). apply Forall_forall. intros x Hx. destruct (In_nth ds x (RtoC 0, RtoC 0) Hx) as (i & Hi & <-).
      specialize (Fn i ltac:(lia)). rewrite (aget_nth _ (RtoC 0)) in Fn by (rewrite map_length; exact Hi). cbn [bind] in Fn. apply cdivc_Ret in Fn. destruct Fn as [Fn _].
      now rewrite (nth_map_lt snd ds i (RtoC 0, RtoC 0)) in Fn by exact Hi. }
    rewrite inv_fill in En by exact B. injection En as <-.
    destruct (fill_Ret (RtoC 0) _ _ _ _ _ E) as (L2 & _ & F2 & O2).
    assert (P2 : forall n, (n < zc)%nat -> regular false (free_at ds (time T eps_t n)) /\ nth n q' (RtoC 0) = soliton ds (time T eps_t n)).
    { intros n Hn. specialize (F2 n ltac:(lia)). apply bind_Ret in F2. destruct F2 as (x & Ex & E').
      destruct (point_spec false ds (time T eps_t n)) as [_ A]; [auto|]. destruct (A x Ex) as [G ->]. split; [exact G|].
      injection E' as <-. cbn [cj]. now rewrite Cconj_conj. }
    split; [split; [|auto]|split; [lia|]].
    + intros n Hn. destruct (Nat.leb_spec zc n); [apply P1; lia|apply P2; lia].
    + intros n. destruct (Nat.ltb_spec n D) as [H|H].
      * destruct (Nat.lt_ge_cases n zc); [now apply P2|]. rewrite O2 by lia. apply P1. lia.
      * rewrite O2 by lia. apply O1. lia.
Qed.
