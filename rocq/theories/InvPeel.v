(** * Layer peeling: fast inverse scattering for any first column of the transfer matrix *)
From Coq Require Import Reals ZArith List Lia Lra.
From Coquelicot Require Import Coquelicot.
From Verif Require Import Base Mem Loop Series Fields CField CConj CMean Dft FftUse MatSpec PolySpec ErrModel CExp KissModel KissProof PolyFmultModel PolyFmultTree DiscTables FscatterModel FscatterSpec FscatterProof FscatterProps PolyFmultProps FinvModel FinvAlg FinvMult FinvRun FinvTop FinvProof FinvProps InvCsSpec.
Import ListNotations.
Local Open Scope C_scope.

Local Notation smulC := (smul (K := CF)).
Local Notation levalC := (leval (K := CF)).
Lemma C1n0 : RtoC 1 <> RtoC 0. Proof. intros E. injection E as E. lra. Qed.
Lemma Cmul_n0 (a b : C) : a <> 0 -> b <> 0 -> a * b <> 0.
Proof. exact (fmul_neq0 (K := CF) a b). Qed.

(** ** Peeling *)
Section Peel.
Variables qfr cf : C -> C.
Definition ratio (u : nat -> nat -> C) : C := u 1%nat 0%nat / u 0%nat 0%nat.
Definition peel (u : nat -> nat -> C) : nat -> nat -> C :=
  let R := ratio u in let Q := qfr R in let w := cf R * (1 - Q * R) in
  fun a l => match a with O => (u 0%nat l - Q * u 1%nat l) / w | _ => (u 1%nat (S l) - R * u 0%nat (S l)) / w end.
Fixpoint refl (n : nat) (u : nat -> nat -> C) (k : nat) : C :=
  match n with O => 0 | S n' => if Nat.eqb k n' then ratio u else refl n' (peel u) k end.
Fixpoint rest (n : nat) (u : nat -> nat -> C) : nat -> nat -> C := match n with O => u | S n' => rest n' (peel u) end.
Hypothesis Hd : forall R, 1 - qfr R * R <> 0.
Hypothesis Hcf : forall R, cf R <> 0.

Lemma smul_const (x : C) (f q : nat -> C) l : (forall i, f i = if Nat.eqb i 0 then x else RtoC 0) -> smulC f q l = x * q l.
Proof.
  intros H. rewrite (smul_comm_ext (K := CF) f (fun l => if Nat.eqb l 0 then x else RtoC 0) q q) by auto.
  etransitivity; [apply (smul_mono (K := CF) x 0 q l)|]. destruct (Nat.ltb_spec l 0); [lia|]. now rewrite Nat.sub_0_r.
Qed.
Lemma smul_shift (x : C) (f q : nat -> C) l : (forall i, f i = if Nat.eqb i 1 then x else RtoC 0) -> smulC f q l = match l with O => RtoC 0 | S m => x * q m end.
Proof.
  intros H. rewrite (smul_comm_ext (K := CF) f (fun l => if Nat.eqb l 1 then x else RtoC 0) q q) by auto.
  etransitivity; [apply (smul_mono (K := CF) x 1 q l)|]. destruct l as [|m]; [reflexivity|]. cbn [Nat.ltb Nat.leb]. replace (S m - 1)%nat with m by lia. reflexivity.
Qed.
Lemma Msamp_col c Q R (Y : nat -> nat -> nat -> C) a j l : (a < 2)%nat ->
  smmul (K := CF) 2 (Msamp (K := CF) c Q R) Y a j l =
  match a with O => c * Y 0%nat j l + match l with O => RtoC 0 | S m => c * Q * Y 1%nat j m end
             | _ => c * R * Y 0%nat j l + match l with O => RtoC 0 | S m => c * Y 1%nat j m end end.
Proof.
  intros Ha. unfold smmul. cbn [fsum]. destruct a as [|[|a]]; [| |lia].
  - rewrite (smul_const c), (smul_shift (c * Q)); [cbn; ring| |]; intros [|[|i]]; reflexivity.
  - rewrite (smul_const (c * R)), (smul_shift c); [cbn; ring| |]; intros [|[|i]]; reflexivity.
Qed.
Lemma peel_step (u : nat -> nat -> C) a l : u 0%nat 0%nat <> 0 -> (a < 2)%nat ->
  u a l = smmul (K := CF) 2 (Msamp (K := CF) (cf (ratio u)) (qfr (ratio u)) (ratio u)) (fun i _ => peel u i) a 0%nat l.
Proof.
  intros H0 Ha. rewrite Msamp_col by exact Ha. set (R := ratio u). assert (D1 := Hd R). assert (D2 := Hcf R).
  assert (E : u 1%nat 0%nat = R * u 0%nat 0%nat) by (unfold R, ratio; field; exact H0).
  destruct a as [|[|a]]; [| |lia]; unfold peel; fold R; destruct l as [|l]; rewrite ?E; field; auto.
Qed.
Lemma peel_n0 (u : nat -> nat -> C) : u 0%nat 0%nat <> 0 -> peel u 0%nat 0%nat <> 0.
Proof.
  intros H0. unfold peel. set (R := ratio u). assert (E : u 1%nat 0%nat = R * u 0%nat 0%nat) by (unfold R, ratio; field; exact H0). rewrite E.
  replace ((u 0%nat 0%nat - qfr R * (R * u 0%nat 0%nat)) / (cf R * (1 - qfr R * R))) with (u 0%nat 0%nat * / cf R) by (field; split; [apply Hd|apply Hcf]).
  apply Cmul_n0; [exact H0|]. now apply Cinv_n0.
Qed.
Lemma rest_n0 n : forall u : nat -> nat -> C, u 0%nat 0%nat <> 0 -> rest n u 0%nat 0%nat <> 0.
Proof. induction n as [|n IH]; intros u H; cbn [rest]; [exact H|]. apply IH. now apply peel_n0. Qed.
Lemma refl_product n : forall u : nat -> nat -> C, u 0%nat 0%nat <> 0 -> forall a l, (a < 2)%nat ->
  u a l = smmul (K := CF) 2 (Mdesc (K := CF) (M (fun k => cf (refl n u k)) (fun k => qfr (refl n u k)) (refl n u)) 0 n) (fun i _ => rest n u i) a 0%nat l.
Proof.
  induction n as [|n IH]; intros u H0 a l Ha.
  - cbn [Mdesc rest]. symmetry. apply (smmul_one_l (K := CF)); [exact Ha|lia].
  - cbn [Mdesc rest Nat.add]. rewrite (smmul_assoc 2 _ _ _ a 0%nat l) by lia. rewrite (peel_step u a l H0 Ha).
    unfold M at 1. cbn [refl]. rewrite Nat.eqb_refl.
    rewrite !Msamp_col by exact Ha.
    assert (Q : forall i l, (i < 2)%nat -> peel u i l = smmul (K := CF) 2 (Mdesc (K := CF) (M (fun k => cf (refl (S n) u k)) (fun k => qfr (refl (S n) u k)) (refl (S n) u)) 0 n) (fun i _ => rest n (peel u) i) i 0%nat l).
    { intros i m Hi. rewrite (IH (peel u) (peel_n0 u H0) i m Hi). refine (smmul_ext (K := CF) 2 _ _ _ _ _ (smeq_refl 2 _) i 0%nat m Hi ltac:(lia)).
      apply (Mdesc_ext (K := CF)). intros k Hk i' j' l' _ _. unfold M. cbn [refl]. destruct (Nat.eqb_spec k n); [lia|]. reflexivity. }
    cbn [refl] in Q. destruct a as [|[|a]]; [| |lia]; destruct l as [|l]; rewrite ?Q by lia; reflexivity.
Qed.
(** the remainder is a polynomial if u is one *)
Lemma peel_supp N (u : nat -> nat -> C) : (forall a l, (N < l)%nat -> u a l = 0) -> forall a l, (N < l)%nat -> peel u a l = 0.
Proof.
  intros H a l Hl. unfold peel. destruct a as [|a]; rewrite !H by lia; unfold Cdiv; ring.
Qed.
Lemma rest_supp N n : forall u : nat -> nat -> C, (forall a l, (N < l)%nat -> u a l = 0) -> forall a l, (N < l)%nat -> rest n u a l = 0.
Proof. induction n as [|n IH]; intros u H; cbn [rest]; [exact H|]. apply IH. now apply peel_supp. Qed.
End Peel.

(** ** Products of sample matrices *)
Lemma sample_det c Q R z n : mdet (sample_mat c Q R z n) = c n * c n * (1 - Q n * R n) * z.
Proof. unfold mdet, sample_mat. cbn [a11 a12 a21 a22 mmul mscal]. ring. Qed.
Fixpoint cpow (z : C) (n : nat) : C := match n with O => 1 | S n => z * cpow z n end.
Lemma desc_det c Q R n : exists w, forall z, mdet (descending n (sample_mat c Q R z)) = w * cpow z n.
Proof.
  induction n as [|n (w & IH)].
  - exists 1. intros z. unfold mdet. cbn [descending a11 a12 a21 a22 mone cpow]. ring.
  - exists (c n * c n * (1 - Q n * R n) * w). intros z. cbn [descending cpow]. rewrite mdet_mul, sample_det, IH. ring.
Qed.
(** polynomials *)
Lemma polyval_app a b z : polyval (a ++ b) z = polyval a z + cpow z (length a) * polyval b z.
Proof. induction a as [|x a IH]; cbn [app length cpow]; [unfold polyval at 2; cbn [fold_right]; ring|]. change (x + z * polyval (a ++ b) z = x + z * polyval a z + z * cpow z (length a) * polyval b z). rewrite IH. ring. Qed.
Lemma polyval_zeros n z : polyval (repeat (RtoC 0) n) z = 0.
Proof. induction n as [|n IH]; [reflexivity|]. change (0 + z * polyval (repeat (RtoC 0) n) z = 0). rewrite IH. ring. Qed.
Lemma polyval_zeros_app n b z : polyval (repeat (RtoC 0) n ++ b) z = cpow z n * polyval b z.
Proof. rewrite polyval_app, polyval_zeros, repeat_length. ring. Qed.
Lemma fpow_cpow z n : fpow (K := CF) z n = cpow z n.
Proof. induction n as [|n IH]; [reflexivity|]. cbn [fpow cpow]. rewrite IH. reflexivity. Qed.
Lemma fsum_Sr n (f : nat -> C) : fsum (K := CF) (S n) f = fsum (K := CF) n f + f n.
Proof. reflexivity. Qed.
Lemma polyval_leval N (p : nat -> C) z : polyval (map p (seq 0 (S N))) z = levalC N p z.
Proof.
  unfold leval. induction N as [|N IH].
  - cbn. ring.
  - rewrite seq_S, map_app, polyval_app, map_length, seq_length. rewrite IH. cbn [Nat.add map]. rewrite (fsum_Sr (S N)). rewrite fpow_cpow. unfold polyval. cbn [fold_right CF car fadd fmul]. ring.
Qed.
Lemma polyval_scal w b z : polyval (map (fun x => w * x) b) z = w * polyval b z.
Proof. induction b as [|x b IH]; cbn [map]; [unfold polyval; cbn; ring|]. change (w * x + z * polyval (map (fun x => w * x) b) z = w * (x + z * polyval b z)). rewrite IH. ring. Qed.
Lemma leval_more m N (p : nat -> C) z : (forall l, (N < l)%nat -> p l = 0) -> levalC (m + N) p z = levalC N p z.
Proof.
  intros H. induction m as [|m IH]; [reflexivity|]. cbn [Nat.add]. rewrite <- IH. unfold leval. rewrite (fsum_Sr (S (m + N))). rewrite H by lia. cbn [CF car fmul f0]. ring.
Qed.
Lemma leval_polyval (cs : list C) N z : (length cs <= S N)%nat -> polyval cs z = levalC N (fun l => nth l cs (RtoC 0)) z.
Proof.
  intros H. rewrite <- polyval_leval. replace (S N) with (length cs + (S N - length cs))%nat by lia. rewrite seq_app, map_app.
  replace (map (fun l => nth l cs (RtoC 0)) (seq (0 + length cs) (S N - length cs))) with (repeat (RtoC 0) (S N - length cs)).
  - rewrite polyval_app, polyval_zeros. replace (map (fun l => nth l cs (RtoC 0)) (seq 0 (length cs))) with cs; [ring|].
    clear. induction cs as [|x cs IH]; [reflexivity|]. cbn [length seq map nth]. f_equal. rewrite <- seq_shift, map_map. exact IH.
  - assert (G : forall m s, (length cs <= s)%nat -> repeat (RtoC 0) m = map (fun l => nth l cs (RtoC 0)) (seq s m)).
    { intros m. induction m as [|m IH]; intros s Hs; [reflexivity|]. cbn [seq map repeat]. rewrite nth_overflow by exact Hs. f_equal. apply IH. lia. }
    apply G. lia.
Qed.

(** ** What peeling achieves *)
Lemma peel_agree (qfr cf : C -> C) n N (u : nat -> nat -> C) : (forall R, 1 - qfr R * R <> 0) -> (forall R, cf R <> 0) -> u 0%nat 0%nat <> 0 ->
  (forall a l, (N < l)%nat -> u a l = 0) ->
  let P := fun z => descending n (sample_mat (fun k => cf (refl qfr cf n u k)) (fun k => qfr (refl qfr cf n u k)) (refl qfr cf n u) z) in
  agree n (fun z => a11 (P z) * levalC N (u 1%nat) z) (fun z => a21 (P z) * levalC N (u 0%nat) z).
Proof.
  intros Hd Hcf H0 Hs P. set (c := fun k => cf (refl qfr cf n u k)) in *. set (Q := fun k => qfr (refl qfr cf n u k)) in *. set (R := refl qfr cf n u) in *.
  destruct (desc_det c Q R n) as (w & Hw). set (Y := rest qfr cf n u).
  assert (E : forall a z, (a < 2)%nat -> levalC N (u a) z = entry (P z) a 0 * levalC N (Y 0%nat) z + entry (P z) a 1 * levalC N (Y 1%nat) z).
  { intros a z Ha. rewrite <- (leval_more n N (u a) z) by (intros; now apply Hs).
    transitivity (levalC (n + N) (smmul (K := CF) 2 (Mdesc (K := CF) (M c Q R) 0 n) (fun i _ => Y i) a 0%nat) z).
    - apply (leval_ext (K := CF)). intros l _. exact (refl_product qfr cf Hd Hcf n u H0 a l Ha).
    - rewrite (leval_smmul (K := CF)); [|apply Mdesc_supp; intros; apply Msamp_supp|intros i j l _ _ Hl; now apply rest_supp with (N := N)|exact Ha|lia].
      rewrite !Mdesc_entry by lia. reflexivity. }
  exists (map (fun x => w * x) (map (Y 1%nat) (seq 0 (S N)))). intros z. rewrite polyval_zeros_app, polyval_scal, polyval_leval.
  rewrite (E 0%nat z), (E 1%nat z) by lia. specialize (Hw z). fold (P z) in Hw. destruct (P z) as [p11 p12 p21 p22]. unfold mdet in Hw. cbn [a11 a12 a21 a22 entry] in *.
  transitivity ((p11 * p22 - p12 * p21) * levalC N (Y 1%nat) z); [ring|]. rewrite Hw. ring.
Qed.

(** ** Division of power series, up to the order N *)
Lemma sdiv_ex (p t : nat -> C) N : p 0%nat <> 0 -> exists y : nat -> C, forall l, (l < N)%nat -> smulC p y l = t l.
Proof.
  intros Hp. induction N as [|N (y & IH)]; [exists (fun _ => RtoC 0); lia|].
  set (s := fsum (K := CF) N (fun i => p (S i) * y (N - S i)%nat)).
  exists (fun l => if Nat.eqb l N then (t N - s) / p 0%nat else y l). intros l Hl. destruct (Nat.eq_dec l N) as [->|Hn].
  - unfold smul. rewrite (fsum_S_l (K := CF)). rewrite Nat.sub_0_r, Nat.eqb_refl.
    rewrite (fsum_ext (K := CF) N _ (fun i => p (S i) * y (N - S i)%nat)).
    + fold s. cbn [CF car fadd fmul]. field. exact Hp.
    + intros i Hi. destruct (Nat.eqb_spec (N - S i) N); [lia|]. reflexivity.
  - rewrite <- (IH l ltac:(lia)). apply (smul_ext (K := CF)); [reflexivity|]. intros i Hi. destruct (Nat.eqb_spec i N); [lia|reflexivity].
Qed.
Lemma smul_cancel (p a b : nat -> C) N : p 0%nat <> 0 -> (forall l, (l < N)%nat -> smulC p a l = smulC p b l) -> forall l, (l < N)%nat -> a l = b l.
Proof.
  intros Hp H l. induction l as [l IH] using lt_wf_ind. intros Hl. specialize (H l Hl). unfold smul in H. rewrite !(fsum_S_l (K := CF)) in H. rewrite Nat.sub_0_r in H.
  assert (Z : fsum (K := CF) l (fun i => p (S i) * a (l - S i)%nat) = fsum (K := CF) l (fun i => p (S i) * b (l - S i)%nat)).
  { apply (fsum_ext (K := CF)). intros i Hi. rewrite IH by lia. reflexivity. }
  change (p 0%nat * a l + fsum (K := CF) l (fun i => p (S i) * a (l - S i)%nat) = p 0%nat * b l + fsum (K := CF) l (fun i => p (S i) * b (l - S i)%nat)) in H. rewrite Z in H.
  apply (Cmult_eq_reg_l (p 0%nat)); [|exact Hp].
  match type of H with ?x + ?s = ?y + _ => transitivity (x + s - s); [ring|]; rewrite H; ring end.
Qed.
