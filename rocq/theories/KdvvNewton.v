(** * Newton's method in fnft_kdvv (C65): proofs *)
From Coq Require Import Reals Lra.
From Coquelicot Require Import Coquelicot.
From Verif Require Import Loop MiscSpec MiscProof MiscProps MiscMetricProps MiscNumProps PolyFmultProof DiscProps NsevSpec NsevProps
  NsevSafe NsevSafe2 NsevSafe3 NsevSafe4 KdvvSpec KdvvProps KdvvSafe.
Local Open Scope C_scope.

Lemma kleft_box top (y : R) : left_box {| x0 := Fin 0; x1 := Fin 0; x2 := Fin 0; x3 := Fin top |} (0%R, y) = false <-> (0 <= y <= top)%R.
Proof.
  unfold left_box. cbn. repeat match goal with |- context [Rlt_dec ?a ?b] => destruct (Rlt_dec a b) end; cbn; split; intros; try discriminate; try lra; auto.
Qed.
Lemma Cmod_axis (y : R) : Cmod (0%R, y) = Rabs y.
Proof. unfold Cmod. cbn. replace (0 * (0 * 1) + y * (y * 1))%R with (Rsqr y) by (unfold Rsqr; ring). apply sqrt_Rsqr_abs. Qed.

Lemma knewton_exact E s D q r T norm d f f' nit top : kenv_ok E -> (2 <= D)%nat -> length q = D -> length r = D -> (fst T < snd T)%R ->
  kcomputes_at E s D q r T norm d f f' -> (1 <= nit)%nat ->
  forall fuel n y, (nit - n <= fuel)%nat -> (n < nit)%nat ->
  exists code k calls, knewton_loop E fuel n s D q r T d nit {| x0 := Fin 0; x1 := Fin 0; x2 := Fin 0; x3 := Fin top |} norm (0%R, rnewton (re_on_axis f) (re_slope f') n y)
      = Ret (code, (0%R, rnewton (re_on_axis f) (re_slope f') k y), calls)
    /\ (n <= k <= nit)%nat /\ knewton_ends f f' top nit y k code /\ (calls <= nit - n)%nat.
Proof.
  intros HE HD Lq Lr HT Hc Hn1. set (F := re_on_axis f). set (F' := re_slope f').
  induction fuel as [|fuel IH]; intros n y Hf Hn; [lia|]. cbn [knewton_loop].
  set (z := rnewton F F' n y). destruct (Hc (0%R, z)) as (b & Ws & Ec).
  destruct (kk_sbs E HE s D q r T 1 (@cons C (0%R, z) nil) norm d true HD Lq Lr HT) as (c0 & a0 & ap0 & b0 & W0 & E0 & _ & _ & _ & _ & _ & Hax); [lia|reflexivity|].
  rewrite Ec in E0. injection E0 as <- <- <- <- <-.
  assert (Hap : f' (0%R, z) = 0 \/ snd (f' (0%R, z)) <> 0%R).
  { specialize (Hax ltac:(constructor; [reflexivity|constructor])). inversion Hax; subst. assumption. }
  rewrite Ec. cbn [bind aget nth_error]. change (Z.eqb SUCCESS SUCCESS) with true. cbn [negb].
  unfold ceq at 1. destruct (Ceq_dec (f (0%R, z)) 0) as [Ez|Nz].
  { exists SUCCESS, n, 1%nat. split; [reflexivity|]. split; [lia|]. split; [|lia]. now apply k_exact_zero. }
  unfold ceq at 1. destruct (Ceq_dec (f' (0%R, z)) 0) as [Ez'|Nz'].
  { exists EC_DIV_BY_ZERO, n, 1%nat. split; [reflexivity|]. split; [lia|]. split; [|lia]. now apply k_flat. }
  destruct Hap as [|Hap]; [contradiction|]. unfold newton_step. destruct (Req_EM_T (snd (f' (0%R, z))) 0); [contradiction|]. cbn [bind].
  assert (Estep : RtoC (fst (f (0%R, z))) / (Ci * RtoC (snd (f' (0%R, z)))) = (0%R, (F z / F' z)%R)).
  { unfold F, F', re_on_axis, re_slope, Cdiv, Cmult, Cinv, Ci, RtoC. cbn [fst snd]. f_equal; field; nra. }
  rewrite Estep. assert (Enew : (0%R, z) - (0%R, (F z / F' z)%R) = (0%R, rnewton F F' (S n) y)).
  { cbn [rnewton]. fold z. unfold Cminus, Cplus, Copp. cbn [fst snd]. f_equal; ring. }
  rewrite Enew.
  destruct (left_box _ (0%R, rnewton F F' (S n) y)) eqn:Eb.
  { exists SUCCESS, (S n), 1%nat. split; [reflexivity|]. split; [lia|]. split; [|lia]. apply (k_outside _ _ _ _ _ _ n); [reflexivity|]. rewrite <- kleft_box. fold F F'. congruence. }
  unfold small. rewrite Cmod_axis. destruct (Rle_dec (Rabs (F z / F' z)) (EPS * 100)) as [Hs|Hs]; cbn [negb andb].
  { exists SUCCESS, (S n), 1%nat. split; [reflexivity|]. split; [lia|]. split; [|lia]. apply (k_converged _ _ _ _ _ _ n); [reflexivity|exact Hs]. }
  destruct (Nat.ltb_spec (S n) nit) as [Hm|Hm].
  - destruct (IH (S n) y) as (code & k & calls & -> & Hk & He & Hcl); [lia|lia|]. cbn [bind]. exists code, k, (S calls).
    split; [reflexivity|]. split; [lia|]. split; [exact He|lia].
  - exists SUCCESS, (S n), 1%nat. split; [reflexivity|]. split; [lia|]. split; [|lia]. apply k_all_steps. lia.
Qed.

(** The refinement of one bound state needs at most niter evaluations of a and a', and its result is an iterate of Newton's
   method for the real function Re a(iy). *)
Theorem kdvv_refinement_is_newton E s D q r T norm d f f' nit top y : kenv_ok E -> (2 <= D)%nat -> length q = D -> length r = D -> (fst T < snd T)%R ->
  kcomputes_at E s D q r T norm d f f' -> (1 <= nit)%nat ->
  exists code k calls, knewton_loop E nit 0 s D q r T d nit {| x0 := Fin 0; x1 := Fin 0; x2 := Fin 0; x3 := Fin top |} norm (0%R, y)
      = Ret (code, (0%R, rnewton (re_on_axis f) (re_slope f') k y), calls)
    /\ (k <= nit)%nat /\ knewton_ends f f' top nit y k code /\ (calls <= nit)%nat.
Proof.
  intros HE HD Lq Lr HT Hc Hn. destruct (knewton_exact E s D q r T norm d f f' nit top HE HD Lq Lr HT Hc Hn nit 0 y) as (code & k & calls & E1 & Hk & He & Hcl); [lia|lia|].
  exists code, k, calls. split; [exact E1|]. split; [lia|]. split; [exact He|lia].
Qed.

(** If nothing stops the iteration, exactly niter steps are made (unlike in fnft_nsev). *)
Theorem kdvv_newton_all_steps E s D q r T norm d f f' nit top y : kenv_ok E -> (2 <= D)%nat -> length q = D -> length r = D -> (fst T < snd T)%R ->
  kcomputes_at E s D q r T norm d f f' -> (1 <= nit)%nat ->
  (forall m, (m < nit)%nat -> let z := rnewton (re_on_axis f) (re_slope f') m y in
     f (0%R, z) <> 0 /\ f' (0%R, z) <> 0 /\ (0 <= rnewton (re_on_axis f) (re_slope f') (S m) y <= top)%R /\ (EPS * 100 < Rabs (re_on_axis f z / re_slope f' z))%R) ->
  exists calls, knewton_loop E nit 0 s D q r T d nit {| x0 := Fin 0; x1 := Fin 0; x2 := Fin 0; x3 := Fin top |} norm (0%R, y)
      = Ret (SUCCESS, (0%R, rnewton (re_on_axis f) (re_slope f') nit y), calls).
Proof.
  intros HE HD Lq Lr HT Hc Hn Hgo. destruct (kdvv_refinement_is_newton E s D q r T norm d f f' nit top y HE HD Lq Lr HT Hc Hn) as (code & k & calls & E1 & Hk & He & Hcl).
  exists calls. rewrite E1. destruct (Nat.eq_dec k nit) as [->|N].
  - destruct He as [|H|H|m _ _|m _ _]; try reflexivity; lia.
  - exfalso. destruct He as [H|H Hz|H Hz|m H Hz|m H Hz]; [contradiction| | | |].
    + now destruct (Hgo k H) as (H1 & _).
    + now destruct (Hgo k H) as (_ & H1 & _).
    + destruct (Hgo m) as (_ & _ & H1 & _); [lia|]. rewrite H in Hz. contradiction.
    + destruct (Hgo m) as (_ & _ & _ & H1); [lia|]. lra.
Qed.

Lemma knewton_all_spec E s D q r T norm d f f' nit top : kenv_ok E -> (2 <= D)%nat -> length q = D -> length r = D -> (fst T < snd T)%R ->
  kcomputes_at E s D q r T norm d f f' -> (1 <= nit)%nat ->
  forall cnt i bs bs', (i + cnt <= length bs)%nat -> axis (i + cnt) bs ->
  knewton_all E cnt i s D q r T d nit {| x0 := Fin 0; x1 := Fin 0; x2 := Fin 0; x3 := Fin top |} norm bs = Ret (SUCCESS, bs') ->
  length bs' = length bs /\ forall j, if ((i <=? j) && (j <? i + cnt))%nat then refined f f' top nit (nth j bs 0) (nth j bs' 0) else nth j bs' 0 = nth j bs 0.
Proof.
  intros HE HD Lq Lr HT Hc Hn. induction cnt as [|cnt IH]; intros i bs bs' Hl Ha H; cbn [knewton_all] in H.
  - injection H as <-. split; [reflexivity|]. intros j. destruct (Nat.leb_spec i j), (Nat.ltb_spec j (i + 0)); cbn [andb]; auto; lia.
  - rewrite (aget_nth bs (RtoC 0) i) in H by lia. cbn [bind] in H.
    assert (Ax : on_imaginary_axis (nth i bs (RtoC 0))) by (eapply Ha; [|apply nth_error_nth']; lia).
    assert (Elam : nth i bs (RtoC 0) = (0%R, snd (nth i bs (RtoC 0)))) by (destruct (nth i bs (RtoC 0)) as [re im]; cbn in *; unfold on_imaginary_axis in Ax; cbn in Ax; now rewrite Ax).
    rewrite Elam in H. set (y := snd (nth i bs (RtoC 0))) in *.
    destruct (kdvv_refinement_is_newton E s D q r T norm d f f' nit top y HE HD Lq Lr HT Hc Hn) as (code & k & calls & El & Hk & He & _). rewrite El in H. cbn [bind] in H.
    set (w := (0%R, rnewton (re_on_axis f) (re_slope f') k y) : C) in *.
    rewrite aset_upd in H by lia. cbn [bind] in H. destruct (Z.eqb_spec code SUCCESS) as [->|N]; cbn [negb] in H; [|injection H as -> _; congruence].
    assert (Hl2 : (S i + cnt <= length (upd bs i w))%nat) by (rewrite upd_length; lia).
    assert (Ha2 : axis (S i + cnt) (upd bs i w)) by (apply axis_upd; [|reflexivity]; eapply axis_mono; [|exact Ha]; lia).
    destruct (IH (S i) _ _ Hl2 Ha2 H) as [L2 H2]. rewrite upd_length in L2. split; [exact L2|]. intros j. specialize (H2 j).
    destruct (Nat.eq_dec j i) as [->|Nj].
    + destruct (Nat.leb_spec (S i) i); [lia|]. cbn [andb] in H2. destruct (Nat.leb_spec i i); [|lia]. destruct (Nat.ltb_spec i (i + S cnt)); [|lia]. cbn [andb].
      rewrite H2, nth_upd, Nat.eqb_refl by lia. exists k. rewrite Elam. cbn [snd]. auto.
    + assert (Eu : nth j (upd bs i w) (RtoC 0) = nth j bs 0).
      { rewrite nth_upd by lia. destruct (Nat.eqb_spec j i); [contradiction|reflexivity]. }
      rewrite Eu in H2. destruct (Nat.leb_spec (S i) j), (Nat.leb_spec i j), (Nat.ltb_spec j (S i + cnt)), (Nat.ltb_spec j (i + S cnt)); cbn [andb] in *; auto; lia.
Qed.

Lemma krefine_spec E s D q r T K norm d f f' nit top (bs bs' : list C) : kenv_ok E -> (2 <= D)%nat -> length q = D -> length r = D -> (fst T < snd T)%R ->
  kcomputes_at E s D q r T norm d f f' -> (0 <= top)%R -> (K <= length bs)%nat -> axis K bs ->
  kdvv_refine_newton E s D q r T K bs d nit {| x0 := Fin 0; x1 := Fin 0; x2 := Fin 0; x3 := Fin top |} norm = Ret (SUCCESS, bs') ->
  length bs' = length bs /\ forall j, (j < K)%nat -> refined f f' top nit (nth j bs 0) (nth j bs' 0).
Proof.
  intros HE HD Lq Lr HT Hc Ht HK Ha H. unfold kdvv_refine_newton in H. destruct (Nat.eqb_spec K 0) as [->|NK]; [injection H as <-; split; [reflexivity|lia]|].
  assert (H0 : forall j, (j < K)%nat -> refined f f' top 0 (nth j bs 0) (nth j bs 0)).
  { intros j Hj. exists O. split; [lia|]. split; [|now apply k_all_steps]. cbn [rnewton].
    assert (Ax : on_imaginary_axis (nth j bs (RtoC 0))) by (eapply Ha; [|apply nth_error_nth']; lia).
    destruct (nth j bs (RtoC 0)) as [re im]. unfold on_imaginary_axis in Ax. cbn in *. now rewrite Ax. }
  destruct (Nat.eqb_spec nit 0) as [->|Nn]; [injection H as <-; auto|].
  destruct (negb _ || negb _); [discriminate|].
  destruct (knewton_all_spec E s D q r T norm d f f' nit top HE HD Lq Lr HT Hc ltac:(lia) K 0 bs bs' ltac:(lia) Ha H) as [L1 H1]. split; [exact L1|].
  intros j Hj. specialize (H1 j). cbn [Nat.leb Nat.add andb] in H1. destruct (Nat.ltb_spec j K); [exact H1|lia].
Qed.
