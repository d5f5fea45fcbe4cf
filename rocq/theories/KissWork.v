(** * Generic radix, radix switch and recursion of KissFFT *)
From Coq Require Import Reals Lra.
From Coquelicot Require Import Coquelicot.
From Verif Require Import Base Fields Dft KissModel KissSizeProof KissProof KissBfly.
Local Notation CF := Fields.CF.

Section B.
Variables (inv : bool) (N fstride m : nat).
Hypothesis Hm : m <> 0%nat.
Hypothesis Hf : fstride <> 0%nat.
Let tw := twiddles inv N.
Let not_idx : forall u i, (u < m)%nat -> (i mod m <> u)%nat -> forall q, (i <> u + q * m)%nat.
Proof. intros u i Hu Nu q ->. apply Nu. rewrite Nat.mod_add by exact Hm. apply Nat.mod_small; lia. Qed.

(** ** generic radix *)
Lemma gather_spec F : forall fuel k, (k + fuel * m <= length F + m - 1)%nat -> 
  gather fuel k m F = Ret (tabulate fuel (fun j => nth (k + j * m) F (RtoC 0))).
Proof.
  induction fuel as [|fuel IH]; intros k Hk; [reflexivity|].
  cbn [gather]. destruct fuel as [|fuel'].
  - rewrite (aget_nth _ (RtoC 0)) by nia. cbn. now rewrite Nat.add_0_r.
  - rewrite (aget_nth _ (RtoC 0)) by nia. cbn [bind]. rewrite IH by nia. cbn [bind]. f_equal.
    unfold tabulate. cbn [seq map]. f_equal; [now rewrite Nat.add_0_r|].
    f_equal; [f_equal; lia|]. rewrite <- (seq_shift fuel'). rewrite <- seq_shift, !map_map.
    rewrite <- seq_shift, map_map. apply map_ext. intros j. f_equal. lia.
Qed.

Lemma generic_inner_spec p k scratch : N = (fstride * (p * m))%nat -> (k < p * m)%nat ->
  length scratch = p -> forall fuel q acc, (q + fuel = p)%nat -> (0 < q)%nat ->
  generic_inner fuel q (((q - 1) * (fstride * k)) mod N) fstride k N tw scratch acc
  = Ret (Cplus acc (fsum (K := CF) fuel (fun j => Cmult (nth (q + j) scratch (RtoC 0))
       (fpow (K := CF) (fpow (K := CF) (wroot inv N) fstride) ((q + j) * k))))).
Proof.
  intros HN Hk HL. 
  assert (HN0 : N <> 0%nat) by nia.
  assert (Hfk : (fstride * k < N)%nat) by (rewrite HN; apply Nat.mul_lt_mono_pos_l; lia).
  induction fuel as [|fuel IH]; intros q acc Hq Hq0.
  - cbn [generic_inner fsum]. f_equal. change (@f0 CF) with (RtoC 0). now rewrite Cplus_0_r.
  - cbn [generic_inner].
    assert (Etw : (let t := ((q - 1) * (fstride * k)) mod N + fstride * k in if (N <=? t)%nat then (t - N)%nat else t)%nat
       = ((S q - 1) * (fstride * k)) mod N).
    { replace (S q - 1)%nat with (S (q - 1)) by lia.
      replace (S (q - 1) * (fstride * k))%nat with ((q - 1) * (fstride * k) + fstride * k)%nat by lia.
      cbv zeta. set (a := ((q - 1) * (fstride * k))%nat).
      rewrite (Nat.add_mod a) by exact HN0. rewrite (Nat.mod_small (fstride * k)) by exact Hfk.
      pose proof (Nat.mod_upper_bound a N HN0).
      destruct (Nat.leb_spec N (a mod N + fstride * k)).
      - symmetry.
        replace (a mod N + fstride * k)%nat with ((a mod N + fstride * k - N) + 1 * N)%nat at 1 by lia.
        rewrite Nat.mod_add by exact HN0. apply Nat.mod_small. lia.
      - symmetry. apply Nat.mod_small. lia. }
    cbv zeta in Etw. cbv zeta. rewrite Etw.
    rewrite (aget_nth _ (RtoC 0)) by lia. cbn [bind].
    assert (Hlt : (((S q - 1) * (fstride * k)) mod N < N)%nat) by (now apply Nat.mod_upper_bound).
    unfold tw. rewrite (twiddles_nth inv N _ Hlt). cbn [bind].
    fold tw. rewrite IH by lia. f_equal. rewrite (fsum_S_l (K := CF)).
    rewrite <- Cplus_assoc. f_equal.
    change (@fadd CF) with Cplus. f_equal.
    + rewrite Nat.add_0_r. f_equal.
      rewrite <- (fpow_mod (K := CF) (wroot inv N) N) by (try lia; now apply wroot_order).
      rewrite <- fpow_pow. f_equal. nia.
    + apply (fsum_ext (K := CF)). intros j Hj. now replace (S q + j)%nat with (q + S j)%nat by lia.
Qed.

Lemma generic_outer_spec p u scratch : N = (fstride * (p * m))%nat -> (u < m)%nat ->
  length scratch = p -> p <> 0%nat -> forall fuel q F, (q + fuel = p)%nat -> length F = (p * m)%nat ->
  exists F', generic_outer fuel (u + q * m) m p fstride N tw scratch F = Ret F' /\ length F' = (p * m)%nat /\
  forall i, (i < p * m)%nat -> nth i F' (RtoC 0) =
    if ((i mod m =? u) && (u + q * m <=? i))%nat then
      fsum (K := CF) p (fun j => Cmult (nth j scratch (RtoC 0))
       (fpow (K := CF) (fpow (K := CF) (wroot inv N) fstride) (j * i)))
    else nth i F (RtoC 0).
Proof.
  intros HN Hu HL Hp. induction fuel as [|fuel IH]; intros q F Hq HF.
  - exists F. split; [reflexivity|]. split; [exact HF|]. intros i Hi.
    destruct (Nat.eqb_spec (i mod m) u) as [Eu|]; [|reflexivity].
    destruct (idx_cases N fstride p m Hp Hm HN Hf u i Hu Hi Eu) as (q' & Hq' & ->).
    destruct (Nat.leb_spec (u + q * m) (u + q' * m)); [nia|reflexivity].
  - cbn [generic_outer]. rewrite (aget_nth _ (RtoC 0)) by lia. cbn [bind].
    assert (Hk : (u + q * m < p * m)%nat) by nia.
    pose proof (generic_inner_spec p (u + q * m) scratch HN Hk HL (p - 1) 1 (nth 0 scratch (RtoC 0)) ltac:(lia) ltac:(lia)) as E.
    replace (((1 - 1) * (fstride * (u + q * m))) mod N)%nat with 0%nat in E by (simpl; rewrite Nat.mod_0_l; nia).
    rewrite E. cbn [bind]. rewrite aset_upd by lia. cbn [bind].
    replace (u + q * m + m)%nat with (u + S q * m)%nat by lia.
    destruct (IH (S q) (upd F (u + q * m) (Cplus (nth 0 scratch (RtoC 0))
       (fsum (K := CF) (p - 1) (fun j : nat => Cmult (nth (1 + j) scratch (RtoC 0))
          (fpow (K := CF) (fpow (K := CF) (wroot inv N) fstride) ((1 + j) * (u + q * m))))))))
      as (F' & E' & L' & H'); [lia|now rewrite upd_length|].
    exists F'. split; [exact E'|]. split; [exact L'|]. intros i Hi. rewrite (H' i Hi).
    destruct (Nat.eqb_spec (i mod m) u) as [Eu|Nu]; cbn [andb].
    + destruct (idx_cases N fstride p m Hp Hm HN Hf u i Hu Hi Eu) as (q' & Hq' & ->).
      rewrite nth_upd by lia.
      destruct (Nat.leb_spec (u + S q * m) (u + q' * m)).
      * destruct (Nat.leb_spec (u + q * m) (u + q' * m)); [reflexivity|nia].
      * destruct (Nat.eqb_spec (u + q' * m) (u + q * m)) as [Eq|Nq].
        -- destruct (Nat.leb_spec (u + q * m) (u + q' * m)); [|lia].
           rewrite Eq. destruct p as [|p0]; [lia|]. replace (S p0 - 1)%nat with p0 by lia.
           rewrite (fsum_S_l (K := CF)).
           change (@fadd CF) with Cplus. f_equal.
           rewrite Nat.mul_0_l. rewrite fpow_0. change (@f1 CF) with (RtoC 1). now rewrite Cmult_1_r.
        -- destruct (Nat.leb_spec (u + q * m) (u + q' * m)); [|reflexivity].
           exfalso. assert (q <= q')%nat by nia. assert (q' < S q)%nat by nia. apply Nq. f_equal. f_equal. lia.
    + rewrite nth_upd by lia. pose proof (not_idx u i Hu Nu q).
      destruct (Nat.eqb_spec i (u + q * m)); [contradiction|reflexivity].
Qed.

Lemma bfly_generic_ok p : p <> 0%nat -> N = (fstride * (p * m))%nat ->
  bfly_ok inv N fstride p m (bfly_generic_body N p tw fstride m).
Proof.
  intros Hp HN u F Hu HL. unfold bfly_generic_body.
  rewrite gather_spec by nia. cbn [bind].
  destruct (generic_outer_spec p u (tabulate p (fun j => nth (u + j * m) F (RtoC 0))) HN Hu
     (tabulate_length _ _) Hp p 0 F ltac:(lia) HL) as (F' & E & L & H).
  rewrite Nat.mul_0_l, Nat.add_0_r in E, H.
  exists F'. split; [exact E|]. split; [exact L|]. intros i Hi. rewrite (H i Hi).
  destruct (Nat.eqb_spec (i mod m) u) as [Eu|Nu]; cbn [andb]; [|reflexivity].
  destruct (Nat.leb_spec u i) as [_|Hlt].
  - apply (fsum_ext (K := CF)). intros j Hj. now rewrite nth_tabulate.
  - exfalso. pose proof (Nat.mod_le i m Hm). lia.
Qed.

(** ** the radix switch *)
Theorem bfly_spec p F : p <> 0%nat -> N = (fstride * (p * m))%nat -> length F = (p * m)%nat ->
  exists F', bfly inv N p tw fstride m F = Ret F' /\ length F' = (p * m)%nat /\
    forall i, (i < p * m)%nat -> nth i F' (RtoC 0) =
      fsum (K := CF) p (fun j => Cmult (nth (i mod m + j * m) F (RtoC 0))
         (fpow (K := CF) (fpow (K := CF) (wroot inv N) fstride) (j * i))).
Proof.
  intros Hp HN HL.
  assert (L : forall body, bfly_ok inv N fstride p m body ->
    exists F', bfly_loop body m 0 F = Ret F' /\ length F' = (p * m)%nat /\
    forall i, (i < p * m)%nat -> nth i F' (RtoC 0) =
      fsum (K := CF) p (fun j => Cmult (nth (i mod m + j * m) F (RtoC 0))
         (fpow (K := CF) (fpow (K := CF) (wroot inv N) fstride) (j * i)))).
  { intros body Hb. apply (bfly_loop_spec inv N fstride p m Hp Hm HN Hf body Hb m 0 F F);
      [lia|exact HL|]. intros i Hi. reflexivity. }
  assert (Htw : forall j, (j < p)%nat -> aget tw (fstride * (j * m)) = Ret (fpow (K := CF) (wroot inv p) j)).
  { intros j Hj. unfold tw. rewrite twiddles_nth by (rewrite HN; apply Nat.mul_lt_mono_pos_l; nia).
    rewrite <- (om_is inv N fstride p m Hp Hm HN Hf). rewrite <- !fpow_pow. do 2 f_equal. lia. }
  unfold bfly.
  destruct p as [|[|[|[|[|[|p]]]]]]; [lia| | | | | |].
  - apply L. now apply bfly_generic_ok.
  - apply L. now apply bfly2_ok.
  - pose proof (Htw 1%nat ltac:(lia)) as E1. rewrite Nat.mul_1_l, fpow_1 in E1.
    rewrite E1. cbn [bind]. apply L. now apply bfly3_ok.
  - apply L. now apply bfly4_ok.
  - pose proof (Htw 1%nat ltac:(lia)) as E1. rewrite Nat.mul_1_l, fpow_1 in E1.
    pose proof (Htw 2%nat ltac:(lia)) as E2. rewrite Nat.mul_assoc in E2.
    rewrite E1. cbn [bind]. rewrite E2. cbn [bind]. apply L. now apply bfly5_ok.
  - apply L. now apply bfly_generic_ok.
Qed.
End B.

(** ** the recursion *)
Lemma copy_loop_spec f step : forall fuel off, (0 < step)%nat ->
  (fuel = 0 \/ off + (fuel - 1) * step < length f)%nat ->
  copy_loop f step fuel off = Ret (tabulate fuel (fun j => nth (off + j * step) f (RtoC 0))).
Proof.
  induction fuel as [|fuel IH]; intros off Hs H; [reflexivity|].
  cbn [copy_loop]. destruct H as [H|H]; [lia|].
  rewrite (aget_nth _ (RtoC 0)) by nia. cbn [bind].
  rewrite IH; [|exact Hs|destruct fuel; [left; reflexivity|right; nia]]. cbn [bind]. f_equal.
  unfold tabulate. cbn [seq map]. f_equal; [now rewrite Nat.add_0_r|].
  rewrite <- seq_shift, map_map. apply map_ext. intros j. f_equal. lia.
Qed.

Lemma sub_loop_spec g step m (G : nat -> list C) : forall fuel off,
  (forall r, (r < fuel)%nat -> g (off + r * step)%nat = Ret (G (off + r * step)%nat)
     /\ length (G (off + r * step)%nat) = m) ->
  exists F, sub_loop g step fuel off = Ret F /\ length F = (fuel * m)%nat /\
   forall r k, (r < fuel)%nat -> (k < m)%nat -> nth (k + r * m) F (RtoC 0) = nth k (G (off + r * step)%nat) (RtoC 0).
Proof.
  induction fuel as [|fuel IH]; intros off H.
  - exists []. split; [reflexivity|]. split; [reflexivity|]. intros; lia.
  - cbn [sub_loop]. destruct (H 0%nat ltac:(lia)) as [E0 L0]. rewrite Nat.mul_0_l, Nat.add_0_r in E0, L0.
    rewrite E0. cbn [bind].
    destruct (IH (off + step)%nat) as (F & EF & LF & HF).
    { intros r Hr. destruct (H (S r) ltac:(lia)) as [E L].
      replace (off + S r * step)%nat with (off + step + r * step)%nat in E, L by lia. now split. }
    rewrite EF. cbn [bind]. eexists. split; [reflexivity|]. split; [rewrite app_length; lia|].
    intros r k Hr Hk. destruct r as [|r].
    + rewrite app_nth1 by lia. do 2 f_equal; lia.
    + rewrite app_nth2 by nia. rewrite L0. replace (k + S r * m - m)%nat with (k + r * m)%nat by nia.
      rewrite HF by lia. do 2 f_equal; lia.
Qed.

Theorem kf_work_spec inv N f : (N <= length f)%nat -> forall factors n fstride off,
  good_factors n factors -> n <> 0%nat -> fstride <> 0%nat -> N = (fstride * n)%nat -> (off < fstride)%nat ->
  kf_work inv N (twiddles inv N) factors fstride 1 off f
  = Ret (tabulate n (dft (K := CF) (fpow (K := CF) (wroot inv N) fstride) n
                      (fun j => nth (off + j * fstride) f (RtoC 0)))).
Proof.
  intros Hlen. induction factors as [|[p m] rest IH]; intros n fstride off Hg Hn0 Hf HN Hoff; [destruct Hg|].
  cbn [kf_work]. cbn [good_factors] in Hg. destruct Hg as (Hp1 & Hpm & _ & Hrest).
  assert (Hp : p <> 0%nat) by lia. assert (Hm : m <> 0%nat) by nia.
  set (W := fpow (K := CF) (wroot inv N) fstride).
  set (x := fun j => nth (off + j * fstride) f (RtoC 0)).
  assert (HW : fpow (K := CF) W (p * m) = RtoC 1).
  { unfold W. rewrite <- fpow_pow. replace (fstride * (p * m))%nat with N by nia. apply wroot_order. nia. }
  (* after the first phase, block r holds the DFT of the decimated input *)
  assert (Hphase : exists F, (if (m =? 1)%nat then copy_loop f (fstride * 1) p off
            else sub_loop (fun off => kf_work inv N (twiddles inv N) rest (fstride * p) 1 off f)
                   (fstride * 1) p off) = Ret F /\ length F = (p * m)%nat /\
            forall r k, (r < p)%nat -> (k < m)%nat -> nth (k + r * m) F (RtoC 0)
               = dft (K := CF) (fpow (K := CF) W p) m (fun i => x (i * p + r)%nat) k).
  { rewrite Nat.mul_1_r. destruct (Nat.eqb_spec m 1) as [->|Hm1].
    - rewrite copy_loop_spec by (try lia; right; nia).
      eexists. split; [reflexivity|]. split; [now rewrite tabulate_length, Nat.mul_1_r|].
      intros r k Hr Hk. assert (k = 0)%nat by lia. subst k.
      rewrite Nat.add_0_l, Nat.mul_1_r, nth_tabulate by exact Hr.
      unfold dft. cbn [fsum]. rewrite Nat.mul_0_l. rewrite fpow_0. unfold x.
      cf_norm. rewrite Cplus_0_l, Cmult_1_r. reflexivity.
    - destruct rest as [|x0 rest']; [contradiction|]. destruct Hrest as [Hm2 Hg'].
      pose (G := fun o => tabulate m (dft (K := CF) (fpow (K := CF) (wroot inv N) (fstride * p)) m
                      (fun j => nth (o + j * (fstride * p)) f (RtoC 0)))).
      destruct (sub_loop_spec (fun off => kf_work inv N (twiddles inv N) (x0 :: rest') (fstride * p) 1 off f)
                  fstride m G p off) as (F & EF & LF & HF).
      + intros r Hr. split; [|unfold G; now rewrite tabulate_length].
        apply IH; try exact Hg'; nia.
      + exists F. split; [exact EF|]. split; [exact LF|]. intros r k Hr Hk.
        rewrite (HF r k Hr Hk). unfold G. rewrite nth_tabulate by exact Hk.
        unfold W. rewrite <- fpow_pow. apply (dft_ext (K := CF)). intros j Hj. unfold x.
        f_equal. nia. }
  destruct Hphase as (F & EF & LF & HF). rewrite EF. cbn [bind].
  destruct (bfly_spec inv N fstride m Hm Hf p F Hp ltac:(nia) LF) as (F' & EF' & LF' & HF').
  rewrite EF'. apply (f_equal (@Ret (list C))). apply (list_eq_nth _ _ (RtoC 0)); [rewrite tabulate_length; lia|].
  intros i Hi. rewrite LF' in Hi. rewrite nth_tabulate by lia. rewrite (HF' i Hi).
  fold W. fold x. rewrite <- Hpm. rewrite (dft_decimate (K := CF)) by (exact HW || lia).
  apply (fsum_ext (K := CF)). intros r Hr. rewrite HF by (try exact Hr; now apply Nat.mod_upper_bound).
  cf_norm. apply Cmult_comm.
Qed.
