(** * Proofs about polynomial evaluation *)
From Verif Require Import Base PolySpec PolyEvalModel.

Section Proofs.
Context {K : cfield}.
Add Field KF : (cfield_th K).
Local Open Scope cf_scope.
Variable le1 : K -> bool.

Lemma horner_spec : forall fuel j p (z tmp : K),
  (j + fuel <= length p)%nat ->
  horner fuel j p z tmp
  = Ret (tmp * z ^ fuel + fsum fuel (fun i => nth (j + i) p 0 * z ^ (fuel - 1 - i))).
Proof.
  induction fuel as [|fuel IH]; intros j p z tmp H; cbn [horner].
  - cbn [fsum fpow]. f_equal. ring.
  - rewrite (aget_nth p 0) by lia. cbn [bind]. rewrite IH by lia. f_equal.
    rewrite fsum_S_l. replace (S fuel - 1 - 0)%nat with fuel by lia.
    rewrite Nat.add_0_r. cbn [fpow].
    rewrite (fsum_ext fuel (fun i => nth (j + S i) p 0 * z ^ (S fuel - 1 - S i))
                           (fun i => nth (S j + i) p 0 * z ^ (fuel - 1 - i))).
    2:{ intros i Hi. f_equal; f_equal; lia. }
    ring.
Qed.

Lemma horner_rev_spec : forall fuel j deg p (z tmp : K),
  z <> 0 -> (j + fuel = S deg)%nat -> length p = S deg ->
  exists r, horner_rev fuel j deg p z tmp = Ret r
  /\ r * z ^ fuel = tmp + fsum fuel (fun i => nth (deg - j - i) p 0 * z ^ (S i)).
Proof.
  induction fuel as [|fuel IH]; intros j deg p z tmp Hz H HL; cbn [horner_rev].
  - exists tmp. split; [reflexivity|]. cbn [fsum fpow]. ring.
  - rewrite (aget_nth p 0) by lia. cbn [bind].
    destruct (IH (S j) deg p z (nth (deg - j) p 0 + tmp / z) Hz ltac:(lia) HL) as (r & E & Hr).
    exists r. split; [exact E|].
    rewrite (fpow_S z fuel). transitivity (z * (r * z ^ fuel)); [ring|]. rewrite Hr.
    rewrite fsum_S_l. rewrite Nat.sub_0_r.
    rewrite (fsum_ext fuel (fun i => nth (deg - j - S i) p 0 * z ^ S (S i))
               (fun i => z * (nth (deg - S j - i) p 0 * z ^ S i))).
    2:{ intros i Hi. replace (deg - j - S i)%nat with (deg - S j - i)%nat by lia. cbn [fpow]. ring. }
    rewrite fsum_scal. cbn [fpow]. field. exact Hz.
Qed.

Lemma eval1_spec deg p z :
  length p = S deg -> (le1 z = false -> z <> 0) ->
  eval1 le1 deg p z = Ret (peval p z).
Proof.
  intros HL Hz. unfold eval1, peval. rewrite HL.
  destruct (le1 z) eqn:E.
  - rewrite (aget_nth p 0) by lia. cbn [bind]. rewrite horner_spec by lia. f_equal.
    rewrite fsum_S_l. replace (S deg - 1 - 0)%nat with deg by lia. f_equal.
    apply fsum_ext. intros i Hi. f_equal; f_equal; lia.
  - rewrite (aget_nth p 0) by lia. cbn [bind].
    destruct (horner_rev_spec deg 1 deg p z (nth deg p 0) (Hz eq_refl) ltac:(lia) HL) as (r & Er & Hr).
    rewrite Er. cbn [bind]. f_equal. rewrite Hr.
    rewrite (fsum_rev (S deg)), fsum_S_l.
    replace (S deg - 1 - (S deg - 1 - 0))%nat with 0%nat by lia.
    replace (S deg - 1 - 0)%nat with deg by lia. cbn [fpow].
    rewrite (fsum_ext deg (fun i => nth (S deg - 1 - S i) p 0 * z ^ (S deg - 1 - (S deg - 1 - S i)))
               (fun i => nth (deg - 1 - i) p 0 * (z * z ^ i))).
    2:{ intros i Hi. f_equal; [f_equal; lia|].
        replace (S deg - 1 - (S deg - 1 - S i))%nat with (S i) by lia. reflexivity. }
    ring.
Qed.

(** the loop over the points, [f] total and never UB *)
Lemma eval_loop_spec deg p (f : K -> K) : forall fuel i zs,
  (i + fuel <= length zs)%nat ->
  (forall k, (i <= k < i + fuel)%nat -> eval1 le1 deg p (nth k zs 0) = Ret (f (nth k zs 0))) ->
  eval_loop le1 fuel i deg p zs
  = Ret (tabulate (length zs) (fun k => if (i <=? k) && (k <? i + fuel) then f (nth k zs 0) else nth k zs 0)).
Proof.
  induction fuel as [|fuel IH]; intros i zs HL HE; cbn [eval_loop].
  - f_equal. apply list_eq_nth with (d := 0); [now rewrite tabulate_length|].
    intros k Hk. rewrite nth_tabulate by lia.
    destruct (Nat.leb_spec i k), (Nat.ltb_spec k (i + 0)); cbn [andb]; try lia; reflexivity.
  - rewrite (aget_nth zs 0) by lia. cbn [bind]. rewrite HE by lia. cbn [bind].
    rewrite aset_upd by lia. cbn [bind]. rewrite IH.
    + f_equal. rewrite upd_length. apply tabulate_ext. intros k Hk.
      rewrite nth_upd by lia.
      destruct (Nat.eqb_spec k i) as [->|Hne].
      * destruct (Nat.leb_spec (S i) i), (Nat.leb_spec i i), (Nat.ltb_spec i (i + S fuel)); cbn [andb]; try lia; reflexivity.
      * destruct (Nat.leb_spec (S i) k), (Nat.leb_spec i k), (Nat.ltb_spec k (i + S fuel)),
         (Nat.ltb_spec k (S i + fuel)); cbn [andb]; try lia; reflexivity.
    + rewrite upd_length. lia.
    + intros k Hk. rewrite nth_upd by lia. destruct (Nat.eqb_spec k i); [lia|]. apply HE. lia.
Qed.

Lemma poly_eval_spec deg p nz zs :
  length p = S deg -> (nz <= length zs)%nat ->
  (forall z, le1 z = false -> z <> 0) ->
  poly_eval le1 deg (Some p) nz (Some zs)
  = Ret (SUCCESS, Some (tabulate (length zs) (fun k => if k <? nz then peval p (nth k zs 0) else nth k zs 0))).
Proof.
  intros HL Hn Hz. unfold poly_eval.
  rewrite (eval_loop_spec deg p (peval p)).
  - reflexivity.
  - lia.
  - intros k Hk. apply eval1_spec; [exact HL|]. apply Hz.
Qed.

(** *** derivative *)
Lemma horner2_spec : forall fuel j p (z tmp tmp2 : K),
  (j + fuel <= length p)%nat ->
  horner2 fuel j p z tmp tmp2
  = Ret (tmp * z ^ fuel + fsum fuel (fun i => nth (j + i) p 0 * z ^ (fuel - 1 - i)),
         tmp2 * z ^ fuel + fofnat fuel * tmp * z ^ (fuel - 1)
         + fsum (fuel - 1) (fun i => fofnat (fuel - 1 - i) * nth (j + i) p 0 * z ^ (fuel - 2 - i))).
Proof.
  induction fuel as [|fuel IH]; intros j p z tmp tmp2 H; cbn [horner2].
  - cbn [fsum fpow fofnat Nat.sub]. f_equal. f_equal; ring.
  - rewrite (aget_nth p 0) by lia. cbn [bind]. rewrite IH by lia.
    f_equal. f_equal.
    + rewrite fsum_S_l. replace (S fuel - 1 - 0)%nat with fuel by lia.
      rewrite Nat.add_0_r. cbn [fpow].
      rewrite (fsum_ext fuel (fun i => nth (j + S i) p 0 * z ^ (S fuel - 1 - S i))
                           (fun i => nth (S j + i) p 0 * z ^ (fuel - 1 - i))).
      2:{ intros i Hi. f_equal; f_equal; lia. }
      ring.
    + replace (S fuel - 1)%nat with fuel by lia.
      destruct fuel as [|fuel].
      * cbn [fsum fpow fofnat Nat.sub]. ring.
      * rewrite (fsum_S_l fuel). replace (S fuel - 1)%nat with fuel by lia.
        replace (S (S fuel) - 2 - 0)%nat with fuel by lia.
        replace (S fuel - 0)%nat with (S fuel) by lia. rewrite Nat.add_0_r.
        rewrite (fsum_ext fuel
          (fun i => fofnat (S fuel - S i) * nth (j + S i) p 0 * z ^ (S (S fuel) - 2 - S i))
          (fun i => fofnat (fuel - i) * nth (S j + i) p 0 * z ^ (S fuel - 2 - i))).
        2:{ intros i Hi. replace (S fuel - S i)%nat with (fuel - i)%nat by lia.
            replace (j + S i)%nat with (S j + i)%nat by lia.
            replace (S (S fuel) - 2 - S i)%nat with (S fuel - 2 - i)%nat by lia. reflexivity. }
        cbn [fpow fofnat]. ring.
Qed.

(** reversed Horner: track z^fuel * tmp and z^fuel*tmp2 *)
Lemma horner2_rev_spec : forall fuel j deg p (z tmp tmp2 : K),
  z <> 0 -> (j + fuel = S deg)%nat -> length p = S deg ->
  exists r r2, horner2_rev fuel j deg p z tmp tmp2 = Ret (r, r2)
  /\ r * z ^ fuel = tmp + fsum fuel (fun i => nth (deg - j - i) p 0 * z ^ (S i))
  /\ r2 * z ^ fuel = tmp2 + fofnat fuel * (z * tmp)
      + fsum fuel (fun i => fofnat (fuel - 1 - i) * nth (deg - j - i) p 0 * z ^ (S (S i))).
Proof.
  induction fuel as [|fuel IH]; intros j deg p z tmp tmp2 Hz H HL; cbn [horner2_rev].
  - exists tmp, tmp2. split; [reflexivity|]. cbn [fsum fpow fofnat]. split; ring.
  - rewrite (aget_nth p 0) by lia. cbn [bind].
    destruct (IH (S j) deg p z (nth (deg - j) p 0 + tmp / z) (tmp + tmp2 / z) Hz ltac:(lia) HL)
      as (r & r2 & E & Hr & Hr2).
    exists r, r2. split; [exact E|]. split.
    + rewrite (fpow_S z fuel). transitivity (z * (r * z ^ fuel)); [ring|]. rewrite Hr.
      rewrite fsum_S_l. rewrite Nat.sub_0_r.
      rewrite (fsum_ext fuel (fun i => nth (deg - j - S i) p 0 * z ^ S (S i))
               (fun i => z * (nth (deg - S j - i) p 0 * z ^ S i))).
      2:{ intros i Hi. replace (deg - j - S i)%nat with (deg - S j - i)%nat by lia. cbn [fpow]. ring. }
      rewrite fsum_scal. cbn [fpow]. field. exact Hz.
    + rewrite (fpow_S z fuel). transitivity (z * (r2 * z ^ fuel)); [ring|]. rewrite Hr2.
      rewrite fsum_S_l. rewrite !Nat.sub_0_r. replace (S fuel - 1)%nat with fuel by lia.
      rewrite (fsum_ext fuel (fun i => fofnat (fuel - S i) * nth (deg - j - S i) p 0 * z ^ S (S (S i)))
               (fun i => z * (fofnat (fuel - 1 - i) * nth (deg - S j - i) p 0 * z ^ S (S i)))).
      2:{ intros i Hi. replace (deg - j - S i)%nat with (deg - S j - i)%nat by lia.
          replace (fuel - 1 - i)%nat with (fuel - S i)%nat by lia. cbn [fpow]. ring. }
      rewrite fsum_scal. cbn [fpow fofnat]. field. exact Hz.
Qed.

Lemma evalderiv1_spec deg p z :
  length p = S deg -> (le1 z = false -> z <> 0 /\ (0 < deg)%nat) ->
  evalderiv1 le1 deg p z = Ret (peval p z, pderiv p z).
Proof.
  intros HL Hz. pose proof (eval1_spec deg p z HL (fun H => proj1 (Hz H))) as HV.
  unfold eval1 in HV. unfold evalderiv1.
  destruct (le1 z) eqn:E.
  - rewrite (aget_nth p 0) in * by lia. cbn [bind] in *. rewrite horner_spec in HV by lia.
    injection HV as HV. rewrite horner2_spec by lia. f_equal. f_equal; [exact HV|].
    unfold pderiv. rewrite HL. replace (S deg - 1)%nat with deg by lia.
    destruct deg as [|deg].
    + cbn [fsum fpow fofnat Nat.sub]. ring.
    + rewrite fsum_S_l. replace (S deg - 1)%nat with deg by lia.
      replace (S (S deg) - 2 - 0)%nat with deg by lia. rewrite Nat.sub_0_r.
      rewrite (fsum_ext deg (fun i => fofnat (S deg - S i) * nth (S i) p 0 * z ^ (S (S deg) - 2 - S i))
           (fun i => fofnat (deg - i) * nth (1 + i) p 0 * z ^ (S deg - 2 - i))).
      2:{ intros i Hi. replace (S deg - S i)%nat with (deg - i)%nat by lia.
          replace (S (S deg) - 2 - S i)%nat with (S deg - 2 - i)%nat by lia. reflexivity. }
      ring.
  - destruct (Hz eq_refl) as [Hz0 Hdeg].
    rewrite (aget_nth p 0) in * by lia. cbn [bind] in *.
    destruct (horner2_rev_spec deg 1 deg p z (nth deg p 0) 0 Hz0 ltac:(lia) HL) as (r & r2 & Er & Hr & Hr2).
    destruct (horner_rev_spec deg 1 deg p z (nth deg p 0) Hz0 ltac:(lia) HL) as (r' & Er' & Hr').
    rewrite Er' in HV. cbn [bind] in HV. injection HV as HV.
    rewrite Er. cbn [bind]. destruct deg as [|deg]; [lia|].
    f_equal. f_equal.
    + rewrite <- HV, Hr, Hr'. reflexivity.
    + (* z^deg * ((deg+1) r - r2/z) *)
      replace (S deg - 1)%nat with deg by lia.
      apply (fmul_cancel_l (z * z)); [apply fmul_neq0; exact Hz0|].
      transitivity (fofnat (S deg) * z * (r * z ^ S deg) - (r2 * z ^ S deg)).
      { cbn [fpow]. field. exact Hz0. }
      rewrite Hr, Hr2.
      unfold pderiv. rewrite HL. replace (S (S deg) - 1)%nat with (S deg) by lia.
      rewrite (fsum_rev (S deg)
         (fun i => fofnat (S deg - i) * nth i p 0 * z ^ (S (S deg) - 2 - i))).
      rewrite <- (fsum_scal (S deg) (z * z)).
      set (S1 := fsum (S deg) (fun i => nth (S deg - 1 - i) p 0 * z ^ S i)).
      set (S2 := fsum (S deg) (fun i => fofnat (S deg - 1 - i) * nth (S deg - 1 - i) p 0 * z ^ S (S i))).
      transitivity (fofnat (S deg) * z * S1 - S2); [ring|].
      unfold S1, S2. rewrite <- fsum_scal.
      rewrite <- fsum_sub.
      apply fsum_ext. intros i Hi.
      replace (S deg - (S deg - 1 - i))%nat with (S i) by lia.
      replace (S (S deg) - 2 - (S deg - 1 - i))%nat with i by lia.
      replace (fofnat (S deg)) with (fofnat (S i) + fofnat (S deg - 1 - i) : K).
      2:{ rewrite <- fofnat_add. f_equal. lia. }
      cbn [fpow]. ring.
Qed.

Lemma evalderiv_loop_spec deg p (f g : K -> K) : forall fuel i zs ds,
  (i + fuel <= length zs)%nat -> (i + fuel <= length ds)%nat ->
  (forall k, (i <= k < i + fuel)%nat ->
     evalderiv1 le1 deg p (nth k zs 0) = Ret (f (nth k zs 0), g (nth k zs 0))) ->
  evalderiv_loop le1 fuel i deg p zs ds
  = Ret (tabulate (length zs) (fun k => if (i <=? k) && (k <? i + fuel) then f (nth k zs 0) else nth k zs 0),
         tabulate (length ds) (fun k => if (i <=? k) && (k <? i + fuel) then g (nth k zs 0) else nth k ds 0)).
Proof.
  induction fuel as [|fuel IH]; intros i zs ds HL HL2 HE; cbn [evalderiv_loop].
  - f_equal. f_equal; (apply list_eq_nth with (d := 0); [now rewrite tabulate_length|]);
    intros k Hk; rewrite nth_tabulate by lia;
    destruct (Nat.leb_spec i k), (Nat.ltb_spec k (i + 0)); cbn [andb]; try lia; reflexivity.
  - rewrite (aget_nth zs 0) by lia. cbn [bind]. rewrite HE by lia. cbn [bind fst snd].
    rewrite !aset_upd by lia. cbn [bind]. rewrite IH.
    + rewrite !upd_length. f_equal. f_equal; apply tabulate_ext; intros k Hk;
      rewrite !nth_upd by lia;
      (destruct (Nat.eqb_spec k i) as [->|Hne];
      [ destruct (Nat.leb_spec (S i) i), (Nat.leb_spec i i), (Nat.ltb_spec i (i + S fuel)); cbn [andb]; try lia; reflexivity
      | destruct (Nat.leb_spec (S i) k), (Nat.leb_spec i k), (Nat.ltb_spec k (i + S fuel)),
         (Nat.ltb_spec k (S i + fuel)); cbn [andb]; try lia; reflexivity ]).
    + rewrite upd_length. lia.
    + rewrite upd_length. lia.
    + intros k Hk. rewrite nth_upd by lia. destruct (Nat.eqb_spec k i); [lia|]. apply HE. lia.
Qed.

Lemma poly_evalderiv_spec deg p nz zs ds :
  length p = S deg -> (0 < deg)%nat -> (nz <= length zs)%nat -> (nz <= length ds)%nat ->
  (forall z, le1 z = false -> z <> 0) ->
  poly_evalderiv le1 deg (Some p) nz (Some zs) (Some ds)
  = Ret (SUCCESS,
      Some (tabulate (length zs) (fun k => if k <? nz then peval p (nth k zs 0) else nth k zs 0)),
      Some (tabulate (length ds) (fun k => if k <? nz then pderiv p (nth k zs 0) else nth k ds 0))).
Proof.
  intros HL Hd Hn Hn2 Hz. unfold poly_evalderiv.
  rewrite (evalderiv_loop_spec deg p (peval p) (pderiv p)).
  - reflexivity.
  - lia.
  - lia.
  - intros k Hk. apply evalderiv1_spec; [exact HL|]. intros H. split; [now apply Hz|exact Hd].
Qed.
End Proofs.
