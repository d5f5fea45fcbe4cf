(** * Properties C01-C06 *)
From Verif Require Import Base MiscModel MiscSpec MiscProof.

(** A caller's pair (array, companion) selected by a predicate on the array value *)
Definition on_fst {A B} (P : A -> Prop) (p : A * B) : Prop := P (fst p).

(** ** C01 misc_filter, no companion array *)
Theorem misc_filter_keeps_exactly_box :
  forall n vals b, n <= length vals -> valid_box b ->
  exists m vals' kept,
    misc_filter {| fs_N := Some n; fs_vals := Some vals; fs_re := None |} (Some b)
    = Ret (0%Z, {| fs_N := Some m; fs_vals := Some vals'; fs_re := None |})
    /\ selects (in_box b) (firstn n vals) kept
    /\ m = length kept /\ firstn m vals' = kept
    /\ length vals' = length vals /\ skipn n vals' = skipn n vals.
Proof.
  intros n vals b Hn Hb. unfold misc_filter.
  rewrite (proj2 (filter_args_ok_iff (Some n) (Some vals) None (Some b)))
    by (split; [easy|split; [easy|eauto]]).
  destruct (run_filter_none (filter_keep b) n vals Hn) as (vals' & HE & H1 & H2 & H3).
  eexists _, vals', _. split; [exact HE|].
  split; [apply selects_filter, filter_keep_iff|]. auto.
Qed.
Print Assumptions misc_filter_keeps_exactly_box.

(** ** C01 with companion array: pairs stay together *)
Theorem misc_filter_moves_companion_in_lockstep :
  forall n vals re b, n <= length vals -> n <= length re -> valid_box b ->
  exists m vals' re' kept,
    misc_filter {| fs_N := Some n; fs_vals := Some vals; fs_re := Some re |} (Some b)
    = Ret (0%Z, {| fs_N := Some m; fs_vals := Some vals'; fs_re := Some re' |})
    /\ selects (on_fst (in_box b)) (combine (firstn n vals) (firstn n re)) kept
    /\ m = length kept /\ firstn m vals' = map fst kept /\ firstn m re' = map snd kept
    /\ length vals' = length vals /\ length re' = length re
    /\ skipn n vals' = skipn n vals /\ skipn n re' = skipn n re.
Proof.
  intros n vals re b Hn Hr Hb. unfold misc_filter.
  rewrite (proj2 (filter_args_ok_iff (Some n) (Some vals) (Some re) (Some b)))
    by (split; [easy|split; [easy|eauto]]).
  destruct (run_filter_some (filter_keep b) n vals re Hn Hr)
    as (vals' & re' & HE & H1 & H2 & H3 & H4 & H5 & H6).
  eexists _, vals', re', _. split; [exact HE|].
  split; [|auto 10].
  apply selects_filter. intros [x y]. apply filter_keep_iff.
Qed.
Print Assumptions misc_filter_moves_companion_in_lockstep.

(** C01: values with a NaN part are never in the box, hence removed *)
Theorem nan_is_never_in_box : forall b z, has_nan z -> ~ in_box b z.
Proof.
  intros b z H (H1 & H2 & H3 & H4). unfold le in *.
  destruct H as [H|H]; unfold is_nan in H; rewrite H in *;
    rewrite ?SFleb_nan_l, ?SFleb_nan_r in *; discriminate.
Qed.
Print Assumptions nan_is_never_in_box.

(** C01, C02: invalid arguments: error 2, nothing changes *)
Theorem misc_filter_invalid_arguments :
  forall n vals re bo,
  n = None \/ vals = None \/ bo = None \/ (exists b, bo = Some b /\ ~ valid_box b) ->
  let st := {| fs_N := n; fs_vals := vals; fs_re := re |} in
  misc_filter st bo = Ret (2%Z, st) /\ misc_filter_inv st bo = Ret (2%Z, st).
Proof.
  intros n vals re bo H st. unfold misc_filter, misc_filter_inv.
  destruct (filter_args_ok st bo) eqn:E.
  - apply filter_args_ok_iff in E. destruct E as (H1 & H2 & b & H3 & H4).
    destruct H as [H|[H|[H|(b' & H & H')]]]; congruence.
  - auto.
Qed.
Print Assumptions misc_filter_invalid_arguments.

(** a box with a NaN corner is invalid *)
Theorem nan_box_is_invalid : forall b,
  is_nan (b0 b) \/ is_nan (b1 b) \/ is_nan (b2 b) \/ is_nan (b3 b) -> ~ valid_box b.
Proof.
  intros b H [H1 H2]. unfold le, is_nan in *.
  destruct H as [H|[H|[H|H]]]; rewrite H in *; rewrite ?SFleb_nan_l, ?SFleb_nan_r in *; discriminate.
Qed.
Print Assumptions nan_box_is_invalid.

(** ** C02 misc_filter_inv *)
Theorem misc_filter_inv_keeps_exactly_outside :
  forall n vals b, n <= length vals -> valid_box b ->
  exists m vals' kept,
    misc_filter_inv {| fs_N := Some n; fs_vals := Some vals; fs_re := None |} (Some b)
    = Ret (0%Z, {| fs_N := Some m; fs_vals := Some vals'; fs_re := None |})
    /\ selects (fun z => ~ strictly_in_box b z) (firstn n vals) kept
    /\ m = length kept /\ firstn m vals' = kept
    /\ length vals' = length vals /\ skipn n vals' = skipn n vals.
Proof.
  intros n vals b Hn Hb. unfold misc_filter_inv.
  rewrite (proj2 (filter_args_ok_iff (Some n) (Some vals) None (Some b)))
    by (split; [easy|split; [easy|eauto]]).
  destruct (run_filter_none (filter_inv_keep b) n vals Hn) as (vals' & HE & H1 & H2 & H3).
  eexists _, vals', _. split; [exact HE|].
  split; [apply selects_filter, filter_inv_keep_iff|]. auto.
Qed.
Print Assumptions misc_filter_inv_keeps_exactly_outside.

Theorem misc_filter_inv_moves_companion_in_lockstep :
  forall n vals re b, n <= length vals -> n <= length re -> valid_box b ->
  exists m vals' re' kept,
    misc_filter_inv {| fs_N := Some n; fs_vals := Some vals; fs_re := Some re |} (Some b)
    = Ret (0%Z, {| fs_N := Some m; fs_vals := Some vals'; fs_re := Some re' |})
    /\ selects (on_fst (fun z => ~ strictly_in_box b z)) (combine (firstn n vals) (firstn n re)) kept
    /\ m = length kept /\ firstn m vals' = map fst kept /\ firstn m re' = map snd kept
    /\ length vals' = length vals /\ length re' = length re
    /\ skipn n vals' = skipn n vals /\ skipn n re' = skipn n re.
Proof.
  intros n vals re b Hn Hr Hb. unfold misc_filter_inv.
  rewrite (proj2 (filter_args_ok_iff (Some n) (Some vals) (Some re) (Some b)))
    by (split; [easy|split; [easy|eauto]]).
  destruct (run_filter_some (filter_inv_keep b) n vals re Hn Hr)
    as (vals' & re' & HE & H1 & H2 & H3 & H4 & H5 & H6).
  eexists _, vals', re', _. split; [exact HE|].
  split; [|auto 10].
  apply selects_filter. intros [x y]. apply filter_inv_keep_iff.
Qed.
Print Assumptions misc_filter_inv_moves_companion_in_lockstep.

(** C02: the source comment "Due to the formulation, NANs are skipped"
   (fnft__misc.c:177-178) is false: NaNs always survive. *)
Theorem misc_filter_inv_skips_nan_refuted :
  exists b z, valid_box b /\ has_nan z /\
    misc_filter_inv {| fs_N := Some 1; fs_vals := Some [z]; fs_re := None |} (Some b)
    = Ret (0%Z, {| fs_N := Some 1; fs_vals := Some [z]; fs_re := None |}).
Proof.
  exists {| b0 := S754_infinity true; b1 := S754_infinity false;
            b2 := S754_infinity true; b3 := S754_infinity false |}.
  exists (S754_nan, S754_zero false).
  split; [split; reflexivity|]. split; [now left|]. reflexivity.
Qed.
Print Assumptions misc_filter_inv_skips_nan_refuted.

Theorem nan_is_never_strictly_in_box : forall b z, has_nan z -> ~ strictly_in_box b z.
Proof.
  intros b z H (H1 & H2 & H3 & H4). unfold lt in *.
  destruct H as [H|H]; unfold is_nan in H; rewrite H in *;
    rewrite ?SFltb_nan_l, ?SFltb_nan_r in *; discriminate.
Qed.
Print Assumptions nan_is_never_strictly_in_box.

(** ** C03 misc_filter_nonreal *)
Definition nonreal (tol : real) (z : cplx) : Prop := lt tol (SFabs (snd z)).

Theorem misc_filter_nonreal_keeps_exactly_nonreal :
  forall n vals re tol, n <= length vals -> le (S754_zero false) tol ->
  exists m vals' kept,
    misc_filter_nonreal {| fs_N := Some n; fs_vals := Some vals; fs_re := re |} tol
    = Ret (0%Z, {| fs_N := Some m; fs_vals := Some vals'; fs_re := None |})
    /\ selects (nonreal tol) (firstn n vals) kept
    /\ m = length kept /\ firstn m vals' = kept
    /\ length vals' = length vals /\ skipn n vals' = skipn n vals.
Proof.
  intros n vals re tol Hn Ht. unfold misc_filter_nonreal. cbn [fs_N fs_vals].
  unfold r_ge, le in *. rewrite Ht. cbn [negb].
  destruct (run_filter_none (nonreal_keep tol) n vals Hn) as (vals' & HE & H1 & H2 & H3).
  eexists _, vals', _. split; [exact HE|].
  split; [|auto]. apply selects_filter. intros z. unfold nonreal_keep, nonreal, lt, r_gt, cimag.
  destruct (SFltb tol (SFabs (snd z))); simpl; easy.
Qed.
Print Assumptions misc_filter_nonreal_keeps_exactly_nonreal.

(** a negative or NaN tolerance (or a NULL pointer) is rejected without effect *)
Theorem misc_filter_nonreal_invalid_arguments :
  forall n vals re tol, n = None \/ vals = None \/ ~ le (S754_zero false) tol ->
  let st := {| fs_N := n; fs_vals := vals; fs_re := re |} in
  misc_filter_nonreal st tol = Ret (2%Z, st).
Proof.
  intros n vals re tol H st. unfold misc_filter_nonreal, st. cbn [fs_N fs_vals].
  destruct n as [n|]; [|reflexivity]. destruct vals as [v|]; [|reflexivity].
  unfold r_ge, le in *. destruct (SFleb (S754_zero false) tol); [|reflexivity].
  destruct H as [H|[H|H]]; congruence.
Qed.
Print Assumptions misc_filter_nonreal_invalid_arguments.

(** Non-vacuity: box [-1,1]x[0,inf], one value in, one out, one NaN *)
Definition fl1 := S754_finite false 4503599627370496 (-52).   (* 1.0 *)
Definition flm1 := S754_finite true 4503599627370496 (-52).   (* -1.0 *)
Definition fl2 := S754_finite false 4503599627370496 (-51).   (* 2.0 *)
Definition fl0 := S754_zero false.
Definition ex_box := {| b0 := flm1; b1 := fl1; b2 := fl0; b3 := S754_infinity false |}.
Example misc_filter_example :
  valid_box ex_box /\
  misc_filter {| fs_N := Some 4; fs_vals := Some [(fl2, fl1); (fl0, fl2); (S754_nan, fl1); (fl1, fl0)];
                 fs_re := Some [(fl0,fl0); (fl1,fl1); (fl2,fl2); (flm1,flm1)] |} (Some ex_box)
  = Ret (0%Z, {| fs_N := Some 2; fs_vals := Some [(fl0, fl2); (fl1, fl0); (S754_nan, fl1); (fl1, fl0)];
                 fs_re := Some [(fl1,fl1); (flm1,flm1); (fl2,fl2); (flm1,flm1)] |}).
Proof. split; [split; reflexivity|reflexivity]. Qed.

(** ** C04 misc_merge *)
Theorem misc_merge_result :
  forall (A : Type) (near : A -> A -> bool) n l, 0 < n <= length l ->
  exists m vals', misc_merge near (Some n) (Some l) false = Ret (0%Z, Some m, Some vals')
    /\ 0 < m <= n /\ length vals' = length l /\ skipn n vals' = skipn n l
    /\ nth_error vals' 0 = nth_error l 0
    /\ subseq (firstn m vals') (firstn n l)
    /\ separated near (firstn m vals')
    /\ (forall x, In x (firstn n l) -> linked near (firstn n l) (firstn m vals') x).
Proof. exact @misc_merge_spec. Qed.
Print Assumptions misc_merge_result.

(** C04: removed values need not be within tol of a survivor (chain 0, 2, 4 with tol 3) *)
Theorem misc_merge_removed_near_survivor_refuted :
  exists (near : Z -> Z -> bool) l m l',
    (forall x y, near x y = near y x) /\
    misc_merge near (Some 3) (Some l) false = Ret (0%Z, Some m, Some l') /\
    exists x, In x l /\ forall y, In y (firstn m l') -> near y x = false.
Proof.
  exists (fun x y => Z.ltb (Z.abs (x - y)) 3), [0; 2; 4]%Z, 1, [0; 2; 4]%Z.
  split; [intros x y; replace (y - x)%Z with (-(x - y))%Z by lia; now rewrite Z.abs_opp|].
  split; [reflexivity|]. exists 4%Z. split; [simpl; auto|].
  intros y [<-|[]]. reflexivity.
Qed.
Print Assumptions misc_merge_removed_near_survivor_refuted.

(** C04: other cases: nothing changes *)
Theorem misc_merge_other_cases :
  forall (A : Type) (near : A -> A -> bool) N l neg,
  (misc_merge near None l neg = Ret (2%Z, None, l)) /\
  (misc_merge near (Some 0) l neg = Ret (0%Z, Some 0, l)) /\
  (0 < N -> misc_merge near (Some N) None neg = Ret (2%Z, Some N, None)) /\
  (0 < N -> misc_merge near (Some N) l true = Ret (2%Z, Some N, l)).
Proof.
  intros A near N l neg. repeat split; destruct N as [|N]; intros; try lia; try reflexivity.
  destruct l; reflexivity.
Qed.
Print Assumptions misc_merge_other_cases.

Example misc_merge_example :
  misc_merge (fun x y => Z.ltb (Z.abs (x - y)) 3) (Some 5) (Some [0; 10; 1; 20; 11; 99]%Z) false
  = Ret (0%Z, Some 3, Some [0; 10; 20; 20; 11; 99]%Z).
Proof. reflexivity. Qed.

(** ** C05 misc_downsample *)
Theorem misc_downsample_equally_spaced :
  forall (A : Type) (q : list A) (d : A) D Dsub, 2 < D -> length q = D ->
  exists s m, misc_downsample D (Some q) Dsub false
    = Ret (inr {| ds_Dsub := m; ds_qsub := tabulate m (fun k => nth (k * s) q d);
                  ds_first := 0; ds_last := (m - 1) * s |})
    /\ 1 <= s /\ 2 <= m /\ (m - 1) * s < D
    /\ 2 * (D - 1 - (m - 1) * s) < 3 * s.
Proof. exact @misc_downsample_spec. Qed.
Print Assumptions misc_downsample_equally_spaced.

Theorem misc_downsample_exact_if_divides :
  forall D Dsub, 2 < D -> 2 <= Dsub -> Dsub <= D -> (exists k, D = k * Dsub) ->
  downsample_sizes D Dsub = Ret (D / Dsub, Dsub).
Proof. exact downsample_sizes_exact. Qed.
Print Assumptions misc_downsample_exact_if_divides.

Theorem misc_downsample_errors :
  forall (A : Type) (q : list A) D Dsub oom,
  misc_downsample D (@None (list A)) Dsub oom = Ret (inl 2%Z) /\
  (D <= 2 -> misc_downsample D (Some q) Dsub oom = Ret (inl 2%Z)).
Proof.
  intros. split; [reflexivity|]. intros H. unfold misc_downsample.
  destruct (Nat.leb_spec D 2); [reflexivity|lia].
Qed.
Print Assumptions misc_downsample_errors.

Example misc_downsample_example :
  misc_downsample 7 (Some [0;1;2;3;4;5;6]) 3 false
  = Ret (inr {| ds_Dsub := 4; ds_qsub := [0;2;4;6]; ds_first := 0; ds_last := 6 |}).
Proof. reflexivity. Qed.

(** ** C06 misc_nextpowerof2 *)
Local Open Scope Z_scope.
Theorem misc_nextpowerof2_least :
  forall number, 1 <= number <= 2 ^ 63 ->
  exists k : nat, (k <= 63)%nat /\ misc_nextpowerof2 64 number = Some (2 ^ Z.of_nat k)
    /\ number <= 2 ^ Z.of_nat k
    /\ forall j : nat, number <= 2 ^ Z.of_nat j -> (k <= j)%nat.
Proof. exact np2_spec. Qed.
Print Assumptions misc_nextpowerof2_least.

Theorem misc_nextpowerof2_never_returns_above :
  forall number fuel, 2 ^ 63 < number < 2 ^ 64 -> misc_nextpowerof2 fuel number = None.
Proof. exact np2_diverges. Qed.
Print Assumptions misc_nextpowerof2_never_returns_above.

Example misc_nextpowerof2_example :
  map (misc_nextpowerof2 64) [0; 1; 5; 8; 9] = [Some 0; Some 1; Some 8; Some 8; Some 16].
Proof. reflexivity. Qed.
