(** * Correctness of poly_fmult_two_polys in all modes *)
From Verif Require Import Base Mem Series Dft KissModel KissSizeProof MiscModel PolyFmultModel.

Section Two.
Context {K : cfield}.
Add Field KF : (cfield_th K).
Variable fft : bool -> nat -> list K -> out (list K).
Local Open Scope cf_scope.

(** contract of the FFT (proved for KissFFT in KissProps) *)
Definition fft_ok (len : nat) (w : K) : Prop :=
  proot w len /\
  (forall x, length x = len -> fft false len x = Ret (dft_list w len x)) /\
  (forall x, length x = len -> fft true len x = Ret (dft_list (/ w) len x)).

Variables (deg len : nat) (w : K).
Hypothesis Hlen : two_polys_len deg = Ret len.
Hypothesis Hlen2 : (2 * deg + 1 <= len)%nat.
Hypothesis Hfft : fft_ok len w.

Definition ser (p : list K) : nat -> K := fun i => nth i p 0.
Lemma ser_supp p : length p = (deg + 1)%nat -> forall i, (deg < i)%nat -> ser p i = 0.
Proof. intros HL i Hi. apply nth_overflow. lia. Qed.

(** b holds (in its first len entries) the transform of p *)
Definition isT (b p : list K) : Prop := forall k, (k < len)%nat -> nth k b 0 = dft w len (ser p) k.

Lemma exec_spec inv src dst x :
  (len <= length src)%nat -> (len <= length dst)%nat ->
  (forall k, (k < len)%nat -> nth k src 0 = x k) ->
  exists dst', exec fft inv len src dst = Ret dst' /\ length dst' = length dst /\
    forall k, (k < len)%nat -> nth k dst' 0 = dft (if inv then / w else w) len x k.
Proof.
  intros Hs Hd Hx. unfold exec. rewrite (rd_tab src 0 len 0) by lia. cbn [bind].
  destruct Hfft as (Hw & Hf & Hi).
  assert (E : fft inv len (tabulate len (fun i => nth (0 + i) src 0))
     = Ret (tabulate len (dft (if inv then / w else w) len x))).
  { assert (E' : forall v, dft_list v len (tabulate len (fun i => nth (0 + i) src 0)) = tabulate len (dft v len x)).
    { intros v. unfold dft_list. apply tabulate_ext. intros k Hk. apply dft_ext. intros j Hj.
      rewrite nth_tabulate by exact Hj. now apply Hx. }
    destruct inv; [rewrite Hi|rewrite Hf]; try apply tabulate_length; now rewrite E'. }
  rewrite E. cbn [bind].
  destruct (wr_ok dst 0 (tabulate len (dft (if inv then / w else w) len x)) 0) as (d & Ed & Ld & Hd').
  { rewrite tabulate_length. lia. }
  exists d. split; [exact Ed|]. split; [exact Ld|]. intros k Hk. rewrite Hd', tabulate_length.
  cbn [Nat.leb andb]. destruct (Nat.ltb_spec k (0 + len)); [|lia].
  rewrite Nat.sub_0_r. now apply nth_tabulate.
Qed.

(** operand of a call: given explicitly, or its transform is in the buffer *)
Definition given (p : option (list K)) (b : list K) (a : list K) : Prop :=
  length a = (deg + 1)%nat /\ match p with Some q => q = a | None => isT b a end.

(** loading one operand *)
Lemma load_spec p b0 b a :
  (len <= length b0)%nat -> (len <= length b)%nat ->
  (forall k, (deg < k < len)%nat -> nth k b0 0 = 0) -> given p b a ->
  exists b0' b', (match p with
        | None => Ret (b0, b)
        | Some p => b0 <- wr b0 0 p ;; b <- exec fft false len b0 b ;; Ret (b0, b)
        end) = Ret (b0', b') /\ length b0' = length b0 /\ length b' = length b /\
    (forall k, (deg < k < len)%nat -> nth k b0' 0 = 0) /\ isT b' a.
Proof.
  intros L0 L Hz [La Hg]. destruct p as [q|].
  - subst q. destruct (wr_ok b0 0 a 0) as (c & Ec & Lc & Hc); [lia|].
    rewrite Ec. cbn [bind].
    destruct (exec_spec false c b (ser a)) as (b' & Eb & Lb & Hb); [lia|exact L| |].
    + intros k Hk. rewrite Hc. cbn [Nat.leb andb]. destruct (Nat.ltb_spec k (0 + length a)).
      * now rewrite Nat.sub_0_r.
      * rewrite Hz by lia. unfold ser. symmetry. apply nth_overflow. lia.
    + rewrite Eb. cbn [bind]. exists c, b'. split; [reflexivity|]. split; [exact Lc|]. split; [exact Lb|].
      split; [|exact Hb].
      intros k Hk. rewrite Hc. cbn [Nat.leb andb]. destruct (Nat.ltb_spec k (0 + length a)); [lia|now apply Hz].
  - exists b0, b. auto.
Qed.

(** the spectral product *)
Definition tprod (a1 a2 : list K) (k : nat) : K := dft w len (ser a1) k * dft w len (ser a2) k.

(** inverse transform of tprod + dft g *)
Lemma inverse_product a1 a2 g l : length a1 = (deg + 1)%nat -> length a2 = (deg + 1)%nat -> (l < len)%nat ->
  dft (/ w) len (fun k => tprod a1 a2 k + dft w len g k) l = fofnat len * (smul (ser a1) (ser a2) l + g l).
Proof.
  intros H1 H2 Hl. destruct Hfft as (Hw & _ & _).
  unfold dft at 1.
  rewrite (fsum_ext len _ (fun k => tprod a1 a2 k * (/ w) ^ (k * l) + dft w len g k * (/ w) ^ (k * l)))
    by (intros; ring).
  rewrite fsum_add.
  change (fsum len (fun k => tprod a1 a2 k * (/ w) ^ (k * l)))
    with (dft (/ w) len (fun k => dft w len (ser a1) k * dft w len (ser a2) k) l).
  change (fsum len (fun k => dft w len g k * (/ w) ^ (k * l))) with (dft (/ w) len (dft w len g) l).
  rewrite (dft_convolution w len _ _ l Hw Hl), (dft_inversion w len g l Hw Hl).
  rewrite (cconv_no_wrap len deg deg); try lia; [|now apply ser_supp|now apply ser_supp].
  unfold smul. ring.
Qed.

Lemma fofnat_len_neq0 : fofnat len <> (0 : K).
Proof. destruct Hfft as ((_ & _ & _ & H) & _). exact H. Qed.

(** the five modes: what is required of / left in the result window *)
Inductive wcont := WAny | WCoef (g : nat -> K) | WFft (g : nat -> K).
(** content of the window at ro *)
Definition whas (c : wcont) (res : list K) (ro : nat) : Prop :=
  match c with
  | WAny => True
  | WCoef g => forall k, (k < 2 * deg + 1)%nat -> nth (ro + k) res 0 = g k
  | WFft g => forall k, (k < len)%nat -> nth (ro + k) res 0 = dft w len g k
  end.
Definition wafter (mode : nat) (before : wcont) (prod : nat -> K) : option wcont :=
  match mode, before with
  | 0%nat, _ => Some (WCoef prod)
  | 1%nat, WCoef g => Some (WCoef (fun k => g k + prod k))
  | 2%nat, _ => Some (WFft prod)
  | 3%nat, WFft g => Some (WCoef (fun k => g k + prod k))
  | 4%nat, WFft g => Some (WFft (fun k => g k + prod k))
  | _, _ => None
  end.
(** window size a mode may touch *)
Definition wsize (mode : nat) : nat := match mode with 0 | 1 => 2 * deg + 1 | _ => len end%nat.

(** the product series has support <= 2 deg < len, so its transform is tprod *)
Lemma dft_smul a1 a2 k : length a1 = (deg + 1)%nat -> length a2 = (deg + 1)%nat -> (k < len)%nat ->
  dft w len (smul (ser a1) (ser a2)) k = tprod a1 a2 k.
Proof.
  intros H1 H2 Hk. destruct Hfft as (Hw & _ & _).
  apply (fmul_cancel_l (fofnat len)); [apply fofnat_len_neq0|].
  rewrite <- (dft_inversion' w len (tprod a1 a2) k Hw Hk).
  transitivity (dft w len (fun l => fofnat len * smul (ser a1) (ser a2) l) k).
  { unfold dft. rewrite <- fsum_scal. apply fsum_ext. intros; ring. }
  apply dft_ext. intros l Hl.
  pose proof (inverse_product a1 a2 (fun _ => 0) l H1 H2 Hl) as E.
  transitivity (fofnat len * (smul (ser a1) (ser a2) l + 0)); [ring|]. rewrite <- E.
  apply dft_ext. intros j Hj.
  assert (D0 : dft w len (fun _ => 0) j = 0) by (apply fsum_zero'; intros; ring).
  rewrite D0. ring.
Qed.

Theorem two_polys_spec p1 p2 a1 a2 res ro b0 b1 b2 mode before after :
  (len <= length b0)%nat -> (len <= length b1)%nat -> (len <= length b2)%nat ->
  (ro + wsize mode <= length res)%nat ->
  given p1 b1 a1 -> given p2 b2 a2 ->
  whas before res ro -> wafter mode before (smul (ser a1) (ser a2)) = Some after ->
  exists res' b0' b1' b2', two_polys fft deg p1 p2 res ro b0 b1 b2 mode = Ret (res', b0', b1', b2') /\
    length res' = length res /\ length b0' = length b0 /\ length b1' = length b1 /\ length b2' = length b2 /\
    isT b2' a2 /\ (mode = 2%nat \/ mode = 4%nat -> isT b1' a1) /\
    whas after res' ro /\
    (forall i, (i < ro \/ ro + wsize mode <= i)%nat -> nth i res' 0 = nth i res 0).
Proof.
  intros L0 L1 L2 Lr G1 G2 Hb Ha.
  unfold two_polys. rewrite Hlen. cbn [bind].
  destruct (wr_ok b0 (deg + 1) (repeat 0 (len - (deg + 1))) 0) as (c0 & Ec0 & Lc0 & Hc0).
  { rewrite repeat_length. lia. }
  rewrite Ec0. cbn [bind]. rewrite repeat_length in Hc0.
  assert (Z0 : forall k, (deg < k < len)%nat -> nth k c0 0 = 0).
  { intros k Hk. rewrite Hc0. destruct (Nat.leb_spec (deg + 1) k); [|lia].
    destruct (Nat.ltb_spec k (deg + 1 + (len - (deg + 1)))); [|lia]. cbn [andb].
    apply nth_repeat. }
  destruct (load_spec p1 c0 b1 a1 ltac:(lia) L1 Z0 G1) as (c1 & d1 & E1 & Lc1 & Ld1 & Z1 & T1).
  rewrite E1. cbn [bind]. clear E1.
  destruct (load_spec p2 c1 b2 a2 ltac:(lia) L2 Z1 G2) as (c2 & d2 & E2 & Lc2 & Ld2 & Z2 & T2).
  rewrite E2. cbn [bind]. clear E2.
  rewrite (rd_tab d1 0 len 0), (rd_tab d2 0 len 0) by lia. cbn [bind].
  destruct (wr_ok c2 0 (zipw fmul (tabulate len (fun i => nth (0 + i) d1 0)) (tabulate len (fun i => nth (0 + i) d2 0))) 0)
    as (c3 & Ec3 & Lc3 & Hc3).
  { rewrite zipw_length, !tabulate_length. lia. }
  rewrite Ec3. cbn [bind]. rewrite zipw_length, !tabulate_length, Nat.min_id in Hc3.
  assert (H3 : forall k, (k < len)%nat -> nth k c3 0 = tprod a1 a2 k).
  { intros k Hk. rewrite Hc3. cbn [Nat.leb andb]. destruct (Nat.ltb_spec k (0 + len)); [|lia].
    rewrite Nat.sub_0_r. rewrite (nth_zipw _ _ _ _ 0 0) by (now rewrite tabulate_length).
    rewrite !nth_tabulate by exact Hk. cbn [Nat.add]. unfold tprod.
    now rewrite T1, T2 by exact Hk. }
  clear Hc3 Ec3. destruct G1 as [La1 _]. destruct G2 as [La2 _].
  (* inverse transform of c with content tprod + dft g, then scaling *)
  assert (Inv : forall c g, (len <= length c)%nat ->
     (forall k, (k < len)%nat -> nth k c 0 = tprod a1 a2 k + dft w len g k) ->
     exists d1', exec fft true len c d1 = Ret d1' /\ length d1' = length d1 /\
       rd d1' 0 (2 * deg + 1) = Ret (tabulate (2 * deg + 1) (fun i => nth i d1' 0)) /\
       forall k, (k < len)%nat -> nth k d1' 0 / fofnat len = smul (ser a1) (ser a2) k + g k).
  { intros c g Lc Hc. destruct (exec_spec true c d1 _ Lc ltac:(lia) Hc) as (d1' & Ed & Ld & Hd).
    exists d1'. split; [exact Ed|]. split; [exact Ld|]. split.
    - rewrite (rd_tab d1' 0 _ 0) by lia. reflexivity.
    - intros k Hk. rewrite Hd by exact Hk. rewrite inverse_product by assumption.
      field. apply fofnat_len_neq0. }
  assert (D0 : forall k, dft w len (fun _ => 0) k = 0) by (intros k; apply fsum_zero'; intros; ring).
  assert (Hmode : (mode = 0 \/ mode = 1 \/ mode = 2 \/ mode = 3 \/ mode = 4)%nat).
  { destruct mode as [|[|[|[|[|mode]]]]]; auto 6. destruct before; discriminate Ha. }
  destruct Hmode as [-> |[-> |[-> |[-> | ->]]]]; cbn [bind Nat.eqb orb wsize] in *.
  - (* mode 0 *)
    destruct (Inv c3 (fun _ => 0)) as (e1 & Ee & Le & Re & He); [lia| |].
    { intros k Hk. rewrite H3, D0 by exact Hk. ring. }
    rewrite Ee. cbn [bind]. rewrite Re. cbn [bind].
    destruct (wr_ok res ro (map (fun x => x / fofnat len) (tabulate (2 * deg + 1) (fun i => nth i e1 0))) 0)
      as (r' & Er & Lr' & Hr'); [rewrite map_length, tabulate_length; lia|].
    rewrite Er. cbn [bind]. rewrite map_length, tabulate_length in Hr'.
    do 4 eexists. split; [reflexivity|]. repeat (split; [lia|]). split; [exact T2|].
    split; [intros [H|H]; discriminate|]. cbn [wafter] in Ha. injection Ha as <-.
    split.
    + intros k Hk. rewrite Hr'. destruct (Nat.leb_spec ro (ro + k)); [|lia].
      destruct (Nat.ltb_spec (ro + k) (ro + (2 * deg + 1))); [|lia]. cbn [andb].
      replace (ro + k - ro)%nat with k by lia.
      rewrite (nth_indep _ 0 (0 / fofnat len)) by (rewrite map_length, tabulate_length; lia).
      rewrite (map_nth (fun x => x / fofnat len)). rewrite nth_tabulate by exact Hk.
      rewrite He by lia. ring.
    + intros i Hi. rewrite Hr'. destruct (Nat.leb_spec ro i); cbn [andb]; [|reflexivity].
      destruct (Nat.ltb_spec i (ro + (2 * deg + 1))); [lia|reflexivity].
  - (* mode 1 *)
    destruct before as [|g|g]; try discriminate Ha. cbn [wafter] in Ha. injection Ha as <-.
    destruct (Inv c3 (fun _ => 0)) as (e1 & Ee & Le & Re & He); [lia| |].
    { intros k Hk. rewrite H3, D0 by exact Hk. ring. }
    rewrite Ee. cbn [bind]. rewrite Re. cbn [bind].
    rewrite (rd_tab res ro (2 * deg + 1) 0) by lia. cbn [bind].
    match goal with |- context [wr res ro ?v] => destruct (wr_ok res ro v 0) as (r' & Er & Lr' & Hr') end.
    { rewrite zipw_length, map_length, !tabulate_length. lia. }
    rewrite Er. cbn [bind]. rewrite zipw_length, map_length, !tabulate_length, Nat.min_id in Hr'.
    do 4 eexists. split; [reflexivity|]. repeat (split; [lia|]). split; [exact T2|].
    split; [intros [H|H]; discriminate|].
    split.
    + intros k Hk. rewrite Hr'. destruct (Nat.leb_spec ro (ro + k)); [|lia].
      destruct (Nat.ltb_spec (ro + k) (ro + (2 * deg + 1))); [|lia]. cbn [andb].
      replace (ro + k - ro)%nat with k by lia.
      rewrite (nth_zipw _ _ _ _ 0 (0 / fofnat len)) by (rewrite ?map_length, tabulate_length; lia).
      rewrite (map_nth (fun x => x / fofnat len)). rewrite !nth_tabulate by exact Hk.
      rewrite He by lia. rewrite (Hb k Hk). ring.
    + intros i Hi. rewrite Hr'. destruct (Nat.leb_spec ro i); cbn [andb]; [|reflexivity].
      destruct (Nat.ltb_spec i (ro + (2 * deg + 1))); [lia|reflexivity].
  - (* mode 2 *)
    cbn [wafter] in Ha. injection Ha as <-.
    rewrite (rd_tab c3 0 len 0) by lia. cbn [bind].
    match goal with |- context [wr res ro ?v] => destruct (wr_ok res ro v 0) as (r' & Er & Lr' & Hr') end.
    { rewrite tabulate_length. lia. }
    rewrite Er. cbn [bind]. rewrite tabulate_length in Hr'.
    do 4 eexists. split; [reflexivity|]. repeat (split; [lia|]). split; [exact T2|].
    split; [intros _; exact T1|]. split.
    + intros k Hk. rewrite Hr'. destruct (Nat.leb_spec ro (ro + k)); [|lia].
      destruct (Nat.ltb_spec (ro + k) (ro + len)); [|lia]. cbn [andb].
      replace (ro + k - ro)%nat with k by lia. rewrite nth_tabulate by exact Hk. cbn [Nat.add].
      rewrite H3 by exact Hk. symmetry. now apply dft_smul.
    + intros i Hi. rewrite Hr'. destruct (Nat.leb_spec ro i); cbn [andb]; [|reflexivity].
      destruct (Nat.ltb_spec i (ro + len)); [lia|reflexivity].
  - (* mode 3 *)
    destruct before as [|g|g]; try discriminate Ha. cbn [wafter] in Ha. injection Ha as <-.
    rewrite (rd_tab c3 0 len 0), (rd_tab res ro len 0) by lia. cbn [bind].
    match goal with |- context [wr c3 0 ?v] => destruct (wr_ok c3 0 v 0) as (c4 & Ec & Lc & Hc) end.
    { rewrite zipw_length, !tabulate_length. lia. }
    rewrite Ec. cbn [bind]. rewrite zipw_length, !tabulate_length, Nat.min_id in Hc.
    destruct (Inv c4 g) as (e1 & Ee & Le & Re & He); [lia| |].
    { intros k Hk. rewrite Hc. cbn [Nat.leb andb]. destruct (Nat.ltb_spec k (0 + len)); [|lia].
      rewrite Nat.sub_0_r. rewrite (nth_zipw _ _ _ _ 0 0) by (rewrite tabulate_length; lia).
      rewrite !nth_tabulate by exact Hk. cbn [Nat.add]. rewrite H3 by exact Hk.
      now rewrite (Hb k Hk). }
    rewrite Ee. cbn [bind]. rewrite Re. cbn [bind].
    match goal with |- context [wr res ro ?v] => destruct (wr_ok res ro v 0) as (r' & Er & Lr' & Hr') end.
    { rewrite map_length, tabulate_length; lia. }
    rewrite Er. cbn [bind]. rewrite map_length, tabulate_length in Hr'.
    do 4 eexists. split; [reflexivity|]. repeat (split; [lia|]). split; [exact T2|].
    split; [intros [H|H]; discriminate|].
    split.
    + intros k Hk. rewrite Hr'. destruct (Nat.leb_spec ro (ro + k)); [|lia].
      destruct (Nat.ltb_spec (ro + k) (ro + (2 * deg + 1))); [|lia]. cbn [andb].
      replace (ro + k - ro)%nat with k by lia.
      rewrite (nth_indep _ 0 (0 / fofnat len)) by (rewrite map_length, tabulate_length; lia).
      rewrite (map_nth (fun x => x / fofnat len)). rewrite nth_tabulate by exact Hk.
      rewrite He by lia. ring.
    + intros i Hi. rewrite Hr'. destruct (Nat.leb_spec ro i); cbn [andb]; [|reflexivity].
      destruct (Nat.ltb_spec i (ro + (2 * deg + 1))); [lia|reflexivity].
  - (* mode 4 *)
    destruct before as [|g|g]; try discriminate Ha. cbn [wafter] in Ha. injection Ha as <-.
    rewrite (rd_tab c3 0 len 0), (rd_tab res ro len 0) by lia. cbn [bind].
    match goal with |- context [wr res ro ?v] => destruct (wr_ok res ro v 0) as (r' & Er & Lr' & Hr') end.
    { rewrite zipw_length, !tabulate_length. lia. }
    rewrite Er. cbn [bind]. rewrite zipw_length, !tabulate_length, Nat.min_id in Hr'.
    do 4 eexists. split; [reflexivity|]. repeat (split; [lia|]). split; [exact T2|].
    split; [intros _; exact T1|]. split.
    + intros k Hk. rewrite Hr'. destruct (Nat.leb_spec ro (ro + k)); [|lia].
      destruct (Nat.ltb_spec (ro + k) (ro + len)); [|lia]. cbn [andb].
      replace (ro + k - ro)%nat with k by lia.
      rewrite (nth_zipw _ _ _ _ 0 0) by (rewrite tabulate_length; lia).
      rewrite !nth_tabulate by exact Hk. cbn [Nat.add].
      rewrite H3 by exact Hk. rewrite (Hb k Hk). rewrite <- dft_smul by assumption.
      unfold dft. rewrite <- fsum_add. apply fsum_ext. intros; ring.
    + intros i Hi. rewrite Hr'. destruct (Nat.leb_spec ro i); cbn [andb]; [|reflexivity].
      destruct (Nat.ltb_spec i (ro + len)); [lia|reflexivity].
Qed.
End Two.
