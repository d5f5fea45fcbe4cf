(** * The call sequences of poly_fmult_two_polys2x2/3x3 compute a matrix product *)
From Verif Require Import Base Mem Series Dft KissModel PolyFmultModel PolyFmultTwo.

(** ** Symbolic execution of a call sequence.  Ghost state: whose transform is in
   buf1 / buf2, and which sum of products is in each destination *)
Inductive gcont := GAny | GCoef (l : list (src * src)) | GFft (l : list (src * src)).
Record gst := mkg { g1 : option src; g2 : option src; gd : list gcont }.

Definition orelse {A} (x y : option A) : option A := match x with Some _ => x | None => y end.

Definition gafter (mode : nat) (before : gcont) (xy : src * src) : option gcont :=
  match mode, before with
  | 0, _ => Some (GCoef [xy])
  | 1, GCoef l => Some (GCoef (xy :: l))
  | 2, _ => Some (GFft [xy])
  | 3, GFft l => Some (GCoef (xy :: l))
  | 4, GFft l => Some (GFft (xy :: l))
  | _, _ => None
  end.

Definition symstep (g : gst) (c : call) : option gst :=
  let '(bA, bB) := if cswap c then (g2 g, g1 g) else (g1 g, g2 g) in
  match orelse (cA c) bA, orelse (cB c) bB, nth_error (gd g) (cdest c) with
  | Some a, Some b, Some before =>
      match gafter (cmode c) before (a, b) with
      | None => None
      | Some after =>
          let nA := if Nat.eqb (cmode c) 2 || Nat.eqb (cmode c) 4 then Some a else None in
          let nB := Some b in
          let gd' := upd (gd g) (cdest c) after in
          Some (if cswap c then mkg nB nA gd' else mkg nA nB gd')
      end
  | _, _, _ => None
  end.
Fixpoint symrun (cs : list call) (g : gst) : option gst :=
  match cs with [] => Some g | c :: cs' => match symstep g c with None => None | Some g' => symrun cs' g' end end.

Definition norm_pair (xy : src * src) : option (nat * nat) :=
  match xy with (P1 a, P2 b) => Some (a, b) | (P2 b, P1 a) => Some (a, b) | _ => None end.
Fixpoint norm_pairs (l : list (src * src)) : option (list (nat * nat)) :=
  match l with
  | [] => Some []
  | xy :: l' => match norm_pair xy, norm_pairs l' with Some ab, Some l'' => Some (ab :: l'') | _, _ => None end
  end.

(** what destination d = i*m+j has to contain in the end: sum_k A_ik B_kj *)
Definition expected (m d : nat) : list (nat * nat) :=
  map (fun k => (d / m * m + k, k * m + d mod m)) (rev (seq 0 m)).

Definition script_ok (m : nat) (script : bool -> list call) : Prop :=
  forall space, exists g,
    symrun (script space) (mkg None None (repeat GAny (m * m))) = Some g /\ length (gd g) = m * m /\
    (forall d, d < m * m -> exists l, nth d (gd g) GAny = GCoef l /\ norm_pairs l = Some (expected m d)) /\
    (forall c, In c (script space) -> (cmode c = 0 \/ cmode c = 1) \/ space = true) /\
    (forall c, In c (script space) -> cdest c < m * m) /\
    (forall c ij, In c (script space) -> (cA c = Some (P1 ij) \/ cA c = Some (P2 ij) \/ cB c = Some (P1 ij) \/ cB c = Some (P2 ij)) -> ij < m * m).

Definition src_ix (x : src) := match x with P1 i | P2 i => i end.
(** decidable version *)
Definition osrc_lt (mm : nat) (x : option src) : bool := match x with None => true | Some x => src_ix x <? mm end.
Definition pair_eqb (x y : nat * nat) := Nat.eqb (fst x) (fst y) && Nat.eqb (snd x) (snd y).
Fixpoint list_eqb (x y : list (nat * nat)) : bool :=
  match x, y with [], [] => true | a :: x', b :: y' => pair_eqb a b && list_eqb x' y' | _, _ => false end.
Lemma list_eqb_eq x y : list_eqb x y = true -> x = y.
Proof.
  revert y; induction x as [|[a b] x IH]; intros [|[c d] y] H; simpl in H; try discriminate; auto.
  apply andb_prop in H as [H1 H2]. apply andb_prop in H1 as [H1 H3]. simpl in *.
  apply Nat.eqb_eq in H1, H3. subst. f_equal. auto.
Qed.
Definition script_check (m : nat) (script : bool -> list call) (space : bool) : bool :=
  match symrun (script space) (mkg None None (repeat GAny (m * m))) with
  | None => false
  | Some g => Nat.eqb (length (gd g)) (m * m) &&
     forallb (fun d => match nth d (gd g) GAny with
       | GCoef l => match norm_pairs l with Some l' => list_eqb l' (expected m d) | None => false end
       | _ => false end) (seq 0 (m * m)) &&
     forallb (fun c => ((cmode c <? 2) || space) && (cdest c <? m * m)
       && osrc_lt (m * m) (cA c) && osrc_lt (m * m) (cB c)) (script space)
  end.

Lemma script_check_ok m script : script_check m script true = true -> script_check m script false = true ->
  script_ok m script.
Proof.
  intros Ht Hf space. assert (H : script_check m script space = true) by (destruct space; assumption).
  unfold script_check in H. destruct (symrun _ _) as [g|]; [|discriminate]. exists g.
  apply andb_prop in H as [H H3]. apply andb_prop in H as [H1 H2].
  split; [reflexivity|]. split; [now apply Nat.eqb_eq|].
  rewrite forallb_forall in H2, H3. split.
  { intros d Hd. specialize (H2 d). rewrite in_seq in H2. specialize (H2 ltac:(lia)).
    destruct (nth d (gd g) GAny) as [|l|l]; try discriminate. exists l. split; [reflexivity|].
    destruct (norm_pairs l) as [l'|]; [|discriminate]. f_equal. now apply list_eqb_eq. }
  assert (H4 : forall c, In c (script space) -> (cmode c < 2 \/ space = true) /\ cdest c < m * m
     /\ osrc_lt (m * m) (cA c) = true /\ osrc_lt (m * m) (cB c) = true).
  { intros c Hc. specialize (H3 c Hc). repeat (apply andb_prop in H3 as [H3 ?]).
    apply orb_prop in H3. rewrite Nat.ltb_lt in *. auto. }
  split; [|split].
  - intros c Hc. destruct (H4 c Hc) as ([H|H] & _); [left; lia|now right].
  - intros c Hc. apply (H4 c Hc).
  - intros c ij Hc Ho. destruct (H4 c Hc) as (_ & _ & HA & HB).
    destruct Ho as [E|[E|[E|E]]]; rewrite E in *; simpl in *; now apply Nat.ltb_lt.
Qed.

Theorem script2_ok : script_ok 2 script2.
Proof. apply script_check_ok; vm_compute; reflexivity. Qed.
Theorem script3_ok : script_ok 3 script3.
Proof. apply script_check_ok; vm_compute; reflexivity. Qed.

(** ** Soundness *)
Section Sound.
Context {K : cfield}.
Add Field KF : (cfield_th K).
Variable fft : bool -> nat -> list K -> out (list K).
Local Open Scope cf_scope.

Variables (deg len : nat) (w : K).
Hypothesis Hlen : two_polys_len deg = Ret len.
Hypothesis Hlen2 : (2 * deg + 1 <= len)%nat.
Hypothesis Hfft : fft_ok fft len w.

Variables (p : list K) (o1 o2 p_stride ro r_stride mm : nat).
Definition opv (x : src) : list K :=
  match x with
  | P1 ij => tabulate (deg + 1) (fun k => nth (o1 + ij * p_stride + k) p 0)
  | P2 ij => tabulate (deg + 1) (fun k => nth (o2 + ij * p_stride + k) p 0)
  end.
Lemma opv_length x : length (opv x) = (deg + 1)%nat.
Proof. destruct x; apply tabulate_length. Qed.

Hypothesis Hp1 : forall ij, (ij < mm)%nat -> (o1 + ij * p_stride + (deg + 1) <= length p)%nat.
Hypothesis Hp2 : forall ij, (ij < mm)%nat -> (o2 + ij * p_stride + (deg + 1) <= length p)%nat.

Lemma operand_opv x : (src_ix x < mm)%nat -> operand p o1 o2 p_stride deg x = Ret (opv x).
Proof. destruct x as [ij|ij]; intros H; simpl in H; unfold operand, opv; apply rd_tab; auto. Qed.

(** value of a sum of products *)
Fixpoint sp (l : list (src * src)) (k : nat) : K :=
  match l with [] => 0 | (x, y) :: l' => sp l' k + smul (ser (opv x)) (ser (opv y)) k end.

(** size of the windows *)
Variable L : nat.
Hypothesis HL : (2 * deg + 1 <= L)%nat.
Hypothesis HLs : (ro + L <= r_stride)%nat.

Definition ghas (c : gcont) (r : list K) (d : nat) : Prop :=
  match c with
  | GAny => True
  | GCoef l => forall k, (k < 2 * deg + 1)%nat -> nth (ro + d * r_stride + k) r 0 = sp l k
  | GFft l => (len <= L)%nat /\ forall k, (k < len)%nat -> nth (ro + d * r_stride + k) r 0 = dft w len (sp l) k
  end.
Definition bhas (o : option src) (b : list K) : Prop :=
  match o with None => True | Some x => isT len w b (opv x) end.

Record ginv (g : gst) (r b0 b1 b2 r0 : list K) : Prop := {
  gi_b0 : (len <= length b0)%nat; gi_b1 : (len <= length b1)%nat; gi_b2 : (len <= length b2)%nat;
  gi_r : length r = length r0;
  gi_1 : bhas (g1 g) b1; gi_2 : bhas (g2 g) b2;
  gi_d : length (gd g) = mm /\ forall d, (d < mm)%nat -> ghas (nth d (gd g) GAny) r d;
  gi_frame : forall i, (forall d, (d < mm)%nat -> (i < ro + d * r_stride \/ ro + d * r_stride + L <= i)%nat) ->
     nth i r 0 = nth i r0 0 }.


Lemma ghas_frame c r r' d : (forall k, (k < L)%nat -> nth (ro + d * r_stride + k) r' 0 = nth (ro + d * r_stride + k) r 0) ->
  ghas c r d -> ghas c r' d.
Proof.
  intros E. destruct c as [|l|l]; simpl; auto.
  - intros H k Hk. rewrite E by lia. now apply H.
  - intros [H1 H] . split; [exact H1|]. intros k Hk. rewrite E by lia. now apply H.
Qed.

(** windows of different destinations do not meet *)
Lemma windows_disjoint d d' k : (k < L)%nat -> d <> d' ->
  (ro + d' * r_stride + k < ro + d * r_stride \/ ro + d * r_stride + L <= ro + d' * r_stride + k)%nat.
Proof.
  intros Hk Hd. destruct (Nat.lt_ge_cases d d') as [H|H].
  - right. assert (S d * r_stride <= d' * r_stride)%nat by (apply Nat.mul_le_mono_r; lia). lia.
  - left. assert (S d' * r_stride <= d * r_stride)%nat by (apply Nat.mul_le_mono_r; lia). lia.
Qed.

Lemma call_sound g c g' r b0 b1 b2 r0 :
  ginv g r b0 b1 b2 r0 -> symstep g c = Some g' ->
  ((cmode c = 0 \/ cmode c = 1) \/ (len <= L))%nat ->
  (cdest c < mm)%nat ->
  (mm * r_stride <= length r0)%nat ->
  (forall x, cA c = Some x \/ cB c = Some x -> (src_ix x < mm)%nat) ->
  exists r' b0' b1' b2', run_call fft p o1 o2 p_stride deg ro r_stride c r b0 b1 b2 = Ret (r', b0', b1', b2')
    /\ ginv g' r' b0' b1' b2' r0 /\
    length b0' = length b0 /\ length b1' = length b1 /\ length b2' = length b2.
Proof.
  intros I Hs Hmode Hdest Hlr Hsrc.
  assert (Hwin : (ro + cdest c * r_stride + L <= length r)%nat).
  { rewrite (gi_r _ _ _ _ _ _ I).
    assert (S (cdest c) * r_stride <= mm * r_stride)%nat by (apply Nat.mul_le_mono_r; lia). lia. }
  assert (Hw : (wsize deg len (cmode c) <= L)%nat).
  { destruct Hmode as [[E|E]|H]; [rewrite E; simpl; lia..|].
    unfold wsize. destruct (cmode c) as [|[|]]; lia. }
  unfold run_call.
  assert (EA : forall o, (forall x, o = Some x -> (src_ix x < mm)%nat) ->
     operand_opt p o1 o2 p_stride deg o = Ret (option_map opv o)).
  { intros [x|] Hx; [|reflexivity]. unfold operand_opt. rewrite operand_opv by auto. reflexivity. }
  rewrite (EA (cA c)) by auto. rewrite (EA (cB c)) by auto. cbn [bind]. clear EA.
  unfold symstep in Hs.
  (* generic statement about the two buffers in the order of the call *)
  assert (Main : forall bA bB (oA oB : option src) a b before after, (len <= length bA)%nat -> (len <= length bB)%nat ->
     bhas oA bA -> bhas oB bB ->
     orelse (cA c) oA = Some a -> orelse (cB c) oB = Some b ->
     nth_error (gd g) (cdest c) = Some before -> gafter (cmode c) before (a, b) = Some after ->
     exists r' b0' bA' bB', two_polys fft deg (option_map opv (cA c)) (option_map opv (cB c)) r
         (ro + cdest c * r_stride) b0 bA bB (cmode c) = Ret (r', b0', bA', bB') /\
       length r' = length r /\ length b0' = length b0 /\ length bA' = length bA /\ length bB' = length bB /\
       bhas (Some b) bB' /\ bhas (if Nat.eqb (cmode c) 2 || Nat.eqb (cmode c) 4 then Some a else None) bA' /\
       (forall d, (d < mm)%nat -> ghas (nth d (upd (gd g) (cdest c) after) GAny) r' d) /\
       (forall i, (forall d, (d < mm)%nat -> (i < ro + d * r_stride \/ ro + d * r_stride + L <= i)%nat) ->
          nth i r' 0 = nth i r0 0)).
  { intros bA bB oA oB a b before after LA LB BA BB Ea Eb Eb4 Eaf.
    destruct (gi_d _ _ _ _ _ _ I) as [Lgd Hgd].
    assert (Hbef : ghas before r (cdest c)).
    { specialize (Hgd _ Hdest). now rewrite (nth_error_nth _ _ _ Eb4) in Hgd. }
    assert (G : forall o bf x oo, bhas oo bf -> orelse o oo = Some x -> given deg len w (option_map opv o) bf (opv x)).
    { intros o bf x oo Hb He. split; [apply opv_length|]. destruct o as [y|]; simpl in *; [now injection He as -> |].
      subst oo. exact Hb. }
    set (wb := match before with GAny => WAny | GCoef l => WCoef (sp l) | GFft l => WFft (sp l) end : @wcont K).
    assert (Hwb : whas deg len w wb r (ro + cdest c * r_stride)).
    { unfold wb. destruct before as [|l|l]; simpl in *; auto. apply Hbef. }
    assert (Hwa : exists wa, wafter (cmode c) wb (smul (ser (opv a)) (ser (opv b))) = Some wa /\
       forall r', whas deg len w wa r' (ro + cdest c * r_stride) -> ghas after r' (cdest c)).
    { unfold wb. destruct (cmode c) as [|[|[|[|[|mode]]]]]; destruct before as [|l|l]; try discriminate Eaf;
        cbn [gafter] in Eaf; injection Eaf as <-; cbn [wafter]; eexists; (split; [reflexivity|]);
        cbn [whas ghas sp]; intros r' H; try (intros k Hk; rewrite H by exact Hk; ring);
        (split; [destruct Hmode as [[E|E]|E]; [discriminate E..|exact E]|]);
        intros k Hk; rewrite H by exact Hk; apply dft_ext; intros j Hj; cbn [sp]; ring. }
    destruct Hwa as (wa & Ewa & Hwa).
    destruct (two_polys_spec fft deg len w Hlen Hlen2 Hfft (option_map opv (cA c)) (option_map opv (cB c))
       (opv a) (opv b) r (ro + cdest c * r_stride) b0 bA bB (cmode c) wb wa)
      as (r' & b0' & bA' & bB' & E & Lr' & L0' & LA' & LB' & T2 & T1 & W' & F); auto.
    { exact (gi_b0 _ _ _ _ _ _ I). } { lia. } { now apply (G _ _ _ oA). } { now apply (G _ _ _ oB). }
    exists r', b0', bA', bB'. split; [exact E|]. repeat (split; [assumption|]). split.
    { destruct (Nat.eqb_spec (cmode c) 2) as [E2|E2]; cbn [orb]; [apply T1; now left|].
      destruct (Nat.eqb_spec (cmode c) 4) as [E4|E4]; [apply T1; now right|exact Logic.I]. }
    split.
    - intros d Hd. rewrite nth_upd by lia. destruct (Nat.eqb_spec d (cdest c)) as [->|Hne].
      + now apply Hwa.
      + apply (ghas_frame _ r); [|now apply Hgd]. intros k Hk. apply F.
        destruct (windows_disjoint (cdest c) d k Hk); [auto|lia|lia].
    - intros i Hi. rewrite F; [apply (gi_frame _ _ _ _ _ _ I); exact Hi|].
      destruct (Hi _ Hdest); lia. }
  destruct I as [I0 I1 I2 I3 I4 I5 [I6 I7] I8].
  destruct (cswap c) eqn:Esw; cbn beta iota in Hs.
  - destruct (orelse (cA c) (g2 g)) as [a|] eqn:Ea; [|discriminate].
    destruct (orelse (cB c) (g1 g)) as [b|] eqn:Eb; [|discriminate].
    destruct (nth_error (gd g) (cdest c)) as [before|] eqn:Ed; [|discriminate].
    destruct (gafter (cmode c) before (a, b)) as [after|] eqn:Eaf; [|discriminate].
    injection Hs as <-.
    destruct (Main b2 b1 (g2 g) (g1 g) a b before after) as (r' & b0' & bA' & bB' & E & M1 & M2 & M3 & M4 & M5 & M6 & M7 & M8); auto.
    rewrite E. cbn [bind]. exists r', b0', bB', bA'. split; [reflexivity|].
    split; [|split; [lia|split; lia]].
    constructor; cbn [g1 g2 gd]; try lia; auto. rewrite upd_length. split; [assumption|]. auto.
  - destruct (orelse (cA c) (g1 g)) as [a|] eqn:Ea; [|discriminate].
    destruct (orelse (cB c) (g2 g)) as [b|] eqn:Eb; [|discriminate].
    destruct (nth_error (gd g) (cdest c)) as [before|] eqn:Ed; [|discriminate].
    destruct (gafter (cmode c) before (a, b)) as [after|] eqn:Eaf; [|discriminate].
    injection Hs as <-.
    destruct (Main b1 b2 (g1 g) (g2 g) a b before after) as (r' & b0' & bA' & bB' & E & M1 & M2 & M3 & M4 & M5 & M6 & M7 & M8); auto.
    rewrite E. exists r', b0', bA', bB'. split; [reflexivity|].
    split; [|split; [lia|split; lia]].
    constructor; cbn [g1 g2 gd]; try lia; auto. rewrite upd_length. split; [assumption|]. auto.
Qed.

Lemma calls_sound cs : forall g g' r b0 b1 b2 r0,
  ginv g r b0 b1 b2 r0 -> symrun cs g = Some g' ->
  (forall c, In c cs -> (cmode c = 0 \/ cmode c = 1) \/ (len <= L))%nat ->
  (forall c, In c cs -> (cdest c < mm)%nat) ->
  (mm * r_stride <= length r0)%nat ->
  (forall c x, In c cs -> cA c = Some x \/ cB c = Some x -> (src_ix x < mm)%nat) ->
  exists r' b0' b1' b2', run_calls fft p o1 o2 p_stride deg ro r_stride cs r b0 b1 b2 = Ret (r', b0', b1', b2')
    /\ ginv g' r' b0' b1' b2' r0 /\
    length b0' = length b0 /\ length b1' = length b1 /\ length b2' = length b2.
Proof.
  induction cs as [|c cs IH]; intros g g' r b0 b1 b2 r0 I Hs Hm Hd Hl Hx.
  - injection Hs as <-. do 4 eexists. split; [reflexivity|]. auto.
  - cbn [symrun] in Hs. destruct (symstep g c) as [gm|] eqn:E; [|discriminate].
    destruct (call_sound g c gm r b0 b1 b2 r0) as (r1 & c0 & c1 & c2 & E1 & I1 & M0 & M1 & M2); auto.
    { apply Hm. now left. } { apply Hd. now left. } { intros x. apply Hx. now left. }
    cbn [run_calls]. rewrite E1. cbn [bind].
    destruct (IH gm g' r1 c0 c1 c2 r0) as (r2 & d0 & d1 & d2 & E2 & I2 & N0 & N1 & N2); auto.
    { intros c' Hc. apply Hm. now right. } { intros c' Hc. apply Hd. now right. }
    { intros c' x Hc. apply Hx. now right. }
    exists r2, d0, d1, d2. split; [exact E2|]. split; [exact I2|]. lia.
Qed.
End Sound.
