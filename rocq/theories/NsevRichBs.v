(** * Richardson extrapolation of the discrete spectrum in fnft_nsev (C97) *)
From Coq Require Import Reals Lra.
From Coquelicot Require Import Coquelicot.
From Verif Require Import Loop CExp MiscSpec MiscProof DiscProps DiscPreProps NsevSpec NsevProps NsevSafe NsevSafe2 NsevSafe3 NsevSafe4 NsevSafe5 NsevEnv NsevRefuted NsevDisc NsevDisc2 NsevRich NsevNc.
Local Open Scope C_scope.

(** ** Specification *)
(** mu is the list of the first n bound states of the second run.  Entry j is the partner of lam: it is nearer than h |lam|,
   no entry is nearer, and no earlier entry is as near. *)
Record partner (n : nat) (mu : list C) (lam : C) (h : R) (j : nat) : Prop := {
  pa_range : (j < n)%nat;
  pa_near : (Cmod (lam - nth j mu 0)%C < h * Cmod lam)%R;
  pa_best : forall k, (k < n)%nat -> (Cmod (lam - nth j mu 0)%C <= Cmod (lam - nth k mu 0)%C)%R;
  pa_first : forall k, (k < j)%nat -> (Cmod (lam - nth j mu 0)%C < Cmod (lam - nth k mu 0)%C)%R }.
(** no entry is near enough *)
Definition lonely (n : nat) (mu : list C) (lam : C) (h : R) : Prop := forall k, (k < n)%nat -> (h * Cmod lam <= Cmod (lam - nth k mu 0)%C)%R.

Lemma partner_unique n mu lam h j k : partner n mu lam h j -> partner n mu lam h k -> j = k.
Proof.
  intros [A1 A2 A3 A4] [B1 B2 B3 B4]. destruct (Nat.lt_trichotomy j k) as [H|[H|H]]; [|exact H|].
  - specialize (B4 j H). specialize (A3 k B1). lra.
  - specialize (A4 k H). specialize (B3 j A1). lra.
Qed.

(** ** The search for the partner *)
Lemma for_succ {A} (P : nat -> A -> Prop) (f : nat -> A -> out A) n : forall i s s', P i s ->
  (forall k st st', (i <= k < i + n)%nat -> P k st -> f k st = Ret st' -> P (S k) st') -> for_ n i f s = Ret s' -> P (i + n)%nat s'.
Proof.
  induction n as [|n IH]; intros i s s' H0 Hs H.
  - cbn in H. injection H as <-. now rewrite Nat.add_0_r.
  - cbn [for_] in H. destruct (f i s) as [x|] eqn:E; [|discriminate]. cbn [bind] in H. rewrite <- plus_n_Sm. apply (IH (S i) x s'); [|intros; apply (Hs k st st'); auto; lia|exact H].
    apply (Hs i s x); auto. lia.
Qed.

Lemma find_loc_spec Ks lam (sub : list C) h loc : find_loc Ks lam sub h = Ret loc ->
  (loc < Ks /\ partner Ks sub lam h loc)%nat \/ (loc = Ks /\ lonely Ks sub lam h).
Proof.
  intros H. unfold find_loc in H. inv_bind H. injection H as <-.
  destruct (Req_EM_T (Cmod lam) 0) as [Hz|Nz].
  - right. assert (Hx' : x = (Ks, h)).
    { revert Hx. apply (for_succ (fun _ st => st = (Ks, h))); [reflexivity|]. intros k st st' _ -> Hs. inv_bind Hs. now injection Hs as <-. }
    subst x. cbn. split; [reflexivity|]. intros k _. rewrite Hz, Rmult_0_r. apply Cmod_ge_0.
  - assert (Hp : (0 < Cmod lam)%R) by (pose proof (Cmod_ge_0 lam); lra).
    set (P := fun (n : nat) (st : nat * R) => (fst st = Ks /\ snd st = h /\ forall k, (k < n)%nat -> (h * Cmod lam <= Cmod (lam - nth k sub 0)%C)%R) \/
       ((fst st < n)%nat /\ (snd st * Cmod lam = Cmod (lam - nth (fst st) sub 0)%C)%R /\ (Cmod (lam - nth (fst st) sub 0)%C < h * Cmod lam)%R /\
        (forall k, (k < n)%nat -> (Cmod (lam - nth (fst st) sub 0)%C <= Cmod (lam - nth k sub 0)%C)%R) /\
        (forall k, (k < fst st)%nat -> (Cmod (lam - nth (fst st) sub 0)%C < Cmod (lam - nth k sub 0)%C)%R))).
    assert (G : P (0 + Ks)%nat x). { revert Hx. apply (for_succ P). { left. cbn. repeat split. intros; lia. }
      intros k [j e] st' Hk Hst Hs. inv_bind Hs. unfold P in Hst |- *. destruct (aget_val _ _ (RtoC 0) _ Hx) as [Ex _]. cbn [fst snd] in *. rewrite <- Ex in Hs. clear Ex Hx.
      set (m := Cmod (lam - nth k sub 0)%C) in *.
      assert (Hm : (m / Cmod lam * Cmod lam = m)%R) by (field; lra).
      destruct (Rlt_dec _ _) as [Hl|Hl]; injection Hs as <-; cbn [fst snd].
      * right. assert (Hl' : (m < e * Cmod lam)%R) by (rewrite <- Hm; apply Rmult_lt_compat_r; assumption).
        split; [lia|]. split; [exact Hm|]. fold m. destruct Hst as [(S1 & S2 & S3)|(S1 & S2 & S3 & S4 & S5)].
        -- rewrite S2 in Hl'. split; [exact Hl'|]. split.
           ++ intros i Hi. destruct (Nat.eq_dec i k) as [->|Ni]; [fold m; lra|]. specialize (S3 i ltac:(lia)). lra.
           ++ intros i Hi. specialize (S3 i Hi). lra.
        -- split; [lra|]. split.
           ++ intros i Hi. destruct (Nat.eq_dec i k) as [->|Ni]; [fold m; lra|]. specialize (S4 i ltac:(lia)). lra.
           ++ intros i Hi. specialize (S4 i Hi). lra.
      * assert (Hl' : (e * Cmod lam <= m)%R) by (rewrite <- Hm; apply Rmult_le_compat_r; lra).
        destruct Hst as [(S1 & S2 & S3)|(S1 & S2 & S3 & S4 & S5)].
        -- left. rewrite S2 in Hl'. split; [exact S1|]. split; [exact S2|]. intros i Hi. destruct (Nat.eq_dec i k) as [->|Ni]; [exact Hl'|]. apply S3. lia.
        -- right. split; [lia|]. split; [exact S2|]. split; [exact S3|]. split; [|exact S5].
           intros i Hi. destruct (Nat.eq_dec i k) as [->|Ni]; [fold m; lra|]. apply S4. lia. }
    cbn [Nat.add] in G. unfold P in G. destruct G as [(G1 & G2 & G3)|(G1 & G2 & G3 & G4 & G5)].
    + right. split; [exact G1|exact G3].
    + left. split; [exact G1|]. constructor; auto.
Qed.

(** ** The loop over the bound states *)
Definition shares (i n : nat) (lam mu : list C) (h : R) (j : nat) : Prop :=
  exists k, (k < i)%nat /\ partner n mu (nth k lam 0) h j.

Lemma richardson_bs_spec K Ks ds h sn sd (mu bs : list C) rv sub bs' rv' sub' :
  richardson_bs K Ks ds h sn sd mu (bs, rv, sub) = Ret (bs', rv', sub') ->
  length bs' = length bs /\ (forall i, (K <= i)%nat -> nth i bs' 0 = nth i bs 0) /\
  (forall i, (i < K)%nat ->
    (forall j, partner Ks mu (nth i bs 0) h j -> nth i bs' 0 = (RtoC sn * nth i bs 0 - nth j mu 0) / RtoC sd) /\
    (lonely Ks mu (nth i bs 0) h -> nth i bs' 0 = nth i bs 0)) /\
  (ds <> DS_RESIDUES -> ds <> DS_BOTH -> rv' = rv) /\
  (ds = DS_RESIDUES \/ ds = DS_BOTH -> forall r s, rv = Some r -> sub = Some s -> exists r', rv' = Some r' /\ length r' = length r /\
     (forall i, (i < K)%nat -> nth i r' 0 = nth i r 0 /\
       (lonely Ks mu (nth i bs 0) h -> nth (K + i) r' 0 = nth (K + i) r 0) /\
       (forall j, partner Ks mu (nth i bs 0) h j -> ~ shares i Ks bs mu h j ->
          nth (K + i) r' 0 = nth i r 0 / ((RtoC sn * (nth i r 0 / nth (K + i) r 0) - nth j s 0 / nth (Ks + j) s 0) / RtoC sd)))).
Proof.
  intros H. unfold richardson_bs in H.
  set (P := fun (n : nat) (st : list C * option (list C) * option (list C)) => let '(b, rv1, sub1) := st in
     length b = length bs /\ (forall i, (n <= i)%nat -> nth i b 0 = nth i bs 0) /\
     (forall i, (i < n)%nat ->
       (forall j, partner Ks mu (nth i bs 0) h j -> nth i b 0 = (RtoC sn * nth i bs 0 - nth j mu 0) / RtoC sd) /\
       (lonely Ks mu (nth i bs 0) h -> nth i b 0 = nth i bs 0)) /\
     (ds <> DS_RESIDUES -> ds <> DS_BOTH -> rv1 = rv) /\
     (ds = DS_RESIDUES \/ ds = DS_BOTH -> forall r s, rv = Some r -> sub = Some s -> exists r1 s1, rv1 = Some r1 /\ sub1 = Some s1 /\
        length r1 = length r /\ length s1 = length s /\ (forall i, (i < K)%nat -> nth i r1 0 = nth i r 0) /\ (forall i, (n <= i)%nat -> nth (K + i) r1 0 = nth (K + i) r 0) /\
        (forall j, (j < Ks)%nat -> nth j s1 0 = nth j s 0) /\ (forall j, (j < Ks)%nat -> ~ shares n Ks bs mu h j -> nth (Ks + j) s1 0 = nth (Ks + j) s 0) /\
        (forall i, (i < n)%nat ->
          (lonely Ks mu (nth i bs 0) h -> nth (K + i) r1 0 = nth (K + i) r 0) /\
          (forall j, partner Ks mu (nth i bs 0) h j -> ~ shares i Ks bs mu h j ->
          nth (K + i) r1 0 = nth i r 0 / ((RtoC sn * (nth i r 0 / nth (K + i) r 0) - nth j s 0 / nth (Ks + j) s 0) / RtoC sd))))).
  assert (HP : P (0 + K)%nat (bs', rv', sub')).
  { revert H. apply (for_succ P).
    - unfold P. split; [reflexivity|]. split; [reflexivity|]. split; [intros i Hi; lia|]. split; [reflexivity|].
      intros _ r s -> ->. exists r, s. repeat split; auto; intros; lia.
    - intros k [[b rv1] sub1] st' Hk (P1 & P2 & P3 & P4 & P5) Hs. inv_bind Hs. destruct (aget_val _ _ (RtoC 0) _ Hx) as [Ex Lk]. rewrite (P2 k (le_n k)) in Ex. subst x. clear Hx.
      inv_bind Hs. destruct (find_loc_spec _ _ _ _ _ Hx) as [(Hl & Hpart)|(-> & Hlone)]; clear Hx.
      + destruct (Nat.ltb_spec x Ks) as [_|]; [|lia]. inv_bind Hs. destruct (aget_val _ _ (RtoC 0) _ Hx) as [Ex _]. subst x0. clear Hx.
        inv_bind Hs. unfold cdivr in Hx at 1. destruct (Req_EM_T sd 0) as [|Hsd]; [discriminate|]. injection Hx as Ex0. symmetry in Ex0.
        inv_bind Hs. destruct (aset_val _ _ _ _ Hx) as [-> _]. clear Hx.
        assert (B1 : length (upd b k x0) = length bs) by now rewrite upd_length.
        assert (B2 : forall i, (S k <= i)%nat -> nth i (upd b k x0) 0 = nth i bs 0).
        { intros i Hi. rewrite nth_upd by lia. destruct (Nat.eqb_spec i k); [lia|]. apply P2. lia. }
        assert (B3 : forall i, (i < S k)%nat -> (forall j, partner Ks mu (nth i bs 0) h j -> nth i (upd b k x0) 0 = (RtoC sn * nth i bs 0 - nth j mu 0) / RtoC sd) /\
           (lonely Ks mu (nth i bs 0) h -> nth i (upd b k x0) 0 = nth i bs 0)).
        { intros i Hi. rewrite nth_upd by lia. destruct (Nat.eqb_spec i k) as [->|Ni]; [|apply P3; lia]. split.
          - intros j Hj. rewrite (partner_unique _ _ _ _ _ _ Hj Hpart). exact Ex0.
          - intros HL. exfalso. specialize (HL x Hl). pose proof (pa_near _ _ _ _ _ Hpart). lra. }
        assert (Hplain : ds <> DS_RESIDUES -> ds <> DS_BOTH -> P (S k) (upd b k x0, rv1, sub1)).
        { intros N1 N2. split; [exact B1|]. split; [exact B2|]. split; [exact B3|]. split; [intros; now apply P4|]. intros [HH|HH]; contradiction. }
        set (b' := upd b k x0) in *.
        assert (Hmain : ds = DS_RESIDUES \/ ds = DS_BOTH -> (rv0 <- deref rv1;; sub0 <- deref sub1;;
           x1 <- aget rv0 k;; y <- aget rv0 (K + k);; rv2 <- aset rv0 (K + k) (x1 / y);;
           x2 <- aget sub0 x;; y0 <- aget sub0 (Ks + x);; sub2 <- aset sub0 (Ks + x) (x2 / y0);;
           x3 <- aget rv2 (K + k);; y1 <- aget sub2 (x + Ks);; z <- cdivr (RtoC sn * x3 - y1) sd;;
           rv3 <- aset rv2 (K + k) z;; x4 <- aget rv3 k;; y2 <- aget rv3 (K + k);; rv4 <- aset rv3 (K + k) (x4 / y2);; Ret (b', Some rv4, Some sub2)) = Ret st' -> P (S k) st').
        { intros Hc HH. repeat (inv_bind HH). injection HH as <-.
          split; [exact B1|]. split; [exact B2|]. split; [exact B3|]. split; [intros N1 N2; destruct Hc; contradiction|].
          intros _ r s Er Es. destruct (P5 Hc r s Er Es) as (r1 & s1 & -> & -> & Q1 & Q2 & Q3 & Q4 & Q5 & Q6 & Q7).
          cbn [deref] in Hx, Hx0. injection Hx as <-. injection Hx0 as <-.
          repeat match goal with Hy : aset _ _ _ = Ret _ |- _ => apply aset_val in Hy; destruct Hy as [-> ?] end.
          repeat match goal with Hy : aget _ _ = Ret _ |- _ => apply (aget_val _ _ (RtoC 0)) in Hy; destruct Hy as [<- ?] end.
          unfold cdivr in *. destruct (Req_EM_T sd 0) as [|_]; [contradiction|].
          repeat match goal with Hy : Ret _ = Ret _ |- _ => injection Hy as <- end.
          rewrite ?upd_length in *.
          match goal with |- exists r0 s0, Some ?A = _ /\ Some ?B = _ /\ _ => set (R4 := A); set (S4 := B) end.
          set (V := nth k r1 0 / ((RtoC sn * (nth k r1 0 / nth (K + k) r1 0) - nth x s1 0 / nth (Ks + x) s1 0) / RtoC sd)).
          assert (VR : forall i, nth i R4 0 = if Nat.eqb i (K + k) then V else nth i r1 0).
          { intros i. unfold R4, V. repeat (rewrite nth_upd by (rewrite ?upd_length; lia)). rewrite Nat.eqb_refl, (Nat.add_comm x Ks), Nat.eqb_refl.
            destruct (Nat.eqb_spec i (K + k)); [|reflexivity]. destruct (Nat.eqb_spec k (K + k)); [lia|]. reflexivity. }
          assert (VS : forall j, nth j S4 0 = if Nat.eqb j (Ks + x) then nth x s1 0 / nth (Ks + x) s1 0 else nth j s1 0).
          { intros j. unfold S4. rewrite nth_upd by lia. reflexivity. }
          exists R4, S4. split; [reflexivity|]. split; [reflexivity|]. split; [unfold R4; rewrite !upd_length; exact Q1|]. split; [unfold S4; rewrite !upd_length; exact Q2|].
          clearbody R4 S4. split; [intros i Hi; rewrite VR; destruct (Nat.eqb_spec i (K + k)); [lia|now apply Q3]|].
          split; [intros i Hi; rewrite VR; destruct (Nat.eqb_spec (K + i) (K + k)); [lia|apply Q4; lia]|].
          split; [intros j Hj; rewrite VS; destruct (Nat.eqb_spec j (Ks + x)); [lia|now apply Q5]|].
          assert (Hmono : forall j, shares k Ks bs mu h j -> shares (S k) Ks bs mu h j) by (intros j (k0 & Hk0 & Hp0); exists k0; split; [lia|exact Hp0]).
          split. { intros j Hj Hn. rewrite VS. destruct (Nat.eqb_spec (Ks + j) (Ks + x)) as [Ej|_].
            - exfalso. apply Hn. exists k. split; [lia|]. replace j with x by lia. exact Hpart.
            - apply Q6; [exact Hj|]. intros Hsh. apply Hn. now apply Hmono. }
          intros i Hi. rewrite VR. destruct (Nat.eqb_spec (K + i) (K + k)) as [Ei|Ni]; [|apply Q7; lia].
          assert (i = k) by lia. subst i. split.
          - intros HL. exfalso. specialize (HL x Hl). pose proof (pa_near _ _ _ _ _ Hpart). lra.
          - intros j Hj Hn. pose proof (partner_unique _ _ _ _ _ _ Hj Hpart). subst j. unfold V. rewrite (Q3 k) by lia. rewrite (Q4 k) by lia. rewrite (Q5 x Hl), (Q6 x Hl Hn). reflexivity. }
        destruct ds; try (apply Hmain; auto; fail); (injection Hs as <-; apply Hplain; discriminate).
      + destruct (Nat.ltb_spec Ks Ks) as [|_]; [lia|]. injection Hs as <-. split; [exact P1|]. split; [intros i Hi; apply P2; lia|].
        assert (Hno : forall j, ~ partner Ks mu (nth k bs 0) h j) by (intros j Hj; pose proof (pa_near _ _ _ _ _ Hj); specialize (Hlone j (pa_range _ _ _ _ _ Hj)); lra).
        split. { intros i Hi. destruct (Nat.eq_dec i k) as [->|Ni]; [|apply P3; lia]. split; [intros j Hj; exfalso; now apply (Hno j)|]. intros _. apply P2. lia. }
        split; [exact P4|]. intros Hc r s Er Es. destruct (P5 Hc r s Er Es) as (r1 & s1 & -> & -> & Q1 & Q2 & Q3 & Q4 & Q5 & Q6 & Q7).
        exists r1, s1. do 5 (split; [first [reflexivity|assumption]|]). split; [intros i Hi; apply Q4; lia|]. split; [exact Q5|].
        split. { intros j Hj Hn. apply Q6; [exact Hj|]. intros (k0 & Hk0 & Hp0). apply Hn. exists k0. split; [lia|exact Hp0]. }
        intros i Hi. destruct (Nat.eq_dec i k) as [->|Ni]; [|apply Q7; lia]. split; [intros _; apply Q4; lia|]. intros j Hj. exfalso. now apply (Hno j). }
  unfold P in HP. cbn [Nat.add] in HP. destruct HP as (P1 & P2 & P3 & P4 & P5). split; [exact P1|]. split; [exact P2|]. split; [exact P3|]. split; [exact P4|].
  intros Hc r s Er Es. destruct (P5 Hc r s Er Es) as (r1 & s1 & -> & _ & Q1 & Q2 & Q3 & Q4 & Q5 & Q6 & Q7). exists r1. split; [reflexivity|]. split; [exact Q1|].
  intros i Hi. split; [now apply Q3|]. apply Q7. exact Hi.
Qed.

(** ** The whole call *)
Lemma set_rflag_bsloc o n x : set_bsloc (set_rflag o n) x = set_rflag (set_bsloc o x) n.
Proof. reflexivity. Qed.
Lemma set_bsloc_same o : set_bsloc o (bound_state_localization o) = o.
Proof. destruct o; reflexivity. Qed.

(** a successful call with the extrapolation is a successful call without it, then the extrapolation step *)
Lemma run_rich E D q T M XI kappa o u o' u' : pre_codes E ->
  nsev_run E D (Some q) (Some T) M XI kappa o u = Ret (SUCCESS, (o', u')) ->
  richardson_extrapolation_flag o = 1%nat -> discspec_type o <> DS_RESIDUES ->
  exists h u1 live, step (snd T - fst T) D = Ret h /\
    nsev_run E D (Some q) (Some T) M XI kappa (set_rflag o 0) u = Ret (SUCCESS, (set_rflag o 0, u1)) /\
    nsev_richardson E D q T M XI kappa h (nse_upsampling_factor (discretization o)) (discspec_type o) live None o u1 = Ret (SUCCESS, (o', u')).
Proof.
  intros HE H Hr Hd. unfold nsev_run in H |- *. cbv zeta in H |- *. destruct (args_bad D _ _ _ _ _); [discriminate|].
  change (discretization (set_rflag o 0)) with (discretization o). change (bound_state_localization (set_rflag o 0)) with (bound_state_localization o).
  change (o_Dsub (set_rflag o 0)) with (o_Dsub o). change (discspec_type (set_rflag o 0)) with (discspec_type o).
  change (Nat.eqb (richardson_extrapolation_flag (set_rflag o 0)) 1) with false.
  destruct (disc_class (discretization o)) as [fast|]; [|discriminate]. destruct (_ && _) in H |- *; [discriminate|].
  destruct (Nat.eqb (nse_upsampling_factor (discretization o)) 0); [discriminate|]. cbn [deref bind] in H |- *. inv_bind H. rename x into h. rewrite Hx. cbn [bind].
  rewrite Hr in H. change (Nat.eqb 1 1) with true in H.
  assert (Hres : match discspec_type o with DS_RESIDUES => true | _ => false end = false) by (destruct (discspec_type o); congruence).
  rewrite Hres in *. cbn [andb bind] in H |- *. inv_bind H.
  change (discretization (set_rflag o 0)) with (discretization o). change (bound_state_localization (set_rflag o 0)) with (bound_state_localization o).
  change (o_Dsub (set_rflag o 0)) with (o_Dsub o). rewrite Hx0. cbn [bind].
  destruct x as [c|p]. { exfalso. inv_bind H. injection H as Hc _ _. eapply E_SUB_nonzero; [eapply HE; exact Hx0|exact Hx1|exact Hc]. }
  destruct (_ && _) eqn:Eloc in H |- *.
  - assert (El : bound_state_localization o = BL_SUBSAMPLE_AND_REFINE) by (apply andb_true_iff in Eloc; destruct Eloc as [_ Eloc]; destruct (bound_state_localization o); congruence).
    inv_bind H. rewrite Hx1. cbn [bind]. inv_bind H. rewrite Hx2. cbn [bind].
    destruct x0 as [c|ps]. { exfalso. inv_bind H. injection H as Hc _ _. eapply E_SUB_nonzero; [eapply HE; exact Hx2|exact Hx3|exact Hc]. }
    inv_bind H. rewrite set_rflag_bsloc, base_rflag, Hx3. cbn [bind]. destruct x0 as [c1 v1]. apply check_success in H. destruct H as [-> H]. unfold check at 1. cbn [Z.eqb negb].
    inv_bind H. rewrite set_rflag_bsloc, base_rflag, Hx4. cbn [bind]. destruct x0 as [c2 v2]. apply check_success in H. destruct H as [-> H]. unfold check at 1. cbn [Z.eqb negb].
    rewrite !set_bsloc_twice, <- El, set_bsloc_same in H.
    exists h, v2, true. split; [reflexivity|]. split; [|exact H].
    rewrite set_bsloc_twice, <- El. rewrite <- (set_bsloc_same (set_rflag o 0)). reflexivity.
  - inv_bind H. rewrite base_rflag, Hx1. cbn [bind]. destruct x as [c1 v1]. apply check_success in H. destruct H as [-> H]. 
    exists h, v1, false. split; [reflexivity|]. split; [reflexivity|exact H].
Qed.

Lemma copy_length' n : forall off (src dst l : list C), copy n off src dst = Ret l -> length l = length dst.
Proof.
  induction n as [|n IH]; intros off src dst l H; [injection H as <-; reflexivity|]. unfold copy in H. apply for_last in H. destruct H as (s1 & E1 & E2).
  inv_bind E2. apply aset_val in E2. destruct E2 as [-> _]. rewrite upd_length. exact (IH _ _ _ _ E1).
Qed.
Lemma copy_src n : forall off (src dst l : list C), copy n off src dst = Ret l -> (n <= length src)%nat.
Proof.
  destruct n as [|n]; intros off src dst l H; [lia|]. unfold copy in H. apply for_last in H. destruct H as (s1 & E1 & E2).
  inv_bind E2. apply (aget_val _ _ (RtoC 0)) in Hx. cbn [Nat.add] in Hx. lia.
Qed.
Lemma nth_firstn_C n : forall i (l : list C), (i < n)%nat -> nth i (firstn n l) 0 = nth i l 0.
Proof. induction n as [|n IH]; intros i [|x l] Hi; try lia; [destruct i; reflexivity|]. destruct i as [|i]; [reflexivity|]. cbn. apply IH. lia. Qed.

(** A successful call with Richardson extrapolation: u1 is the result of the same call without it, and v that of the
   second run: every nskip-th sample, Newton's method started at the bound states of u1 (about half the samples). *)
Theorem nsev_richardson_discspec E D q T M XI o dflt u u' user' dflt' bs K0 : env_ok E -> pre_codes E ->
  safe_call E D (Some q) (Some T) M XI 1 o u ->
  richardson_extrapolation_flag o = 1%nat -> discspec_type o <> DS_RESIDUES -> u_bs u = Some bs -> u_K u = Some K0 ->
  fnft_nsev E D (Some q) (Some T) M XI 1 (Some o) dflt u = Ret (SUCCESS, u', user', dflt') ->
  let h := ((snd T - fst T) / INR (D - 1))%R in
  exists u1 K bs1 bs', fnft_nsev E D (Some q) (Some T) M XI 1 (Some (set_rflag o 0)) dflt u = Ret (SUCCESS, u1, Some (set_rflag o 0), dflt) /\
  u_K u1 = Some K /\ u_bs u1 = Some bs1 /\ u_K u' = Some K /\ u_bs u' = Some bs' /\ length bs' = length bs1 /\
  (K = O -> bs' = bs1 /\ u_nc u' = u_nc u1) /\
  (K <> O -> exists nskip m p w v K2 bs2, downsample_sizes D (D / 2) = Ret (nskip, m) /\ (2 <= nskip)%nat /\
    e_pre E 2 D q h 1 (D / 2) (discretization o) = Ret (inr p) /\
    u_K w = Some K /\ u_bs w = Some (firstn K bs1) /\
    fnft_nsev_base E 2 (m * nse_upsampling_factor (discretization o)) (po_q p) (po_r p) (fst T + INR 0 * h, fst T + INR ((m - 1) * nskip) * h)%R M XI 1
      (set_bsloc o BL_NEWTON) w = Ret (SUCCESS, v) /\ u_K v = Some K2 /\ u_bs v = Some bs2 /\
    let extra := extrapolate h (INR nskip * h) (nse_method_order (discretization o)) in
    (forall i, (K <= i)%nat -> nth i bs' 0 = nth i bs1 0) /\
    (forall i, (i < K)%nat -> (forall j, partner K2 bs2 (nth i bs1 0) h j -> nth i bs' 0 = extra (nth i bs1 0) (nth j bs2 0)) /\
       (lonely K2 bs2 (nth i bs1 0) h -> nth i bs' 0 = nth i bs1 0)) /\
    (discspec_type o = DS_NORMING_CONSTANTS -> u_nc u' = u_nc u1) /\
    (discspec_type o = DS_BOTH -> forall nc1 nc2, u_nc u1 = Some nc1 -> u_nc v = Some nc2 -> exists nc', u_nc u' = Some nc' /\ length nc' = length nc1 /\
       forall i, (i < K)%nat -> nth i nc' 0 = nth i nc1 0 /\
         (lonely K2 bs2 (nth i bs1 0) h -> nth (K + i) nc' 0 = nth (K + i) nc1 0) /\
         (forall j, partner K2 bs2 (nth i bs1 0) h j -> ~ shares i K2 bs1 bs2 h j ->
            nth (K + i) nc' 0 = nth i nc1 0 / extra (nth i nc1 0 / nth (K + i) nc1 0) (nth j nc2 0 / nth (K2 + j) nc2 0)))).
Proof.
  intros HE Hpc HS Hr Hd Eb EK H h. unfold fnft_nsev in H. inv_bind H. destruct x as [c [o1 u1']]. injection H as -> -> _ _.
  destruct (run_rich _ _ _ _ _ _ _ _ _ _ _ Hpc Hx Hr Hd) as (h' & u1 & live & Hst & Hplain & Hrich).
  destruct HS as [HV Hlen Hsz HR HM1 HDs Hrc]. destruct HV as [V1 V2 V3 V4 V5 V6 V7 V8]. destruct (Hrc Hr) as (HD3 & _).
  specialize (Hlen q eq_refl). destruct V3 as (t0 & t1 & ET & HT). injection ET as ->. cbn [fst snd] in *.
  rewrite step_ok in Hst by exact V1. injection Hst as Eh'. fold h in Eh'. subst h'.
  assert (Hep : (0 < h)%R) by (apply step_pos; [lra|exact V1]).
  destruct (run_last _ _ _ _ _ _ _ _ _ _ _ _ Hpc Hplain ltac:(cbn; discriminate) Eb EK) as (h0 & p0 & o2 & u2 & bs0 & K00 & _ & _ & Hbase & Eb2 & EK2 & _).
  destruct (base_bs _ _ _ _ _ _ _ _ _ _ _ _ _ Hbase Eb2 EK2) as (dg & tm & x & K & bs1 & _ & _ & Eb1 & EK1 & _). clear Hbase Eb2 EK2 dg tm x p0 o2 u2 bs0 K00 h0.
  unfold nsev_richardson in Hrich. cbv zeta in Hrich. rewrite Eb1, EK1 in Hrich. cbn [no_ptr negb deref andb] in Hrich.
  change ((1 =? 1)%Z) with true in Hrich. cbn [andb bind] in Hrich.
  set (wc := negb (no_ptr (u_cs u1)) && (0 <? M)%nat) in *.
  destruct (wc && _) in Hrich; [discriminate|]. destruct (wc && _) in Hrich; [discriminate|].
  assert (Hcall : fnft_nsev E D (Some q) (Some (t0, t1)) M XI 1 (Some (set_rflag o 0)) dflt u = Ret (SUCCESS, u1, Some (set_rflag o 0), dflt)).
  { unfold fnft_nsev. rewrite Hplain. reflexivity. }
  assert (Hcs : forall XI' B es sn sd sub u3, match u_cs u1 with
       | Some cs => if (0 <? M)%nat then sub0 <- deref sub;; cs0 <- richardson_cs M B XI' es sn sd sub0 cs;; Ret (set_cs u1 (Some cs0)) else Ret u1
       | None => Ret u1 end = Ret u3 -> u_bs u3 = Some bs1 /\ u_K u3 = Some K /\ u_nc u3 = u_nc u1).
  { intros XI' B es sn sd sub u3 HH. destruct (u_cs u1); [|injection HH as <-; auto]. destruct (0 <? M)%nat; [|injection HH as <-; auto].
    inv_bind HH. inv_bind HH. injection HH as <-. cbn. auto. }
  destruct (k_pre E HE 2 D q h 1 (D / 2) (discretization o) V1 Hlen Hep) as (p & Ep & Hp).
  destruct (Nat.eqb_spec K 0) as [EK0|NK0]; cbn [negb andb bind] in Hrich.
  - destruct (Nat.eqb (nse_method_order (discretization o)) 0); [discriminate|]. rewrite Ep in Hrich. cbn [bind] in Hrich.
    destruct p as [c|p]; [destruct live; [discriminate|]; exfalso; inv_bind Hrich; injection Hrich as Hc _ _; eapply E_SUB_nonzero; [apply Hp|eassumption|exact Hc]|].
    inv_bind Hrich. inv_bind Hrich. destruct x0 as [c v].
    destruct (Z.eqb_spec c SUCCESS) as [->|Nc]; cbn [negb] in Hrich; [|exfalso; inv_bind Hrich; injection Hrich as Hc _ _; eapply E_SUB_nonzero; [exact Nc|eassumption|exact Hc]].
    inv_bind Hrich. inv_bind Hrich. injection Hrich as _ <-. destruct (Hcs _ _ _ _ _ _ _ Hx3) as (A1 & A2 & A3).
    exists u1, K, bs1, bs1. split; [exact Hcall|]. repeat (split; [assumption || reflexivity|]). split; [auto|]. intros HH. contradiction.
  - destruct (match discspec_type o with DS_bad => true | _ => false end); [discriminate|]. destruct (_ || _) in Hrich; [discriminate|].
    inv_bind Hrich. inv_bind Hx0. injection Hx0 as <-. rename x0 into bsub.
    destruct (Nat.eqb_spec (nse_method_order (discretization o)) 0) as [|Hord]; [discriminate|]. rewrite Ep in Hrich. cbn [bind] in Hrich.
    destruct p as [c|p]; [destruct live; [discriminate|]; exfalso; inv_bind Hrich; injection Hrich as Hc _ _; eapply E_SUB_nonzero; [apply Hp|eassumption|exact Hc]|].
    destruct Hp as (nskip & Es & Pf & Pl & Lpq & Lpr). destruct (half_sizes D HD3) as (ns & m & Es' & Hns & Hm). rewrite Es in Es'. injection Es' as <- Em. rewrite Em, Pf, Pl in *. cbn [fst snd] in Hrich.
    inv_bind Hrich. rename x into es. inv_bind Hrich. destruct x as [c v].
    destruct (Z.eqb_spec c SUCCESS) as [->|Nc]; cbn [negb] in Hrich; [|exfalso; inv_bind Hrich; injection Hrich as Hc _ _; eapply E_SUB_nonzero; [exact Nc|eassumption|exact Hc]].
    inv_bind Hrich. inv_bind Hrich. rename x0 into u3. destruct (Hcs _ _ _ _ _ _ _ Hx4) as (A1 & A2 & A3).
    assert (Hmm : (1 <= INR (m - 1))%R) by (apply (le_INR 1); lia). assert (Hnn : (2 <= INR nskip)%R) by (apply (le_INR 2); exact Hns).
    assert (Hes : es = (INR nskip * h)%R). { rewrite step_ok in Hx0 by lia. injection Hx0 as <-. rewrite mult_INR. simpl (INR 0). field. lra. }
    rewrite Hes in *.
    inv_bind Hrich. rename x0 into K2.
    set (w := {| u_cs := _; u_K := Some K; u_bs := Some bsub; u_nc := _ |}) in *.
    destruct (base_bs _ _ _ _ _ _ _ _ _ _ _ bsub K Hx2 eq_refl eq_refl) as (_ & _ & _ & K2' & bs2 & _ & _ & Ebv & EKv & _).
    assert (Ebs : bsub = firstn K bs1).
    { destruct (copy_val _ _ _ _ _ Hx1) as [C1 _]. pose proof (copy_length' _ _ _ _ _ Hx1) as L1. rewrite (k_junk E HE) in L1.
      apply (nth_ext _ _ (RtoC 0) (RtoC 0)); [rewrite firstn_length_le; [exact L1|exact (copy_src _ _ _ _ _ Hx1)]|].
      intros i Hi. rewrite nth_firstn_C by lia. exact (C1 i ltac:(lia)). }
    rewrite EKv in Hx5. cbn [deref] in Hx5. injection Hx5 as ->.
    assert (Hpar : forall bs' (Q : Prop), Q -> u_bs u' = Some bs' -> True) by auto. clear Hpar.
    destruct (Nat.eqb_spec K2 0) as [EK20|NK20].
    + injection Hrich as _ <-. exists u1, K, bs1, bs1. split; [exact Hcall|]. repeat (split; [assumption || reflexivity|]). split; [intros HH; contradiction|]. intros _.
      exists nskip, m, p, w, v, K2, bs2. do 8 (split; [first [assumption | reflexivity | exact (f_equal Some Ebs)]|]). cbv zeta.
      subst K2. assert (Hno : forall lam j, ~ partner 0 bs2 lam h j) by (intros lam j [G _ _ _]; lia).
      split; [reflexivity|]. split; [intros i Hi; split; [intros j Hj; exfalso; now apply (Hno _ j Hj)|auto]|]. split; [auto|].
      intros _ nc1 nc2 E1 E2. exists nc1. split; [congruence|]. split; [reflexivity|]. intros i Hi. split; [reflexivity|]. split; [auto|]. intros j Hj. exfalso. now apply (Hno _ j Hj).
    + rewrite A1, Ebv in Hrich. cbn [deref bind] in Hrich. inv_bind Hrich. destruct x0 as [[bs' rv'] sub'].
      destruct (richardson_bs_spec _ _ _ _ _ _ _ _ _ _ _ _ _ Hx5) as (R1 & R2 & R3 & R4 & R5).
      assert (Hout : u_bs u' = Some bs' /\ u_K u' = Some K).
      { destruct (discspec_type o); try (injection Hrich as _ <-; cbn; auto; fail); repeat (inv_bind Hrich); injection Hrich as _ <-; cbn; auto. }
      exists u1, K, bs1, bs'. split; [exact Hcall|]. destruct Hout as [Eb' EK']. repeat (split; [assumption || reflexivity|]). split; [intros HH; contradiction|]. intros _.
      exists nskip, m, p, w, v, K2, bs2. do 8 (split; [first [assumption | reflexivity | exact (f_equal Some Ebs)]|]). cbv zeta.
      split; [exact R2|]. split; [exact R3|]. split.
      * intros En. rewrite En in *. injection Hrich as _ <-. cbn. rewrite R4 by discriminate. exact A3.
      * intros EB nc1 nc2 E1 E2. rewrite EB in *. destruct (R5 (or_intror eq_refl) nc1 nc2) as (r' & -> & Lr & Hr'); [congruence|exact E2|].
        cbn [deref bind set_bs u_nc] in Hrich. rewrite A3, E1 in Hrich. cbn [deref bind] in Hrich. inv_bind Hrich. injection Hrich as _ <-.
        destruct (copy_val _ _ _ _ _ Hx6) as [C1 C2]. exists x0. split; [reflexivity|]. split; [exact (copy_length' _ _ _ _ _ Hx6)|].
        intros i Hi. pose proof (C1 i ltac:(lia)) as Ci. pose proof (C1 (K + i)%nat ltac:(lia)) as CKi. cbn [Nat.add] in Ci, CKi. rewrite Ci, CKi. exact (Hr' i Hi).
Qed.

(** Both approximations of a bound state have the leading error term only: the extrapolated bound state is exact. *)
Corollary nsev_richardson_bound_state_exact E D q T M XI o dflt u u' user' dflt' bs K0 (exact err : C) i : env_ok E -> pre_codes E ->
  safe_call E D (Some q) (Some T) M XI 1 o u ->
  richardson_extrapolation_flag o = 1%nat -> discspec_type o <> DS_RESIDUES -> u_bs u = Some bs -> u_K u = Some K0 ->
  fnft_nsev E D (Some q) (Some T) M XI 1 (Some o) dflt u = Ret (SUCCESS, u', user', dflt') ->
  let h := ((snd T - fst T) / INR (D - 1))%R in
  let p := nse_method_order (discretization o) in
  (forall u1 o1 d1 bs1, fnft_nsev E D (Some q) (Some T) M XI 1 (Some (set_rflag o 0)) dflt u = Ret (SUCCESS, u1, o1, d1) -> u_bs u1 = Some bs1 ->
     nth i bs1 0 = error_term exact err h p) ->
  (forall D' qq rr T' w v K2 bs2, fnft_nsev_base E 2 D' qq rr T' M XI 1 (set_bsloc o BL_NEWTON) w = Ret (SUCCESS, v) -> u_K v = Some K2 -> u_bs v = Some bs2 ->
     exists j, partner K2 bs2 (error_term exact err h p) h j /\
       nth j bs2 0 = error_term exact err ((snd T' - fst T') / INR (D' / nse_upsampling_factor (discretization o) - 1))%R p) ->
  exists K bs', u_K u' = Some K /\ u_bs u' = Some bs' /\ ((i < K)%nat -> nth i bs' 0 = exact).
Proof.
  intros HE Hpc HS Hr Hd Eb EK H h p H1 H2.
  destruct (nsev_richardson_discspec E D q T M XI o dflt u u' user' dflt' bs K0 HE Hpc HS Hr Hd Eb EK H) as (u1 & K & bs1 & bs' & Hc & EK1 & Eb1 & EK' & Eb' & _ & _ & HK).
  exists K, bs'. split; [exact EK'|]. split; [exact Eb'|]. intros Hi.
  destruct (HK ltac:(lia)) as (nskip & m & pp & w & v & K2 & bs2 & Es & Hns & Ep & _ & _ & Hb & EKv & Ebv & HH). cbv zeta in HH. destruct HH as (_ & HH & _). fold h in Hb, HH.
  specialize (H1 u1 _ _ bs1 Hc Eb1). destruct (H2 _ _ _ _ _ _ _ _ Hb EKv Ebv) as (j & Hj & Ej). rewrite <- H1 in Hj.
  destruct HS as [HV Hlen _ _ _ _ Hrc]. destruct HV as [V1 _ V3 _ _ _ V7 _]. destruct (Hrc Hr) as (HD3 & _). destruct V3 as (t0 & t1 & ET & HT). injection ET as ->.
  assert (Hep : (0 < h)%R) by (apply step_pos; [cbn [fst snd]; lra|exact V1]).
  destruct (HH i Hi) as [G _]. rewrite (G j Hj), Ej, H1.
  pose proof (known_ups _ V7) as Hu. destruct (half_sizes D HD3) as (ns & m' & Es' & _ & Hm). rewrite Es in Es'. injection Es' as <- <-.
  assert (Hmm : (1 <= INR (m - 1))%R) by (apply (le_INR 1); lia). assert (Hnn : (2 <= INR nskip)%R) by (apply (le_INR 2); exact Hns).
  rewrite Nat.div_mul by exact Hu. cbn [fst snd].
  replace ((t0 + INR ((m - 1) * nskip) * h - (t0 + INR 0 * h)) / INR (m - 1))%R with (INR nskip * h)%R by (rewrite mult_INR; simpl (INR 0); field; lra).
  apply extrapolate_exact; [exact Hep|nra|exact (order_pos _ V7)].
Qed.

(** ** The residue is not extrapolated correctly if two bound states have the same partner *)
Definition E4 : env := const_env no_fail SUCCESS (0, 1)%R 1 2 1.
Lemma E4_ok : env_ok E4.
Proof. apply const_env_ok; [codes|discriminate]. Qed.
Definition twice : outs := {| u_cs := None; u_K := Some 2%nat; u_bs := Some [(0, 1)%R; (0, 1)%R]; u_nc := Some (repeat (RtoC 0) 4) |}.
Lemma safe_twice : safe_call E4 3 (Some (qs 3)) T01 0 T01 1 rich_both twice.
Proof.
  constructor.
  - valid_call.
  - intros l Hl. injection Hl as <-. reflexivity.
  - cbn. lia.
  - room_ok.
  - discriminate.
  - cbn. lia.
  - intros _. split; [lia|]. split; [discriminate|]. split; [discriminate|]. intros _ _. split; [discriminate|]. split; [discriminate|]. discriminate.
Qed.
Lemma loc_twice : find_loc 2 (0, 1)%R [(0, 1)%R; (0, 1)%R] (1 / 2) = Ret 0%nat.
Proof.
  unfold find_loc. cbn -[Cmod Rdiv Cminus]. assert (Hm : Cmod (0, 1)%R = 1%R).
  { unfold Cmod. cbn. replace (0 * (0 * 1) + 1 * (1 * 1))%R with 1%R by ring. apply sqrt_1. }
  rewrite Hm. destruct (Req_EM_T 1 0); [lra|]. replace ((0, 1)%R - (0, 1)%R)%C with (RtoC 0) by ring.
  rewrite Cmod_0. destruct (Rlt_dec (0 / 1) (1 / 2)); [|exfalso; lra]. cbn [bind snd fst]. destruct (Req_EM_T 1 0); [lra|]. destruct (Rlt_dec (0 / 1) (0 / 1)); [exfalso; lra|]. reflexivity.
Qed.
Lemma bs_twice : exists s', richardson_bs 2 2 DS_BOTH (1 / 2) 4 3 [(0, 1)%R; (0, 1)%R] ([(0, 1)%R; (0, 1)%R], Some [RtoC 1; RtoC 1; 1 / 2; 1 / 2], Some [RtoC 1; RtoC 1; 1 / 2; 1 / 2])
  = Ret ([(0, 1)%R; (0, 1)%R], Some [RtoC 1; RtoC 1; RtoC (1 / 2); RtoC (2 / 5)], s').
Proof.
  assert (Hx : cdivr (RtoC 4 * (0, 1)%R - (0, 1)%R) 3 = Ret (0, 1)%R).
  { rewrite cdivr_ok by lra. f_equal. unfold Cdiv. rewrite <- RtoC_inv by lra. apply injective_projections; cbn; field. }
  unfold richardson_bs. cbn [for_ Nat.add]. cbn [aget nth_error bind]. rewrite loc_twice. cbn [bind Nat.ltb Nat.leb aget nth_error]. rewrite Hx. cbn [bind aset deref aget nth_error Nat.add].
  rewrite !cdivr_ok by lra. cbn [bind aset deref aget nth_error Nat.add].
  rewrite loc_twice. cbn [bind Nat.ltb Nat.leb aget nth_error]. rewrite Hx. cbn [bind aset deref aget nth_error Nat.add].
  rewrite !cdivr_ok by lra. cbn [bind aset deref aget nth_error Nat.add].
  eexists. f_equal. f_equal. f_equal. f_equal.
  assert (T2 : RtoC 1 / (1 / 2) = RtoC 2) by (rewrite <- !RtoC_div by lra; f_equal; field).
  rewrite !T2. rewrite <- RtoC_mult. rewrite <- (RtoC_div 1 2) by lra. rewrite <- !RtoC_minus. rewrite <- !RtoC_div by lra.
  replace (1 / ((4 * 2 - 2) / 3))%R with (1 / 2)%R by field. replace (1 / ((4 * 2 - 1 / 2) / 3))%R with (2 / 5)%R by field. reflexivity.
Qed.
(** A successful call in which the bound state i is given twice: the two results have the same bound state and the same
   norming constant, yet different residues. *)
Theorem nsev_shared_partner_residue_refuted : env_ok E4 /\ pre_codes E4 /\ safe_call E4 3 (Some (qs 3)) T01 0 T01 1 rich_both twice /\
  exists bs' nc' user', fnft_nsev E4 3 (Some (qs 3)) T01 0 T01 1 (Some rich_both) nsev_default_opts twice
   = Ret (SUCCESS, {| u_cs := None; u_K := Some 2%nat; u_bs := Some bs'; u_nc := Some nc' |}, user', nsev_default_opts) /\
  nth 0 bs' 0 = nth 1 bs' 0 /\ nth 0 nc' 0 = nth 1 nc' 0 /\ nth 2 nc' 0 = RtoC (1/2) /\ nth 3 nc' 0 = RtoC (2/5).
Proof.
  split; [apply E4_ok|]. split; [apply no_fail_pre_codes; discriminate|]. split; [apply safe_twice|].
  unfold fnft_nsev, nsev_run. match goal with |- context [args_bad ?a ?b ?c ?d ?e ?f] => assert (Ha : args_bad a b c d e f = false) by args_ok end.
  rewrite Ha. cbn -[fnft_nsev_base Rdiv Rminus Rplus Rmult INR richardson_bs].
  unfold fnft_nsev_base at 1. match goal with |- context [args_bad ?a ?b ?c ?d ?e ?f] => assert (Hb : args_bad a b c d e f = false) by args_ok end. rewrite Hb.
  assert (N2 : RtoC 2 <> 0) by (intros HH; apply (f_equal fst) in HH; cbn in HH; lra).
  cbn -[fnft_nsev_base Rdiv Rminus Rplus Rmult INR richardson_bs Cdiv Cmult residue_loop copy].
  unfold residue_loop at 1. cbn [aget nth_error bind]. rewrite ceq_ne by exact N2. 
  cbn -[fnft_nsev_base Rdiv Rminus Rplus Rmult INR richardson_bs Cdiv Cmult copy].
  cbn -[fnft_nsev_base Rdiv Rminus Rplus Rmult INR richardson_bs Cdiv Cmult].
  set (Tsub := (_, _)). assert (Hs : (fst Tsub < snd Tsub)%R) by (unfold Tsub; cbn [fst snd]; rewrite !S_INR; cbn [INR]; lra).
  unfold fnft_nsev_base. match goal with |- context [args_bad ?a ?b ?c ?d ?e ?f] => assert (Hc : args_bad a b c d e f = false) end.
  { apply (args_bad_spec _ _ _ _ _ plain). split; [lia|]. split; [discriminate|]. split; [exists (fst Tsub), (snd Tsub); destruct Tsub; auto|].
    split; [intros Hc; now contradiction Hc|]. split; [auto|]. split; [intros Hc; discriminate|reflexivity]. }
  rewrite Hc. cbn -[Rdiv Rminus Rplus Rmult INR richardson_bs Cdiv Cmult residue_loop copy Tsub].
  unfold residue_loop at 1. cbn [aget nth_error bind]. rewrite ceq_ne by exact N2. 
  cbn -[Rdiv Rminus Rplus Rmult INR richardson_bs Cdiv Cmult copy Tsub].
  cbn -[Rdiv Rminus Rplus Rmult INR richardson_bs Cdiv Cmult Tsub].
  match goal with |- context [richardson_bs 2 2 DS_BOTH ?h ?sn ?sd] => replace sd with 3%R by (rewrite !S_INR; cbn [INR]; field); replace sn with 4%R by (rewrite !S_INR; cbn [INR]; field); replace h with (1 / 2)%R by (rewrite !S_INR; cbn [INR]; field) end.
  destruct bs_twice as (s' & Es'). match goal with |- context [richardson_bs ?a ?b ?c ?d ?e ?f ?g ?h] => assert (EE : richardson_bs a b c d e f g h = Ret ([(0, 1)%R; (0, 1)%R], Some [RtoC 1; RtoC 1; RtoC (1 / 2); RtoC (2 / 5)], s')) by exact Es'; rewrite EE end. cbn [bind deref aget nth_error aset].
  eexists _, _, _. split; [reflexivity|]. auto.
Qed.
