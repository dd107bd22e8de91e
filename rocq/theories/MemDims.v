(** Proofs for C89 and C90: the plans of the events of all dimensions. *)
From Coq Require Import List Arith Bool Lia.
From Verif Require Import MemModel MemSpec MemProofs MemPlan.
Import ListNotations.
Unset Implicit Arguments.

Section Dims.
Variables (T V : Type) (N : numerics T V).
Notation heap := (heap T V).
Notation zero := (n_zero N).
Notation mul := (n_mul N).
Notation full := (full T V).
Notation step := (step T V).
Notation ptrs := (ptrs T).
Notation plan_at := (plan_at T V N).

Lemma put_eq : forall (h : heap) p b b', mem h p = Some b -> put p b' h = Some (tt, set_h h p b').
Proof. intros h p b b' E. unfold put. now rewrite E. Qed.
Lemma load_plan_eq : forall (h : heap) q p, mem h q = Some (Plan V p) -> load_plan q h = Some (p, h).
Proof. intros h q p E. unfold load_plan, load, bind. now rewrite E. Qed.
Lemma load_scheme_eq : forall (h : heap) q s, mem h q = Some (Scheme T V s) -> load_scheme q h = Some (s, h).
Proof. intros h q s E. unfold load_scheme, load, bind. now rewrite E. Qed.

Lemma create_plan_ok : forall (h : heap) sp s ws n vr angle fourth, sane h -> mem h sp = Some (Scheme T V s) ->
  mem h (s_weights s) = Some (full ws) -> length ws = s_npts s ->
  exists h' pp p, create_plan N sp n vr angle fourth h = Some (pp, h') /\ step h h' nothing (4 + angle_tables fourth) /\
    (forall a, In a (ptrs pp p) -> next h <= a) /\
    plan_at (map (mul (n_norm_scale N n (octants_of (s_volume s)))) ws) (octants_of (s_volume s)) (s_total s) fourth n h' pp p vr angle.
Proof.
  intros h sp s ws n vr angle fourth Sn Es Ew Hw. unfold create_plan. run (load_scheme_eq h sp s Es).
  set (p0 := Build_plan_s _ _ _ _ _ _ _ _ _ _ _ _ _). set (pp := next h). set (h1 := alloc_h h (Plan V p0)).
  assert (S1 : step h h1 nothing 1) by (apply step_alloc, Sn).
  assert (E1 : new_block (Plan V p0) h = Some (pp, h1)) by reflexivity. run E1.
  assert (M1 : mem h1 pp = Some (Plan V p0)) by (cbn; apply upd_same).
  assert (N1 : next h1 = S (next h)) by reflexivity. clearbody h1. clear E1.
  destruct (fill_ok T V h1 (s_npts s) ws (proj1 S1) Hw) as (E2 & E3 & S2 & M2 & N2).
  set (nm := next h1) in *. run E2. set (h1' := alloc_h h1 _) in *.
  assert (S1' : step h1 h1' nothing 1) by (apply step_alloc, S1).
  assert (Ew1 : mem h1 (s_weights s) = Some (full ws)) by (apply (step_mem _ _ _ _ _ _ _ _ S1 Sn Ew); auto).
  assert (R : read (s_weights s) 0 (s_npts s) h1' = Some (ws, h1')).
  { rewrite (read_full _ _ h1' (s_weights s) ws 0 (s_npts s)); [|apply (step_mem _ _ _ _ _ _ _ _ S1' (proj1 S1) Ew1); auto | lia].
    cbn [skipn]. rewrite firstn_all2 by lia. reflexivity. }
  run R. run E3. set (h2 := set_h h1' nm _) in *. clearbody h2. clear E2 E3 R S1' h1'.
  pose proof (scale_full _ _ N h2 nm ws 0 (s_npts s) (n_norm_scale N n (octants_of (s_volume s))) M2 ltac:(lia)) as E4.
  cbn [firstn app skipn Nat.add] in E4. rewrite (firstn_all2 ws) in E4 by lia. rewrite (skipn_all2 ws) in E4 by lia. rewrite app_nil_r in E4.
  run E4. set (nws := map _ ws) in *.
  pose proof (step_set _ _ h2 nm _ (full nws) (proj1 S2) M2) as S3. set (h3 := set_h h2 nm (full nws)) in *.
  assert (M3 : mem h3 nm = Some (full nws)) by (cbn; apply upd_same).
  assert (N3 : next h3 = S nm) by (cbn; lia). clearbody h3. clear E4.
  assert (M3p : mem h3 pp = Some (Plan V p0)).
  { apply (step_mem _ _ _ _ _ _ _ _ S3 (proj1 S2)); [apply (step_mem _ _ _ _ _ _ _ _ S2 (proj1 S1) M1); auto | unfold nm, pp; lia]. }
  set (p4 := Build_plan_s _ _ _ _ _ _ _ _ _ _ _ _ _).
  run (put_eq h3 pp _ (Plan V p4) M3p).
  pose proof (step_set _ _ h3 pp _ (Plan V p4) (proj1 S3) M3p) as S4. set (h4 := set_h h3 pp (Plan V p4)) in *.
  assert (M4 : mem h4 pp = Some (Plan V p4)) by (cbn; apply upd_same).
  assert (M4n : mem h4 nm = Some (full nws)) by (apply (step_mem _ _ _ _ _ _ _ _ S4 (proj1 S3) M3); unfold nm, pp; lia).
  clearbody h4.
  destruct (update_frequency_ok T V N h4 pp p4 vr (proj1 S4) M4) as (h5 & p5 & E5 & S5 & P5 & Q5).
  run E5. exists h5, pp, p5. split; [reflexivity|]. split; [|split].
  - eapply step_trans with (W1 := nothing) (W2 := fun a => next h <= a); [exact S1 | | auto | intros a Ha Hb; lia |].
    + eapply step_trans with (W1 := nothing) (W2 := fun a => next h <= a); [exact S2 | | intros a _ [] | auto |].
      * eapply step_trans with (W1 := eq nm) (W2 := fun a => next h <= a); [exact S3 | | intros a _ <-; unfold nm; lia | auto |].
        -- eapply step_trans with (W1 := eq pp) (W2 := eq pp); [exact S4 | exact S5 | | | reflexivity]; intros a _ <-; unfold pp; lia.
        -- reflexivity.
      * reflexivity.
    + reflexivity.
  - intros a I. destruct (P5 a I) as [->|[H|H]]; [unfold pp; lia | cbn in H; injection H as <-; unfold nm; lia |].
    destruct S1 as (_ & ? & _), S2 as (_ & ? & _), S3 as (_ & ? & _), S4 as (_ & ? & _). lia.
  - apply (Q5 nws (octants_of (s_volume s)) (s_total s)).
    + reflexivity.
    + reflexivity.
    + exists nm. split; [reflexivity | exact M4n].
    + cbn. intros E. injection E as E. unfold nm, pp in E. lia.
Qed.

Lemma set_event_ok : forall ws octants total fourth n (h : heap) pp p vr0 angle0 vr angle, sane h ->
  plan_at ws octants total fourth n h pp p vr0 angle0 -> vr = vr0 \/ angle = angle0 ->
  exists h' q p', set_event N vr angle pp h = Some (Some q, h') /\
    step h h' nothing (event_plan_blocks N fourth (vr0, angle0) (vr, angle)) /\
    (forall a, In a (ptrs q p') -> In a (ptrs pp p) \/ next h <= a) /\
    plan_at ws octants total fourth n h' q p' vr angle.
Proof.
  intros ws octants total fourth n h pp p vr0 angle0 vr angle Sn PA Or.
  pose proof PA as (E & En & Ev & Ea & Ef & Es & Eo & H1 & H2 & H3 & H4 & H5 & H6).
  unfold set_event. run (load_plan_eq h pp p E). rewrite Ev, Ea. unfold event_plan_blocks. cbn [fst snd].
  assert (CP : copy_plan pp h = Some (next h, alloc_h h (Plan V p))) by (unfold copy_plan; run (load_plan_eq h pp p E); reflexivity).
  set (q := next h) in *. set (h1 := alloc_h h (Plan V p)) in *.
  assert (S1 : step h h1 nothing 1) by (apply step_alloc, Sn).
  assert (M1 : mem h1 q = Some (Plan V p)) by (cbn; apply upd_same).
  assert (N1 : next h1 = S (next h)) by reflexivity.
  clearbody h1.
  destruct H2 as (pre & Epre & Mpre).
  assert (Mpre1 : mem h1 pre = Some (full (tab (4 * n) (n_phase_table N n vr0)))) by (apply (step_mem _ _ _ _ _ _ _ _ S1 Sn Mpre); auto).
  assert (Lt : forall a, In a (ptrs pp p) -> a < next h).
  { intros a I. destruct (plan_at_lt T V N _ _ _ _ _ _ _ _ _ _ a Sn PA I) as [b Eb]. apply (sane_lt _ _ h a b Sn Eb). }
  destruct (n_eqT N vr vr0) as [->|Nv]; destruct (n_eqT N angle angle0) as [->|Na].
  - exists h, pp, p. split; [reflexivity|]. split; [now apply step_refl|]. split; [auto|]. exact PA.
  - run CP. destruct (update_angle_ok T V N h1 q p pre _ angle (p_fourth p) (proj1 S1) M1 Epre Mpre1) as
      (h2 & d2 & d4 & p2 & p4 & E2 & S2 & Ep2 & G2 & Gp2 & Md2 & Mp2 & P4).
    { rewrite length_tab, En. reflexivity. }
    run E2. exists h2, q, (after_angle T p angle d2 d4 p2 p4).
    assert (St : step h h2 nothing (1 + angle_tables fourth)).
    { rewrite <- Ef. eapply step_trans; [exact S1 | exact S2 | auto | intros a Ha <-; unfold q in Ha; lia | reflexivity]. }
    assert (FrH : forall o vs, holds T V h o vs -> holds T V h2 o vs).
    { intros o vs (a & -> & Em). exists a. split; [reflexivity|]. apply (step_mem _ _ _ _ _ _ _ _ St Sn Em). auto. }
    split; [reflexivity|]. split; [exact St|]. split.
    + intros a I. unfold MemPlan.ptrs in I. cbn [after_angle p_vrfreq p_pre p_norm p_d2 p_pre2 p_d4 p_pre4 p_fourth] in I. rewrite Ef in I, P4.
      destruct H1 as (a1 & Ea1 & _), H3 as (a3 & Ea3 & _). rewrite Ea1, Epre, Ea3 in I.
      assert (Old : In a1 (ptrs pp p) /\ In pre (ptrs pp p) /\ In a3 (ptrs pp p)).
      { unfold MemPlan.ptrs. rewrite Ea1, Epre, Ea3. cbn. auto 10. }
      destruct fourth; cbn in I.
      * destruct P4 as (? & ? & _).
        destruct I as [<-|[<-|[<-|[<-|[<-|[<-|[<-|[<-|[]]]]]]]]]; try (left; tauto); right; unfold q; lia.
      * destruct I as [<-|[<-|[<-|[<-|[<-|[<-|[]]]]]]]; try (left; tauto); right; unfold q; lia.
    + unfold MemPlan.plan_at. cbn [after_angle p_nsb p_vr p_angle p_fourth p_size p_octants p_vrfreq p_pre p_norm p_d2 p_pre2 p_d4 p_pre4].
      rewrite En in *. rewrite Ef in *.
      split; [exact Ep2|]. do 6 (split; [assumption || reflexivity|]).
      split; [apply FrH, H1|]. split; [apply FrH; exists pre; auto|]. split; [apply FrH, H3|]. split; [exists d2; auto|].
      split.
      { exists p2. split; [reflexivity|]. rewrite Mp2. do 2 f_equal. apply tab_ext. intros i Hi. f_equal. apply nth_tab. lia. }
      destruct fourth.
      * destruct P4 as (_ & _ & P4 & Q4). split; [exists d4; auto|]. exists p4. split; [reflexivity|]. rewrite Q4. do 2 f_equal. apply tab_ext.
        intros i Hi. f_equal. apply nth_tab. lia.
      * destruct P4 as [-> ->]. auto.
  - run CP. destruct (update_frequency_ok T V N h1 q p vr (proj1 S1) M1) as (h2 & p2 & E2 & S2 & P2 & Q2).
    run E2. exists h2, q, p2. split; [reflexivity|]. split; [|split].
    + rewrite <- Ef. eapply step_trans; [exact S1 | exact S2 | auto | intros a Ha <-; unfold q in Ha; lia | reflexivity].
    + intros a I. destruct (P2 a I) as [->|[H|H]]; [right; unfold q; lia | | right; lia].
      left. destruct H3 as (a3 & Ea3 & _). unfold MemPlan.ptrs. rewrite H. cbn.
      destruct H1 as (a1 & -> & _). rewrite Epre. cbn. auto 10.
    + rewrite <- Ea. rewrite <- En. rewrite <- Ef. apply Q2; try congruence.
      * destruct H3 as (a3 & Ea3 & M3). exists a3. split; [exact Ea3|]. apply (step_mem _ _ _ _ _ _ _ _ S1 Sn M3). auto.
      * destruct H3 as (a3 & Ea3 & M3). rewrite Ea3. intros Eq. injection Eq as Eq. pose proof (proj1 (sane_lt _ _ h a3 _ Sn M3)). unfold q in Eq. lia.
  - exfalso. destruct Or; congruence.
Qed.

(** ** Events *)
(** [P]: blocks that hold plans and their tables. *)
Definition event_at ws octants total fourth n (P : list ptr) (h : heap) (e : event_s) (va : T * T) : Prop :=
  exists q p, e_plan e = Some q /\ plan_at ws octants total fourth n h q p (fst va) (snd va) /\ incl (ptrs q p) P.
(** An array of [n] numbers, all written. *)
Definition written (h : heap) (p : ptr) (n : nat) : Prop := exists vs, mem h p = Some (full vs) /\ length vs = n.

Lemma event_at_frame : forall ws octants total fourth n P P' h h' e va, event_at ws octants total fourth n P h e va -> incl P P' ->
  (forall a, In a P -> mem h' a = mem h a) -> event_at ws octants total fourth n P' h' e va.
Proof.
  intros ws octants total fourth n P P' h h' e va (q & p & E & PA & I) I' Fr. exists q, p. split; [exact E|]. split.
  - eapply plan_at_frame; [exact PA|]. intros a Ia. apply Fr, I, Ia.
  - intros a Ia. apply I', I, Ia.
Qed.
Lemma Forall2_event_frame : forall ws octants total fourth n P P' h h' evs l, Forall2 (event_at ws octants total fourth n P h) evs l ->
  incl P P' -> (forall a, In a P -> mem h' a = mem h a) -> Forall2 (event_at ws octants total fourth n P' h') evs l.
Proof. intros ws octants total fourth n P P' h h' evs l F I Fr. induction F; constructor; auto. eapply event_at_frame; eauto. Qed.

Definition one_event (pp : ptr) (e : T * T) : M T V event_s :=
  bind (load_plan pp) (fun p =>
  bind (malloc (p_size p)) (fun amp => bind (store amp 0 (tab (p_size p) (fun _ => n_one N))) (fun _ =>
  bind (set_event N (fst e) (snd e) pp) (fun q => ret {| e_plan := q; e_amp := amp |})))).

Lemma events_ok : forall ws octants total fourth n pp p vr0 angle0 l (h : heap), sane h ->
  plan_at ws octants total fourth n h pp p vr0 angle0 -> (forall vr angle, In (vr, angle) l -> vr = vr0 \/ angle = angle0) ->
  exists h' evs P, collect l (one_event pp) h = Some (evs, h') /\
    step h h' nothing (length l + sum (map (event_plan_blocks N fourth (vr0, angle0)) l)) /\
    Forall2 (event_at ws octants total fourth n (ptrs pp p ++ P) h') evs l /\
    Forall (fun e => written h' (e_amp e) (total * n)) evs /\
    (forall a, In a P -> next h <= a /\ exists b, mem h' a = Some b) /\
    (forall a, In a (map e_amp evs) -> next h <= a) /\ NoDup (map e_amp evs) /\ (forall a, In a P -> ~ In a (map e_amp evs)).
Proof.
  intros ws octants total fourth n pp p vr0 angle0 l. induction l as [|[vr angle] l IH]; intros h Sn PA Or.
  - exists h, [], []. split; [reflexivity|]. split; [now apply step_refl|]. split; [constructor|]. split; [constructor|]. split; [now intros a []|]. split; [now intros a []|]. split; [constructor|]. now intros a [].
  - cbn [collect]. unfold one_event at 1. cbn [fst snd].
    pose proof PA as (Ep & _ & _ & _ & _ & Esz & _).
    assert (Lt : forall a, In a (ptrs pp p) -> exists b, mem h a = Some b) by (intros a I; eapply plan_at_lt; eauto).
    destruct (fill_ok T V h (p_size p) (tab (p_size p) (fun _ => n_one N)) Sn (length_tab _ _ _)) as (E1 & E2 & S1 & M1 & N1).
    set (amp := next h) in *. set (h1 := set_h _ amp _) in *.
    assert (PA1 : plan_at ws octants total fourth n h1 pp p vr0 angle0).
    { eapply plan_at_frame; [exact PA|]. intros a I. destruct (Lt a I) as [b Eb]. rewrite Eb. apply (step_mem _ _ _ _ _ _ _ _ S1 Sn Eb). auto. }
    destruct (set_event_ok ws octants total fourth n h1 pp p vr0 angle0 vr angle (proj1 S1) PA1) as (h2 & q & p2 & E3 & S2 & I2 & PA2).
    { apply Or. left. reflexivity. }
    assert (PAp2 : plan_at ws octants total fourth n h2 pp p vr0 angle0).
    { eapply plan_at_frame; [exact PA1|]. intros a I. destruct (plan_at_lt T V N _ _ _ _ _ _ _ _ _ _ a (proj1 S1) PA1 I) as [b Eb]. rewrite Eb.
      apply (step_mem _ _ _ _ _ _ _ _ S2 (proj1 S1) Eb). auto. }
    destruct (IH h2 (proj1 S2) PAp2) as (h3 & evs & P & E4 & S3 & F3 & W3 & GP & GA & ND & Dj).
    { intros vr' angle' I. apply Or. right. exact I. }
    assert (G : next h < next h1 /\ next h1 <= next h2 /\ next h2 <= next h3).
    { destruct S1 as (_ & ? & _), S2 as (_ & ? & _), S3 as (_ & ? & _). lia. }
    assert (L2 : forall a, In a (ptrs q p2) -> exists b, mem h2 a = Some b) by (intros a I; eapply plan_at_lt; [apply S2 | exact PA2 | exact I]).
    assert (Fr23 : forall a, a < next h2 -> mem h3 a = mem h2 a) by (intros a Ha; apply S3; auto).
    set (PN := filter (fun a => next h1 <=? a) (ptrs q p2)).
    assert (IPN : forall a, In a PN -> next h1 <= a < next h2 /\ exists b, mem h3 a = Some b).
    { intros a I. apply filter_In in I. destruct I as [I1 I3]. apply Nat.leb_le in I3. destruct (L2 a I1) as [b Eb].
      pose proof (proj1 (sane_lt _ _ h2 a b (proj1 S2) Eb)). split; [lia|]. exists b. rewrite Fr23; [exact Eb | lia]. }
    exists h3, ({| e_plan := Some q; e_amp := amp |} :: evs), (PN ++ P).
    split.
    { rewrite (bind_some _ _ _ _ _ _ h {| e_plan := Some q; e_amp := amp |} h2).
      - rewrite (bind_some _ _ _ _ _ _ h2 evs h3 E4). reflexivity.
      - run (load_plan_eq h pp p Ep). run E1. run E2. run E3. reflexivity. }
    split.
    { eapply step_trans with (W1 := nothing) (W2 := nothing); [exact S1 | | auto | auto |].
      - eapply step_trans with (W1 := nothing) (W2 := nothing); [exact S2 | exact S3 | auto | auto | reflexivity].
      - cbn [length map]. unfold sum. cbn [fold_right]. fold (sum (map (event_plan_blocks N fourth (vr0, angle0)) l)). lia. }
    split.
    { constructor.
      - exists q, p2. split; [reflexivity|]. split.
        + eapply plan_at_frame; [exact PA2|]. intros a I. apply Fr23. destruct (L2 a I) as [b Eb]. apply (sane_lt _ _ h2 a b (proj1 S2) Eb).
        + intros a I. apply in_or_app. destruct (I2 a I) as [H|H]; [left; exact H|]. right. apply in_or_app. left. apply filter_In.
          split; [exact I | now apply Nat.leb_le].
      - eapply Forall2_event_frame; [exact F3 | | auto]. intros a I. apply in_or_app. apply in_app_or in I. destruct I as [I|I]; [now left|].
        right. apply in_or_app. now right. }
    split.
    { constructor; [|exact W3]. exists (tab (p_size p) (fun _ => n_one N)). split; [|rewrite length_tab; exact Esz]. cbn [e_amp].
      rewrite Fr23 by (unfold amp; lia). apply (step_mem _ _ _ _ _ _ _ _ S2 (proj1 S1) M1). auto. }
    split.
    { intros a I. apply in_app_or in I. destruct I as [I|I].
      - destruct (IPN a I) as [Ha Hb]. split; [lia | exact Hb].
      - destruct (GP a I) as [Ha Hb]. split; [lia | exact Hb]. }
    split.
    { intros a [<-|I]; [cbn; unfold amp; lia|]. specialize (GA a I). lia. }
    split.
    { cbn [map e_amp]. constructor; [|exact ND]. intros I. specialize (GA _ I). unfold amp in GA. lia. }
    intros a I [Ha|Ha].
    + cbn in Ha. subst a. apply in_app_or in I. destruct I as [I|I].
      * destruct (IPN _ I) as [Hb _]. unfold amp in Hb. lia.
      * destruct (GP _ I) as [Hb _]. unfold amp in Hb. lia.
    + apply in_app_or in I. destruct I as [I|I].
      * destruct (IPN _ I) as [Hb _]. specialize (GA _ Ha). lia.
      * exact (Dj a I Ha).
Qed.

(** ** Dimensions *)
Lemma F2_length : forall A B (R : A -> B -> Prop) a b, Forall2 R a b -> length a = length b.
Proof. intros A B R a b F. induction F; cbn; congruence. Qed.
Lemma F2_impl : forall A B (R R' : A -> B -> Prop) a b, (forall x y, R x y -> R' x y) -> Forall2 R a b -> Forall2 R' a b.
Proof. intros A B R R' a b I F. induction F; constructor; auto. Qed.
Lemma NoDup_app_both : forall A (a b : list A), NoDup a -> NoDup b -> (forall x, In x a -> ~ In x b) -> NoDup (a ++ b).
Proof.
  intros A a b Ha Hb D. induction Ha as [|x a Nx Ha IH]; cbn; [exact Hb|]. constructor.
  - intros I. apply in_app_or in I. destruct I as [I|I]; [now apply Nx | apply (D x); cbn; auto].
  - apply IH. intros y Iy. apply D. now right.
Qed.
Definition room (h : heap) (p : ptr) (n : nat) : Prop := exists l, mem h p = Some (Arr T l) /\ length l = n.
(** A dimension with its array of events. *)
Definition dim_at ws octants npts total fourth n (P : list ptr) (h : heap) (de : dim_s * list event_s) (events : list (T * T)) : Prop :=
  mem h (d_events (fst de)) = Some (Events T V (snd de)) /\ In (d_events (fst de)) P /\ d_n (fst de) = length (snd de) /\
  Forall2 (event_at ws octants total fourth n P h) (snd de) events /\ Forall (fun e => written h (e_amp e) (total * n)) (snd de) /\
  room h (d_local (fst de)) total /\ room h (d_offset (fst de)) npts.
(** The buffers of a dimension: all that is released. *)
Definition slots (de : dim_s * list event_s) : list ptr := map e_amp (snd de) ++ [d_local (fst de); d_offset (fst de)].
Definition present (h : heap) (a : ptr) : Prop := exists b, mem h a = Some b.
Definition fresh_split (h h' : heap) (P S : list ptr) : Prop :=
  (forall a, In a P -> next h <= a /\ present h' a) /\ (forall a, In a S -> next h <= a) /\ NoDup S /\ (forall a, In a P -> ~ In a S).

Lemma written_room : forall h p n, written h p n -> room h p n.
Proof. intros h p n (vs & E & L). exists (map (@Some V) vs). split; [exact E | now rewrite map_length]. Qed.
Lemma dim_at_frame : forall ws octants npts total fourth n P P' h h' de events, dim_at ws octants npts total fourth n P h de events -> sane h ->
  incl P P' -> (forall a, a < next h -> mem h' a = mem h a) -> dim_at ws octants npts total fourth n P' h' de events.
Proof.
  intros ws octants npts total fourth n P P' h h' de events (E & I & L & F & W & (l1 & R1 & R1') & (l2 & R2 & R2')) Sn I' Fr.
  assert (K : forall a b, mem h a = Some b -> mem h' a = Some b).
  { intros a b Eb. rewrite Fr; [exact Eb|]. apply (sane_lt _ _ h a b Sn Eb). }
  split; [apply K, E|]. split; [apply I', I|]. split; [exact L|]. split.
  - assert (FK : forall evs l, Forall2 (event_at ws octants total fourth n P h) evs l -> Forall2 (event_at ws octants total fourth n P' h') evs l).
    { intros evs l F'. induction F' as [|e va evs l (q & p & Eq & PA & Ia) _ IH]; constructor; [|exact IH]. exists q, p. split; [exact Eq|]. split.
      - eapply plan_at_frame; [exact PA|]. intros a Ha. destruct (plan_at_lt T V N _ _ _ _ _ _ _ _ _ _ a Sn PA Ha) as [b Eb].
        rewrite Eb. now apply K.
      - intros a Ha. apply I', Ia, Ha. }
    apply FK, F.
  - split; [|split; [exists l1; auto | exists l2; auto]].
    eapply Forall_impl; [|exact W]. intros e (vs & Ev & Lv). exists vs. auto.
Qed.

Lemma create_plans_ok : forall (h : heap) sp s ws n events, sane h -> mem h sp = Some (Scheme T V s) ->
  mem h (s_weights s) = Some (full ws) -> length ws = s_npts s -> follows_first events ->
  let oct := octants_of (s_volume s) in
  exists h' d evs P, create_plans_for_events N sp events n h = Some (d, h') /\
    step h h' nothing (plan_blocks N (s_fourth s) events + buffers events) /\
    dim_at (map (mul (n_norm_scale N n oct)) ws) oct (s_npts s) (s_total s) (s_fourth s) n P h' (d, evs) events /\
    fresh_split h h' P (slots (d, evs)).
Proof.
  intros h sp s ws n events Sn Es Ew Hw FF oct. unfold create_plans_for_events.
  destruct events as [|[vr0 angle0] r]; [destruct FF|]. set (events := (vr0, angle0) :: r) in *.
  run (load_scheme_eq h sp s Es). set (arr := next h). set (h1 := alloc_h h (Events T V [])).
  assert (E1 : new_block (Events T V []) h = Some (arr, h1)) by reflexivity. run E1.
  assert (S1 : step h h1 nothing 1) by (apply step_alloc, Sn).
  assert (M1 : mem h1 arr = Some (Events T V [])) by (cbn; apply upd_same).
  assert (N1 : next h1 = S (next h)) by reflexivity. clearbody h1. clear E1.
  assert (Es1 : mem h1 sp = Some (Scheme T V s)) by (apply (step_mem _ _ _ _ _ _ _ _ S1 Sn Es); auto).
  assert (Ew1 : mem h1 (s_weights s) = Some (full ws)) by (apply (step_mem _ _ _ _ _ _ _ _ S1 Sn Ew); auto).
  destruct (create_plan_ok h1 sp s ws n vr0 angle0 (s_fourth s) (proj1 S1) Es1 Ew1 Hw) as (h2 & pp & p & E2 & S2 & I2 & PA2).
  fold oct in PA2. set (nws := map _ ws) in *. run E2.
  assert (M2 : mem h2 arr = Some (Events T V [])) by (apply (step_mem _ _ _ _ _ _ _ _ S2 (proj1 S1) M1); auto).
  destruct (events_ok nws oct (s_total s) (s_fourth s) n pp p vr0 angle0 events h2 (proj1 S2) PA2 FF)
    as (h3 & evs & P & E3 & S3 & F3 & W3 & GP & GA & ND & Dj).
  change (fun e : T * T => bind (load_plan pp) (fun p0 => _)) with (one_event pp). run E3.
  assert (M3 : mem h3 arr = Some (Events T V [])) by (apply (step_mem _ _ _ _ _ _ _ _ S3 (proj1 S2) M2); auto).
  assert (Ppp : forall a, In a (ptrs pp p) -> present h2 a) by (intros a I; exact (plan_at_lt T V N _ _ _ _ _ _ _ _ _ _ a (proj1 S2) PA2 I)).
  run (put_eq h3 arr _ (Events T V evs) M3).
  pose proof (step_set _ _ h3 arr _ (Events T V evs) (proj1 S3) M3) as S4. set (h4 := set_h h3 arr (Events T V evs)) in *.
  assert (M4 : mem h4 arr = Some (Events T V evs)) by (cbn; apply upd_same).
  assert (N4 : next h4 = next h3) by reflexivity. clearbody h4.
  set (local := next h4) in *. set (h5 := alloc_h h4 (Arr T (repeat None (s_total s)))).
  assert (E5 : malloc (s_total s) h4 = Some (local, h5)) by reflexivity. run E5.
  assert (S5 : step h4 h5 nothing 1) by (apply step_alloc, S4).
  assert (M5 : mem h5 local = Some (Arr T (repeat None (s_total s)))) by (cbn; apply upd_same).
  assert (N5 : next h5 = S (next h4)) by reflexivity. clearbody h5. clear E5.
  set (offset := next h5) in *. set (h6 := alloc_h h5 (Arr T (repeat None (s_npts s)))).
  assert (E6 : malloc (s_npts s) h5 = Some (offset, h6)) by reflexivity. run E6.
  assert (S6 : step h5 h6 nothing 1) by (apply step_alloc, S5).
  assert (M6 : mem h6 offset = Some (Arr T (repeat None (s_npts s)))) by (cbn; apply upd_same).
  assert (N6 : next h6 = S (next h5)) by reflexivity. clearbody h6. clear E6.
  assert (G : next h1 <= next h2 /\ next h2 <= next h3).
  { destruct S2 as (_ & ? & _), S3 as (_ & ? & _). lia. }
  assert (S46 : step h4 h6 nothing 2) by (eapply step_trans; [exact S5 | exact S6 | auto | auto | reflexivity]).
  assert (K36 : forall a b, mem h3 a = Some b -> a <> arr -> mem h6 a = Some b).
  { intros a b Eb Na. apply (step_mem _ _ _ _ _ _ _ _ S46 (proj1 S4)); [|auto]. apply (step_mem _ _ _ _ _ _ _ _ S4 (proj1 S3) Eb). congruence. }
  assert (Larr : forall a, In a (ptrs pp p ++ P) -> a <> arr /\ next h <= a /\ present h3 a /\ a < next h3).
  { intros a I. apply in_app_or in I.
    assert (Q : next h < a /\ present h3 a).
    { destruct I as [I|I].
      - specialize (I2 a I). split; [lia|]. destruct (Ppp a I) as [b Eb]. exists b. apply (step_mem _ _ _ _ _ _ _ _ S3 (proj1 S2) Eb). auto.
      - destruct (GP a I) as [Ha Hb]. split; [lia | exact Hb]. }
    destruct Q as [Q1 Q2]. split; [unfold arr; lia|]. split; [lia|]. split; [exact Q2|]. destruct Q2 as [b Eb]. apply (sane_lt _ _ h3 a b (proj1 S3) Eb). }
  exists h6, {| d_events := arr; d_n := length events; d_local := local; d_offset := offset |}, evs, (arr :: ptrs pp p ++ P).
  split; [reflexivity|]. split; [|split].
  - eapply step_trans with (W1 := nothing) (W2 := fun a => next h <= a); [exact S1 | | auto | intros; lia |].
    + eapply step_trans with (W1 := nothing) (W2 := fun a => next h <= a); [exact S2 | | intros ? ? [] | auto |].
      * eapply step_trans with (W1 := nothing) (W2 := fun a => next h <= a); [exact S3 | | intros ? ? [] | auto |].
        -- eapply step_trans with (W1 := eq arr) (W2 := nothing); [exact S4 | exact S46 | intros a _ <-; unfold arr; lia | intros ? ? [] | reflexivity].
        -- reflexivity.
      * reflexivity.
    + unfold plan_blocks, buffers. fold events. cbn [events]. fold events. lia.
  - unfold dim_at. cbn [fst snd d_events d_n d_local d_offset].
    split; [apply (step_mem _ _ _ _ _ _ _ _ S46 (proj1 S4) M4); auto|].
    split; [left; reflexivity|].
    split; [symmetry; exact (F2_length _ _ _ _ _ F3)|].
    split; [|split; [|split]].
    + eapply Forall2_event_frame; [exact F3 | intros a I; right; exact I |].
      intros a I. destruct (Larr a I) as (Na & _ & (b & Eb) & _). rewrite Eb. now apply K36.
    + apply Forall_forall. intros e I. pose proof (proj1 (Forall_forall _ _) W3 e I) as (vs & Ev & Lv). exists vs. split; [|exact Lv].
      apply K36; [exact Ev|]. pose proof (GA (e_amp e) (in_map e_amp _ _ I)). unfold arr. lia.
    + exists (repeat None (s_total s)). split; [|apply repeat_length]. apply (step_mem _ _ _ _ _ _ _ _ S6 (proj1 S5) M5). auto.
    + exists (repeat None (s_npts s)). split; [exact M6 | apply repeat_length].
  - assert (GA' : forall a, In a (map e_amp evs) -> next h2 <= a < next h3).
    { intros a I. split; [now apply GA|]. apply in_map_iff in I. destruct I as (e & <- & I). pose proof (proj1 (Forall_forall _ _) W3 e I) as (vs & Ev & _).
      apply (sane_lt _ _ h3 _ _ (proj1 S3) Ev). }
    split; [|split; [|split]].
    + intros a [<-|I].
      * split; [unfold arr; lia|]. exists (Events T V evs). apply (step_mem _ _ _ _ _ _ _ _ S46 (proj1 S4) M4). auto.
      * destruct (Larr a I) as (Na & La & (b & Eb) & _). split; [exact La|]. exists b. now apply K36.
    + intros a I. unfold slots in I. cbn [fst snd d_local d_offset] in I. apply in_app_or in I. destruct I as [I|[<-|[<-|[]]]].
      * specialize (GA' a I). lia.
      * unfold local. lia.
      * unfold offset. lia.
    + unfold slots. cbn [fst snd d_local d_offset]. apply NoDup_app_both.
      * exact ND.
      * constructor; [intros [E|[]]; unfold local, offset in E; lia|]. constructor; [intros []|constructor].
      * intros a I [<-|[<-|[]]]; specialize (GA' _ I); unfold local, offset in GA'; lia.
    + intros a I I'. unfold slots in I'. cbn [fst snd d_local d_offset] in I'. apply in_app_or in I'. destruct I as [<-|I].
      * destruct I' as [I'|[E|[E|[]]]]; [specialize (GA' _ I'); unfold arr in GA'; lia | unfold local, arr in E; lia | unfold offset, arr in E; lia].
      * destruct (Larr a I) as (Na & La & Pa & Ha). destruct I' as [I'|[E|[E|[]]]]; [|unfold local in E; lia | unfold offset in E; lia].
        apply in_app_or in I. destruct I as [I|I]; [|exact (Dj a I I')].
        destruct (Ppp a I) as [b Eb]. pose proof (proj1 (sane_lt _ _ h2 a b (proj1 S2) Eb)). specialize (GA' _ I'). lia.
Qed.

Definition all_slots (des : list (dim_s * list event_s)) : list ptr := concat (map slots des).

Lemma fresh_join : forall (h h1 h2 : heap) P S P' S' k, sane h1 -> next h <= next h1 -> step h1 h2 nothing k -> fresh_split h h1 P S -> (forall a, In a S -> present h1 a) ->
  fresh_split h1 h2 P' S' -> fresh_split h h2 (P ++ P') (S ++ S').
Proof.
  intros h h1 h2 P S P' S' k Sn1 Le St (A1 & A2 & A3 & A4) PS (B1 & B2 & B3 & B4).
  assert (Lt : forall a, present h1 a -> a < next h1) by (intros a (b & Eb); apply (sane_lt _ _ h1 a b Sn1 Eb)).
  split; [|split; [|split]].
  - intros a I. apply in_app_or in I. destruct I as [I|I].
    + destruct (A1 a I) as (La & b & Eb). split; [exact La|]. exists b. apply (step_mem _ _ _ _ _ _ _ _ St Sn1 Eb). auto.
    + destruct (B1 a I) as (La & Eb). split; [lia | exact Eb].
  - intros a I. apply in_app_or in I. destruct I as [I|I]; [now apply A2|]. specialize (B2 a I). lia.
  - apply NoDup_app_both; [exact A3 | exact B3|]. intros a I I'. pose proof (Lt a (PS a I)). specialize (B2 a I'). lia.
  - intros a I I'. apply in_app_or in I. apply in_app_or in I'. destruct I as [I|I], I' as [I'|I'].
    + exact (A4 a I I').
    + pose proof (Lt a (proj2 (A1 a I))). specialize (B2 a I'). lia.
    + pose proof (Lt a (PS a I')). pose proof (proj1 (B1 a I)). lia.
    + exact (B4 a I I').
Qed.
Lemma slots_present : forall ws octants npts total fourth n P h de events a, dim_at ws octants npts total fourth n P h de events -> In a (slots de) -> present h a.
Proof.
  intros ws octants npts total fourth n P h de events a (_ & _ & _ & _ & W & (l1 & R1 & _) & (l2 & R2 & _)) I. unfold slots in I. apply in_app_or in I.
  destruct I as [I|[<-|[<-|[]]]]; [|eexists; eassumption | eexists; eassumption].
  apply in_map_iff in I. destruct I as (e & <- & I). pose proof (proj1 (Forall_forall _ _) W e I) as (vs & Ev & _). eexists; exact Ev.
Qed.

Lemma dims_ok : forall sp s ws n dims (h : heap), sane h -> mem h sp = Some (Scheme T V s) ->
  mem h (s_weights s) = Some (full ws) -> length ws = s_npts s -> Forall (@follows_first T) dims ->
  let oct := octants_of (s_volume s) in
  exists h' des P, collect dims (fun events => create_plans_for_events N sp events n) h = Some (map fst des, h') /\
    step h h' nothing (sum (map (plan_blocks N (s_fourth s)) dims) + sum (map (@buffers T) dims)) /\
    Forall2 (dim_at (map (mul (n_norm_scale N n oct)) ws) oct (s_npts s) (s_total s) (s_fourth s) n P h') des dims /\
    fresh_split h h' P (all_slots des).
Proof.
  intros sp s ws n dims. induction dims as [|events dims IH]; intros h Sn Es Ew Hw FF oct.
  - exists h, [], []. split; [reflexivity|]. split; [now apply step_refl|]. split; [constructor|]. split; [now intros a []|]. split; [now intros a []|]. split; [constructor|]. now intros a [].
  - inversion FF as [|? ? F1 F2]; subst.
    destruct (create_plans_ok h sp s ws n events Sn Es Ew Hw F1) as (h1 & d & evs & P & E1 & S1 & D1 & R1). fold oct in D1.
    assert (Es1 : mem h1 sp = Some (Scheme T V s)) by (apply (step_mem _ _ _ _ _ _ _ _ S1 Sn Es); auto).
    assert (Ew1 : mem h1 (s_weights s) = Some (full ws)) by (apply (step_mem _ _ _ _ _ _ _ _ S1 Sn Ew); auto).
    destruct (IH h1 (proj1 S1) Es1 Ew1 Hw F2) as (h2 & des & P' & E2 & S2 & D2 & R2). fold oct in D2.
    exists h2, ((d, evs) :: des), (P ++ P'). split; [|split; [|split]].
    + cbn [collect]. run E1. run E2. reflexivity.
    + eapply step_trans with (W1 := nothing) (W2 := nothing); [exact S1 | exact S2 | auto | auto |]. cbn [map]. unfold sum. cbn [fold_right].
      fold (sum (map (plan_blocks N (s_fourth s)) dims)). fold (sum (map (@buffers T) dims)). lia.
    + constructor.
      * eapply dim_at_frame; [exact D1 | apply S1 | apply incl_appl, incl_refl |]. intros a Ha. apply S2; auto.
      * eapply F2_impl; [|exact D2]. intros de ev D. eapply dim_at_frame; [exact D | apply S2 | apply incl_appr, incl_refl | auto].
    + unfold all_slots. cbn [map concat]. eapply fresh_join; [apply S1 | apply S1 | exact S2 | exact R1 | | exact R2].
      intros a I. eapply slots_present; [exact D1 | exact I].
Qed.

Lemma create_dimensions_ok : forall sp s ws n dims (h : heap), sane h -> mem h sp = Some (Scheme T V s) ->
  mem h (s_weights s) = Some (full ws) -> length ws = s_npts s -> Forall (@follows_first T) dims ->
  let oct := octants_of (s_volume s) in
  exists h' dp des P, create_dimensions N sp dims n h = Some (dp, h') /\
    step h h' nothing (1 + sum (map (plan_blocks N (s_fourth s)) dims) + sum (map (@buffers T) dims)) /\
    mem h' dp = Some (Dims T V (map fst des)) /\ In dp P /\
    Forall2 (dim_at (map (mul (n_norm_scale N n oct)) ws) oct (s_npts s) (s_total s) (s_fourth s) n P h') des dims /\
    fresh_split h h' P (all_slots des).
Proof.
  intros sp s ws n dims h Sn Es Ew Hw FF oct. unfold create_dimensions.
  set (arr := next h). set (h1 := alloc_h h (Dims T V [])).
  assert (E1 : new_block (Dims T V []) h = Some (arr, h1)) by reflexivity. run E1.
  assert (S1 : step h h1 nothing 1) by (apply step_alloc, Sn).
  assert (M1 : mem h1 arr = Some (Dims T V [])) by (cbn; apply upd_same).
  assert (N1 : next h1 = S (next h)) by reflexivity. clearbody h1. clear E1.
  assert (Es1 : mem h1 sp = Some (Scheme T V s)) by (apply (step_mem _ _ _ _ _ _ _ _ S1 Sn Es); auto).
  assert (Ew1 : mem h1 (s_weights s) = Some (full ws)) by (apply (step_mem _ _ _ _ _ _ _ _ S1 Sn Ew); auto).
  destruct (dims_ok sp s ws n dims h1 (proj1 S1) Es1 Ew1 Hw FF) as (h2 & des & P & E2 & S2 & D2 & R1 & R2 & R3 & R4). fold oct in D2. run E2.
  assert (M2 : mem h2 arr = Some (Dims T V [])) by (apply (step_mem _ _ _ _ _ _ _ _ S2 (proj1 S1) M1); auto).
  run (put_eq h2 arr _ (Dims T V (map fst des)) M2).
  pose proof (step_set _ _ h2 arr _ (Dims T V (map fst des)) (proj1 S2) M2) as S3. set (h3 := set_h h2 arr _) in *.
  assert (M3 : mem h3 arr = Some (Dims T V (map fst des))) by (cbn; apply upd_same).
  assert (Np : forall a, In a P -> arr <> a) by (intros a I; destruct (R1 a I); unfold arr; lia).
  assert (Ns : forall a, In a (all_slots des) -> arr <> a) by (intros a I; specialize (R2 a I); unfold arr; lia).
  assert (K : forall a b, mem h2 a = Some b -> arr <> a -> mem h3 a = Some b).
  { intros a b Eb Na. apply (step_mem _ _ _ _ _ _ _ _ S3 (proj1 S2) Eb). exact Na. }
  clearbody h3.
  exists h3, arr, des, (arr :: P). split; [reflexivity|]. split; [|split; [exact M3|split; [now left|split]]].
  - eapply step_trans with (W1 := nothing) (W2 := fun a => next h <= a); [exact S1 | | auto | intros; lia |].
    + eapply step_trans with (W1 := nothing) (W2 := eq arr); [exact S2 | exact S3 | intros ? ? [] | intros a _ <-; unfold arr; lia | reflexivity].
    + lia.
  - assert (G : forall l1 l2, Forall2 (dim_at (map (mul (n_norm_scale N n oct)) ws) oct (s_npts s) (s_total s) (s_fourth s) n P h2) l1 l2 ->
        (forall de, In de l1 -> In de des) -> Forall2 (dim_at (map (mul (n_norm_scale N n oct)) ws) oct (s_npts s) (s_total s) (s_fourth s) n (arr :: P) h3) l1 l2); [|apply G; [exact D2|auto]].
    intros l1 l2 F. induction F as [|de ev l1 l2 D _ IH]; intros Sub; constructor; [|apply IH; intros; apply Sub; now right].
    assert (SL : forall a, In a (slots de) -> arr <> a).
    { intros a I. apply Ns. unfold all_slots. apply in_concat. exists (slots de). split; [apply in_map, Sub; now left | exact I]. }
    destruct D as (Da & Db & Dc & Dd & De & (l3 & Df & Dg) & (l4 & Dh & Di)).
    split; [apply K; [exact Da | now apply Np]|]. split; [now right|]. split; [exact Dc|]. split; [|split; [|split]].
    + eapply Forall2_event_frame; [exact Dd | intros a I; now right |]. intros a I. destruct (R1 a I) as (_ & b & Eb). rewrite Eb. apply K; [exact Eb | now apply Np].
    + apply Forall_forall. intros e I. pose proof (proj1 (Forall_forall _ _) De e I) as (vs & Ev & Lv). exists vs. split; [|exact Lv].
      apply K; [exact Ev|]. apply SL. unfold slots. apply in_or_app. left. apply in_map, I.
    + exists l3. split; [|exact Dg]. apply K; [exact Df|]. apply SL. unfold slots. apply in_or_app. right. cbn. auto.
    + exists l4. split; [|exact Di]. apply K; [exact Dh|]. apply SL. unfold slots. apply in_or_app. right. cbn. auto.
  - split; [|split; [|split]].
    + intros a [<-|I]; [split; [unfold arr; lia | eexists; exact M3]|]. destruct (R1 a I) as (La & b & Eb). split; [lia|]. exists b. apply K; [exact Eb | now apply Np].
    + intros a I. specialize (R2 a I). lia.
    + exact R3.
    + intros a [<-|I] I'; [exact (Ns _ I' eq_refl) | exact (R4 a I I')].
Qed.
End Dims.
