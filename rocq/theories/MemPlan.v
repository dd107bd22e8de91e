(** Proofs for C89 and C90: plans, events and dimensions. *)
From Coq Require Import List Arith Bool Lia.
From Verif Require Import MemModel MemSpec MemProofs.
Import ListNotations.
Unset Implicit Arguments.

(** One step of a program. *)
Ltac run E := rewrite (bind_some _ _ _ _ _ _ _ _ _ E).

Section Plans.
Variables (T V : Type) (N : numerics T V).
Notation heap := (heap T V).
Notation block := (block T V).
Notation zero := (n_zero N).
Notation mul := (n_mul N).
Notation full := (full T V).
Notation step := (step T V).

Lemma fill_ok : forall (h : heap) n vs, sane h -> length vs = n ->
  let h1 := alloc_h h (Arr T (repeat None n)) in let h2 := set_h h1 (next h) (full vs) in
  malloc n h = Some (next h, h1) /\ store (next h) 0 vs h1 = Some (tt, h2) /\
  step h h2 nothing 1 /\ mem h2 (next h) = Some (full vs) /\ next h2 = S (next h).
Proof.
  intros h n vs Sn Hv h1 h2.
  assert (S1 : step h h1 nothing 1) by (apply step_alloc; exact Sn).
  assert (E1 : mem h1 (next h) = Some (Arr T (repeat None n))) by (cbn; apply upd_same).
  split; [reflexivity|]. split; [apply (store_all _ _ h1 (next h) _ vs E1); rewrite repeat_length; lia|]. split; [|split].
  - eapply step_trans; [exact S1 | apply (step_set _ _ h1 (next h) _ (full vs) (proj1 S1) E1) | auto | | reflexivity].
    intros a Ha <-. exfalso. lia.
  - cbn. apply upd_same.
  - reflexivity.
Qed.

Lemma step_mem : forall (h h' : heap) W k a b, step h h' W k -> sane h -> mem h a = Some b -> ~ W a -> mem h' a = Some b.
Proof.
  intros h h' W k a b (S' & L & C & Ms) Sn E NW. rewrite Ms; [exact E | | exact NW]. apply (sane_lt _ _ h a b Sn E).
Qed.

Definition after_angle (p : plan_s T) (angle : T) (d2 d4 pre2 pre4 : ptr) : plan_s T :=
  {| p_nsb := p_nsb p; p_vr := p_vr p; p_angle := angle; p_fourth := p_fourth p; p_size := p_size p;
     p_octants := p_octants p; p_vrfreq := p_vrfreq p; p_norm := p_norm p; p_d2 := Some d2; p_d4 := Some d4;
     p_pre := p_pre p; p_pre2 := Some pre2; p_pre4 := Some pre4 |}.

Lemma update_angle_ok : forall (h : heap) pp p pre pres angle fourth, sane h -> mem h pp = Some (Plan V p) -> p_pre p = Some pre ->
  mem h pre = Some (full pres) -> length pres = 4 * p_nsb p ->
  exists h' d2 d4 pre2 pre4,
    update_from_rotor_angle N pp angle fourth h = Some (tt, h') /\ step h h' (eq pp) (angle_tables fourth) /\
    mem h' pp = Some (Plan V (after_angle p angle d2 d4 pre2 pre4)) /\
    next h <= d2 /\ next h <= pre2 /\ mem h' d2 = Some (full (tab 5 (n_dm0 N 2 angle))) /\
    mem h' pre2 = Some (full (tab (2 * p_nsb p) (fun i => mul (n_dm0 N 2 angle (i / p_nsb p)) (nth (2 * p_nsb p + i) pres zero)))) /\
    (if fourth then next h <= d4 /\ next h <= pre4 /\ mem h' d4 = Some (full (tab 9 (n_dm0 N 4 angle))) /\
                    mem h' pre4 = Some (full (tab (4 * p_nsb p) (fun i => mul (n_dm0 N 4 angle (i / p_nsb p)) (nth i pres zero))))
     else d4 = NULL /\ pre4 = NULL).
Proof.
  intros h pp p pre pres angle fourth Sn Ep Epre Epres Hl. set (n := p_nsb p) in *. unfold update_from_rotor_angle.
  assert (L0 : load_plan pp h = Some (p, h)) by (unfold load_plan, load, bind; now rewrite Ep).
  run L0. fold n. clear L0.
  destruct (fill_ok h 5 (tab 5 (n_dm0 N 2 angle)) Sn (length_tab _ _ _)) as (E1 & E2 & S2 & M2 & N2).
  set (d2 := next h) in *. run E1. unfold wigner_dm0_vector at 1. run E2.
  set (h2 := set_h _ d2 _) in *. clearbody h2. clear E1 E2.
  (* d4 *)
  set (m4 := if fourth then _ else ret NULL).
  assert (D4 : exists h3 d4, m4 h2 = Some (d4, h3) /\ step h2 h3 nothing (if fourth then 1 else 0) /\
                (if fourth then next h2 <= d4 /\ mem h3 d4 = Some (full (tab 9 (n_dm0 N 4 angle))) else d4 = NULL)).
  { unfold m4. destruct fourth.
    - destruct (fill_ok h2 9 (tab 9 (n_dm0 N 4 angle)) (proj1 S2) (length_tab _ _ _)) as (E1 & E2 & S3 & M3 & N3).
      eexists _, (next h2). split; [run E1; unfold wigner_dm0_vector; run E2; reflexivity|]. split; [exact S3|]. split; [lia|exact M3].
    - exists h2, NULL. split; [reflexivity|]. split; [apply step_refl, S2 | reflexivity]. }
  destruct D4 as (h3 & d4 & E4 & S3 & P4). run E4. clear E4. clear m4.
  (* pre2 *)
  set (vs2 := firstn (2 * n) (skipn (2 * n) pres)).
  assert (Hvs2 : length vs2 = 2 * n) by (unfold vs2; rewrite firstn_length, skipn_length; lia).
  destruct (fill_ok h3 (2 * n) vs2 (proj1 S3) Hvs2) as (E1 & E2 & S4 & M4 & N4).
  set (pre2 := next h3) in *. run E1.
  assert (Kn : known (T:=T) (V:=V) (p_pre p) = ret pre) by (rewrite Epre; reflexivity). 
  match type of E2 with store _ _ _ ?x = _ => set (h3' := x) in * end.
  assert (Sh3' : step h3 h3' nothing 1) by (apply step_alloc, S3).
  rewrite Kn. match goal with |- context [bind (ret pre) ?k ?hh] => change (bind (ret pre) k hh) with (k pre hh) end. cbv beta.
  assert (Epres2 : mem h2 pre = Some (full pres)) by (apply (step_mem _ _ _ _ _ _ S2 Sn Epres); auto).
  assert (Epres3 : mem h3 pre = Some (full pres)) by (apply (step_mem _ _ _ _ _ _ S3 (proj1 S2) Epres2); auto).
  assert (Epres3' : mem h3' pre = Some (full pres)) by (apply (step_mem _ _ _ _ _ _ Sh3' (proj1 S3) Epres3); auto).
  assert (R1 : read pre (2 * n) (2 * n) h3' = Some (vs2, h3')) by (apply read_full; [exact Epres3' | lia]).
  run R1. run E2. set (h4 := set_h _ pre2 _) in *. clearbody h4. clear E1 E2 R1. clear Sh3' Epres3' Kn. clear h3'.
  assert (Epres4 : mem h4 pre = Some (full pres)) by (apply (step_mem _ _ _ _ _ _ S4 (proj1 S3) Epres3); auto).
  assert (Ed2 : mem h4 d2 = Some (full (tab 5 (n_dm0 N 2 angle)))).
  { apply (step_mem _ _ _ _ _ _ S4 (proj1 S3)); [|auto]. apply (step_mem _ _ _ _ _ _ S3 (proj1 S2)); [exact M2|auto]. }
  assert (Ld2 : d2 < pre2) by (apply (sane_lt _ _ h3 d2 (full (tab 5 (n_dm0 N 2 angle))) (proj1 S3));
                               apply (step_mem _ _ _ _ _ _ S3 (proj1 S2)); [exact M2|auto]).
  destruct (iter_scale _ _ N 2 n (tab 5 (n_dm0 N 2 angle)) vs2 d2 pre2 0 h4 (proj1 S4)) as (h5 & E5 & S5 & N5 & M5);
    [lia | exact Ed2 | rewrite length_tab; lia | lia | |].
  { rewrite M4. do 2 f_equal. apply nth_ext_tab with (N := N); [lia|]. intros i _. reflexivity. }
  run E5. clear E5 Epres3 Epres2.
  assert (Epres5 : mem h5 pre = Some (full pres)).
  { apply (step_mem _ _ _ _ _ _ S5 (proj1 S4) Epres4). intros Hq. pose proof (proj1 (sane_lt _ _ h pre _ Sn Epres)).
    destruct S2 as (_ & ? & _), S3 as (_ & ? & _). unfold pre2 in *. lia. }
  assert (M5' : mem h5 pre2 = Some (full (tab (2 * n) (fun i => mul (n_dm0 N 2 angle (i / n)) (nth (2 * n + i) pres zero))))).
  { rewrite M5. do 2 f_equal. apply tab_ext. intros i Hi. cbn [Nat.add] in Hi. f_equal.
    - apply nth_tab. apply Nat.div_lt_upper_bound; nia.
    - unfold vs2. clear - Hi Hl. rewrite <- (firstn_skipn (2 * n) pres) at 2. rewrite app_nth2 by (rewrite firstn_length; lia).
      rewrite firstn_length, Nat.min_l by lia. replace (2 * n + i - 2 * n) with i by lia.
      rewrite <- (firstn_skipn (2 * n) (skipn (2 * n) pres)) at 2. rewrite app_nth1 by (rewrite firstn_length, skipn_length; lia). reflexivity. }
  clear M5 M4 Hvs2. clear vs2.
  assert (Ed2' : mem h5 d2 = Some (full (tab 5 (n_dm0 N 2 angle)))) by (apply (step_mem _ _ _ _ _ _ S5 (proj1 S4) Ed2); lia).
  (* pre4 *)
  set (m4 := if fourth then _ else ret NULL).
  assert (D4 : exists h6 pre4, m4 h5 = Some (pre4, h6) /\ step h5 h6 nothing (if fourth then 1 else 0) /\
                (if fourth then next h5 <= pre4 /\ mem h6 d4 = Some (full (tab 9 (n_dm0 N 4 angle))) /\
                   mem h6 pre4 = Some (full (tab (4 * n) (fun i => mul (n_dm0 N 4 angle (i / n)) (nth i pres zero))))
                 else pre4 = NULL)).
  { unfold m4. destruct fourth.
    - destruct P4 as (G4 & P4).
      destruct (fill_ok h5 (4 * n) pres (proj1 S5) Hl) as (E1 & E2 & S6 & M6 & N6).
      run E1. match type of E2 with store _ _ _ ?x = _ => set (h5' := x) in * end.
      assert (Sh5' : step h5 h5' nothing 1) by (apply step_alloc, S5).
      assert (R1 : read pre 0 (4 * n) h5' = Some (pres, h5')).
      { rewrite (read_full _ _ h5' pre pres 0 (4 * n)); [|apply (step_mem _ _ _ _ _ _ Sh5' (proj1 S5) Epres5); auto | lia].
        cbn [skipn]. rewrite firstn_all2 by lia. reflexivity. }
      run R1. run E2. set (h6 := set_h _ _ _) in *. clearbody h6.
      assert (P5 : mem h5 d4 = Some (full (tab 9 (n_dm0 N 4 angle)))).
      { apply (step_mem _ _ _ _ _ _ S5 (proj1 S4)).
        - apply (step_mem _ _ _ _ _ _ S4 (proj1 S3)); [exact P4 | auto].
        - intros Hq. pose proof (proj1 (sane_lt _ _ h3 d4 _ (proj1 S3) P4)). unfold pre2 in *. lia. }
      assert (Ld4 : d4 < next h5) by (apply (sane_lt _ _ h5 d4 _ (proj1 S5) P5)).
      destruct (iter_scale _ _ N 4 n (tab 9 (n_dm0 N 4 angle)) pres d4 (next h5) 0 h6 (proj1 S6)) as (h7 & E7 & S7 & N7 & M7).
      + lia.
      + apply (step_mem _ _ _ _ _ _ S6 (proj1 S5) P5). auto.
      + rewrite length_tab; lia.
      + lia.
      + rewrite M6. do 2 f_equal. apply nth_ext_tab with (N := N); [lia|]. intros i _. reflexivity.
      + run E7. exists h7, (next h5). split; [reflexivity|]. split.
        * eapply step_trans; [exact S6 | exact S7 | auto | intros a Ha <-; lia | reflexivity].
        * split; [lia|]. split.
          -- apply (step_mem _ _ _ _ _ _ S7 (proj1 S6)); [apply (step_mem _ _ _ _ _ _ S6 (proj1 S5) P5); auto | lia].
          -- rewrite M7. do 2 f_equal. apply tab_ext. intros i Hi. cbn [Nat.add] in Hi. f_equal.
             apply nth_tab. apply Nat.div_lt_upper_bound; nia.
    - exists h5, NULL. split; [reflexivity|]. split; [apply step_refl, S5 | reflexivity]. }
  destruct D4 as (h6 & pre4 & E6 & S6 & P6). run E6. clear E6. clear m4.
  (* the structure *)
  assert (Lpp : pp < next h) by (apply (sane_lt _ _ h pp _ Sn Ep)).
  assert (St : step h h6 nothing (angle_tables fourth)).
  { eapply step_trans with (W1 := nothing) (W2 := nothing); [exact S2 | | auto | auto |].
    - eapply step_trans with (W1 := nothing) (W2 := nothing); [exact S3 | | auto | auto |].
      + eapply step_trans with (W1 := nothing) (W2 := fun a => a = pre2); [exact S4 | | auto | |].
        * eapply step_trans with (W1 := fun a => a = pre2) (W2 := nothing); [eapply step_weaken; [exact S5|] | exact S6 | auto | | reflexivity].
          -- intros a _ ->. reflexivity.
          -- intros a _ [].
        * intros a Ha ->. lia.
        * reflexivity.
      + reflexivity.
    - destruct fourth; reflexivity. }
  assert (Ep6 : mem h6 pp = Some (Plan V p)) by (apply (step_mem _ _ _ _ _ _ St Sn Ep); auto).
  assert (G2 : next h <= next h2 /\ next h2 <= next h3 /\ next h3 <= next h4 /\ next h4 <= next h5 /\ next h5 <= next h6).
  { destruct S2 as (_ & ? & _), S3 as (_ & ? & _), S4 as (_ & ? & _), S5 as (_ & ? & _), S6 as (_ & ? & _). auto. }
  assert (K6 : forall a b, mem h6 a = Some b -> pp <> a -> mem (set_h h6 pp (Plan V (after_angle p angle d2 d4 pre2 pre4))) a = Some b).
  { intros a b E Ne. cbn. rewrite upd_other by congruence. exact E. }
  exists (set_h h6 pp (Plan V (after_angle p angle d2 d4 pre2 pre4))), d2, d4, pre2, pre4.
  split; [unfold put; rewrite Ep6; reflexivity|].
  split; [eapply step_trans; [exact St | apply (step_set _ _ h6 pp _ _ (proj1 St) Ep6) | intros ? ? [] | auto | lia]|].
  split; [cbn; apply upd_same|]. split; [unfold d2; lia|]. split; [unfold pre2; lia|].
  split; [apply K6; [apply (step_mem _ _ _ _ _ _ S6 (proj1 S5) Ed2'); auto | unfold d2 in *; lia]|].
  split; [apply K6; [apply (step_mem _ _ _ _ _ _ S6 (proj1 S5) M5'); auto | unfold d2 in *; lia]|].
  destruct fourth; [|auto]. destruct P4 as (G4 & P4), P6 as (G6 & Q6 & R6).
  split; [lia|]. split; [lia|]. split; apply K6; auto; lia.
Qed.

(** ** A plan with all its tables *)
Definition holds (h : heap) (o : option ptr) (vs : list V) : Prop := exists a, o = Some a /\ mem h a = Some (full vs).
Definition somes (l : list (option ptr)) : list ptr := flat_map (fun o => match o with Some a => [a] | None => [] end) l.
(** The plan structure and its tables. *)
Definition ptrs (q : ptr) (p : plan_s T) : list ptr :=
  q :: somes ([p_vrfreq p; p_pre p; p_norm p; p_d2 p; p_pre2 p] ++ (if p_fourth p then [p_d4 p; p_pre4 p] else [])).
(** The plan at [q] is [p], and its tables are those of the frequency [vr] and the angle [angle]; [ws]: the normalised weights. *)
Definition plan_at (ws : list V) (octants total : nat) (fourth : bool) (n : nat) (h : heap) (q : ptr) (p : plan_s T) (vr angle : T) : Prop :=
  mem h q = Some (Plan V p) /\ p_nsb p = n /\ p_vr p = vr /\ p_angle p = angle /\ p_fourth p = fourth /\ p_size p = total * n /\
  p_octants p = octants /\
  holds h (p_vrfreq p) (tab n (n_vr_table N n vr)) /\ holds h (p_pre p) (tab (4 * n) (n_phase_table N n vr)) /\ holds h (p_norm p) ws /\
  holds h (p_d2 p) (tab 5 (n_dm0 N 2 angle)) /\
  holds h (p_pre2 p) (tab (2 * n) (fun i => mul (n_dm0 N 2 angle (i / n)) (n_phase_table N n vr (2 * n + i)))) /\
  (if fourth then holds h (p_d4 p) (tab 9 (n_dm0 N 4 angle)) /\
                  holds h (p_pre4 p) (tab (4 * n) (fun i => mul (n_dm0 N 4 angle (i / n)) (n_phase_table N n vr i)))
   else p_d4 p = Some NULL /\ p_pre4 p = Some NULL).

Lemma plan_at_frame : forall ws octants total fourth n h h' q p vr angle, plan_at ws octants total fourth n h q p vr angle ->
  (forall a, In a (ptrs q p) -> mem h' a = mem h a) -> plan_at ws octants total fourth n h' q p vr angle.
Proof.
  intros ws octants total fourth n h h' q p vr angle (E & En & Ev & Ea & Ef & Es & Eo & H1 & H2 & H3 & H4 & H5 & H6) Fr.
  assert (K : forall o vs, In o ([p_vrfreq p; p_pre p; p_norm p; p_d2 p; p_pre2 p] ++ (if p_fourth p then [p_d4 p; p_pre4 p] else [])) ->
              holds h o vs -> holds h' o vs).
  { intros o vs Io (a & -> & Em). exists a. split; [reflexivity|]. rewrite Fr; [exact Em|]. right. unfold somes. apply in_flat_map.
    exists (Some a). split; [exact Io | left; reflexivity]. }
  unfold plan_at. rewrite Fr by (left; reflexivity). do 7 (split; [assumption|]).
  do 5 (split; [apply K; [cbn; auto 10 | assumption]|]).
  rewrite Ef in K. destruct fourth; [|exact H6]. destruct H6 as [H6 H7]. split; apply K; auto; cbn; auto 10.
Qed.
Lemma plan_at_lt : forall ws octants total fourth n h q p vr angle a, sane h -> plan_at ws octants total fourth n h q p vr angle ->
  In a (ptrs q p) -> exists b, mem h a = Some b.
Proof.
  intros ws octants total fourth n h q p vr angle a Sn (E & En & Ev & Ea & Ef & Es & Eo & H1 & H2 & H3 & H4 & H5 & H6) I.
  destruct H1 as (a1 & E1 & M1), H2 as (a2 & E2 & M2), H3 as (a3 & E3 & M3), H4 as (a4 & E4 & M4), H5 as (a5 & E5 & M5).
  unfold ptrs in I. rewrite E1, E2, E3, E4, E5, Ef in I.
  destruct fourth.
  - destruct H6 as ((a6 & E6 & M6) & (a7 & E7 & M7)). rewrite E6, E7 in I. cbn in I.
    repeat (destruct I as [<-|I]; [eauto|]). destruct I.
  - cbn in I. repeat (destruct I as [<-|I]; [eauto|]). destruct I.
Qed.

Lemma update_frequency_ok : forall (h : heap) pp p vr, sane h -> mem h pp = Some (Plan V p) ->
  exists h' p', update_from_rotor_frequency N pp vr h = Some (tt, h') /\ step h h' (eq pp) (2 + angle_tables (p_fourth p)) /\
    (forall a, In a (ptrs pp p') -> a = pp \/ p_norm p = Some a \/ next h <= a) /\
    (forall ws octants total, p_size p = total * p_nsb p -> p_octants p = octants -> holds h (p_norm p) ws -> p_norm p <> Some pp ->
       plan_at ws octants total (p_fourth p) (p_nsb p) h' pp p' vr (p_angle p)).
Proof.
  intros h pp p vr Sn Ep. set (n := p_nsb p). unfold update_from_rotor_frequency.
  assert (L0 : load_plan pp h = Some (p, h)) by (unfold load_plan, load, bind; now rewrite Ep).
  run L0. fold n. clear L0.
  destruct (fill_ok h n (tab n (n_vr_table N n vr)) Sn (length_tab _ _ _)) as (E1 & E2 & S1 & M1 & N1).
  set (vf := next h) in *. set (h1 := set_h _ vf _) in *.
  assert (G : get_frequency_in_FFT_order N n vr h = Some (vf, h1)).
  { unfold get_frequency_in_FFT_order. run E1. run E2. reflexivity. }
  run G. clear G E1 E2. clearbody h1.
  destruct (fill_ok h1 (4 * n) (tab (4 * n) (n_phase_table N n vr)) (proj1 S1) (length_tab _ _ _)) as (E1 & E2 & S2 & M2 & N2).
  set (pr := next h1) in *. run E1. unfold get_components. run E2. set (h2 := set_h _ pr _) in *. clearbody h2. clear E1 E2.
  assert (S12 : step h h2 nothing 2) by (eapply step_trans; [exact S1 | exact S2 | auto | auto | reflexivity]).
  assert (Ep2 : mem h2 pp = Some (Plan V p)) by (apply (step_mem _ _ _ _ _ _ S12 Sn Ep); auto).
  assert (Lpp : pp < next h) by (apply (sane_lt _ _ h pp _ Sn Ep)).
  set (p3 := Build_plan_s _ _ _ _ _ _ _ _ _ _ _ _ _).
  pose proof (step_set _ _ h2 pp _ (Plan V p3) (proj1 S12) Ep2) as S3. set (h3 := set_h h2 pp (Plan V p3)) in *.
  assert (E3 : put pp (Plan V p3) h2 = Some (tt, h3)) by (unfold put; now rewrite Ep2). run E3.
  assert (Ep3 : mem h3 pp = Some (Plan V p3)) by (cbn; apply upd_same).
  assert (Epr3 : mem h3 pr = Some (full (tab (4 * n) (n_phase_table N n vr)))) by (apply (step_mem _ _ _ _ _ _ S3 (proj1 S12) M2); lia).
  assert (Evf3 : mem h3 vf = Some (full (tab n (n_vr_table N n vr)))).
  { apply (step_mem _ _ _ _ _ _ S3 (proj1 S12)); [apply (step_mem _ _ _ _ _ _ S2 (proj1 S1) M1); auto | unfold vf; lia]. }
  clearbody h3. clear E3.
  destruct (update_angle_ok h3 pp p3 pr _ (p_angle p) (p_fourth p) (proj1 S3) Ep3 eq_refl Epr3) as
    (h4 & d2 & d4 & pre2 & pre4 & E4 & S4 & Ep4 & G2 & Gp2 & M4 & Mp & P4).
  { cbn. apply length_tab. }
  cbn [p_nsb p3] in Mp, P4. fold n in Mp, P4.
  assert (St : step h h4 (eq pp) (2 + angle_tables (p_fourth p))).
  { eapply step_trans with (W1 := nothing) (W2 := eq pp); [exact S12 | | intros ? ? [] | auto | reflexivity].
    eapply step_trans; [exact S3 | exact S4 | auto | auto | reflexivity]. }
  assert (G3 : next h <= next h1 /\ next h1 <= next h3).
  { destruct S1 as (_ & ? & _), S2 as (_ & ? & _), S3 as (_ & ? & _). lia. }
  exists h4, (after_angle p3 (p_angle p) d2 d4 pre2 pre4). split; [exact E4|]. split; [exact St|]. split.
  - intros a I. unfold ptrs in I. cbn in I. destruct I as [I|[I|[I|I]]]; [left; congruence | right; right; unfold vf in I; lia | right; right; unfold pr in I; lia |].
    destruct (p_norm p) as [nm|].
    + cbn in I. destruct I as [I|[I|[I|I]]]; [right; left; congruence | right; right; lia | right; right; lia |].
      destruct (p_fourth p); cbn in I; [|destruct I]. destruct P4 as (? & ? & _). destruct I as [I|[I|[]]]; right; right; lia.
    + cbn in I. destruct I as [I|[I|I]]; [right; right; lia | right; right; lia |].
      destruct (p_fourth p); cbn in I; [|destruct I]. destruct P4 as (? & ? & _). destruct I as [I|[I|[]]]; right; right; lia.
  - intros ws octants total Hs Ho (nm & Enm & Mnm) Hne.
    assert (Lnm : nm < next h) by (apply (sane_lt _ _ h nm _ Sn Mnm)).
    assert (Hne' : nm <> pp) by congruence.
    unfold plan_at. split; [exact Ep4|]. cbn [p_nsb p_vr p_angle p_fourth p_size p_octants after_angle p3 p_vrfreq p_pre p_norm p_d2 p_pre2 p_d4 p_pre4].
    do 6 (split; [auto|]).
    split; [exists vf; split; [reflexivity|]; apply (step_mem _ _ _ _ _ _ S4 (proj1 S3) Evf3); unfold vf; lia|].
    split; [exists pr; split; [reflexivity|]; apply (step_mem _ _ _ _ _ _ S4 (proj1 S3) Epr3); unfold pr; lia|].
    split; [exists nm; split; [exact Enm|]; apply (step_mem _ _ _ _ _ _ St Sn Mnm); congruence|].
    split; [exists d2; auto|].
    split.
    { exists pre2. split; [reflexivity|]. rewrite Mp. do 2 f_equal. apply tab_ext. intros i Hi. f_equal. apply nth_tab. lia. }
    destruct (p_fourth p).
    + destruct P4 as (_ & _ & P4 & Q4). split; [exists d4; auto|]. exists pre4. split; [reflexivity|]. rewrite Q4. do 2 f_equal. apply tab_ext.
      intros i Hi. f_equal. apply nth_tab. lia.
    + destruct P4 as [-> ->]. auto.
Qed.
End Plans.
