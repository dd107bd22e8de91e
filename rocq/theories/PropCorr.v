(** Property theorems about the methods on spin systems with any number of sites (C101; the general cases of C29 and C70). *)
From Coq Require Import ZArith QArith Bool String Qcanon Lia List Sorted Permutation.
From Verif Require Import Base PathwayModel PathwayProofs QueryProofs SelectProofs PropPathway MethodsModel MethodsProofs MethodsSelect CorrModel CorrSpec CorrProofs.
Import ListNotations.
Open Scope Qc_scope.

Lemma pathways_1 sp channels isotopes spins q v h (S : list Qc * list Qc -> Prop) : tcontents h q v ->
  (exists sel, fst (event_transitions sp channels isotopes (all_transitions spins) q h) = Ok sel /\ NoDup sel /\ forall t, In t sel <-> S t) ->
  exists ps, fst (get_pathways_np sp channels isotopes spins [q] h) = Ok ps /\ NoDup ps /\ forall w, In w ps <-> exists t, w = [t] /\ S t.
Proof.
  intros C (s & E & N & H). rewrite (C13_pathways sp channels isotopes spins [q] [v] h ltac:(discriminate) ltac:(repeat (apply Forall2_cons; [assumption|]); apply Forall2_nil)). cbn [mapM]. rewrite E. cbn [bind].
  eexists. split; [reflexivity|]. destruct (C13_all_choices _ [s]) as (IN & ND & _). split; [apply ND; repeat constructor; auto|].
  intros w. rewrite IN. split.
  - intros F. inversion F as [|t ? ? ? Ht F']; subst. inversion F'; subst. exists t. split; [reflexivity|now apply H].
  - intros (t & -> & St). constructor; [now apply H|constructor].
Qed.
Lemma pathways_2 sp channels isotopes spins q1 q2 v1 v2 h (S1 S2 : list Qc * list Qc -> Prop) : tcontents h q1 v1 -> tcontents h q2 v2 ->
  (exists sel, fst (event_transitions sp channels isotopes (all_transitions spins) q1 h) = Ok sel /\ NoDup sel /\ forall t, In t sel <-> S1 t) ->
  (exists sel, fst (event_transitions sp channels isotopes (all_transitions spins) q2 h) = Ok sel /\ NoDup sel /\ forall t, In t sel <-> S2 t) ->
  exists ps, fst (get_pathways_np sp channels isotopes spins [q1; q2] h) = Ok ps /\ NoDup ps /\ forall w, In w ps <-> exists t1 t2, w = [t1; t2] /\ S1 t1 /\ S2 t2.
Proof.
  intros C1 C2 (s1 & E1 & N1 & H1) (s2 & E2 & N2 & H2).
  rewrite (C13_pathways sp channels isotopes spins [q1; q2] [v1; v2] h ltac:(discriminate) ltac:(repeat (apply Forall2_cons; [assumption|]); apply Forall2_nil)). cbn [mapM]. rewrite E1. cbn [bind]. rewrite E2. cbn [bind].
  eexists. split; [reflexivity|]. destruct (C13_all_choices _ [s1; s2]) as (IN & ND & _). split; [apply ND; repeat constructor; auto|].
  intros w. rewrite IN. split.
  - intros F. inversion F as [|t1 ? ? ? Ht1 F1]; subst. inversion F1 as [|t2 ? ? ? Ht2 F2]; subst. inversion F2; subst. exists t1, t2. split; [reflexivity|]. split; [now apply H1|now apply H2].
  - intros (t1 & t2 & -> & St1 & St2). constructor; [now apply H1|]. constructor; [now apply H2|constructor].
Qed.
Lemma minus_one : of_int (-1) = - (1).
Proof. apply Qc_is_canon. reflexivity. Qed.
Lemma lower_iff a b : lower a b <-> In (b - a) [of_int (-1)] /\ forall l : list Qc, None = Some l -> In (b * b - a * a) l.
Proof.
  unfold lower. rewrite minus_one. split.
  - intros ->. split; [left; ring|discriminate].
  - intros [[E|[]] _]. replace b with (b - a + a) by ring. rewrite <- E. ring.
Qed.
Lemma select_lower sp (Hp : lists_permutations sp) c isotopes spins q h : tcontents h q (values_of BlochDecay_query) ->
  List.length isotopes = List.length spins -> In c isotopes ->
  exists sel, fst (event_transitions sp [c] isotopes (all_transitions spins) q h) = Ok sel /\ NoDup sel /\
    forall t, In t sel <-> In t (all_transitions spins) /\ one_site isotopes c lower t.
Proof.
  intros C L I. apply (select_one_site sp Hp c isotopes spins q h [of_int (-1)] None lower); auto.
  - discriminate.
  - rewrite minus_one. intros [E|[]]. discriminate.
  - discriminate.
  - apply lower_iff.
Qed.
Lemma half_int z : half (2 * z) = of_int z.
Proof. unfold half, of_int. apply Qc_is_canon. unfold Q2Qc. cbn [this]. rewrite !Qred_correct. unfold Qeq, inject_Z, Qplus, Qminus, Qopp. cbn [Qnum Qden]. lia. Qed.
Lemma half_double z : half z + half z = of_int z.
Proof. unfold half, of_int. apply Qc_is_canon. unfold Qcplus, Q2Qc. cbn [this]. rewrite !Qred_correct. unfold Qeq, inject_Z, Qplus, Qminus, Qopp. cbn [Qnum Qden]. lia. Qed.
Lemma half_opp z : half (- z) = - half z.
Proof. unfold half. apply Qc_is_canon. unfold Qcopp, Q2Qc. cbn [this]. rewrite !Qred_correct. unfold Qeq, inject_Z, Qplus, Qminus, Qopp. cbn [Qnum Qden]. lia. Qed.
Lemma half_minus z : half (z - 2) = half z - 1.
Proof. unfold half. apply Qc_is_canon. unfold Qcminus, Qcplus, Qcopp, Q2Qc. cbn [this]. rewrite !Qred_correct. unfold Qeq, inject_Z, Qplus, Qminus, Qopp. cbn [Qnum Qden]. lia. Qed.
Lemma double_inj (x y : Qc) : x + x = y + y -> x = y.
Proof. intros H. replace x with ((x + x) * half 1); [rewrite H|]. all: assert (D : half 1 + half 1 = 1) by (rewrite half_double; apply Qc_is_canon; reflexivity). 2: { transitivity (x * (half 1 + half 1)); [ring|]. rewrite D. ring. }
  transitivity (y * (half 1 + half 1)); [ring|]. rewrite D. ring. Qed.
Lemma of_int_inj a b : of_int a = of_int b -> a = b.
Proof. intros H. rewrite <- !half_int in H. apply half_eq in H. lia. Qed.
(** A change of p with the square unchanged. *)
Lemma symmetric_iff p a b : (p <> 0)%Z -> (from_to (half (- p)) (half p) a b <-> In (b - a) [of_int p] /\ forall l, Some [0 : Qc] = Some l -> In (b * b - a * a) l).
Proof.
  intros NZ. unfold from_to. rewrite half_opp, <- half_double. split.
  - intros (-> & ->). split; [left; ring|]. intros l [= <-]. left. ring.
  - intros ([E|[]] & D). destruct (D _ eq_refl) as [Z|[]]. symmetry in Z.
    assert (K : (b - a) * (b + a) = 0) by (rewrite <- Z; ring). apply Qcmult_integral in K. destruct K as [K|K].
    + rewrite K in E. exfalso. apply NZ. apply of_int_inj. rewrite <- half_double, E. reflexivity.
    + assert (A : a = - b) by (replace a with (b + a - b) by ring; rewrite K; ring). subst a.
      assert (B : b = half p) by (apply double_inj; rewrite E; ring). subst b. split; reflexivity.
Qed.
Lemma select_symmetric sp (Hp : lists_permutations sp) c isotopes spins q h p : (p <> 0)%Z -> tcontents h q (values_of (channel1 [[of_int p]], channel1 [[0]])) ->
  List.length isotopes = List.length spins -> In c isotopes ->
  exists sel, fst (event_transitions sp [c] isotopes (all_transitions spins) q h) = Ok sel /\ NoDup sel /\
    forall t, In t sel <-> In t (all_transitions spins) /\ one_site isotopes c (from_to (half (- p)) (half p)) t.
Proof.
  intros NZ C L I. apply (select_one_site sp Hp c isotopes spins q h [of_int p] (Some [0])); auto.
  - discriminate.
  - intros [E|[]]. apply NZ, of_int_inj. exact E.
  - intros l [= <-]. discriminate.
  - intros a b. now apply symmetric_iff.
Qed.
(** The satellite transitions st -> st - 1 and 1 - st -> - st. *)
Definition satellite (st2 : Z) (a b : Qc) : Prop := from_to (half st2) (half (st2 - 2)) a b \/ from_to (half (2 - st2)) (half (- st2)) a b.
Lemma satellite_iff st2 a b : satellite st2 a b <-> In (b - a) [of_int (-1)] /\ forall l, Some [of_int (st2 - 1); of_int (- (st2 - 1))] = Some l -> In (b * b - a * a) l.
Proof.
  unfold satellite, from_to. replace (2 - st2)%Z with (- (st2 - 2))%Z by lia. rewrite !half_opp, half_minus, minus_one.
  assert (E1 : of_int (st2 - 1) = half st2 + half st2 - 1) by (rewrite half_double; unfold of_int; apply Qc_is_canon; unfold Qcminus, Qcplus, Qcopp, Q2Qc; cbn [this]; rewrite !Qred_correct; unfold Qeq, inject_Z, Qplus, Qminus, Qopp; cbn [Qnum Qden]; lia).
  assert (E2 : of_int (- (st2 - 1)) = 1 - (half st2 + half st2)) by (rewrite half_double; unfold of_int; apply Qc_is_canon; unfold Qcminus, Qcplus, Qcopp, Q2Qc; cbn [this]; rewrite !Qred_correct; unfold Qeq, inject_Z, Qplus, Qminus, Qopp; cbn [Qnum Qden]; lia).
  rewrite E1, E2. split.
  - intros [(-> & ->)|(-> & ->)]; (split; [left; ring|]); intros l [= <-]; [right; left; ring|left; ring].
  - intros ([E|[]] & D). assert (B : b = a - 1) by (replace b with (b - a + a) by ring; rewrite <- E; ring). subst b.
    destruct (D _ eq_refl) as [K|[K|[]]].
    + right. assert (A : a = - (half st2 - 1)) by (apply double_inj; replace (a + a) with (1 - ((a - 1) * (a - 1) - a * a)) by ring; rewrite <- K; ring). subst a. split; [reflexivity|ring].
    + left. assert (A : a = half st2) by (apply double_inj; replace (a + a) with (1 - ((a - 1) * (a - 1) - a * a)) by ring; rewrite <- K; ring). subst a. split; reflexivity.
Qed.

(** ** C101 *)
(** Cosy: every pair of transitions that each lower one site of the isotope and leave the rest alone, once each. *)
Theorem C101_cosy : forall (set_perms : list Qc -> list (list Qc)), lists_permutations set_perms ->
  forall (c : string) (isotopes : list string) (spins : list nat) tqs h,
  List.length isotopes = List.length spins -> In c isotopes -> Forall2 (tcontents h) tqs (map values_of Cosy_queries) ->
  exists ps, fst (get_pathways_np set_perms [c] isotopes spins tqs h) = Ok ps /\ NoDup ps /\
    forall w, In w ps <-> exists t1 t2, w = [t1; t2] /\
      (In t1 (all_transitions spins) /\ one_site isotopes c lower t1) /\ (In t2 (all_transitions spins) /\ one_site isotopes c lower t2).
Proof.
  intros sp Hp c isotopes spins tqs h L I F. inversion F as [|q1 ? l1 ? C1 F1]; subst. inversion F1 as [|q2 ? l2 ? C2 F2]; subst. inversion F2; subst.
  eapply pathways_2; [exact C1|exact C2| |]; apply select_lower; auto.
Qed.
Print Assumptions C101_cosy.
(** Inadequate, when the spin system has two sites of the isotope or more: two sites lowered together, then one. *)
Theorem C101_inadequate_partial : forall (set_perms : list Qc -> list (list Qc)), lists_permutations set_perms ->
  forall (c : string) (isotopes : list string) (spins : list nat) tqs h,
  List.length isotopes = List.length spins -> (2 <= count_occ string_dec isotopes c)%nat -> Forall2 (tcontents h) tqs (map values_of Inadequate_queries) ->
  exists ps, fst (get_pathways_np set_perms [c] isotopes spins tqs h) = Ok ps /\ NoDup ps /\
    forall w, In w ps <-> exists t1 t2, w = [t1; t2] /\
      (In t1 (all_transitions spins) /\ two_sites isotopes c lower t1) /\ (In t2 (all_transitions spins) /\ one_site isotopes c lower t2).
Proof.
  intros sp Hp c isotopes spins tqs h L N F. inversion F as [|q1 ? l1 ? C1 F1]; subst. inversion F1 as [|q2 ? l2 ? C2 F2]; subst. inversion F2; subst.
  assert (I : In c isotopes) by (apply (count_occ_In string_dec); lia).
  eapply pathways_2; [exact C1|exact C2| |]; [|apply select_lower; auto].
  destruct (select_two_sites sp Hp c isotopes spins q1 h (of_int (-1)) C1 L N) as (sel & E & U & S). exists sel. split; [exact E|]. split; [exact U|].
  intros t. rewrite S. apply and_iff_compat_l. unfold two_sites, lower. rewrite minus_one.
  assert (Q : forall a b : Qc, b - a = - (1) <-> b = a - 1) by (intros a b; split; [intros H; replace b with (b - a + a) by ring; rewrite H; ring|intros ->; ring]).
  split; intros (i & j & H1 & H2 & H3 & H4 & H5 & H6); exists i, j; (split; [exact H1|split; [exact H2|split; [exact H3|split; [now apply Q|split; [now apply Q|exact H6]]]]]).
Qed.
Print Assumptions C101_inadequate_partial.
(** A spin system with one site of the isotope does not count as one without pathways: the computation fails, and with it the run. *)
Theorem C101_lone_site_refuted : forall (set_perms : list Qc -> list (list Qc)) (c : string) (isotopes : list string) (spins : list nat) tqs h,
  count_occ string_dec isotopes c = 1%nat -> Forall2 (tcontents h) tqs (map values_of Inadequate_queries) ->
  fst (get_pathways_np set_perms [c] isotopes spins tqs h) = Err ValueError.
Proof.
  intros sp c isotopes spins tqs h N F. rewrite (C13_pathways sp [c] isotopes spins tqs _ h) with (2 := F); [|intros ->; inversion F].
  inversion F as [|q1 ? l1 ? C1 F1]; subst. cbn [mapM].
  rewrite (C12_long_item_rejected sp c isotopes (all_transitions spins) q1 _ _ _ h C1 ltac:(apply (count_occ_In string_dec); lia) eq_refl eq_refl); [reflexivity|].
  constructor. unfold n_channel_sites. rewrite N. cbn. lia.
Qed.
Print Assumptions C101_lone_site_refuted.

(** ** C70 with any number of sites *)
(** BlochDecaySpectrum *)
Theorem C70_bloch_decay_sites : forall (set_perms : list Qc -> list (list Qc)), lists_permutations set_perms ->
  forall (c : string) (isotopes : list string) (spins : list nat) tq h,
  List.length isotopes = List.length spins -> In c isotopes -> tcontents h tq (values_of BlochDecay_query) ->
  exists ps, fst (get_pathways_np set_perms [c] isotopes spins [tq] h) = Ok ps /\ NoDup ps /\
    forall w, In w ps <-> exists t, w = [t] /\ In t (all_transitions spins) /\ one_site isotopes c lower t.
Proof. intros sp Hp c isotopes spins tq h L I C. eapply pathways_1; [exact C|]. apply select_lower; auto. Qed.
Print Assumptions C70_bloch_decay_sites.
(** BlochDecayCTSpectrum *)
Theorem C70_bloch_decay_ct_sites : forall (set_perms : list Qc -> list (list Qc)), lists_permutations set_perms ->
  forall (c : string) (isotopes : list string) (spins : list nat) tq h,
  List.length isotopes = List.length spins -> In c isotopes -> tcontents h tq (values_of BlochDecayCT_query) ->
  exists ps, fst (get_pathways_np set_perms [c] isotopes spins [tq] h) = Ok ps /\ NoDup ps /\
    forall w, In w ps <-> exists t, w = [t] /\ In t (all_transitions spins) /\ one_site isotopes c (from_to (half 1) (half (-1))) t.
Proof. intros sp Hp c isotopes spins tq h L I C. eapply pathways_1; [exact C|]. apply (select_symmetric sp Hp c isotopes spins tq h (-1)); auto; discriminate. Qed.
Print Assumptions C70_bloch_decay_ct_sites.

(** ** C29 with any number of sites *)
Theorem C29_mq_sites : forall (set_perms : list Qc -> list (list Qc)), lists_permutations set_perms ->
  forall (name c : string) (mq2 : Z) (n : nat) (affine : option (list Qc)) (isotopes : list string) (spins : list nat) queries a tqs h,
  In (name, mq2) [("ThreeQ_VAS"%string, 3%Z); ("FiveQ_VAS"%string, 5%Z); ("SevenQ_VAS"%string, 7%Z)] ->
  List.length isotopes = List.length spins -> In c isotopes ->
  MQ_update name (half (Z.of_nat n)) affine = Ok (queries, a) -> Forall2 (tcontents h) tqs (map values_of queries) ->
  exists ps, fst (get_pathways_np set_perms [c] isotopes spins tqs h) = Ok ps /\ NoDup ps /\
    forall w, In w ps <-> exists t1 t2, w = [t1; t2] /\
      (In t1 (all_transitions spins) /\
       one_site isotopes c (if Z.eqb mq2 (Z.of_nat n) then from_to (half mq2) (half (- mq2)) else from_to (half (- mq2)) (half mq2)) t1) /\
      (In t2 (all_transitions spins) /\ one_site isotopes c (from_to (half 1) (half (-1))) t2).
Proof.
  intros sp Hp name c mq2 n affine isotopes spins queries a tqs h HN L I U F.
  assert (U' : queries = [(channel1 [[of_int (if Z.eqb mq2 (Z.of_nat n) then - mq2 else mq2)]], channel1 [[0]]); (channel1 [[of_int (-1)]], channel1 [[0]])]).
  { assert (E : qc_eqb (half mq2) (half (Z.of_nat n)) = Z.eqb mq2 (Z.of_nat n)).
    { unfold qc_eqb. destruct (Qc_eq_dec _ _) as [E|E]; rewrite half_eq in E; symmetry; [apply Z.eqb_eq|apply Z.eqb_neq]; auto. }
    unfold MQ_update in U. assert (L' : lookup String.eqb MQ_p_symmetry name = Ok (half mq2)) by (destruct HN as [[= <- <-]|[[= <- <-]|[[= <- <-]|[]]]]; reflexivity).
    rewrite L' in U. cbn [bind] in U. assert (T : trunc (of_int 2 * half mq2) = mq2) by (destruct HN as [[= <- <-]|[[= <- <-]|[[= <- <-]|[]]]]; reflexivity).
    rewrite T, E in U. destruct (affine_of _ _ _ _) as [x|]; [|discriminate]. cbn [bind] in U. injection U as <- _. auto. }
  subst queries. cbn [map] in F. inversion F as [|q1 ? l1 ? C1 F1]; subst. inversion F1 as [|q2 ? l2 ? C2 F2]; subst. inversion F2; subst.
  assert (M3 : (3 <= mq2)%Z) by (destruct HN as [[= <- <-]|[[= <- <-]|[[= <- <-]|[]]]]; lia).
  eapply pathways_2; [exact C1|exact C2| |].
  - destruct (Z.eqb mq2 (Z.of_nat n)).
    + replace (from_to (half mq2) (half (- mq2))) with (from_to (half (- - mq2)) (half (- mq2))) by (rewrite Z.opp_involutive; reflexivity). apply (select_symmetric sp Hp); auto. lia.
    + apply (select_symmetric sp Hp); auto. lia.
  - apply (select_symmetric sp Hp c isotopes spins q2 h (-1)); auto; discriminate.
Qed.
Print Assumptions C29_mq_sites.
Theorem C29_st_sites : forall (set_perms : list Qc -> list (list Qc)), lists_permutations set_perms ->
  forall (name c : string) (st2 : Z) (n : nat) (affine : option (list Qc)) (isotopes : list string) (spins : list nat) queries a tqs h,
  In (name, st2) [("ST1_VAS"%string, 3%Z); ("ST2_VAS"%string, 5%Z)] ->
  List.length isotopes = List.length spins -> In c isotopes ->
  ST_update name (half (Z.of_nat n)) affine = Ok (queries, a) -> Forall2 (tcontents h) tqs (map values_of queries) ->
  exists ps, fst (get_pathways_np set_perms [c] isotopes spins tqs h) = Ok ps /\ NoDup ps /\
    forall w, In w ps <-> exists t1 t2, w = [t1; t2] /\
      (In t1 (all_transitions spins) /\
       one_site isotopes c (fun x y => from_to (half st2) (half (st2 - 2)) x y \/ from_to (half (2 - st2)) (half (- st2)) x y) t1) /\
      (In t2 (all_transitions spins) /\ one_site isotopes c (from_to (half 1) (half (-1))) t2).
Proof.
  intros sp Hp name c st2 n affine isotopes spins queries a tqs h HN L I U F.
  assert (U' : queries = [(channel1 [[of_int (-1)]], channel1 [[of_int (st2 - 1)]; [of_int (- (st2 - 1))]]); (channel1 [[of_int (-1)]], channel1 [[0]])]).
  { unfold ST_update in U. assert (L' : lookup String.eqb ST_p_symmetry name = Ok (half st2)) by (destruct HN as [[= <- <-]|[[= <- <-]|[]]]; reflexivity).
    rewrite L' in U. cbn [bind] in U. destruct (affine_of _ _ _ _) as [x|]; [|discriminate]. cbn [bind] in U. injection U as <- _.
    destruct HN as [[= <- <-]|[[= <- <-]|[]]]; repeat f_equal; apply Qc_is_canon; reflexivity. }
  subst queries. cbn [map] in F. inversion F as [|q1 ? l1 ? C1 F1]; subst. inversion F1 as [|q2 ? l2 ? C2 F2]; subst. inversion F2; subst.
  eapply pathways_2; [exact C1|exact C2| |].
  - apply (select_one_site sp Hp c isotopes spins q1 h [of_int (-1)] (Some [of_int (st2 - 1); of_int (- (st2 - 1))])); auto.
    + discriminate.
    + rewrite minus_one. intros [E|[]]. discriminate.
    + intros l [= <-]. discriminate.
    + intros x y. apply satellite_iff.
  - apply (select_symmetric sp Hp c isotopes spins q2 h (-1)); auto; discriminate.
Qed.
Print Assumptions C29_st_sites.

(** Query objects of the two methods, and the systems of their documentation: two 13C sites, 16 and 4 pathways. *)
Example C101_queries :
  Forall2 (tcontents [[of_int (-1)]; [of_int (-1)]]) [{| tq_P := Some [(1%nat, [0%nat])]; tq_D := None |}; {| tq_P := Some [(1%nat, [1%nat])]; tq_D := None |}] (map values_of Cosy_queries) /\
  Forall2 (tcontents [[of_int (-1); of_int (-1)]; [of_int (-1)]]) [{| tq_P := Some [(1%nat, [0%nat])]; tq_D := None |}; {| tq_P := Some [(1%nat, [1%nat])]; tq_D := None |}] (map values_of Inadequate_queries).
Proof. repeat constructor. Qed.
Example C101_counts :
  (exists ps, fst (get_pathways_np sp ["13C"]%string ["13C"; "13C"]%string [1; 1]%nat [{| tq_P := Some [(1%nat, [0%nat])]; tq_D := None |}; {| tq_P := Some [(1%nat, [1%nat])]; tq_D := None |}] [[of_int (-1)]; [of_int (-1)]]) = Ok ps /\ List.length ps = 16%nat) /\
  (exists ps, fst (get_pathways_np sp ["13C"]%string ["13C"; "13C"]%string [1; 1]%nat [{| tq_P := Some [(1%nat, [0%nat])]; tq_D := None |}; {| tq_P := Some [(1%nat, [1%nat])]; tq_D := None |}] [[of_int (-1); of_int (-1)]; [of_int (-1)]]) = Ok ps /\ List.length ps = 4%nat).
Proof. split; eexists; (split; [vm_compute; reflexivity|reflexivity]). Qed.
(** A transition of each kind, in a system with a site of another isotope. *)
Example C101_kinds :
  one_site ["13C"; "1H"; "13C"]%string "13C" lower ([half 1; half 1; half 1], [half 1; half 1; half (-1)]) /\
  two_sites ["13C"; "1H"; "13C"]%string "13C" lower ([half 1; half 1; half 1], [half (-1); half 1; half (-1)]) /\
  ~ one_site ["13C"; "1H"; "13C"]%string "13C" lower ([half 1; half 1; half 1], [half 1; half (-1); half 1]).
Proof.
  split; [|split].
  - exists 2%nat. split; [reflexivity|]. split; [unfold lower; apply Qc_is_canon; reflexivity|]. intros [|[|[|j]]] N; try reflexivity. congruence.
  - exists 0%nat, 2%nat. split; [discriminate|]. repeat (split; [try reflexivity; unfold lower; apply Qc_is_canon; reflexivity|]). intros [|[|[|j]]] N N'; try reflexivity; congruence.
  - intros (i & H & C & O). destruct (Nat.eq_dec i 1) as [->|N]; [discriminate|]. specialize (O 1%nat ltac:(congruence)). discriminate.
Qed.
