From Coq Require Import ZArith QArith Bool String Qcanon Lia List Sorted Permutation.
From Verif Require Import Base BaseProofs PathwayModel SimProofs PathwayProofs QueryProofs.
Import ListNotations.
Open Scope Qc_scope.

(** ** Specification notions *)
(** The values of a per-site vector on the sites of isotope [c]. *)
Definition channel_values (isotopes : list string) (c : string) (v : list Qc) : list Qc :=
  map snd (filter (fun iv => String.eqb (fst iv) c) (combine isotopes v)).
(** The values on all other sites. *)
Definition other_values (isotopes : list string) (c : string) (v : list Qc) : list Qc :=
  map snd (filter (fun iv => negb (String.eqb (fst iv) c)) (combine isotopes v)).
(** [v] matches one of the query items: on the channel's sites it is a rearrangement of the item completed with
    zeros, on the other sites it vanishes. *)
Definition matches (isotopes : list string) (c : string) (items : list (list Qc)) (v : list Qc) : Prop :=
  Forall (fun x => x = 0) (other_values isotopes c v) /\
  exists item zeros, In item items /\ Forall (fun x => x = 0) zeros /\
    Permutation (channel_values isotopes c v) (item ++ zeros).
(** Per-site change of m and of m squared of a transition (initial, final). *)
Definition delta_m (t : list Qc * list Qc) : list Qc := map (fun if_ => snd if_ - fst if_) (combine (fst t) (snd t)).
Definition delta_m2 (t : list Qc * list Qc) : list Qc :=
  map (fun if_ => snd if_ * snd if_ - fst if_ * fst if_) (combine (fst t) (snd t)).
Definition n_channel_sites (isotopes : list string) (c : string) : nat := count_occ string_dec isotopes c.
(** [set_perms] lists the distinct permutations, in an unknown order. *)
Definition lists_permutations (set_perms : list Qc -> list (list Qc)) : Prop :=
  forall l, NoDup (set_perms l) /\ forall p, In p (set_perms l) <-> Permutation p l.

(** ** Columns *)
Lemma set_columns_length idx vals row : List.length (set_columns row idx vals) = List.length row.
Proof.
  unfold set_columns. generalize (combine idx vals). intros l. revert row.
  induction l; intros row; simpl; auto. rewrite IHl, upd_nat_length. auto.
Qed.

Lemma nth_upd_same (l : list Qc) i x : (i < List.length l)%nat -> nth i (upd_nat l i x) 0 = x.
Proof. intros H. apply nth_error_nth. apply nth_error_upd_same; auto. Qed.
Lemma nth_upd_other (l : list Qc) i j x : i <> j -> nth j (upd_nat l i x) 0 = nth j l 0.
Proof.
  intros H. destruct (nth_error l j) as [y|] eqn:E.
  - rewrite (nth_error_nth l j 0 E). apply nth_error_nth. rewrite nth_error_upd_other; auto.
  - apply nth_error_None in E. rewrite !nth_overflow; auto. rewrite upd_nat_length. auto.
Qed.

Lemma set_columns_other idx vals row j : ~ In j idx -> nth j (set_columns row idx vals) 0 = nth j row 0.
Proof.
  unfold set_columns. revert vals row. induction idx as [|i idx IH]; intros vals row H; simpl; auto.
  destruct vals as [|v vals]; simpl; auto. rewrite IH by (intros Hi; apply H; simpl; auto).
  apply nth_upd_other. intros ->. apply H. simpl; auto.
Qed.
Lemma set_columns_at idx vals row : NoDup idx -> List.length vals = List.length idx -> Forall (fun i => (i < List.length row)%nat) idx ->
  map (fun i => nth i (set_columns row idx vals) 0) idx = vals.
Proof.
  intros N. revert vals row. induction N as [|i idx Hi N IH]; intros vals row L F.
  - destruct vals; [auto|discriminate].
  - destruct vals as [|v vals]; [discriminate|]. inversion F; subst. simpl map.
    f_equal.
    + unfold set_columns. simpl. fold (set_columns (upd_nat row i v) idx vals).
      rewrite set_columns_other by auto. apply nth_upd_same; auto.
    + apply (IH vals (upd_nat row i v)); auto. rewrite upd_nat_length. auto.
Qed.

(** ** Channel sites *)
Definition pick (idx : list nat) (v : list Qc) : list Qc := map (fun i => nth i v 0) idx.

Lemma iso_indexes_in isotopes c i : In i (iso_indexes isotopes c) <-> (i < List.length isotopes)%nat /\ nth i isotopes EmptyString = c.
Proof.
  unfold iso_indexes. rewrite filter_In, in_seq, String.eqb_eq. split; intros [A B]; split; auto; lia.
Qed.
Lemma iso_indexes_NoDup isotopes c : NoDup (iso_indexes isotopes c).
Proof. apply NoDup_filter, seq_NoDup. Qed.
Lemma iso_indexes_cons x isotopes c :
  iso_indexes (x :: isotopes) c = (if String.eqb x c then [0%nat] else []) ++ map S (iso_indexes isotopes c).
Proof.
  unfold iso_indexes. cbn [List.length seq filter]. rewrite <- seq_shift.
  assert (E : forall k, filter (fun i => String.eqb (nth i (x :: isotopes) EmptyString) c) (map S k)
     = map S (filter (fun i => String.eqb (nth i isotopes EmptyString) c) k)).
  { induction k as [|a k IH]; cbn [map filter]; auto. rewrite IH. cbn [nth]. destruct (String.eqb (nth a isotopes EmptyString) c); auto. }
  rewrite E. cbn [nth]. destruct (String.eqb x c); auto.
Qed.
Lemma iso_indexes_length isotopes c : List.length (iso_indexes isotopes c) = n_channel_sites isotopes c.
Proof.
  unfold n_channel_sites. induction isotopes as [|x isotopes IH]; auto.
  rewrite iso_indexes_cons, app_length, map_length, IH. simpl.
  destruct (String.eqb_spec x c), (string_dec x c); simpl; try congruence; auto.
Qed.
Lemma channel_values_pick isotopes c v : List.length v = List.length isotopes ->
  channel_values isotopes c v = pick (iso_indexes isotopes c) v.
Proof.
  unfold channel_values, pick. revert v. induction isotopes as [|x isotopes IH]; intros [|y v] L; try discriminate; auto.
  rewrite iso_indexes_cons, map_app, map_map. cbn [combine filter fst]. cbn [nth].
  rewrite <- IH by (simpl in L; lia). destruct (String.eqb x c); auto.
Qed.
Lemma other_values_zero isotopes c v : List.length v = List.length isotopes ->
  (Forall (fun x => x = 0) (other_values isotopes c v) <->
   forall i, (i < List.length isotopes)%nat -> ~ In i (iso_indexes isotopes c) -> nth i v 0 = 0).
Proof.
  unfold other_values. revert v. induction isotopes as [|x isotopes IH]; intros [|y v] L; try discriminate.
  - simpl. split; [intros; lia|constructor].
  - assert (Hc : forall i, In i (iso_indexes (x :: isotopes) c) <-> match i with O => x = c | S k => In k (iso_indexes isotopes c) end).
    { intros i. rewrite iso_indexes_in. destruct i as [|k]; simpl.
      - split; [tauto|]. split; auto; lia.
      - rewrite iso_indexes_in. split; intros [A B]; split; auto; lia. }
    cbn [combine filter fst]. specialize (IH v ltac:(simpl in L; lia)).
    assert (Hs : (forall i, (i < List.length (x :: isotopes))%nat -> ~ In i (iso_indexes (x :: isotopes) c) -> nth i (y :: v) 0 = 0) <->
       ((x <> c -> y = 0) /\ forall i, (i < List.length isotopes)%nat -> ~ In i (iso_indexes isotopes c) -> nth i v 0 = 0)).
    { split.
      - intros H. split.
        + intros Hx. apply (H 0%nat); [simpl; lia|]. rewrite Hc. auto.
        + intros i Hi Hn. apply (H (S i)); [simpl; lia|]. rewrite Hc. auto.
      - intros [H0 H] [|i] Hi Hn; rewrite Hc in Hn; simpl; auto. apply H; auto. simpl in Hi. lia. }
    rewrite Hs, <- IH. destruct (String.eqb_spec x c); simpl.
    + split; [intros F; split; [congruence|auto]|tauto].
    + split.
      * intros F. inversion F; auto.
      * intros [A B]. constructor; auto.
Qed.

(** ** Rows of a single-channel query *)
Section Select.
Variable set_perms : list Qc -> list (list Qc).
Hypothesis Hperms : lists_permutations set_perms.

Lemma set_perms_nonempty l : set_perms l <> [].
Proof. intros E. destruct (Hperms l) as [_ H]. specialize (proj2 (H l) (Permutation_refl l)). rewrite E. auto. Qed.

Lemma pure_items_ok n items : Forall (fun it => (List.length it <= n)%nat) items ->
  pure_items set_perms n items = Ok (flat_map (fun it => set_perms (pad n it)) items).
Proof.
  induction 1 as [|it items H F IH]; simpl; auto. destruct (Nat.ltb_spec n (List.length it)); [lia|]. rewrite IH. auto.
Qed.
Lemma pure_items_long n items : Exists (fun it => (n < List.length it)%nat) items -> pure_items set_perms n items = Err ValueError.
Proof.
  induction 1 as [it items H|it items E IH]; simpl.
  - destruct (Nat.ltb_spec n (List.length it)); [auto|lia].
  - destruct (n <? List.length it)%nat; auto. rewrite IH. auto.
Qed.

Definition query_ok (isotopes : list string) (c : string) (q : sym_query (list Qc)) (items : list (list Qc)) : Prop :=
  (exists d, q = Some d /\ dict_get d 1 = Ok items) /\ items <> [] /\
  Forall (fun it => (List.length it <= n_channel_sites isotopes c)%nat) items.

Lemma existsb_string c l : In c l -> existsb (String.eqb c) l = true.
Proof. intros H. apply existsb_exists. exists c. split; auto. apply String.eqb_refl. Qed.

Lemma combine_map_const {A B C} (f : A -> B -> C) (a : A) (l : list B) :
  map (fun rt => f (fst rt) (snd rt)) (combine (repeat a (List.length l)) l) = map (f a) l.
Proof. induction l; simpl; auto. f_equal; auto. Qed.

Lemma single_rows isotopes c q items : In c isotopes -> query_ok isotopes c q items ->
  pure_permutations set_perms q isotopes [c] =
  Ok (map (set_columns (repeat 0 (List.length isotopes)) (iso_indexes isotopes c))
          (flat_map (fun it => set_perms (pad (n_channel_sites isotopes c) it)) items)).
Proof.
  intros Hc [[d [-> Hd]] [Hne F]]. unfold pure_permutations. cbn [pure_loop].
  rewrite existsb_string by auto. cbn [negb bind Nat.add]. rewrite Hd. cbn [bind].
  rewrite iso_indexes_length, pure_items_ok by auto. cbn [bind].
  set (temp := flat_map _ items).
  assert (Ht : temp <> []).
  { unfold temp. destruct items as [|it items]; [tauto|]. simpl. intros E. apply app_eq_nil in E. destruct E as [E _].
    apply (set_perms_nonempty _ E). }
  unfold expand. cbn [fold_right combine for_each fst snd]. rewrite Nat.max_0_r.
  unfold assign_channel. destruct temp as [|t temp]; [tauto|]. destruct temp as [|t' temp].
  - auto.
  - rewrite repeat_length, Nat.eqb_refl. cbn [bind]. f_equal.
    rewrite (combine_map_const (fun row t => set_columns row (iso_indexes isotopes c) t)). auto.
Qed.

Lemma rows_spec isotopes c items v : List.length v = List.length isotopes ->
  Forall (fun it => (List.length it <= n_channel_sites isotopes c)%nat) items ->
  (In v (map (set_columns (repeat 0 (List.length isotopes)) (iso_indexes isotopes c))
          (flat_map (fun it => set_perms (pad (n_channel_sites isotopes c) it)) items)) <-> matches isotopes c items v).
Proof.
  intros L F. unfold matches. rewrite other_values_zero, channel_values_pick by auto.
  set (idx := iso_indexes isotopes c).
  assert (Hidx : Forall (fun i => (i < List.length isotopes)%nat) idx).
  { apply Forall_forall. intros i Hi. apply iso_indexes_in in Hi. tauto. }
  rewrite in_map_iff. split.
  - intros [t [<- Ht]]. apply in_flat_map in Ht. destruct Ht as [it [Hi Ht]].
    destruct (Hperms (pad (n_channel_sites isotopes c) it)) as [_ Hp]. apply Hp in Ht.
    assert (Lt : List.length t = List.length idx).
    { apply Permutation_length in Ht. rewrite Ht. unfold pad. rewrite app_length, repeat_length.
      unfold idx. rewrite iso_indexes_length. rewrite Forall_forall in F. specialize (F it Hi). lia. }
    split.
    + intros i Hi' Hn. rewrite set_columns_other by auto. apply nth_repeat.
    + exists it, (repeat 0 (n_channel_sites isotopes c - List.length it)). split; auto. split.
      { apply Forall_forall. intros x Hx. apply repeat_spec in Hx. auto. }
      unfold pick. rewrite set_columns_at; auto.
      * apply iso_indexes_NoDup.
      * rewrite repeat_length. auto.
  - intros [H0 [it [zs [Hi [Hz HP]]]]]. exists (pick idx v).
    assert (Lp : List.length (pick idx v) = n_channel_sites isotopes c).
    { unfold pick. rewrite map_length. apply iso_indexes_length. }
    split.
    + apply (nth_ext' 0); [rewrite set_columns_length, repeat_length; auto|].
      intros i Hi'. rewrite set_columns_length, repeat_length in Hi'.
      destruct (in_dec Nat.eq_dec i idx) as [Hin|Hin].
      * pose proof (set_columns_at idx (pick idx v) (repeat 0 (List.length isotopes)) (iso_indexes_NoDup _ _)) as E.
        specialize (E ltac:(unfold pick; rewrite map_length; auto)).
        rewrite repeat_length in E. specialize (E Hidx).
        unfold pick at 2 in E. apply map_ext_in_iff with (a := i) in E; auto.
      * rewrite set_columns_other, nth_repeat by auto. symmetry. auto.
    + apply in_flat_map. exists it. split; auto. apply (Hperms (pad (n_channel_sites isotopes c) it)).
      assert (zs = repeat 0 (n_channel_sites isotopes c - List.length it)).
      { apply Permutation_length in HP. rewrite Lp, app_length in HP.
        replace (n_channel_sites isotopes c - List.length it)%nat with (List.length zs) by lia.
        clear -Hz. induction Hz; simpl; auto. f_equal; auto. }
      subst zs. auto.
Qed.

Lemma zip_with_delta f a b : zip_with f a b = map (fun x => f (fst x) (snd x)) (combine a b).
Proof. revert b; induction a; intros [|]; simpl; auto. f_equal; auto. Qed.
Lemma P_fn_delta t : P_fn t = delta_m t.
Proof. unfold P_fn, delta_m. rewrite zip_with_delta. auto. Qed.
Lemma D_fn_delta t : D_fn t = delta_m2 t.
Proof. unfold D_fn, delta_m2. rewrite zip_with_delta. auto. Qed.

Lemma all_transitions_lengths spins t : spins <> [] -> In t (all_transitions spins) ->
  List.length (fst t) = List.length spins /\ List.length (snd t) = List.length spins.
Proof.
  intros H Ht. destruct t as [a b]. destruct (all_transitions_main spins H) as [Hin _]. apply Hin in Ht.
  rewrite zeeman_states_spec in Ht by auto. destruct Ht as [Ha Hb]. apply all_states_len in Ha, Hb. auto.
Qed.

Definition bool_of (P : Prop) (d : {P} + {~P}) : bool := if d then true else false.

Lemma event_select c isotopes spins v itemsP : List.length isotopes = List.length spins -> In c isotopes ->
  query_ok isotopes c (tv_P v) itemsP ->
  match tv_D v with None => True | Some _ => exists itemsD, query_ok isotopes c (tv_D v) itemsD end ->
  exists sel, pure_event set_perms [c] isotopes (all_transitions spins) v = Ok sel /\
    (exists f, sel = filter f (all_transitions spins)) /\
    forall t, In t sel <-> In t (all_transitions spins) /\ matches isotopes c itemsP (delta_m t) /\
      match tv_D v with None => True | Some _ => exists itemsD, query_ok isotopes c (tv_D v) itemsD /\ matches isotopes c itemsD (delta_m2 t) end.
Proof.
  intros L Hc HP HD.
  assert (Hne : spins <> []) by (intros ->; destruct isotopes; [destruct Hc|discriminate]).
  assert (Hn : (0 < List.length isotopes)%nat) by (destruct isotopes; [destruct Hc|simpl; lia]).
  assert (FP : Forall (fun t => List.length (P_fn t) = List.length isotopes) (all_transitions spins)).
  { apply Forall_forall. intros t Ht. destruct (all_transitions_lengths spins t Hne Ht).
    unfold P_fn. rewrite zip_with_length; lia. }
  assert (FD : Forall (fun t => List.length (D_fn t) = List.length isotopes) (all_transitions spins)).
  { apply Forall_forall. intros t Ht. destruct (all_transitions_lengths spins t Hne Ht).
    unfold D_fn. rewrite zip_with_length; lia. }
  assert (FR : forall items, Forall (fun r => List.length r = List.length isotopes)
     (map (set_columns (repeat 0 (List.length isotopes)) (iso_indexes isotopes c))
          (flat_map (fun it => set_perms (pad (n_channel_sites isotopes c) it)) items))).
  { intros items. apply Forall_forall. intros r Hr. apply in_map_iff in Hr. destruct Hr as [t [<- _]].
    rewrite set_columns_length, repeat_length. auto. }
  unfold pure_event. rewrite (single_rows isotopes c _ itemsP) by auto. cbn [bind].
  unfold P_symmetry_indexes.
  destruct (symmetry_select _ P_fn (all_transitions spins) _ Hn FP (FR itemsP)) as [idx [E1 E2]].
  rewrite E1. cbn [bind]. rewrite E2. set (selP := filter _ (all_transitions spins)).
  assert (HselP : forall t, In t selP <-> In t (all_transitions spins) /\ matches isotopes c itemsP (delta_m t)).
  { intros t. unfold selP. rewrite filter_In, row_in_true. split; intros [A B]; split; auto.
    - rewrite <- P_fn_delta. apply rows_spec; auto. { rewrite Forall_forall in FP; auto. } apply HP.
    - rewrite <- P_fn_delta in B. apply rows_spec; auto. { rewrite Forall_forall in FP; auto. } apply HP. }
  destruct (tv_D v) as [dd|] eqn:Ed.
  - destruct HD as [itemsD HD].
    rewrite (single_rows isotopes c _ itemsD) by auto. cbn [bind].
    assert (FD' : Forall (fun t => List.length (D_fn t) = List.length isotopes) selP).
    { apply Forall_forall. intros t Ht. rewrite Forall_forall in FD. apply FD. apply HselP in Ht. tauto. }
    unfold D_symmetry_indexes.
    destruct (symmetry_select _ D_fn selP _ Hn FD' (FR itemsD)) as [idx2 [E3 E4]].
    rewrite E3. cbn [bind]. rewrite E4. eexists. split; [reflexivity|]. split.
    + unfold selP. set (ff := fun t : transition => row_in (D_fn t) _). set (gg := fun t : transition => row_in (P_fn t) _).
      exists (fun t => gg t && ff t). clear. induction (all_transitions spins) as [|t l IH]; simpl; auto.
      destruct (gg t); simpl; [destruct (ff t)|]; rewrite IH; auto.
    + intros t. rewrite filter_In, row_in_true, HselP. split.
      * intros [[A B] C]. split; auto. split; auto. exists itemsD. split; auto. rewrite <- D_fn_delta. apply rows_spec; auto.
        { rewrite Forall_forall in FD; auto. } apply HD.
      * intros [A [B [itemsD' [HD' C]]]]. split; auto.
        assert (itemsD' = itemsD).
        { destruct HD as [[d1 [Ea Eb]] _], HD' as [[d2 [Ec Ef]] _]. injection Ea as <-. injection Ec as <-. rewrite Eb in Ef. injection Ef as <-. auto. }
        subst. rewrite <- D_fn_delta in C. apply rows_spec; auto.
        { rewrite Forall_forall in FD; auto. } apply HD.
  - eexists. split; [reflexivity|]. split.
    + unfold selP. eauto.
    + intros t. rewrite HselP. tauto.
Qed.

Lemma event_absent c channels isotopes spins v : ~ In c isotopes -> channels = [c] ->
  tv_D v = None -> List.length isotopes = List.length spins -> spins <> [] ->
  pure_event set_perms channels isotopes (all_transitions spins) v = Ok [].
Proof.
  intros Hc -> HD L Hne. unfold pure_event, pure_permutations. cbn [pure_loop].
  destruct (existsb (String.eqb c) isotopes) eqn:E.
  - apply existsb_exists in E. destruct E as [x [Hx E]]. apply String.eqb_eq in E. subst. tauto.
  - cbn [negb bind]. rewrite HD. reflexivity.
Qed.

Lemma event_long c isotopes all v d items : In c isotopes -> tv_P v = Some d -> dict_get d 1 = Ok items ->
  Exists (fun it => (n_channel_sites isotopes c < List.length it)%nat) items ->
  pure_event set_perms [c] isotopes all v = Err ValueError.
Proof.
  intros Hc Hv Hd E. unfold pure_event, pure_permutations. rewrite Hv. cbn [pure_loop].
  rewrite existsb_string by auto. cbn [negb bind Nat.add]. rewrite Hd. cbn [bind].
  rewrite iso_indexes_length, pure_items_long by auto. auto.
Qed.
End Select.

(** ** Pathways *)
(** All ways to choose one element of each list, the last choice varying fastest. *)
Fixpoint all_choices {A} (segs : list (list A)) : list (list A) :=
  match segs with [] => [[]] | s :: r => flat_map (fun x => map (cons x) (all_choices r)) s end.

Lemma all_choices_in {A} (segs : list (list A)) w : In w (all_choices segs) <-> Forall2 (fun x s => In x s) w segs.
Proof.
  revert w; induction segs as [|s r IH]; intros w; simpl.
  - split; [intros [<-|[]]; constructor|]. intros H; inversion H; auto.
  - rewrite in_flat_map. split.
    + intros [x [Hx H]]. apply in_map_iff in H. destruct H as [y [<- Hy]]. constructor; auto. apply IH; auto.
    + intros H. inversion H as [|x s' w' r' Hx Hr]; subst. exists x. split; auto. apply in_map. apply IH; auto.
Qed.
Lemma NoDup_app_intro {A} (a b : list A) : NoDup a -> NoDup b -> (forall x, In x a -> ~ In x b) -> NoDup (a ++ b).
Proof.
  induction 1 as [|x a Hx N IH]; simpl; auto. intros Hb H. constructor.
  - rewrite in_app_iff. intros [?|?]; [auto|]. apply (H x); simpl; auto.
  - apply IH; [auto|]. intros y Hy. apply H; simpl; auto.
Qed.
Lemma all_choices_NoDup {A} (segs : list (list A)) : Forall (@NoDup A) segs -> NoDup (all_choices segs).
Proof.
  induction 1 as [|s r N F IH]; simpl; [repeat constructor; auto|].
  induction N as [|x s Hx N IHs]; simpl; [constructor|]. apply NoDup_app_intro; auto.
  - clear -IH. induction IH; simpl; constructor; auto. rewrite in_map_iff. intros [y [E Hy]]. injection E as ->. auto.
  - intros w Hw H. apply in_map_iff in Hw. destruct Hw as [y [<- _]]. apply in_flat_map in H.
    destruct H as [x' [Hx' H]]. apply in_map_iff in H. destruct H as [y' [E _]]. injection E as -> ->. auto.
Qed.
Lemma all_choices_length {A} (segs : list (list A)) : List.length (all_choices segs) = prodn (map (@List.length A) segs).
Proof.
  induction segs as [|s r IH]; simpl; auto. rewrite <- IH.
  induction s; simpl; auto. rewrite app_length, map_length. lia.
Qed.

Lemma unravel_period lens k p : unravel lens (k * prodn lens + p) = unravel lens p.
Proof.
  revert k p; induction lens as [|x r IH]; intros k p; simpl; auto. f_equal.
  - destruct (Nat.eq_dec (prodn r) 0) as [E|E].
    + rewrite E. rewrite Nat.mul_0_r, Nat.mul_0_r. auto.
    + replace (k * (x * prodn r) + p)%nat with ((k * x) * prodn r + p)%nat by (rewrite Nat.mul_assoc; auto).
      rewrite Nat.div_add_l by auto.
      destruct (Nat.eq_dec x 0) as [->|Hx]; [rewrite Nat.mul_0_r; auto|].
      rewrite Nat.add_comm, Nat.mod_add; auto.
  - replace (k * (x * prodn r) + p)%nat with ((k * x) * prodn r + p)%nat by (rewrite Nat.mul_assoc; auto). apply IH.
Qed.

Lemma seq_mul x n : seq 0 (x * n) = flat_map (fun i => map (fun p => (i * n + p)%nat) (seq 0 n)) (seq 0 x).
Proof.
  induction x as [|x IH]; auto.
  rewrite seq_S, flat_map_app. simpl flat_map. rewrite app_nil_r, <- IH.
  replace (S x * n)%nat with (x * n + n)%nat by lia. rewrite seq_app. f_equal.
  clear IH. simpl. generalize (x * n)%nat. intros a.
  assert (H : forall m b, seq (a + b) m = map (fun p => (a + p)%nat) (seq b m)).
  { induction m; intros b; simpl; auto. f_equal. rewrite <- IHm. f_equal. lia. }
  rewrite <- H. f_equal. lia.
Qed.

Lemma cartesian_choices lens : map (unravel lens) (seq 0 (prodn lens)) = all_choices (map (seq 0) lens).
Proof.
  induction lens as [|x r IH]; auto.
  cbn [prodn map all_choices]. rewrite seq_mul, map_flat_map. apply flat_map_ext_in. intros i Hi. apply in_seq in Hi.
  rewrite map_map, <- IH, map_map. apply map_ext_in. intros p Hp. apply in_seq in Hp.
  cbn [unravel]. rewrite unravel_period. f_equal.
  rewrite Nat.div_add_l by lia. rewrite Nat.div_small by lia. rewrite Nat.add_0_r, Nat.mod_small by lia. auto.
Qed.

Lemma pathways_choices segs : segs <> [] -> pathways_of_segments segs = Ok (all_choices segs).
Proof.
  intros Hne. unfold pathways_of_segments, cartesian_index.
  destruct (map (@List.length transition) segs) as [|n ns] eqn:E.
  - apply map_eq_nil in E. tauto.
  - cbn [bind]. rewrite <- E, cartesian_choices. f_equal. clear E Hne.
    induction segs as [|s r IH]; auto. cbn [map all_choices]. rewrite map_flat_map.
    transitivity (flat_map (fun x => map (cons x) (all_choices r)) (map (fun i => nth i s ([], [])) (seq 0 (List.length s)))).
    2:{ rewrite map_nth_seq. auto. }
    rewrite flat_map_map. apply flat_map_ext. intros i. rewrite <- IH.
    generalize (all_choices (map (seq 0) (map (@List.length transition) r))). intros L. rewrite !map_map.
    apply map_ext. intros item. auto.
Qed.

(** ** A concrete listing of permutations, for the examples *)
Fixpoint inserts (x : Qc) (l : list Qc) : list (list Qc) :=
  match l with [] => [[x]] | y :: r => (x :: l) :: map (cons y) (inserts x r) end.
Fixpoint perms (l : list Qc) : list (list Qc) := match l with [] => [[]] | x :: r => flat_map (inserts x) (perms r) end.
Definition sp (l : list Qc) : list (list Qc) := nodup Qcl_eq_dec (perms l).

Lemma inserts_in x l p : In p (inserts x l) <-> exists a b, l = a ++ b /\ p = a ++ x :: b.
Proof.
  revert p; induction l as [|y l IH]; intros p; simpl.
  - split.
    + intros [<-|[]]. exists [], []. auto.
    + intros [a [b [E ->]]]. symmetry in E. apply app_eq_nil in E. destruct E as [-> ->]. auto.
  - rewrite in_map_iff. split.
    + intros [<-|[q [<- Hq]]].
      * exists [], (y :: l). auto.
      * apply IH in Hq. destruct Hq as [a [b [-> ->]]]. exists (y :: a), b. auto.
    + intros [a [b [E ->]]]. destruct a as [|z a]; simpl in *.
      * left. congruence.
      * injection E as <- ->. right. exists (a ++ x :: b). split; auto. apply IH. eauto.
Qed.
Lemma perms_in l p : In p (perms l) <-> Permutation p l.
Proof.
  revert p; induction l as [|x l IH]; intros p; simpl.
  - split; [intros [<-|[]]; constructor|]. intros H. apply Permutation_sym, Permutation_nil in H. auto.
  - rewrite in_flat_map. split.
    + intros [q [Hq Hp]]. apply IH in Hq. apply inserts_in in Hp. destruct Hp as [a [b [-> ->]]].
      apply Permutation_sym, Permutation_cons_app, Permutation_sym. auto.
    + intros H. assert (Hx : In x p) by (eapply Permutation_in; [apply Permutation_sym; eauto|simpl; auto]).
      apply in_split in Hx. destruct Hx as [a [b ->]]. exists (a ++ b). split.
      * apply IH. apply Permutation_sym. apply Permutation_cons_app_inv with (a := x). apply Permutation_sym. auto.
      * apply inserts_in. eauto.
Qed.
Lemma sp_ok : lists_permutations sp.
Proof. intros l. unfold sp. split; [apply NoDup_nodup|]. intros p. rewrite nodup_In. apply perms_in. Qed.
Lemma sp_rev_ok : lists_permutations (fun l => rev (sp l)).
Proof. intros l. split; [apply NoDup_rev, sp_ok|]. intros p. rewrite <- in_rev. apply sp_ok. Qed.

(** ** Statements on the level of list objects *)
Section Heap.
Variable set_perms : list Qc -> list (list Qc).

Lemma event_select_heap (Hp : lists_permutations set_perms) c isotopes spins q v itemsP h : tcontents h q v ->
  List.length isotopes = List.length spins -> In c isotopes ->
  query_ok isotopes c (tv_P v) itemsP ->
  match tv_D v with None => True | Some _ => exists itemsD, query_ok isotopes c (tv_D v) itemsD end ->
  exists sel, fst (event_transitions set_perms [c] isotopes (all_transitions spins) q h) = Ok sel /\
    (exists f, sel = filter f (all_transitions spins)) /\
    forall t, In t sel <-> In t (all_transitions spins) /\ matches isotopes c itemsP (delta_m t) /\
      match tv_D v with None => True | Some _ => exists itemsD, query_ok isotopes c (tv_D v) itemsD /\ matches isotopes c itemsD (delta_m2 t) end.
Proof.
  intros C L Hc HP HD. destruct (event_run set_perms [c] isotopes (all_transitions spins) q v h C) as [new E].
  rewrite E. apply event_select; auto.
Qed.

Lemma event_absent_heap c isotopes spins q v h : tcontents h q v -> ~ In c isotopes -> tv_D v = None ->
  List.length isotopes = List.length spins -> spins <> [] ->
  fst (event_transitions set_perms [c] isotopes (all_transitions spins) q h) = Ok [].
Proof.
  intros C Hc HD L Hne. destruct (event_run set_perms [c] isotopes (all_transitions spins) q v h C) as [new E].
  rewrite E. eapply event_absent; eauto.
Qed.

Lemma event_long_heap c isotopes all q v d items h : tcontents h q v -> In c isotopes -> tv_P v = Some d -> dict_get d 1 = Ok items ->
  Exists (fun it => (n_channel_sites isotopes c < List.length it)%nat) items ->
  fst (event_transitions set_perms [c] isotopes all q h) = Err ValueError.
Proof.
  intros C Hc Hv Hd Ex. destruct (event_run set_perms [c] isotopes all q v h C) as [new E].
  rewrite E. eapply event_long; eauto.
Qed.

Lemma pathways_heap channels isotopes spins qs vs h : qs <> [] -> Forall2 (tcontents h) qs vs ->
  fst (get_pathways_np set_perms channels isotopes spins qs h) =
  let* segs := mapM (fun q => fst (event_transitions set_perms channels isotopes (all_transitions spins) q h)) qs in
  Ok (all_choices segs).
Proof.
  intros Hne F. destruct (pathways_run set_perms channels isotopes spins qs vs h F) as [new E]. rewrite E. cbn [fst].
  unfold pure_pathways, pure_segments.
  assert (EQ : mapM (fun q => fst (event_transitions set_perms channels isotopes (all_transitions spins) q h)) qs
    = mapM (pure_event set_perms channels isotopes (all_transitions spins)) vs).
  { clear Hne E. induction F as [|q v qs vs C F IH]; auto. cbn [mapM].
    destruct (event_run set_perms channels isotopes (all_transitions spins) q v h C) as [n E]. rewrite E. cbn [fst]. rewrite IH. auto. }
  rewrite EQ. destruct (mapM (pure_event set_perms channels isotopes (all_transitions spins)) vs) as [segs|e] eqn:Es; auto.
  cbn [bind]. apply pathways_choices. intros ->. destruct F; [tauto|]. cbn [mapM] in Es.
  destruct (pure_event set_perms channels isotopes (all_transitions spins) y); [cbn [bind] in Es|discriminate].
  destruct (mapM (pure_event set_perms channels isotopes (all_transitions spins)) l'); discriminate.
Qed.

(** A history of requests: the heap after asking for the pathways of each listed (channels, isotopes, spins). *)
Fixpoint heap_after (calls : list (list string * list string * list nat)) (qs : list tquery) (h : heap) : heap :=
  match calls with
  | [] => h
  | (chs, isos, spins) :: r => heap_after r qs (snd (get_pathways_np set_perms chs isos spins qs h))
  end.

Lemma heap_after_ext calls qs vs h : Forall2 (tcontents h) qs vs -> exists new, heap_after calls qs h = h ++ new.
Proof.
  revert h; induction calls as [|[[chs isos] spins] r IH]; intros h F; cbn [heap_after].
  - exists []. rewrite app_nil_r. auto.
  - destruct (pathways_run set_perms chs isos spins qs vs h F) as [new E]. rewrite E. cbn [snd].
    destruct (IH (h ++ new)) as [n2 E2].
    { eapply Forall2_impl'; [|exact F]. intros a b. apply tcontents_ext. }
    rewrite E2. exists (new ++ n2). rewrite app_assoc. auto.
Qed.

Lemma history_indep calls qs vs h channels isotopes spins : Forall2 (tcontents h) qs vs ->
  Forall2 (tcontents (heap_after calls qs h)) qs vs /\
  fst (get_pathways_np set_perms channels isotopes spins qs (heap_after calls qs h)) =
  fst (get_pathways_np set_perms channels isotopes spins qs h).
Proof.
  intros F. destruct (heap_after_ext calls qs vs h F) as [new E]. rewrite E.
  assert (F' : Forall2 (tcontents (h ++ new)) qs vs).
  { eapply Forall2_impl'; [|exact F]. intros a b. apply tcontents_ext. }
  split; auto.
  destruct (pathways_run set_perms channels isotopes spins qs vs _ F) as [n1 E1].
  destruct (pathways_run set_perms channels isotopes spins qs vs _ F') as [n2 E2]. rewrite E1, E2. auto.
Qed.
End Heap.
