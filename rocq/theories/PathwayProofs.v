From Coq Require Import ZArith QArith Bool String Qcanon Lia List Sorted Permutation.
From Verif Require Import Base BaseProofs PathwayModel SimProofs.
Import ListNotations.
Open Scope Qc_scope.

(** ** Specification notions *)
(** [m] is a spin quantum number of a site with twice the spin equal to [twoI]: m = k - I for an integer 0 <= k <= 2I. *)
Definition is_spin_number (twoI : nat) (m : Qc) : Prop :=
  exists k, (k <= twoI)%nat /\ m = Qc_of_nat k - spin_of twoI.

(** Lexicographic order on tuples. *)
Fixpoint lex_lt (a b : list Qc) : Prop :=
  match a, b with
  | [], _ :: _ => True
  | x :: a', y :: b' => (x < y)%Qc \/ (x = y /\ lex_lt a' b')
  | _, _ => False
  end.

(** ** Zeeman states *)
Fixpoint all_states (spins : list nat) : list (list Qc) :=
  match spins with
  | [] => [[]]
  | s :: r => flat_map (fun m => map (cons m) (all_states r)) (spin_numbers s)
  end.

Lemma flat_map_flat_map {A B C} (f : A -> list B) (g : B -> list C) l :
  flat_map g (flat_map f l) = flat_map (fun x => flat_map g (f x)) l.
Proof. induction l; simpl; auto. rewrite flat_map_app, IHl. auto. Qed.
Lemma flat_map_map {A B C} (f : A -> B) (g : B -> list C) l : flat_map g (map f l) = flat_map (fun x => g (f x)) l.
Proof. induction l; simpl; auto. rewrite IHl. auto. Qed.
Lemma map_flat_map {A B C} (f : A -> list B) (g : B -> C) l : map g (flat_map f l) = flat_map (fun x => map g (f x)) l.
Proof. induction l; simpl; auto. rewrite map_app, IHl. auto. Qed.
Lemma flat_map_ext_in {A B} (f g : A -> list B) l : (forall x, In x l -> f x = g x) -> flat_map f l = flat_map g l.
Proof. induction l; simpl; intros H; auto. rewrite H, IHl; auto. Qed.
Lemma flat_map_const_len {A B C} (c : list C) (l : list A) (l' : list B) : List.length l = List.length l' ->
  flat_map (fun _ => c) l = flat_map (fun _ => c) l'.
Proof. revert l'; induction l; intros [|]; simpl; try discriminate; auto. intros E. rewrite (IHl l0); auto. Qed.

Lemma kron_assoc a b c : kron (kron a b) c = kron a (kron b c).
Proof.
  unfold kron. rewrite flat_map_flat_map. apply flat_map_ext. intros x.
  rewrite flat_map_map, map_flat_map. apply flat_map_ext. intros y. rewrite map_map.
  apply map_ext. intros z. ring.
Qed.
Lemma kron_1_l a : kron [1] a = a.
Proof. unfold kron. simpl. rewrite app_nil_r. rewrite <- (map_id a) at 2. apply map_ext. intros; ring. Qed.
Lemma kron_1_r a : kron a [1] = a.
Proof. unfold kron. induction a; simpl in *; auto. rewrite IHa. f_equal. ring. Qed.

Definition fac (j : nat) (i_s : nat * nat) : list Qc :=
  if Nat.eqb (fst i_s) j then spin_numbers (snd i_s) else repeat 1 (snd i_s + 1).
Definition kp (i0 j : nat) (spins : list nat) : list Qc :=
  fold_right (fun x acc => kron (fac j x) acc) [1] (combine (seq i0 (List.length spins)) spins).

Lemma column_kp spins j : zeeman_column spins j = kp 0 j spins.
Proof.
  unfold zeeman_column, kp. generalize (combine (seq 0 (List.length spins)) spins). intros l.
  assert (H : forall k, fold_left (fun k i_s => let '(i, s) := i_s in
               if Nat.eqb i j then kron k (spin_numbers s) else kron k (repeat 1 (s + 1))) l k
            = kron k (fold_right (fun x acc => kron (fac j x) acc) [1] l)).
  { induction l as [|[i s] l IH]; intros k; simpl.
    - symmetry. apply kron_1_r.
    - rewrite IH. unfold fac. simpl. destruct (Nat.eqb i j); rewrite kron_assoc; auto. }
  rewrite H. apply kron_1_l.
Qed.

Lemma spin_numbers_length s : List.length (spin_numbers s) = (s + 1)%nat.
Proof. unfold spin_numbers. rewrite map_length, seq_length. auto. Qed.

Lemma kp_below spins i0 j : (j < i0)%nat -> kp i0 j spins = map (fun _ => 1) (all_states spins).
Proof.
  unfold kp. revert i0. induction spins as [|s r IH]; intros i0 H; simpl; auto.
  rewrite (IH (S i0)) by lia. unfold fac. simpl. destruct (Nat.eqb_spec i0 j); [lia|].
  unfold kron. rewrite map_flat_map.
  transitivity (flat_map (fun _ => map (fun _ : list Qc => 1) (all_states r)) (repeat 1 (s + 1))).
  - apply flat_map_ext_in. intros x Hx. apply repeat_spec in Hx. subst x. rewrite map_map. apply map_ext. intros; ring.
  - transitivity (flat_map (fun _ => map (fun _ : list Qc => 1) (all_states r)) (spin_numbers s)).
    + apply flat_map_const_len. rewrite repeat_length, spin_numbers_length. auto.
    + apply flat_map_ext. intros x. rewrite map_map. auto.
Qed.

Lemma kp_at spins i0 j : (i0 <= j < i0 + List.length spins)%nat ->
  kp i0 j spins = map (fun st => nth (j - i0) st 0) (all_states spins).
Proof.
  revert i0. induction spins as [|s r IH]; intros i0 H; simpl in H; [lia|].
  unfold kp. cbn [List.length seq combine fold_right all_states]. fold (kp (S i0) j r).
  unfold fac. cbn [fst snd]. rewrite map_flat_map. destruct (Nat.eqb_spec i0 j) as [->|Hne].
  - rewrite kp_below by lia. unfold kron. apply flat_map_ext. intros m.
    rewrite !map_map. apply map_ext. intros st. rewrite Nat.sub_diag. simpl. ring.
  - rewrite IH by lia. unfold kron.
    transitivity (flat_map (fun _ => map (fun st => nth (j - S i0) st 0) (all_states r)) (repeat 1 (s + 1))).
    + apply flat_map_ext_in. intros x Hx. apply repeat_spec in Hx. subst x.
      rewrite map_map. apply map_ext. intros; ring.
    + transitivity (flat_map (fun _ => map (fun st => nth (j - S i0) st 0) (all_states r)) (spin_numbers s)).
      * apply flat_map_const_len. rewrite repeat_length, spin_numbers_length. auto.
      * apply flat_map_ext. intros x. rewrite map_map. apply map_ext. intros st.
        replace (j - i0)%nat with (S (j - S i0)) by lia. auto.
Qed.

Lemma all_states_len spins st : In st (all_states spins) -> List.length st = List.length spins.
Proof.
  revert st; induction spins as [|s r IH]; intros st H; simpl in H.
  - destruct H as [<-|[]]. auto.
  - apply in_flat_map in H. destruct H as [m [_ H]]. apply in_map_iff in H. destruct H as [x [<- Hx]].
    simpl. f_equal. auto.
Qed.

Lemma map_nth_seq {A} (d : A) l : map (fun i => nth i l d) (seq 0 (List.length l)) = l.
Proof.
  induction l as [|x l IH]; simpl; auto. f_equal.
  rewrite <- seq_shift, map_map. auto.
Qed.

Lemma zeeman_states_spec spins : spins <> [] -> zeeman_states spins = all_states spins.
Proof.
  intros Hne. unfold zeeman_states, transpose.
  assert (E : map (zeeman_column spins) (seq 0 (List.length spins)) =
              map (fun j => map (fun st => nth j st 0) (all_states spins)) (seq 0 (List.length spins))).
  { apply map_ext_in. intros j Hj. apply in_seq in Hj. rewrite column_kp, kp_at by lia. rewrite Nat.sub_0_r. auto. }
  rewrite E. clear E.
  replace (List.length (hd [] (map (fun j => map (fun st => nth j st 0) (all_states spins)) (seq 0 (List.length spins)))))
    with (List.length (all_states spins)).
  2:{ destruct spins; [tauto|]. simpl. rewrite map_length. auto. }
  transitivity (map (fun r => nth r (all_states spins) []) (seq 0 (List.length (all_states spins)))); [|apply map_nth_seq].
  apply map_ext_in. intros r Hr. apply in_seq in Hr.
  rewrite map_map.
  assert (Hin : In (nth r (all_states spins) []) (all_states spins)) by (apply nth_In; lia).
  pose proof (all_states_len _ _ Hin) as L.
  transitivity (map (fun j => nth j (nth r (all_states spins) []) 0) (seq 0 (List.length (nth r (all_states spins) [])))); [|apply map_nth_seq].
  rewrite L. apply map_ext. intros j.
  rewrite (nth_indep _ 0 (nth j [] 0)) by (rewrite map_length; lia).
  rewrite (map_nth (fun st => nth j st 0)). auto.
Qed.

Lemma Qc_of_nat_inj a b : Qc_of_nat a = Qc_of_nat b -> a = b.
Proof.
  unfold Qc_of_nat. intros E. apply Q2Qc_eq_iff in E. unfold Qeq, inject_Z in E. simpl in E. lia.
Qed.
Lemma Qc_of_nat_lt a b : (a < b)%nat -> Qc_of_nat a < Qc_of_nat b.
Proof.
  intros H. unfold Qclt, Qc_of_nat, Q2Qc. cbn [this]. rewrite !Qred_correct. unfold Qlt, inject_Z. simpl. lia.
Qed.

Lemma all_states_in spins st : In st (all_states spins) <-> Forall2 is_spin_number spins st.
Proof.
  revert st; induction spins as [|s r IH]; intros st; simpl.
  - split.
    + intros [<-|[]]. constructor.
    + intros H. inversion H. auto.
  - rewrite in_flat_map. split.
    + intros [m [Hm H]]. apply in_map_iff in H. destruct H as [x [<- Hx]]. constructor.
      * unfold spin_numbers in Hm. apply in_map_iff in Hm. destruct Hm as [k [<- Hk]]. apply in_seq in Hk.
        exists k. split; auto. lia.
      * apply IH; auto.
    + intros H. inversion H as [|a b c d Hm Hr]; subst. destruct Hm as [k [Hk ->]].
      exists (Qc_of_nat k - spin_of s). split.
      * unfold spin_numbers. apply in_map_iff. exists k. split; auto. apply in_seq. lia.
      * apply in_map_iff. exists d. split; auto. apply IH; auto.
Qed.

Lemma all_states_length spins : List.length (all_states spins) = fold_right (fun s n => ((s + 1) * n)%nat) 1%nat spins.
Proof.
  induction spins as [|s r IH]; simpl; auto.
  transitivity (List.length (spin_numbers s) * List.length (all_states r))%nat.
  - induction (spin_numbers s); simpl; auto. rewrite app_length, map_length. lia.
  - rewrite spin_numbers_length, IH. auto.
Qed.

Lemma Qclt_trans' a b c : a < b -> b < c -> a < c.
Proof. apply Qclt_trans. Qed.

Lemma lex_lt_irrefl a : ~ lex_lt a a.
Proof. induction a; simpl; auto. intros [H|[_ H]]; auto. unfold Qclt in H. apply (Qlt_irrefl _ H). Qed.

Lemma spin_numbers_sorted s : StronglySorted Qclt (spin_numbers s).
Proof.
  unfold spin_numbers. generalize 0%nat (s + 1)%nat. intros a n. revert a.
  induction n as [|n IH]; intros a; simpl; constructor; auto.
  apply Forall_forall. intros x Hx. apply in_map_iff in Hx. destruct Hx as [k [<- Hk]]. apply in_seq in Hk.
  unfold Qcminus. assert (H : Qc_of_nat a < Qc_of_nat k) by (apply Qc_of_nat_lt; lia).
  unfold Qclt, Qcplus, Q2Qc in *. cbn [this] in *. rewrite !Qred_correct. apply Qplus_lt_l. auto.
Qed.

Lemma all_states_sorted spins : StronglySorted lex_lt (all_states spins).
Proof.
  induction spins as [|s r IH]; simpl.
  - repeat constructor.
  - pose proof (spin_numbers_sorted s) as H. induction H as [|m ms Hs IHs Hf]; simpl; [constructor|].
    assert (Happ : forall a b, StronglySorted lex_lt a -> StronglySorted lex_lt b ->
       (forall x y, In x a -> In y b -> lex_lt x y) -> StronglySorted lex_lt (a ++ b)).
    { clear. induction a as [|x a IHa]; intros b Ha Hb H; simpl; auto. inversion Ha; subst. constructor.
      - apply IHa; auto. intros; apply H; simpl; auto.
      - apply Forall_app. split; auto. apply Forall_forall. intros y Hy. apply H; simpl; auto. }
    apply Happ; auto.
    + clear -IH. induction IH as [|st l H IHl Hf]; simpl; constructor; auto.
      apply Forall_forall. intros x Hx. apply in_map_iff in Hx. destruct Hx as [y [<- Hy]].
      simpl. right. split; auto. rewrite Forall_forall in Hf. auto.
    + intros x y Hx Hy. apply in_map_iff in Hx. destruct Hx as [x' [<- _]].
      apply in_flat_map in Hy. destruct Hy as [m' [Hm' Hy]]. apply in_map_iff in Hy. destruct Hy as [y' [<- _]].
      simpl. left. rewrite Forall_forall in Hf. auto.
Qed.

Lemma sorted_NoDup l : StronglySorted lex_lt l -> NoDup l.
Proof.
  induction 1 as [|x l H IH Hf]; constructor; auto. intros Hi. rewrite Forall_forall in Hf.
  apply (lex_lt_irrefl x). auto.
Qed.

Lemma zeeman_main spins : spins <> [] ->
  (forall st, In st (zeeman_states spins) <-> Forall2 is_spin_number spins st) /\
  StronglySorted lex_lt (zeeman_states spins) /\ NoDup (zeeman_states spins) /\
  List.length (zeeman_states spins) = fold_right (fun s n => ((s + 1) * n)%nat) 1%nat spins.
Proof.
  intros H. rewrite zeeman_states_spec by auto. split; [|split; [|split]].
  - intros; apply all_states_in.
  - apply all_states_sorted.
  - apply sorted_NoDup, all_states_sorted.
  - apply all_states_length.
Qed.

(** ** Transitions *)
Lemma all_transitions_of_prod S : all_transitions_of S = list_prod S S.
Proof.
  unfold all_transitions_of.
  transitivity (flat_map (fun a => map (fun b => (a, b)) S) S).
  - transitivity (flat_map (fun a => map (fun b => (a, b)) S) (map (fun i => nth i S []) (seq 0 (List.length S)))); [|rewrite map_nth_seq; auto].
    rewrite flat_map_map. apply flat_map_ext. intros a.
    transitivity (map (fun b => (nth a S [], b)) (map (fun i => nth i S []) (seq 0 (List.length S)))); [|rewrite map_nth_seq; auto].
    rewrite map_map. auto.
  - assert (H : forall S' : list (list Qc), flat_map (fun a => map (fun b => (a, b)) S) S' = list_prod S' S).
    { induction S' as [|x S' IH]; simpl; auto. rewrite IH. auto. }
    apply H.
Qed.

Lemma NoDup_list_prod {A B} (a : list A) (b : list B) : NoDup a -> NoDup b -> NoDup (list_prod a b).
Proof.
  intros Ha Hb. induction Ha as [|x a Hx Ha IH]; simpl; [constructor|].
  assert (Happ : forall (p q : list (A * B)), NoDup p -> NoDup q -> (forall z, In z p -> ~ In z q) -> NoDup (p ++ q)).
  { clear. induction 1; simpl; auto. intros Hq Hd. constructor.
    - rewrite in_app_iff. intros [?|?]; [auto|]. apply (Hd x); simpl; auto.
    - apply IHNoDup; [auto|]. intros z Hz. apply Hd. simpl; auto. }
  apply Happ; auto.
  - clear -Hb. induction Hb; simpl; constructor; auto. rewrite in_map_iff. intros [y [E Hy]]. congruence.
  - intros [u v] Hu Hv. apply in_map_iff in Hu. destruct Hu as [y [E _]]. injection E as <- <-.
    apply in_prod_iff in Hv. tauto.
Qed.

(** Initial states first, then final states. *)
Definition trans_lt (t u : list Qc * list Qc) : Prop := lex_lt (fst t) (fst u) \/ fst t = fst u /\ lex_lt (snd t) (snd u).
Lemma sorted_app {A} (R : A -> A -> Prop) a b : StronglySorted R a -> StronglySorted R b -> (forall x y, In x a -> In y b -> R x y) -> StronglySorted R (a ++ b).
Proof.
  induction 1 as [|x a S IH F]; intros Sb H; auto. cbn. constructor.
  - apply IH; auto. intros; apply H; [right|]; auto.
  - apply Forall_app. split; auto. apply Forall_forall. intros y Hy. apply H; [left|]; auto.
Qed.
Lemma sorted_list_prod a b : StronglySorted lex_lt a -> StronglySorted lex_lt b -> StronglySorted trans_lt (list_prod a b).
Proof.
  intros Sa Sb. induction Sa as [|x a S IH F]; [constructor|]. cbn [list_prod]. apply sorted_app; auto.
  - clear -Sb. induction Sb as [|y b S IH F]; cbn; constructor; auto. apply Forall_forall. intros t Ht. apply in_map_iff in Ht.
    destruct Ht as [z [<- Hz]]. right. cbn. split; auto. rewrite Forall_forall in F. auto.
  - intros t u Ht Hu. apply in_map_iff in Ht. destruct Ht as [z [<- Hz]]. destruct u as [p q]. apply in_prod_iff in Hu. left. cbn.
    rewrite Forall_forall in F. apply F. tauto.
Qed.

Lemma all_transitions_main spins : spins <> [] ->
  (forall a b, In (a, b) (all_transitions spins) <-> In a (zeeman_states spins) /\ In b (zeeman_states spins)) /\
  StronglySorted trans_lt (all_transitions spins) /\ NoDup (all_transitions spins) /\
  List.length (all_transitions spins) = (List.length (zeeman_states spins) * List.length (zeeman_states spins))%nat.
Proof.
  intros H. unfold all_transitions. rewrite all_transitions_of_prod. split; [|split; [|split]].
  - intros; apply in_prod_iff.
  - apply sorted_list_prod; apply zeeman_main; auto.
  - apply NoDup_list_prod; apply zeeman_main; auto.
  - apply prod_length.
Qed.

(** ** Sorted index sets *)
Lemma insert_u_in x y l : In y (insert_u x l) <-> y = x \/ In y l.
Proof.
  induction l as [|z l IH]; simpl; [intuition|].
  destruct (Nat.ltb_spec x z); [simpl; intuition|].
  destruct (Nat.eqb_spec x z); [subst; simpl; intuition|]. simpl. rewrite IH. intuition.
Qed.
Lemma insert_u_sorted x l : StronglySorted lt l -> StronglySorted lt (insert_u x l).
Proof.
  induction 1 as [|z l H IH Hf]; simpl; [repeat constructor|].
  destruct (Nat.ltb_spec x z).
  - constructor; [constructor; auto|]. constructor; auto. rewrite Forall_forall in *. intros y Hy.
    specialize (Hf y Hy). lia.
  - destruct (Nat.eqb_spec x z); [constructor; auto|]. constructor; auto.
    rewrite Forall_forall in *. intros y Hy. apply insert_u_in in Hy. destruct Hy as [->|Hy]; [lia|auto].
Qed.
Lemma unique_in y l : In y (unique l) <-> In y l.
Proof. induction l; simpl; [tauto|]. rewrite insert_u_in, IHl. intuition. Qed.
Lemma unique_sorted l : StronglySorted lt (unique l).
Proof. induction l; simpl; [constructor|]. apply insert_u_sorted; auto. Qed.
Lemma filter_sorted f l : StronglySorted lt l -> StronglySorted lt (filter f l).
Proof.
  induction 1 as [|z l H IH Hf]; simpl; [constructor|]. destruct (f z); auto. constructor; auto.
  rewrite Forall_forall in *. intros y Hy. apply filter_In in Hy. apply Hf. tauto.
Qed.
Lemma seq_sorted a n : StronglySorted lt (seq a n).
Proof.
  revert a; induction n; intros a; simpl; constructor; auto. apply Forall_forall. intros x Hx. apply in_seq in Hx. lia.
Qed.
Lemma sorted_ext a b : StronglySorted lt a -> StronglySorted lt b -> (forall x, In x a <-> In x b) -> a = b.
Proof.
  intros Ha. revert b. induction Ha as [|x a Ha IH Hf]; intros b Hb H.
  - destruct b as [|y b]; auto. destruct (proj2 (H y)); simpl; auto.
  - destruct Hb as [|y b Hb Hg].
    + destruct (proj1 (H x)); simpl; auto.
    + rewrite Forall_forall in *.
      assert (x = y).
      { destruct (proj1 (H x)) as [E|E]; [simpl; auto|auto|].
        destruct (proj2 (H y)) as [E'|E']; [simpl; auto|auto|].
        specialize (Hf y E'). specialize (Hg x E). lia. }
      subst y. f_equal. apply IH; auto. intros z. split; intros Hz.
      * destruct (proj1 (H z)) as [E|E]; [simpl; auto| |auto]. specialize (Hf z Hz). lia.
      * destruct (proj2 (H z)) as [E|E]; [simpl; auto| |auto]. specialize (Hg z Hz). lia.
Qed.

Lemma memb_In x l : memb x l = true <-> In x l.
Proof.
  unfold memb. rewrite existsb_exists. split.
  - intros [y [Hy E]]. apply Nat.eqb_eq in E. subst; auto.
  - intros H. exists x. split; auto. apply Nat.eqb_refl.
Qed.

Lemma intersect_in x a b : In x (intersect1d a b) <-> In x a /\ In x b.
Proof. unfold intersect1d. rewrite filter_In, unique_in, memb_In. tauto. Qed.

Lemma fold_intersect_in l a x : In x (fold_left intersect1d l a) <-> In x a /\ Forall (fun b => In x b) l.
Proof.
  revert a; induction l as [|b l IH]; intros a; simpl.
  - intuition.
  - rewrite IH, intersect_in. split.
    + intros [[H1 H2] H3]. auto.
    + intros [H1 H2]. inversion H2; auto.
Qed.

Lemma where_col_in fn i v r : In r (where_col fn i v) <-> (r < List.length fn)%nat /\ nth i (nth r fn []) 0 = v.
Proof.
  unfold where_col. rewrite filter_In, in_seq. destruct (Qc_eq_dec (nth i (nth r fn []) 0) v); intuition; try lia; discriminate.
Qed.

Lemma nth_ext' {A} (d : A) a b : List.length a = List.length b -> (forall i, (i < List.length a)%nat -> nth i a d = nth i b d) -> a = b.
Proof. intros. eapply nth_ext; eauto. Qed.

Definition Qcl_eq_dec : forall a b : list Qc, {a = b} + {a <> b} := list_eq_dec Qc_eq_dec.
Definition row_in (row : list Qc) (l : list (list Qc)) : bool := if in_dec Qcl_eq_dec row l then true else false.
Lemma row_in_true row l : row_in row l = true <-> In row l.
Proof. unfold row_in. destruct (in_dec Qcl_eq_dec row l); intuition; discriminate. Qed.

(** The selected indexes are those of the rows that occur in the list of symmetries. *)
Lemma get_symmetry_indexes_spec n fn sym :
  (0 < n)%nat -> Forall (fun r => List.length r = n) fn -> Forall (fun r => List.length r = n) sym ->
  get_symmetry_indexes n fn sym = Ok (filter (fun r => row_in (nth r fn []) sym) (seq 0 (List.length fn))).
Proof.
  intros Hn Ffn Fs. unfold get_symmetry_indexes.
  set (one := fun search => match map (fun i => where_col fn i (nth i search 0)) (seq 0 n) with
                | [] => [] | x :: r => fold_left intersect1d r x end).
  rewrite (mapM_ok _ one).
  2:{ intros s Hs. unfold one. destruct n; [lia|]. simpl. auto. }
  cbn [bind]. f_equal.
  assert (Hone : forall s, In s sym -> forall r, In r (one s) <-> (r < List.length fn)%nat /\ nth r fn [] = s).
  { intros s Hs r. rewrite Forall_forall in Ffn, Fs. specialize (Fs s Hs).
    assert (Hall : In r (one s) <-> Forall (fun b => In r b) (map (fun i => where_col fn i (nth i s 0)) (seq 0 n))).
    { unfold one. destruct n as [|n0]; [lia|]. cbn [seq map]. rewrite fold_intersect_in. split.
      - intros [? ?]. constructor; auto.
      - intros H. inversion H; auto. }
    rewrite Hall. split.
    - intros F. assert (H : forall i, (i < n)%nat -> (r < List.length fn)%nat /\ nth i (nth r fn []) 0 = nth i s 0).
      { intros i Hi. apply where_col_in. rewrite Forall_forall in F. apply F. apply in_map_iff. exists i. split; auto.
        apply in_seq. lia. }
      destruct (H 0%nat Hn) as [Hr _]. split; auto.
      assert (Lr : List.length (nth r fn []) = n) by (apply Ffn, nth_In; auto).
      apply (nth_ext' 0); [lia|]. intros i Hi. apply H. lia.
    - intros [Hr E]. apply Forall_forall. intros b Hb. apply in_map_iff in Hb. destruct Hb as [i [<- _]].
      apply where_col_in. rewrite E. auto. }
  apply sorted_ext.
  - assert (H : forall l a, StronglySorted lt a -> StronglySorted lt (fold_left union1d l a)).
    { induction l; simpl; intros; auto. apply IHl. apply unique_sorted. }
    apply H. constructor.
  - apply filter_sorted, seq_sorted.
  - assert (Hu : forall l a x, In x (fold_left union1d l a) <-> In x a \/ exists b, In b l /\ In x b).
    { induction l as [|b l IH]; intros a x; simpl.
      - split; [auto|]. intros [H|[b [[] _]]]; auto.
      - rewrite IH. unfold union1d. rewrite unique_in, in_app_iff. split.
        + intros [[H|H]|[c [H1 H2]]]; eauto.
        + intros [H|[c [[->|H1] H2]]]; eauto. }
    intros x. rewrite Hu, filter_In, in_seq, row_in_true. split.
    + intros [[]|[b [Hb Hx]]]. apply in_map_iff in Hb. destruct Hb as [s [<- Hs]]. apply Hone in Hx; auto.
      destruct Hx as [Hx E]. split; [lia|]. rewrite E. auto.
    + intros [Hx Hr]. right. exists (one (nth x fn [])). split.
      * apply in_map. auto.
      * apply Hone; auto. split; auto; lia.
Qed.

Lemma take_filter {A} (d : A) (f : A -> bool) l :
  take d l (filter (fun r => f (nth r l d)) (seq 0 (List.length l))) = filter f l.
Proof.
  unfold take. induction l as [|x l IH]; auto.
  cbn [List.length seq filter]. rewrite <- seq_shift.
  assert (E : forall g k, filter (fun r => g (nth r (x :: l) d)) (map S (seq 0 k)) = map S (filter (fun r => g (nth r l d)) (seq 0 k))).
  { intros g k. generalize (seq 0 k). induction l0 as [|a l0 IH0]; cbn [filter map]; auto. rewrite IH0. cbn [nth]. destruct (g (nth a l d)); auto. }
  rewrite E. change (nth 0 (x :: l) d) with x.
  assert (M : forall k, map (fun i => nth i (x :: l) d) (map S k) = map (fun i => nth i l d) k) by (intros; rewrite map_map; auto).
  destruct (f x); [cbn [map]; change (nth 0 (x :: l) d) with x; f_equal|]; rewrite M; auto.
Qed.

Lemma zip_with_length f a b : List.length a = List.length b -> List.length (zip_with f a b) = List.length a.
Proof. revert b; induction a; intros [|]; simpl; try discriminate; auto. Qed.

Lemma symmetry_select n (fn : transition -> list Qc) ts rows :
  (0 < n)%nat -> Forall (fun t => List.length (fn t) = n) ts -> Forall (fun r => List.length r = n) rows ->
  exists idx, get_symmetry_indexes n (map fn ts) rows = Ok idx /\
    take ([], []) ts idx = filter (fun t => row_in (fn t) rows) ts.
Proof.
  intros Hn F1 F2. eexists. split.
  - apply get_symmetry_indexes_spec; auto. apply Forall_forall. intros r Hr. apply in_map_iff in Hr.
    destruct Hr as [t [<- Ht]]. rewrite Forall_forall in F1. auto.
  - rewrite map_length.
    transitivity (take ([], []) ts (filter (fun r => row_in (fn (nth r ts ([], []))) rows) (seq 0 (List.length ts))));
      [|apply (take_filter ([], []) (fun t => row_in (fn t) rows))].
    f_equal. apply filter_ext_in. intros r Hr. apply in_seq in Hr.
    f_equal. rewrite (nth_indep _ [] (fn ([], []))) by (rewrite map_length; lia). apply map_nth.
Qed.
