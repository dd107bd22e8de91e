(** Queries on two channels: which rows numpy's broadcasting makes of them. *)
From Coq Require Import ZArith QArith Bool String Qcanon Lia List Sorted Permutation.
From Verif Require Import Base BaseProofs PathwayModel SimProofs PathwayProofs QueryProofs SelectProofs.
Import ListNotations.
Open Scope Qc_scope.

(** ** Specification notions *)
(** The values on the sites of neither isotope. *)
Definition neither_values (isotopes : list string) (c c' : string) (v : list Qc) : list Qc :=
  map snd (filter (fun iv => negb (String.eqb (fst iv) c) && negb (String.eqb (fst iv) c')) (combine isotopes v)).
(** On the sites of the isotope [v] is a rearrangement of an item completed with zeros. *)
Definition on_channel (isotopes : list string) (c : string) (items : list (list Qc)) (v : list Qc) : Prop :=
  exists item zeros, In item items /\ Forall (fun x => x = 0) zeros /\ Permutation (channel_values isotopes c v) (item ++ zeros).
(** [v] matches on both channels and vanishes elsewhere. *)
Definition matches_both (isotopes : list string) (c c' : string) (items items' : list (list Qc)) (v : list Qc) : Prop :=
  Forall (fun x => x = 0) (neither_values isotopes c c' v) /\ on_channel isotopes c items v /\ on_channel isotopes c' items' v.
(** The query has the two lists of items, and no item is longer than the number of sites of its channel. *)
Definition two_queries (isotopes : list string) (c c' : string) (q : sym_query (list Qc)) (items items' : list (list Qc)) : Prop :=
  (exists d, q = Some d /\ dict_get d 1 = Ok items /\ dict_get d 2 = Ok items') /\
  Forall (fun it => (List.length it <= n_channel_sites isotopes c)%nat) items /\ Forall (fun it => (List.length it <= n_channel_sites isotopes c')%nat) items'.

(** ** Proofs *)
Lemma neither_zero isotopes c c' v : List.length v = List.length isotopes ->
  (Forall (fun x => x = 0) (neither_values isotopes c c' v) <->
   forall i, (i < List.length isotopes)%nat -> ~ In i (iso_indexes isotopes c) -> ~ In i (iso_indexes isotopes c') -> nth i v 0 = 0).
Proof.
  unfold neither_values. revert v. induction isotopes as [|x isotopes IH]; intros [|y v] L; try discriminate.
  - simpl. split; [intros; lia|constructor].
  - assert (Hc : forall c i, In i (iso_indexes (x :: isotopes) c) <-> match i with O => x = c | S k => In k (iso_indexes isotopes c) end).
    { intros c0 i. rewrite iso_indexes_in. destruct i as [|k]; simpl.
      - split; [tauto|]. split; auto; lia.
      - rewrite iso_indexes_in. split; intros [A B]; split; auto; lia. }
    cbn [combine filter fst]. specialize (IH v ltac:(simpl in L; lia)).
    assert (Hs : (forall i, (i < List.length (x :: isotopes))%nat -> ~ In i (iso_indexes (x :: isotopes) c) -> ~ In i (iso_indexes (x :: isotopes) c') -> nth i (y :: v) 0 = 0) <->
       ((x <> c -> x <> c' -> y = 0) /\ forall i, (i < List.length isotopes)%nat -> ~ In i (iso_indexes isotopes c) -> ~ In i (iso_indexes isotopes c') -> nth i v 0 = 0)).
    { split.
      - intros H. split.
        + intros Hx Hx'. apply (H 0%nat); [simpl; lia| |]; rewrite Hc; auto.
        + intros i Hi Hn Hn'. apply (H (S i)); [simpl; lia| |]; rewrite Hc; auto.
      - intros [H0 H] [|i] Hi Hn Hn'; rewrite Hc in Hn, Hn'; simpl; auto. apply H; auto. simpl in Hi. lia. }
    rewrite Hs, <- IH. destruct (String.eqb_spec x c), (String.eqb_spec x c'); simpl; try (split; [intros F; split; [congruence|auto]|tauto]).
    split.
    + intros F. inversion F; auto.
    + intros [A B]. constructor; auto.
Qed.

Section Two.
Variable set_perms : list Qc -> list (list Qc).
Hypothesis Hperms : lists_permutations set_perms.

Definition arrangements (n : nat) (items : list (list Qc)) : list (list Qc) := flat_map (fun it => set_perms (pad n it)) items.
(** The pairs that broadcasting makes. *)
Definition pairs (l l' : list (list Qc)) : list (list Qc * list Qc) :=
  match l, l' with
  | [t], _ => map (fun t' => (t, t')) l'
  | _, [t'] => map (fun t => (t, t')) l
  | _, _ => combine l l'
  end.
Definition row_of (isotopes : list string) (c c' : string) (p : list Qc * list Qc) : list Qc :=
  set_columns (set_columns (repeat 0 (List.length isotopes)) (iso_indexes isotopes c) (fst p)) (iso_indexes isotopes c') (snd p).

Lemma two_loop isotopes c c' q items items' : In c isotopes -> In c' isotopes -> two_queries isotopes c c' q items items' ->
  pure_permutations set_perms q isotopes [c; c'] =
  expand isotopes [c; c'] [arrangements (n_channel_sites isotopes c) items; arrangements (n_channel_sites isotopes c') items'].
Proof.
  intros H H' [[d [-> [E E']]] [F F']]. unfold pure_permutations. cbn [pure_loop]. rewrite !existsb_string by auto. cbn [negb bind Nat.add]. rewrite E, E'. cbn [bind].
  rewrite !iso_indexes_length, !pure_items_ok by auto. reflexivity.
Qed.
Lemma map_repeat_const {A B} (f : A -> B) x n : map f (repeat x n) = repeat (f x) n.
Proof. induction n; simpl; congruence. Qed.
Lemma combine_repeat {A B} (a : A) (l : list B) n : n = List.length l -> combine (repeat a n) l = map (fun b => (a, b)) l.
Proof. intros ->. induction l; simpl; congruence. Qed.
Lemma two_expand isotopes c c' (l l' : list (list Qc)) : l <> [] -> l' <> [] ->
  (List.length l = List.length l' \/ List.length l = 1%nat \/ List.length l' = 1%nat) ->
  expand isotopes [c; c'] [l; l'] = Ok (map (row_of isotopes c c') (pairs l l')).
Proof.
  intros N N' H. unfold expand. cbn [fold_right combine for_each fst snd]. rewrite Nat.max_0_r. set (z := repeat 0 (List.length isotopes)).
  destruct l as [|t [|u l]]; [tauto| |].
  - unfold assign_channel at 1. cbn [bind]. rewrite map_repeat_const. cbn [List.length pairs]. set (r := set_columns z (iso_indexes isotopes c) t).
    destruct l' as [|t' [|u' l']]; [tauto| |].
    + cbn. reflexivity.
    + unfold assign_channel. rewrite repeat_length. replace (Nat.max 1 (List.length (t' :: u' :: l'))) with (List.length (t' :: u' :: l')) by (cbn [List.length]; lia). rewrite Nat.eqb_refl. cbn [bind]. rewrite combine_repeat by reflexivity. rewrite !map_map. reflexivity.
  - set (L := t :: u :: l) in *. assert (EL : List.length L = S (S (List.length l))) by reflexivity.
    assert (A1 : Nat.max (List.length L) (List.length l') = List.length L) by (destruct l' as [|? [|? ?]]; [tauto| |]; cbn [List.length] in *; lia).
    rewrite A1. assert (E1 : assign_channel (repeat z (List.length L)) (iso_indexes isotopes c) L = Ok (map (set_columns z (iso_indexes isotopes c)) L)).
    { unfold assign_channel, L. rewrite repeat_length, Nat.eqb_refl. f_equal. apply (combine_map_const (fun row t => set_columns row (iso_indexes isotopes c) t)). }
    rewrite E1. cbn [bind]. destruct l' as [|t' [|u' l']]; [tauto| |].
    + unfold assign_channel. cbn [bind]. f_equal. unfold pairs, L. rewrite !map_map. reflexivity.
    + assert (EQ : List.length (t' :: u' :: l') = List.length L) by (cbn [List.length] in *; lia). set (L' := t' :: u' :: l') in *.
      unfold assign_channel. unfold L' at 1. rewrite map_length, EQ, Nat.eqb_refl. cbn [bind]. f_equal. replace (pairs L L') with (combine L L') by reflexivity. clearbody L L'. clear -EQ. revert L' EQ. induction L as [|x L IH]; intros [|y L'] E; try discriminate; auto. cbn [map combine]. f_equal. apply IH. simpl in E. lia.
Qed.
Lemma two_differ isotopes c c' (l l' : list (list Qc)) : l = [] \/ l' = [] \/ (List.length l <> List.length l' /\ List.length l <> 1%nat /\ List.length l' <> 1%nat) ->
  expand isotopes [c; c'] [l; l'] = Err ValueError.
Proof.
  intros H. unfold expand. cbn [fold_right combine for_each fst snd]. rewrite Nat.max_0_r. set (z := repeat 0 (List.length isotopes)).
  destruct l as [|t [|u l]]; [reflexivity| |].
  - destruct H as [H|[->|[_ [H _]]]]; [discriminate| |cbn in H; congruence]. reflexivity.
  - destruct l' as [|t' [|u' l']].
    + cbn [List.length Nat.max]. unfold assign_channel at 1. rewrite repeat_length. cbn [List.length]. rewrite Nat.eqb_refl. reflexivity.
    + destruct H as [H|[H|[_ [_ H]]]]; [discriminate|discriminate|cbn in H; congruence].
    + destruct H as [H|[H|[H _]]]; [discriminate|discriminate|]. cbn [List.length] in H. unfold assign_channel at 1. rewrite repeat_length. cbn [List.length Nat.max].
      destruct (Nat.eqb_spec (S (S (List.length l))) (S (S (Nat.max (List.length l) (List.length l'))))) as [E|E]; [|reflexivity]. cbn [bind]. unfold assign_channel. rewrite map_length, combine_length, repeat_length. cbn [List.length].
      destruct (Nat.eqb_spec (S (S (List.length l'))) (Nat.min (S (S (Nat.max (List.length l) (List.length l')))) (S (S (List.length l))))); [lia|reflexivity].
Qed.

Lemma arrangements_in n items t : In t (arrangements n items) <-> exists it, In it items /\ Permutation t (pad n it).
Proof.
  unfold arrangements. rewrite in_flat_map. split; intros [it [H1 H2]]; exists it; split; auto; apply (Hperms (pad n it)); auto.
Qed.
Lemma arrangements_nil n items : arrangements n items = [] <-> items = [].
Proof.
  split; [|intros ->; reflexivity]. destruct items as [|it items]; auto. unfold arrangements. simpl. intros E. apply app_eq_nil in E. destruct E as [E _]. exfalso. destruct (Hperms (pad n it)) as [_ H]. specialize (proj2 (H _) (Permutation_refl (pad n it))). rewrite E. auto.
Qed.
Lemma arrangement_on isotopes c items v : List.length v = List.length isotopes -> Forall (fun it => (List.length it <= n_channel_sites isotopes c)%nat) items ->
  (on_channel isotopes c items v <-> In (pick (iso_indexes isotopes c) v) (arrangements (n_channel_sites isotopes c) items)).
Proof.
  intros L F. unfold on_channel. rewrite channel_values_pick, arrangements_in by auto. split.
  - intros [it [zs [Hi [Hz HP]]]]. exists it. split; auto. assert (Lp : List.length (pick (iso_indexes isotopes c) v) = n_channel_sites isotopes c) by (unfold pick; rewrite map_length; apply iso_indexes_length).
    assert (zs = repeat 0 (n_channel_sites isotopes c - List.length it)).
    { pose proof (Permutation_length HP) as Q. rewrite Lp, app_length in Q. replace (n_channel_sites isotopes c - List.length it)%nat with (List.length zs) by lia. clear -Hz. induction Hz; simpl; auto. f_equal; auto. }
    subst zs. exact HP.
  - intros [it [Hi HP]]. exists it, (repeat 0 (n_channel_sites isotopes c - List.length it)). split; auto. split; auto. apply Forall_forall. intros x Hx. apply repeat_spec in Hx. auto.
Qed.
Lemma arrangement_length isotopes c items t : Forall (fun it => (List.length it <= n_channel_sites isotopes c)%nat) items -> In t (arrangements (n_channel_sites isotopes c) items) -> List.length t = List.length (iso_indexes isotopes c).
Proof.
  intros F H. apply arrangements_in in H. destruct H as [it [Hi HP]]. apply Permutation_length in HP. rewrite HP, iso_indexes_length. unfold pad. rewrite app_length, repeat_length. rewrite Forall_forall in F. specialize (F it Hi). lia.
Qed.
Lemma idx_bound isotopes c : Forall (fun i => (i < List.length isotopes)%nat) (iso_indexes isotopes c).
Proof. apply Forall_forall. intros i Hi. apply iso_indexes_in in Hi. tauto. Qed.
Lemma idx_disjoint isotopes c c' i : c <> c' -> In i (iso_indexes isotopes c) -> ~ In i (iso_indexes isotopes c').
Proof. rewrite !iso_indexes_in. intros N [_ <-] [_ E]. congruence. Qed.
(** A vector is the row of a pair exactly when the pair has its values on the channels and it vanishes elsewhere. *)
Lemma row_of_iff isotopes c c' v t t' : c <> c' -> List.length v = List.length isotopes -> List.length t = List.length (iso_indexes isotopes c) -> List.length t' = List.length (iso_indexes isotopes c') ->
  (row_of isotopes c c' (t, t') = v <-> pick (iso_indexes isotopes c) v = t /\ pick (iso_indexes isotopes c') v = t' /\ Forall (fun x => x = 0) (neither_values isotopes c c' v)).
Proof.
  intros N L Lt Lt'. rewrite neither_zero by auto. set (z := repeat 0 (List.length isotopes)). set (i1 := iso_indexes isotopes c) in *. set (i2 := iso_indexes isotopes c') in *.
  assert (Lz : List.length z = List.length isotopes) by apply repeat_length. assert (L1 : List.length (set_columns z i1 t) = List.length isotopes) by (rewrite set_columns_length; auto).
  assert (LR : List.length (row_of isotopes c c' (t, t')) = List.length isotopes) by (unfold row_of; cbn [fst snd]; rewrite set_columns_length; auto).
  assert (P2 : pick i2 (row_of isotopes c c' (t, t')) = t') by (unfold row_of, pick; cbn [fst snd]; apply set_columns_at; [apply iso_indexes_NoDup|auto|fold z i1; rewrite L1; apply idx_bound]).
  assert (P1 : pick i1 (row_of isotopes c c' (t, t')) = t).
  { transitivity (pick i1 (set_columns z i1 t)); [|unfold pick; apply set_columns_at; [apply iso_indexes_NoDup|auto|rewrite Lz; apply idx_bound]]. unfold pick. apply map_ext_in. intros i Hi. unfold row_of. cbn [fst snd]. apply set_columns_other. apply (idx_disjoint isotopes c c' i N Hi). }
  assert (P0 : forall i, ~ In i i1 -> ~ In i i2 -> nth i (row_of isotopes c c' (t, t')) 0 = 0) by (intros i H1 H2; unfold row_of; cbn [fst snd]; rewrite !set_columns_other by auto; apply nth_repeat).
  split.
  - intros <-. repeat split; auto.
  - intros [E1 [E2 E0]]. apply (nth_ext' 0); [lia|]. intros i Hi. rewrite LR in Hi. destruct (in_dec Nat.eq_dec i i1) as [H1|H1].
    + pose proof (eq_trans P1 (eq_sym E1)) as Q. unfold pick in Q. apply map_ext_in_iff with (a := i) in Q; auto.
    + destruct (in_dec Nat.eq_dec i i2) as [H2|H2]; [pose proof (eq_trans P2 (eq_sym E2)) as Q; unfold pick in Q; apply map_ext_in_iff with (a := i) in Q; auto|]. rewrite P0, E0; auto.
Qed.
Lemma pairs_sub l l' t t' : In (t, t') (pairs l l') -> In t l /\ In t' l'.
Proof.
  unfold pairs. destruct l as [|x [|y l]].
  - destruct l' as [|? [|? ?]]; intros [].
  - intros H. apply in_map_iff in H. destruct H as [b [E H]]. injection E as <- <-. split; simpl; auto.
  - destruct l' as [|x' [|y' l']]; [intros H; destruct H| |intros H; split; [apply (in_combine_l _ _ _ _ H)|apply (in_combine_r _ _ _ _ H)]]. intros H. apply in_map_iff in H. destruct H as [b [E H]]. injection E as <- <-. split; simpl; auto.
Qed.
Lemma pairs_all l l' t t' : List.length l = 1%nat \/ List.length l' = 1%nat -> In t l -> In t' l' -> In (t, t') (pairs l l').
Proof.
  unfold pairs. destruct l as [|x [|y l]].
  - intros _ [].
  - intros _ [<-|[]] H'. apply in_map_iff. eauto.
  - intros [E|E]; [discriminate|]. destruct l' as [|x' [|y' l']]; try discriminate. intros H [<-|[]]. apply in_map_iff. eauto.
Qed.
(** ** Selection *)
Definition n_arrangements (isotopes : list string) (c : string) (items : list (list Qc)) : nat := List.length (arrangements (n_channel_sites isotopes c) items).
Lemma two_select isotopes spins c c' v items items' : List.length isotopes = List.length spins -> In c isotopes -> In c' isotopes -> c <> c' ->
  two_queries isotopes c c' (tv_P v) items items' -> tv_D v = None -> items <> [] -> items' <> [] ->
  n_arrangements isotopes c items = n_arrangements isotopes c' items' \/ n_arrangements isotopes c items = 1%nat \/ n_arrangements isotopes c' items' = 1%nat ->
  exists sel, pure_event set_perms [c; c'] isotopes (all_transitions spins) v = Ok sel /\ (exists f, sel = filter f (all_transitions spins)) /\
    (forall t, In t sel -> In t (all_transitions spins) /\ matches_both isotopes c c' items items' (delta_m t)) /\
    (n_arrangements isotopes c items = 1%nat \/ n_arrangements isotopes c' items' = 1%nat -> forall t, In t (all_transitions spins) -> matches_both isotopes c c' items items' (delta_m t) -> In t sel).
Proof.
  intros L Hc Hc' N HQ HD NI NI' HA. pose proof HQ as [_ [F F']]. set (l := arrangements (n_channel_sites isotopes c) items). set (l' := arrangements (n_channel_sites isotopes c') items').
  assert (Hne : spins <> []) by (intros ->; destruct isotopes; [destruct Hc|discriminate]). assert (Hn : (0 < List.length isotopes)%nat) by (destruct isotopes; [destruct Hc|simpl; lia]).
  assert (FP : forall t, In t (all_transitions spins) -> List.length (P_fn t) = List.length isotopes) by (intros t Ht; destruct (all_transitions_lengths spins t Hne Ht); unfold P_fn; rewrite zip_with_length; lia).
  set (rows := map (row_of isotopes c c') (pairs l l')).
  assert (FR : Forall (fun r => List.length r = List.length isotopes) rows) by (apply Forall_forall; intros r Hr; apply in_map_iff in Hr; destruct Hr as [p [<- _]]; unfold row_of; rewrite !set_columns_length; apply repeat_length).
  assert (E : pure_permutations set_perms (tv_P v) isotopes [c; c'] = Ok rows) by (rewrite (two_loop isotopes c c' _ items items') by auto; apply two_expand; auto; rewrite arrangements_nil; auto).
  unfold pure_event. rewrite E, HD. cbn [bind]. unfold P_symmetry_indexes. destruct (symmetry_select (List.length isotopes) P_fn (all_transitions spins) rows Hn) as [idx [E1 E2]]; [apply Forall_forall; auto|auto|]. rewrite E1. cbn [bind]. rewrite E2.
  eexists. split; [reflexivity|]. split; [eauto|].
  assert (ROW : forall t p p', In t (all_transitions spins) -> In p l -> In p' l' -> (row_of isotopes c c' (p, p') = delta_m t <-> pick (iso_indexes isotopes c) (delta_m t) = p /\ pick (iso_indexes isotopes c') (delta_m t) = p' /\ Forall (fun x => x = 0) (neither_values isotopes c c' (delta_m t)))).
  { intros t p p' Ht Hp Hp'. apply row_of_iff; auto; [rewrite <- P_fn_delta; auto|apply (arrangement_length isotopes c items); auto|apply (arrangement_length isotopes c' items'); auto]. }
  split.
  - intros t Ht. apply filter_In in Ht. destruct Ht as [Ht Hr]. split; auto. apply row_in_true in Hr. apply in_map_iff in Hr. destruct Hr as [[p p'] [Er Hp]]. apply pairs_sub in Hp. destruct Hp as [Hp Hp']. rewrite P_fn_delta in Er. apply (ROW t p p' Ht Hp Hp') in Er. destruct Er as [R1 [R2 R0]].
    assert (Ld : List.length (delta_m t) = List.length isotopes) by (rewrite <- P_fn_delta; auto). split; auto. split; apply arrangement_on; auto; [rewrite R1|rewrite R2]; auto.
  - intros H1 t Ht [M0 [M1 M2]]. assert (Ld : List.length (delta_m t) = List.length isotopes) by (rewrite <- P_fn_delta; auto). apply arrangement_on in M1; auto. apply arrangement_on in M2; auto. apply filter_In. split; auto. apply row_in_true. rewrite P_fn_delta. apply in_map_iff.
    exists (pick (iso_indexes isotopes c) (delta_m t), pick (iso_indexes isotopes c') (delta_m t)). split; [apply ROW; auto|apply pairs_all; auto].
Qed.
Lemma two_raises isotopes c c' all v items items' : In c isotopes -> In c' isotopes -> two_queries isotopes c c' (tv_P v) items items' ->
  items = [] \/ items' = [] \/ (n_arrangements isotopes c items <> n_arrangements isotopes c' items' /\ n_arrangements isotopes c items <> 1%nat /\ n_arrangements isotopes c' items' <> 1%nat) ->
  pure_event set_perms [c; c'] isotopes all v = Err ValueError.
Proof.
  intros Hc Hc' HQ H. unfold pure_event. rewrite (two_loop isotopes c c' _ items items') by auto. rewrite two_differ; [reflexivity|]. destruct H as [->|[->|H]]; [left; reflexivity|right; left; reflexivity|right; right; exact H].
Qed.
Lemma one_empty isotopes c all v d : In c isotopes -> tv_P v = Some d -> dict_get d 1 = Ok [] -> pure_event set_perms [c] isotopes all v = Err ValueError.
Proof. intros Hc HP Hd. unfold pure_event, pure_permutations. rewrite HP. cbn [pure_loop]. rewrite existsb_string by auto. cbn [negb bind Nat.add]. rewrite Hd. reflexivity. Qed.
(** One arrangement: one item, with the same value on all sites of the channel. *)
Lemma perm_constant (x : Qc) l p : Forall (fun y => y = x) l -> Permutation p l -> p = l.
Proof.
  intros F P. pose proof (Permutation_length P) as E. assert (F' : Forall (fun y => y = x) p) by (apply Forall_forall; intros y Hy; rewrite Forall_forall in F; apply F; apply (Permutation_in _ P Hy)).
  clear P. revert p E F'. induction F as [|y l -> F IH]; intros [|z p] E F'; try discriminate; auto. inversion F'; subst. f_equal. apply IH; auto.
Qed.
Lemma one_arrangement isotopes c it x : Forall (fun y => y = x) (pad (n_channel_sites isotopes c) it) -> n_arrangements isotopes c [it] = 1%nat.
Proof.
  intros F. unfold n_arrangements, arrangements. cbn [flat_map]. rewrite app_nil_r. destruct (Hperms (pad (n_channel_sites isotopes c) it)) as [ND H]. set (l := pad _ it) in *.
  assert (A : forall p, In p (set_perms l) <-> p = l) by (intros p; rewrite H; split; [apply (perm_constant x); auto|intros ->; reflexivity]).
  destruct (set_perms l) as [|a [|b r]]; [exfalso; apply (A l); auto|reflexivity|]. exfalso. assert (a = l) by (apply A; simpl; auto). assert (b = l) by (apply A; simpl; auto). subst. inversion ND as [|? ? Q]. apply Q. simpl; auto.
Qed.
End Two.
