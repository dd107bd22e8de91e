(** Property theorems about transition lists (C44, C45, C71). *)
From Coq Require Import ZArith QArith Qabs Bool String Qcanon Lia List Lqa.
From Verif Require Import Base BaseProofs PathwayModel SelectProofs MethodsModel MethodsProofs TListModel TListProofs.
Import ListNotations.
Open Scope Z_scope.

(** ** C44 *)
(** From a list built by the constructor, after any history (with exceptions caught) of append, extend, item assignment, deletion of items
    and slices, pop, reverse, clear and insert of Transition objects, every element is a Transition. *)
Theorem C44_only_transitions_partial : forall (data l : list item) (ops : list op), new_list data = Ok l -> Forall checked ops ->
  Forall is_transition (run ops l).
Proof. intros data l ops N C. apply run_inv; auto. eapply mapM_check; eauto. Qed.
Print Assumptions C44_only_transitions_partial.
Example C44_example : let t := ([half 1], [half (-1)]) in let d := IDict [("final"%string, Nums [half 3])] in
  new_list [ITrans t; d] = Ok [ITrans t; ITrans ([], [half 3])] /\ Forall checked [Append d; Append IOther; Extend [d; IOther; d]; Reverse; SetItem 7 IOther; Pop 0] /\
  run [Append d; Append IOther; Extend [d; IOther; d]; Reverse; SetItem 7 IOther; Pop 0] [ITrans t; ITrans ([], [half 3])] =
  [ITrans ([], [half 3]); ITrans ([], [half 3]); ITrans t].
Proof. repeat split. repeat constructor. Qed.
(** Refuted in general: insert does not check, and a slice assignment that succeeds always leaves elements that are not transitions. *)
Theorem C44_insert_refuted : forall (l : list item) (i : Z) (x : item), exists l', step (Insert i x) l = (Ok tt, l') /\ In x l'.
Proof. intros l i x. eexists. split; [reflexivity|]. unfold py_insert. apply in_or_app. right. left. auto. Qed.
Print Assumptions C44_insert_refuted.
Theorem C44_slice_refuted : forall (l l' : list item) (a b : Z) (x : item), step (SetSlice a b x) l = (Ok tt, l') -> ~ Forall is_transition l'.
Proof.
  intros l l' a b x. cbn [step]. unfold set_slice. destruct (check x) as [y|] eqn:E; cbn [bind of_res]; [|discriminate]. intros H. apply pair_equal_spec in H. destruct H as [_ <-].
  destruct (check_trans x y E) as [t ->]. unfold py_set_slice. cbn [iterate]. intros F. apply Forall_app in F. destruct F as [_ F]. inversion F as [|? ? [u U] _]. discriminate.
Qed.
Print Assumptions C44_slice_refuted.
Example C44_refuted_example : fst (step (SetSlice 0 1 (ITrans ([], []))) [ITrans ([], []); ITrans ([], [])]) = Ok tt. Proof. reflexivity. Qed.

(** ** C71 *)
(** On lists of transitions: append adds the checked item at the end or raises and changes nothing; extend adds the items up to the first
    that is refused, and raises exactly when one is; reverse reverses; clear empties; pop(-1) removes the last element. *)
Theorem C71_operations : forall (l : list item), Forall is_transition l ->
  (forall x, step (Append x) l = match check x with Ok y => (Ok tt, l ++ [y]) | Err e => (Err e, l) end) /\
  (forall xs, step (Extend xs) l = (match mapM check xs with Ok _ => Ok tt | Err e => Err e end, l ++ accepted xs)) /\
  step Reverse l = (Ok tt, rev l) /\ step Clear l = (Ok tt, []) /\
  (forall l0 x, l = l0 ++ [x] -> step (Pop (-1)) l = (Ok tt, l0)).
Proof.
  intros l T. split; [|split; [|split; [|split]]].
  - intros x. cbn [step]. destruct (check x) as [y|e] eqn:E; [apply append_ok; auto|]. unfold append. rewrite E. reflexivity.
  - intros xs. apply extend_spec.
  - apply reverse_spec. auto.
  - apply clear_spec. lia.
  - intros l0 x ->. apply pop_last.
Qed.
Print Assumptions C71_operations.
Example C71_example : let t k := ITrans ([], [half k]) in Forall is_transition [t 1; t 2; t 3] /\ snd (step (Extend [t 4; IOther; t 5]) [t 1; t 2; t 3]) = [t 1; t 2; t 3; t 4] /\
  snd (step Reverse [t 1; t 2; t 3]) = [t 3; t 2; t 1].
Proof. split; [|split; reflexivity]. repeat constructor; eexists; reflexivity. Qed.

(** A dict with distinct keys is accepted exactly when initial and final, where given, are lists of numbers; what is not given is empty. *)
Definition dict_value (d : list (string * dval)) (k : string) (l : list Qc) : Prop := In (k, Nums l) d \/ ~ In k (map fst d) /\ l = [].
Theorem C71_dict : forall (d : list (string * dval)), NoDup (map fst d) ->
  forall i f, check (IDict d) = Ok (ITrans (i, f)) <-> dict_value d "initial" i /\ dict_value d "final" f.
Proof.
  intros d N.
  assert (F : forall k l, field d k = Ok l <-> dict_value d k l).
  { intros k l. unfold field, dict_value. induction d as [|[k' v] d IH]; cbn [find map fst In] in *.
    - split; [intros [= <-]; auto | intros [[]|[_ ->]]; reflexivity].
    - inversion N as [|? ? N1 N2]; subst. destruct (String.eqb_spec k' k) as [->|D].
      + destruct v as [l'|].
        * split; [intros [= <-]; auto|]. intros [[[= ->]|H]|[H _]]; [reflexivity | elim N1; change k with (fst (k, Nums l)); now apply in_map | tauto].
        * split; [discriminate|]. intros [[H|H]|[H _]]; [discriminate | elim N1; change k with (fst (k, Nums l)); now apply in_map | tauto].
      + rewrite (IH N2). split.
        * intros [H|[H ->]]; [auto | right; split; [intros [E|E]; [contradiction | now apply H] | reflexivity]].
        * intros [[H|H]|[H ->]]; [congruence | auto | right; split; auto]. }
  intros i f. cbn [check]. unfold make_transition. rewrite <- !F. destruct (field d "initial") as [a|e1]; cbn [bind].
  - destruct (field d "final") as [b|e2]; cbn [bind]; split; [intros [= <- <-]; auto | intros [[= ->] [= ->]]; reflexivity | discriminate | intros [_ ?]; discriminate].
  - split; [discriminate | intros [? _]; discriminate].
Qed.
Print Assumptions C71_dict.
Example C71_dict_case : NoDup (map fst [("final"%string, Nums [half 3]); ("label"%string, Junk)]) /\
  check (IDict [("final"%string, Nums [half 3]); ("label"%string, Junk)]) = Ok (ITrans ([], [half 3])).
Proof. split; [|reflexivity]. repeat constructor; cbn; intuition discriminate. Qed.

(** ** C45 *)
Open Scope Qc_scope.
Lemma combine_swap {A B C} (f : A -> B -> C) (a : list A) (b : list B) : map (fun p => f (fst p) (snd p)) (combine a b) = map (fun q => f (snd q) (fst q)) (combine b a).
Proof. revert b. induction a as [|x a IH]; intros [|y b]; cbn; auto. f_equal. auto. Qed.
(** Transitions over n sites and requests of n values: the result is the sublist, in order, of the transitions whose differences m_f - m_i
    (m_f^2 - m_i^2) are all within numpy's tolerance ([near]) of the request. *)
Theorem C45_filter : forall (n : nat) (l : list transition) (P : option (list Qc)) (PP : bool) (D : option (list Qc)),
  (forall t, In t l -> List.length (fst t) = n /\ List.length (snd t) = n) ->
  (forall p, P = Some p -> List.length p = n) -> (forall d, D = Some d -> List.length d = n) ->
  exists k f, tl_filter l P PP D = Ok (k, filter f l) /\
  forall t, In t l -> (f t = true <-> (forall p, P = Some p -> Forall2 near (delta_m t) p) /\ (forall d, D = Some d -> Forall2 near (delta_m2 t) d)).
Proof.
  intros n l P PP D W LP LD.
  assert (SP : forall t p, In t l -> P = Some p -> exists r, (let* x := tr_P t in allclose x p) = Ok r /\ (r = true <-> Forall2 near (delta_m t) p)).
  { intros t p Ht E. destruct (W t Ht) as [L1 L2]. assert (T : tr_P t = Ok (delta_m t)) by (unfold tr_P, broadcast; rewrite L1, L2, Nat.eqb_refl; f_equal; apply (combine_swap (fun f i => f - i))).
    rewrite T. cbn [bind]. apply allclose_spec. unfold delta_m. rewrite map_length, combine_length, (LP p E). lia. }
  assert (SD : forall t d, In t l -> D = Some d -> exists r, (let* x := tr_D t in allclose x d) = Ok r /\ (r = true <-> Forall2 near (delta_m2 t) d)).
  { intros t d Ht E. destruct (W t Ht) as [L1 L2].
    assert (T : tr_D t = Ok (delta_m2 t)).
    { unfold tr_D, broadcast. rewrite !map_length, L1, L2, Nat.eqb_refl. f_equal. rewrite (combine_swap (fun f i => f - i)). unfold delta_m2. clear. destruct t as [a b]. cbn [fst snd]. revert b.
      induction a as [|x a IH]; intros [|y b]; cbn; auto. f_equal. apply IH. }
    rewrite T. cbn [bind]. apply allclose_spec. unfold delta_m2. rewrite map_length, combine_length, (LD d E). lia. }
  assert (FP : exists f, match P with None => Ok l | Some p => filterM (fun t => let* x := tr_P t in allclose x p) l end = Ok (filter f l) /\
    forall t, In t l -> (f t = true <-> forall p, P = Some p -> Forall2 near (delta_m t) p)).
  { destruct P as [p|].
    - destruct (filterM_spec (fun t => let* x := tr_P t in allclose x p) l) as [g [G E]]; [intros t Ht; destruct (SP t p Ht eq_refl) as [r [R _]]; eauto|].
      exists g. split; auto. intros t Ht. destruct (SP t p Ht eq_refl) as [r [R I]]. assert (r = g t) by (specialize (E t Ht); cbv beta in E; congruence). subst r. rewrite I. split; [intros H q [= <-]; auto|intros H; auto].
    - exists (fun _ => true). split; [f_equal; clear; induction l; cbn; congruence|]. intros t _. split; [discriminate|auto]. }
  destruct FP as [f [EP IP]].
  assert (FD : exists g, match D with None => Ok (filter f l) | Some d => filterM (fun t => let* x := tr_D t in allclose x d) (filter f l) end = Ok (filter g (filter f l)) /\
    forall t, In t l -> f t = true -> (g t = true <-> forall d, D = Some d -> Forall2 near (delta_m2 t) d)).
  { destruct D as [d|].
    - destruct (filterM_spec (fun t => let* x := tr_D t in allclose x d) (filter f l)) as [g [G E]]; [intros t Ht; apply filter_In in Ht; destruct (SD t d (proj1 Ht) eq_refl) as [r [R _]]; eauto|].
      exists g. split; auto. intros t Ht Ft. destruct (SD t d Ht eq_refl) as [r [R I]]. specialize (E t (proj2 (filter_In f t l) (conj Ht Ft))). cbv beta in E. assert (r = g t) by congruence. subst r. rewrite I. split; [intros H q [= <-]; auto|intros H; auto].
    - exists (fun _ => true). split; [f_equal; generalize (filter f l); clear; intros m; induction m; cbn; congruence|]. intros t _ _. split; [discriminate|auto]. }
  destruct FD as [g [ED ID]].
  assert (R : exists k, tl_filter l P PP D = Ok (k, filter g (filter f l)) \/ (tl_filter l P PP D = Ok (k, l) /\ P = None /\ D = None)).
  { unfold tl_filter. rewrite EP. cbn [bind]. rewrite ED. cbn [bind]. destruct P, D, PP; eexists; auto. }
  destruct R as [k [R|[R [-> ->]]]].
  - exists k, (fun t => f t && g t)%bool. rewrite R, filter_filter. split; auto. intros t Ht. rewrite andb_true_iff. split.
    + intros [F G]. split; [apply IP; auto|apply ID; auto].
    + intros [A B]. assert (F : f t = true) by (apply IP; auto). split; auto. apply ID; auto.
  - exists k, (fun _ => true). rewrite R. split; [f_equal; f_equal; clear; induction l; cbn; congruence|]. intros t _. split; [intros _; split; discriminate|auto].
Qed.
Print Assumptions C45_filter.
(** Quantum numbers are multiples of 1/2; for requests that are multiples of 1/4 up to 20000 the tolerance is equality: the filter is
    exact. *)
Theorem C45_exact : forall (m : list Z) (m' : list Z) (p : list Z), Forall (fun z => (Z.abs z <= 80000)%Z) p ->
  let t := (map half m, map half m') in let request := map (fun z => quot z 4) p in
  (Forall2 near (delta_m t) request <-> delta_m t = request) /\ (Forall2 near (delta_m2 t) request <-> delta_m2 t = request).
Proof.
  intros m m' p B t request.
  assert (N : forall a b x y, (this a == x # 4)%Q -> (this b == y # 4)%Q -> (Z.abs y <= 80000)%Z -> near a b -> a = b).
  { intros a b x y Ea Eb By H. unfold near in H. rewrite Ea, Eb in H. rewrite qc_iff, Ea, Eb.
    assert (Q1 : (Qabs ((x # 4) - (y # 4)) == Z.abs (x - y) # 4)%Q).
    { assert (E : ((x # 4) - (y # 4) == (x - y) # 4)%Q) by (unfold Qeq, Qminus, Qplus, Qopp; cbn -[Z.mul Z.add Z.sub]; lia). rewrite E. unfold Qabs. reflexivity. }
    rewrite Q1 in H. unfold Qabs in H. unfold Qle in H. cbn -[Z.mul Z.add Z.abs] in H. assert (x = y) by lia. subst. reflexivity. }
  assert (G : forall l, (forall a, In a l -> exists x, (this a == x # 4)%Q) -> (Forall2 near l request <-> l = request)).
  { intros l A. subst t. subst request. split.
    - revert p B. induction l as [|a l IH]; intros [|z p] B H; inversion H; subst; auto. inversion B; subst. cbn [map]. f_equal.
      + destruct (A a (or_introl eq_refl)) as [x Ex]. eapply N; eauto. apply Qred_correct.
      + apply IH; auto. intros; apply A; right; auto.
    - intros ->. clear. induction (map _ p) as [|a l IH]; constructor; auto. unfold near. assert (E : (this a - this a == 0)%Q) by ring. rewrite E. cbn [Qabs Z.abs].
      pose proof (Qabs_nonneg (this a)). change (0 # 1) with 0%Q. lra. }
  assert (HC : forall u v, In (u, v) (combine (map half m) (map half m')) -> exists x y, u = half x /\ v = half y).
  { intros u v Ha. pose proof (in_combine_l _ _ _ _ Ha) as Hu. pose proof (in_combine_r _ _ _ _ Ha) as Hv. apply in_map_iff in Hu, Hv.
    destruct Hu as [x [<- _]], Hv as [y [<- _]]. eauto. }
  split; apply G; intros a Ha; apply in_map_iff in Ha; destruct Ha as [[u v] [<- Ha]]; apply HC in Ha; destruct Ha as [x [y [-> ->]]]; cbn [fst snd].
  - exists (2 * y - 2 * x)%Z. rewrite minus_this, !half_this. unfold Qeq, Qminus, Qplus, Qopp. cbn -[Z.mul Z.add Z.sub]. lia.
  - exists (y * y - x * x)%Z. rewrite minus_this, !mult_this, !half_this. unfold Qeq, Qminus, Qplus, Qopp, Qmult. cbn -[Z.mul Z.add Z.sub]. lia.
Qed.
Print Assumptions C45_exact.
(** A request of one value is compared with every site; a request of another length raises ValueError. *)
Theorem C45_length : forall (t : transition) (n : nat) (p : list Qc), List.length (fst t) = n -> List.length (snd t) = n -> (2 <= n)%nat -> List.length p <> n ->
  match p with
  | [x] => exists r, (let* v := tr_P t in allclose v p) = Ok r /\ (r = true <-> Forall (fun v => near v x) (delta_m t))
  | _ => forall l D, tl_filter (t :: l) (Some p) false D = Err ValueError
  end.
Proof.
  intros t n p L1 L2 Hn Lp.
  assert (T : tr_P t = Ok (delta_m t)) by (unfold tr_P, broadcast; rewrite L1, L2, Nat.eqb_refl; f_equal; apply (combine_swap (fun f i => f - i))).
  assert (LD : List.length (delta_m t) = n) by (unfold delta_m; rewrite map_length, combine_length; lia).
  assert (E : Nat.eqb (List.length (delta_m t)) (List.length p) = false) by (apply Nat.eqb_neq; lia).
  destruct (delta_m t) as [|d1 [|d2 ds]] eqn:DM; cbn in LD; try lia.
  assert (A : allclose (d1 :: d2 :: ds) p = match p with [y] => Ok (forallb (fun x => x) (map (fun x => close x y) (d1 :: d2 :: ds))) | _ => Err ValueError end).
  { unfold allclose, broadcast. rewrite E. destruct p as [|y [|z p]]; reflexivity. }
  destruct p as [|x [|z p]].
  - intros l D. unfold tl_filter. cbn [filterM]. rewrite T. cbn [bind]. rewrite A. reflexivity.
  - rewrite T. cbn [bind]. rewrite A. eexists. split; [reflexivity|]. clear. induction (d1 :: d2 :: ds) as [|a l IH]; [split; auto; intros; constructor|].
    cbn [map forallb]. rewrite andb_true_iff, IH, close_near. split; [intros [? ?]; constructor; auto|intros H; inversion H; auto].
  - intros l D. unfold tl_filter. cbn [filterM]. rewrite T. cbn [bind]. rewrite A. reflexivity.
Qed.
Print Assumptions C45_length.
(** Three transitions of two spins 1/2, of which the request P = [0, -1] selects the second. *)
Example C45_example : let up := half 1 in let dn := half (-1) in
  let l := [([up; up], [dn; up]); ([up; up], [up; dn]); ([dn; dn], [up; up])] in
  tl_filter l (Some [quot 0 4; quot (-4) 4]) false (Some [0; 0]) = Ok (NewList, [([up; up], [up; dn])]) /\ delta_m ([up; up], [up; dn]) = map (fun z => quot z 4) [0; -4]%Z.
Proof. split; [vm_compute; reflexivity|]. cbn. repeat f_equal; apply Qc_is_canon; reflexivity. Qed.
(** The flat list of a pathway over n sites: its quantum numbers in blocks of 2n, initial then final, from which the pathway can be read. *)
Theorem C45_tolist : forall (n : nat) (p : list transition), (forall t, In t p -> List.length (fst t) = n /\ List.length (snd t) = n) ->
  List.length (pathway_tolist p) = (List.length p * (2 * n))%nat /\
  forall k, (k < List.length p)%nat -> firstn n (skipn (k * (2 * n)) (pathway_tolist p)) = fst (nth k p ([], [])) /\
    firstn n (skipn (k * (2 * n) + n) (pathway_tolist p)) = snd (nth k p ([], [])).
Proof.
  intros n p. induction p as [|t p IH]; intros W; [split; [reflexivity|cbn; lia]|]. destruct (W t (or_introl eq_refl)) as [L1 L2]. destruct IH as [L IH]; [intros; apply W; right; auto|].
  assert (LT : List.length (tr_tolist t) = (2 * n)%nat) by (unfold tr_tolist; rewrite app_length; lia).
  change (pathway_tolist (t :: p)) with (tr_tolist t ++ pathway_tolist p). split; [rewrite app_length, L, LT; cbn; lia|]. intros [|k] Hk; cbn [nth].
  - split.
    + cbn [Nat.mul]. rewrite skipn_O. unfold tr_tolist. rewrite <- app_assoc, firstn_app, L1, Nat.sub_diag. rewrite <- L1 at 1. rewrite firstn_all. cbn. apply app_nil_r.
    + cbn [Nat.mul plus]. unfold tr_tolist. rewrite <- app_assoc. rewrite skipn_app, L1, Nat.sub_diag, (skipn_all2 (fst t)) by lia. cbn [app skipn]. rewrite firstn_app, L2, Nat.sub_diag, (firstn_all2 (snd t)) by lia. cbn. apply app_nil_r.
  - cbn in Hk. specialize (IH k ltac:(lia)).
    assert (S1 : forall j, skipn (2 * n + j) (tr_tolist t ++ pathway_tolist p) = skipn j (pathway_tolist p)).
    { intros j. rewrite skipn_app, LT. rewrite skipn_all2 by lia. cbn [app]. f_equal. lia. }
    replace (S k * (2 * n))%nat with (2 * n + k * (2 * n))%nat by lia. rewrite <- Nat.add_assoc, !S1. auto.
Qed.
Print Assumptions C45_tolist.

Open Scope Z_scope.
(** Slices and insert: a negative bound counts from the end, and what is beyond an end is the end. *)
Definition from_start (n : nat) (i : Z) : Z := if i <? 0 then i + Z.of_nat n else i.
Definition outside_slice (a b : Z) (l : list item) : list item :=
  map snd (filter (fun px => negb ((from_start (List.length l) a <=? Z.of_nat (fst px)) && (Z.of_nat (fst px) <? from_start (List.length l) b))) (combine (seq 0 (List.length l)) l)).
Lemma keep_outside (f : nat -> bool) (l : list item) : forall s i j, (i <= j)%nat -> (j <= List.length l)%nat -> (forall p, (p < List.length l)%nat -> f (s + p)%nat = negb ((i <=? p)%nat && (p <? j)%nat)) ->
  map snd (filter (fun px => f (fst px)) (combine (seq s (List.length l)) l)) = firstn i l ++ skipn j l.
Proof.
  induction l as [|x l IH]; intros s i j IJ J F; [destruct i, j; reflexivity|]. cbn [List.length seq combine filter fst] in *.
  pose proof (F 0%nat ltac:(lia)) as F0. rewrite Nat.add_0_r in F0. rewrite F0.
  assert (T : forall i' j', (forall p, ((i <=? S p) && (S p <? j) = (i' <=? p) && (p <? j'))%nat) -> forall p, (p < List.length l)%nat -> f (S s + p)%nat = negb ((i' <=? p)%nat && (p <? j')%nat)).
  { intros i' j' E p Hp. replace (S s + p)%nat with (s + S p)%nat by lia. rewrite F by lia. rewrite E. reflexivity. }
  destruct i as [|i], j as [|j]; cbn [Nat.leb Nat.ltb andb negb map snd firstn skipn app]; try lia.
  - f_equal. rewrite (IH (S s) 0%nat 0%nat); [reflexivity|lia|lia|]. apply T. intros p. reflexivity.
  - rewrite (IH (S s) 0%nat j); [reflexivity|lia|lia|]. apply T. intros p. reflexivity.
  - f_equal. apply (IH (S s) i j); [lia|lia|]. apply T. intros p. reflexivity.
Qed.
Theorem C71_delete_slice : forall (l : list item) (a b : Z), step (DelSlice a b) l = (Ok tt, outside_slice a b l).
Proof.
  intros l a b. cbn [step]. f_equal. unfold py_set_slice, outside_slice. cbn [app]. symmetry.
  apply (keep_outside (fun p => negb ((from_start (List.length l) a <=? Z.of_nat p) && (Z.of_nat p <? from_start (List.length l) b))) l 0).
  - lia.
  - unfold clamp. destruct (a <? 0), (b <? 0); lia.
  - intros p Hp. f_equal. rewrite Nat.add_0_l. unfold clamp, from_start. destruct (Z.ltb_spec a 0), (Z.ltb_spec b 0);
      (apply eq_true_iff_eq; rewrite !andb_true_iff, Z.leb_le, Z.ltb_lt, Nat.leb_le, Nat.ltb_lt; lia).
Qed.
Print Assumptions C71_delete_slice.
Theorem C71_insert : forall (l : list item) (i : Z) (x : item), exists before after, l = before ++ after /\ step (Insert i x) l = (Ok tt, before ++ x :: after) /\
  Z.of_nat (List.length before) = Z.max 0 (Z.min (from_start (List.length l) i) (Z.of_nat (List.length l))).
Proof.
  intros l i x. exists (firstn (clamp (List.length l) i) l), (skipn (clamp (List.length l) i) l). split; [symmetry; apply firstn_skipn|]. split; [reflexivity|].
  rewrite firstn_length. unfold clamp, from_start. destruct (i <? 0); lia.
Qed.
Print Assumptions C71_insert.
(** Item assignment and deletion at an index, from either end. *)
Theorem C71_items : forall (l : list item) (i : Z) (before after : list item) (old : item), l = before ++ old :: after -> from_start (List.length l) i = Z.of_nat (List.length before) ->
  step (DelItem i) l = (Ok tt, before ++ after) /\ step (Pop i) l = (Ok tt, before ++ after) /\ forall t, step (SetItem i (ITrans t)) l = (Ok tt, before ++ ITrans t :: after).
Proof.
  intros l i before after old -> F. rewrite app_length in F. cbn [List.length] in F.
  assert (P : position (List.length (before ++ old :: after)) i = Some (List.length before)).
  { unfold position. rewrite app_length. cbn [List.length]. unfold from_start in F. rewrite F. destruct (Z.leb_spec 0 (Z.of_nat (List.length before))); [|lia].
    destruct (Z.ltb_spec (Z.of_nat (List.length before)) (Z.of_nat (List.length before + S (List.length after)))); [|lia]. cbn [andb]. rewrite Nat2Z.id. reflexivity. }
  assert (D : py_del (before ++ old :: after) i = Ok (before ++ after)).
  { unfold py_del. rewrite P. f_equal. f_equal; [rewrite firstn_app, Nat.sub_diag, firstn_all, app_nil_r; reflexivity|]. rewrite skipn_app, skipn_all2 by lia. replace (S (List.length before) - List.length before)%nat with 1%nat by lia. reflexivity. }
  unfold from_start in F. cbn [step]. rewrite D. split; [reflexivity|]. split.
  - unfold pop. unfold py_index. rewrite app_length. cbn [List.length]. rewrite F. destruct (Z.ltb_spec (Z.of_nat (List.length before)) 0); [lia|]. rewrite Nat2Z.id, nth_error_app2, Nat.sub_diag by lia. cbn [nth_error bind]. rewrite D. reflexivity.
  - intros t. unfold set_item, py_assign. cbn [check bind]. rewrite app_length. cbn [List.length]. rewrite F. destruct (Z.ltb_spec (Z.of_nat (List.length before)) 0); [lia|].
    destruct (Z.ltb_spec (Z.of_nat (List.length before)) (Z.of_nat (List.length before + S (List.length after)))); [|lia]. rewrite Nat2Z.id. cbn [of_res]. f_equal.
    clear. induction before as [|y l IH]; [reflexivity|]. cbn [app List.length upd_nat]. rewrite IH. reflexivity.
Qed.
Print Assumptions C71_items.
Theorem C71_bad_index : forall (l : list item) (i : Z), ~ (0 <= from_start (List.length l) i < Z.of_nat (List.length l)) ->
  step (DelItem i) l = (Err IndexError, l) /\ step (Pop i) l = (Err IndexError, l) /\ forall t, step (SetItem i (ITrans t)) l = (Err IndexError, l).
Proof.
  intros l i F. unfold from_start in F. cbn [step]. unfold pop, py_del, position, py_index, set_item, py_assign. cbn [check bind].
  set (j := if i <? 0 then i + Z.of_nat (List.length l) else i) in *. destruct (Z.leb_spec 0 j), (Z.ltb_spec j (Z.of_nat (List.length l))), (Z.ltb_spec j 0); cbn [andb of_res bind]; try lia; auto.
  assert (N : nth_error l (Z.to_nat j) = None) by (apply nth_error_None; lia). rewrite N. cbn. auto.
Qed.
Print Assumptions C71_bad_index.
Example C71_slice_example : let t k := ITrans ([], [half k]) in outside_slice (-3) (-1) [t 1; t 2; t 3; t 4] = [t 1; t 4] /\ step (DelSlice (-3) (-1)) [t 1; t 2; t 3; t 4] = (Ok tt, [t 1; t 4]) /\
  step (Insert (-1) (t 9)) [t 1; t 2] = (Ok tt, [t 1; t 9; t 2]) /\ from_start 4 (-2) = 2 /\ ~ (0 <= from_start 4 (-5) < 4).
Proof. cbv zeta. split; [reflexivity|]. split; [reflexivity|]. split; [reflexivity|]. split; [reflexivity|]. unfold from_start. cbn. lia. Qed.
