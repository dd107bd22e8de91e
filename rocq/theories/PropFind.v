(** C127: searching in transition lists. *)
From Coq Require Import ZArith QArith Qabs Bool String Qcanon List Lia.
From Verif Require Import Base BaseProofs PathwayModel MethodsModel TListModel TListProofs TListFind PropTList.
Import ListNotations.
Open Scope Z_scope.

(** ** What is meant *)
(** The value stands for the transition t: it is that transition, or the dict with just its two lists. *)
Definition stands_for (value : item) (t : transition) : Prop :=
  match value with
  | ITrans u => u = t
  | IDict d => (d = [("initial"%string, Nums (fst t)); ("final"%string, Nums (snd t))] \/ d = [("final"%string, Nums (snd t)); ("initial"%string, Nums (fst t))])
  | IOther => False
  end.
(** The keys of a dict are distinct. *)
Definition proper (value : item) : Prop := match value with IDict d => NoDup (map fst d) | _ => True end.
(** The bounds of index: negative ones count from the end. *)
Definition in_range (n : nat) (start : Z) (stop : option Z) (p : nat) : Prop := from_start n start <= Z.of_nat p /\ match stop with Some s => Z.of_nat p < from_start n s | None => True end.

Lemma qcs_spec a b : qcs_eqb a b = true <-> a = b.
Proof. unfold qcs_eqb. destruct (list_eq_dec Qc_eq_dec a b); split; congruence. Qed.
Lemma equals_spec t value : proper value -> equals t value = true <-> stands_for value t.
Proof.
  destruct value as [u|d|]; cbn [equals stands_for proper]; intros P.
  - rewrite andb_true_iff, !qcs_spec. destruct t as [a b], u as [a' b']; cbn. split; [intros [-> ->]; reflexivity|intros [= -> ->]; auto].
  - rewrite !andb_true_iff, Nat.eqb_eq. split.
    + intros [[L I] F]. destruct d as [|[k v] [|[k' v'] [|]]]; try discriminate. unfold has_value in I, F. cbn [existsb fst snd] in I, F. rewrite orb_false_r, orb_true_iff, !andb_true_iff, !String.eqb_eq in I, F.
      cbn [map fst] in P. apply NoDup_cons_iff in P. destruct P as [P _]. cbn in P.
      destruct I as [[-> I]|[-> I]], F as [[F' F]|[F' F]]; try congruence; subst; [left|right]; (destruct v, v'; try discriminate); rewrite qcs_spec in I, F; congruence.
    + intros [-> | ->]; unfold has_value; cbn [existsb fst snd List.length Nat.eqb String.eqb Ascii.eqb Bool.eqb andb orb]; rewrite ?orb_false_r; repeat split; apply qcs_spec; reflexivity.
  - split; [discriminate|contradiction].
Qed.
Lemma item_spec other x value : is_transition x -> proper value -> item_equals other x value = true <-> exists t, x = ITrans t /\ stands_for value t.
Proof. intros [t ->] P. cbn [item_equals]. rewrite (equals_spec t value P). split; [intros S; exists t; auto|intros (u & [= <-] & S); exact S]. Qed.
(** The result of the loop: the first place from i on. *)
Lemma loop_spec other l value stop : forall fuel i, (0 <= i) -> (List.length l < fuel + Z.to_nat i)%nat ->
  (exists p, index_loop other fuel l value stop i = Ok (Z.of_nat p) /\ i <= Z.of_nat p /\ match stop with Some s => Z.of_nat p < s | None => True end /\ (exists x, nth_error l p = Some x /\ item_equals other x value = true) /\
     forall q y, i <= Z.of_nat q < Z.of_nat p -> nth_error l q = Some y -> item_equals other y value = false) \/
  (index_loop other fuel l value stop i = Err ValueError /\ forall q y, i <= Z.of_nat q -> match stop with Some s => Z.of_nat q < s | None => True end -> nth_error l q = Some y -> item_equals other y value = false).
Proof.
  induction fuel as [|f IH]; intros i I L.
  - right. split; [reflexivity|]. intros q y Q _ N. assert (nth_error l q <> None) by congruence. apply nth_error_Some in H. lia.
  - cbn [index_loop]. destruct (match stop with None => true | Some s => i <? s end) eqn:ST.
    + unfold py_index. destruct (Z.ltb_spec i 0); [lia|]. destruct (Z.ltb_spec i 0); [lia|]. destruct (nth_error l (Z.to_nat i)) as [v|] eqn:N.
      * destruct (item_equals other v value) eqn:E.
        -- left. exists (Z.to_nat i). rewrite Z2Nat.id by lia. split; [reflexivity|]. split; [lia|]. split; [destruct stop as [s|]; auto; apply Z.ltb_lt in ST; lia|]. split; [exists v; auto|]. intros. lia.
        -- destruct (IH (i + 1) ltac:(lia) ltac:(lia)) as [(p & R & P1 & P2 & P3 & P4)|(R & P)].
           ++ left. exists p. split; [exact R|]. split; [lia|]. split; [exact P2|]. split; [exact P3|]. intros q y Q Ny. destruct (Z.eq_dec (Z.of_nat q) i) as [Eq|]; [|apply (P4 q); [lia|auto]]. replace q with (Z.to_nat i) in Ny by lia. congruence.
           ++ right. split; [exact R|]. intros q y Q S Ny. destruct (Z.eq_dec (Z.of_nat q) i) as [Eq|]; [|apply (P q); [lia|auto|auto]]. replace q with (Z.to_nat i) in Ny by lia. congruence.
      * right. split; [reflexivity|]. intros q y Q S Ny. apply nth_error_None in N. assert (nth_error l q <> None) by congruence. apply nth_error_Some in H1. lia.
    + right. split; [reflexivity|]. intros q y Q S. destruct stop as [s|]; [|discriminate]. apply Z.ltb_ge in ST. lia.
Qed.

(** ** C127 *)
(** index gives the first place in the range at which the list holds the transition that the value stands for, and a ValueError when there is none. *)
Theorem C127_index : forall other (l : list transition) (value : item) (start : Z) (stop : option Z), proper value ->
  let n := List.length l in let holds p := exists t, nth_error l p = Some t /\ stands_for value t in
  (forall i, index other (map ITrans l) value start stop = Ok i <-> exists p, i = Z.of_nat p /\ in_range n start stop p /\ holds p /\ forall q, in_range n start stop q -> (q < p)%nat -> ~ holds q) /\
  (index other (map ITrans l) value start stop = Err ValueError <-> forall p, in_range n start stop p -> ~ holds p).
Proof.
  intros other l value start stop P n holds.
  assert (H : forall p, (exists x, nth_error (map ITrans l) p = Some x /\ item_equals other x value = true) <-> holds p).
  { intros p. unfold holds. rewrite nth_error_map. destruct (nth_error l p) as [t|]; cbn [option_map].
    - split; [intros (x & [= <-] & E); exists t; split; [reflexivity|]; apply equals_spec; auto|intros (u & [= <-] & E); exists (ITrans t); split; [reflexivity|]; apply equals_spec; auto].
    - split; [intros (x & X & _); discriminate|intros (x & X & _); discriminate]. }
  set (a := if start <? 0 then Z.max (Z.of_nat n + start) 0 else start). set (b := match stop with Some s => Some (if s <? 0 then s + Z.of_nat n else s) | None => None end).
  assert (A0 : 0 <= a) by (unfold a; destruct (Z.ltb_spec start 0); lia).
  assert (R : forall p, in_range n start stop p <-> a <= Z.of_nat p /\ match b with Some s => Z.of_nat p < s | None => True end).
  { intros p. unfold in_range, from_start, a, b. destruct (Z.ltb_spec start 0); destruct stop as [s|]; try destruct (s <? 0); split; lia || (split; [lia|auto]). }
  assert (E : index other (map ITrans l) value start stop = index_loop other (S n) (map ITrans l) value b a) by (unfold index; rewrite map_length; reflexivity).
  destruct (loop_spec other (map ITrans l) value b (S n) a A0 ltac:(rewrite map_length; fold n; lia)) as [(p & Q & P1 & P2 & P3 & P4)|(Q & P4)].
  - assert (F : forall q, in_range n start stop q -> (q < p)%nat -> ~ holds q).
    { intros q Rq Lq Hq. apply H in Hq. destruct Hq as (x & X & Y). apply R in Rq. rewrite (P4 q x) in Y; [discriminate|lia|exact X]. }
    assert (Rp : in_range n start stop p) by (apply R; auto). assert (Hp : holds p) by (apply H; exact P3). split.
    + intros i. rewrite E, Q. split; [intros [= <-]; exists p; auto|]. intros (p' & -> & Rp' & Hp' & F'). f_equal. f_equal.
      destruct (Nat.lt_trichotomy p p') as [Lt|[Eq|Lt]]; [exfalso; apply (F' p); auto|exact Eq|exfalso; apply (F p'); auto].
    + rewrite E, Q. split; [discriminate|]. intros N. exfalso. apply (N p); auto.
  - assert (F : forall q, in_range n start stop q -> ~ holds q).
    { intros q Rq Hq. apply H in Hq. destruct Hq as (x & X & Y). apply R in Rq. rewrite (P4 q x) in Y; [discriminate|tauto|tauto|exact X]. }
    split; [intros i; rewrite E, Q; split; [discriminate|]; intros (p & -> & Rp & Hp & _); exfalso; apply (F p); auto|]. rewrite E, Q. split; auto.
Qed.
Print Assumptions C127_index.
(** remove takes out the first such transition and nothing else; without one it raises a ValueError and changes nothing. *)
Theorem C127_remove : forall other (l : list transition) (value : item), proper value ->
  (forall before t after, l = before ++ t :: after -> stands_for value t -> (forall u, In u before -> ~ stands_for value u) -> remove other (map ITrans l) value = (Ok tt, map ITrans (before ++ after))) /\
  ((forall t, In t l -> ~ stands_for value t) -> remove other (map ITrans l) value = (Err ValueError, map ITrans l)).
Proof.
  intros other l value P. destruct (C127_index other l value 0 None P) as [I N]. cbv zeta in I, N. split.
  - intros before t after -> S F.
    assert (X : index other (map ITrans (before ++ t :: after)) value 0 None = Ok (Z.of_nat (List.length before))).
    { apply I. exists (List.length before). split; [reflexivity|]. split; [split; [unfold from_start; cbn; lia|exact Logic.I]|]. split; [exists t; split; [rewrite nth_error_app2, Nat.sub_diag by lia; reflexivity|exact S]|].
      intros q _ Lq (u & U & V). rewrite nth_error_app1 in U by lia. apply nth_error_In in U. exact (F u U V). }
    unfold remove. rewrite X. cbn [bind].
    assert (Q : from_start (List.length (map ITrans (before ++ t :: after))) (Z.of_nat (List.length before)) = Z.of_nat (List.length (map ITrans before))).
    { unfold from_start. destruct (Z.ltb_spec (Z.of_nat (List.length before)) 0); [lia|]. rewrite map_length. reflexivity. }
    destruct (C71_items (map ITrans (before ++ t :: after)) (Z.of_nat (List.length before)) (map ITrans before) (map ITrans after) (ITrans t)) as [D _]; [rewrite map_app; reflexivity|exact Q|].
    cbn [step] in D. rewrite D, map_app. reflexivity.
  - intros F. unfold remove. replace (index other (map ITrans l) value 0 None) with (@Err Z ValueError); [reflexivity|]. symmetry. apply N. intros p _ (t & T & S). apply nth_error_In in T. exact (F t T S).
Qed.
Print Assumptions C127_remove.
(** in and count. *)
Theorem C127_contains : forall other (l : list transition) (value : item), proper value -> (contains other (map ITrans l) value = true <-> exists t, In t l /\ stands_for value t).
Proof.
  intros other l value P. unfold contains. rewrite existsb_exists. split.
  - intros (x & X & E). apply in_map_iff in X. destruct X as (t & <- & T). exists t. split; [exact T|]. apply equals_spec; auto.
  - intros (t & T & S). exists (ITrans t). split; [apply in_map; exact T|]. apply equals_spec; auto.
Qed.
Print Assumptions C127_contains.
Theorem C127_count : forall other (dec : forall a b : transition, {a = b} + {a <> b}) (l : list transition) (value : item) (t : transition), proper value -> stands_for value t ->
  count other (map ITrans l) value = count_occ dec l t.
Proof.
  intros other dec l value t P S. unfold count. induction l as [|u l IH]; [reflexivity|]. cbn [map filter item_equals].
  destruct (equals u value) eqn:E.
  - apply equals_spec in E; [|exact P]. assert (u = t) as ->.
    { destruct value as [v|d|]; cbn [stands_for] in S, E; [congruence| |contradiction]. destruct u, t; cbn [fst snd] in *. destruct S as [-> | ->], E as [E|E]; congruence. }
    cbn [List.length]. rewrite IH, count_occ_cons_eq by reflexivity. reflexivity.
  - rewrite count_occ_cons_neq; [exact IH|]. intros ->. apply equals_spec in S; [congruence|exact P].
Qed.
Print Assumptions C127_count.
Theorem C127_count_none : forall other (l : list transition) (value : item), proper value -> (forall t, ~ stands_for value t) -> count other (map ITrans l) value = 0%nat.
Proof.
  intros other l value P S. unfold count. induction l as [|u l IH]; [reflexivity|]. cbn [map filter item_equals]. destruct (equals u value) eqn:E; [|exact IH]. apply equals_spec in E; [|exact P]. destruct (S u E).
Qed.
Print Assumptions C127_count_none.
(** "What append took can be found and removed again" holds of a transition, and of a dict with just the two lists; it is false of the dicts that leave out a list or have another key. *)
Theorem C127_appended : forall other (l : list transition) (t : transition) (value : item), proper value -> stands_for value t ->
  step (Append value) (map ITrans l) = (Ok tt, map ITrans (l ++ [t])) /\ contains other (map ITrans (l ++ [t])) value = true /\
  (~ In t l -> remove other (map ITrans (l ++ [t])) value = (Ok tt, map ITrans l)).
Proof.
  intros other l t value P S. split; [|split].
  - assert (C : check value = Ok (ITrans t)).
    { destruct value as [u|d|]; cbn [stands_for] in S; [subst; reflexivity| |contradiction]. destruct t. destruct S as [-> | ->]; reflexivity. }
    cbn [step]. unfold append. rewrite C. cbn [bind of_res]. unfold py_insert, clamp. rewrite map_length, map_app. destruct (Z.ltb_spec (Z.of_nat (List.length l)) 0); [lia|].
    rewrite Z.max_l, Z.min_id, Nat2Z.id by lia. rewrite firstn_all2, skipn_all2 by (rewrite map_length; lia). reflexivity.
  - apply C127_contains; [exact P|]. exists t. split; [apply in_or_app; right; left; reflexivity|exact S].
  - intros N. destruct (C127_remove other (l ++ [t]) value P) as [R _]. rewrite (R l t []); [rewrite app_nil_r; reflexivity|reflexivity|exact S|].
    intros u U V. apply N. replace t with u; [exact U|]. destruct value as [v|d|]; cbn [stands_for] in S, V; [congruence| |contradiction]. destruct u, t; cbn [fst snd] in *. destruct S as [-> | ->], V as [E|E]; congruence.
Qed.
Print Assumptions C127_appended.
Theorem C127_appended_refuted : exists (value : item), proper value /\ forall other (l : list transition), exists l',
  step (Append value) (map ITrans l) = (Ok tt, map ITrans l') /\ List.length l' = S (List.length l) /\ contains other (map ITrans l') value = false /\ remove other (map ITrans l') value = (Err ValueError, map ITrans l').
Proof.
  exists (IDict [("final"%string, Nums [half 1])]). split; [cbn; repeat constructor; auto|]. intros other l. exists (l ++ [([], [half 1])]).
  assert (N : forall t, ~ stands_for (IDict [("final"%string, Nums [half 1])]) t) by (intros t [H|H]; discriminate).
  assert (P : proper (IDict [("final"%string, Nums [half 1])])) by (cbn; repeat constructor; auto).
  split; [|split; [rewrite app_length; cbn; lia|split]].
  - cbn [step]. unfold append. cbn [check make_transition field find String.eqb Ascii.eqb Bool.eqb fst snd bind of_res]. unfold py_insert, clamp. rewrite map_length, map_app. destruct (Z.ltb_spec (Z.of_nat (List.length l)) 0); [lia|].
    rewrite Z.max_l, Z.min_id, Nat2Z.id by lia. rewrite firstn_all2, skipn_all2 by (rewrite map_length; lia). reflexivity.
  - apply not_true_is_false. intros H. apply C127_contains in H; [|exact P]. destruct H as (t & _ & S). exact (N t S).
  - apply C127_remove; [exact P|]. intros t _. apply N.
Qed.
Print Assumptions C127_appended_refuted.
(** Two transition lists are equal exactly when they are of one class and hold the same transitions in the same order; in particular == is symmetric, and a pathway is never equal to a plain list. *)
Theorem C127_equal : forall (a b : tlist), list_eq a b = true <-> a = b.
Proof.
  assert (K : forall x y : list transition, (if negb (Nat.eqb (List.length x) (List.length y)) then false else forallb (fun p => equals (fst p) (ITrans (snd p))) (combine x y)) = true <-> x = y).
  { induction x as [|t x IH]; intros [|u y]; cbn [List.length Nat.eqb negb combine forallb]; try (split; (reflexivity || discriminate)).
    specialize (IH y). destruct (Nat.eqb (List.length x) (List.length y)); cbn [negb] in *.
    - rewrite andb_true_iff, IH. cbn [fst snd]. rewrite (equals_spec t (ITrans u) Logic.I). cbn [stands_for]. split; [intros [-> ->]; reflexivity|intros [= -> ->]; auto].
    - split; [discriminate|]. intros [= -> ->]. destruct IH as [_ IH]. discriminate (IH eq_refl). }
  intros [[|] x] [[|] y]; unfold list_eq, eq_method; cbn [fst snd is_a negb]; (rewrite K; split; congruence) || (split; discriminate).
Qed.
Print Assumptions C127_equal.
Example C127_example : let t k := ([half (-1)], [half k]) in let no := fun _ _ : item => false in
  proper (IDict [("final"%string, Nums [half 3]); ("initial"%string, Nums [half (-1)])]) /\ stands_for (IDict [("final"%string, Nums [half 3]); ("initial"%string, Nums [half (-1)])]) (t 3) /\
  index no (map ITrans [t 1; t 3; t 5; t 3]) (ITrans (t 3)) 0 None = Ok 1 /\ index no (map ITrans [t 1; t 3; t 5; t 3]) (ITrans (t 3)) (-2) None = Ok 3 /\ index no (map ITrans [t 1; t 3; t 5; t 3]) (ITrans (t 3)) 2 (Some (-1)) = Err ValueError /\
  count no (map ITrans [t 1; t 3; t 5; t 3]) (IDict [("final"%string, Nums [half 3]); ("initial"%string, Nums [half (-1)])]) = 2%nat /\ remove no (map ITrans [t 1; t 3; t 5; t 3]) (ITrans (t 3)) = (Ok tt, map ITrans [t 1; t 5; t 3]) /\
  list_eq (TransitionList, [t 1]) (TransitionPathway, [t 1]) = false /\ list_eq (TransitionPathway, [t 1]) (TransitionPathway, [t 1]) = true.
Proof. cbv zeta. split; [cbn; repeat constructor; cbn; intuition discriminate|]. split; [right; reflexivity|]. repeat split; vm_compute; reflexivity. Qed.
