(** Proofs about SitesModel: isotope strings, listings and flattened dictionaries. *)
From Coq Require Import ZArith QArith Bool Ascii String Lia List Sorted Permutation.
From Verif Require Import Base SitesModel SitesSpec.
Import ListNotations.

(** ** Strings *)
Fixpoint all_chars (p : ascii -> bool) (s : string) : Prop :=
  match s with EmptyString => True | String c r => p c = true /\ all_chars p r end.
Definition starts (p : ascii -> bool) (s : string) : Prop := match s with EmptyString => False | String c _ => p c = true end.

Lemma app_assoc_s : forall a b c : string, ((a ++ b) ++ c = a ++ (b ++ c))%string.
Proof. induction a as [|x a IH]; intros b c; [reflexivity|]; cbn; now rewrite IH. Qed.
Lemma app_nil_s : forall a : string, (a ++ EmptyString = a)%string.
Proof. induction a as [|x a IH]; [reflexivity|]; cbn; now rewrite IH. Qed.
Lemma span_split : forall p s a b, span p s = (a, b) -> s = (a ++ b)%string /\ all_chars p a /\ ~ starts p b.
Proof.
  intros p; induction s as [|c r IH]; intros a b H; cbn in H.
  - injection H as <- <-; cbn; auto.
  - destruct (p c) eqn:E.
    + destruct (span p r) as [a' b'] eqn:F. injection H as <- <-.
      destruct (IH a' b' eq_refl) as (H1 & H2 & H3). cbn. rewrite H1. auto.
    + injection H as <- <-. cbn. rewrite E. split; [reflexivity|]. split; [exact I|discriminate].
Qed.
Lemma span_app : forall p a b, all_chars p a -> ~ starts p b -> span p (a ++ b)%string = (a, b).
Proof.
  intros p; induction a as [|c r IH]; intros b Ha Hb; cbn.
  - destruct b as [|d b]; [reflexivity|]. cbn in *. destruct (p d); [exfalso; auto|reflexivity].
  - cbn in Ha. destruct Ha as [E Ha]. rewrite E, (IH b Ha Hb). reflexivity.
Qed.
Lemma all_chars_app : forall p a b, all_chars p (a ++ b)%string <-> all_chars p a /\ all_chars p b.
Proof. intros p; induction a as [|c r IH]; intros b; cbn; [tauto|]. rewrite IH. tauto. Qed.
Lemma all_chars_weaken : forall (p q : ascii -> bool) s, (forall c, p c = true -> q c = true) -> all_chars p s -> all_chars q s.
Proof. intros p q s H; induction s as [|c r IH]; cbn; [auto|]. intros [H1 H2]; auto. Qed.

Lemma digit_word : forall c, is_digit c = true -> is_word c = true.
Proof. intros c H. unfold is_word, is_digit in *. now rewrite H. Qed.
Lemma space_not_word : forall c, is_space c = true -> is_word c = false.
Proof. intros [b0 b1 b2 b3 b4 b5 b6 b7]; destruct b0, b1, b2, b3, b4, b5, b6, b7; vm_compute; intros H; congruence. Qed.
Lemma known_in : forall s, known s = true <-> In s (map fst isotope_data).
Proof.
  intros s; unfold known; rewrite existsb_exists, in_map_iff. split.
  - intros ([k n] & H & E). apply String.eqb_eq in E. exists (k, n); auto.
  - intros ([k n] & E & H). exists (k, n); split; [exact H|]. apply String.eqb_eq; exact E.
Qed.

(** Every known symbol is digits followed by letters. *)
Definition symbol_shape (s : string) : bool :=
  let '(d, r) := span is_digit s in
  let '(w, t) := span is_word r in
  match d, r, t with String _ _, String _ _, EmptyString => true | _, _, _ => false end.
Lemma known_shape : forall s, known s = true -> symbol_shape s = true.
Proof.
  intros s H. apply known_in in H.
  assert (A : forallb symbol_shape (map fst isotope_data) = true) by (vm_compute; reflexivity).
  rewrite forallb_forall in A. now apply A.
Qed.
Lemma known_digits : forall s, known s = true -> exists d w, s = (d ++ w)%string /\ d <> EmptyString /\ w <> EmptyString /\
  all_chars is_digit d /\ all_chars is_word w /\ ~ starts is_digit w.
Proof.
  intros s H. apply known_shape in H. unfold symbol_shape in H.
  destruct (span is_digit s) as [d r] eqn:E. destruct (span is_word r) as [w t] eqn:F.
  destruct (span_split _ _ _ _ E) as (E1 & E2 & E3). destruct (span_split _ _ _ _ F) as (F1 & F2 & F3).
  destruct d as [|dc dr]; [discriminate|]. destruct r as [|rc rr]; [discriminate|]. destruct t as [|tc tr]; [|discriminate].
  rewrite app_nil_s in F1. exists (String dc dr), w. rewrite F1 in E1, E3. repeat split; try exact E1; try exact E3; try discriminate; try apply E2; auto.
  intros W. rewrite W in F1. discriminate F1.
Qed.
Lemma not_all_digits : forall s, known s = true -> ~ all_chars is_digit s.
Proof.
  intros s H A. destruct (known_digits s H) as (d & w & E & _ & W & _ & _ & N). subst s.
  apply all_chars_app in A. destruct A as [_ A]. destruct w as [|c w]; [now apply W|]. cbn in A. apply N. cbn. tauto.
Qed.

(** The match, for a text of digits, white space, word and rest. *)
Lemma match_space : forall d ws w rest, d <> EmptyString -> all_chars is_digit d -> ws <> EmptyString -> all_chars is_space ws ->
  w <> EmptyString -> all_chars is_word w -> ~ starts is_word rest -> match_isotope (d ++ ws ++ w ++ rest)%string = Some (d ++ w)%string.
Proof.
  intros d ws w rest Dn D Sn S Wn W R. unfold match_isotope.
  rewrite (span_app is_digit d); [|exact D|].
  2:{ destruct ws as [|c ws]; [now destruct Sn|]. cbn in *. destruct S as [S _]. apply space_not_word in S. intros X. apply digit_word in X. congruence. }
  rewrite (span_app is_space ws); [|exact S|].
  2:{ destruct w as [|c w]; [now destruct Wn|]. cbn in *. destruct W as [W _]. intros X. apply space_not_word in X. congruence. }
  rewrite (span_app is_word w); [|exact W|exact R].
  destruct d as [|a [|b d]], w as [|c w]; try reflexivity; try (now destruct Dn); now destruct Wn.
Qed.
Lemma match_plain : forall d w rest, d <> EmptyString -> all_chars is_digit d -> w <> EmptyString -> all_chars is_word w -> ~ starts is_digit w ->
  ~ starts is_word rest -> match_isotope (d ++ w ++ rest)%string = Some (d ++ w)%string.
Proof.
  intros d w rest Dn D Wn W N R. unfold match_isotope.
  rewrite (span_app is_digit d); [|exact D|].
  2:{ destruct w as [|c w]; [now destruct Wn|]. exact N. }
  replace (span is_space (w ++ rest)%string) with (EmptyString, (w ++ rest)%string).
  2:{ symmetry. apply (span_app is_space EmptyString (w ++ rest)%string); [exact I|]. destruct w as [|c w]; [now destruct Wn|]. cbn in *. destruct W as [W _]. intros X. apply space_not_word in X. congruence. }
  rewrite (span_app is_word w); [|exact W|exact R].
  destruct d as [|a [|b d]], w as [|c w]; try reflexivity; try (now destruct Dn); now destruct Wn.
Qed.
Lemma format_ok : forall s r, format_isotope_string s = Ok r <-> match_isotope s = Some r /\ known r = true.
Proof.
  intros s r; unfold format_isotope_string. destruct (match_isotope s) as [f|].
  - destruct (known f) eqn:K; split.
    + intros H; injection H as <-; auto.
    + intros [H _]; now injection H as <-.
    + discriminate.
    + intros [H K']. injection H as <-. congruence.
  - split; [discriminate|]. intros [H _]; discriminate.
Qed.
Lemma format_iff : forall s r, format_isotope_string s = Ok r <->
  exists d ws w rest, s = (d ++ ws ++ w ++ rest)%string /\ r = (d ++ w)%string /\ d <> EmptyString /\ w <> EmptyString /\
    all_chars is_digit d /\ all_chars is_space ws /\ all_chars is_word w /\ ~ starts is_word rest /\ In r (map fst isotope_data).
Proof.
  intros s r. rewrite format_ok, known_in. split.
  - intros [M K]. unfold match_isotope in M.
    destruct (span is_digit s) as [d s1] eqn:E1. destruct (span is_space s1) as [ws s2] eqn:E2. destruct (span is_word s2) as [w rest] eqn:E3.
    destruct (span_split _ _ _ _ E1) as (A1 & A2 & A3). destruct (span_split _ _ _ _ E2) as (B1 & B2 & B3).
    destruct (span_split _ _ _ _ E3) as (C1 & C2 & C3).
    assert (N : w <> EmptyString).
    { intros W. subst w. destruct d as [|a [|b d]]; try discriminate. injection M as <-.
      apply known_in in K. now apply not_all_digits in K. }
    assert (D : d <> EmptyString) by (intros W; subst d; discriminate).
    exists d, ws, w, rest. subst s s1 s2. repeat split; auto.
    destruct d as [|a [|b d]], w as [|c w]; try (now destruct D); try (now destruct N); now injection M as <-.
  - intros (d & ws & w & rest & -> & -> & D & W & Dd & S & Ww & R & K). split; [|exact K].
    destruct ws as [|c ws].
    + cbn [String.append]. apply known_in in K. destruct (span is_digit w) as [w1 w2] eqn:E.
      destruct (span_split _ _ _ _ E) as (A1 & A2 & A3). subst w.
      assert (W2 : w2 <> EmptyString).
      { intros X. subst w2. rewrite app_nil_s in K. apply (not_all_digits _ K). apply all_chars_app; auto. }
      rewrite app_assoc_s, <- app_assoc_s. rewrite match_plain; auto.
      * now rewrite app_assoc_s.
      * destruct d; [now destruct D|discriminate].
      * apply all_chars_app; auto.
      * apply all_chars_app in Ww; tauto.
    + apply match_space; auto. discriminate.
Qed.
Lemma format_known : forall r, In r (map fst isotope_data) -> format_isotope_string r = Ok r.
Proof.
  intros r K. apply format_iff. pose proof K as K'. apply known_in in K'. destruct (known_digits r K') as (d & w & -> & D & W & Dd & Ww & _).
  exists d, EmptyString, w, EmptyString. cbn [String.append]. rewrite app_nil_s. cbn. repeat split; auto.
Qed.

(** ** Listings *)
Definition slt (a b : string) : Prop := String.compare a b = Lt.
Lemma ascii_compare_refl : forall a, Ascii.compare a a = Eq.
Proof. intros a. unfold Ascii.compare. apply N.compare_refl. Qed.
Lemma ascii_eq : forall a b, Ascii.compare a b = Eq -> a = b.
Proof. intros a b H. unfold Ascii.compare in H. apply N.compare_eq in H. rewrite <- (ascii_N_embedding a), <- (ascii_N_embedding b), H. reflexivity. Qed.
Lemma ascii_lt_trans : forall a b c, Ascii.compare a b = Lt -> Ascii.compare b c = Lt -> Ascii.compare a c = Lt.
Proof. intros a b c; unfold Ascii.compare; rewrite !N.compare_lt_iff; lia. Qed.
Lemma compare_eq_s : forall a b, String.compare a b = Eq -> a = b.
Proof.
  induction a as [|x a IH]; intros [|y b] H; cbn in H; try discriminate; [reflexivity|].
  destruct (Ascii.compare x y) eqn:E; try discriminate. rewrite (ascii_eq _ _ E), (IH b H). reflexivity.
Qed.
Lemma slt_trans : forall a b c, slt a b -> slt b c -> slt a c.
Proof.
  unfold slt. induction a as [|x a IH]; intros [|y b] [|z c]; cbn; try discriminate; try reflexivity.
  destruct (Ascii.compare x y) eqn:E; destruct (Ascii.compare y z) eqn:F; try discriminate; intros H1 H2.
  - apply ascii_eq in E, F. subst. rewrite ascii_compare_refl. eauto.
  - apply ascii_eq in E. subst. now rewrite F.
  - apply ascii_eq in F. subst. now rewrite E.
  - now rewrite (ascii_lt_trans _ _ _ E F).
Qed.
Lemma slt_irrefl : forall a, ~ slt a a.
Proof. unfold slt; induction a as [|x a IH]; cbn; [discriminate|]. now rewrite ascii_compare_refl. Qed.
Lemma compare_gt : forall a b, String.compare a b = Gt -> slt b a.
Proof. intros a b H. unfold slt. rewrite String.compare_antisym, H. reflexivity. Qed.
Lemma insert_in : forall s l x, In x (insert_unique s l) <-> x = s \/ In x l.
Proof.
  intros s; induction l as [|y r IH]; intros x; cbn; [intuition|].
  destruct (String.compare s y) eqn:E; cbn.
  - apply compare_eq_s in E. subst. intuition.
  - intuition.
  - rewrite IH. intuition.
Qed.
Lemma insert_sorted : forall s l, StronglySorted slt l -> StronglySorted slt (insert_unique s l).
Proof.
  intros s; induction l as [|y r IH]; intros H; cbn; [repeat constructor|].
  apply StronglySorted_inv in H. destruct H as [H1 H2].
  destruct (String.compare s y) eqn:E.
  - constructor; auto.
  - constructor; [constructor; auto|]. constructor; [exact E|]. rewrite Forall_forall in *. intros x Hx. eapply slt_trans; [exact E|auto].
  - constructor; [auto|]. rewrite Forall_forall in *. intros x Hx. apply insert_in in Hx. destruct Hx as [->|Hx]; [now apply compare_gt|auto].
Qed.
Lemma np_unique_sorted : forall l, StronglySorted slt (np_unique l).
Proof. induction l as [|x l IH]; cbn; [constructor|now apply insert_sorted]. Qed.
Lemma np_unique_in : forall l x, In x (np_unique l) <-> In x l.
Proof. induction l as [|y l IH]; intros x; cbn; [tauto|]. rewrite insert_in, IH. intuition. Qed.
Lemma sorted_nodup : forall l, StronglySorted slt l -> NoDup l.
Proof.
  induction l as [|x l IH]; intros H; [constructor|]. apply StronglySorted_inv in H. destruct H as [H1 H2].
  constructor; [|auto]. intros X. rewrite Forall_forall in H2. exact (slt_irrefl x (H2 x X)).
Qed.
Lemma fold_concat : forall A B (f : A -> list B) l acc x, In x (fold_left (fun st a => st ++ f a) l acc) <-> In x acc \/ exists a, In a l /\ In x (f a).
Proof.
  intros A B f; induction l as [|a l IH]; intros acc x; cbn.
  - split; [auto|]. intros [H|(a & [] & _)]; exact H.
  - rewrite IH, in_app_iff. split.
    + intros [[H|H]|(b & H1 & H2)]; eauto 6.
    + intros [H|(b & [<-|H1] & H2)]; eauto 6.
Qed.
Lemma allowed_in : forall spin_I x, (forall q, spin_I = Some q -> exists z, (2 * q == inject_Z z)%Q) ->
  (In x (allowed_isotopes spin_I) <-> exists n, In (x, n) isotope_data /\ forall q, spin_I = Some q -> (2 * q == inject_Z n)%Q).
Proof.
  intros [q|] x H.
  - destruct (H q eq_refl) as [z Hz].
    assert (T : (Qnum (2 * q) ÷ Z.pos (Qden (2 * q)) = z)%Z).
    { unfold Qeq in Hz. cbn [Qnum Qden inject_Z] in Hz. rewrite Z.mul_1_r in Hz. rewrite Hz. apply Z.quot_mul. discriminate. }
    unfold allowed_isotopes. cbv zeta. rewrite T, in_map_iff. split.
    + intros ([k n] & <- & F). apply filter_In in F. destruct F as [F G]. apply Z.eqb_eq in G. exists n. split; [exact F|].
      intros q' E. injection E as <-. cbn in G. subst n. exact Hz.
    + intros (n & F & G). exists (x, n). split; [reflexivity|]. apply filter_In. split; [exact F|]. apply Z.eqb_eq.
      specialize (G q eq_refl). rewrite Hz in G. apply (proj1 (inject_Z_injective z n)) in G. cbn. congruence.
  - cbn [allowed_isotopes]. rewrite in_map_iff. split.
    + intros ([k n] & <- & F). exists n. split; [exact F|discriminate].
    + intros (n & F & _). now exists (x, n).
Qed.

(** ** Unique sites *)
Section Unique.
  Context {site : Type} (eqb : site -> site -> bool).
  Definition push (acc : list site) (s : site) : list site := if existsb (eqb s) acc then acc else acc ++ [s].
  Lemma unique_flat : forall systems, unique_sites eqb systems = fold_left push (concat systems) [].
  Proof.
    intros systems. unfold unique_sites. change (fun acc s => if existsb (eqb s) acc then acc else acc ++ [s]) with push.
    generalize (@nil site). induction systems as [|s r IH]; intros acc; cbn; [reflexivity|]. rewrite fold_left_app. apply IH.
  Qed.
End Unique.

(** ** Flattened dictionaries *)
Section Dict.
  Context {A : Type}.
  Implicit Types (d : list (string * A)).
  Lemma lookup_cons : forall k v d j, dict_lookup ((k, v) :: d) j = if String.eqb k j then Some v else dict_lookup d j.
  Proof. intros k v d j. unfold dict_lookup. cbn. now destruct (String.eqb k j). Qed.
  Lemma lookup_set : forall d k v j, dict_lookup (dict_set d k v) j = if String.eqb k j then Some v else dict_lookup d j.
  Proof.
    induction d as [|[k' v'] r IH]; intros k v j; cbn [dict_set]; [apply lookup_cons|].
    destruct (String.eqb_spec k' k) as [->|N]; rewrite !lookup_cons.
    - now destruct (String.eqb k j).
    - rewrite IH. destruct (String.eqb_spec k' j) as [->|N']; [|reflexivity]. destruct (String.eqb_spec k j); congruence.
  Qed.
  Lemma lookup_in : forall d k v, dict_lookup d k = Some v -> In (k, v) d.
  Proof.
    induction d as [|[k' v'] r IH]; intros k v H; [discriminate|]. rewrite lookup_cons in H.
    destruct (String.eqb_spec k' k) as [->|N]; [injection H as ->; now left|right; auto].
  Qed.
  Lemma in_lookup : forall d k v, NoDup (map fst d) -> In (k, v) d -> dict_lookup d k = Some v.
  Proof.
    induction d as [|[k' v'] r IH]; intros k v N H; [contradiction|]. rewrite lookup_cons. cbn in N. inversion N as [|a b N1 N2]; subst.
    destruct H as [H|H]; [injection H as -> ->; now rewrite String.eqb_refl|].
    destruct (String.eqb_spec k' k) as [->|_]; [|auto]. exfalso. apply N1. apply in_map_iff. now exists (k, v).
  Qed.
  Lemma lookup_update : forall e d j, NoDup (map fst e) -> dict_lookup (dict_update d e) j = match dict_lookup e j with Some v => Some v | None => dict_lookup d j end.
  Proof.
    unfold dict_update. induction e as [|[k v] e IH]; intros d j N; [reflexivity|].
    cbn in N. inversion N as [|a b N1 N2]; subst. cbn [fold_left fst snd]. rewrite (IH _ _ N2), lookup_set, lookup_cons.
    destruct (String.eqb_spec k j) as [->|_].
    - destruct (dict_lookup e j) eqn:E; [|reflexivity]. apply lookup_in in E. exfalso. apply N1. apply in_map_iff. now exists (j, a).
    - reflexivity.
  Qed.
  Lemma set_keys_in : forall d k v j, In j (map fst (dict_set d k v)) <-> j = k \/ In j (map fst d).
  Proof.
    induction d as [|[k' v'] r IH]; intros k v j; cbn [dict_set]; [cbn; intuition|].
    destruct (String.eqb_spec k' k) as [->|N]; cbn; [intuition|]. rewrite IH. intuition.
  Qed.
  Lemma set_nodup : forall d k v, NoDup (map fst d) -> NoDup (map fst (dict_set d k v)).
  Proof.
    induction d as [|[k' v'] r IH]; intros k v N; cbn [dict_set]; [cbn; repeat constructor; auto|].
    cbn in N. inversion N as [|a b N1 N2]; subst.
    destruct (String.eqb_spec k' k) as [->|M]; cbn; constructor; auto. rewrite set_keys_in. intros [->|X]; auto.
  Qed.
  Lemma update_nodup : forall e d, NoDup (map fst d) -> NoDup (map fst (dict_update d e)).
  Proof. unfold dict_update. induction e as [|[k v] e IH]; intros d N; [exact N|]. cbn. apply IH. now apply set_nodup. Qed.
End Dict.

Section Flatten.
  Context {A : Type}.
  Lemma set_fresh : forall (d : list (string * A)) k v, ~ In k (map fst d) -> dict_set d k v = d ++ [(k, v)].
  Proof.
    induction d as [|[k' v'] r IH]; intros k v N; [reflexivity|]. cbn [dict_set]. cbn in N.
    destruct (String.eqb_spec k' k) as [->|M]; [exfalso; auto|]. rewrite IH by auto. reflexivity.
  Qed.
  Lemma update_fresh : forall (e d : list (string * A)), NoDup (map fst (d ++ e)) -> dict_update d e = d ++ e.
  Proof.
    unfold dict_update. induction e as [|[k v] e IH]; intros d N; cbn [fold_left]; [now rewrite app_nil_r|].
    cbn [fst snd]. rewrite set_fresh.
    - rewrite IH; rewrite <- app_assoc; [reflexivity|exact N].
    - rewrite map_app in N. cbn in N. apply NoDup_remove_2 in N. intros X. apply N. apply in_or_app. now left.
  Qed.
  (** The loop of [flatten]. *)
  Fixpoint flat_loop (previous : option string) (d : list (string * node A)) (result : list (string * A)) : list (string * A) :=
    match d with
    | [] => result
    | (k, v) :: r =>
        flat_loop previous r (match v with
                   | Leaf a => dict_set result (match previous with Some p => p ++ "." ++ k | None => k end)%string a
                   | Node _ => dict_update result (flatten (Some k) v)
                   end)
    end.
  Lemma flatten_loop : forall previous d, flatten previous (Node d) = flat_loop previous d [].
  Proof.
    intros previous d. cbn [flatten]. generalize (@nil (string * A)). induction d as [|[k v] r IH]; intros res; [reflexivity|]. cbn [flat_loop]. apply IH.
  Qed.
  Definition only_leaves (d : list (string * node A)) : Prop := forall k v, In (k, v) d -> exists a, v = Leaf a.
  Definition joined (pv : list string * A) : string * A := (match fst pv with [] => EmptyString | [k] => k | k :: j :: _ => (k ++ "." ++ j)%string end, snd pv).
  Lemma inner_loop : forall p d res, only_leaves d -> NoDup (map fst (res ++ map (fun pv => joined (p :: fst pv, snd pv)) (attributes d))) ->
    flat_loop (Some p) d res = res ++ map (fun pv => joined (p :: fst pv, snd pv)) (attributes d).
  Proof.
    intros p; induction d as [|[k v] r IH]; intros res O N; cbn [flat_loop]; [cbn; now rewrite app_nil_r|].
    destruct (O k v (or_introl eq_refl)) as [a ->]. unfold attributes in N |- *. cbn [leaves flat_map fst snd map] in N |- *. cbn [app map fst snd] in N |- *.
    unfold joined in N at 1. unfold joined at 1. cbn [fst snd] in N |- *.
    rewrite set_fresh.
    - rewrite IH.
      + unfold attributes. cbn [leaves]. rewrite <- app_assoc. reflexivity.
      + intros k' v' H. apply (O k' v'). now right.
      + rewrite <- app_assoc. exact N.
    - rewrite map_app in N. cbn [map fst] in N. apply NoDup_remove_2 in N. intros X. apply N. apply in_or_app. now left.
  Qed.
  Lemma nodup_app_r : forall (X : Type) (a b : list X), NoDup (a ++ b) -> NoDup b.
  Proof. intros X; induction a as [|x a IH]; intros b H; [exact H|]. cbn in H. inversion H; subst. auto. Qed.
  Lemma nodup_app_l : forall (X : Type) (a b : list X), NoDup (a ++ b) -> NoDup a.
  Proof. intros X; induction a as [|x a IH]; intros b H; [constructor|]. cbn in H. inversion H; subst. constructor; [|eauto]. intros Y. apply H2. apply in_or_app. now left. Qed.
  Lemma outer_loop : forall d res, (forall k e, In (k, Node e) d -> only_leaves e) -> NoDup (map fst (res ++ map joined (attributes d))) ->
    flat_loop None d res = res ++ map joined (attributes d).
  Proof.
    induction d as [|[k v] r IH]; intros res O N; cbn [flat_loop]; [cbn; now rewrite app_nil_r|].
    assert (O' : forall k e, In (k, Node e) r -> only_leaves e) by (intros k' e' H; apply (O k' e'); now right).
    assert (Q : map joined (attributes ((k, v) :: r)) = map (fun pv => joined (k :: fst pv, snd pv)) (leaves v) ++ map joined (attributes r)).
    { unfold attributes. cbn [leaves flat_map fst snd]. now rewrite map_app, map_map. }
    rewrite Q in N |- *. destruct v as [a|e].
    - cbn [leaves map fst snd app] in N |- *. unfold joined in N at 1. unfold joined at 1. cbn [fst snd] in N |- *. rewrite set_fresh.
      + rewrite IH; [now rewrite <- app_assoc|exact O'|rewrite <- app_assoc; exact N].
      + rewrite map_app in N. cbn [map fst] in N. apply NoDup_remove_2 in N. intros X. apply N. apply in_or_app. now left.
    - change (leaves (Node e)) with (attributes e) in *.
      assert (E : flatten (Some k) (Node e) = map (fun pv => joined (k :: fst pv, snd pv)) (attributes e)).
      { rewrite flatten_loop, inner_loop; [reflexivity|apply (O k e); now left|]. cbn [app].
        rewrite !(map_app fst) in N. apply nodup_app_r in N. apply nodup_app_l in N. exact N. }
      rewrite E, update_fresh.
      + rewrite IH; [now rewrite <- app_assoc|exact O'|]. rewrite <- app_assoc. exact N.
      + rewrite app_assoc, map_app in N. apply nodup_app_l in N. exact N.
  Qed.
End Flatten.
