(** Proofs about saving without units: what cannot be written. *)
From Coq Require Import ZArith QArith Qcanon Bool Ascii String Lia List.
From Verif Require Import Base SitesModel SitesSpec SitesProofs JsonModel JsonSpec JsonProofs JsonUnits BareModel BareSpec BareProofs BareRead.
Import ListNotations.
Open Scope string_scope.
Open Scope list_scope.

(** ** What cannot be written *)
Lemma walk_values ex d : forall obj r, walk ex d obj = Ok r -> forall k x, In (k, x) d -> skipped ex k x = false -> exists y, value k x = Ok y.
Proof.
  induction d as [|[j z] d IH]; intros obj r W k x I S; [destruct I|]. cbn [walk] in W. destruct I as [[= -> ->]|I].
  - rewrite S in W. destruct (value k x); [eauto|discriminate].
  - destruct (skipped ex j z); [eauto|]. destruct (value j z); [|discriminate]. cbn [bind] in W. eauto.
Qed.
Lemma walk_entries ex d : forall obj r, NoDup (map fst obj ++ map fst d) -> walk ex d obj = Ok r ->
  exists t, r = RDict (obj ++ t) /\ forall k x y, In (k, x) d -> skipped ex k x = false -> value k x = Ok y -> In (k, y) t.
Proof.
  induction d as [|[j z] d IH]; intros obj r N W.
  - injection W as <-. exists []. rewrite app_nil_r. split; [reflexivity|]. intros k x y [].
  - cbn [walk] in W. cbn [map fst] in N. destruct (skipped ex j z) eqn:S.
    + destruct (IH obj r) as (t & -> & T); [now apply NoDup_remove_1 in N|exact W|]. exists t. split; [reflexivity|]. intros k x y [[= -> ->]|I] S' V; [congruence|eauto].
    + destruct (value j z) as [y'|] eqn:V'; [|discriminate]. cbn [bind] in W.
      rewrite set_new in W by (intros X; apply NoDup_remove_2 in N; apply N, in_or_app; now left).
      destruct (IH (obj ++ [(j, y')]) r) as (t & -> & T); [rewrite map_app; cbn [map fst]; now rewrite <- app_assoc|exact W|].
      exists ((j, y') :: t). rewrite <- app_assoc. split; [reflexivity|]. intros k x y [[= -> ->]|I] S' V; [left; congruence|right; eauto].
Qed.
Lemma mapM_each A B (f : A -> pyres B) l r : mapM f l = Ok r -> forall x, In x l -> exists y, f x = Ok y /\ In y r.
Proof.
  revert r. induction l as [|a l IH]; intros r H x I; [destruct I|]. cbn [mapM] in H. destruct (f a) as [b|] eqn:F; [|discriminate]. cbn [bind] in H.
  destruct (mapM f l) as [t|]; [|discriminate]. injection H as <-. destruct I as [<-|I].
  - exists b. split; [exact F|now left].
  - destruct (IH _ eq_refl x I) as (y & Y & J). exists y. split; [exact Y|now right].
Qed.
Lemma sav_entry ex d v k x : NoDup (map fst d) -> sav ex (RDict d) = Ok v -> In (k, x) d -> skipped ex k x = false -> exists y z, value k x = Ok y /\ dump y = Ok z.
Proof.
  intros N H I S. unfold sav in H. destruct (reduce ex (RDict d)) as [r|] eqn:R; [|discriminate]. cbn [bind] in H. rewrite reduce_walk in R.
  destruct (walk_values _ _ _ _ R k x I S) as [y V]. destruct (walk_entries _ _ [] _ N R) as (t & -> & T). pose proof (T k x y I S V) as IY. cbn [app] in H.
  rewrite dump_dict in H. unfold dump_entries in H. destruct (mapM _ t) as [w|] eqn:M; [|discriminate].
  destruct (mapM_each _ _ _ _ _ M (k, y) IY) as (z & Z & _). cbn [fst snd] in Z. destruct (dump y) as [z'|] eqn:D; [|discriminate]. eauto.
Qed.
Lemma sav_items ex d v k l x : NoDup (map fst d) -> sav ex (RDict d) = Ok v -> In (k, RList l) d -> existsb (String.eqb k) ex = false -> other k = true -> In x l ->
  exists y, sav by_default x = Ok y.
Proof.
  intros N H I E O IX. destruct (sav_entry ex d v k (RList l) N H I) as (y & z & V & D); [unfold skipped; now rewrite E|].
  destruct (other_keys k O) as [A B]. unfold value in V. rewrite A, B in V. destruct (mapM (reduce by_default) l) as [r|] eqn:M; [|discriminate]. injection V as <-.
  rewrite dump_list in D. destruct (mapM dump r) as [w|] eqn:MD; [|discriminate]. destruct (mapM_each _ _ _ _ _ M x IX) as (y & Y & IY).
  destruct (mapM_each _ _ _ _ _ MD y IY) as (u & U & _). unfold sav. rewrite Y. cbn [bind]. eauto.
Qed.
Ltac one_of := cbn [In]; repeat (first [left; reflexivity | right]).
Lemma save_is s : save_bare s = sav ["property_units"; "indexes"] (RDict (dict_simulator s)).
Proof. unfold save_bare, reduced_dict. now rewrite sav_is. Qed.
Lemma saves_system s v y : save_bare s = Ok v -> In y (spin_systems s) -> exists w, sav by_default (dict_system y) = Ok w.
Proof.
  intros H I. rewrite save_is in H.
  apply (sav_items ["property_units"; "indexes"] (dict_simulator s) v "spin_systems" (map dict_system (spin_systems s)) (dict_system y)); [unfold dict_simulator; nd|exact H|unfold dict_simulator; one_of|reflexivity|reflexivity|now apply in_map].
Qed.
Lemma saves_method s v m : save_bare s = Ok v -> In m (methods s) -> exists w, sav by_default (dict_method m) = Ok w.
Proof.
  intros H I. rewrite save_is in H.
  apply (sav_items ["property_units"; "indexes"] (dict_simulator s) v "methods" (map dict_method (methods s)) (dict_method m)); [unfold dict_simulator; nd|exact H|unfold dict_simulator; one_of|reflexivity|reflexivity|now apply in_map].
Qed.
Lemma system_dict_of y : exists d, dict_system y = RDict d /\ NoDup (map fst d) /\ In ("transition_pathways", raw_of (fun l => RList (map RPath l)) (transition_pathways y)) d.
Proof. eexists. split; [reflexivity|]. split; [nd|one_of]. Qed.
Lemma method_dict_of m : exists d, dict_method m = RDict d /\ NoDup (map fst d) /\ In ("affine_matrix", raw_of RArray (affine m)) d /\
  In ("simulation", raw_of raw_dict (simulation m)) d /\ In ("experiment", raw_of raw_dict (experiment m)) d.
Proof. eexists. split; [reflexivity|]. split; [nd|]. split; [one_of|]. split; one_of. Qed.
Lemma no_pathways y p l v : transition_pathways y = Some (p :: l) -> sav by_default (dict_system y) = Ok v -> False.
Proof.
  intros T H. destruct (system_dict_of y) as (d & E & N & I). rewrite E in H. rewrite T in I. cbn [raw_of map] in I.
  destruct (sav_items by_default d v "transition_pathways" (RPath p :: map RPath l) (RPath p) N H I eq_refl eq_refl) as [z Z]; [now left|discriminate].
Qed.
Lemma no_affine m a v : affine m = Some a -> sav by_default (dict_method m) = Ok v -> False.
Proof.
  intros A H. destruct (method_dict_of m) as (d & E & N & I & _). rewrite E in H. rewrite A in I. cbn [raw_of] in I.
  destruct (sav_entry by_default d v "affine_matrix" (RArray a) N H I eq_refl) as (y & z & V & D). injection V as <-. discriminate.
Qed.
(** A text for an isotope anywhere the reduction goes. *)
Lemma reduce_met v e : met v e -> forall r, reduce by_default (of_json v) = Ok r -> exists r', reduce by_default (of_json (JDict e)) = Ok r'.
Proof.
  induction 1 as [d|d k x e I S M IH|d k l x e I S IX M IH]; intros r R.
  - eauto.
  - cbn [of_json] in R. rewrite reduce_walk in R. destruct (special_keys k S) as [E O]. destruct (other_keys k O) as [A B].
    assert (I' : In (k, of_json (JDict x)) (map (fun kv => (fst kv, of_json (snd kv))) d)) by (apply in_map_iff; exists (k, JDict x); auto).
    destruct (walk_values _ _ _ _ R _ _ I') as [y V]; [unfold skipped; rewrite E; reflexivity|]. unfold value in V. rewrite A, B in V. cbn [of_json] in V. eapply IH. cbn [of_json]. exact V.
  - cbn [of_json] in R. rewrite reduce_walk in R. destruct (special_keys k S) as [E O]. destruct (other_keys k O) as [A B].
    assert (I' : In (k, of_json (JList l)) (map (fun kv => (fst kv, of_json (snd kv))) d)) by (apply in_map_iff; exists (k, JList l); auto).
    destruct (walk_values _ _ _ _ R _ _ I') as [y V]; [unfold skipped; rewrite E; reflexivity|]. unfold value in V. rewrite A, B in V. cbn [of_json] in V.
    destruct (mapM (reduce by_default) (map of_json l)) as [w|] eqn:W; [|discriminate]. destruct (mapM_each _ _ _ _ _ W (of_json x)) as (z & Z & _); [now apply in_map|]. eauto.
Qed.
Lemma no_text e t r : In ("isotope", JStr t) e -> reduce by_default (of_json (JDict e)) = Ok r -> False.
Proof.
  intros I R. cbn [of_json] in R. rewrite reduce_walk in R.
  assert (I' : In ("isotope", RStr t) (map (fun kv => (fst kv, of_json (snd kv))) e)) by (apply in_map_iff; exists ("isotope", JStr t); auto).
  destruct (walk_values _ _ _ _ R _ _ I' eq_refl) as [y V]. discriminate.
Qed.
Lemma no_isotope m v k d e t : (k = "simulation" /\ simulation m = Some d) \/ (k = "experiment" /\ experiment m = Some d) -> met (JDict d) e -> In ("isotope", JStr t) e ->
  sav by_default (dict_method m) = Ok v -> False.
Proof.
  intros K M I H. destruct (method_dict_of m) as (ds & E & N & _ & I1 & I2). rewrite E in H.
  assert (V : exists y, value k (raw_dict d) = Ok y).
  { unfold sav in H. destruct (reduce _ _) as [r|] eqn:R; [|discriminate]. rewrite reduce_walk in R.
    destruct K as [[-> X]|[-> X]]; [rewrite X in I1; cbn [raw_of] in I1; exact (walk_values _ _ _ _ R _ _ I1 eq_refl)|rewrite X in I2; cbn [raw_of] in I2; exact (walk_values _ _ _ _ R _ _ I2 eq_refl)]. }
  destruct V as [y V]. assert (R : reduce by_default (of_json (JDict d)) = Ok y) by (destruct K as [[-> X]|[-> X]]; exact V).
  destruct (reduce_met _ _ M _ R) as [r' R']. exact (no_text e t r' I R').
Qed.
