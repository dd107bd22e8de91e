(** Proofs about saving and loading without units: the reduced dict that is written, entry by entry, and what the constructors make of it. *)
From Coq Require Import ZArith QArith Qcanon Bool Ascii String Lia List.
From Verif Require Import Base SitesModel SitesSpec SitesProofs JsonModel JsonSpec JsonProofs BareModel BareSpec.
Import ListNotations.
Open Scope string_scope.
Open Scope list_scope.

(** ** The loops as functions of their own *)
Lemma dump_list l : dump (RList l) = let* r := mapM dump l in Ok (JList r).
Proof.
  cbn [dump]. f_equal. induction l as [|x l IH]; [reflexivity|]. cbn [mapM]. rewrite <- IH. reflexivity.
Qed.
Definition dump_entries (d : list (string * raw)) : pyres jdict := mapM (fun kv => let* y := dump (snd kv) in Ok (fst kv, y)) d.
Lemma dump_dict d : dump (RDict d) = let* r := dump_entries d in Ok (JDict r).
Proof.
  unfold dump_entries. cbn [dump]. f_equal. induction d as [|[k x] d IH]; [reflexivity|]. cbn [mapM fst snd]. rewrite <- IH.
  destruct (dump x); reflexivity.
Qed.
Definition skipped (ex : list string) (k : string) (x : raw) : bool := existsb (String.eqb k) ex || match x with RNone => true | _ => false end.
Definition value (k : string) (x : raw) : pyres raw :=
  if String.eqb k "isotope" then symbol_of x else if String.eqb k "channels" then symbols_of x
  else match x with
       | RDict _ => reduce by_default x
       | RList l => let* y := mapM (reduce by_default) l in Ok (RList y)
       | _ => Ok x
       end.
Fixpoint walk (ex : list string) (d obj : list (string * raw)) : pyres raw :=
  match d with
  | [] => Ok (RDict obj)
  | (k, x) :: r => if skipped ex k x then walk ex r obj else let* y := value k x in walk ex r (dict_set obj k y)
  end.
Lemma each_reduce l : (fix each (l : list raw) : pyres (list raw) :=
   match l with [] => Ok [] | z :: t => let* z' := reduce by_default z in let* t' := each t in Ok (z' :: t') end) l = mapM (reduce by_default) l.
Proof. induction l as [|x l IH]; [reflexivity|]. cbn [mapM]. rewrite <- IH. reflexivity. Qed.
Lemma reduce_walk ex d : reduce ex (RDict d) = walk ex d [].
Proof.
  cbn [reduce]. generalize (@nil (string * raw)) as obj. induction d as [|[k x] d IH]; intros obj; [reflexivity|].
  cbn [walk]. unfold skipped, value. destruct (_ || _)%bool eqn:S; [apply IH|].
  destruct (String.eqb k "isotope"); [destruct (symbol_of x); cbn [bind]; [apply IH|reflexivity]|].
  destruct (String.eqb k "channels"); [destruct (symbols_of x); cbn [bind]; [apply IH|reflexivity]|].
  destruct x; try (cbn [bind]; apply IH).
  - rewrite each_reduce. destruct (mapM _ l); cbn [bind]; [apply IH|reflexivity].
  - destruct (reduce by_default (RDict d0)); cbn [bind]; [apply IH|reflexivity].
Qed.

(** ** Saving a dict *)
Definition sav (ex : list string) (r : raw) : pyres jval := let* x := reduce ex r in dump x.
Lemma sav_is ex r : bind (reduce ex r) dump = sav ex r.
Proof. reflexivity. Qed.
Definition shown (v : jval) : bool := match v with JNone => false | _ => true end.
(** What is written of an entry; None if it is left out. *)
Definition printed (ex : list string) (kv : string * raw) (v : jval) : Prop :=
  if skipped ex (fst kv) (snd kv) then v = JNone else exists y, value (fst kv) (snd kv) = Ok y /\ dump y = Ok v /\ v <> JNone.
Lemma set_new A (d : list (string * A)) k v : ~ In k (map fst d) -> dict_set d k v = d ++ [(k, v)].
Proof.
  induction d as [|[j x] d IH]; [reflexivity|]. cbn [map fst]. intros N. cbn [dict_set app]. destruct (String.eqb j k) eqn:E.
  - apply String.eqb_eq in E. subst. now elim N; left.
  - rewrite IH; [reflexivity|]. intros X. apply N. now right.
Qed.
Lemma walk_ok ex d : forall vs obj, NoDup (map fst obj ++ map fst d) -> Forall2 (printed ex) d vs ->
  exists r, walk ex d obj = Ok (RDict (obj ++ r)) /\ dump_entries r = Ok (filter (fun kv => shown (snd kv)) (combine (map fst d) vs)).
Proof.
  induction d as [|[k x] d IH]; intros vs obj N F; inversion F as [|? v ? ws P F']; subst.
  - exists []. now rewrite app_nil_r.
  - cbn [walk map fst combine filter snd]. unfold printed in P. cbn [fst snd] in P. destruct (skipped ex k x).
    + subst v. cbn [shown]. apply IH; [|exact F']. cbn [map fst] in N. now apply NoDup_remove_1 in N.
    + destruct P as (y & V & D & NN). rewrite V. cbn [bind]. cbn [map fst] in N.
      rewrite set_new by (intros X; apply NoDup_remove_2 in N; apply N, in_or_app; now left).
      destruct (IH ws (obj ++ [(k, y)])) as (r & W & E); [|exact F'|].
      { rewrite map_app. cbn [map fst]. now rewrite <- app_assoc. }
      exists ((k, y) :: r). rewrite W, <- app_assoc. split; [reflexivity|]. unfold dump_entries in *. cbn [mapM fst snd]. rewrite D. cbn [bind]. rewrite E.
      destruct v; try reflexivity. now elim NN.
Qed.
Lemma sav_dict ex d vs : NoDup (map fst d) -> Forall2 (printed ex) d vs ->
  sav ex (RDict d) = Ok (JDict (filter (fun kv => shown (snd kv)) (combine (map fst d) vs))).
Proof.
  intros N F. destruct (walk_ok ex d vs [] N F) as (r & W & E). unfold sav. rewrite reduce_walk, W. cbn [bind app]. now rewrite dump_dict, E.
Qed.
(** ** The kinds of entries *)
Definition other (k : string) : bool := negb (String.eqb k "isotope") && negb (String.eqb k "channels").
Lemma p_out ex k x : existsb (String.eqb k) ex = true -> printed ex (k, x) JNone.
Proof. unfold printed, skipped. cbn [fst snd]. now intros ->. Qed.
Ltac entry := unfold printed, skipped, value, other in *; cbn [fst snd];
  match goal with H : existsb _ _ = false |- _ => rewrite H end; cbn [orb].
Lemma other_keys k : other k = true -> String.eqb k "isotope" = false /\ String.eqb k "channels" = false.
Proof. unfold other. destruct (String.eqb k "isotope"), (String.eqb k "channels"); auto; discriminate. Qed.
Lemma p_num ex k o : existsb (String.eqb k) ex = false -> other k = true -> printed ex (k, raw_num o) (num_or_none o).
Proof. intros E O. destruct (other_keys k O) as [A B]. destruct o; entry; [|reflexivity]. rewrite A, B. cbn. eexists. repeat split; discriminate. Qed.
Lemma p_one ex k q : existsb (String.eqb k) ex = false -> other k = true -> printed ex (k, RNum q) (JNum q).
Proof. exact (p_num ex k (Some q)). Qed.
Lemma p_str ex k o : existsb (String.eqb k) ex = false -> other k = true -> printed ex (k, raw_str o) (str_or_none o).
Proof. intros E O. destruct (other_keys k O) as [A B]. destruct o; entry; [|reflexivity]. rewrite A, B. cbn. eexists. repeat split; discriminate. Qed.
Lemma p_text ex k s : existsb (String.eqb k) ex = false -> other k = true -> printed ex (k, RStr s) (JStr s).
Proof. exact (p_str ex k (Some s)). Qed.
Lemma p_dict ex k d v : existsb (String.eqb k) ex = false -> other k = true -> sav by_default (RDict d) = Ok v -> printed ex (k, RDict d) v.
Proof.
  intros E O S. destruct (other_keys k O) as [A B]. entry. rewrite A, B. unfold sav in S. destruct (reduce by_default (RDict d)) as [y|] eqn:R; [|discriminate].
  cbn [bind] in S. exists y. repeat split; auto. intros ->. rewrite reduce_walk in R.
  assert (X : forall d obj y, walk by_default d obj = Ok y -> exists e, y = RDict e).
  { clear. induction d as [|[k x] d IH]; intros obj y H; [injection H as <-; eauto|]. cbn [walk] in H. destruct (skipped _ _ _); [eauto|].
    destruct (value k x); [|discriminate]. eauto. }
  apply X in R. destruct R as [e ->]. rewrite dump_dict in S. destruct (dump_entries e); discriminate.
Qed.
Lemma p_opt A ex k (f : A -> raw) (g : A -> jdict) o : existsb (String.eqb k) ex = false -> other k = true -> (forall a, o = Some a -> exists d, f a = RDict d) ->
  (forall a, o = Some a -> sav by_default (f a) = Ok (JDict (g a))) -> printed ex (k, raw_of f o) (dict_or_none g o).
Proof.
  intros E O D S. destruct o as [a|]; cbn [raw_of dict_or_none].
  - destruct (D a eq_refl) as [d X]. pose proof (S a eq_refl) as Y. rewrite X in *. now apply p_dict.
  - unfold printed, skipped. cbn [fst snd]. now rewrite orb_true_r.
Qed.
Lemma sav_list ls vs : Forall2 (fun r v => sav by_default r = Ok v) ls vs ->
  exists y, mapM (reduce by_default) ls = Ok y /\ mapM dump y = Ok vs.
Proof.
  induction 1 as [|r v ls vs H F (y & A & B)]; [exists []; auto|]. unfold sav in H. destruct (reduce by_default r) as [x|] eqn:R; [|discriminate]. cbn [bind] in H.
  exists (x :: y). cbn [mapM]. rewrite R. cbn [bind]. rewrite A. cbn [bind]. now rewrite H, B.
Qed.
Lemma p_list ex k ls vs : existsb (String.eqb k) ex = false -> other k = true -> Forall2 (fun r v => sav by_default r = Ok v) ls vs -> printed ex (k, RList ls) (JList vs).
Proof.
  intros E O F. destruct (other_keys k O) as [A B]. entry. rewrite A, B. destruct (sav_list ls vs F) as (y & R & D). rewrite R. cbn [bind].
  exists (RList y). rewrite dump_list, D. repeat split; discriminate.
Qed.
Lemma F2_map A B C (R : B -> C -> Prop) (f : A -> B) (g : A -> C) l : (forall a, In a l -> R (f a) (g a)) -> Forall2 R (map f l) (map g l).
Proof. induction l as [|a l IH]; intros H; constructor; [apply H; now left|]. apply IH. intros b I. apply H. now right. Qed.

(** ** What is written of every object *)
Definition kept_of (items : jdict) : jdict := filter (fun kv => shown (snd kv)) items.
Lemma look items k : NoDup (map fst items) ->
  dict_lookup (kept_of items) k = match dict_lookup items k with Some v => if shown v then Some v else None | None => None end.
Proof. apply (lookup_filter jval (fun kv => shown (snd kv)) shown). reflexivity. Qed.
Ltac one := lazymatch goal with
  | |- printed _ (_, raw_units _) _ => apply p_out; reflexivity
  | |- printed _ (_, raw_num _) _ => apply p_num; reflexivity
  | |- printed _ (_, RNum _) _ => apply p_one; reflexivity
  | |- printed _ (_, raw_str _) _ => apply p_str; reflexivity
  | |- printed _ (_, RStr _) _ => apply p_text; reflexivity
  | _ => idtac
  end.
Ltac entries := repeat first [apply Forall2_nil | apply Forall2_cons; [one|]].
Definition saved_sym (t : sym_tensor) : jdict :=
  kept_of [("property_units", JNone); ("zeta", num_or_none (zeta t)); ("Cq", num_or_none (Cq t)); ("D", num_or_none (D t)); ("eta", num_or_none (eta t));
           ("alpha", num_or_none (alpha t)); ("beta", num_or_none (beta t)); ("gamma", num_or_none (gamma t))].
Lemma sav_sym t : sav by_default (dict_sym t) = Ok (JDict (saved_sym t)).
Proof.
  unfold dict_sym. rewrite (sav_dict by_default _ [JNone; num_or_none (zeta t); num_or_none (Cq t); num_or_none (D t); num_or_none (eta t);
    num_or_none (alpha t); num_or_none (beta t); num_or_none (gamma t)]); [reflexivity|nd|]. entries.
Qed.
Definition saved_anti (t : anti_tensor) : jdict :=
  kept_of [("property_units", JNone); ("zeta", num_or_none (a_zeta t)); ("alpha", num_or_none (a_alpha t)); ("beta", num_or_none (a_beta t))].
Lemma sav_anti t : sav by_default (dict_anti t) = Ok (JDict (saved_anti t)).
Proof.
  unfold dict_anti. rewrite (sav_dict by_default _ [JNone; num_or_none (a_zeta t); num_or_none (a_alpha t); num_or_none (a_beta t)]); [reflexivity|nd|]. entries.
Qed.
Lemma p_isotope ex s : existsb (String.eqb "isotope") ex = false -> printed ex ("isotope", dict_isotope s) (JStr s).
Proof. intros E. unfold printed, skipped, value. cbn [fst snd]. rewrite E. cbn. eexists. repeat split. discriminate. Qed.
Definition saved_site (s : site) : jdict :=
  kept_of [("property_units", JNone); ("name", str_or_none (s_name s)); ("label", str_or_none (s_label s)); ("description", str_or_none (s_description s));
           ("isotope", JStr (isotope s)); ("isotropic_chemical_shift", JNum (isotropic_chemical_shift s));
           ("shielding_symmetric", dict_or_none saved_sym (shielding_symmetric s)); ("shielding_antisymmetric", dict_or_none saved_anti (shielding_antisymmetric s));
           ("quadrupolar", dict_or_none saved_sym (quadrupolar s))].
Lemma sav_site s : sav by_default (dict_site s) = Ok (JDict (saved_site s)).
Proof.
  unfold dict_site. rewrite (sav_dict by_default _ [JNone; str_or_none (s_name s); str_or_none (s_label s); str_or_none (s_description s);
           JStr (isotope s); JNum (isotropic_chemical_shift s); dict_or_none saved_sym (shielding_symmetric s); dict_or_none saved_anti (shielding_antisymmetric s);
           dict_or_none saved_sym (quadrupolar s)]); [reflexivity|nd|]. entries.
  - apply p_isotope; reflexivity.
  - apply p_opt; [reflexivity|reflexivity|intros a _|intros a _]; [eexists; reflexivity|apply sav_sym].
  - apply p_opt; [reflexivity|reflexivity|intros a _|intros a _]; [eexists; reflexivity|apply sav_anti].
  - apply p_opt; [reflexivity|reflexivity|intros a _|intros a _]; [eexists; reflexivity|apply sav_sym].
Qed.
Definition saved_coupling (c : coupling) : jdict :=
  kept_of [("property_units", JNone); ("name", str_or_none (c_name c)); ("label", str_or_none (c_label c)); ("description", str_or_none (c_description c));
           ("site_index", JList (map (fun z => JNum (Qc_of_Z z)) (site_index c))); ("isotropic_j", JNum (isotropic_j c));
           ("j_symmetric", dict_or_none saved_sym (j_symmetric c)); ("j_antisymmetric", dict_or_none saved_anti (j_antisymmetric c));
           ("dipolar", dict_or_none saved_sym (dipolar c))].
Lemma sav_coupling c : sav by_default (dict_coupling c) = Ok (JDict (saved_coupling c)).
Proof.
  unfold dict_coupling. rewrite (sav_dict by_default _ [JNone; str_or_none (c_name c); str_or_none (c_label c); str_or_none (c_description c);
           JList (map (fun z => JNum (Qc_of_Z z)) (site_index c)); JNum (isotropic_j c); dict_or_none saved_sym (j_symmetric c); dict_or_none saved_anti (j_antisymmetric c);
           dict_or_none saved_sym (dipolar c)]); [reflexivity|nd|]. entries.
  - apply p_list; [reflexivity|reflexivity|]. apply F2_map. reflexivity.
  - apply p_opt; [reflexivity|reflexivity|intros a _|intros a _]; [eexists; reflexivity|apply sav_sym].
  - apply p_opt; [reflexivity|reflexivity|intros a _|intros a _]; [eexists; reflexivity|apply sav_anti].
  - apply p_opt; [reflexivity|reflexivity|intros a _|intros a _]; [eexists; reflexivity|apply sav_sym].
Qed.
Definition list_of {A} (f : A -> jdict) (l : list A) : jval := JList (map (fun a => JDict (f a)) l).
Definition saved_system (y : spin_system) : jdict :=
  kept_of [("property_units", JNone); ("name", str_or_none (y_name y)); ("label", str_or_none (y_label y)); ("description", str_or_none (y_description y));
           ("sites", list_of saved_site (sites y)); ("couplings", match couplings y with Some l => list_of saved_coupling l | None => JNone end);
           ("abundance", JNum (abundance y)); ("transition_pathways", match transition_pathways y with Some _ => JList [] | None => JNone end)].
Lemma p_objects A ex k (f : A -> raw) (g : A -> jdict) l : existsb (String.eqb k) ex = false -> other k = true ->
  (forall a, In a l -> sav by_default (f a) = Ok (JDict (g a))) -> printed ex (k, RList (map f l)) (list_of g l).
Proof. intros E O H. apply p_list; [exact E|exact O|]. apply F2_map. exact H. Qed.
Lemma p_none ex k : printed ex (k, RNone) JNone.
Proof. unfold printed, skipped. cbn [fst snd]. now rewrite orb_true_r. Qed.
Lemma sav_system y : savable_system y -> sav by_default (dict_system y) = Ok (JDict (saved_system y)).
Proof.
  intros S. unfold dict_system. rewrite (sav_dict by_default _ [JNone; str_or_none (y_name y); str_or_none (y_label y); str_or_none (y_description y);
    list_of saved_site (sites y); match couplings y with Some l => list_of saved_coupling l | None => JNone end; JNum (abundance y);
    match transition_pathways y with Some _ => JList [] | None => JNone end]); [reflexivity|nd|]. entries.
  - apply p_objects; [reflexivity|reflexivity|]. intros; apply sav_site.
  - destruct (couplings y); [|apply p_none]. apply p_objects; [reflexivity|reflexivity|]. intros; apply sav_coupling.
  - unfold savable_system in S. destruct (transition_pathways y) as [[|]|]; [|destruct S|apply p_none]. apply p_list; [reflexivity|reflexivity|]. constructor.
Qed.
(** *** Neutral values are written as they are *)
Lemma jval_ind' (P : jval -> Prop) : P JNone -> (forall q, P (JNum q)) -> (forall s, P (JStr s)) -> (forall q u, P (JQty q u)) ->
  (forall l, Forall P l -> P (JList l)) -> (forall d, Forall (fun kv => P (snd kv)) d -> P (JDict d)) -> (forall p, P (JPath p)) -> forall v, P v.
Proof.
  intros H1 H2 H3 H4 H5 H6 H7. fix IH 1. intros [|q|s|q u|l|d|p]; [exact H1|apply H2|apply H3|apply H4| | |apply H7].
  - apply H5. induction l as [|x l IL]; constructor; [apply IH|exact IL].
  - apply H6. induction d as [|[k x] d ID]; constructor; [apply IH|exact ID].
Qed.
Lemma dump_plain v : plain v = true -> dump (of_json v) = Ok v.
Proof.
  induction v as [|q|s|q u|l IH|d IH|p] using jval_ind'; intros P; try reflexivity; [| |discriminate].
  - cbn [of_json]. rewrite dump_list. cbn [plain] in P. enough (E : mapM dump (map of_json l) = Ok l) by now rewrite E.
    induction IH as [|x l H F IL]; [reflexivity|]. cbn [forallb] in P. apply andb_true_iff in P. destruct P as [P1 P2]. cbn [map mapM]. rewrite H by assumption. cbn [bind]. now rewrite IL.
  - cbn [of_json]. rewrite dump_dict. cbn [plain] in P. enough (E : dump_entries (map (fun kv => (fst kv, of_json (snd kv))) d) = Ok d) by now rewrite E.
    induction IH as [|[k x] d H F IL]; [reflexivity|]. cbn [forallb snd] in *. apply andb_true_iff in P. destruct P as [P1 P2]. cbn [map fst snd]. unfold dump_entries in *. cbn [mapM fst snd].
    rewrite H by assumption. cbn [bind]. now rewrite IL.
Qed.
Lemma special_keys k : special k = false -> existsb (String.eqb k) by_default = false /\ other k = true.
Proof.
  unfold special, other, by_default. cbn [existsb]. destruct (String.eqb k "isotope"), (String.eqb k "channels"), (String.eqb k "property_units"); auto; discriminate.
Qed.
Definition items_ok (v : jval) : Prop := match v with JList l => Forall (fun z => neutral z -> sav by_default (of_json z) = Ok z) l | _ => True end.
Lemma sav_both v : (neutral v -> sav by_default (of_json v) = Ok v) /\ items_ok v.
Proof.
  induction v as [|q|s|q u|l IH|d IH|p] using jval_ind'; (split; [|try exact I]); try (intros _; reflexivity); [| | |discriminate].
  - intros N. unfold sav. cbn [of_json reduce bind]. exact (dump_plain (JList l) N).
  - cbn [items_ok]. revert IH. apply Forall_impl. tauto.
  - intros [ND N]. cbn [of_json].
    assert (C : combine (map fst d) (map snd d) = d) by (clear; induction d as [|[k x] d I]; cbn; [|rewrite I]; reflexivity).
    assert (SH : filter (fun kv => shown (snd kv)) d = d).
    { clear - N. induction d as [|[k x] d I]; [reflexivity|]. destruct N as ((_ & X & _) & N). cbn [filter snd]. rewrite (I N). destruct x; try reflexivity. now elim X. }
    assert (K : map fst (map (fun kv => (fst kv, of_json (snd kv))) d) = map fst d) by (rewrite map_map; reflexivity).
    rewrite (sav_dict by_default _ (map snd d)).
    + rewrite K, C, SH. reflexivity.
    + rewrite K. exact ND.
    + clear ND C SH K. induction IH as [|[k x] d H F IL]; [constructor|]. destruct N as ((S & X & V) & N). cbn [map fst snd] in *. constructor; [|now apply IL]. clear IL F N.
      destruct (special_keys k S) as [E O]. destruct H as [H HI]. destruct x as [|q|s|q u|l|e|p]; cbn [of_json].
      * now elim X.
      * now apply p_one.
      * now apply p_text.
      * destruct (other_keys k O) as [A B]. entry. rewrite A, B. cbn. eexists. repeat split. discriminate.
      * apply p_list; [exact E|exact O|]. clear X H. cbn [items_ok] in HI. induction HI as [|z t Z G IG]; [constructor|]. destruct V as [V1 V2]. constructor; auto.
      * apply p_dict; [exact E|exact O|exact (H V)].
      * discriminate V.
Qed.
Lemma sav_neutral v : neutral v -> sav by_default (of_json v) = Ok v.
Proof. apply sav_both. Qed.

(** *** Methods *)
Lemma p_data ex k o : existsb (String.eqb k) ex = false -> other k = true -> on (fun d => neutral (JDict d)) o ->
  printed ex (k, raw_of raw_dict o) (dict_or_none (fun d => d) o).
Proof.
  intros E O N. apply p_opt; auto; intros a ->; [unfold raw_dict; cbn [of_json]; eauto|]. unfold raw_dict. now apply sav_neutral.
Qed.
Definition saved_query (q : query) : jdict := kept_of
  [("P", dict_or_none (fun d => d) (q_P q)); ("D", dict_or_none (fun d => d) (q_D q)); ("F", dict_or_none (fun d => d) (q_F q));
   ("transitions", match q_transitions q with Some l => JList (map json_transition l) | None => JNone end)].
Lemma sav_transition t : sav by_default (dict_transition t) = Ok (json_transition t).
Proof.
  unfold dict_transition. rewrite (sav_dict by_default _ [JList (map JNum (fst t)); JList (map JNum (snd t))]); [reflexivity|nd|]. entries.
  - apply p_list; [reflexivity|reflexivity|]. apply F2_map. reflexivity.
  - apply p_list; [reflexivity|reflexivity|]. apply F2_map. reflexivity.
Qed.
Lemma sav_query q : neutral_query q -> sav by_default (dict_query q) = Ok (JDict (saved_query q)).
Proof.
  intros (A & B & C). unfold dict_query. rewrite (sav_dict by_default _ [dict_or_none (fun d => d) (q_P q); dict_or_none (fun d => d) (q_D q); dict_or_none (fun d => d) (q_F q);
    match q_transitions q with Some l => JList (map json_transition l) | None => JNone end]); [reflexivity|nd|]. entries; try (apply p_data; [reflexivity|reflexivity|assumption]).
  destruct (q_transitions q); [|apply p_none]. apply p_list; [reflexivity|reflexivity|]. apply F2_map. intros; apply sav_transition.
Qed.
Definition saved_event (e : event) : jdict := kept_of
  [("property_units", JNone); ("fraction", JNum (fraction e)); ("magnetic_flux_density", JNum (magnetic_flux_density e));
   ("rotor_frequency", JNum (rotor_frequency e)); ("rotor_angle", JNum (rotor_angle e)); ("freq_contrib", JList (map JStr (freq_contrib e)));
   ("transition_query", JDict (saved_query (transition_query e)))].
Lemma sav_event e : neutral_query (transition_query e) -> sav by_default (dict_event e) = Ok (JDict (saved_event e)).
Proof.
  intros N. unfold dict_event. rewrite (sav_dict by_default _ [JNone; JNum (fraction e); JNum (magnetic_flux_density e); JNum (rotor_frequency e); JNum (rotor_angle e);
    JList (map JStr (freq_contrib e)); JDict (saved_query (transition_query e))]); [reflexivity|nd|]. entries.
  - apply p_list; [reflexivity|reflexivity|]. apply F2_map. reflexivity.
  - apply p_dict; [reflexivity|reflexivity|apply sav_query, N].
Qed.
Definition saved_dim (x : dimension) : jdict := kept_of
  [("property_units", JNone); ("count", JNum (Qc_of_Z (count x))); ("spectral_width", JNum (spectral_width x));
   ("reference_offset", JNum (reference_offset x)); ("origin_offset", num_or_none (origin_offset x)); ("label", str_or_none (d_label x));
   ("description", str_or_none (d_description x)); ("events", list_of saved_event (events x))].
Lemma sav_dim x : Forall (fun e => neutral_query (transition_query e)) (events x) -> sav by_default (dict_dim x) = Ok (JDict (saved_dim x)).
Proof.
  intros N. unfold dict_dim. rewrite (sav_dict by_default _ [JNone; JNum (Qc_of_Z (count x)); JNum (spectral_width x); JNum (reference_offset x); num_or_none (origin_offset x);
    str_or_none (d_label x); str_or_none (d_description x); list_of saved_event (events x)]); [reflexivity|nd|]. entries.
  apply p_objects; [reflexivity|reflexivity|]. intros e I. apply sav_event. rewrite Forall_forall in N. auto.
Qed.
Lemma p_channels ex l : existsb (String.eqb "channels") ex = false -> printed ex ("channels", RList (map dict_isotope l)) (JList (map JStr l)).
Proof.
  intros E. unfold printed, skipped, value. cbn [fst snd]. rewrite E. cbn [orb String.eqb Ascii.eqb Bool.eqb symbols_of].
  exists (RList (map RStr l)). split; [|split; [|discriminate]].
  - assert (M : mapM symbol_of (map dict_isotope l) = Ok (map RStr l)) by (induction l as [|x l IH]; [reflexivity|]; cbn [map mapM]; rewrite IH; reflexivity).
    now rewrite M.
  - rewrite dump_list. assert (M : mapM dump (map RStr l) = Ok (map JStr l)) by (induction l as [|x l IH]; [reflexivity|]; cbn [map mapM]; rewrite IH; reflexivity).
    now rewrite M.
Qed.
Definition saved_method (m : method) : jdict := kept_of
  [("property_units", JNone); ("name", str_or_none (m_name m)); ("label", str_or_none (m_label m)); ("description", str_or_none (m_description m));
   ("channels", JList (map JStr (channels m))); ("spectral_dimensions", list_of saved_dim (dims m)); ("affine_matrix", JNone);
   ("simulation", dict_or_none (fun d => d) (simulation m)); ("experiment", dict_or_none (fun d => d) (experiment m))].
Lemma sav_method m : savable_method m -> sav by_default (dict_method m) = Ok (JDict (saved_method m)).
Proof.
  intros (A & S & E & Q). unfold dict_method. rewrite (sav_dict by_default _ [JNone; str_or_none (m_name m); str_or_none (m_label m); str_or_none (m_description m);
   JList (map JStr (channels m)); list_of saved_dim (dims m); JNone; dict_or_none (fun d => d) (simulation m); dict_or_none (fun d => d) (experiment m)]);
   [reflexivity|nd|]. entries; try (apply p_data; [reflexivity|reflexivity|assumption]).
  - apply p_channels; reflexivity.
  - apply p_objects; [reflexivity|reflexivity|]. intros x I. apply sav_dim. rewrite Forall_forall in Q. auto.
  - rewrite A. apply p_none.
Qed.
Lemma sav_config c : sav by_default (dict_config c) = Ok (JDict (json_config c)).
Proof.
  unfold dict_config. rewrite (sav_dict by_default _ [JNum (Qc_of_Z (number_of_sidebands c)); JStr (integration_volume c); JNum (Qc_of_Z (integration_density c)); JStr (decompose_spectrum c)]);
    [reflexivity|nd|]. entries.
Qed.
Definition saved_simulator (s : simulator) : jdict := kept_of
  [("name", str_or_none (x_name s)); ("label", str_or_none (x_label s)); ("description", str_or_none (x_description s));
   ("spin_systems", list_of saved_system (spin_systems s)); ("methods", list_of saved_method (methods s)); ("config", JDict (json_config (sim_config s))); ("indexes", JNone)].
Lemma save_simulator s : savable s -> save_bare s = Ok (JDict (saved_simulator s)).
Proof.
  intros [Y M]. unfold save_bare, reduced_dict. rewrite sav_is. unfold dict_simulator.
  rewrite (sav_dict _ _ [str_or_none (x_name s); str_or_none (x_label s); str_or_none (x_description s); list_of saved_system (spin_systems s); list_of saved_method (methods s);
    JDict (json_config (sim_config s)); JNone]); [reflexivity|nd|]. entries.
  - apply p_objects; [reflexivity|reflexivity|]. intros y I. apply sav_system. rewrite Forall_forall in Y. auto.
  - apply p_objects; [reflexivity|reflexivity|]. intros y I. apply sav_method. rewrite Forall_forall in M. auto.
  - apply p_dict; [reflexivity|reflexivity|apply sav_config].
  - apply p_out; reflexivity.
Qed.
