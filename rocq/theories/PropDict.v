(** C41, C42, C43, C73: reduced dictionaries, method-level attributes, attribute precedence and arguments of method templates. *)
From Coq Require Import ZArith QArith Bool Ascii String Lia List.
From Verif Require Import Base SitesModel SitesSpec SitesProofs DictModel DictSpec DictProofs.
Import ListNotations.
Open Scope string_scope.
Open Scope list_scope.

(** * C41 *)
(** With the default exclusion a dict of an object is cleaned at every level. *)
Theorem C41_default : forall d, object_like (PDict d) -> reduce_dict d ["property_units"] = Ok (clean ["property_units"] (PDict d)).
Proof. intros d H. unfold reduce_dict. rewrite (reduce_spec (PDict d) H). reflexivity. Qed.
(** With another exclusion: the keys kept at the top are those not excluded and not None, in order; plain values are unchanged; isotopes are
    symbols; nested values are cleaned of property units and None, not of the excluded keys. *)
Theorem C41_exclude_partial : forall d exclude, object_like (PDict d) -> exists r, reduce_dict d exclude = Ok (PDict r) /\
  map fst r = map fst (filter (fun kv => negb (existsb (String.eqb (fst kv)) exclude) && match snd kv with PNone => false | _ => true end) d) /\
  forall k v, dict_lookup r k = Some v <-> exists x, dict_lookup d k = Some x /\ ~ In k exclude /\ x <> PNone /\
    v = (if String.eqb k "isotope" then the_symbol x
         else if String.eqb k "channels" then (match x with PList l => PList (map the_symbol l) | _ => x end)
         else clean ["property_units"] x).
Proof.
  intros d ex H. pose proof H as H'. cbn [object_like] in H'. destruct H' as [ND _].
  exists (flat_map (keep ex PU) d). split; [unfold reduce_dict; now rewrite (reduce_spec (PDict d) H)|]. split.
  - clear ND H. induction d as [|[k x] r IH]; [reflexivity|]. cbn [flat_map filter fst snd]. rewrite map_app, IH. unfold keep. cbn [fst snd].
    destruct (existsb (String.eqb k) ex); [reflexivity|]. cbn [orb negb andb].
    destruct x; cbn [map app]; try reflexivity; (destruct (String.eqb k "isotope"); [|destruct (String.eqb k "channels")]); reflexivity.
  - assert (NK : NoDup (map fst (flat_map (keep ex PU) d))).
    { clear H. induction d as [|[k x] r IH]; [constructor|]. cbn [map fst] in ND. inversion ND as [|a b N1 N2]; subst. cbn [flat_map]. rewrite map_app.
      unfold keep at 1. cbn [fst snd].
      assert (F : ~ In k (map fst (flat_map (keep ex PU) r))) by (intros X; apply keep_keys in X; contradiction).
      destruct (_ || _); [auto|]. destruct (String.eqb k "isotope"); [|destruct (String.eqb k "channels")]; cbn [map fst app]; constructor; auto. }
    intros k v. split.
    + intros L. apply lookup_in in L. apply in_flat_map in L. destruct L as ([j x] & Hd & L). unfold keep in L. cbn [fst snd] in L.
      destruct (existsb (String.eqb j) ex || match x with PNone => true | _ => false end) eqn:E; [destruct L|].
      apply orb_false_iff in E. destruct E as [E1 E2].
      assert (j = k) by (destruct (String.eqb j "isotope"); [|destruct (String.eqb j "channels")]; destruct L as [L|[]]; now injection L as -> _). subst j.
      exists x. split; [now apply in_lookup|]. split; [|split].
      * intros X. apply member_in in X. unfold member in X. congruence.
      * intros ->. discriminate.
      * destruct (String.eqb k "isotope"); [|destruct (String.eqb k "channels")]; destruct L as [L|[]]; injection L as L; subst v; destruct x; reflexivity.
    + intros (x & L & NE & NN & ->). apply in_lookup; [exact NK|]. apply in_flat_map. exists (k, x). split; [now apply lookup_in|]. unfold keep. cbn [fst snd].
      assert (E : existsb (String.eqb k) ex || match x with PNone => true | _ => false end = false).
      { apply orb_false_iff. split; [|destruct x; congruence]. fold (member k ex). apply not_true_iff_false. now rewrite member_in. }
      rewrite E. destruct (String.eqb k "isotope"); [|destruct (String.eqb k "channels")]; left; destruct x; reflexivity.
Qed.
(** The excluded keys stay in nested objects. *)
Theorem C41_nested_refuted : exists d exclude, object_like (PDict d) /\ reduce_dict d exclude <> Ok (clean exclude (PDict d)) /\
  reduce_dict d exclude = Ok (PDict d) /\ clean exclude (PDict d) = PDict [("sites", PList [PDict []])].
Proof.
  exists [("sites", PList [PDict [("indexes", PInt 1)]])], ["property_units"; "indexes"]. cbn. repeat split; try (repeat constructor; cbn; tauto). discriminate.
Qed.
Definition system_example : dict :=
  [("name", PNone); ("abundance", PFloat 100);
   ("sites", PList [PDict [("isotope", PDict [("symbol", PStr "1H")]); ("isotropic_chemical_shift", PInt 0); ("label", PNone);
                           ("property_units", PDict [("isotropic_chemical_shift", PStr "ppm")])]]);
   ("property_units", PDict [("abundance", PStr "pct")])].
Example C41_witness : object_like (PDict system_example) /\ reduce_dict system_example ["property_units"] =
  Ok (PDict [("abundance", PFloat 100); ("sites", PList [PDict [("isotope", PStr "1H"); ("isotropic_chemical_shift", PInt 0)]])]).
Proof.
  split; [|reflexivity]. cbn. repeat split; try (repeat constructor; cbn; intuition discriminate).
  right. eexists; eexists; split; reflexivity.
Qed.
Print Assumptions C41_default.
Print Assumptions C41_exclude_partial.
Print Assumptions C41_nested_refuted.

(** * C42 *)
(** The attributes that can be given at method level. *)
Definition shared : list string := ["magnetic_flux_density"; "rotor_frequency"; "rotor_angle"].
Definition well_shaped (d : dict) (dims : list dict) : Prop :=
  has_dims d dims /\ forall dim, In dim dims -> dict_lookup dim "events" = None \/ exists evs, has_events dim evs.
(** Every event gets its own value, else the one of the method; nothing else changes.  A dimension without events gets one. *)
Theorem C42_defaults : forall d dims, well_shaped d dims -> exists out dims', expand d = Ok out /\ has_dims out dims' /\ length dims' = length dims /\
  (forall k, k <> "spectral_dimensions" -> dict_lookup out k = if existsb (String.eqb k) shared then None else dict_lookup d k) /\
  forall i dim, nth_error dims i = Some dim -> exists dim' evs', nth_error dims' i = Some dim' /\ has_events dim' evs' /\
    (forall k, k <> "events" -> dict_lookup dim' k = dict_lookup dim k) /\
    forall evs, has_events dim evs \/ (dict_lookup dim "events" = None /\ evs = [[]]) ->
      length evs' = length evs /\
      forall j ev, nth_error evs j = Some ev -> exists ev', nth_error evs' j = Some ev' /\
        forall k, dict_lookup ev' k = match dict_lookup ev k with
                                      | Some v => Some v
                                      | None => if existsb (String.eqb k) shared then dict_lookup d k else None
                                      end.
Proof.
  intros d dims [HD HE]. set (glb := globals_of d).
  exists (fold_left (@dict_remove pv) (map fst glb) (dict_set d "spectral_dimensions" (PList (map PDict (map (new_dim glb) dims))))), (map (new_dim glb) dims).
  assert (GL : forall k, dict_lookup glb k = if member k list_g then dict_lookup d k else None) by apply globals_lookup.
  assert (GK : forall k, In k (map fst glb) <-> dict_lookup glb k <> None) by (intros k; rewrite lookup_none; destruct (in_dec string_dec k (map fst glb)); tauto).
  assert (SD : member "spectral_dimensions" (map fst glb) = false) by (apply not_true_iff_false; rewrite member_in, GK, GL; cbn; congruence).
  split; [|split; [|split; [|split]]].
  - unfold expand. cbv zeta. fold glb. unfold getitem. rewrite HD. cbn [bind as_list].
    rewrite (mapM_ok _ _ _ (fun v => PDict (new_dim glb (match v with PDict e => e | _ => [] end)))).
    + cbn [bind]. do 4 f_equal. rewrite !map_map. reflexivity.
    + intros x Hx. apply in_map_iff in Hx. destruct Hx as (dim & <- & Hx). apply expand_dim_ok. auto.
  - unfold has_dims. rewrite remove_all, SD, lookup_set. reflexivity.
  - apply map_length.
  - intros k NK. rewrite remove_all. change (existsb (String.eqb k) shared) with (member k list_g).
    rewrite lookup_set. destruct (String.eqb_spec "spectral_dimensions" k) as [<-|_]; [congruence|].
    destruct (member k (map fst glb)) eqn:M.
    + apply member_in, GK in M. rewrite GL in M. destruct (member k list_g); congruence.
    + apply not_true_iff_false in M. rewrite member_in, GK, GL in M. destruct (member k list_g); [|reflexivity]. destruct (dict_lookup d k); [|reflexivity]. exfalso. apply M. discriminate.
  - intros i dim Hi. exists (new_dim glb dim), (map (fill_event glb) (given_events dim)). split; [now rewrite nth_error_map, Hi|]. split; [|split].
    + unfold has_events, new_dim. now rewrite lookup_set, String.eqb_refl.
    + intros k NK. unfold new_dim. rewrite lookup_set. destruct (String.eqb_spec "events" k); congruence.
    + intros evs He. assert (E : given_events dim = evs).
      { unfold given_events. destruct He as [He|[He ->]]; unfold has_events in *; rewrite He; [|reflexivity]. rewrite map_map. apply map_id. }
      rewrite E. split; [apply map_length|]. intros j ev Hj. exists (fill_event glb ev). split; [now rewrite nth_error_map, Hj|].
      intros k. rewrite fill_lookup by apply globals_nodup. now rewrite GL.
Qed.
(** Expanding again changes nothing. *)
Theorem C42_idempotent : forall d dims out, well_shaped d dims -> expand d = Ok out -> expand out = Ok out.
Proof.
  intros d dims out W E. destruct (C42_defaults d dims W) as (out' & dims' & E' & HD & L & T & D). rewrite E in E'. injection E' as <-.
  assert (G : globals_of out = []).
  { apply globals_nil. intros k Hk. rewrite T by (intros ->; cbn in Hk; intuition discriminate).
    change (existsb (String.eqb k) shared) with (member k list_g). apply member_in in Hk. now rewrite Hk. }
  assert (V : forall dim', In dim' dims' -> exists evs, has_events dim' evs).
  { intros dim' H. apply In_nth_error in H. destruct H as [i Hi]. assert (i < length dims)%nat by (rewrite <- L; apply nth_error_Some; congruence).
    destruct (nth_error dims i) as [dim|] eqn:N; [|apply nth_error_None in N; lia]. destruct (D i dim N) as (dim'' & evs' & A & B & _). rewrite Hi in A. injection A as <-. eauto. }
  unfold expand. cbv zeta. rewrite G. unfold getitem. rewrite HD. cbn [bind as_list].
  rewrite (mapM_ok _ _ _ (fun v => v)).
  - cbn [bind map fold_left]. rewrite map_id. now rewrite set_same.
  - intros x Hx. apply in_map_iff in Hx. destruct Hx as (dim' & <- & Hx). destruct (V dim' Hx) as (evs & He). rewrite expand_dim_ok by eauto.
    unfold new_dim, given_events. pose proof He as He'. unfold has_events in He. rewrite He. rewrite set_same; [reflexivity|]. rewrite He, !map_map. reflexivity.
Qed.
Definition method_example : dict :=
  [("name", PStr "M"); ("rotor_frequency", PStr "1 kHz"); ("rotor_angle", PStr "1 rad");
   ("spectral_dimensions", PList [PDict [("count", PInt 8)]; PDict [("events", PList [PDict [("rotor_frequency", PStr "0 Hz")]; PDict []])]])].
Example C42_witness : well_shaped method_example [[("count", PInt 8)]; [("events", PList [PDict [("rotor_frequency", PStr "0 Hz")]; PDict []])]] /\
  expand method_example = Ok [("name", PStr "M");
   ("spectral_dimensions", PList [PDict [("count", PInt 8); ("events", PList [PDict [("rotor_frequency", PStr "1 kHz"); ("rotor_angle", PStr "1 rad")]])];
      PDict [("events", PList [PDict [("rotor_frequency", PStr "0 Hz"); ("rotor_angle", PStr "1 rad")]; PDict [("rotor_frequency", PStr "1 kHz"); ("rotor_angle", PStr "1 rad")]])]])].
Proof.
  split; [|reflexivity]. split; [reflexivity|]. intros dim [<-|[<-|[]]]; [now left|]. right. exists [[("rotor_frequency", PStr "0 Hz")]; []]. reflexivity.
Qed.
Print Assumptions C42_defaults.
Print Assumptions C42_idempotent.

(** * C43 *)
(** When units are parsed, numbers for the field, rotor frequency and rotor angle are written with the default unit. *)
Definition shown (with_unit : Q -> string -> string) (parse : bool) (k : string) (v : pv) : pv :=
  match parse, v with
  | true, PFloat q => if String.eqb k "magnetic_flux_density" then PStr (with_unit q "T")
                      else if String.eqb k "rotor_frequency" then PStr (with_unit q "Hz")
                      else if String.eqb k "rotor_angle" then PStr (with_unit q "rad") else v
  | _, _ => v
  end.
Lemma shown_fix : forall wu parse k v, (if (parse : bool) then snd (fix_string wu (k, v)) else v) = shown wu parse k v.
Proof.
  intros wu [|] k v; [|reflexivity]. unfold fix_string, shown, default_units, dict_lookup. cbn [fst snd find].
  rewrite (String.eqb_sym "magnetic_flux_density"), (String.eqb_sym "rotor_frequency"), (String.eqb_sym "rotor_angle").
  destruct (String.eqb k "magnetic_flux_density"); [destruct v; reflexivity|]. destruct (String.eqb k "rotor_frequency"); [destruct v; reflexivity|].
  destruct (String.eqb k "rotor_angle"); destruct v; reflexivity.
Qed.
Lemma shown_map : forall wu (parse : bool) k o, option_map (fun v => if parse then snd (fix_string wu (k, v)) else v) o = option_map (shown wu parse k) o.
Proof. intros wu parse k [v|]; [|reflexivity]. cbn [option_map]. now rewrite shown_fix. Qed.
(** The keys of a dict but one. *)
Definition without (k : string) (d : dict) : dict := filter (fun kv => negb (String.eqb (fst kv) k)) d.
Lemma parse_events_nodup : forall u u', parse_events u = Ok u' -> NoDup (map fst u) -> NoDup (map fst u').
Proof.
  intros u u' H N. unfold parse_events in H. destruct (dict_lookup u "transition_query") as [v|]; [|now injection H as <-].
  destruct v; cbn [as_dict bind] in H; try discriminate. injection H as <-. now apply set_nodup.
Qed.
Lemma parse_dimension_ok : forall dim dim', parse_dimension dim = Ok dim' ->
  (forall k, k <> "events" -> dict_lookup dim' k = dict_lookup dim k) /\ (dict_lookup dim "events" = None -> dim' = dim) /\
  forall uevs, has_events dim uevs -> exists uevs', mapM parse_events uevs = Ok uevs' /\ has_events dim' uevs'.
Proof.
  intros dim dim' H. unfold parse_dimension in H. destruct (dict_lookup dim "events") as [v|] eqn:E.
  - destruct v as [| | | |l|]; cbn [as_list bind] in H; try discriminate.
    match type of H with bind ?a _ = _ => destruct a as [l'|] eqn:M; [|discriminate] end. cbn [bind] in H. injection H as <-. split; [|split].
    + intros k N. rewrite lookup_set. destruct (String.eqb_spec "events" k); congruence.
    + discriminate.
    + intros uevs He. unfold has_events in He. rewrite E in He. injection He as ->. clear E.
      assert (G : exists uevs', mapM parse_events uevs = Ok uevs' /\ l' = map PDict uevs').
      { revert l' M. induction uevs as [|u r IH]; intros l' M; cbn [map mapM as_dict bind] in M |- *.
        - injection M as <-. now exists [].
        - destruct (parse_events u) as [u'|]; [|discriminate]. cbn [bind] in M |- *. match type of M with bind ?a _ = _ => destruct a as [r'|] eqn:R; [|discriminate] end.
          cbn [bind] in M. injection M as <-. destruct (IH r' eq_refl) as (x & -> & ->). cbn [bind]. now exists (u' :: x). }
      destruct G as (uevs' & G & ->). exists uevs'. split; [exact G|]. unfold has_events. now rewrite lookup_set.
  - injection H as <-. split; [reflexivity|]. split; [reflexivity|]. intros uevs He. unfold has_events in He. congruence.
Qed.
Lemma parse_dims_general : forall dims n, dims <> [[]] -> parse_spectral_dimensions dims n = (let* x := mapM parse_dimension dims in Ok (x, x)).
Proof. intros dims n H. destruct dims as [|[|kv d] [|d2 r]]; try reflexivity. now destruct H. Qed.
Lemma dims_given : forall dims n dims' caller, parse_spectral_dimensions dims n = Ok (dims', caller) ->
  (dims = [[]] /\ dims' = repeat [] n /\ caller = dims) \/ (dims <> [[]] /\ mapM parse_dimension dims = Ok dims' /\ caller = dims').
Proof.
  intros dims n dims' caller H. unfold parse_spectral_dimensions in H. destruct dims as [|[|kv d] [|d2 r]]; try (injection H as <- <-; now left).
  all: right; split; [discriminate|].
  all: match type of H with bind ?a _ = _ => destruct a as [x|]; [|discriminate] end; cbn [bind] in H; injection H as <- <-; auto.
Qed.
Lemma construct_inv : forall ed wu t dims kwargs parse prep out caller, construct ed wu t dims kwargs parse = Ok (prep, out, caller) ->
  dims <> [] /\ prepare_method_structure t kwargs = Ok prep /\ check_rotor_frequency kwargs (t_globals t) = Ok tt /\
  exists dims' c, parse_spectral_dimensions dims (length (t_dims t)) = Ok (dims', c) /\ (length dims' <= length (t_dims t))%nat /\
    gen_dims ed wu (t_dims t) dims' (t_globals t) kwargs parse = Ok out /\
    caller = match dims with [[]] => c | _ => map (fun dim => dict_remove dim "events") c end.
Proof.
  intros ed wu t dims kwargs parse prep out caller H. unfold construct in H. destruct dims as [|d r]; [discriminate|]. cbv zeta in H. split; [discriminate|].
  destruct (parse_spectral_dimensions (d :: r) (length (t_dims t))) as [[dims' c]|]; [|discriminate]. cbn [bind] in H.
  destruct (prepare_method_structure t kwargs) as [p|]; [|discriminate]. cbn [bind] in H.
  destruct (check_rotor_frequency kwargs (t_globals t)) as [[]|]; [|discriminate]. cbn [bind] in H.
  destruct (Nat.ltb_spec (length (t_dims t)) (length dims')) as [X|X]; [discriminate|].
  destruct (gen_dims ed wu (t_dims t) dims' (t_globals t) kwargs parse) as [o|] eqn:G; [|discriminate]. cbn [bind] in H.
  apply (f_equal (fun r => match r with Ok x => x | Err _ => (prep, out, caller) end)) in H.
  apply pair_equal_spec in H. destruct H as [H <-]. apply pair_equal_spec in H. destruct H as [<- <-].
  split; [reflexivity|]. split; [reflexivity|]. exists dims', c. auto.
Qed.
(** Every event of every spectral dimension: an attribute is the one of the caller's event, else the keyword argument, else the attribute the
    template sets for all events, else the one of the template's event, or of a default event when the template has no more events. *)
Theorem C43_precedence : forall event_default with_unit t dims kwargs parse prep out caller,
  construct event_default with_unit t dims kwargs parse = Ok (prep, out, caller) ->
  NoDup (map fst kwargs) -> NoDup (map fst (t_globals t)) ->
  (forall dim evs u, In dim dims -> has_events dim evs -> In u evs -> NoDup (map fst u)) ->
  length out = length (t_dims t) /\
  forall i tem, nth_error (t_dims t) i = Some tem -> exists args evs, nth_error out i = Some (args, evs) /\
    (forall k, dict_lookup args k = if String.eqb k "events" then None else dict_lookup (nth i dims []) k) /\
    (dict_lookup (nth i dims []) "events" = None -> length evs = length tem /\
       forall j ev k, nth_error evs j = Some ev ->
         dict_lookup ev k = option_map (shown with_unit parse k) (first_of [kwargs; t_globals t; without "property_units" (nth j tem [])] k)) /\
    (forall user, has_events (nth i dims []) user -> length evs = length user /\
       forall j u, nth_error user j = Some u -> exists u' ev, parse_events u = Ok u' /\ nth_error evs j = Some ev /\
         forall k, dict_lookup ev k =
           option_map (shown with_unit parse k) (first_of [u'; kwargs; t_globals t; without "property_units" (nth j tem event_default)] k)).
Proof.
  intros ed wu t dims kwargs parse prep out caller H NK NG NU. destruct (construct_inv _ _ _ _ _ _ _ _ _ H) as (DN & _ & _ & dims' & c & PD & LD & GD & _).
  destruct (gen_dims_inv _ _ _ _ _ _ _ _ GD) as (L & M & N). split; [exact L|]. intros i tem Ht.
  assert (Hi : (i < length (t_dims t))%nat) by (apply nth_error_Some; congruence).
  destruct (nth_error dims' i) as [dim'|] eqn:Hd; [|apply nth_error_None in Hd; lia].
  destruct (N i tem dim' Ht Hd) as (evs & Ho & GE). exists (dict_remove dim' "events"), evs. split; [exact Ho|].
  set (dim := nth i dims []).
  assert (P : (forall k, k <> "events" -> dict_lookup dim' k = dict_lookup dim k) /\ (dict_lookup dim "events" = None -> dict_lookup dim' "events" = None) /\
              forall user, has_events dim user -> In dim dims /\ exists user', mapM parse_events user = Ok user' /\ has_events dim' user').
  { destruct (dims_given _ _ _ _ PD) as [(-> & -> & _)|(_ & MD & _)].
    - assert (dim' = []) by (apply nth_error_In in Hd; now apply repeat_spec in Hd).
      assert (dim = []) by (unfold dim; destruct i as [|[|i]]; reflexivity). rewrite H0, H1. repeat split; auto. discriminate. discriminate.
    - destruct (mapM_inv _ _ _ _ _ MD) as [LM NM]. assert (Hx : (i < length dims)%nat) by (rewrite <- LM; apply nth_error_Some; congruence).
      pose proof (nth_error_nth' dims [] Hx) as Hn. fold dim in Hn. destruct (NM i dim Hn) as (y & Hy & Py). assert (y = dim') by congruence. subst y.
      destruct (parse_dimension_ok dim dim' Py) as (A & B & C). split; [exact A|]. split; [intros E; rewrite (B E); exact E|].
      intros user Hu. split; [now apply nth_error_In in Hn|]. now apply C. }
  destruct P as (P1 & P2 & P3). split; [|split].
  - intros k. rewrite lookup_remove. destruct (String.eqb_spec k "events"); [reflexivity|auto].
  - intros E. specialize (P2 E). unfold gen_event, fill_missing in GE. rewrite P2 in GE. cbn [bind] in GE.
    destruct (gen_loop_inv _ _ _ _ _ _ _ _ GE) as [L1 N1]. split; [exact L1|]. intros j ev k Hj.
    assert (Hl : (j < length tem)%nat) by (rewrite <- L1; apply nth_error_Some; congruence).
    destruct (N1 j (nth j tem []) (nth_error_nth' tem [] Hl)) as (us & A & B). rewrite P2 in B. subst us. assert (Ev : ev = gen_one wu (t_globals t) kwargs parse (nth j tem []) None) by congruence. subst ev.
    rewrite gen_one_lookup; auto; [|discriminate]. rewrite shown_map. reflexivity.
  - intros user Hu. destruct (P3 user Hu) as (Id & user' & MU & Hu'). destruct (mapM_inv _ _ _ _ _ MU) as [LU NU'].
    unfold gen_event, fill_missing in GE. pose proof Hu' as Hu2. unfold has_events in Hu2. rewrite Hu2 in GE. cbn [py_len bind] in GE. rewrite map_length in GE.
    destruct (gen_loop_inv _ _ _ _ _ _ _ _ GE) as [L1 N1]. rewrite app_length, repeat_length in L1.
    assert (LE : (length tem <= length user')%nat).
    { destruct (Nat.le_gt_cases (length tem) (length user')) as [X|X]; [exact X|exfalso].
      destruct (nth_error tem (length user')) as [e|] eqn:Q; [|apply nth_error_None in Q; lia].
      destruct (N1 (length user') e) as (us & A & B); [rewrite nth_error_app1 by lia; exact Q|]. rewrite Hu2 in B. destruct B as (l & u & E & Z & _). injection E as <-. cbn [Nat.add] in Z.
      apply (f_equal (fun o => match o with Some _ => true | None => false end)) in Z. rewrite (proj2 (nth_error_None _ _)) in Z; [discriminate|rewrite map_length; (unfold dict in *; lia)]. }
    split; [(unfold dict in *; lia)|]. intros j u Hj. destruct (NU' j u Hj) as (u' & Hj' & PE).
    assert (Hlt : (j < length user')%nat) by (apply nth_error_Some; congruence).
    assert (Te : nth_error (tem ++ repeat ed (length user' - length tem)) j = Some (nth j tem ed)).
    { destruct (Nat.lt_ge_cases j (length tem)) as [X|X].
      - rewrite nth_error_app1 by exact X. now apply nth_error_nth'.
      - rewrite nth_error_app2 by exact X. rewrite (nth_overflow tem ed X).
        destruct (nth_error (repeat ed (length user' - length tem)) (j - length tem)) as [e|] eqn:Q.
        + apply nth_error_In, repeat_spec in Q. now subst.
        + apply nth_error_None in Q. rewrite repeat_length in Q. (unfold dict in *; lia). }
    destruct (N1 j _ Te) as (us & A & B). rewrite Hu2 in B. destruct B as (l & u2 & E & Z & ->). injection E as <-. cbn [Nat.add] in Z.
    assert (Z' : nth_error (map PDict user') j = Some (PDict u')) by now apply map_nth_error. assert (u2 = u') by congruence. subst u2.
    exists u'. eexists. split; [exact PE|]. split; [exact A|]. intros k. rewrite gen_one_lookup; auto.
    + rewrite shown_map. reflexivity.
    + intros x Hx. injection Hx as <-. apply (parse_events_nodup u u' PE). apply (NU dim user u Id Hu). now apply nth_error_In in Hj.
Qed.
(** Queries of the caller: lists for P and D become queries of the first channel; nothing else in the event changes. *)
Theorem C43_queries : forall u u', parse_events u = Ok u' ->
  (forall k, k <> "transition_query" -> dict_lookup u' k = dict_lookup u k) /\
  (dict_lookup u "transition_query" = None -> u' = u) /\
  forall q, dict_lookup u "transition_query" = Some (PDict q) -> exists q', dict_lookup u' "transition_query" = Some (PDict q') /\
    forall k, dict_lookup q' k = match dict_lookup q k with
      | Some (PList l) => if String.eqb k "P" || String.eqb k "D"
                          then Some (PDict [("channel-1", PList (map (fun i => match i with PList _ => i | _ => PList [i] end) l))]) else Some (PList l)
      | x => x
      end.
Proof.
  intros u u' H. unfold parse_events in H. destruct (dict_lookup u "transition_query") as [v|] eqn:E.
  - destruct v as [| | | | |q]; cbn [as_dict bind] in H; try discriminate. injection H as <-. split; [|split; [discriminate|]].
    + intros k N. rewrite lookup_set. destruct (String.eqb_spec "transition_query" k); congruence.
    + intros q0 Q. injection Q as <-. eexists. rewrite lookup_set. split; [reflexivity|]. intros k.
      set (q1 := match dict_lookup q "P" with Some p => dict_set q "P" (parse_transition_query p) | None => q end).
      assert (L1 : forall j, dict_lookup q1 j = if String.eqb j "P" then option_map parse_transition_query (dict_lookup q j) else dict_lookup q j).
      { intros j. unfold q1. destruct (dict_lookup q "P") as [p|] eqn:P; [rewrite lookup_set, String.eqb_sym|]; destruct (String.eqb_spec j "P") as [->|N]; try reflexivity; now rewrite P. }
      assert (L2 : dict_lookup (match dict_lookup q1 "D" with Some p => dict_set q1 "D" (parse_transition_query p) | None => q1 end) k =
                   if String.eqb k "D" then option_map parse_transition_query (dict_lookup q1 k) else dict_lookup q1 k).
      { destruct (dict_lookup q1 "D") as [p|] eqn:P; [rewrite lookup_set, String.eqb_sym|]; destruct (String.eqb_spec k "D") as [->|N]; try reflexivity; now rewrite P. }
      rewrite L2, !L1. destruct (String.eqb_spec k "P") as [->|NP]; cbn [orb].
      * change (String.eqb "P" "D") with false. cbn iota. destruct (dict_lookup q "P") as [[]|]; reflexivity.
      * destruct (String.eqb k "D"); destruct (dict_lookup q k) as [[]|]; reflexivity.
  - injection H as <-. split; [reflexivity|]. split; [reflexivity|]. discriminate.
Qed.
(** Spectral dimensions as dicts whose events, when given, are dicts with a dict for their query. *)
Definition dims_shaped (dims : list dict) : Prop := forall dim, In dim dims -> dict_lookup dim "events" = None \/
  exists evs, has_events dim evs /\ forall u, In u evs -> dict_lookup u "transition_query" = None \/ exists q, dict_lookup u "transition_query" = Some (PDict q).
Lemma parse_events_total : forall u, dict_lookup u "transition_query" = None \/ (exists q, dict_lookup u "transition_query" = Some (PDict q)) -> exists u', parse_events u = Ok u'.
Proof. intros u [H|(q & H)]; unfold parse_events; rewrite H; [now exists u|]. cbn [as_dict bind]. eexists; reflexivity. Qed.
Lemma parse_dimension_total : forall dim, (dict_lookup dim "events" = None \/
  exists evs, has_events dim evs /\ forall u, In u evs -> dict_lookup u "transition_query" = None \/ exists q, dict_lookup u "transition_query" = Some (PDict q)) ->
  exists dim', parse_dimension dim = Ok dim'.
Proof.
  intros dim [H|(evs & H & Q)]; unfold parse_dimension; [rewrite H; now exists dim|]. unfold has_events in H. rewrite H. cbn [as_list bind].
  match goal with |- context [mapM ?f ?l] => destruct (mapM_total _ _ f l) as [l' E] end.
  - intros x Hx. apply in_map_iff in Hx. destruct Hx as (u & <- & Hu). destruct (parse_events_total u (Q u Hu)) as [u' E]. cbn [as_dict bind]. rewrite E. cbn [bind]. eexists; reflexivity.
  - rewrite E. cbn [bind]. eexists; reflexivity.
Qed.
(** A call succeeds exactly when: there is at least one dict; the channels, if given, have the right number; no attribute that the template
    fixes is given as keyword argument, but for the text of the template's infinite rotor frequency; and either the default [{}] is given, or as
    many dimensions as the template has, each without events or with at least as many as the template. *)
Theorem C43_accepts : forall event_default with_unit t dims kwargs parse, dims_shaped dims ->
  ((exists r, construct event_default with_unit t dims kwargs parse = Ok r) <->
   dims <> [] /\
   (forall c, dict_lookup kwargs "channels" = Some c -> py_len c = Ok (t_channels t)) /\
   ((forall k, dict_lookup kwargs k <> None -> dict_lookup (t_globals t) k = None) \/
    (dict_lookup kwargs "rotor_frequency" = Some (PStr "1000000000000.0 Hz") /\ dict_lookup (t_globals t) "rotor_frequency" <> None)) /\
   (dims = [[]] \/ (length dims = length (t_dims t) /\
      forall i dim tem evs, nth_error dims i = Some dim -> nth_error (t_dims t) i = Some tem -> has_events dim evs -> (length tem <= length evs)%nat))).
Proof.
  intros ed wu t dims kwargs parse W.
  assert (CH : (exists p, prepare_method_structure t kwargs = Ok p) <-> forall c, dict_lookup kwargs "channels" = Some c -> py_len c = Ok (t_channels t)).
  { unfold prepare_method_structure. destruct (dict_lookup kwargs "channels") as [c|]; [|split; [intros _ c; discriminate|intros _; eexists; reflexivity]].
    split.
    - intros [p H] c' Hc. injection Hc as <-. destruct (py_len c) as [n|]; [|discriminate]. cbn [bind] in H. destruct (Nat.eqb_spec n (t_channels t)); [now subst|discriminate].
    - intros H. rewrite (H c eq_refl). cbn [bind]. rewrite Nat.eqb_refl. eexists; reflexivity. }
  assert (RF : check_rotor_frequency kwargs (t_globals t) = Ok tt <->
    ((forall k, dict_lookup kwargs k <> None -> dict_lookup (t_globals t) k = None) \/
     (dict_lookup kwargs "rotor_frequency" = Some (PStr "1000000000000.0 Hz") /\ dict_lookup (t_globals t) "rotor_frequency" <> None))).
  { unfold check_rotor_frequency. set (common := filter (fun k => has (t_globals t) k) (map fst kwargs)).
    assert (CM : forall k, In k common <-> dict_lookup kwargs k <> None /\ dict_lookup (t_globals t) k <> None).
    { intros k. unfold common. rewrite filter_In, has_true, (lookup_none _ kwargs k). destruct (in_dec string_dec k (map fst kwargs)); tauto. }
    destruct common as [|x r] eqn:EC.
    - split; [|reflexivity]. intros _. left. intros k Hk. destruct (dict_lookup (t_globals t) k) eqn:G; [|reflexivity].
      exfalso. apply (CM k). split; congruence.
    - unfold getitem. split.
      + destruct (dict_lookup kwargs "rotor_frequency") as [v|]; [|discriminate]. cbn [bind].
        destruct (member "rotor_frequency" (x :: r)) eqn:M; cbn [andb]; [|discriminate]. destruct v as [| | |s| |]; try discriminate.
        destruct (String.eqb_spec s "1000000000000.0 Hz") as [->|]; [|discriminate]. intros _. right. split; [reflexivity|]. apply member_in, CM in M. tauto.
      + intros [H|[H1 H2]].
        * destruct (proj1 (CM x) (or_introl eq_refl)) as [A B]. exfalso. apply B. auto.
        * rewrite H1. cbn [bind]. assert (M : member "rotor_frequency" (x :: r) = true) by (apply member_in, CM; split; congruence). rewrite M. reflexivity. }
  assert (GE : forall tem dim', (dict_lookup dim' "events" = None \/ exists evs, has_events dim' evs /\ (length tem <= length evs)%nat) ->
     exists evs, gen_event ed wu tem dim' (t_globals t) kwargs parse = Ok evs).
  { intros tem dim' [H|(evs & H & L)]; unfold gen_event, fill_missing.
    - rewrite H. cbn [bind]. apply gen_loop_total. now left.
    - pose proof H as H'. unfold has_events in H'. rewrite H'. cbn [py_len bind]. apply gen_loop_total. right. exists evs. split; [exact H|].
      rewrite app_length, repeat_length, map_length. unfold dict in *. lia. }
  split.
  - intros [[[prep out] caller] H]. destruct (construct_inv _ _ _ _ _ _ _ _ _ H) as (DN & P & C & dims' & c & PD & LD & GD & _).
    split; [exact DN|]. split; [apply CH; eauto|]. split; [now apply RF|].
    destruct (gen_dims_inv _ _ _ _ _ _ _ _ GD) as (L & M & N).
    destruct (dims_given _ _ _ _ PD) as [(-> & _)|(_ & MD & _)]; [now left|]. right. destruct (mapM_inv _ _ _ _ _ MD) as [LM NM]. split; [lia|].
    intros i dim tem evs Hi Ht He. destruct (NM i dim Hi) as (dim' & Hd & Pd). destruct (N i tem dim' Ht Hd) as (evs' & Ho & G).
    destruct (parse_dimension_ok dim dim' Pd) as (_ & _ & Q). destruct (Q evs He) as (evs2 & M2 & H2). destruct (mapM_inv _ _ _ _ _ M2) as [L2 _].
    unfold gen_event, fill_missing in G. pose proof H2 as H3. unfold has_events in H3. rewrite H3 in G. cbn [py_len bind] in G.
    destruct (gen_loop_inv _ _ _ _ _ _ _ _ G) as [_ N1]. destruct (Nat.le_gt_cases (length tem) (length evs)) as [X|X]; [exact X|exfalso].
    destruct (nth_error tem (length evs)) as [e|] eqn:Z; [|apply nth_error_None in Z; unfold dict in *; lia].
    destruct (N1 (length evs) e) as (us & A & B); [rewrite nth_error_app1 by (unfold dict in *; lia); exact Z|]. rewrite H3 in B. destruct B as (l & u & E & Y & _). injection E as <-. cbn [Nat.add] in Y.
    apply (f_equal (fun o => match o with Some _ => true | None => false end)) in Y. rewrite (proj2 (nth_error_None _ _)) in Y; [discriminate|rewrite map_length; unfold dict in *; lia].
  - intros (DN & C & R & D). destruct (proj2 CH C) as [prep P]. pose proof (proj2 RF R) as K.
    assert (PD : exists dims' c, parse_spectral_dimensions dims (length (t_dims t)) = Ok (dims', c) /\ length dims' = length (t_dims t) /\
      forall i tem dim', nth_error (t_dims t) i = Some tem -> nth_error dims' i = Some dim' -> dict_lookup dim' "events" = None \/ exists evs, has_events dim' evs /\ (length tem <= length evs)%nat).
    { assert (X : dims = [[]] \/ dims <> [[]]) by (destruct dims as [|[|kv d] [|d2 r]]; auto; right; discriminate).
      destruct X as [->|X].
      - exists (repeat [] (length (t_dims t))), [[]]. split; [reflexivity|]. split; [apply repeat_length|]. intros i tem dim' _ Hd. apply nth_error_In, repeat_spec in Hd. subst. now left.
      - destruct D as [D|[L D]]; [contradiction|].
        assert (T : exists dims', mapM parse_dimension dims = Ok dims') by (apply mapM_total; intros x Hx; apply parse_dimension_total; now apply W).
        destruct T as [dims' T]. exists dims', dims'. split; [now rewrite parse_dims_general, T|]. destruct (mapM_inv _ _ _ _ _ T) as [LM NM]. split; [lia|].
        intros i tem dim' Ht Hd. assert (Hx : (i < length dims)%nat) by (rewrite <- LM; apply nth_error_Some; congruence).
        destruct (nth_error dims i) as [dim|] eqn:Hi; [|apply nth_error_None in Hi; lia]. destruct (NM i dim Hi) as (y & Hy & Py). assert (y = dim') by congruence. subst y.
        destruct (parse_dimension_ok dim dim' Py) as (_ & B & Q). destruct (W dim (nth_error_In _ _ Hi)) as [E|(evs & E & _)].
        + left. rewrite (B E). exact E.
        + right. destruct (Q evs E) as (evs2 & M2 & H2). destruct (mapM_inv _ _ _ _ _ M2) as [L2 _]. exists evs2. split; [exact H2|].
          rewrite L2. apply (D i dim tem evs Hi Ht E). }
    destruct PD as (dims' & c & PD & LD & HD).
    destruct (gen_dims_total ed wu (t_globals t) kwargs parse (t_dims t) dims') as [out GO]; [lia| |].
    { intros i tem dim' Ht Hd. apply GE. exact (HD i tem dim' Ht Hd). }
    unfold construct. destruct dims as [|d0 r0] eqn:ED; [congruence|]. rewrite <- ED in *. cbv zeta. rewrite PD. cbn [bind]. rewrite P. cbn [bind]. rewrite K. cbn [bind].
    assert (LT : Nat.ltb (length (t_dims t)) (length dims') = false) by (apply Nat.ltb_ge; lia). rewrite LT, GO. cbn [bind]. eexists; reflexivity.
Qed.
(** The attributes of the method itself: keyword arguments, else the template's name and description, else nothing; one 1H channel per channel. *)
Theorem C43_method : forall event_default with_unit t dims kwargs parse prep out caller,
  construct event_default with_unit t dims kwargs parse = Ok (prep, out, caller) ->
  forall k, In k ["name"; "description"; "label"; "simulation"; "experiment"; "affine_matrix"; "channels"] ->
  dict_lookup prep k = Some (match dict_lookup kwargs k with
    | Some v => v
    | None => if String.eqb k "name" then t_name t else if String.eqb k "description" then t_description t
              else if String.eqb k "channels" then PList (repeat (PStr "1H") (t_channels t)) else PNone
    end).
Proof.
  intros ed wu t dims kwargs parse prep out caller H k Hk. destruct (construct_inv _ _ _ _ _ _ _ _ _ H) as (_ & P & _). unfold prepare_method_structure, or_default in P.
  destruct (dict_lookup kwargs "channels") as [c|] eqn:C.
  - destruct (py_len c) as [n|]; [|discriminate]. cbn [bind] in P. destruct (Nat.eqb n (t_channels t)); [|discriminate]. injection P as <-.
    cbn [In] in Hk. repeat (destruct Hk as [<-|Hk]; [cbn; try rewrite C; match goal with |- context [dict_lookup kwargs ?x] => destruct (dict_lookup kwargs x) | _ => idtac end; reflexivity|]); destruct Hk.
  - injection P as <-.
    cbn [In] in Hk. repeat (destruct Hk as [<-|Hk]; [cbn; try rewrite C; match goal with |- context [dict_lookup kwargs ?x] => destruct (dict_lookup kwargs x) | _ => idtac end; reflexivity|]); destruct Hk.
Qed.
(** The template of Method2D, and a call with two events in the first dimension. *)
Definition template_2D : template := {|
  t_name := PStr "Method2D"; t_description := PStr "A generic two-dimensional correlation spectrum method."; t_channels := 1;
  t_globals := [("rotor_frequency", PFloat 1000000000000); ("transition_query", PDict [("P", PDict [("channel-1", PList [PList [PInt (-1)]])])])];
  t_dims := [[[]]; [[]]] |}.
Definition dims_2D : list dict :=
  [[("count", PInt 16); ("events", PList [PDict [("fraction", PFloat (1 # 2)); ("transition_query", PDict [("P", PList [PInt (-3)])])]; PDict [("rotor_angle", PFloat 1)]])];
   [("count", PInt 8)]].
Example C43_witness : dims_shaped dims_2D /\
  construct [("fraction", PFloat 1); ("rotor_angle", PFloat 0); ("property_units", PDict [])] (fun _ u => u) template_2D dims_2D [("magnetic_flux_density", PFloat 7)] false =
  Ok ([("name", PStr "Method2D"); ("description", PStr "A generic two-dimensional correlation spectrum method."); ("label", PNone); ("simulation", PNone); ("experiment", PNone);
       ("affine_matrix", PNone); ("channels", PList [PStr "1H"])],
      [([("count", PInt 16)],
        [[("magnetic_flux_density", PFloat 7); ("fraction", PFloat (1 # 2)); ("transition_query", PDict [("P", PDict [("channel-1", PList [PList [PInt (-3)]])])]);
          ("rotor_frequency", PFloat 1000000000000)];
         [("fraction", PFloat 1); ("rotor_angle", PFloat 1); ("magnetic_flux_density", PFloat 7); ("rotor_frequency", PFloat 1000000000000);
          ("transition_query", PDict [("P", PDict [("channel-1", PList [PList [PInt (-1)]])])])]]);
       ([("count", PInt 8)],
        [[("magnetic_flux_density", PFloat 7); ("rotor_frequency", PFloat 1000000000000); ("transition_query", PDict [("P", PDict [("channel-1", PList [PList [PInt (-1)]])])])]])],
      [[("count", PInt 16)]; [("count", PInt 8)]]).
Proof.
  split; [|reflexivity]. intros dim [<-|[<-|[]]]; [right|now left].
  exists [[("fraction", PFloat (1 # 2)); ("transition_query", PDict [("P", PList [PInt (-3)])])]; [("rotor_angle", PFloat 1)]]. split; [reflexivity|].
  intros u [<-|[<-|[]]]; [right; eexists; reflexivity|now left].
Qed.
Print Assumptions C43_precedence.
Print Assumptions C43_queries.
Print Assumptions C43_accepts.
Print Assumptions C43_method.

(** * C73 *)
(** The caller's spectral dimensions are unchanged when none of them has events. *)
Theorem C73_no_events_partial : forall event_default with_unit t dims kwargs parse prep out caller,
  construct event_default with_unit t dims kwargs parse = Ok (prep, out, caller) ->
  (forall dim, In dim dims -> dict_lookup dim "events" = None) -> caller = dims.
Proof.
  intros ed wu t dims kwargs parse prep out caller H E. destruct (construct_inv _ _ _ _ _ _ _ _ _ H) as (DN & _ & _ & dims' & c & PD & _ & _ & ->).
  destruct (dims_given _ _ _ _ PD) as [(-> & _ & ->)|(X & MD & ->)]; [reflexivity|].
  assert (Y : dims' = dims).
  { clear - MD E. revert dims' MD. induction dims as [|d r IH]; intros dims' MD; cbn [mapM] in MD; [now injection MD as <-|].
    unfold parse_dimension at 1 in MD. rewrite (E d (or_introl eq_refl)) in MD. cbn [bind] in MD. destruct (mapM parse_dimension r) as [x|]; [|discriminate]. cbn [bind] in MD.
    injection MD as <-. f_equal. apply IH; [|reflexivity]. intros y Hy. apply E. now right. }
  subst dims'. assert (M : map (fun dim => dict_remove dim "events") dims = dims).
  { clear - E. induction dims as [|d r IH]; [reflexivity|]. cbn [map]. rewrite IH by (intros y Hy; apply E; now right). f_equal.
    specialize (E d (or_introl eq_refl)). apply lookup_none in E. unfold dict_remove. clear - E. induction d as [|[k v] d IH]; [reflexivity|]. cbn [filter fst map In] in *.
    destruct (String.eqb_spec k "events"); [exfalso; auto|]. cbn [negb]. f_equal. auto. }
  destruct dims as [|[|kv d] [|d2 r]]; try exact M.
Qed.
(** In general the events are removed from the caller's dicts: building the same method twice from the same arguments gives two different
    methods. *)
Theorem C73_events_refuted : exists t dims kwargs prep out caller prep' out' caller',
  construct [] (fun _ u => u) t dims kwargs false = Ok (prep, out, caller) /\ caller <> dims /\
  construct [] (fun _ u => u) t caller kwargs false = Ok (prep', out', caller') /\ out' <> out.
Proof.
  exists template_2D, [[("events", PList [PDict [("rotor_angle", PFloat 1)]])]; [("count", PInt 8)]], []. do 6 eexists.
  split; [reflexivity|]. split; [discriminate|]. split; [reflexivity|]. discriminate.
Qed.
Example C73_witness : exists prep out, construct [] (fun _ u => u) template_2D [[("count", PInt 16)]; [("count", PInt 8)]] [] false = Ok (prep, out, [[("count", PInt 16)]; [("count", PInt 8)]]).
Proof. do 2 eexists. reflexivity. Qed.
Print Assumptions C73_no_events_partial.
Print Assumptions C73_events_refuted.
