(** Proofs about the named methods. *)
From Coq Require Import ZArith QArith Qcanon Bool Ascii String List Lia.
From Verif Require Import Base SitesModel SitesProofs JsonModel JsonSpec JsonProofs JsonUnits JsonLost NamedModel NamedSpec.
From Verif Require BaseProofs PathwayModel MethodsModel MethodsProofs.
Import ListNotations.
Open Scope string_scope.
Open Scope list_scope.

(** ** An event is read from its entries *)
Definition event_reads (d : jdict) (e : event) : Prop :=
  (dict_lookup d "fraction" = Some (JNum (fraction e)) \/ (dict_lookup d "fraction" = None /\ fraction e = 1%Qc)) /\
  dict_lookup d "magnetic_flux_density" = Some (JQty (magnetic_flux_density e) "T") /\
  dict_lookup d "rotor_frequency" = Some (JQty (rotor_frequency e) "Hz") /\
  dict_lookup d "rotor_angle" = Some (JQty (rotor_angle e) "rad") /\
  (dict_lookup d "freq_contrib" = Some (JList (map JStr (freq_contrib e))) \/ (dict_lookup d "freq_contrib" = None /\ freq_contrib e = freq_list_all)) /\
  ((exists qd, dict_lookup d "transition_query" = Some (JDict qd) /\ make_query qd = Ok (transition_query e)) \/
   (dict_lookup d "transition_query" = None /\ transition_query e = default_query)) /\
  dict_lookup d "property_units" = None.
(** The attributes but the query. *)
Definition good_attributes (e : event) : Prop :=
  (0 <= magnetic_flux_density e)%Qc /\ (0 <= rotor_frequency e)%Qc /\ (0 <= rotor_angle e)%Qc /\ (rotor_angle e <= Q2Qc (15707963268 # 10000000000))%Qc /\
  incl (freq_contrib e) ["Shielding1_0"; "Shielding1_2"; "Quad1_2"; "Quad2_0"; "Quad2_2"; "Quad2_4"] /\
  e_units e = [("magnetic_flux_density", "T"); ("rotor_frequency", "Hz"); ("rotor_angle", "rad")].
Lemma event_read' d e : good_attributes e -> event_reads d e -> parse_event d = Ok e.
Proof.
  destruct e as [f b r a fc q pu]. intros (Gb & Gr & Ga & Ga' & Gf & Gu) (L1 & L2 & L3 & L4 & L5 & L6 & L7).
  cbn [fraction magnetic_flux_density rotor_frequency rotor_angle freq_contrib transition_query e_units] in *. subst pu.
  assert (F : all_fit event_table d).
  { intros p sp v HI HL. cbn in HI. repeat (destruct HI as [HI|HI]; [injection HI as <- <-|]); try contradiction.
    - rewrite L2 in HL. injection HL as <-. enf. discriminate.
    - rewrite L3 in HL. injection HL as <-. enf. discriminate.
    - rewrite L4 in HL. injection HL as <-. enf. discriminate. }
  unfold parse_event. destruct (parse_units_ok event_table d ltac:(nd) F) as (d' & E & K). rewrite E. cbn [bind]. rewrite no_units by (rewrite K; exact L7). cbn [bind].
  unfold make_event.
  assert (E1 : def_num d' "fraction" 1 any = Ok f).
  { unfold def_num. rewrite K. cbn [dict_lookup find fst snd String.eqb Ascii.eqb Bool.eqb event_table]. destruct L1 as [->|[-> ->]]; reflexivity. }
  rewrite E1. cbn [bind].
  rewrite (read_def d' "magnetic_flux_density" (Single "magnetic flux density" "T") "T" b _ non_negative "T"); [|apply T_fit|now apply Qc_leb_true|rewrite K, L2; reflexivity].
  rewrite (read_def d' "rotor_frequency" (Single "frequency" "Hz") "Hz" r _ non_negative "Hz"); [|apply hz_fit|now apply Qc_leb_true|rewrite K, L3; reflexivity].
  rewrite (read_def d' "rotor_angle" (Single "angle" "rad") "rad" a _ angle_range "rad"); [|apply rad_fit|unfold angle_range; now rewrite !Qc_leb_true|rewrite K, L4; reflexivity].
  cbn [bind].
  assert (M : mapM (fun x => match x with JStr s => if existsb (String.eqb s) freq_list_all then Ok s else Err ValueError | _ => Err ValueError end) (map JStr fc) = Ok fc).
  { clear - Gf. induction fc as [|s l IH]; [reflexivity|]. cbn [map mapM].
    assert (X : existsb (String.eqb s) freq_list_all = true) by (apply existsb_exists; exists s; split; [apply Gf; now left|apply String.eqb_refl]).
    rewrite X. cbn [bind]. rewrite IH; [reflexivity|]. intros y Hy. apply Gf. now right. }
  assert (E5 : dict_lookup d' "freq_contrib" = dict_lookup d "freq_contrib") by (rewrite K; reflexivity).
  assert (E6 : dict_lookup d' "transition_query" = dict_lookup d "transition_query") by (rewrite K; reflexivity).
  rewrite E5, E6. unfold read_units, event_table. cbn [map fst snd]. rewrite !single_unit.
  destruct L5 as [->|[-> ->]], L6 as [(qd & -> & Q)|[-> ->]]; rewrite ?M, ?Q; reflexivity.
Qed.

(** ** The printed form of a method *)
(** An event of a printed method: without the entries that are those of the first event, and without its query for a named method. *)
Definition ev_shape (named : bool) (e0 e : event) (ev : jdict) : Prop :=
  forall k, dict_lookup ev k = match dict_lookup (shared_entries e0) k, dict_lookup (json_event e) k with
                               | Some v, Some x => if same_text x v then None else Some x
                               | _, o => if named && String.eqb k "transition_query" then None else o
                               end.
Lemma event_shape named e0 e : good_event e -> exists ev, strip_event named (shared_entries e0) (json_event e) = Ok ev /\ ev_shape named e0 e ev.
Proof.
  intros G. pose proof (event_json e G) as (L1 & L2 & L3 & L4 & L5 & L6 & L7).
  destruct (strip_ok (shared_entries e0) (json_event e)) as (ev & E & K); [nd| |].
  { intros k Hk. cbn in Hk. destruct Hk as [<-|[<-|[<-|[]]]]; congruence. }
  unfold strip_event. rewrite E. cbn [bind]. destruct named.
  - assert (T : has_key ev "transition_query" = true).
    { unfold has_key. rewrite K. cbn [shared_entries dict_lookup find fst snd String.eqb Ascii.eqb Bool.eqb]. rewrite L6. reflexivity. }
    rewrite T. eexists. split; [reflexivity|]. intros k. rewrite lookup_pop, K. cbn [andb]. destruct (String.eqb_spec k "transition_query") as [->|]; [|now destruct (dict_lookup (shared_entries e0) k)].
    reflexivity.
  - eexists. split; [reflexivity|]. intros k. rewrite K. reflexivity.
Qed.
Definition dim_shape (named : bool) (e0 : event) (x : dimension) (v : jval) : Prop :=
  exists y evs a b c, v = JDict y /\ hz_ppm a /\ hz_ppm b /\ (c = "Hz" \/ (c = "ppm" /\ origin_offset x <> None)) /\
    d_units x = [("spectral_width", a); ("reference_offset", b); ("origin_offset", c)] /\ dim_entries y x a b c /\
    Forall2 (ev_shape named e0) (events x) evs /\
    (dict_lookup y "events" = Some (JList (map JDict evs)) \/ (dict_lookup y "events" = None /\ evs = repeat [] (length (events x)))) /\ y <> [].
Lemma all_empty (evs : list jdict) : forallb (fun ev : jdict => match ev with [] => true | _ => false end) evs = true -> evs = repeat [] (length evs).
Proof. induction evs as [|[|]  evs IH]; cbn; [reflexivity| |discriminate]. intros H. now rewrite <- IH. Qed.
Lemma F2_length A B (R : A -> B -> Prop) l r : Forall2 R l r -> length l = length r.
Proof. induction 1; cbn; auto. Qed.
Lemma dims_shape named e0 x : good_dim x -> exists v, (let* y := strip_dim named (shared_entries e0) (json_dim x) in Ok (JDict y)) = Ok v /\ dim_shape named e0 x v.
Proof.
  intros (Gc & Gw & Gl & Gd & Ge & u & v & w & Hu & Hv & Hw & U). destruct (dim_json x u v w U) as [D E].
  destruct (mapM_exists event jdict (fun e => strip_event named (shared_entries e0) (json_event e)) (ev_shape named e0) (events x)) as (evs & M & F2).
  { intros e He. rewrite Forall_forall in Ge. now apply event_shape, Ge. }
  unfold strip_dim. rewrite E, mapM_map.
  change (mapM (fun a => strip_event named (shared_entries e0) (json_event a)) (events x)) with (mapM (fun e => strip_event named (shared_entries e0) (json_event e)) (events x)).
  rewrite M. cbn [bind].
  assert (NE : dict_lookup (json_dim x) "count" <> None) by (destruct D as (D1 & _); rewrite D1; discriminate).
  match goal with |- context [if ?b then _ else _] => destruct b eqn:F end.
  - eexists. split; [reflexivity|]. exists (dict_pop (json_dim x) "events"), evs, u, v, w. split; [reflexivity|]; split; [exact Hu|]; split; [exact Hv|]; split; [exact Hw|]; split; [exact U|]. split; [|split; [exact F2|split]].
    + unfold dim_entries in *. rewrite !lookup_pop. cbn [String.eqb Ascii.eqb Bool.eqb]. exact D.
    + right. rewrite lookup_pop. split; [reflexivity|]. rewrite (F2_length _ _ _ _ _ F2). now apply all_empty.
    + intros X. apply NE. apply (f_equal (fun d => dict_lookup d "count")) in X. rewrite lookup_pop in X. exact X.
  - eexists. split; [reflexivity|]. exists (dict_set (json_dim x) "events" (JList (map JDict evs))), evs, u, v, w. split; [reflexivity|]; split; [exact Hu|]; split; [exact Hv|]; split; [exact Hw|]; split; [exact U|]. split; [|split; [exact F2|split]].
    + unfold dim_entries in *. rewrite !lookup_set. cbn [String.eqb Ascii.eqb Bool.eqb]. exact D.
    + left. rewrite lookup_set. reflexivity.
    + intros X. apply NE. apply (f_equal (fun d => dict_lookup d "count")) in X. rewrite lookup_set in X. exact X.
Qed.
(** The entries of a printed method. *)
Definition method_entries (m : method) (e0 : event) (dd : list jval) (d : jdict) : Prop :=
  NoDup (map fst d) /\
  forall k, dict_lookup d k = match dict_lookup
      ([("name", str_or_none (m_name m)); ("label", str_or_none (m_label m)); ("description", str_or_none (m_description m));
        ("channels", JList (map JStr (channels m))); ("spectral_dimensions", JList dd)] ++ shared_entries e0 ++
       [("affine_matrix", match affine m with Some a => json_matrix a | None => JNone end);
        ("simulation", dict_or_none (fun d => d) (simulation m)); ("experiment", dict_or_none (fun d => d) (experiment m))]) k with
    | Some JNone | None => None | Some v => Some v end.
Lemma filter_nodup_fst A (f : string * A -> bool) l : NoDup (map fst l) -> NoDup (map fst (filter f l)).
Proof.
  induction l as [|[k v] l IH]; intros N; [constructor|]. cbn [map fst] in N. inversion N as [|? ? N1 N2]; subst. cbn [filter]. destruct (f (k, v)); [|now apply IH].
  cbn [map fst]. constructor; [|now apply IH]. intros X. apply N1. apply in_map_iff in X. destruct X as (y & Y1 & Y2). apply filter_In in Y2. destruct Y2 as [Y2 _]. apply (in_map fst) in Y2. congruence.
Qed.
Lemma json_shape m e0 named : Forall good_dim (dims m) -> first_event m e0 ->
  named = match m_name m with Some n => existsb (String.eqb n) NAMED_METHODS | None => false end ->
  exists d dd, json_method m = Ok d /\ method_entries m e0 dd d /\ Forall2 (dim_shape named e0) (dims m) dd.
Proof.
  intros G (x0 & r & s & D0 & E0) Hn.
  destruct (mapM_exists dimension jval (fun x => let* y := strip_dim named (shared_entries e0) (json_dim x) in Ok (JDict y)) (dim_shape named e0) (dims m)) as (dd & M & F2).
  { intros x Hx. rewrite Forall_forall in G. now apply dims_shape, G. }
  eexists. exists dd. split; [|split; [|exact F2]].
  - unfold json_method. rewrite <- Hn. rewrite D0 in *. rewrite E0. fold (shared_entries e0). rewrite M. cbn [bind]. reflexivity.
  - split.
    + apply filter_nodup_fst. cbn [app shared_entries map fst]. nd.
    + intros k. rewrite (lookup_filter _ _ (fun v => match v with JNone => false | _ => true end)); [|reflexivity|cbn [app shared_entries]; nd].
      cbn [app shared_entries]. destruct (dict_lookup _ k) as [[]|]; reflexivity.
Qed.

(** ** Reading the printed dimensions as objects *)
Definition with_query (q : query) (e : event) : event :=
  mkEvent (fraction e) (magnetic_flux_density e) (rotor_frequency e) (rotor_angle e) (freq_contrib e) q (e_units e).
Definition with_events (evs : list event) (x : dimension) : dimension :=
  mkDim (count x) (spectral_width x) (reference_offset x) (origin_offset x) (d_label x) (d_description x) evs (d_units x).
(** What the printed form keeps of a dimension. *)
Definition reset (named : bool) (x : dimension) : dimension := if named then with_events (map (with_query default_query) (events x)) x else x.
Lemma good_attrs e q : good_event e -> good_attributes (with_query q e).
Proof. intros (G1 & G2 & G3 & G4 & G5 & G6 & G7). repeat split; assumption. Qed.
Lemma fill_all e0 ev k : dict_lookup (fill_event (shared_entries e0) ev) k = match dict_lookup ev k with Some x => Some x | None => dict_lookup (shared_entries e0) k end.
Proof. unfold fill_event. apply fill_lookup; [nd|reflexivity]. Qed.
(** An entry of a printed event, completed by the shared ones. *)
Lemma shape_shared named e0 e ev k v x : ev_shape named e0 e ev -> dict_lookup (shared_entries e0) k = Some v -> dict_lookup (json_event e) k = Some x ->
  match dict_lookup ev k with Some y => y = x | None => v = x end.
Proof. intros S V X. rewrite S, V, X. destruct (same_text x v) eqn:T; [|reflexivity]. apply same_text_eq in T. now subst. Qed.
Lemma shape_other named e0 e ev k : ev_shape named e0 e ev -> dict_lookup (shared_entries e0) k = None -> k <> "transition_query" -> dict_lookup ev k = dict_lookup (json_event e) k.
Proof. intros S V N. rewrite S, V. destruct (String.eqb_spec k "transition_query"); [contradiction|]. now rewrite andb_false_r. Qed.
Lemma shape_query named e0 e ev : ev_shape named e0 e ev -> dict_lookup ev "transition_query" = if named then None else dict_lookup (json_event e) "transition_query".
Proof. intros S. rewrite S. cbn [shared_entries dict_lookup find fst snd String.eqb Ascii.eqb Bool.eqb]. now destruct named. Qed.
Lemma fraction_case d e : dict_lookup d "fraction" = (if Qc_eq_bool (fraction e) 1 then None else Some (JNum (fraction e))) ->
  dict_lookup d "fraction" = Some (JNum (fraction e)) \/ (dict_lookup d "fraction" = None /\ fraction e = 1%Qc).
Proof. intros ->. destruct (Qc_eq_bool (fraction e) 1) eqn:X; [right|now left]. apply Qc_eqb_iff in X. auto. Qed.
Lemma contrib_case d e : dict_lookup d "freq_contrib" = (if strings_eqb (freq_contrib e) freq_list_all then None else Some (JList (map JStr (freq_contrib e)))) ->
  dict_lookup d "freq_contrib" = Some (JList (map JStr (freq_contrib e))) \/ (dict_lookup d "freq_contrib" = None /\ freq_contrib e = freq_list_all).
Proof. intros ->. destruct (strings_eqb (freq_contrib e) freq_list_all) eqn:X; [right|now left]. apply strings_eqb_iff in X. auto. Qed.
Lemma read_shape named e0 e ev : good_event e -> ev_shape named e0 e ev ->
  parse_event (fill_event (shared_entries e0) ev) = Ok (if named then with_query default_query e else e).
Proof.
  intros G S. pose proof (event_json e G) as (L1 & L2 & L3 & L4 & L5 & L6 & L7).
  assert (A : good_attributes (if named then with_query default_query e else e)).
  { destruct named; [now apply good_attrs|]. destruct G as (G1 & G2 & G3 & G4 & G5 & G6 & G7). repeat split; assumption. }
  apply event_read'; [exact A|].
  assert (F1 : dict_lookup (fill_event (shared_entries e0) ev) "fraction" = dict_lookup (json_event e) "fraction").
  { rewrite fill_all, (shape_other named e0 e ev) by (try exact S; try reflexivity; discriminate). now destruct (dict_lookup (json_event e) "fraction"). }
  assert (F5 : dict_lookup (fill_event (shared_entries e0) ev) "freq_contrib" = dict_lookup (json_event e) "freq_contrib").
  { rewrite fill_all, (shape_other named e0 e ev) by (try exact S; try reflexivity; discriminate). now destruct (dict_lookup (json_event e) "freq_contrib"). }
  rewrite L1 in F1. rewrite L5 in F5. apply fraction_case in F1. apply contrib_case in F5.
  pose proof (shape_shared named e0 e ev "magnetic_flux_density" _ _ S eq_refl L2) as S2.
  pose proof (shape_shared named e0 e ev "rotor_frequency" _ _ S eq_refl L3) as S3.
  pose proof (shape_shared named e0 e ev "rotor_angle" _ _ S eq_refl L4) as S4.
  pose proof (shape_query named e0 e ev S) as S6. rewrite L6 in S6.
  unfold event_reads. split; [destruct named; exact F1|]. rewrite !(fill_all e0 ev) in *.
  split; [destruct (dict_lookup ev "magnetic_flux_density"); [subst; destruct named; reflexivity|]; change (Some (JQty (magnetic_flux_density e0) "T") = Some (JQty (magnetic_flux_density (if named then with_query default_query e else e)) "T")); rewrite S2; destruct named; reflexivity|].
  split; [destruct (dict_lookup ev "rotor_frequency"); [subst; destruct named; reflexivity|]; change (Some (JQty (rotor_frequency e0) "Hz") = Some (JQty (rotor_frequency (if named then with_query default_query e else e)) "Hz")); rewrite S3; destruct named; reflexivity|].
  split; [destruct (dict_lookup ev "rotor_angle"); [subst; destruct named; reflexivity|]; change (Some (JQty (rotor_angle e0) "rad") = Some (JQty (rotor_angle (if named then with_query default_query e else e)) "rad")); rewrite S4; destruct named; reflexivity|].
  split; [destruct named; exact F5|].
  split.
  - rewrite S6. destruct named; [right; split; reflexivity|]. left. eexists. split; [reflexivity|]. apply query_round. apply G.
  - rewrite (shape_other named e0 e ev) by (try exact S; try reflexivity; discriminate). now rewrite L7.
Qed.
(** An event of which nothing is printed. *)
Lemma empty_plain named e0 e : good_event e -> ev_shape named e0 e [] -> named = true /\ plain_event e0 e.
Proof.
  intros G S. pose proof (event_json e G) as (L1 & L2 & L3 & L4 & L5 & L6 & L7).
  pose proof (shape_shared named e0 e [] "magnetic_flux_density" _ _ S eq_refl L2) as S2.
  pose proof (shape_shared named e0 e [] "rotor_frequency" _ _ S eq_refl L3) as S3.
  pose proof (shape_shared named e0 e [] "rotor_angle" _ _ S eq_refl L4) as S4.
  pose proof (shape_query named e0 e [] S) as S6. rewrite L6 in S6.
  pose proof (shape_other named e0 e [] "fraction" S eq_refl ltac:(discriminate)) as S1. rewrite L1 in S1.
  pose proof (shape_other named e0 e [] "freq_contrib" S eq_refl ltac:(discriminate)) as S5. rewrite L5 in S5.
  cbn [dict_lookup find] in *. split; [now destruct named|]. unfold plain_event. injection S2 as <-. injection S3 as <-. injection S4 as <-.
  split; [reflexivity|]. split; [reflexivity|]. split; [reflexivity|]. split.
  - destruct (Qc_eq_bool (fraction e) 1) eqn:X; [|discriminate]. now apply Qc_eqb_iff in X.
  - destruct (strings_eqb (freq_contrib e) freq_list_all) eqn:X; [|discriminate]. now apply strings_eqb_iff in X.
Qed.
Lemma empties_plain named e0 l : Forall good_event l -> Forall2 (ev_shape named e0) l (repeat [] (length l)) -> Forall (plain_event e0) l /\ (l <> [] -> named = true).
Proof.
  induction l as [|e l IH]; intros G F; [split; [constructor|congruence]|]. cbn [length repeat] in F. inversion F as [|? ? ? ? F1 F2]; subst. inversion G as [|? ? G1 G2]; subst.
  destruct (empty_plain named e0 e G1 F1) as [N P]. destruct (IH G2 F2) as [PL _]. split; [now constructor|auto].
Qed.
Lemma read_dim_shape named e0 x v : good_dim x -> events x <> [] -> (named = true -> Forall (plain_event e0) (events x) -> length (events x) = 1%nat) ->
  dim_shape named e0 x v -> exists z, expand_dim (shared_entries e0) v = Ok (JDict z) /\ parse_dim z = Ok (reset named x).
Proof.
  intros (Gc & Gw & Gl & Gd & Ge & _) NE P (y & evs & a & b & c & -> & Ha & Hb & Hc & U & D & F2 & EV & _).
  assert (EE : match dict_lookup y "events" with Some x => x | None => JList [JDict []] end = JList (map JDict evs)).
  { destruct EV as [->|[-> X]]; [reflexivity|]. rewrite X in F2. destruct (empties_plain named e0 (events x) Ge F2) as [PL N]. rewrite X, (P (N NE) PL). reflexivity. }
  assert (EP : mapM (fun ev => parse_event (fill_event (shared_entries e0) ev)) evs = Ok (events (reset named x))).
  { replace (events (reset named x)) with (map (fun e => if named then with_query default_query e else e) (events x)).
    - clear - F2 Ge. induction F2 as [|e ev l r S F IH]; [reflexivity|]. inversion Ge as [|? ? G1 G2]; subst. cbn [mapM map]. rewrite (read_shape named e0 e ev G1 S). cbn [bind]. now rewrite (IH G2).
    - unfold reset. destruct named; [reflexivity|]. now rewrite map_id. }
  exists (dict_set y "events" (JList (map (fun ev => JDict (fill_event (shared_entries e0) ev)) evs))). split.
  - unfold expand_dim. cbn [as_dict bind]. rewrite EE. cbn [as_list bind]. rewrite mapM_map. cbn [as_dict bind].
    rewrite (BaseProofs.mapM_ok _ (fun ev => JDict (fill_event (shared_entries e0) ev))) by reflexivity. reflexivity.
  - apply (dim_read _ (reset named x) a b c); try (destruct named; assumption).
    + destruct D as (D1 & D2 & D3 & D4 & D5 & D6 & D7). unfold dim_entries. rewrite !lookup_set. cbn [String.eqb Ascii.eqb Bool.eqb]. destruct named; auto 10.
    + unfold list_parse. rewrite lookup_set, String.eqb_refl. rewrite mapM_map. etransitivity; [apply (f_equal (fun r => bind r (fun r => Ok (Some r))) EP)|]. reflexivity.
Qed.
(** The attributes of the method. *)
Definition with_dims (ds : list dimension) (m : method) : method :=
  mkMethod (m_name m) (m_label m) (m_description m) (channels m) ds (affine m) (simulation m) (experiment m).
Lemma make_back d m ds : Forall (fun c => exists n, In (c, n) isotope_data) (channels m) -> on (good_matrix (length ds)) (affine m) ->
  opt_str d "name" = Ok (m_name m) -> opt_str d "label" = Ok (m_label m) -> opt_str d "description" = Ok (m_description m) ->
  dict_lookup d "channels" = Some (JList (map JStr (channels m))) ->
  (dict_lookup d "affine_matrix" = option_map json_matrix (affine m) \/ (dict_lookup d "affine_matrix" = Some JNone /\ affine m = None)) ->
  opt_dict d "simulation" None = Ok (simulation m) -> opt_dict d "experiment" None = Ok (experiment m) ->
  make_method d (Some ds) = Ok (with_dims ds m).
Proof.
  intros Gc Ga N L D C A S E. unfold make_method. rewrite N, L, D, C, S, E. cbn [bind]. rewrite channels_round by exact Gc. cbn [bind].
  destruct A as [->|[-> Z]]; [|unfold with_dims; rewrite Z; reflexivity].
  unfold with_dims. destruct (affine m) as [af|]; [|reflexivity]. cbn [option_map]. destruct (array_round _ af Ga) as [A1 A2].
  destruct (json_matrix af) eqn:JM; try (destruct af; discriminate JM). rewrite A1. cbn [bind]. rewrite A2. reflexivity.
Qed.

(** ** The updates *)
Definition as_query (q : MethodsModel.query) : query := mkQuery (query_dict (fst q)) (query_dict (snd q)) None None.
Lemma set_back x q : map transition_query (events x) = as_query q :: repeat default_query (length (events x) - 1) -> set_query (reset true x) q = Ok x.
Proof.
  destruct x as [c w ro oo l d ev u]. cbn [events reset with_events]. intros M. unfold set_query. cbn [events count spectral_width reference_offset origin_offset d_label d_description d_units].
  destruct ev as [|e ev]; [discriminate M|]. cbn [map] in *. cbn [length] in M. rewrite Nat.sub_succ, Nat.sub_0_r in M. injection M as M1 M2.
  assert (R : map (with_query default_query) ev = ev).
  { clear - M2. induction ev as [|e ev IH]; [reflexivity|]. cbn [map length repeat] in *. injection M2 as A B. rewrite (IH B). f_equal. destruct e. unfold with_query. cbn in *. now subst. }
  rewrite R. f_equal. f_equal. f_equal. destruct e as [f b r a fc tq pu]. unfold with_query. cbn [fraction magnetic_flux_density rotor_frequency rotor_angle freq_contrib transition_query e_units q_F q_transitions default_query] in *.
  now subst tq.
Qed.
Lemma sets_back ds qs : Forall2 (fun x q => map transition_query (events x) = q :: repeat default_query (length (events x) - 1)) ds (map as_query qs) ->
  set_queries (map (reset true) ds) qs = Ok ds.
Proof.
  revert ds. induction qs as [|q qs IH]; intros ds F; cbn [map] in F; inversion F as [|x ? ds' ? F1 F2]; subst; [reflexivity|].
  cbn [map set_queries]. rewrite (set_back x q F1). cbn [bind]. now rewrite (IH ds' F2).
Qed.
Lemma apply_back m qs a0 text a : Forall2 (fun x q => map transition_query (events x) = q :: repeat default_query (length (events x) - 1)) (dims m) (map as_query qs) ->
  affine m = Some a0 -> m_description m = Some text -> apply_update (with_dims (map (reset true) (dims m)) m) (qs, a) text = Ok m.
Proof.
  intros F A T. destruct m as [n l d c ds af s e]. unfold apply_update, with_dims. cbn [dims affine fst snd m_name m_label m_description channels simulation experiment] in *.
  rewrite (sets_back ds qs F). cbn [bind]. rewrite A. cbn [bind]. now rewrite T.
Qed.
Lemma half_eqb a b : MethodsModel.qc_eqb (MethodsModel.half a) (MethodsModel.half b) = Z.eqb b a.
Proof.
  unfold MethodsModel.qc_eqb. destruct (Qc_eq_dec _ _) as [E|N].
  - apply MethodsProofs.half_eq in E. subst. symmetry. apply Z.eqb_refl.
  - symmetry. apply Z.eqb_neq. intros ->. now apply N.
Qed.
(** The queries that the classes set. *)
Lemma MQ_queries cls mq n a : In (cls, mq) [("ThreeQ_VAS", 3%Z); ("FiveQ_VAS", 5%Z); ("SevenQ_VAS", 7%Z)] ->
  exists qs, MethodsModel.MQ_update cls (MethodsModel.half n) (Some a) = Ok (qs, a) /\ map as_query qs = class_queries cls n.
Proof.
  intros HN. unfold MethodsModel.MQ_update.
  assert (L : MethodsModel.lookup String.eqb MethodsModel.MQ_p_symmetry cls = Ok (MethodsModel.half mq)) by (cbn [In] in HN; destruct HN as [[= <- <-]|[[= <- <-]|[[= <- <-]|[]]]]; reflexivity).
  assert (T : MethodsModel.trunc (MethodsModel.of_int 2 * MethodsModel.half mq) = mq) by (cbn [In] in HN; destruct HN as [[= <- <-]|[[= <- <-]|[[= <- <-]|[]]]]; reflexivity).
  rewrite L. cbn [bind]. rewrite T, half_eqb. cbn [MethodsModel.affine_of bind]. eexists. split; [reflexivity|].
  cbn [In] in HN; destruct HN as [[= <- <-]|[[= <- <-]|[[= <- <-]|[]]]]; (destruct (n =? _)%Z eqn:X; unfold class_queries; cbn [String.eqb Ascii.eqb Bool.eqb]; rewrite X; reflexivity).
Qed.
Lemma ST_queries cls st n a : In (cls, st) [("ST1_VAS", 3%Z); ("ST2_VAS", 5%Z)] ->
  exists qs, MethodsModel.ST_update cls (MethodsModel.half n) (Some a) = Ok (qs, a) /\ map as_query qs = class_queries cls n.
Proof.
  intros HN. unfold MethodsModel.ST_update.
  assert (L : MethodsModel.lookup String.eqb MethodsModel.ST_p_symmetry cls = Ok (MethodsModel.half st)) by (cbn [In] in HN; destruct HN as [[= <- <-]|[[= <- <-]|[]]]; reflexivity).
  rewrite L. cbn [bind].
  assert (D : (MethodsModel.half st * MethodsModel.half st - (MethodsModel.half st - 1) * (MethodsModel.half st - 1))%Qc = Qc_of_Z (st - 1)).
  { cbn [In] in HN; destruct HN as [[= <- <-]|[[= <- <-]|[]]]; apply Qc_is_canon; reflexivity. }
  rewrite D. cbn [MethodsModel.affine_of bind]. eexists. split; [reflexivity|].
  assert (O : (- Qc_of_Z (st - 1))%Qc = Qc_of_Z (1 - st)) by (cbn [In] in HN; destruct HN as [[= <- <-]|[[= <- <-]|[]]]; apply Qc_is_canon; reflexivity).
  rewrite O. cbn [In] in HN; destruct HN as [[= <- <-]|[[= <- <-]|[]]]; reflexivity.
Qed.
Lemma update_back cls m : In cls fixed_2D -> readable cls m -> update cls (with_dims (map (reset true) (dims m)) m) = Ok m.
Proof.
  intros HC [Rn Rf Rd Rc Rt Ra _ Rq _]. assert (FX : existsb (String.eqb cls) fixed_2D = true) by (apply existsb_exists; exists cls; split; [exact HC|apply String.eqb_refl]).
  rewrite FX in *. assert (FQ : In cls fixed_queries) by (apply in_or_app; now right). specialize (Ra HC). specialize (Rq FQ).
  destruct (affine m) as [a0|] eqn:A; [clear Ra|congruence]. destruct Rf as (Fc & _ & _ & _).
  destruct (channels m) as [|c cr] eqn:C; [congruence|]. inversion Fc as [|? ? (n & In_n) _]; subst. specialize (Rq c cr n eq_refl In_n).
  assert (SP : first_spin (with_dims (map (reset true) (dims m)) m) = Ok (MethodsModel.half n)).
  { unfold first_spin, with_dims. cbn [channels]. rewrite C. destruct (isotope_spin c n In_n) as [_ T]. now rewrite T. }
  assert (NM : m_name (with_dims (map (reset true) (dims m)) m) = Some cls) by exact Rn.
  assert (AF : option_map elements (affine (with_dims (map (reset true) (dims m)) m)) = Some (elements a0)) by (unfold with_dims; cbn [affine]; now rewrite A).
  assert (CASES : cls = "SSB2D" \/ (exists st, In (cls, st) [("ST1_VAS", 3%Z); ("ST2_VAS", 5%Z)]) \/ exists mq, In (cls, mq) [("ThreeQ_VAS", 3%Z); ("FiveQ_VAS", 5%Z); ("SevenQ_VAS", 7%Z)]).
  { cbn in HC. repeat (destruct HC as [<-|HC]; [cbn; eauto 12|]). destruct HC. }
  destruct CASES as [->|[[st HS]|[mq HM]]].
  - unfold update. rewrite String.eqb_refl, AF. cbn [MethodsModel.SSB2D_update].
    apply (apply_back m _ a0); [exact Rq|exact A|exact Rt].
  - destruct (ST_queries cls st n (elements a0) HS) as (qs & U & Q). unfold update. rewrite NM, AF. rewrite <- Q in Rq.
    assert (T : ST_text cls = class_text cls /\ String.eqb cls "SSB2D" = false /\ existsb (String.eqb cls) ["ST1_VAS"; "ST2_VAS"] = true /\
                MethodsModel.lookup String.eqb MethodsModel.ST_p_symmetry cls = Ok (MethodsModel.half st)) by (cbn [In] in HS; destruct HS as [[= <- <-]|[[= <- <-]|[]]]; repeat split).
    destruct T as (-> & -> & -> & ->). cbn [bind]. rewrite SP. cbn [bind]. rewrite U. cbn [bind]. apply (apply_back m _ a0); assumption.
  - destruct (MQ_queries cls mq n (elements a0) HM) as (qs & U & Q). unfold update. rewrite NM, AF. rewrite <- Q in Rq.
    assert (T : MQ_text cls = class_text cls /\ String.eqb cls "SSB2D" = false /\ existsb (String.eqb cls) ["ST1_VAS"; "ST2_VAS"] = false /\
                MethodsModel.lookup String.eqb MethodsModel.MQ_p_symmetry cls = Ok (MethodsModel.half mq)) by (cbn [In] in HM; destruct HM as [[= <- <-]|[[= <- <-]|[[= <- <-]|[]]]]; repeat split).
    destruct T as (-> & -> & -> & ->). cbn [bind]. rewrite SP. cbn [bind]. rewrite U. cbn [bind]. apply (apply_back m _ a0); assumption.
Qed.

Lemma entry_name m e0 dd d n : method_entries m e0 dd d -> m_name m = Some n -> dict_lookup d "name" = Some (JStr n).
Proof. intros [_ L] N. rewrite L, N. reflexivity. Qed.
Lemma expand_entries m e0 dd d zs : method_entries m e0 dd d -> mapM (expand_dim (shared_entries e0)) dd = Ok (map JDict zs) ->
  exists d2, expand d = Ok d2 /\ forall k, dict_lookup d2 k = if existsb (String.eqb k) (map fst (shared_entries e0)) then None
    else if String.eqb "spectral_dimensions" k then Some (JList (map JDict zs)) else dict_lookup d k.
Proof.
  intros [_ L] EX. assert (LD : dict_lookup d "spectral_dimensions" = Some (JList dd)) by (rewrite L; reflexivity).
  unfold expand. rewrite LD. cbn [as_list bind].
  assert (GL : globals_of d = shared_entries e0) by (unfold globals_of, list_g; cbn [fold_left]; rewrite !L; reflexivity).
  rewrite GL, EX. cbn [bind]. eexists. split; [reflexivity|]. intros k. rewrite pop_all, lookup_set. reflexivity.
Qed.
Lemma read_2D cls m e0 : In cls fixed_2D -> readable cls m -> first_event m e0 -> exists d, json_method m = Ok d /\ dict_lookup d "name" = Some (JStr cls) /\ parse_named cls d = Ok m.
Proof.
  intros HC R HE. pose proof R as [Rn (Fc & Fd & Fe & Fa) Rd Rc Rt Ra Re Rq Rr].
  assert (FQ : In cls fixed_queries) by (apply in_or_app; now right).
  assert (NM : true = match m_name m with Some n => existsb (String.eqb n) NAMED_METHODS | None => false end).
  { rewrite Rn. cbn in HC. repeat (destruct HC as [<-|HC]; [reflexivity|]). destruct HC. }
  destruct (json_shape m e0 true Fd HE NM) as (d & dd & J & ME & F2). exists d. split; [exact J|]. split; [exact (entry_name m e0 dd d cls ME Rn)|].
  assert (X : exists zs, mapM (expand_dim (shared_entries e0)) dd = Ok (map JDict zs) /\ mapM parse_dim zs = Ok (map (reset true) (dims m))).
  { specialize (Re FQ e0). assert (Re' : forall x, In x (dims m) -> Forall (plain_event e0) (events x) -> length (events x) = 1%nat) by auto. clear - F2 Fd Fe Re'.
    induction F2 as [|x v l r S F IH]; [exists []; split; reflexivity|]. inversion Fd as [|? ? G1 G2]; subst. inversion Fe as [|? ? E1 E2]; subst.
    destruct (read_dim_shape true e0 x v G1 E1 (fun _ => Re' x (or_introl eq_refl)) S) as (z & X & P). destruct (IH G2 E2) as (zs & E & Q); [intros y Hy; apply Re'; now right|].
    exists (z :: zs). cbn [mapM map]. rewrite X. cbn [bind]. rewrite E, P. cbn [bind]. rewrite Q. split; reflexivity. }
  destruct X as (zs & EX & PZ). destruct (expand_entries m e0 dd d zs ME EX) as (d2 & E2 & L2).
  assert (T : template_of cls = None) by (cbn in HC; repeat (destruct HC as [<-|HC]; [reflexivity|]); destruct HC).
  destruct ME as [_ L]. unfold parse_named. rewrite T. replace (dict_lookup d "spectral_dimensions") with (Some (JList dd)) by (rewrite L; reflexivity).
  rewrite E2. cbn [bind].
  assert (LP : list_parse parse_dim d2 "spectral_dimensions" = Ok (Some (map (reset true) (dims m)))).
  { unfold list_parse. rewrite L2. cbn [shared_entries map fst existsb String.eqb Ascii.eqb Bool.eqb orb]. rewrite mapM_map. exact (f_equal (fun r => bind r (fun r => Ok (Some r))) PZ). }
  rewrite LP. cbn [bind]. rewrite no_units by (rewrite L2, L; reflexivity). cbn [bind]. unfold new_objects. rewrite map_length, Rd.
  assert (OD : existsb (String.eqb cls) one_dimensional = false) by (cbn in HC; repeat (destruct HC as [<-|HC]; [reflexivity|]); destruct HC).
  rewrite OD. cbn [Nat.eqb negb].
  set (d3 := dict_pop d2 "spectral_dimensions").
  assert (L3 : forall k, dict_lookup d3 k = if String.eqb k "spectral_dimensions" then None else dict_lookup d2 k) by (intros k; unfold d3; apply lookup_pop).
  assert (W : with_name cls d3 = d3).
  { unfold with_name, has_key. replace (dict_lookup d3 "name") with (Some (JStr cls)); [reflexivity|]. rewrite L3, L2, L, Rn. reflexivity. }
  rewrite W. rewrite (make_back d3 m (map (reset true) (dims m))).
  - cbn [bind]. now apply update_back.
  - exact Fc.
  - rewrite map_length. exact Fa.
  - apply opt_str_any. rewrite L3, L2, L. destruct (m_name m); reflexivity.
  - apply opt_str_any. rewrite L3, L2, L. destruct (m_label m); reflexivity.
  - apply opt_str_any. rewrite L3, L2, L. destruct (m_description m); reflexivity.
  - rewrite L3, L2, L. reflexivity.
  - left. rewrite L3, L2, L. destruct (affine m) as [[?|?]|]; reflexivity.
  - apply opt_dict_any. rewrite L3, L2, L. destruct (simulation m); reflexivity.
  - apply opt_dict_any. rewrite L3, L2, L. destruct (experiment m); reflexivity.
Qed.

(** ** The classes made of templates *)
Lemma lookup_update a b k : dict_lookup (dict_update a b) k = match dict_lookup b k with Some v => Some v | None => dict_lookup a k end.
Proof.
  unfold dict_update. assert (A : forall (x y : jdict), dict_lookup (x ++ y) k = match dict_lookup x k with Some v => Some v | None => dict_lookup y k end).
  { intros x y. induction x as [|[p v] x IH]; [reflexivity|]. cbn [app]. rewrite !lookup_cons. destruct (String.eqb p k); [reflexivity|exact IH]. }
  rewrite A. destruct (dict_lookup b k) eqn:B; [reflexivity|].
  induction a as [|[p v] a IH]; [reflexivity|]. cbn [filter fst]. rewrite lookup_cons. destruct (String.eqb_spec p k) as [->|N].
  - unfold has_key. rewrite B. cbn [negb]. now rewrite lookup_cons, String.eqb_refl.
  - destruct (negb (has_key b p)); [rewrite lookup_cons; destruct (String.eqb_spec p k); [contradiction|exact IH]|exact IH].
Qed.
Lemma lookup_fix d k : dict_lookup (map fix_string d) k = option_map (fun v => snd (fix_string (k, v))) (dict_lookup d k).
Proof.
  induction d as [|[p v] d IH]; [reflexivity|]. cbn [map].
  assert (F : fst (fix_string (p, v)) = p) by (unfold fix_string; cbn [fst snd]; destruct (dict_lookup _ p); [destruct v|]; reflexivity).
  destruct (fix_string (p, v)) as [p' v'] eqn:FS. cbn [fst] in F. subst p'. rewrite !lookup_cons. destruct (String.eqb_spec p k) as [->|]; [|exact IH]. cbn [option_map]. now rewrite FS.
Qed.
Definition user_of (user : option jdict) : jdict := match user with Some u => u | None => [] end.
Lemma lookup_gen globals kwargs te user k : dict_lookup (gen_one globals kwargs true te user) k =
  option_map (fun v => snd (fix_string (k, v)))
    (match dict_lookup (user_of user) k with Some v => Some v | None =>
     match dict_lookup kwargs k with Some v => Some v | None =>
     match dict_lookup globals k with Some v => Some v | None => dict_lookup te k end end end).
Proof.
  unfold gen_one. rewrite lookup_fix. f_equal. rewrite !lookup_update. destruct user as [u|]; cbn [user_of].
  - rewrite lookup_update. destruct (dict_lookup u k); [reflexivity|]. destruct (dict_lookup kwargs k); [reflexivity|]. now destruct (dict_lookup globals k).
  - change (dict_lookup [] k) with (@None jval). cbv iota. destruct (dict_lookup kwargs k); [reflexivity|]. now destruct (dict_lookup globals k).
Qed.
Lemma gen_reads named e0 e user kwargs globals te :
  good_event e -> ev_shape named e0 e (user_of user) ->
  (forall k v, dict_lookup (shared_entries e0) k = Some v -> dict_lookup kwargs k = Some v) ->
  (forall k, In k ["fraction"; "freq_contrib"; "transition_query"; "property_units"] -> dict_lookup kwargs k = None) ->
  (forall k, In k ["fraction"; "freq_contrib"; "property_units"] -> dict_lookup globals k = None) ->
  (dict_lookup te "fraction" = None \/ dict_lookup te "fraction" = Some (JNum 1)) ->
  (dict_lookup te "freq_contrib" = None \/ dict_lookup te "freq_contrib" = Some (JList (map JStr freq_list_all))) -> dict_lookup te "property_units" = None ->
  (named = true -> exists qd, (match dict_lookup globals "transition_query" with Some v => Some v | None => dict_lookup te "transition_query" end) = Some (JDict qd) /\
     make_query qd = Ok (transition_query e)) ->
  event_reads (gen_one globals kwargs true te user) e.
Proof.
  intros G S KS KN GN T1 T5 T7 TQ. pose proof (event_json e G) as (L1 & L2 & L3 & L4 & L5 & L6 & L7).
  pose proof (shape_shared named e0 e _ "magnetic_flux_density" _ _ S eq_refl L2) as S2.
  pose proof (shape_shared named e0 e _ "rotor_frequency" _ _ S eq_refl L3) as S3.
  pose proof (shape_shared named e0 e _ "rotor_angle" _ _ S eq_refl L4) as S4.
  pose proof (shape_query named e0 e _ S) as S6. rewrite L6 in S6.
  pose proof (shape_other named e0 e _ "fraction" S eq_refl ltac:(discriminate)) as S1. rewrite L1 in S1.
  pose proof (shape_other named e0 e _ "freq_contrib" S eq_refl ltac:(discriminate)) as S5. rewrite L5 in S5.
  pose proof (shape_other named e0 e _ "property_units" S eq_refl ltac:(discriminate)) as S7. rewrite L7 in S7.
  unfold event_reads. rewrite !lookup_gen.
  rewrite (KN "fraction"), (KN "freq_contrib"), (KN "transition_query"), (KN "property_units") by (cbn; tauto).
  rewrite (GN "fraction"), (GN "freq_contrib"), (GN "property_units") by (cbn; tauto).
  rewrite (KS "magnetic_flux_density" _ eq_refl), (KS "rotor_frequency" _ eq_refl), (KS "rotor_angle" _ eq_refl).
  split; [|split; [|split; [|split; [|split; [|split]]]]].
  - rewrite S1. destruct (Qc_eq_bool (fraction e) 1) eqn:X; [|left; reflexivity]. apply Qc_eqb_iff in X. destruct T1 as [->| ->]; [right; split; [reflexivity|exact X]|left; rewrite X; reflexivity].
  - destruct (dict_lookup (user_of user) "magnetic_flux_density") as [y|]; [subst y|rewrite S2]; reflexivity.
  - destruct (dict_lookup (user_of user) "rotor_frequency") as [y|]; [subst y|rewrite S3]; reflexivity.
  - destruct (dict_lookup (user_of user) "rotor_angle") as [y|]; [subst y|rewrite S4]; reflexivity.
  - rewrite S5. destruct (strings_eqb (freq_contrib e) freq_list_all) eqn:X; [|left; reflexivity]. apply strings_eqb_iff in X. rewrite X. destruct T5 as [->| ->]; [right; split; reflexivity|left; reflexivity].
  - left. rewrite S6. destruct named.
    + destruct (TQ eq_refl) as (qd & Q1 & Q2). exists qd. rewrite Q1. split; [reflexivity|exact Q2].
    + eexists. split; [reflexivity|]. apply query_round. apply G.
  - rewrite S7, T7. reflexivity.
Qed.

(** The printed events are not changed by the preparation of queries. *)
Lemma set_same (d : jdict) k v : dict_lookup d k = Some v -> dict_set d k v = d.
Proof.
  induction d as [|[p w] d IH]; [discriminate|]. rewrite lookup_cons. cbn [dict_set]. destruct (String.eqb_spec p k) as [->|N]; [now intros [= ->]|]. intros H. now rewrite IH.
Qed.
Lemma parse_events_same named e0 e ev : good_event e -> ev_shape named e0 e ev -> parse_events ev = Ok ev.
Proof.
  intros G S. pose proof (event_json e G) as (_ & _ & _ & _ & _ & L6 & _). pose proof (shape_query named e0 e ev S) as Q. rewrite L6 in Q. unfold parse_events. rewrite Q.
  destruct named; [reflexivity|]. cbn [as_dict bind].
  assert (NP : forall k v, dict_lookup (json_query (transition_query e)) k = Some v -> In k ["P"; "D"] -> parse_transition_query v = v).
  { destruct (transition_query e) as [p d f t]. intros k v H I. destruct p, d, f, t; cbn in I; destruct I as [<-|[<-|[]]]; cbn in H; try discriminate; injection H as <-; reflexivity. }
  assert (SP : match dict_lookup (json_query (transition_query e)) "P" with
               | Some p => dict_set (json_query (transition_query e)) "P" (parse_transition_query p) | None => json_query (transition_query e) end = json_query (transition_query e)).
  { destruct (dict_lookup (json_query (transition_query e)) "P") as [p|] eqn:E; [|reflexivity]. rewrite (NP "P" p E) by (cbn; tauto). now apply set_same. }
  rewrite SP.
  assert (SD : match dict_lookup (json_query (transition_query e)) "D" with
               | Some p => dict_set (json_query (transition_query e)) "D" (parse_transition_query p) | None => json_query (transition_query e) end = json_query (transition_query e)).
  { destruct (dict_lookup (json_query (transition_query e)) "D") as [p|] eqn:E; [|reflexivity]. rewrite (NP "D" p E) by (cbn; tauto). now apply set_same. }
  rewrite SD. now rewrite set_same.
Qed.
(** The loop over the events of a template with one event per event given. *)
Lemma gen_loop_some globals kwargs parse : forall tem l pre, length tem = length l ->
  gen_loop globals kwargs parse (Some (pre ++ l)) tem (length pre) = Ok (map (fun eu => gen_one globals kwargs parse (fst eu) (Some (snd eu))) (combine tem l)).
Proof.
  induction tem as [|e tem IH]; intros [|u l] pre H; try discriminate; [reflexivity|]. cbn [gen_loop combine map fst snd].
  rewrite nth_error_app2 by lia. rewrite Nat.sub_diag. cbn [nth_error bind]. specialize (IH l (pre ++ [u])). rewrite <- app_assoc in IH. rewrite app_length in IH. cbn [length app] in IH.
  rewrite Nat.add_1_r in IH. rewrite IH by (cbn in H; lia). reflexivity.
Qed.
(** One dimension of a template with one event. *)
Definition template_ok (globals te : jdict) : Prop :=
  (forall k, In k ["fraction"; "freq_contrib"; "property_units"] -> dict_lookup globals k = None /\ dict_lookup te k = None).
Lemma default_reads named e0 e user kwargs globals : good_event e -> ev_shape named e0 e (user_of user) ->
  (forall k v, dict_lookup (shared_entries e0) k = Some v -> dict_lookup kwargs k = Some v) ->
  (forall k, In k ["fraction"; "freq_contrib"; "transition_query"; "property_units"] -> dict_lookup kwargs k = None) ->
  (forall k, In k ["fraction"; "freq_contrib"; "property_units"] -> dict_lookup globals k = None) ->
  (named = true -> dict_lookup globals "transition_query" = None /\ transition_query e = plain_query) ->
  event_reads (gen_one globals kwargs true event_default user) e.
Proof.
  intros G S K1 K2 K3 Q. apply (gen_reads named e0); auto; try (right; reflexivity). intros N. destruct (Q N) as [Q1 ->]. rewrite Q1. eexists. split; [reflexivity|]. reflexivity.
Qed.
Lemma read_template_dim named e0 x v kwargs globals te q : good_dim x -> events x <> [] ->
  (named = true -> Forall (plain_event e0) (events x) -> length (events x) = 1%nat) -> dim_shape named e0 x v ->
  (forall k w, dict_lookup (shared_entries e0) k = Some w -> dict_lookup kwargs k = Some w) ->
  (forall k, In k ["fraction"; "freq_contrib"; "transition_query"; "property_units"] -> dict_lookup kwargs k = None) -> template_ok globals te ->
  (named = true -> dict_lookup globals "transition_query" = None /\ map transition_query (events x) = q :: repeat plain_query (length (events x) - 1) /\
     exists qd, dict_lookup te "transition_query" = Some (JDict qd) /\ make_query qd = Ok q) ->
  exists y dim evs out, v = JDict y /\ y <> [] /\ given_events y = Ok evs /\
    match evs with None => Ok (y, None) | Some l => let* l := mapM parse_events l in Ok (dict_pop y "events", Some l) end = Ok (dim, evs) /\
    gen_event [te] evs globals kwargs true = Ok out /\ exists z, expand_dim [] (JDict (dict_update dim [("events", JList (map JDict out))])) = Ok (JDict z) /\ parse_dim z = Ok x.
Proof.
  intros (Gc & Gw & Gl & Gd & Ge & _) NE P (y & evs & a & b & c & -> & Ha & Hb & Hc & U & D & F2 & EV & NY) K1 K2 TO Q.
  assert (TG : forall k, In k ["fraction"; "freq_contrib"; "property_units"] -> dict_lookup globals k = None) by (intros k Hk; now apply TO).
  (* the rest is the same for events given and events left out *)
  assert (FIN : forall dim out, Forall2 (fun e g => event_reads g e) (events x) out -> dim_entries dim x a b c ->
    exists z, expand_dim [] (JDict (dict_update dim [("events", JList (map JDict out))])) = Ok (JDict z) /\ parse_dim z = Ok x).
  { intros dim out F D'. assert (LE : dict_lookup (dict_update dim [("events", JList (map JDict out))]) "events" = Some (JList (map JDict out))) by (rewrite lookup_update; reflexivity).
    exists (dict_set (dict_update dim [("events", JList (map JDict out))]) "events" (JList (map JDict out))). split.
    - unfold expand_dim. cbn [as_dict bind]. rewrite LE. cbn [as_list bind]. rewrite mapM_map. cbn [as_dict bind fill_event fold_left].
      rewrite (BaseProofs.mapM_ok _ (fun ev => JDict ev)) by reflexivity. reflexivity.
    - apply (dim_read _ x a b c); auto.
      + destruct D' as (D1 & D2 & D3 & D4 & D5 & D6 & D7). unfold dim_entries. rewrite !lookup_set, !lookup_update. cbn [dict_lookup find fst snd String.eqb Ascii.eqb Bool.eqb]. auto 10.
      + unfold list_parse. rewrite lookup_set, String.eqb_refl. rewrite mapM_map.
        assert (R : mapM parse_event out = Ok (events x)).
        { clear - F Ge. induction F as [|e g l r S F IH]; [reflexivity|]. inversion Ge as [|? ? G1 G2]; subst. cbn [mapM]. rewrite (event_read' g e); [|destruct G1 as (A1 & A2 & A3 & A4 & A5 & A6 & A7); repeat split; assumption|exact S].
          cbn [bind]. now rewrite (IH G2). }
        exact (f_equal (fun r => bind r (fun r => Ok (Some r))) R). }
  destruct (events x) as [|e l] eqn:EVX; [congruence|]. inversion F2 as [|? ev ? evr S1 F2']; subst. inversion Ge as [|? ? G1 G2]; subst.
  assert (R1 : forall user, ev_shape named e0 e (user_of user) -> event_reads (gen_one globals kwargs true te user) e).
  { intros user S. apply (gen_reads named e0); auto.
    - left. apply (TO "fraction"). cbn. tauto.
    - left. apply (TO "freq_contrib"). cbn. tauto.
    - apply (TO "property_units"). cbn. tauto.
    - intros N. destruct (Q N) as (Q1 & Q2 & qd & Q3 & Q4). exists qd. rewrite Q1. split; [exact Q3|]. rewrite Q4. cbn [map] in Q2. congruence. }
  destruct EV as [EV|[EV X]].
  - exists y, (dict_pop y "events"), (Some (ev :: evr)).
    assert (GL : gen_event [te] (Some (ev :: evr)) globals kwargs true = Ok (map (fun eu => gen_one globals kwargs true (fst eu) (Some (snd eu))) (combine (te :: repeat event_default (length evr)) (ev :: evr)))).
    { unfold gen_event, fill_missing. cbn [length app]. rewrite Nat.sub_succ, Nat.sub_0_r.
      apply (gen_loop_some globals kwargs true (te :: repeat event_default (length evr)) (ev :: evr) []). cbn [length]. now rewrite repeat_length. }
    eexists. split; [reflexivity|]. split; [exact NY|]. split; [|split; [|split; [exact GL|]]].
    + unfold given_events. rewrite EV. cbn [as_list bind]. rewrite mapM_map. cbn [as_dict]. rewrite (BaseProofs.mapM_ok _ (fun ev => ev)) by reflexivity. now rewrite map_id.
    + assert (PE : mapM parse_events (ev :: evr) = Ok (ev :: evr)).
      { clear - F2 Ge. induction F2 as [|e' ev' l' r' S F IH]; [reflexivity|]. inversion Ge as [|? ? G1 G2]; subst. cbn [mapM]. rewrite (parse_events_same named e0 e' ev' G1 S). cbn [bind]. now rewrite (IH G2). }
      rewrite PE. reflexivity.
    + apply FIN.
      * cbn [combine map fst snd]. constructor; [now apply R1|].
        assert (Q' : named = true -> dict_lookup globals "transition_query" = None /\ map transition_query l = repeat plain_query (length l)).
        { intros N. destruct (Q N) as (Q1 & Q2 & _). split; [exact Q1|]. cbn [map length] in Q2. rewrite Nat.sub_succ, Nat.sub_0_r in Q2. now injection Q2. }
        clear - F2' G2 Q' K1 K2 TG. induction F2' as [|e' ev' l' r' S F IH]; [constructor|]. inversion G2 as [|? ? G3 G4]; subst. cbn [length repeat combine map fst snd]. constructor.
        -- apply (default_reads named e0); auto. intros N. destruct (Q' N) as [A B]. split; [exact A|]. cbn [map length repeat] in B. now injection B.
        -- apply IH; [exact G4|]. intros N. destruct (Q' N) as [A B]. split; [exact A|]. cbn [map length repeat] in B. now injection B.
      * unfold dim_entries in *. rewrite !lookup_pop. cbn [String.eqb Ascii.eqb Bool.eqb]. exact D.
  - destruct (empties_plain named e0 (e :: l) Ge) as [PL N]; [rewrite <- X; exact F2|]. specialize (P (N ltac:(discriminate)) PL). destruct l; [|discriminate P]. cbn [length repeat] in X. injection X as -> ->.
    exists y, y, None. eexists. split; [reflexivity|]. split; [exact NY|]. split; [unfold given_events; now rewrite EV|]. split; [reflexivity|]. split; [reflexivity|].
    apply FIN; [|exact D]. constructor; [|constructor]. apply R1. exact S1.
Qed.

Definition dim_dict (x : jdict * list jdict) : jval := JDict (dict_update (fst x) [("events", JList (map JDict (snd x)))]).
Lemma read_template_dims named e0 kwargs globals te q ds dd : Forall good_dim ds -> Forall (fun x => events x <> []) ds ->
  (forall x, In x ds -> named = true -> Forall (plain_event e0) (events x) -> length (events x) = 1%nat) -> Forall2 (dim_shape named e0) ds dd ->
  (forall k w, dict_lookup (shared_entries e0) k = Some w -> dict_lookup kwargs k = Some w) ->
  (forall k, In k ["fraction"; "freq_contrib"; "transition_query"; "property_units"] -> dict_lookup kwargs k = None) -> template_ok globals te ->
  (forall x, In x ds -> named = true -> dict_lookup globals "transition_query" = None /\ map transition_query (events x) = q :: repeat plain_query (length (events x) - 1) /\
     exists qd, dict_lookup te "transition_query" = Some (JDict qd) /\ make_query qd = Ok q) ->
  exists ys pd out zs, mapM as_dict dd = Ok ys /\ Forall (fun y => y <> []) ys /\ length pd = length ds /\
    mapM (fun dim => let* evs := given_events dim in
           match evs with None => Ok (dim, None) | Some l => let* l := mapM parse_events l in Ok (dict_pop dim "events", Some l) end) ys = Ok pd /\
    gen_dims (repeat [te] (length ds)) pd globals kwargs true = Ok out /\ mapM (expand_dim []) (map dim_dict out) = Ok (map JDict zs) /\ mapM parse_dim zs = Ok ds.
Proof.
  intros G NE P F2 K1 K2 TO Q. induction F2 as [|x v l r S F IH].
  - exists [], [], [], []. repeat split; constructor.
  - inversion G as [|? ? G1 G2]; subst. inversion NE as [|? ? E1 E2]; subst.
    destruct (read_template_dim named e0 x v kwargs globals te q G1 E1 (P x (or_introl eq_refl)) S K1 K2 TO (Q x (or_introl eq_refl))) as (y & dim & evs & out1 & -> & NY & GE & PD & GO & z & EX & PZ).
    destruct (IH G2 E2 (fun x H => P x (or_intror H)) (fun x H => Q x (or_intror H))) as (ys & pd & out & zs & M & NYS & LP & PDS & GOS & EXS & PZS).
    exists (y :: ys), ((dim, evs) :: pd), ((dim, out1) :: out), (z :: zs).
    cbn [mapM as_dict bind length repeat gen_dims map]. rewrite M. cbn [bind].
    rewrite PDS, GO. cbn [bind]. rewrite GOS. cbn [bind]. unfold dim_dict at 1. cbn [fst snd]. rewrite EX. cbn [bind]. rewrite EXS, PZ. cbn [bind]. rewrite PZS. cbn [bind].
    split; [reflexivity|]. split; [now constructor|]. split; [now rewrite LP|]. split.
    { exact (f_equal (fun r => bind r (fun a => Ok (a :: pd))) (eq_trans (f_equal (fun r => bind r (fun evs => match evs with None => Ok (y, None)
        | Some l => let* l := mapM parse_events l in Ok (dict_pop y "events", Some l) end)) GE) PD)). }
    repeat (split; [reflexivity|]). reflexivity.
Qed.
(** What is used of the four templates. *)
Lemma rotor_common (d : jdict) : NoDup (map fst d) -> dict_lookup d "rotor_frequency" <> None -> dict_lookup d "transition_query" = None ->
  filter (fun k => has_key (t_globals Method2D) k) (map fst d) = ["rotor_frequency"].
Proof.
  induction d as [|[k v] d IH]; intros N H T; [exfalso; now apply H|]. cbn [map fst] in N. inversion N as [|? ? N1 N2]; subst. rewrite lookup_cons in H, T. cbn [map fst filter].
  destruct (String.eqb_spec k "rotor_frequency") as [->|NR].
  - cbn [t_globals Method2D has_key dict_lookup find fst String.eqb Ascii.eqb Bool.eqb]. f_equal. cbn [String.eqb Ascii.eqb Bool.eqb] in T. clear - N1 T.
    induction d as [|[k v] d IH]; [reflexivity|]. cbn [map fst filter]. rewrite lookup_cons in T. destruct (String.eqb_spec k "transition_query"); [discriminate|].
    cbn in N1. assert (k <> "rotor_frequency") by tauto. unfold has_key. cbn [t_globals Method2D]. rewrite !lookup_cons. destruct (String.eqb_spec "rotor_frequency" k); [congruence|]. destruct (String.eqb_spec "transition_query" k); [congruence|].
    apply IH; [tauto|exact T].
  - destruct (String.eqb_spec k "transition_query") as [|NT]; [discriminate|]. unfold has_key at 1. cbn [t_globals Method2D]. rewrite !lookup_cons.
    destruct (String.eqb_spec "rotor_frequency" k); [congruence|]. destruct (String.eqb_spec "transition_query" k); [congruence|]. now apply IH.
Qed.
Lemma no_common (d g : jdict) : (forall k, dict_lookup g k <> None -> dict_lookup d k = None) -> filter (fun k => has_key g k) (map fst d) = [].
Proof.
  intros H. assert (X : forall k, In k (map fst d) -> has_key g k = false).
  { intros k Hk. unfold has_key. destruct (dict_lookup g k) eqn:E; [|reflexivity]. exfalso. assert (dict_lookup d k = None) by (apply H; congruence). clear - Hk H0.
    induction d as [|[p v] d IH]; [destruct Hk|]. rewrite lookup_cons in H0. cbn in Hk. destruct (String.eqb_spec p k); [discriminate|]. destruct Hk; [contradiction|auto]. }
  induction (map fst d) as [|k l IH]; [reflexivity|]. cbn [filter]. rewrite X by now left. apply IH. intros; apply X; now right.
Qed.
Lemma read_template cls t m e0 : template_of cls = Some t -> readable cls m -> first_event m e0 -> exists d, json_method m = Ok d /\ dict_lookup d "name" = Some (JStr cls) /\ parse_named cls d = Ok m.
Proof.
  intros HT R HE. pose proof R as [Rn (Fc & Fd & Fe & Fa) Rd Rc Rt Ra Re Rq Rr].
  set (named := existsb (String.eqb cls) NAMED_METHODS).
  assert (HC : In t templates /\ cls = t_name t).
  { unfold template_of in HT. apply find_some in HT. destruct HT as [A B]. apply String.eqb_eq in B. auto. }
  assert (FQ : named = true -> In cls fixed_queries).
  { unfold named. destruct HC as [I ->]. cbn in I. intuition (subst t; cbn in *; auto; discriminate). }
  assert (NM : named = match m_name m with Some n => existsb (String.eqb n) NAMED_METHODS | None => false end) by (now rewrite Rn).
  destruct (json_shape m e0 named Fd HE NM) as (d & dd & J & ME & F2). exists d. split; [exact J|]. split; [exact (entry_name m e0 dd d cls ME Rn)|].
  destruct ME as [ND L]. set (kw := dict_pop d "spectral_dimensions").
  assert (LK : forall k, dict_lookup kw k = if String.eqb k "spectral_dimensions" then None else dict_lookup d k) by (intros k; unfold kw; apply lookup_pop).
  assert (CH : exists c n, channels m = [c] /\ In (c, n) isotope_data).
  { destruct HC as [I ->]. assert (X : length (channels m) = 1%nat) by (cbn in I; intuition (subst t; exact Rc)). destruct (channels m) as [|c [|]]; try discriminate. inversion Fc as [|? ? [n Hn] ?]; subst. eauto. }
  destruct CH as (c & n & CH & HN).
  assert (TE : exists te q, t_dims t = repeat [te] (length (dims m)) /\ template_ok (t_globals t) te /\ (forall x, In x (dims m) -> named = true ->
     dict_lookup (t_globals t) "transition_query" = None /\ map transition_query (events x) = q :: repeat plain_query (length (events x) - 1) /\
     exists qd, dict_lookup te "transition_query" = Some (JDict qd) /\ make_query qd = Ok q)).
  { rewrite Rd. destruct HC as [I EQ]. cbn in I. destruct I as [<-|[<-|[<-|[<-|[]]]]].
    - exists [("transition_query", JDict [("P", one_symmetry (-1))])], (mkQuery (Some (symmetry [(-1)%Z])) None None None). subst cls. split; [reflexivity|]. split.
      { intros k Hk. cbn in Hk. repeat (destruct Hk as [<-|Hk]; [split; reflexivity|]). destruct Hk. }
      intros x Hx _. split; [reflexivity|]. split; [|eexists; split; reflexivity]. specialize (Rq (FQ eq_refl) c [] n CH HN). cbn in Rq. inversion Rq as [|? ? ? ? A B]; subst. inversion B; subst. rewrite <- H in Hx. destruct Hx as [<-|[]]. exact A.
    - exists [("transition_query", JDict [("P", one_symmetry (-1)); ("D", one_symmetry 0)])], (selects (-1) [0%Z]). subst cls. split; [reflexivity|]. split.
      { intros k Hk. cbn in Hk. repeat (destruct Hk as [<-|Hk]; [split; reflexivity|]). destruct Hk. }
      intros x Hx _. split; [reflexivity|]. split; [|eexists; split; reflexivity]. specialize (Rq (FQ eq_refl) c [] n CH HN). cbn in Rq. inversion Rq as [|? ? ? ? A B]; subst. inversion B; subst. rewrite <- H in Hx. destruct Hx as [<-|[]]. exact A.
    - exists [], plain_query. subst cls. split; [reflexivity|]. split; [|intros x Hx N; discriminate N].
      intros k Hk. cbn in Hk. repeat (destruct Hk as [<-|Hk]; [split; reflexivity|]). destruct Hk.
    - exists [], plain_query. subst cls. split; [reflexivity|]. split; [|intros x Hx N; discriminate N].
      intros k Hk. cbn in Hk. repeat (destruct Hk as [<-|Hk]; [split; reflexivity|]). destruct Hk. }
  destruct TE as (te & q & TD & TO & TQ).
  destruct (read_template_dims named e0 kw (t_globals t) te q (dims m) dd) as (ys & pd & out & zs & M & NYS & LP & PDS & GOS & EXS & PZS); auto.
  { intros x Hx N. exact (Re (FQ N) e0 x HE Hx). }
  { intros k w H. rewrite LK. destruct (String.eqb_spec k "spectral_dimensions") as [->|]; [discriminate H|]. rewrite L. unfold shared_entries in H. rewrite !lookup_cons in H.
    destruct (String.eqb_spec "magnetic_flux_density" k) as [<-|]; [injection H as <-; reflexivity|]. destruct (String.eqb_spec "rotor_frequency" k) as [<-|]; [injection H as <-; reflexivity|].
    destruct (String.eqb_spec "rotor_angle" k) as [<-|]; [injection H as <-; reflexivity|]. discriminate H. }
  { intros k Hk. rewrite LK, L. cbn in Hk. repeat (destruct Hk as [<-|Hk]; [reflexivity|]). destruct Hk. }
  unfold parse_named. rewrite HT. unfold construct. replace (dict_lookup d "spectral_dimensions") with (Some (JList dd)) by (rewrite L; reflexivity). cbn [as_list bind].
  assert (DN : dims m <> []) by (destruct HE as (x & r & s & -> & _); discriminate).
  destruct dd as [|v0 dr]; [inversion F2; congruence|]. fold kw. rewrite M. cbn [bind].
  assert (PS : parse_spectral_dimensions ys (length (t_dims t)) = Ok pd).
  { unfold parse_spectral_dimensions. destruct ys as [|[|] [|]]; try exact PDS. inversion NYS; congruence. }
  rewrite PS. cbn [bind].
  assert (LC : dict_lookup kw "channels" = Some (JList (map JStr (channels m)))) by (rewrite LK, L; reflexivity).
  unfold prepare_method_structure. rewrite LC. cbn [as_list bind]. rewrite map_length, CH. cbn [length].
  assert (TC : t_channels t = 1%nat) by (destruct HC as [I _]; cbn in I; intuition (subst t; reflexivity)). rewrite TC. cbn [Nat.eqb bind].
  assert (CR : check_rotor_frequency kw (t_globals t) = Ok tt).
  { unfold check_rotor_frequency. destruct HC as [I EQ]. cbn in I. destruct I as [<-|[<-|[<-|[<-|[]]]]].
    - rewrite (no_common kw) by (intros k H; exfalso; now apply H). reflexivity.
    - rewrite (no_common kw) by (intros k H; exfalso; now apply H). reflexivity.
    - rewrite (no_common kw); [reflexivity|]. intros k H. cbn [Method1D t_globals] in H. rewrite lookup_cons in H. destruct (String.eqb "transition_query" k) eqn:E; [|exfalso; now apply H]. apply String.eqb_eq in E. subst k. rewrite LK, L. reflexivity.
    - rewrite (rotor_common kw); [| |rewrite LK, L; discriminate|rewrite LK, L; reflexivity].
      + rewrite LK, L. cbn [existsb orb String.eqb Ascii.eqb Bool.eqb shared_entries app]. rewrite !lookup_cons. cbn [String.eqb Ascii.eqb Bool.eqb]. rewrite (Rr EQ e0 HE). reflexivity.
      + unfold kw, dict_pop. now apply filter_nodup_fst. }
  rewrite CR. cbn [bind].
  match goal with |- context [Nat.ltb ?a ?b] => replace (Nat.ltb a b) with false by (symmetry; apply Nat.ltb_ge; rewrite TD, repeat_length; exact (Nat.eq_le_incl _ _ LP)) end.
  match goal with |- context [gen_dims ?a ?b ?c ?d ?e] => replace (gen_dims a b c d e) with (Ok out) by (rewrite TD; symmetry; exact GOS) end. cbn [bind].
  change (map (fun x => JDict (dict_update (fst x) [("events", JList (map JDict (snd x)))])) out) with (map dim_dict out).
  match goal with |- parse_method ?p = _ => set (pm := p) end.
  unfold parse_method. replace (dict_lookup pm "spectral_dimensions") with (Some (JList (map dim_dict out))) by reflexivity.
  unfold expand. replace (dict_lookup pm "spectral_dimensions") with (Some (JList (map dim_dict out))) by reflexivity. cbn [as_list bind].
  replace (globals_of pm) with (@nil (string * jval)) by reflexivity. rewrite EXS. cbn [bind map fold_left].
  set (pm2 := dict_set pm "spectral_dimensions" (JList (map JDict zs))).
  assert (LP2 : forall k, dict_lookup pm2 k = if String.eqb "spectral_dimensions" k then Some (JList (map JDict zs)) else dict_lookup pm k) by (intros k; unfold pm2; apply lookup_set).
  assert (LL : list_parse parse_dim pm2 "spectral_dimensions" = Ok (Some (dims m))).
  { unfold list_parse. rewrite LP2. cbn [String.eqb Ascii.eqb Bool.eqb]. rewrite mapM_map. exact (f_equal (fun r => bind r (fun r => Ok (Some r))) PZS). }
  rewrite LL. cbn [bind]. rewrite no_units by (rewrite LP2; reflexivity). cbn [bind].
  rewrite (make_back pm2 m (dims m)).
  - unfold with_dims. destruct m; reflexivity.
  - exact Fc.
  - exact Fa.
  - unfold opt_str. rewrite LP2. cbn [String.eqb Ascii.eqb Bool.eqb]. unfold pm. cbn [app dict_lookup find fst snd String.eqb Ascii.eqb Bool.eqb]. unfold or_default. rewrite LK, L, Rn. reflexivity.
  - unfold opt_str. rewrite LP2. cbn [String.eqb Ascii.eqb Bool.eqb]. unfold pm. cbn [app dict_lookup find fst snd String.eqb Ascii.eqb Bool.eqb]. unfold or_default. rewrite LK, L. destruct (m_label m); reflexivity.
  - unfold opt_str. rewrite LP2. cbn [String.eqb Ascii.eqb Bool.eqb]. unfold pm. cbn [app dict_lookup find fst snd String.eqb Ascii.eqb Bool.eqb]. unfold or_default. rewrite LK, L.
    assert (MD : m_description m <> None) by (destruct HC as [I ->]; cbn in I; intuition (subst t; auto)). destruct (m_description m); [reflexivity|congruence].
  - rewrite LP2. cbn [String.eqb Ascii.eqb Bool.eqb]. rewrite CH. reflexivity.
  - rewrite LP2. cbn [String.eqb Ascii.eqb Bool.eqb]. unfold pm. cbn [app dict_lookup find fst snd String.eqb Ascii.eqb Bool.eqb]. unfold or_default. rewrite LK, L. destruct (affine m) as [[?|?]|]; [left; reflexivity|left; reflexivity|right; split; reflexivity].
  - unfold opt_dict. rewrite LP2. cbn [String.eqb Ascii.eqb Bool.eqb]. unfold pm. cbn [app dict_lookup find fst snd String.eqb Ascii.eqb Bool.eqb]. unfold or_default. rewrite LK, L. destruct (simulation m); reflexivity.
  - unfold opt_dict. rewrite LP2. cbn [String.eqb Ascii.eqb Bool.eqb]. unfold pm. cbn [app dict_lookup find fst snd String.eqb Ascii.eqb Bool.eqb]. unfold or_default. rewrite LK, L. destruct (experiment m); reflexivity.
Qed.
(** All classes. *)
Lemma named_back cls m : In cls classes -> readable cls m -> exists d, json_method m = Ok d /\ parse_any_method parse_named d = Ok m.
Proof.
  intros HC R. pose proof R as [Rn (Fc & Fd & Fe & Fa) Rd Rc Rt Ra Re Rq Rr].
  assert (HE : exists e0, first_event m e0).
  { destruct (dims m) as [|x r] eqn:DM; [destruct (existsb (String.eqb cls) one_dimensional); discriminate Rd|]. inversion Fe as [|? ? E1 E2]; subst. destruct (events x) as [|e s] eqn:EX; [congruence|].
    exists e. exists x, r, s. auto. }
  destruct HE as [e0 HE].
  assert (X : exists d, json_method m = Ok d /\ dict_lookup d "name" = Some (JStr cls) /\ parse_named cls d = Ok m).
  { cbn in HC. repeat (destruct HC as [<-|HC]); try (eapply read_template; [reflexivity|exact R|exact HE]); try (eapply read_2D; [cbn; tauto|exact R|exact HE]). }
  destruct X as (d & J & N & P). exists d. split; [exact J|]. unfold parse_any_method. rewrite N.
  assert (MN : existsb (String.eqb cls) method_names = true) by (cbn in HC; repeat (destruct HC as [<-|HC]; [reflexivity|]); destruct HC). now rewrite MN.
Qed.

(** ** The methods that the classes make *)
Lemma lookup_gen_false globals kwargs te user k : dict_lookup (gen_one globals kwargs false te user) k =
    (match dict_lookup (user_of user) k with Some v => Some v | None =>
     match dict_lookup kwargs k with Some v => Some v | None =>
     match dict_lookup globals k with Some v => Some v | None => dict_lookup te k end end end).
Proof.
  unfold gen_one. rewrite !lookup_update. destruct user as [u|]; cbn [user_of].
  - rewrite lookup_update. destruct (dict_lookup u k); [reflexivity|]. destruct (dict_lookup kwargs k); [reflexivity|]. now destruct (dict_lookup globals k).
  - change (dict_lookup [] k) with (@None jval). cbv iota. destruct (dict_lookup kwargs k); [reflexivity|]. now destruct (dict_lookup globals k).
Qed.
Lemma gen_dims_inv globals kwargs p : forall tems ds out, gen_dims tems ds globals kwargs p = Ok out ->
  Forall2 (fun tem x => exists evs, In (fst x, evs) ds /\ gen_event tem evs globals kwargs p = Ok (snd x)) tems out.
Proof.
  induction tems as [|tem tr IH]; intros ds out H; [injection H as <-; constructor|]. cbn [gen_dims] in H. destruct ds as [|[dim evs] dr]; [discriminate|]. inv H. inv H. injection H as <-.
  constructor; [exists evs; split; [now left|exact E]|]. apply IH in E0. clear - E0. induction E0 as [|tem' x tr' out (e & I & G) F IH]; constructor; [|exact IH]. exists e. split; [now right|exact G].
Qed.
Lemma gen_loop_length globals kwargs p evs : forall tem j l, gen_loop globals kwargs p evs tem j = Ok l -> length l = length tem.
Proof. induction tem as [|e tem IH]; intros j l H; cbn [gen_loop] in H; [now injection H as <-|]. inv H. inv H. injection H as <-. cbn [length]. now rewrite (IH _ _ E0). Qed.
Lemma gen_event_none te globals kwargs p l : gen_event [te] None globals kwargs p = Ok l -> l = [gen_one globals kwargs p te None].
Proof. intros H. now injection H as <-. Qed.
Lemma mapM_length A B (f : A -> pyres B) l r : mapM f l = Ok r -> length r = length l.
Proof. revert r. induction l as [|x l IH]; intros r H; cbn [mapM] in H; [now injection H as <-|]. inv H. inv H. injection H as <-. cbn [length]. now rewrite (IH _ E0). Qed.
Lemma mapM_F2 A B (f : A -> pyres B) l r : mapM f l = Ok r -> Forall2 (fun x y => f x = Ok y) l r.
Proof. revert r. induction l as [|x l IH]; intros r H; cbn [mapM] in H; [injection H as <-; constructor|]. inv H. inv H. injection H as <-. constructor; auto. Qed.
Lemma make_dimension_inv x y : make_dimension x = Ok y -> dim_obtained y /\ Forall2 (fun d e => make_event d (default_units event_table) = Ok e) (snd x) (events y).
Proof.
  unfold make_dimension. intros H. inv H. apply mapM_F2 in E. assert (EV : events y = a) by (unfold make_dim in H; do 6 inv H; now injection H as <-). split.
  - right. exists (fst x), (Some a). split; [|exact H]. cbn. clear - E. induction E; constructor; auto. right. eauto.
  - now rewrite EV.
Qed.
(** What is known of any method made from a template, and of one whose dimensions give no events. *)
Definition made_from (t : template) (kw : jdict) (m : method) : Prop :=
  length (dims m) = length (t_dims t) /\ length (channels m) = 1%nat /\ Forall (fun c => exists n, In (c, n) isotope_data) (channels m) /\
  on (good_matrix (length (dims m))) (affine m) /\ Forall dim_obtained (dims m) /\ Forall (fun x => events x <> []) (dims m).
Lemma make_method_inv d ds m : make_method d (Some ds) = Ok m -> dims m = ds /\ Forall (fun c => exists n, In (c, n) isotope_data) (channels m) /\ on (good_matrix (length ds)) (affine m) /\
  (forall v l, dict_lookup d "channels" = Some v -> as_list v = Ok l -> length (channels m) = length l).
Proof.
  intros H. unfold make_method in H. do 7 inv H. injection H as <-. cbn [dims channels affine]. split; [reflexivity|]. split; [|split].
  - destruct (dict_lookup d "channels") as [[]|]; try discriminate; [|injection E2 as <-; constructor].
    clear - E2. revert a2 E2. induction l as [|x l IH]; intros r E; cbn [mapM] in E; [injection E as <-; constructor|]. inv E. inv E. injection E as <-. constructor; [|now apply IH].
    destruct x; try discriminate. apply format_ok in E0. destruct E0 as [_ KN]. apply known_in in KN. apply in_map_iff in KN. destruct KN as ((i & n) & X & HI). cbn in X. subst i. eauto.
  - destruct (dict_lookup d "affine_matrix") as [v|]; [|injection E3 as <-; exact I].
    assert (X : a3 = None \/ exists p q, as_array v = Ok p /\ check_affine (length ds) p = Ok q /\ a3 = Some q).
    { destruct v; try (left; congruence); right; inv E3; inv E3; injection E3 as <-; eauto. }
    destruct X as [->|(p & q & P1 & P2 & ->)]; [exact I|]. cbn. now apply (as_array_good _ _ _ _ P1).
  - intros v l V L. rewrite V in E2. destruct v; try discriminate. injection L as <-. now apply mapM_length in E2.
Qed.
Lemma construct_inv t kwargs m : In t templates -> construct t kwargs false = Ok m ->
  made_from t kwargs m /\
  exists te l ds out, let kw := dict_pop kwargs "spectral_dimensions" in Forall (fun x => x = [te]) (t_dims t) /\
    mapM as_dict (match dict_lookup kwargs "spectral_dimensions" with Some (JList l) => l | _ => [JDict []] end) = Ok l /\
    parse_spectral_dimensions l (length (t_dims t)) = Ok ds /\ check_rotor_frequency kw (t_globals t) = Ok tt /\
    gen_dims (t_dims t) ds (t_globals t) kw false = Ok out /\ Forall2 (fun x y => make_dimension x = Ok y) out (dims m).
Proof.
  intros HT H. unfold construct in H. apply bind_ok in H. destruct H as (l0 & E & H). destruct l0 as [|v0 vr]; [discriminate|].
  apply bind_ok in H. destruct H as (a0 & E0 & H). apply bind_ok in H. destruct H as (a1 & E1 & H). apply bind_ok in H. destruct H as (a2 & E2 & H). apply bind_ok in H. destruct H as ([] & E3 & H).
  destruct (Nat.ltb _ _); [discriminate|]. apply bind_ok in H. destruct H as (a4 & E4 & H). apply bind_ok in H. destruct H as (a5 & E5 & H).
  assert (TE : exists te, Forall (fun x => x = [te]) (t_dims t)) by (cbn in HT; destruct HT as [<-|[<-|[<-|[<-|[]]]]]; eexists; repeat constructor).
  destruct TE as [te TE]. destruct (make_method_inv _ _ _ H) as (MD & MC & MA & ML). apply mapM_F2 in E5. pose proof (gen_dims_inv _ _ _ _ _ _ E4) as GI.
  split.
  - unfold made_from. rewrite MD. split; [|split; [|split; [exact MC|split; [exact MA|split]]]].
    + rewrite <- (F2_length _ _ _ _ _ E5). symmetry. exact (F2_length _ _ _ _ _ GI).
    + assert (T1 : t_channels t = 1%nat) by (cbn in HT; intuition (subst t; reflexivity)). unfold prepare_method_structure in E2. rewrite T1 in E2.
      destruct (dict_lookup (dict_pop kwargs "spectral_dimensions") "channels") as [c|].
      * apply bind_ok in E2. destruct E2 as (cl & C1 & C2). destruct (Nat.eqb _ _) eqn:LN; [|discriminate]. apply Nat.eqb_eq in LN. injection C2 as <-. rewrite (ML c cl eq_refl C1). exact LN.
      * injection E2 as <-. rewrite (ML _ [JStr "1H"] eq_refl eq_refl). reflexivity.
    + clear - E5. induction E5; constructor; auto. now apply make_dimension_inv in H.
    + clear - E5 GI TE. revert a5 E5. induction GI as [|tem x tr r (evs & I & G) F IH]; intros ds E5; inversion E5 as [|? y ? ds' F1 F2]; subst; [constructor|]. inversion TE as [|? ? T1 T2]; subst. constructor; [|now apply IH].
      apply make_dimension_inv in F1. destruct F1 as [_ F1]. apply F2_length in F1. unfold gen_event in G. apply gen_loop_length in G.
      assert (length (fill_missing evs [te]) <> 0%nat) by (destruct evs; cbn; discriminate). intros X. rewrite X in F1. cbn in F1. lia.
  - exists te, a0, a1, a4. cbn zeta. split; [exact TE|]. split.
    + destruct (dict_lookup kwargs "spectral_dimensions") as [[]|]; cbn [as_list] in E; try discriminate E; inversion E; subst; exact E0.
    + split; [exact E1|]. split; [exact E3|]. split; [exact E4|]. rewrite MD. exact E5.
Qed.
Lemma no_events_made t te kwargs m : In t templates -> Forall (fun x => x = [te]) (t_dims t) -> construct t kwargs false = Ok m -> gives_no_events kwargs ->
  Forall (fun x => exists e, events x = [e] /\ make_event (gen_one (t_globals t) (dict_pop kwargs "spectral_dimensions") false te None) (default_units event_table) = Ok e) (dims m).
Proof.
  intros HT HTE H NG. destruct (construct_inv t kwargs m HT H) as (_ & te' & l & ds & out & TE & ML & PS & _ & GD & MD).
  assert (TT : t_dims t <> []) by (cbn in HT; intuition (subst t; discriminate)).
  assert (te' = te) by (destruct (t_dims t); [congruence|]; inversion TE; inversion HTE; congruence). subst te'. clear HTE.
  assert (NE : Forall (fun d => dict_lookup d "events" = None) l).
  { destruct (dict_lookup kwargs "spectral_dimensions") as [v|] eqn:SD; [|injection ML as <-; repeat constructor].
    destruct v as [|?|?|? ?|vl|?|?]; try (injection ML as <-; repeat constructor). specialize (NG vl SD). apply mapM_F2 in ML. clear - NG ML. induction ML as [|x y vl l' F1 F2 IH]; [constructor|].
    destruct x; try discriminate. injection F1 as <-. constructor; [apply NG; now left|apply IH; intros dim Hd; apply NG; now right]. }
  assert (NN : forall x evs, In (x, evs) ds -> evs = None).
  { intros x evs I. unfold parse_spectral_dimensions in PS. assert (X : (forall x evs, In (x, evs) ds -> evs = None) \/ mapM (fun dim => let* evs := given_events dim in
           match evs with None => Ok (dim, None) | Some l => let* l := mapM parse_events l in Ok (dict_pop dim "events", Some l) end) l = Ok ds).
    { destruct l as [|[|] [|]]; try (right; exact PS). left. injection PS as <-. intros y ev Hy. apply repeat_spec in Hy. congruence. }
    destruct X as [X|X]; [exact (X x evs I)|]. clear PS. apply mapM_F2 in X. clear - X NE I. induction X as [|d p l ds F1 F2 IH]; [destruct I|]. inversion NE as [|? ? N1 N2]; subst. destruct I as [->|I]; [|now apply IH].
    unfold given_events in F1. rewrite N1 in F1. cbn [bind] in F1. congruence. }
  pose proof (gen_dims_inv _ _ _ _ _ _ GD) as GI. clear - GI MD TE NN. revert MD. generalize (dims m). induction GI as [|tem x tr r (evs & I & G) F IH]; intros dm MD; inversion MD as [|? y ? ds' F1 F2]; subst; [constructor|].
  inversion TE as [|? ? T1 T2]; subst. constructor; [|now apply IH]. rewrite (NN _ _ I) in G. apply gen_event_none in G. destruct (make_dimension_inv _ _ F1) as [_ EV]. rewrite G in EV. inversion EV as [|? e ? er E1 E2 E3]; subst.
  inversion E2; subst. exists e. auto.
Qed.
(** The query of an event made from a dict. *)
Lemma made_query d e : make_event d (default_units event_table) = Ok e ->
  match dict_lookup d "transition_query" with None => transition_query e = default_query | Some v => exists x, v = JDict x /\ make_query x = Ok (transition_query e) end.
Proof.
  unfold make_event. intros H. do 6 inv H. injection H as <-. cbn [transition_query]. destruct (dict_lookup d "transition_query") as [[]|]; try discriminate; [eauto|congruence].
Qed.
Lemma made_rotor d e q u : dict_lookup d "rotor_frequency" = Some (JQty q u) -> make_event d (default_units event_table) = Ok e -> False.
Proof. intros L. unfold make_event, def_num. rewrite L. intros H. do 2 inv H. inv H. discriminate. Qed.

Lemma obtained_formed t kw m : made_from t kw m -> Forall clean_dim (dims m) -> well_formed m.
Proof.
  intros (_ & _ & C & A & D & E) CL. split; [exact C|]. split; [|split; assumption]. apply (Forall_and_impl _ _ _ _ _ D CL). apply dim_good.
Qed.
Lemma generic_made cls kwargs m : In cls ["Method1D"; "Method2D"] -> make_named cls kwargs = Ok m -> m_name m = Some cls -> m_description m <> None -> Forall clean_dim (dims m) ->
  (cls = "Method2D" -> forall e0, first_event m e0 -> rotor_frequency e0 = Qc_of_Z 1000000000000) -> readable cls m.
Proof.
  intros HC H N D CL R. assert (T : exists t, template_of cls = Some t /\ In t templates /\ length (t_dims t) = (if existsb (String.eqb cls) one_dimensional then 1 else 2)%nat /\
    existsb (String.eqb cls) fixed_2D = false /\ ~ In cls fixed_2D /\ ~ In cls fixed_queries).
  { destruct HC as [<-|[<-|[]]]; eexists; (split; [reflexivity|]; split; [cbn; tauto|]; split; [reflexivity|]; split; [reflexivity|]; split; cbn; intuition discriminate). }
  destruct T as (t & T1 & T2 & T3 & T4 & T5 & T6). unfold make_named in H. rewrite T1 in H. destruct (construct_inv t kwargs m T2 H) as [MF _].
  pose proof (obtained_formed t kwargs m MF CL) as WF. destruct MF as (M1 & M2 & _).
  constructor; try assumption; try (rewrite T4; assumption); try (intros X; contradiction). congruence.
Qed.
Lemma pop_other (d : jdict) k k' : k <> k' -> dict_lookup (dict_pop d k) k' = dict_lookup d k'.
Proof. intros N. rewrite lookup_pop. destruct (String.eqb_spec k' k); [congruence|reflexivity]. Qed.
Lemma Bloch_made cls kwargs m : In cls ["BlochDecaySpectrum"; "BlochDecayCTSpectrum"] -> make_named cls kwargs = Ok m -> m_name m = Some cls -> m_description m <> None -> texts m ->
  gives_no_events kwargs -> dict_lookup kwargs "transition_query" = None -> readable cls m.
Proof.
  intros HC H N D TX NG NQ.
  assert (T : exists t te q, template_of cls = Some t /\ In t templates /\ t_globals t = [] /\ Forall (fun x => x = [te]) (t_dims t) /\ length (t_dims t) = (if existsb (String.eqb cls) one_dimensional then 1 else 2)%nat /\
    existsb (String.eqb cls) fixed_2D = false /\ ~ In cls fixed_2D /\ (forall n, class_queries cls n = [q]) /\ q_P q <> None /\
    exists qd, dict_lookup te "transition_query" = Some (JDict qd) /\ make_query qd = Ok q).
  { destruct HC as [<-|[<-|[]]]; (do 3 eexists; split; [reflexivity|]; split; [cbn; tauto|]; split; [reflexivity|]; split; [constructor; [reflexivity|constructor]|]; split; [reflexivity|]; split; [reflexivity|];
      split; [cbn; intuition discriminate|]; split; [intros n; reflexivity|]; split; [discriminate|]; eexists; split; reflexivity). }
  destruct T as (t & te & q & T1 & T2 & TG & TE & T3 & T4 & T5 & T6 & T7 & qd & T8 & T9). unfold make_named in H. rewrite T1 in H. destruct (construct_inv t kwargs m T2 H) as [MF _].
  pose proof (no_events_made t te kwargs m T2 TE H NG) as NE.
  assert (Q : Forall (fun x => exists e, events x = [e] /\ transition_query e = q) (dims m)).
  { revert NE. apply Forall_impl. intros x (e & A & B). exists e. split; [exact A|]. apply made_query in B. rewrite TG, lookup_gen_false in B. cbn [user_of] in B.
    change (dict_lookup [] "transition_query") with (@None jval) in B. cbv iota in B. rewrite pop_other, NQ, T8 in B by discriminate. destruct B as (z & [= <-] & Z2). congruence. }
  assert (CL : Forall clean_dim (dims m)).
  { apply (Forall_and_impl _ _ _ _ _ TX Q). intros x [A B] (e & E1 & E2). split; [exact A|]. split; [exact B|]. rewrite E1. constructor; [now rewrite E2|constructor]. }
  pose proof (obtained_formed t kwargs m MF CL) as WF. destruct MF as (M1 & M2 & _).
  assert (L1 : length (dims m) = 1%nat) by (rewrite M1, T3; destruct HC as [<-|[<-|[]]]; reflexivity).
  destruct (dims m) as [|x [|]] eqn:DM; try discriminate. inversion Q as [|? ? (e & E1 & E2) _]; subst.
  constructor; rewrite ?DM, ?T4; try assumption; try (intros X; contradiction).
  - exact (eq_trans M1 T3).
  - intros _ e0 y _ [<-|[]] _. now rewrite E1.
  - intros _ c r n _ _. rewrite T6. constructor; [|constructor]. rewrite E1. reflexivity.
  - intros ->. destruct HC as [X|[X|[]]]; discriminate X.
Qed.
(** *** The two-dimensional classes *)
Definition unset (x : dimension) : Prop :=
  (no_empty (d_label x) -> no_empty (d_description x) -> good_dim x) /\ exists e, events x = [e] /\ q_F (transition_query e) = None /\ q_transitions (transition_query e) = None.
Definition same_texts (x y : dimension) : Prop := d_label y = d_label x /\ d_description y = d_description x.
Lemma set_query_made x q y : unset x -> query_dict (fst q) <> None -> set_query x q = Ok y ->
  same_texts x y /\ (no_empty (d_label y) -> no_empty (d_description y) -> good_dim y) /\ map transition_query (events y) = [as_query q].
Proof.
  intros (G & e & E & QF & QT) HP H. unfold set_query in H. rewrite E in H. injection H as <-. cbn [d_label d_description events map transition_query]. split; [split; reflexivity|]. split.
  - intros A B. destruct (G A B) as (G1 & G2 & G3 & G4 & G5 & G6). unfold good_dim. cbn [count spectral_width d_label d_description events origin_offset d_units]. repeat (split; [assumption|]). split; [|exact G6].
    rewrite E in G5. inversion G5 as [|? ? (P1 & P2 & P3 & P4 & P5 & P6 & P7) _]; subst. constructor; [|constructor]. unfold good_event. cbn [magnetic_flux_density rotor_frequency rotor_angle freq_contrib transition_query e_units q_P]. auto 10.
  - unfold as_query. now rewrite QF, QT.
Qed.
Lemma set_queries_made : forall ds qs ds', Forall unset ds -> Forall (fun q => query_dict (fst q) <> None) qs -> length qs = length ds -> set_queries ds qs = Ok ds' ->
  Forall (fun y => no_empty (d_label y) -> no_empty (d_description y) -> good_dim y) ds' /\ Forall2 (fun y q => map transition_query (events y) = [q]) ds' (map as_query qs).
Proof.
  induction ds as [|x ds IH]; intros [|q qs] ds' U P L H; try discriminate; [injection H as <-; split; constructor|]. cbn [set_queries] in H. inv H. inv H. injection H as <-.
  inversion U as [|? ? U1 U2]; subst. inversion P as [|? ? P1 P2]; subst. destruct (set_query_made x q a U1 P1 E) as (_ & G & Q). destruct (IH qs a0 U2 P2) as [G' Q']; [cbn in L; lia|exact E0|].
  split; constructor; assumption.
Qed.
Lemma check_affine_good n l a : check_affine n (Flat l) = Ok a -> good_matrix n a.
Proof.
  unfold check_affine. cbn [elements]. destruct (Nat.eqb _ _) eqn:L; [|discriminate]. cbn [negb]. apply Nat.eqb_eq in L. destruct l as [|x r]; [discriminate|]. destruct (Qc_eq_bool x 0) eqn:Z; [discriminate|]. intros [= <-].
  split; [exists x, r; split; [reflexivity|]; intros ->; rewrite Qc_eqb_refl in Z; discriminate|]. split; [exact L|exact I].
Qed.
Lemma apply_inv m u text m' n : apply_update m u text = Ok m' -> on (good_matrix n) (affine m) -> length (dims m') = n ->
  set_queries (dims m) (fst u) = Ok (dims m') /\ m_name m' = m_name m /\ channels m' = channels m /\ m_description m' = Some text /\ exists a, affine m' = Some a /\ good_matrix n a.
Proof.
  unfold apply_update. intros H G L. inv H. inv H. injection H as <-. cbn [dims m_name channels m_description affine] in *. repeat (split; [first [assumption|reflexivity]|]). exists a0. split; [reflexivity|].
  destruct (affine m) as [b|]; [injection E0 as <-; exact G|]. rewrite <- L. now apply check_affine_good in E0.
Qed.
Lemma set_queries_length : forall qs ds ds', set_queries ds qs = Ok ds' -> length ds' = length ds.
Proof. induction qs as [|q qs IH]; intros ds ds' H; [destruct ds; injection H as <-; reflexivity|]. destruct ds as [|x ds]; [discriminate|]. cbn [set_queries] in H. inv H. inv H. injection H as <-. cbn [length]. now rewrite (IH _ _ E0). Qed.
Lemma MQ_any cls mq n o qs a : In (cls, mq) [("ThreeQ_VAS", 3%Z); ("FiveQ_VAS", 5%Z); ("SevenQ_VAS", 7%Z)] -> MethodsModel.MQ_update cls (MethodsModel.half n) o = Ok (qs, a) -> map as_query qs = class_queries cls n.
Proof.
  intros HN H. destruct (MQ_queries cls mq n a HN) as (qs' & U & Q). rewrite <- Q. f_equal. unfold MethodsModel.MQ_update in *. inv H. inv H. injection H as <- <-. rewrite E in U. cbn [bind MethodsModel.affine_of] in U. congruence.
Qed.
Lemma ST_any cls st n o qs a : In (cls, st) [("ST1_VAS", 3%Z); ("ST2_VAS", 5%Z)] -> MethodsModel.ST_update cls (MethodsModel.half n) o = Ok (qs, a) -> map as_query qs = class_queries cls n.
Proof.
  intros HN H. destruct (ST_queries cls st n a HN) as (qs' & U & Q). rewrite <- Q. f_equal. unfold MethodsModel.ST_update in *. inv H. inv H. injection H as <- <-. rewrite E in U. cbn [bind MethodsModel.affine_of] in U. congruence.
Qed.
Lemma update_made cls m m' : In cls fixed_2D -> Forall unset (dims m) -> length (dims m) = 2%nat -> length (channels m) = 1%nat -> Forall (fun c => exists n, In (c, n) isotope_data) (channels m) ->
  on (good_matrix 2) (affine m) -> update cls m = Ok m' -> m_name m' = Some cls -> texts m' -> readable cls m'.
Proof.
  intros HC U L2 LC FC GA H N TX. destruct (channels m) as [|c [|]] eqn:CM; try discriminate LC. inversion FC as [|? ? (n & Hn) _]; subst.
  assert (SP : first_spin m = Ok (MethodsModel.half n)).
  { unfold first_spin. rewrite CM. destruct (isotope_spin c n Hn) as [_ T]. now rewrite T. }
  assert (X : exists u, apply_update m u (class_text cls) = Ok m' /\ map as_query (fst u) = class_queries cls n).
  { assert (CASES : cls = "SSB2D" \/ (exists st, In (cls, st) [("ST1_VAS", 3%Z); ("ST2_VAS", 5%Z)]) \/ exists mq, In (cls, mq) [("ThreeQ_VAS", 3%Z); ("FiveQ_VAS", 5%Z); ("SevenQ_VAS", 7%Z)]).
    { cbn in HC. repeat (destruct HC as [<-|HC]; [cbn; eauto 12|]). destruct HC. }
    destruct CASES as [->|[[st HS]|[mq HM]]].
    - unfold update in H. rewrite String.eqb_refl in H. eexists. split; [exact H|]. reflexivity.
    - unfold update in H. assert (T : ST_text cls = class_text cls /\ String.eqb cls "SSB2D" = false /\ existsb (String.eqb cls) ["ST1_VAS"; "ST2_VAS"] = true /\
                MethodsModel.lookup String.eqb MethodsModel.ST_p_symmetry cls = Ok (MethodsModel.half st)) by (cbn [In] in HS; destruct HS as [[= <- <-]|[[= <- <-]|[]]]; repeat split).
      destruct T as (T1 & T2 & T3 & T4). rewrite T2 in H. destruct (m_name m) as [nm|] eqn:NM; [|discriminate]. rewrite T3 in H. inv H. rewrite SP in H. cbn [bind] in H. inv H. destruct a0 as [qs a0].
      assert (nm = cls) by (unfold apply_update in H; inv H; inv H; injection H as <-; cbn [m_name] in N; congruence). subst nm. rewrite T1 in H. eexists. split; [exact H|]. exact (ST_any cls st n _ _ _ HS E0).
    - unfold update in H. assert (T : MQ_text cls = class_text cls /\ String.eqb cls "SSB2D" = false /\ existsb (String.eqb cls) ["ST1_VAS"; "ST2_VAS"] = false /\
                MethodsModel.lookup String.eqb MethodsModel.MQ_p_symmetry cls = Ok (MethodsModel.half mq)) by (cbn [In] in HM; destruct HM as [[= <- <-]|[[= <- <-]|[[= <- <-]|[]]]]; repeat split).
      destruct T as (T1 & T2 & T3 & T4). rewrite T2 in H. destruct (m_name m) as [nm|] eqn:NM; [|discriminate]. rewrite T3 in H. inv H. rewrite SP in H. cbn [bind] in H. inv H. destruct a0 as [qs a0].
      assert (nm = cls) by (unfold apply_update in H; inv H; inv H; injection H as <-; cbn [m_name] in N; congruence). subst nm. rewrite T1 in H. eexists. split; [exact H|]. exact (MQ_any cls mq n _ _ _ HM E0). }
  destruct X as (u & A & Q).
  assert (LD : length (dims m') = 2%nat) by (unfold apply_update in A; inv A; inv A; injection A as <-; cbn [dims]; now rewrite (set_queries_length _ _ _ E)).
  destruct (apply_inv m u _ m' 2%nat A GA LD) as (SQ & _ & CH & TX' & a & AF & GM).
  assert (LQ : length (fst u) = 2%nat) by (rewrite <- (map_length as_query), Q; cbn in HC; repeat (destruct HC as [<-|HC]; [reflexivity|]); destruct HC).
  assert (PQ : Forall (fun q => query_dict (fst q) <> None) (fst u)).
  { assert (Y : Forall (fun q => q_P q <> None) (map as_query (fst u))) by (rewrite Q; cbn in HC; repeat (destruct HC as [<-|HC]; [repeat constructor; discriminate|]); destruct HC).
    rewrite Forall_map in Y. exact Y. }
  destruct (set_queries_made _ _ _ U PQ (eq_trans LQ (eq_sym L2)) SQ) as [G F2]. rewrite Q in F2.
  assert (E1 : Forall (fun x => exists e, events x = [e]) (dims m')).
  { clear - F2. induction F2 as [|y q l r X F IH]; constructor; [|exact IH]. destruct (events y) as [|e [|]]; try discriminate. eauto. }
  assert (OD : existsb (String.eqb cls) one_dimensional = false /\ existsb (String.eqb cls) fixed_2D = true) by (cbn in HC; repeat (destruct HC as [<-|HC]; [split; reflexivity|]); destruct HC). destruct OD as [OD FX].
  constructor; rewrite ?OD, ?FX; try assumption.
  - split; [now rewrite CH, CM|]. split; [apply (Forall_and_impl _ _ _ _ _ G TX); intros x Gx [? ?]; auto|]. split; [clear - E1; revert E1; apply Forall_impl; intros x [e ->]; discriminate|].
    rewrite AF, LD. exact GM.
  - rewrite CH, CM. discriminate.
  - intros _. congruence.
  - intros _ e0 x _ Hx _. rewrite Forall_forall in E1. destruct (E1 x Hx) as [e ->]. reflexivity.
  - intros _ c' r n' CC Hn'. rewrite CH, CM in CC. injection CC as <- <-. assert (n' = n) by (destruct (isotope_spin c n Hn) as [_ A1]; destruct (isotope_spin c n' Hn') as [_ A2]; congruence). subst n'.
    clear - F2 E1. induction F2 as [|y q l r X F IH]; constructor; [|inversion E1; auto]. inversion E1 as [|? ? (e & Y) _]; subst. rewrite X, Y. reflexivity.
  - intros ->. cbn in HC. intuition discriminate.
Qed.

Lemma new_dicts_made cls kwargs m : new_dicts cls kwargs = Ok m ->
  Forall unset (dims m) /\ length (dims m) = 2%nat /\ length (channels m) = 1%nat /\ Forall (fun c => exists n, In (c, n) isotope_data) (channels m) /\ on (good_matrix 2) (affine m).
Proof.
  unfold new_dicts. intros H. inv H. set (args := dict_update (with_name cls kwargs) [("spectral_dimensions", JList (map JDict a))]) in *.
  assert (HT : In Method2D templates) by (cbn; tauto). destruct (construct_inv Method2D args m HT H) as [(M1 & M2 & M3 & M4 & M5 & M6) (_ & _ & _ & _ & _ & _ & _ & CR & _)].
  assert (SD : dict_lookup args "spectral_dimensions" = Some (JList (map JDict a))) by (unfold args; rewrite lookup_update; reflexivity).
  assert (NG : gives_no_events args).
  { intros l SL dim Hd. rewrite SD in SL. injection SL as <-. apply in_map_iff in Hd. destruct Hd as (d & [= ->] & Hd). destruct (dict_lookup kwargs "spectral_dimensions") as [v|].
    - inv E. inv E. inv E. injection E as <-. unfold check_dicts in E2. destruct (negb _); [discriminate|]. match type of E2 with context [if ?b then _ else _] => destruct b eqn:X; [discriminate|] end.
      destruct (dict_lookup dim "events") eqn:Y; [|reflexivity]. exfalso. apply not_true_iff_false in X. apply X. apply existsb_exists. exists dim. split; [exact Hd|]. unfold has_key. now rewrite Y.
    - injection E as <-. destruct Hd as [<-|[<-|[]]]; reflexivity. }
  pose proof (no_events_made Method2D [] args m HT ltac:(repeat constructor) H NG) as NE.
  assert (M1' : length (dims m) = 2%nat) by (rewrite M1; reflexivity). rewrite M1' in M4. repeat (split; [|repeat (split; [assumption|]); assumption]).
  set (kw := dict_pop args "spectral_dimensions") in *.
  assert (KQ : Forall (fun x : dimension => dict_lookup kw "transition_query" = None) (dims m)).
  { revert NE. apply Forall_impl. intros x (e & _ & ME). unfold check_rotor_frequency in CR. destruct (dict_lookup kw "transition_query") as [v|] eqn:KT; [exfalso|reflexivity].
    assert (F : In "transition_query" (filter (fun k => has_key (t_globals Method2D) k) (map fst kw))).
    { apply filter_In. split; [|reflexivity]. clear - KT. induction kw as [|[k w] r IH]; [discriminate|]. rewrite lookup_cons in KT. destruct (String.eqb_spec k "transition_query") as [->|]; [now left|]. right. now apply IH. }
    destruct (filter _ (map fst kw)) as [|k0 kr]; [destruct F|]. destruct (dict_lookup kw "rotor_frequency") as [r|] eqn:KR; [|discriminate]. destruct (existsb _ _ && same_text _ _) eqn:S; [|discriminate].
    apply andb_true_iff in S. destruct S as [_ S]. destruct r; try discriminate S. apply (made_rotor (gen_one (t_globals Method2D) kw false [] None) e q u); [|exact ME]. rewrite lookup_gen_false. cbn [user_of].
    change (dict_lookup [] "rotor_frequency") with (@None jval). cbv iota. now rewrite KR. }
  assert (EO : Forall (fun x => exists e, events x = [e] /\ transition_query e = plain_query) (dims m)).
  { apply (Forall_and_impl _ _ _ _ _ NE KQ). intros x (e & EX & ME) K. exists e. split; [exact EX|]. apply made_query in ME. rewrite lookup_gen_false in ME. cbn [user_of] in ME. change (dict_lookup [] "transition_query") with (@None jval) in ME. cbv iota in ME.
    rewrite K in ME. destruct ME as (z & [= <-] & Z2). injection Z2 as <-. reflexivity. }
  apply (Forall_and_impl _ _ _ _ _ M5 EO). intros x O (e & EX & TQ). split.
  - intros A B. apply dim_good; [exact O|]. split; [exact A|]. split; [exact B|]. rewrite EX. constructor; [rewrite TQ; discriminate|constructor].
  - exists e. rewrite TQ. auto.
Qed.
Lemma set_rotor_unset f x y : unset x -> set_rotor f x = Ok y -> unset y.
Proof.
  intros (G & e & E & QF & QT) H. unfold set_rotor in H. rewrite E in H. destruct f; try discriminate. destruct (non_negative q) eqn:P; [|discriminate]. injection H as <-. apply Qc_leb_iff in P. split.
  - cbn [d_label d_description]. intros A B. destruct (G A B) as (G1 & G2 & G3 & G4 & G5 & G6). unfold good_dim. cbn [count spectral_width d_label d_description events origin_offset d_units]. repeat (split; [assumption|]). split; [|exact G6].
    rewrite E in G5. inversion G5 as [|? ? (P1 & P2 & P3 & P4 & P5 & P6 & P7) _]; subst. constructor; [|constructor]. unfold good_event. cbn [magnetic_flux_density rotor_frequency rotor_angle freq_contrib transition_query e_units q_P]. auto 10.
  - eexists. split; [reflexivity|]. cbn [transition_query]. auto.
Qed.
Lemma two_dim_made cls kwargs m : In cls fixed_2D -> make_named cls kwargs = Ok m -> m_name m = Some cls -> texts m -> readable cls m.
Proof.
  intros HC H N TX. assert (T : template_of cls = None) by (cbn in HC; repeat (destruct HC as [<-|HC]; [reflexivity|]); destruct HC). unfold make_named in H. rewrite T in H. destruct (String.eqb_spec cls "SSB2D") as [->|NS].
  - unfold new_SSB2D in H. destruct (dict_lookup kwargs "rotor_frequency") as [f|]; [|discriminate]. match type of H with context [if ?b then _ else _] => destruct b; [discriminate|] end.
    inv H. destruct (new_dicts_made _ _ _ E) as (U & L2 & LC & FC & GA). destruct (dims a) as [|x r] eqn:DA; [discriminate|]. inv H. inversion U as [|? ? U1 U2]; subst.
    refine (update_made "SSB2D" _ m HC _ _ _ _ _ H N TX); cbn [dims channels affine]; try assumption. constructor; [exact (set_rotor_unset f x a0 U1 E0)|exact U2].
  - inv H. destruct (new_dicts_made _ _ _ E) as (U & L2 & LC & FC & GA). exact (update_made cls a m HC U L2 LC FC GA H N TX).
Qed.
(** A generic two-dimensional method with another rotor frequency cannot be read. *)
Lemma rotor_lost m d e0 : m_name m = Some "Method2D" -> first_event m e0 -> rotor_frequency e0 <> Qc_of_Z 1000000000000 -> json_method m = Ok d -> exists e, parse_any_method parse_named d = Err e.
Proof.
  intros N (x & r & s & DM & EX) NR J. unfold json_method in J. rewrite DM, EX in J. apply bind_ok in J. destruct J as (dd & _ & J).
  apply (f_equal (fun r => match r with Ok x => x | Err _ => d end)) in J. cbv beta iota in J.
  assert (L : dict_lookup d "name" = Some (JStr "Method2D") /\ dict_lookup d "rotor_frequency" = Some (JQty (rotor_frequency e0) "Hz")).
  { rewrite <- J, N. rewrite !(lookup_filter _ _ (fun v => match v with JNone => false | _ => true end)) by (try reflexivity; cbn [app]; nd). split; reflexivity. }
  destruct L as [L1 L2]. unfold parse_any_method. rewrite L1. change (existsb (String.eqb "Method2D") method_names) with true. cbv iota.
  destruct (parse_named "Method2D" d) as [m'|e] eqn:P; [exfalso|eauto]. unfold parse_named in P. change (template_of "Method2D") with (Some Method2D) in P. cbv iota in P. unfold construct in P.
  apply bind_ok in P. destruct P as (l & _ & P). destruct l; [discriminate|]. do 3 (apply bind_ok in P; destruct P as (? & _ & P)). apply bind_ok in P. destruct P as ([] & C & _).
  unfold check_rotor_frequency in C. rewrite pop_other, L2 in C by discriminate.
  assert (F : In "rotor_frequency" (filter (fun k => has_key (t_globals Method2D) k) (map fst (dict_pop d "spectral_dimensions")))).
  { apply filter_In. split; [|reflexivity]. assert (KT : dict_lookup (dict_pop d "spectral_dimensions") "rotor_frequency" <> None) by (rewrite pop_other, L2; discriminate). clear - KT.
    induction (dict_pop d "spectral_dimensions") as [|[k w] q IH]; [exfalso; now apply KT|]. rewrite lookup_cons in KT. destruct (String.eqb_spec k "rotor_frequency") as [->|]; [now left|]. right. now apply IH. }
  clear J. destruct (filter _ (map fst (dict_pop d "spectral_dimensions"))) as [|k0 kr]; [destruct F|]. destruct (existsb _ _ && same_text _ _) eqn:S; [|discriminate]. apply andb_true_iff in S. destruct S as [_ S]. apply same_text_eq in S. apply NR. congruence.
Qed.

(** ** What the two-dimensional classes always set *)
Lemma set_queries_sets : forall qs ds ds', set_queries ds qs = Ok ds' -> length qs = length ds ->
  Forall2 (fun x q => exists e r, events x = e :: r /\ q_P (transition_query e) = q_P q /\ q_D (transition_query e) = q_D q) ds' (map as_query qs).
Proof.
  induction qs as [|q qs IH]; intros [|x ds] ds' H L; try discriminate; [injection H as <-; constructor|]. cbn [set_queries] in H. inv H. inv H. injection H as <-. cbn [map]. constructor; [|apply (IH ds); [exact E0|cbn in L; lia]].
  unfold set_query in E. destruct (events x) as [|e r]; [discriminate|]. injection E as <-. eexists _, r. split; [reflexivity|]. split; reflexivity.
Qed.
Lemma update_sets cls m m' : In cls fixed_2D -> length (dims m) = 2%nat -> update cls m = Ok m' -> m_name m' = Some cls ->
  m_description m' = Some (class_text cls) /\ affine m' <> None /\ forall c t n, channels m' = c :: t -> In (c, n) isotope_data ->
  Forall2 (fun x q => exists e r, events x = e :: r /\ q_P (transition_query e) = q_P q /\ q_D (transition_query e) = q_D q) (dims m') (class_queries cls n).
Proof.
  intros HC L2 H N.
  assert (X : exists u, apply_update m u (class_text cls) = Ok m' /\ forall c t n, channels m = c :: t -> In (c, n) isotope_data -> map as_query (fst u) = class_queries cls n).
  { assert (CASES : cls = "SSB2D" \/ (exists st, In (cls, st) [("ST1_VAS", 3%Z); ("ST2_VAS", 5%Z)]) \/ exists mq, In (cls, mq) [("ThreeQ_VAS", 3%Z); ("FiveQ_VAS", 5%Z); ("SevenQ_VAS", 7%Z)]).
    { cbn in HC. repeat (destruct HC as [<-|HC]; [cbn; eauto 12|]). destruct HC. }
    assert (SP : forall c t n, channels m = c :: t -> In (c, n) isotope_data -> first_spin m = Ok (MethodsModel.half n)).
    { intros c t n C I. unfold first_spin. rewrite C. destruct (isotope_spin c n I) as [_ T]. now rewrite T. }
    destruct CASES as [->|[[st HS]|[mq HM]]].
    - unfold update in H. rewrite String.eqb_refl in H. eexists. split; [exact H|]. reflexivity.
    - unfold update in H. assert (T : ST_text cls = class_text cls /\ String.eqb cls "SSB2D" = false /\ existsb (String.eqb cls) ["ST1_VAS"; "ST2_VAS"] = true) by (cbn [In] in HS; destruct HS as [[= <- <-]|[[= <- <-]|[]]]; repeat split).
      destruct T as (T1 & T2 & T3). rewrite T2 in H. destruct (m_name m) as [nm|] eqn:NM; [|discriminate]. rewrite T3 in H. inv H. inv H. inv H. destruct a1 as [qs a1].
      assert (nm = cls) by (unfold apply_update in H; inv H; inv H; injection H as <-; cbn [m_name] in N; congruence). subst nm. rewrite T1 in H. eexists. split; [exact H|]. intros c t n C I. rewrite (SP c t n C I) in E0. injection E0 as <-. exact (ST_any cls st n _ _ _ HS E1).
    - unfold update in H. assert (T : MQ_text cls = class_text cls /\ String.eqb cls "SSB2D" = false /\ existsb (String.eqb cls) ["ST1_VAS"; "ST2_VAS"] = false) by (cbn [In] in HM; destruct HM as [[= <- <-]|[[= <- <-]|[[= <- <-]|[]]]]; repeat split).
      destruct T as (T1 & T2 & T3). rewrite T2 in H. destruct (m_name m) as [nm|] eqn:NM; [|discriminate]. rewrite T3 in H. inv H. inv H. inv H. destruct a1 as [qs a1].
      assert (nm = cls) by (unfold apply_update in H; inv H; inv H; injection H as <-; cbn [m_name] in N; congruence). subst nm. rewrite T1 in H. eexists. split; [exact H|]. intros c t n C I. rewrite (SP c t n C I) in E0. injection E0 as <-. exact (MQ_any cls mq n _ _ _ HM E1). }
  destruct X as (u & A & Q). unfold apply_update in A. inv A. inv A. injection A as <-. cbn [m_description affine channels dims]. split; [reflexivity|]. split; [discriminate|]. intros c t n C I. specialize (Q c t n C I).
  rewrite <- Q. apply (set_queries_sets _ (dims m)); [exact E|]. rewrite <- (map_length as_query), Q, L2. cbn in HC; repeat (destruct HC as [<-|HC]; [reflexivity|]); destruct HC.
Qed.
Lemma make_named_update cls kwargs m : In cls fixed_2D -> make_named cls kwargs = Ok m -> exists m0, length (dims m0) = 2%nat /\ update cls m0 = Ok m.
Proof.
  intros HC H. assert (T : template_of cls = None) by (cbn in HC; repeat (destruct HC as [<-|HC]; [reflexivity|]); destruct HC). unfold make_named in H. rewrite T in H. destruct (String.eqb_spec cls "SSB2D") as [->|NS].
  - unfold new_SSB2D in H. destruct (dict_lookup kwargs "rotor_frequency") as [f|]; [|discriminate]. match type of H with context [if ?b then _ else _] => destruct b; [discriminate|] end.
    inv H. destruct (new_dicts_made _ _ _ E) as (U & L2 & LC & FC & GA). destruct (dims a) as [|x r] eqn:DA; [discriminate|]. inv H. eexists. split; [|exact H]. exact L2.
  - inv H. destruct (new_dicts_made _ _ _ E) as (U & L2 & LC & FC & GA). exists a. auto.
Qed.
Lemma parse_named_update cls d m : In cls fixed_2D -> parse_named cls d = Ok m -> exists m0, length (dims m0) = 2%nat /\ update cls m0 = Ok m.
Proof.
  intros HC H. assert (T : template_of cls = None) by (cbn in HC; repeat (destruct HC as [<-|HC]; [reflexivity|]); destruct HC). unfold parse_named in H. rewrite T in H. destruct (dict_lookup d "spectral_dimensions") as [v|].
  - inv H. inv H. inv H. unfold new_objects in H. match type of H with context [if negb (Nat.eqb (length ?l) 2) then _ else _] => destruct (Nat.eqb (length l) 2) eqn:L; [|discriminate] end. apply Nat.eqb_eq in L. cbn [negb] in H. inv H.
    destruct (make_method_inv _ _ _ E2) as (D & _). exists a2. split; [now rewrite D|exact H].
  - inv H. exact (make_named_update cls d m HC H).
Qed.
