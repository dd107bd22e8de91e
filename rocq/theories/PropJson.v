(** C40, C82, C83, C84: save and load cycles, units of what is read, arguments of the reading functions and units that are not used. *)
From Coq Require Import ZArith QArith Qcanon Bool Ascii String Lia List.
From Verif Require Import Base SitesModel SitesSpec SitesProofs JsonModel JsonSpec JsonProofs JsonUnits JsonSame JsonLost.
Import ListNotations.
Open Scope string_scope.
Open Scope list_scope.

(** * C40: an object that is serialised with units and read again is the same object *)
Theorem C40_symmetric_tensor : forall t, sym_obtained t -> parse_sym (json_sym t) = Ok t.
Proof. intros t H. apply sym_round, sym_good, H. Qed.
Theorem C40_antisymmetric_tensor : forall t, anti_obtained t -> parse_anti (json_anti t) = Ok t.
Proof. intros t H. apply anti_round, anti_good, H. Qed.
(** For a site, a coupling and a spin system: the texts are not empty and the tensors have the attributes of their role only. *)
Theorem C40_site_partial : forall s, site_obtained s -> clean_site s -> parse_site (json_site s) = Ok s.
Proof. intros s O C. apply site_round. now apply site_good. Qed.
Theorem C40_coupling_partial : forall c, coupling_obtained c -> clean_coupling c -> parse_coupling (json_coupling c) = Ok c.
Proof. intros s O C. apply coupling_round. now apply coupling_good. Qed.
Theorem C40_system_partial : forall y, system_obtained y -> clean_system y -> parse_system (json_system y) = Ok y.
Proof. intros s O C. apply system_round. now apply system_good. Qed.
(** For an event: its query has a P. *)
Theorem C40_event_partial : forall e, event_obtained e -> q_P (transition_query e) <> None -> parse_event (json_event e) = Ok e.
Proof. intros s O C. apply event_round. now apply event_good. Qed.
Theorem C40_dimension_partial : forall x, dim_obtained x -> clean_dim x -> parse_dim (json_dim x) = Ok x.
Proof. intros s O C. apply dim_round. now apply dim_good. Qed.
(** For a method: its name is none of the named methods and its dimensions have events. *)
Theorem C40_method_partial : forall m, method_obtained m -> clean_method m -> exists d, json_method m = Ok d /\ parse_method d = Ok m.
Proof. intros s O C. apply method_round. now apply method_good. Qed.
(** For a simulator, whatever the reading of the methods of named classes does: its methods have a name, which is none of the named classes. *)
Theorem C40_simulator_partial : forall parse_named version s with_version,
  Forall (fun y => system_obtained y /\ clean_system y) (spin_systems s) ->
  Forall (fun m => method_obtained m /\ clean_method m /\ exists n, m_name m = Some n /\ ~ In n ["Method1D"; "Method2D"]) (methods s) ->
  config_obtained (sim_config s) ->
  exists d, json_simulator version s true with_version = Ok d /\ parse_simulator parse_named d = Ok s.
Proof.
  intros pn v s w Y M C. apply simulator_round. split; [|split].
  - revert Y. apply Forall_impl. intros y [O K]. now apply system_good.
  - revert M. apply Forall_impl. intros m (O & K & N). split; [now apply method_good|exact N].
  - now apply config_good.
Qed.
(** The serialised form of a spin system is plain JSON when it has no pathways, and is not when it has one. *)
Theorem C40_plain_json : forall y, transition_pathways y = None -> plain (JDict (json_system y)) = true.
Proof. exact plain_system. Qed.
Theorem C40_pathways_refuted : forall y p l, transition_pathways y = Some (p :: l) -> plain (JDict (json_system y)) = false.
Proof. exact paths_not_plain. Qed.

(** ** What is lost *)
(** An empty text does not come back. *)
Theorem C40_empty_text_refuted :
  (forall s, s_name s = Some "" \/ s_label s = Some "" \/ s_description s = Some "" -> parse_site (json_site s) <> Ok s) /\
  (forall c, c_name c = Some "" \/ c_label c = Some "" \/ c_description c = Some "" -> parse_coupling (json_coupling c) <> Ok c) /\
  (forall y, y_name y = Some "" \/ y_label y = Some "" \/ y_description y = Some "" -> parse_system (json_system y) <> Ok y) /\
  (forall x, d_label x = Some "" \/ d_description x = Some "" -> parse_dim (json_dim x) <> Ok x).
Proof.
  split; [|split; [|split]]; intros s H P.
  - destruct (site_texts _ _ P) as (A & B & C). destruct H as [H|[H|H]]; [rewrite H in A; apply opt_str_empty in A; revert A|rewrite H in B; apply opt_str_empty in B; revert B|rewrite H in C; apply opt_str_empty in C; revert C]; apply json_no_empty; nd.
  - destruct (coupling_texts _ _ P) as (A & B & C). destruct H as [H|[H|H]]; [rewrite H in A; apply opt_str_empty in A; revert A|rewrite H in B; apply opt_str_empty in B; revert B|rewrite H in C; apply opt_str_empty in C; revert C]; apply json_no_empty; nd.
  - destruct (system_texts _ _ P) as (A & B & C). destruct H as [H|[H|H]]; [rewrite H in A; apply opt_str_empty in A; revert A|rewrite H in B; apply opt_str_empty in B; revert B|rewrite H in C; apply opt_str_empty in C; revert C]; apply json_no_empty; nd.
  - destruct (dim_texts _ _ P) as (B & C). destruct H as [H|H]; [rewrite H in B; apply opt_str_empty in B; revert B|rewrite H in C; apply opt_str_empty in C; revert C]; apply json_no_empty; nd.
Qed.
(** A shielding tensor with Cq or D, or a quadrupolar tensor with zeta or D: the saved site cannot be read. *)
Theorem C40_site_tensor_refuted : forall s t, site_obtained s ->
  (shielding_symmetric s = Some t /\ (Cq t <> None \/ D t <> None)) \/ (quadrupolar s = Some t /\ (zeta t <> None \/ D t <> None)) ->
  exists e, parse_site (json_site s) = Err e.
Proof. exact site_stray. Qed.
(** A symmetric J tensor without zeta, or with Cq or D, a dipolar tensor with zeta or Cq, any antisymmetric J tensor: the saved coupling cannot be read. *)
Theorem C40_coupling_tensor_refuted : forall c t, coupling_obtained c ->
  (j_symmetric c = Some t /\ (zeta t = None \/ Cq t <> None \/ D t <> None)) \/ (dipolar c = Some t /\ (zeta t <> None \/ Cq t <> None)) \/ j_antisymmetric c <> None ->
  exists e, parse_coupling (json_coupling c) = Err e.
Proof. exact coupling_stray. Qed.
(** No dict with an antisymmetric J tensor can be read at all. *)
Theorem C40_antisymmetric_j_refuted : forall d v, dict_lookup d "j_antisymmetric" = Some v -> exists e, parse_coupling d = Err e.
Proof.
  intros d v L. destruct (parse_coupling d) as [c|e] eqn:P; [|eauto]. exfalso. destruct (no_anti d c P) as [N _]. congruence.
Qed.
(** A query whose P is None comes back with the default P. *)
Theorem C40_query_refuted : forall q, q_P q = None -> make_query (json_query q) = Ok (mkQuery (Some default_P) (q_D q) (q_F q) (q_transitions q)).
Proof.
  intros [p d f t] H. cbn in H. subst p. destruct d, f, t as [l|]; cbn; unfold make_query; cbn; rewrite ?transitions_round; reflexivity.
Qed.
(** A method with a dimension without events does not come back. *)
Theorem C40_no_events_refuted : forall m x d, In x (dims m) -> events x = [] -> json_method m = Ok d -> parse_method d <> Ok m.
Proof.
  intros m x d I E J P. destruct (come_back_events m d m J P) as [_ F]. rewrite Forall_forall in F. exact (F x I E).
Qed.
(** A method with the name of a named method is read, as a method, with the default query in every event, whatever the queries were. *)
Theorem C40_named_refuted : forall m d r n, m_name m = Some n -> In n NAMED_METHODS -> json_method m = Ok d -> parse_method d = Ok r ->
  Forall (fun x => Forall (fun e => transition_query e = default_query) (events x)) (dims r).
Proof. exact named_default. Qed.
(** Three of those names are not among the classes of the simulator: there the queries are lost too. *)
Theorem C40_named_simulator_refuted : forall parse_named n m d r, In n ["BlochDecayCentralTransitionSpectrum"; "Cosy"; "Inadequate"] ->
  m_name m = Some n -> json_method m = Ok d -> parse_any_method parse_named d = Ok r ->
  Forall (fun x => Forall (fun e => transition_query e = default_query) (events x)) (dims r).
Proof.
  intros pn n m d r I N J P. assert (NI : In n NAMED_METHODS) by (cbn in *; intuition). apply (named_default m d r n N NI J).
  assert (L : dict_lookup d "name" = Some (JStr n)).
  { unfold json_method in J. destruct (dims m); [discriminate|]. destruct (events d0); [discriminate|]. inv J. okeq J.
    rewrite (lookup_filter _ _ (fun v => match v with JNone => false | _ => true end)); [|reflexivity|unfold app; nd]. rewrite N. reflexivity. }
  unfold parse_any_method in P. rewrite L in P. destruct I as [<-|[<-|[<-|[]]]]; exact P.
Qed.
(** A simulator with a method without a name cannot be read again. *)
Theorem C40_unnamed_refuted : forall parse_named version s m d with_version, In m (methods s) -> m_name m = None ->
  json_simulator version s true with_version = Ok d -> exists e, parse_simulator parse_named d = Err e.
Proof. exact unnamed_simulator. Qed.

(** ** Concrete objects *)
Definition q (n : Z) : Qc := Q2Qc (n # 1).
Definition site_dict : jdict :=
  [("name", JStr "Al1"); ("isotope", JStr "27Al"); ("isotropic_chemical_shift", JQty (Q2Qc (1 # 100)) "%");
   ("shielding_symmetric", JDict [("zeta", JQty (q 12) "ppm"); ("eta", JNum (Q2Qc (1 # 2)))]);
   ("quadrupolar", JDict [("Cq", JQty (q 3) "MHz"); ("eta", JNum 0); ("alpha", JQty (q 500) "mrad")])].
Definition coupling_dict : jdict :=
  [("site_index", JList [JNum (q 0); JNum (q 1)]); ("isotropic_j", JQty (Q2Qc (1 # 100)) "kHz"); ("j_symmetric", JDict [("zeta", JQty (q 7) "Hz"); ("eta", JNum 0)])].
Definition system_dict : jdict := [("sites", JList [JDict site_dict; JDict [("isotope", JStr "1H")]]); ("couplings", JList [JDict coupling_dict]); ("abundance", JQty (q 30) "%")].
Definition method_dict : jdict :=
  [("name", JStr "mine"); ("channels", JList [JStr "27Al"]); ("rotor_frequency", JQty (q 25) "kHz");
   ("spectral_dimensions", JList [JDict [("count", JNum (q 512)); ("spectral_width", JQty (q 50) "kHz"); ("label", JStr "MAS");
      ("events", JList [JDict [("fraction", JNum (Q2Qc (1 # 2)))]; JDict [("fraction", JNum (Q2Qc (1 # 2))); ("rotor_frequency", JQty (q 0) "Hz");
        ("transition_query", JDict [("P", JDict [("channel-1", JList [JList [JNum (q (-3))]])])])]])]])].
Definition sim_dict : jdict := [("name", JStr "run"); ("spin_systems", JList [JDict system_dict]); ("methods", JList [JDict method_dict])].
Definition holds {A} (P : A -> Prop) (r : pyres A) : Prop := match r with Ok a => P a | Err _ => False end.
Lemma holds_ok A (P : A -> Prop) r : holds P r -> exists a, r = Ok a /\ P a.
Proof. destruct r as [a|]; [eauto|intros []]. Qed.
(** The dicts are read, and what is read meets the hypotheses of the theorems. *)
Example C40_read_site : holds (fun s => site_obtained s /\ clean_site s /\ isotope s = "27Al" /\ this (isotropic_chemical_shift s) = (100 # 1)%Q /\
  option_map (fun t => option_map this (Cq t)) (quadrupolar s) = Some (Some (3000000 # 1)%Q)) (parse_site site_dict).
Proof.
  Local Transparent enforce_units Qc_leb Qc_eq_bool.
  destruct (parse_site site_dict) as [s|] eqn:E; [|vm_compute in E; discriminate]. cbn [holds]. split; [left; now exists site_dict|].
  vm_compute in E. injection E as <-. repeat split; intros; discriminate.
Qed.
Example C40_read_coupling : holds (fun c => coupling_obtained c /\ clean_coupling c /\ site_index c = [0%Z; 1%Z] /\ this (isotropic_j c) = (10 # 1)%Q) (parse_coupling coupling_dict).
Proof.
  destruct (parse_coupling coupling_dict) as [s|] eqn:E; [|vm_compute in E; discriminate]. cbn [holds]. split; [left; now exists coupling_dict|].
  vm_compute in E. injection E as <-. repeat split; intros; discriminate.
Qed.
Example C40_read_system : holds (fun y => system_obtained y /\ clean_system y /\ length (sites y) = 2%nat /\ transition_pathways y = None) (parse_system system_dict).
Proof.
  destruct (parse_system system_dict) as [s|] eqn:E; [|vm_compute in E; discriminate]. cbn [holds]. split; [left; now exists system_dict|].
  vm_compute in E. injection E as <-. repeat split; repeat constructor; intros; discriminate.
Qed.
Example C40_read_method : holds (fun m => method_obtained m /\ clean_method m /\ m_name m = Some "mine" /\
  map (fun x => map (fun e => this (rotor_frequency e)) (events x)) (dims m) = [[(25000 # 1)%Q; (0 # 1)%Q]]) (parse_method method_dict).
Proof.
  destruct (parse_method method_dict) as [s|] eqn:E; [|vm_compute in E; discriminate]. cbn [holds]. split; [left; now exists method_dict|].
  vm_compute in E. injection E as <-. repeat split; repeat constructor; try discriminate. intros n [= <-]. cbn. intuition discriminate.
Qed.
(** A site that cannot be read again, built by a user. *)
Example C40_lost_site : holds (fun s => site_obtained s /\ exists e, parse_site (json_site s) = Err e)
  (parse_site [("shielding_symmetric", JDict [("zeta", JQty (q 1) "ppm"); ("D", JQty (q 2) "Hz")])]).
Proof.
  destruct (parse_site _) as [s|] eqn:E; [|vm_compute in E; discriminate]. cbn [holds]. assert (O : site_obtained s) by (left; eauto). split; [exact O|].
  assert (X : exists t, shielding_symmetric s = Some t /\ D t <> None) by (vm_compute in E; injection E as <-; eexists; split; [reflexivity|discriminate]). destruct X as (t & T & DT).
  apply (C40_site_tensor_refuted s t O). left. auto.
Qed.
(** A triple-quantum method: it is saved, and read as a method with other queries. *)
Definition mqmas : jdict :=
  [("name", JStr "ThreeQ_VAS"); ("channels", JList [JStr "27Al"]);
   ("spectral_dimensions", JList [JDict [("events", JList [JDict [("transition_query", JDict [("P", JDict [("channel-1", JList [JList [JNum (q (-3))]])])])]])]])].
Example C40_named_case : holds (fun m => holds (fun d => holds (fun r => r <> m) (parse_method d)) (json_method m) /\ m_name m = Some "ThreeQ_VAS") (parse_method mqmas).
Proof.
  destruct (parse_method mqmas) as [m|] eqn:E; [|vm_compute in E; discriminate]. vm_compute in E. injection E as <-. cbn [holds]. split; [|reflexivity].
  destruct (json_method _) as [d|] eqn:J; [|vm_compute in J; discriminate]. vm_compute in J. injection J as <-. cbn [holds].
  destruct (parse_method _) as [r|] eqn:P; [|vm_compute in P; discriminate]. vm_compute in P. injection P as <-. cbn [holds]. discriminate.
Qed.
Example C40_read_simulator : holds (fun s => Forall (fun y => system_obtained y /\ clean_system y) (spin_systems s) /\
  Forall (fun m => method_obtained m /\ clean_method m /\ exists n, m_name m = Some n /\ ~ In n ["Method1D"; "Method2D"]) (methods s) /\
  config_obtained (sim_config s) /\ length (spin_systems s) = 1%nat /\ length (methods s) = 1%nat) (parse_simulator (fun _ _ => Err OtherException) sim_dict).
Proof.
  destruct (holds_ok _ _ _ C40_read_system) as (y & Ey & Oy & Cy & _ & _). destruct (holds_ok _ _ _ C40_read_method) as (m & Em & Om & Cm & Nm & _).
  assert (E : parse_simulator (fun _ _ => Err OtherException) sim_dict = let* y := parse_system system_dict in let* m := parse_method method_dict in let* c := make_config [] in Ok (mkSim (Some "run") None None [y] [m] c)) by (vm_compute; reflexivity).
  rewrite E, Ey, Em. cbn [bind]. destruct (make_config []) as [c|] eqn:C; [|vm_compute in C; discriminate]. cbn [bind holds spin_systems methods sim_config].
  split; [constructor; [split; assumption|constructor]|]. split; [|split; [now exists []|split; reflexivity]]. constructor; [|constructor]. split; [exact Om|]. split; [exact Cm|].
  exists "mine". split; [exact Nm|]. cbn. intuition discriminate.
Qed.
Print Assumptions C40_symmetric_tensor.
Print Assumptions C40_antisymmetric_tensor.
Print Assumptions C40_site_partial.
Print Assumptions C40_coupling_partial.
Print Assumptions C40_system_partial.
Print Assumptions C40_event_partial.
Print Assumptions C40_dimension_partial.
Print Assumptions C40_method_partial.
Print Assumptions C40_simulator_partial.
Print Assumptions C40_plain_json.
Print Assumptions C40_pathways_refuted.
Print Assumptions C40_empty_text_refuted.
Print Assumptions C40_site_tensor_refuted.
Print Assumptions C40_coupling_tensor_refuted.
Print Assumptions C40_antisymmetric_j_refuted.
Print Assumptions C40_query_refuted.
Print Assumptions C40_no_events_refuted.
Print Assumptions C40_named_refuted.
Print Assumptions C40_named_simulator_refuted.
Print Assumptions C40_unnamed_refuted.

(** * C82: quantities are read as the same amount, in any unit of the right type *)
(** The amounts. *)
Theorem C82_tensor : forall d t v, parse_sym d = Ok t ->
  (dict_lookup d "zeta" = Some v -> exists x u ty, zeta t = Some x /\ dict_lookup (sym_units t) "zeta" = Some u /\
     (u = "ppm" /\ ty = "dimensionless" \/ u = "Hz" /\ ty = "frequency") /\ amount x u ty v) /\
  (dict_lookup d "Cq" = Some v -> exists x, Cq t = Some x /\ amount x "Hz" "frequency" v) /\
  (dict_lookup d "D" = Some v -> exists x, D t = Some x /\ amount x "Hz" "frequency" v) /\
  (dict_lookup d "alpha" = Some v -> exists x, alpha t = Some x /\ amount x "rad" "angle" v) /\
  (dict_lookup d "beta" = Some v -> exists x, beta t = Some x /\ amount x "rad" "angle" v) /\
  (dict_lookup d "gamma" = Some v -> exists x, gamma t = Some x /\ amount x "rad" "angle" v).
Proof. exact sym_amount. Qed.
Theorem C82_site : forall d s v, parse_site d = Ok s -> dict_lookup d "isotropic_chemical_shift" = Some v -> amount (isotropic_chemical_shift s) "ppm" "dimensionless" v.
Proof. exact site_amount. Qed.
Theorem C82_coupling : forall d c v, parse_coupling d = Ok c -> dict_lookup d "isotropic_j" = Some v -> amount (isotropic_j c) "Hz" "frequency" v.
Proof. exact coupling_amount. Qed.
Theorem C82_system : forall d y v, parse_system d = Ok y -> dict_lookup d "abundance" = Some v -> amount (abundance y) "pct" "dimensionless" v.
Proof. exact system_amount. Qed.
Theorem C82_event : forall d e v, parse_event d = Ok e ->
  (dict_lookup d "magnetic_flux_density" = Some v -> amount (magnetic_flux_density e) "T" "magnetic flux density" v) /\
  (dict_lookup d "rotor_frequency" = Some v -> amount (rotor_frequency e) "Hz" "frequency" v) /\
  (dict_lookup d "rotor_angle" = Some v -> amount (rotor_angle e) "rad" "angle" v).
Proof. exact event_amount. Qed.
Theorem C82_dimension : forall d x v, parse_dim d = Ok x ->
  (dict_lookup d "spectral_width" = Some v -> exists u ty, dict_lookup (d_units x) "spectral_width" = Some u /\
     (u = "ppm" /\ ty = "dimensionless" \/ u = "Hz" /\ ty = "frequency") /\ amount (spectral_width x) u ty v) /\
  (dict_lookup d "reference_offset" = Some v -> exists u ty, dict_lookup (d_units x) "reference_offset" = Some u /\
     (u = "ppm" /\ ty = "dimensionless" \/ u = "Hz" /\ ty = "frequency") /\ amount (reference_offset x) u ty v) /\
  (dict_lookup d "origin_offset" = Some v -> exists o u ty, origin_offset x = Some o /\ dict_lookup (d_units x) "origin_offset" = Some u /\
     (u = "ppm" /\ ty = "dimensionless" \/ u = "Hz" /\ ty = "frequency") /\ amount o u ty v).
Proof. exact dim_amount. Qed.
(** Two dicts that differ by the units in which the quantities are written, at any depth, give the same result, object or error. *)
Lemma same_dicts d e : same_amount (JDict d) (JDict e) -> drel d e.
Proof. intros H. inversion H; subst; [apply drel_refl|assumption]. Qed.
Theorem C82_same_objects : forall d e, same_amount (JDict d) (JDict e) ->
  parse_sym d = parse_sym e /\ parse_anti d = parse_anti e /\ parse_site d = parse_site e /\ parse_coupling d = parse_coupling e /\ parse_system d = parse_system e /\
  parse_event d = parse_event e /\ parse_dim d = parse_dim e /\ parse_method d = parse_method e.
Proof.
  intros d e H. apply same_dicts in H. repeat split; [apply parse_sym_rel|apply parse_anti_rel|apply parse_site_rel|apply parse_coupling_rel|apply parse_system_rel|apply parse_event_rel|apply parse_dim_rel|apply parse_method_rel]; exact H.
Qed.
Theorem C82_same_simulator_partial : forall parse_named d e, (forall n x y, same_amount (JDict x) (JDict y) -> parse_named n x = parse_named n y) ->
  same_amount (JDict d) (JDict e) -> parse_simulator parse_named d = parse_simulator parse_named e.
Proof. intros pn d e P H. apply parse_simulator_rel; [|now apply same_dicts]. intros n x y R. apply P. now apply same_dict. Qed.
(** A number without a unit, a text, or a quantity of another type is refused. *)
Theorem C82_wrong_type : forall d v, (forall q u s, v = JQty q u -> unit_info u <> Some ("dimensionless", s)) ->
  dict_lookup d "isotropic_chemical_shift" = Some v -> exists e, parse_site d = Err e.
Proof.
  intros d v N L. destruct (parse_site d) as [s|e] eqn:P; [|eauto]. exfalso. destruct (site_amount d s v P L) as (x & u & a & b & -> & U & _). exact (N x u a eq_refl U).
Qed.
Ltac sm := first [apply same_refl | eapply same_qty; [reflexivity|reflexivity|apply Qc_is_canon; vm_compute; reflexivity] |
  apply same_dict; repeat (apply Forall2_cons; [split; [reflexivity|split; [discriminate|cbn [snd]; sm]]|]); apply Forall2_nil].
Example C82_witness : same_amount (JDict site_dict)
  (JDict [("name", JStr "Al1"); ("isotope", JStr "27Al"); ("isotropic_chemical_shift", JQty (q 100) "ppm");
   ("shielding_symmetric", JDict [("zeta", JQty (Q2Qc (12 # 10000)) "%"); ("eta", JNum (Q2Qc (1 # 2)))]);
   ("quadrupolar", JDict [("Cq", JQty (q 3000) "kHz"); ("eta", JNum 0); ("alpha", JQty (Q2Qc (1 # 2)) "rad")])]).
Proof.
  sm.
Qed.
Print Assumptions C82_tensor.
Print Assumptions C82_site.
Print Assumptions C82_coupling.
Print Assumptions C82_system.
Print Assumptions C82_event.
Print Assumptions C82_dimension.
Print Assumptions C82_same_objects.
Print Assumptions C82_same_simulator_partial.
Print Assumptions C82_wrong_type.

(** * C83: reading a dict leaves the dict as it was, so that it can be read again *)
(** A dict with a chemical shift, a J coupling or a tensor attribute is changed by the reading and cannot be read a second time. *)
Lemma twice t d d1 pu k sp v : NoDup (map fst t) -> parse_units t d = Ok (d1, pu) -> dict_lookup d k = Some v -> dict_lookup t k = Some sp -> exists e, parse_units t d1 = Err e.
Proof.
  intros N P L T. destruct (read_amount t d d1 pu k sp v N P L T) as (x & u & ty & K & _). eapply unfit; [exact N|apply lookup_in; exact T|exact K|].
  destruct sp as [a b|o]; cbn [fit]; [now rewrite enforce_num|]. clear T. induction o as [|[a b] o IH]; [reflexivity|]. cbn [first_fit]. rewrite enforce_num. exact IH.
Qed.
Theorem C83_site_refuted : forall d s v, parse_site d = Ok s -> dict_lookup d "isotropic_chemical_shift" = Some v ->
  dict_lookup d "shielding_symmetric" = None -> dict_lookup d "shielding_antisymmetric" = None -> dict_lookup d "quadrupolar" = None ->
  site_argument_after d <> d /\ exists e, parse_site (site_argument_after d) = Err e.
Proof.
  intros d s v H L _ _ _. unfold site_argument_after. pose proof H as H0. unfold parse_site in H. do 4 inv H. destruct a2 as [d1 pu]. rewrite E2.
  destruct (twice site_table d d1 pu _ _ v ltac:(nd) E2 L eq_refl) as [e T].
  assert (B : exists e, parse_site d1 = Err e) by (destruct (parse_site d1) as [r|e1] eqn:P; [|eauto]; exfalso; unfold parse_site in P; do 3 inv P; rewrite T in P; discriminate).
  split; [|exact B]. intros ->. destruct B as [e0 B]. congruence.
Qed.
Theorem C83_coupling_refuted : forall d c v, parse_coupling d = Ok c -> dict_lookup d "isotropic_j" = Some v ->
  dict_lookup d "j_symmetric" = None -> dict_lookup d "j_antisymmetric" = None -> dict_lookup d "dipolar" = None ->
  coupling_argument_after d <> d /\ exists e, parse_coupling (coupling_argument_after d) = Err e.
Proof.
  intros d s v H L _ _ _. unfold coupling_argument_after. pose proof H as H0. unfold parse_coupling in H. do 6 inv H. destruct a4 as [d1 pu]. rewrite E4.
  destruct (twice coupling_table d d1 pu _ _ v ltac:(nd) E4 L eq_refl) as [e T].
  assert (B : exists e, parse_coupling d1 = Err e) by (destruct (parse_coupling d1) as [r|e1] eqn:P; [|eauto]; exfalso; unfold parse_coupling in P; do 5 inv P; rewrite T in P; discriminate).
  split; [|exact B]. intros ->. destruct B as [e0 B]. congruence.
Qed.
Theorem C83_tensor_refuted : forall d t k v, parse_sym d = Ok t -> In k ["zeta"; "Cq"; "D"; "alpha"; "beta"; "gamma"] -> dict_lookup d k = Some v ->
  sym_argument_after d <> d /\ exists e, parse_sym (sym_argument_after d) = Err e.
Proof.
  intros d t k v H I L. unfold sym_argument_after. pose proof H as H0. unfold parse_sym in H. inv H. destruct a as [d1 pu]. rewrite E.
  assert (S : exists sp, dict_lookup sym_table k = Some sp) by (cbn in I; repeat (destruct I as [<-|I]; [eexists; reflexivity|]); destruct I). destruct S as [sp S].
  destruct (twice sym_table d d1 pu k sp v ltac:(nd) E L S) as [e T]. assert (B : exists e, parse_sym d1 = Err e) by (exists e; unfold parse_sym; now rewrite T).
  split; [|exact B]. intros ->. destruct B as [e0 B]. congruence.
Qed.
(** Only a dict without any quantity is left as it was. *)
Theorem C83_no_quantity : forall d s, parse_site d = Ok s -> dict_lookup d "isotropic_chemical_shift" = None -> site_argument_after d = d.
Proof. intros d s H L. unfold site_argument_after, parse_units, site_table. cbn [for_each]. rewrite L. reflexivity. Qed.
Example C83_witness : holds (fun s => this (isotropic_chemical_shift s) = (5 # 1)%Q) (parse_site [("isotropic_chemical_shift", JQty (q 5) "ppm")]) /\
  holds (fun c => site_index c = [0%Z; 1%Z]) (parse_coupling [("site_index", JList [JNum (q 0); JNum (q 1)]); ("isotropic_j", JQty (q 5) "Hz")]) /\
  holds (fun t => option_map this (Cq t) = Some (5 # 1)%Q) (parse_sym [("Cq", JQty (q 5) "Hz")]).
Proof. split; [|split]; vm_compute; reflexivity. Qed.
Print Assumptions C83_site_refuted.
Print Assumptions C83_coupling_refuted.
Print Assumptions C83_tensor_refuted.
Print Assumptions C83_no_quantity.

(** * C84: the unit given with a spectral width, an offset or a zeta matters to the simulation *)
(** A width given in ppm is read as the same number as the width in Hz, and the two dimensions have the same attributes. *)
Definition same_axis (x y : dimension) : Prop :=
  count x = count y /\ spectral_width x = spectral_width y /\ reference_offset x = reference_offset y /\ origin_offset x = origin_offset y /\ events x = events y /\
  d_label x = d_label y /\ d_description x = d_description y.
Theorem C84_ppm_refuted : forall n w o, (0 < n)%Z -> (0 < w)%Qc -> forall p, In p ["Hz"; "ppm"] -> forall r, In r ["Hz"; "ppm"] ->
  exists x y, parse_dim [("count", JNum (Qc_of_Z n)); ("spectral_width", JQty w "Hz"); ("reference_offset", JQty o "Hz")] = Ok x /\
    parse_dim [("count", JNum (Qc_of_Z n)); ("spectral_width", JQty w p); ("reference_offset", JQty o r)] = Ok y /\ same_axis x y.
Proof.
  intros n w o Hn Hw.
  assert (R : forall p, In p ["Hz"; "ppm"] -> forall r, In r ["Hz"; "ppm"] -> parse_dim [("count", JNum (Qc_of_Z n)); ("spectral_width", JQty w p); ("reference_offset", JQty o r)] =
    Ok (mkDim n w o None None None [] [("spectral_width", p); ("reference_offset", r); ("origin_offset", "Hz")])).
  { Local Opaque enforce_units Qc_leb Qc_eq_bool. intros p Hp r Hr. unfold parse_dim. destruct Hp as [<-|[<-|[]]], Hr as [<-|[<-|[]]]; enf; unfold no_units_key, make_dim; cbn; rewrite ?int_of_Z, ?(Qc_pos w Hw);
      (destruct (Z.ltb_spec 0 n); [|lia]); reflexivity. }
  intros p Hp r Hr. eexists. eexists. split; [apply R; now left|]. split; [apply R; assumption|]. repeat split.
Qed.
(** A shielding zeta in Hz is read as the same number of ppm. *)
Theorem C84_zeta_refuted : forall z u, In u ["ppm"; "Hz"] -> exists t, parse_site [("isotope", JStr "29Si"); ("shielding_symmetric", JDict [("zeta", JQty z u)])] =
  Ok (mkSite None None None "29Si" 0 (Some t) None None [("isotropic_chemical_shift", "ppm")]) /\
  zeta t = Some z /\ Cq t = None /\ D t = None /\ eta t = None /\ alpha t = None /\ beta t = None /\ gamma t = None.
Proof.
  intros z u [<-|[<-|[]]]; unfold parse_site, opt_parse, parse_sym; enf; eexists; split; try reflexivity; repeat split; reflexivity.
Qed.
Example C84_witness : (0 < 512)%Z /\ (0 < q 25000)%Qc. Proof. split; reflexivity. Qed.
Print Assumptions C84_ppm_refuted.
Print Assumptions C84_zeta_refuted.
