(** Proofs about saving and loading without units: reading, and the objects that can be obtained. *)
From Coq Require Import ZArith QArith Qcanon Bool Ascii String Lia List.
From Verif Require Import Base SitesModel SitesSpec SitesProofs JsonModel JsonSpec JsonProofs JsonUnits BareModel BareSpec BareProofs.
Import ListNotations.
Open Scope string_scope.
Open Scope list_scope.

(** ** The bounds of the attributes *)
Definition valid_site (s : site) : Prop :=
  (exists n, In (isotope s, n) isotope_data /\ (quadrupolar s <> None -> (2 <= n)%Z)) /\
  on (fun t => eta_ok (eta t)) (shielding_symmetric s) /\ on (fun t => eta_ok (eta t)) (quadrupolar s).
Definition valid_coupling (c : coupling) : Prop :=
  (exists a b, site_index c = [a; b] /\ a <> b) /\ on (fun t => eta_ok (eta t)) (j_symmetric c) /\ on (fun t => eta_ok (eta t)) (dipolar c).
Definition valid_system (y : spin_system) : Prop :=
  Forall valid_site (sites y) /\ on (Forall valid_coupling) (couplings y) /\ (0 <= abundance y)%Qc /\ (abundance y <= Q2Qc (100 # 1))%Qc.
Definition valid_event (e : event) : Prop :=
  (0 <= magnetic_flux_density e)%Qc /\ (0 <= rotor_frequency e)%Qc /\ (0 <= rotor_angle e)%Qc /\ (rotor_angle e <= Q2Qc (15707963268 # 10000000000))%Qc /\
  incl (freq_contrib e) freq_list_all.
Definition valid_dim (x : dimension) : Prop := (0 < count x)%Z /\ (0 < spectral_width x)%Qc /\ Forall valid_event (events x).
Definition valid_method (m : method) : Prop := Forall (fun c => exists n, In (c, n) isotope_data) (channels m) /\ Forall valid_dim (dims m).

(** ** Reading *)
Lemma got_num J k o valid : (forall x, o = Some x -> valid x = true) -> dict_lookup J k = (if shown (num_or_none o) then Some (num_or_none o) else None) -> opt_num J k valid = Ok o.
Proof. intros V L. unfold opt_num. rewrite L. destruct o; cbn; [now rewrite V|reflexivity]. Qed.
Lemma got_str J k o : dict_lookup J k = (if shown (str_or_none o) then Some (str_or_none o) else None) -> opt_str J k = Ok o.
Proof. intros L. unfold opt_str. rewrite L. now destruct o. Qed.
Lemma got_def J k x default valid : valid x = true -> dict_lookup J k = Some (JNum x) -> def_num J k default valid = Ok x.
Proof. intros V L. unfold def_num. now rewrite L, V. Qed.
Lemma got_int J k z default valid : valid z = true -> dict_lookup J k = Some (JNum (Qc_of_Z z)) -> def_int J k default valid = Ok z.
Proof. intros V L. unfold def_int. now rewrite L, int_of_Z, V. Qed.
Lemma no_given t J : dict_lookup J "property_units" = None -> given_units t J = Ok (default_units t).
Proof. unfold given_units. now intros ->. Qed.
Lemma got_opt A B (read : jdict -> pyres B) (f : A -> jdict) (g : A -> B) J k o : on (fun a => read (f a) = Ok (g a)) o ->
  dict_lookup J k = (if shown (dict_or_none f o) then Some (dict_or_none f o) else None) -> opt_read read J k = Ok (option_map g o).
Proof. intros H L. unfold opt_read. rewrite L. destruct o as [a|]; cbn in *; [now rewrite H|reflexivity]. Qed.
Lemma got_list A B (read : jdict -> pyres B) (f : A -> jdict) (g : A -> B) J k l : Forall (fun a => read (f a) = Ok (g a)) l ->
  dict_lookup J k = Some (list_of f l) -> list_read read J k = Ok (Some (map g l)).
Proof.
  intros H L. unfold list_read. rewrite L. unfold list_of.
  assert (M : mapM (fun x => match x with JDict e => read e | _ => Err ValueError end) (map (fun a => JDict (f a)) l) = Ok (map g l)).
  { clear L. induction H as [|a l H F IH]; [reflexivity|]. cbn [map mapM]. rewrite H. cbn [bind]. now rewrite IH. }
  now rewrite M.
Qed.
Ltac lk := match goal with |- dict_lookup ?J _ = _ => unfold J end || idtac.
Ltac lookup := rewrite look by nd; reflexivity.
Lemma new_sym_saved t : eta_ok (eta t) -> new_sym (saved_sym t) = Ok (in_units (default_units sym_table) t).
Proof.
  intros E. unfold new_sym, saved_sym. rewrite no_given by lookup. cbn [bind]. unfold make_sym.
  rewrite (got_num _ "zeta" (zeta t)) by (auto; lookup). cbn [bind]. rewrite (got_num _ "Cq" (Cq t)) by (auto; lookup). cbn [bind].
  rewrite (got_num _ "D" (D t)) by (auto; lookup). cbn [bind]. rewrite (got_num _ "eta" (eta t)); [|intros x X; now apply (eta_valid (eta t))|lookup]. cbn [bind].
  rewrite (got_num _ "alpha" (alpha t)) by (auto; lookup). cbn [bind]. rewrite (got_num _ "beta" (beta t)) by (auto; lookup). cbn [bind].
  rewrite (got_num _ "gamma" (gamma t)) by (auto; lookup). reflexivity.
Qed.
Lemma new_anti_saved t : new_anti (saved_anti t) = Ok (anti_in_units (default_units anti_table) t).
Proof.
  unfold new_anti, saved_anti. rewrite no_given by lookup. cbn [bind]. unfold make_anti.
  rewrite (got_num _ "zeta" (a_zeta t)) by (auto; lookup). cbn [bind]. rewrite (got_num _ "alpha" (a_alpha t)) by (auto; lookup). cbn [bind].
  rewrite (got_num _ "beta" (a_beta t)) by (auto; lookup). reflexivity.
Qed.
Lemma on_imp A (P Q : A -> Prop) o : (forall x, P x -> Q x) -> on P o -> on Q o.
Proof. destruct o; cbn; auto. Qed.
Lemma on_all A (P : A -> Prop) o : (forall x, P x) -> on P o.
Proof. destruct o; cbn; auto. Qed.
Lemma new_site_saved s : valid_site s -> new_site (saved_site s) = Ok (plain_site s).
Proof.
  intros ((n & I & Q) & E1 & E2). unfold new_site, saved_site. rewrite no_given by lookup. cbn [bind].
  rewrite (got_opt _ _ new_sym saved_sym (in_units (default_units sym_table)) _ "shielding_symmetric" (shielding_symmetric s)); [|revert E1; apply on_imp; apply new_sym_saved|lookup]. cbn [bind].
  rewrite (got_opt _ _ new_anti saved_anti (anti_in_units (default_units anti_table)) _ "shielding_antisymmetric" (shielding_antisymmetric s)); [|apply on_all; apply new_anti_saved|lookup]. cbn [bind].
  rewrite (got_opt _ _ new_sym saved_sym (in_units (default_units sym_table)) _ "quadrupolar" (quadrupolar s)); [|revert E2; apply on_imp; apply new_sym_saved|lookup]. cbn [bind].
  unfold make_site. rewrite (got_str _ "name" (s_name s)) by lookup. cbn [bind]. rewrite (got_str _ "label" (s_label s)) by lookup. cbn [bind].
  rewrite (got_str _ "description" (s_description s)) by lookup. cbn [bind].
  assert (LI : forall items, NoDup (map fst items) -> dict_lookup items "isotope" = Some (JStr (isotope s)) -> dict_lookup (kept_of items) "isotope" = Some (JStr (isotope s))).
  { intros items N L. rewrite look by exact N. now rewrite L. }
  rewrite LI by (nd || reflexivity). clear LI. destruct (isotope_spin _ n I) as [-> TS]. cbn [bind].
  rewrite (got_def _ _ (isotropic_chemical_shift s)) by (reflexivity || lookup). cbn [bind].
  unfold plain_site. destruct (quadrupolar s) as [t|] eqn:QE; cbn [option_map].
  - rewrite TS. cbn [bind]. assert (LE : (n <? 2)%Z = false) by (apply Z.ltb_ge, Q; discriminate). rewrite LE. cbn [bind].
    destruct (shielding_symmetric s), (shielding_antisymmetric s); reflexivity.
  - cbn [bind]. destruct (shielding_symmetric s), (shielding_antisymmetric s); reflexivity.
Qed.
Lemma new_coupling_saved c : valid_coupling c -> new_coupling (saved_coupling c) = Ok (plain_coupling c).
Proof.
  intros ((a & b & SI & NE) & E1 & E2). unfold new_coupling, saved_coupling. rewrite no_given by lookup. cbn [bind].
  rewrite (got_opt _ _ new_sym saved_sym (in_units (default_units sym_table)) _ "j_symmetric" (j_symmetric c)); [|revert E1; apply on_imp; apply new_sym_saved|lookup]. cbn [bind].
  rewrite (got_opt _ _ new_anti saved_anti (anti_in_units (default_units anti_table)) _ "j_antisymmetric" (j_antisymmetric c)); [|apply on_all; apply new_anti_saved|lookup]. cbn [bind].
  rewrite (got_opt _ _ new_sym saved_sym (in_units (default_units sym_table)) _ "dipolar" (dipolar c)); [|revert E2; apply on_imp; apply new_sym_saved|lookup]. cbn [bind].
  unfold make_coupling. rewrite (got_str _ "name" (c_name c)) by lookup. cbn [bind]. rewrite (got_str _ "label" (c_label c)) by lookup. cbn [bind].
  rewrite (got_str _ "description" (c_description c)) by lookup. cbn [bind].
  assert (LI : forall items v, NoDup (map fst items) -> dict_lookup items "site_index" = Some v -> shown v = true -> dict_lookup (kept_of items) "site_index" = Some v).
  { intros items v N L S. rewrite look by exact N. now rewrite L, S. }
  erewrite LI by (nd || reflexivity). clear LI. rewrite int_list_round. cbn [bind]. rewrite SI.
  assert (AB : (a =? b)%Z = false) by now apply Z.eqb_neq. rewrite AB. cbn [bind].
  rewrite (got_def _ _ (isotropic_j c)) by (reflexivity || lookup). cbn [bind]. unfold plain_coupling. rewrite SI.
  destruct (j_symmetric c), (j_antisymmetric c), (dipolar c); reflexivity.
Qed.
Lemma new_system_saved y : valid_system y -> savable_system y -> new_system (saved_system y) = Ok (plain_spins y).
Proof.
  intros (VS & VC & A1 & A2) SV. unfold new_system, saved_system. rewrite no_given by lookup. cbn [bind].
  rewrite (got_list _ _ new_site saved_site plain_site _ "sites" (sites y)); [|revert VS; apply Forall_impl; apply new_site_saved|lookup]. cbn [bind].
  assert (C : forall items, NoDup (map fst items) -> dict_lookup items "couplings" = Some (match couplings y with Some l => list_of saved_coupling l | None => JNone end) ->
    (match dict_lookup (kept_of items) "couplings" with Some JNone => Ok None | _ => list_read new_coupling (kept_of items) "couplings" end) = Ok (option_map (map plain_coupling) (couplings y))).
  { intros items N L. destruct (couplings y) as [l|].
    - assert (K : dict_lookup (kept_of items) "couplings" = Some (list_of saved_coupling l)) by (rewrite look by exact N; now rewrite L). rewrite K. unfold list_of at 1. cbn [option_map].
      apply (got_list _ _ new_coupling saved_coupling plain_coupling); [cbn in VC; revert VC; apply Forall_impl; apply new_coupling_saved|exact K].
    - assert (K : dict_lookup (kept_of items) "couplings" = None) by (rewrite look by exact N; now rewrite L). rewrite K. unfold list_read. now rewrite K. }
  rewrite C by (nd || reflexivity). clear C. cbn [bind]. unfold make_system.
  rewrite (got_str _ "name" (y_name y)) by lookup. cbn [bind]. rewrite (got_str _ "label" (y_label y)) by lookup. cbn [bind].
  rewrite (got_str _ "description" (y_description y)) by lookup. cbn [bind].
  rewrite (got_def _ _ (abundance y)); [|now rewrite !Qc_leb_true|lookup]. cbn [bind].
  assert (T : forall items v, NoDup (map fst items) -> dict_lookup items "transition_pathways" = Some v -> dict_lookup (kept_of items) "transition_pathways" = if shown v then Some v else None).
  { intros items v N L. rewrite look by exact N. now rewrite L. }
  erewrite T by (nd || reflexivity). clear T. unfold savable_system in SV. unfold plain_spins. destruct (transition_pathways y) as [[|]|]; [reflexivity|destruct SV|reflexivity].
Qed.
Lemma got_dict J k o : dict_lookup J k = (if shown (dict_or_none (fun d => d) o) then Some (dict_or_none (fun d => d) o) else None) ->
  forall default, opt_dict J k default = Ok (match o with Some d => Some d | None => default end).
Proof. intros L default. unfold opt_dict. rewrite L. now destruct o. Qed.
Lemma new_query_saved q : make_query (saved_query q) = Ok (plain_query q).
Proof.
  unfold make_query, saved_query. rewrite (got_dict _ "P" (q_P q)) by lookup. cbn [bind]. rewrite (got_dict _ "D" (q_D q)) by lookup. cbn [bind].
  rewrite (got_dict _ "F" (q_F q)) by lookup. cbn [bind].
  assert (T : forall items v, NoDup (map fst items) -> dict_lookup items "transitions" = Some v -> dict_lookup (kept_of items) "transitions" = if shown v then Some v else None).
  { intros items v N L. rewrite look by exact N. now rewrite L. }
  erewrite T by (nd || reflexivity). clear T. unfold plain_query. destruct (q_transitions q) as [l|]; cbn [shown]; [rewrite transitions_round|]; cbn [bind];
  destruct (q_P q), (q_D q), (q_F q); reflexivity.
Qed.
Lemma freq_round l : incl l freq_list_all ->
  mapM (fun x => match x with JStr s => if existsb (String.eqb s) freq_list_all then Ok s else Err ValueError | _ => Err ValueError end) (map JStr l) = Ok l.
Proof.
  induction l as [|x l IH]; intros I; [reflexivity|]. cbn [map mapM].
  assert (E : existsb (String.eqb x) freq_list_all = true) by (apply existsb_exists; exists x; split; [apply I; now left|apply String.eqb_refl]).
  rewrite E. cbn [bind]. rewrite IH; [reflexivity|]. intros y Y. apply I. now right.
Qed.
Lemma new_event_saved e : valid_event e -> new_event (saved_event e) = Ok (plain_event e).
Proof.
  intros (B & R & A1 & A2 & FC). unfold new_event, saved_event. rewrite no_given by lookup. cbn [bind]. unfold make_event.
  rewrite (got_def _ _ (fraction e)) by (reflexivity || lookup). cbn [bind].
  rewrite (got_def _ _ (magnetic_flux_density e)); [|now apply Qc_leb_true|lookup]. cbn [bind].
  rewrite (got_def _ _ (rotor_frequency e)); [|now apply Qc_leb_true|lookup]. cbn [bind].
  rewrite (got_def _ _ (rotor_angle e)); [|unfold angle_range; now rewrite !Qc_leb_true|lookup]. cbn [bind].
  assert (T : forall items k v, NoDup (map fst items) -> dict_lookup items k = Some v -> shown v = true -> dict_lookup (kept_of items) k = Some v).
  { intros items k v N L S. rewrite look by exact N. now rewrite L, S. }
  erewrite (T _ "freq_contrib") by (nd || reflexivity). rewrite (T _ "transition_query" (JDict (saved_query (transition_query e)))) by (nd || reflexivity). clear T. rewrite freq_round by exact FC. cbn [bind]. rewrite new_query_saved. reflexivity.
Qed.
Lemma new_dim_saved x : valid_dim x -> new_dim (saved_dim x) = Ok (plain_dim x).
Proof.
  intros (C & W & E). unfold new_dim, saved_dim. rewrite no_given by lookup. cbn [bind].
  rewrite (got_list _ _ new_event saved_event plain_event _ "events" (events x)); [|revert E; apply Forall_impl; apply new_event_saved|lookup]. cbn [bind]. unfold make_dim.
  rewrite (got_int _ _ (count x)); [|now apply Z.ltb_lt|lookup]. cbn [bind].
  rewrite (got_def _ _ (spectral_width x)); [|now apply Qc_pos|lookup]. cbn [bind].
  rewrite (got_def _ _ (reference_offset x)) by (reflexivity || lookup). cbn [bind].
  rewrite (got_num _ "origin_offset" (origin_offset x)) by (auto; lookup). cbn [bind].
  rewrite (got_str _ "label" (d_label x)) by lookup. cbn [bind]. rewrite (got_str _ "description" (d_description x)) by lookup. reflexivity.
Qed.
Lemma channels_round l : Forall (fun c => exists n, In (c, n) isotope_data) l ->
  mapM (fun x => match x with JStr s => format_isotope_string s | _ => Err ValueError end) (map JStr l) = Ok l.
Proof.
  induction 1 as [|c l [n I] F IH]; [reflexivity|]. cbn [map mapM]. destruct (isotope_spin c n I) as [-> _]. cbn [bind]. now rewrite IH.
Qed.
Lemma new_method_saved m : valid_method m -> affine m = None -> new_method (saved_method m) = Ok (plain_method m).
Proof.
  intros (C & X) A. unfold new_method, saved_method.
  rewrite (got_list _ _ new_dim saved_dim plain_dim _ "spectral_dimensions" (dims m)); [|revert X; apply Forall_impl; apply new_dim_saved|lookup]. cbn [bind]. unfold make_method.
  rewrite (got_str _ "name" (m_name m)) by lookup. cbn [bind]. rewrite (got_str _ "label" (m_label m)) by lookup. cbn [bind].
  rewrite (got_str _ "description" (m_description m)) by lookup. cbn [bind].
  assert (T : forall items k v, NoDup (map fst items) -> dict_lookup items k = Some v -> dict_lookup (kept_of items) k = if shown v then Some v else None).
  { intros items k v N L. rewrite look by exact N. now rewrite L. }
  erewrite (T _ "channels") by (nd || reflexivity). cbn [shown]. rewrite channels_round by exact C. cbn [bind].
  erewrite (T _ "affine_matrix") by (nd || reflexivity). clear T. cbn [shown bind].
  rewrite (got_dict _ "simulation" (simulation m)) by lookup. cbn [bind]. rewrite (got_dict _ "experiment" (experiment m)) by lookup. cbn [bind].
  unfold plain_method. rewrite A. destruct (simulation m), (experiment m); reflexivity.
Qed.
Lemma load_saved s : Forall valid_system (spin_systems s) -> Forall valid_method (methods s) -> good_config (sim_config s) -> savable s ->
  load_bare (JDict (saved_simulator s)) = Ok (plain_simulator s).
Proof.
  intros Y M C [SY SM]. unfold load_bare, saved_simulator.
  rewrite (got_str _ "name" (x_name s)) by lookup. cbn [bind]. rewrite (got_str _ "label" (x_label s)) by lookup. cbn [bind].
  rewrite (got_str _ "description" (x_description s)) by lookup. cbn [bind].
  rewrite (got_list _ _ new_system saved_system plain_spins _ "spin_systems" (spin_systems s)); [|apply (Forall_and_impl _ _ _ _ _ Y SY); intros; now apply new_system_saved|lookup]. cbn [bind].
  rewrite (got_list _ _ new_method saved_method plain_method _ "methods" (methods s)); [|apply (Forall_and_impl _ _ _ _ _ M SM); intros m V S; apply new_method_saved; [exact V|apply S]|lookup]. cbn [bind].
  assert (T : forall items k v, NoDup (map fst items) -> dict_lookup items k = Some v -> shown v = true -> dict_lookup (kept_of items) k = Some v).
  { intros items k v N L S. rewrite look by exact N. now rewrite L, S. }
  rewrite (T _ "config" (JDict (json_config (sim_config s)))) by (nd || reflexivity). rewrite config_round by exact C. reflexivity.
Qed.

(** ** The objects that can be obtained *)
Definition role_site (s : site) : Prop := s_units s = [("isotropic_chemical_shift", "ppm")] /\
  on (fun t => exists u, sym_units t = ("zeta", u) :: angles) (shielding_symmetric s) /\
  on (fun t => anti_units t = [("zeta", "ppm"); ("alpha", "rad"); ("beta", "rad")]) (shielding_antisymmetric s) /\ has_units (("Cq", "Hz") :: angles) (quadrupolar s).
Definition role_coupling (c : coupling) : Prop := c_units c = [("isotropic_j", "Hz")] /\ has_units (("zeta", "Hz") :: angles) (j_symmetric c) /\
  on (fun t => anti_units t = [("zeta", "Hz"); ("alpha", "rad"); ("beta", "rad")]) (j_antisymmetric c) /\ has_units (("D", "Hz") :: angles) (dipolar c).
Definition role_system (y : spin_system) : Prop := y_units y = [("abundance", "pct")] /\ Forall role_site (sites y) /\ on (Forall role_coupling) (couplings y).
Definition role_dim (x : dimension) : Prop := Forall (fun e => e_units e = [("magnetic_flux_density", "T"); ("rotor_frequency", "Hz"); ("rotor_angle", "rad")]) (events x).
Lemma made_site d ss sa qd s : on good_sym ss -> on good_anti sa -> on good_sym qd -> make_site d ss sa qd [("isotropic_chemical_shift", "ppm")] = Ok s -> valid_site s /\ role_site s.
Proof.
  intros Gs Ga Gq H. unfold make_site in H. do 6 inv H. injection H as <-. unfold valid_site, role_site.
  cbn [s_name s_label s_description isotope isotropic_chemical_shift shielding_symmetric shielding_antisymmetric quadrupolar s_units].
  split; [split; [|split]|split; [reflexivity|split; [|split]]].
  - assert (KN : known a2 = true) by (destruct (dict_lookup d "isotope") as [[]|]; try discriminate; apply format_ok in E2; tauto).
    apply known_in in KN. apply in_map_iff in KN. destruct KN as ((i & n) & X & HI). cbn in X. subst i. exists n. split; [exact HI|]. intros NQ.
    destruct qd as [t|]; [|now elim NQ]. destruct (isotope_spin a2 n HI) as [_ I2]. rewrite I2 in E4. cbn [bind] in E4.
    destruct (n <? 2)%Z eqn:LT; [discriminate|]. now apply Z.ltb_ge in LT.
  - destruct ss as [t|]; [|exact I]. apply Gs.
  - destruct qd as [t|]; [|exact I]. apply Gq.
  - destruct ss as [t|]; [|exact I]. destruct Gs as (_ & u & _ & U). exists u. cbn. now rewrite U.
  - destruct sa as [t|]; [|exact I]. cbn in *. unfold good_anti in Ga. now rewrite Ga.
  - destruct qd as [t|]; [|exact I]. destruct Gq as (_ & u & _ & U). unfold has_units. cbn. now rewrite U.
Qed.
Lemma site_valid s : site_obtained s -> valid_site s /\ role_site s.
Proof.
  intros [[d H]|(d & ss & sa & qd & H1 & H2 & H3 & H)].
  - unfold parse_site in H. inv H. inv H. inv H. inv H. destruct a2 as [d1 pu]. inv H.
    destruct (parse_units_inv site_table d _ _ ltac:(nd) E2) as (F & U & K). subst pu.
    unfold read_units, site_table in H. cbn [map fst snd] in H. rewrite single_unit in H.
    exact (made_site _ _ _ _ _ (opt_parse_good _ _ _ _ _ _ read_sym E) (opt_parse_good _ _ _ _ _ _ read_anti E0) (opt_parse_good _ _ _ _ _ _ read_sym E1) H).
  - exact (made_site d ss sa qd s (on_impl _ _ _ _ sym_good H1) (on_impl _ _ _ _ anti_good H2) (on_impl _ _ _ _ sym_good H3) H).
Qed.
Lemma made_coupling d js ja dp c : on good_sym js -> on good_anti ja -> on good_sym dp -> make_coupling d js ja dp [("isotropic_j", "Hz")] = Ok c -> valid_coupling c /\ role_coupling c.
Proof.
  intros Gs Ga Gd H. unfold make_coupling in H. do 6 inv H. injection H as <-. unfold valid_coupling, role_coupling.
  cbn [c_name c_label c_description site_index isotropic_j j_symmetric j_antisymmetric dipolar c_units].
  split; [split; [|split]|split; [reflexivity|split; [|split]]].
  - destruct a2 as [|x [|y [|z r]]]; try discriminate. exists x, y. split; [reflexivity|]. destruct (x =? y)%Z eqn:X; [discriminate|]. now apply Z.eqb_neq in X.
  - destruct js as [t|]; [|exact I]. apply Gs.
  - destruct dp as [t|]; [|exact I]. apply Gd.
  - destruct js as [t|]; [|exact I]. destruct Gs as (_ & u & _ & U). unfold has_units. cbn. now rewrite U.
  - destruct ja as [t|]; [|exact I]. cbn in *. unfold good_anti in Ga. now rewrite Ga.
  - destruct dp as [t|]; [|exact I]. destruct Gd as (_ & u & _ & U). unfold has_units. cbn. now rewrite U.
Qed.
Lemma coupling_valid c : coupling_obtained c -> valid_coupling c /\ role_coupling c.
Proof.
  intros [[d H]|(d & js & ja & dp & H1 & H2 & H3 & H)].
  - unfold parse_coupling in H. do 6 inv H. destruct a4 as [d1 pu]. inv H.
    destruct (parse_units_inv coupling_table d _ _ ltac:(nd) E4) as (F & U & K). subst pu.
    unfold read_units, coupling_table in H. cbn [map fst snd] in H. rewrite single_unit in H.
    exact (made_coupling _ _ _ _ _ (opt_parse_good _ _ _ _ _ _ read_sym E) (opt_parse_good _ _ _ _ _ _ read_anti E1) (opt_parse_good _ _ _ _ _ _ read_sym E3) H).
  - exact (made_coupling d js ja dp c (on_impl _ _ _ _ sym_good H1) (on_impl _ _ _ _ anti_good H2) (on_impl _ _ _ _ sym_good H3) H).
Qed.
Lemma Forall_split A (P Q : A -> Prop) l : Forall (fun x => P x /\ Q x) l -> Forall P l /\ Forall Q l.
Proof. rewrite !Forall_forall. intros H. split; intros x I; apply H, I. Qed.
Lemma made_system d ss cs y : on (Forall (fun s => valid_site s /\ role_site s)) ss -> on (Forall (fun c => valid_coupling c /\ role_coupling c)) cs ->
  make_system d ss cs [("abundance", "pct")] = Ok y -> valid_system y /\ role_system y.
Proof.
  intros Gs Gc H. unfold make_system in H. do 5 inv H. injection H as <-. unfold valid_system, role_system.
  cbn [y_name y_label y_description sites couplings abundance transition_pathways y_units].
  assert (A : (0 <= a2)%Qc /\ (a2 <= Q2Qc (100 # 1))%Qc).
  { apply leb2. refine (def_num_valid _ _ _ _ _ _ E2). apply andb_true_iff. split; apply Qc_leb_true; discriminate. }
  assert (S : Forall valid_site (match ss with Some l => l | None => [] end) /\ Forall role_site (match ss with Some l => l | None => [] end)).
  { destruct ss as [l|]; [now apply Forall_split|split; constructor]. }
  assert (C : on (Forall valid_coupling) cs /\ on (Forall role_coupling) cs).
  { destruct cs as [l|]; [now apply Forall_split|split; exact I]. }
  destruct A, S, C. repeat split; assumption.
Qed.
Lemma system_valid y : system_obtained y -> valid_system y /\ role_system y.
Proof.
  intros [[d H]|(d & ss & cs & H1 & H2 & H)].
  - unfold parse_system in H. do 3 inv H. destruct a1 as [d1 pu]. inv H.
    destruct (parse_units_inv system_table d _ _ ltac:(nd) E1) as (F & U & K). subst pu.
    unfold read_units, system_table in H. cbn [map fst snd] in H. rewrite single_unit in H.
    apply (made_system _ _ _ _ (list_parse_good _ _ (fun s => valid_site s /\ role_site s) _ _ _ (fun d s P => site_valid s (or_introl (ex_intro _ d P))) E)
      (list_parse_good _ _ (fun c => valid_coupling c /\ role_coupling c) _ _ _ (fun d s P => coupling_valid s (or_introl (ex_intro _ d P))) E0) H).
  - exact (made_system d ss cs y (on_Forall_impl _ _ _ _ site_valid H1) (on_Forall_impl _ _ _ _ coupling_valid H2) H).
Qed.
Definition event_units (e : event) : Prop := e_units e = [("magnetic_flux_density", "T"); ("rotor_frequency", "Hz"); ("rotor_angle", "rad")].
Lemma made_event d e : make_event d [("magnetic_flux_density", "T"); ("rotor_frequency", "Hz"); ("rotor_angle", "rad")] = Ok e -> valid_event e /\ event_units e.
Proof.
  intros H. unfold make_event in H. do 6 inv H. injection H as <-. unfold valid_event, event_units.
  cbn [fraction magnetic_flux_density rotor_frequency rotor_angle freq_contrib transition_query e_units].
  assert (A : angle_range a2 = true) by (refine (def_num_valid _ _ _ _ _ _ E2); apply andb_true_iff; split; apply Qc_leb_true; discriminate). apply leb2 in A.
  assert (B : non_negative a0 = true) by (refine (def_num_valid _ _ _ _ _ _ E0); apply Qc_leb_true; discriminate). apply Qc_leb_iff in B.
  assert (C : non_negative a1 = true) by (refine (def_num_valid _ _ _ _ _ _ E1); apply Qc_leb_true; discriminate). apply Qc_leb_iff in C.
  destruct A. split; [|reflexivity]. repeat (split; [assumption|]).
  destruct (dict_lookup d "freq_contrib") as [[]|]; try discriminate; [|injection E3 as <-; apply incl_refl].
  clear - E3. revert a3 E3. induction l as [|x l IH]; intros r E3; cbn [mapM] in E3; [injection E3 as <-; intros y []|]. inv E3. inv E3. injection E3 as <-.
  intros y [<-|Hy]; [|now apply (IH _ E0)]. destruct x; try discriminate. destruct (existsb (String.eqb s) freq_list_all) eqn:X; [|discriminate]. injection E as <-.
  apply existsb_exists in X. destruct X as (z & Z1 & Z2). apply String.eqb_eq in Z2. now subst z.
Qed.
Lemma event_valid e : event_obtained e -> valid_event e /\ event_units e.
Proof.
  intros [[d H]|[d H]]; [|exact (made_event d e H)]. unfold parse_event in H. inv H. destruct a as [d1 pu]. inv H.
  destruct (parse_units_inv event_table d _ _ ltac:(nd) E) as (F & U & K). subst pu.
  unfold read_units, event_table in H. cbn [map fst snd] in H. rewrite !single_unit in H. apply (made_event _ _ H).
Qed.
Lemma made_dim d ev pu x : on (Forall (fun e => valid_event e /\ event_units e)) ev -> make_dim d ev pu = Ok x -> valid_dim x /\ role_dim x.
Proof.
  intros G H. unfold make_dim in H. do 6 inv H. injection H as <-. unfold valid_dim, role_dim.
  cbn [count spectral_width reference_offset origin_offset d_label d_description events d_units] in *.
  assert (A : (0 <? a)%Z = true) by (refine (def_int_valid _ _ _ (fun z => (0 <? z)%Z) _ _ E); reflexivity). apply Z.ltb_lt in A.
  assert (B : Qc_leb 0 a0 && negb (Qc_eq_bool a0 0) = true).
  { refine (def_num_valid _ _ _ (fun q => Qc_leb 0 q && negb (Qc_eq_bool q 0)) _ _ E0). rewrite Qc_leb_true by discriminate. rewrite Qc_eqb_false; [reflexivity|]. intros X. discriminate (f_equal (fun x => Qnum (this x)) X). }
  apply andb_true_iff in B. destruct B as [B1 B2]. apply Qc_leb_iff in B1. apply negb_true_iff in B2.
  assert (S : Forall valid_event (match ev with Some l => l | None => [] end) /\ Forall event_units (match ev with Some l => l | None => [] end)).
  { destruct ev as [l|]; [now apply Forall_split|split; constructor]. }
  destruct S as [S1 S2]. split; [|exact S2]. split; [exact A|]. split; [|exact S1].
  destruct (Qcle_lt_or_eq _ _ B1) as [|X]; [assumption|]. subst a0. rewrite Qc_eqb_refl in B2. discriminate.
Qed.
Lemma dim_valid x : dim_obtained x -> valid_dim x /\ role_dim x.
Proof.
  intros [[d H]|(d & ev & H1 & H)]; [|exact (made_dim d ev _ x (on_Forall_impl _ _ _ _ event_valid H1) H)].
  unfold parse_dim in H. do 2 inv H. destruct a0 as [d1 pu]. inv H.
  apply (made_dim _ _ _ _ (list_parse_good _ _ (fun e => valid_event e /\ event_units e) _ _ _ (fun d s P => event_valid s (or_introl (ex_intro _ d P))) E) H).
Qed.
Lemma made_method d ds m : on (Forall (fun x => valid_dim x /\ role_dim x)) ds -> make_method d ds = Ok m -> valid_method m /\ Forall role_dim (dims m).
Proof.
  intros G H. unfold make_method in H. do 7 inv H. injection H as <-. unfold valid_method. cbn [channels dims].
  assert (DD : Forall valid_dim (match ds with Some l => l | None => [mkDim 1024 (Q2Qc (25000 # 1)) 0 None None None [] (default_units dim_table)] end) /\
    Forall role_dim (match ds with Some l => l | None => [mkDim 1024 (Q2Qc (25000 # 1)) 0 None None None [] (default_units dim_table)] end)).
  { destruct ds as [l|]; [now apply Forall_split|]. split; (constructor; [|constructor]); [split; [reflexivity|split; [reflexivity|constructor]]|constructor]. }
  destruct DD as [D1 D2]. split; [split; [|exact D1]|exact D2].
  destruct (dict_lookup d "channels") as [[]|]; try discriminate; [|injection E2 as <-; constructor].
  clear - E2. revert a2 E2. induction l as [|x l IH]; intros r E; cbn [mapM] in E; [injection E as <-; constructor|]. inv E. inv E. injection E as <-. constructor; [|now apply IH].
  destruct x; try discriminate. apply format_ok in E0. destruct E0 as [_ KN]. apply known_in in KN. apply in_map_iff in KN. destruct KN as ((i & n) & X & HI). cbn in X. subst i. eauto.
Qed.
Lemma method_valid m : method_obtained m -> valid_method m /\ Forall role_dim (dims m).
Proof.
  intros [[d H]|(d & ds & H1 & H)]; [|exact (made_method d ds m (on_Forall_impl _ _ _ _ dim_valid H1) H)].
  unfold parse_method in H. destruct (dict_lookup d "spectral_dimensions").
  - inv H. inv H. inv H. apply (made_method _ _ _ (list_parse_good _ _ (fun x => valid_dim x /\ role_dim x) _ _ _ (fun d s P => dim_valid s (or_introl (ex_intro _ d P))) E0) H).
  - inv H. apply (made_method _ None _ I H).
Qed.

(** ** Simulators that come back as they were *)
Lemma sym_same u o : has_units u o -> option_map (in_units u) o = o.
Proof. destruct o as [[]|]; [|reflexivity]. unfold has_units. cbn. now intros <-. Qed.
Lemma anti_same u o : on (fun t => anti_units t = u) o -> option_map (anti_in_units u) o = o.
Proof. destruct o as [[]|]; [|reflexivity]. cbn. now intros <-. Qed.
Lemma map_same A (f : A -> A) l : Forall (fun x => f x = x) l -> map f l = l.
Proof. induction 1 as [|x l H F IH]; [reflexivity|]. cbn. now rewrite H, IH. Qed.
Lemma site_same s : role_site s -> has_units (("zeta", "ppm") :: angles) (shielding_symmetric s) -> plain_site s = s.
Proof. intros (A & B & C & E) H. unfold plain_site. rewrite (sym_same _ _ H), (anti_same _ _ C), (sym_same _ _ E), <- A. now destruct s. Qed.
Lemma coupling_same c : role_coupling c -> plain_coupling c = c.
Proof. intros (A & B & C & E). unfold plain_coupling. rewrite (sym_same _ _ B), (anti_same _ _ C), (sym_same _ _ E), <- A. now destruct c. Qed.
Lemma system_same y : role_system y -> Forall (fun s => has_units (("zeta", "ppm") :: angles) (shielding_symmetric s)) (sites y) -> plain_spins y = y.
Proof.
  intros (U & S & C) H. unfold plain_spins. rewrite map_same; [|apply (Forall_and_impl _ _ _ _ _ S H); exact site_same].
  assert (X : option_map (map plain_coupling) (couplings y) = couplings y).
  { destruct (couplings y) as [l|]; [|reflexivity]. cbn [option_map]. rewrite map_same; [reflexivity|]. revert C. apply Forall_impl. exact coupling_same. }
  rewrite X, <- U. now destruct y.
Qed.
Lemma event_same e : event_units e -> q_P (transition_query e) <> None -> plain_event e = e.
Proof.
  intros U Q. unfold plain_event. rewrite <- U. destruct e as [f b r a fc q u]. cbn in *. f_equal. unfold plain_query. destruct q as [[p|] d fq t]; [reflexivity|now elim Q].
Qed.
Lemma dim_same x : role_dim x -> default_dims x -> Forall (fun e => q_P (transition_query e) <> None) (events x) -> plain_dim x = x.
Proof.
  intros R U Q. unfold plain_dim. rewrite <- U. rewrite map_same; [now destruct x|]. apply (Forall_and_impl _ _ _ _ _ R Q). exact event_same.
Qed.
Lemma simulator_same s : Forall system_obtained (spin_systems s) -> Forall method_obtained (methods s) -> keeps s -> plain_simulator s = s.
Proof.
  intros Y M [K1 K2]. unfold plain_simulator. rewrite (map_same _ plain_spins), (map_same _ plain_method); [now destruct s| |].
  - apply (Forall_and_impl _ _ _ _ _ M K2). intros m O X. destruct (method_valid m O) as [_ R]. unfold plain_method. rewrite map_same; [now destruct m|].
    apply (Forall_and_impl _ _ _ _ _ R X). intros x Rx [D Q]. now apply dim_same.
  - apply (Forall_and_impl _ _ _ _ _ Y K1). intros y O X. destruct (system_valid y O) as [_ R]. now apply system_same.
Qed.
