(** Model of saving and loading a simulator without units: [Simulator.save(filename, with_units=False)] and
    [Simulator.load(filename, parse_units=False)] of simulator/__init__.py lines 481-541, over the objects of JsonModel. *)
From Coq Require Import ZArith QArith Qcanon Bool Ascii String List.
From Verif Require Import Base SitesModel JsonModel.
Import ListNotations.
Open Scope string_scope.
Open Scope list_scope.

(** ** Python values in the dict of an object *)
(** What pydantic's [dict] leaves in a dict: the JSON values, and two kinds of objects that json.dump refuses, a TransitionPathway and a
    numpy array.  A member of FrequencyEnum is a str (method/frequency_contrib.py line 17) and is written as one. *)
Inductive raw :=
| RNone | RNum (q : Qc) | RStr (s : string) | RQty (q : Qc) (u : string)
| RList (l : list raw) | RDict (d : list (string * raw)) | RPath (p : list transition) | RArray (m : matrix).
Fixpoint of_json (v : jval) : raw :=
  match v with
  | JNone => RNone | JNum q => RNum q | JStr s => RStr s | JQty q u => RQty q u
  | JList l => RList (map of_json l)
  | JDict d => RDict (map (fun kv => (fst kv, of_json (snd kv))) d)
  | JPath p => RPath p
  end.
(** json.dump followed by json.load. *)
Fixpoint dump (v : raw) : pyres jval :=
  match v with
  | RNone => Ok JNone | RNum q => Ok (JNum q) | RStr s => Ok (JStr s) | RQty q u => Ok (JQty q u)
  | RList l =>
      let* l' := (fix each (l : list raw) : pyres (list jval) :=
                    match l with [] => Ok [] | x :: r => let* y := dump x in let* r' := each r in Ok (y :: r') end) l in
      Ok (JList l')
  | RDict d =>
      let* d' := (fix each (d : list (string * raw)) : pyres jdict :=
                    match d with
                    | [] => Ok []
                    | (k, x) :: r => let* y := dump x in let* r' := each r in Ok ((k, y) :: r')
                    end) d in
      Ok (JDict d')
  | RPath _ | RArray _ => Err TypeError
  end.

(** ** pydantic's [dict] of the objects *)
(** The attribute [property_units] of the base class comes first; the others in the order of the classes. *)
Definition raw_num (o : option Qc) : raw := match o with Some q => RNum q | None => RNone end.
Definition raw_str (o : option string) : raw := match o with Some s => RStr s | None => RNone end.
Definition raw_of {A} (f : A -> raw) (o : option A) : raw := match o with Some a => f a | None => RNone end.
Definition raw_units (pu : units) : raw := RDict (map (fun e => (fst e, RStr (snd e))) pu).
(** spin_system/tensors.py lines 86-92 and 152-154 *)
Definition dict_sym (t : sym_tensor) : raw :=
  RDict [("property_units", raw_units (sym_units t)); ("zeta", raw_num (zeta t)); ("Cq", raw_num (Cq t)); ("D", raw_num (D t)); ("eta", raw_num (eta t));
         ("alpha", raw_num (alpha t)); ("beta", raw_num (beta t)); ("gamma", raw_num (gamma t))].
Definition dict_anti (t : anti_tensor) : raw :=
  RDict [("property_units", raw_units (anti_units t)); ("zeta", raw_num (a_zeta t)); ("alpha", raw_num (a_alpha t)); ("beta", raw_num (a_beta t))].
(** spin_system/isotope.py line 44 *)
Definition dict_isotope (symbol : string) : raw := RDict [("symbol", RStr symbol)].
(** spin_system/site.py lines 154-161 *)
Definition dict_site (s : site) : raw :=
  RDict [("property_units", raw_units (s_units s)); ("name", raw_str (s_name s)); ("label", raw_str (s_label s)); ("description", raw_str (s_description s));
         ("isotope", dict_isotope (isotope s)); ("isotropic_chemical_shift", RNum (isotropic_chemical_shift s));
         ("shielding_symmetric", raw_of dict_sym (shielding_symmetric s)); ("shielding_antisymmetric", raw_of dict_anti (shielding_antisymmetric s));
         ("quadrupolar", raw_of dict_sym (quadrupolar s))].
(** spin_system/coupling.py lines 150-157 *)
Definition dict_coupling (c : coupling) : raw :=
  RDict [("property_units", raw_units (c_units c)); ("name", raw_str (c_name c)); ("label", raw_str (c_label c)); ("description", raw_str (c_description c));
         ("site_index", RList (map (fun z => RNum (Qc_of_Z z)) (site_index c))); ("isotropic_j", RNum (isotropic_j c));
         ("j_symmetric", raw_of dict_sym (j_symmetric c)); ("j_antisymmetric", raw_of dict_anti (j_antisymmetric c));
         ("dipolar", raw_of dict_sym (dipolar c))].
(** spin_system/__init__.py lines 152-158 *)
Definition dict_system (y : spin_system) : raw :=
  RDict [("property_units", raw_units (y_units y)); ("name", raw_str (y_name y)); ("label", raw_str (y_label y)); ("description", raw_str (y_description y));
         ("sites", RList (map dict_site (sites y))); ("couplings", raw_of (fun l => RList (map dict_coupling l)) (couplings y));
         ("abundance", RNum (abundance y)); ("transition_pathways", raw_of (fun l => RList (map RPath l)) (transition_pathways y))].
(** transition/base.py lines 34-35 *)
Definition dict_transition (t : transition) : raw := RDict [("initial", RList (map RNum (fst t))); ("final", RList (map RNum (snd t)))].
(** method/transition_query.py lines 46-49 *)
Definition raw_dict (d : jdict) : raw := of_json (JDict d).
Definition dict_query (q : query) : raw :=
  RDict [("P", raw_of raw_dict (q_P q)); ("D", raw_of raw_dict (q_D q)); ("F", raw_of raw_dict (q_F q));
         ("transitions", raw_of (fun l => RList (map dict_transition l)) (q_transitions q))].
(** method/event.py lines 53-59 *)
Definition dict_event (e : event) : raw :=
  RDict [("property_units", raw_units (e_units e)); ("fraction", RNum (fraction e)); ("magnetic_flux_density", RNum (magnetic_flux_density e));
         ("rotor_frequency", RNum (rotor_frequency e)); ("rotor_angle", RNum (rotor_angle e)); ("freq_contrib", RList (map RStr (freq_contrib e)));
         ("transition_query", dict_query (transition_query e))].
(** method/spectral_dimension.py lines 54-60 *)
Definition dict_dim (x : dimension) : raw :=
  RDict [("property_units", raw_units (d_units x)); ("count", RNum (Qc_of_Z (count x))); ("spectral_width", RNum (spectral_width x));
         ("reference_offset", RNum (reference_offset x)); ("origin_offset", raw_num (origin_offset x)); ("label", raw_str (d_label x));
         ("description", raw_str (d_description x)); ("events", RList (map dict_event (events x)))].
(** method/__init__.py lines 127-146 and 247-253.  The units of a method are those of line 142. *)
Definition method_units : units := [("magnetic_flux_density", "T"); ("rotor_angle", "rad"); ("rotor_frequency", "Hz")].
Definition dict_method (m : method) : raw :=
  RDict [("property_units", raw_units method_units); ("name", raw_str (m_name m)); ("label", raw_str (m_label m)); ("description", raw_str (m_description m));
         ("channels", RList (map dict_isotope (channels m))); ("spectral_dimensions", RList (map dict_dim (dims m)));
         ("affine_matrix", raw_of RArray (affine m)); ("simulation", raw_of raw_dict (simulation m)); ("experiment", raw_of raw_dict (experiment m))].
(** simulator/config.py lines 70-73 *)
Definition dict_config (c : config) : raw :=
  RDict [("number_of_sidebands", RNum (Qc_of_Z (number_of_sidebands c))); ("integration_volume", RStr (integration_volume c));
         ("integration_density", RNum (Qc_of_Z (integration_density c))); ("decompose_spectrum", RStr (decompose_spectrum c))].
(** simulator/__init__.py lines 145-151; nothing ever fills [indexes] (line 460 is a comment). *)
Definition dict_simulator (s : simulator) : list (string * raw) :=
  [("name", raw_str (x_name s)); ("label", raw_str (x_label s)); ("description", raw_str (x_description s));
   ("spin_systems", RList (map dict_system (spin_systems s))); ("methods", RList (map dict_method (methods s)));
   ("config", dict_config (sim_config s)); ("indexes", RList [])].

(** ** utils/extra.py *)
(** [v["symbol"]] *)
Definition symbol_of (v : raw) : pyres raw :=
  match v with RDict d => match dict_lookup d "symbol" with Some x => Ok x | None => Err KeyError end | _ => Err TypeError end.
(** [[item["symbol"] for item in v]]; the items of a text or the keys of a dict are texts: a TypeError, also, in this model, if there are none. *)
Definition symbols_of (v : raw) : pyres raw := match v with RList l => let* s := mapM symbol_of l in Ok (RList s) | _ => Err TypeError end.
(** Lines 2-42: the recursive calls use the default for [exclude]; what is not a dict is returned as it is. *)
Definition by_default : list string := ["property_units"].
Fixpoint reduce (exclude : list string) (v : raw) : pyres raw :=
  match v with
  | RDict d =>
      (fix go (d obj : list (string * raw)) : pyres raw :=
         match d with
         | [] => Ok (RDict obj)
         | (k, x) :: r =>
             if existsb (String.eqb k) exclude || match x with RNone => true | _ => false end then go r obj
             else if String.eqb k "isotope" then (let* s := symbol_of x in go r (dict_set obj k s))
             else if String.eqb k "channels" then (let* s := symbols_of x in go r (dict_set obj k s))
             else match x with
                  | RDict _ => let* y := reduce by_default x in go r (dict_set obj k y)
                  | RList l =>
                      let* y := (fix each (l : list raw) : pyres (list raw) :=
                                   match l with [] => Ok [] | z :: t => let* z' := reduce by_default z in let* t' := each t in Ok (z' :: t') end) l in
                      go r (dict_set obj k (RList y))
                  | _ => go r (dict_set obj k x)
                  end
         end) d []
  | _ => Ok v
  end.

(** ** simulator/__init__.py *)
(** Lines 342-351 *)
Definition reduced_dict (s : simulator) : pyres raw := reduce ["property_units"; "indexes"] (RDict (dict_simulator s)).
(** Lines 495-504: the content of the file, or the exception. *)
Definition save_bare (s : simulator) : pyres jval := let* r := reduced_dict s in dump r.

(** ** Constructors on the content of a file *)
(** pydantic makes an object of a dict with the constructor of its class.  The attribute [property_units] has a default (tensors.py lines
    110-117 and 163, site.py 165, coupling.py 161, spin_system/__init__.py 162, event.py 73-77, spectral_dimension.py 73-77). *)
Definition given_units (t : unit_table) (d : jdict) : pyres units :=
  match dict_lookup d "property_units" with
  | None => Ok (default_units t)
  | Some (JDict u) => mapM (fun kv => match snd kv with JStr s => Ok (fst kv, s) | _ => Err ValueError end) u
  | Some _ => Err ValueError
  end.
(** An attribute that is an object or None. *)
Definition opt_read {A} (read : jdict -> pyres A) (d : jdict) (k : string) : pyres (option A) :=
  match dict_lookup d k with
  | None | Some JNone => Ok None
  | Some (JDict x) => let* a := read x in Ok (Some a)
  | Some _ => Err ValueError
  end.
(** An attribute that is a list of objects; None if it is not given. *)
Definition list_read {A} (read : jdict -> pyres A) (d : jdict) (k : string) : pyres (option (list A)) :=
  match dict_lookup d k with
  | None => Ok None
  | Some (JList l) => let* r := mapM (fun x => match x with JDict e => read e | _ => Err ValueError end) l in Ok (Some r)
  | Some _ => Err ValueError
  end.
Definition new_sym (d : jdict) : pyres sym_tensor := let* pu := given_units sym_table d in make_sym d pu.
Definition new_anti (d : jdict) : pyres anti_tensor := let* pu := given_units anti_table d in make_anti d pu.
Definition new_site (d : jdict) : pyres site :=
  let* pu := given_units site_table d in
  let* ss := opt_read new_sym d "shielding_symmetric" in
  let* sa := opt_read new_anti d "shielding_antisymmetric" in
  let* qd := opt_read new_sym d "quadrupolar" in
  make_site d ss sa qd pu.
Definition new_coupling (d : jdict) : pyres coupling :=
  let* pu := given_units coupling_table d in
  let* js := opt_read new_sym d "j_symmetric" in
  let* ja := opt_read new_anti d "j_antisymmetric" in
  let* dp := opt_read new_sym d "dipolar" in
  make_coupling d js ja dp pu.
(** spin_system/__init__.py lines 152-158: the default of the couplings is None, that of the sites is not. *)
Definition new_system (d : jdict) : pyres spin_system :=
  let* pu := given_units system_table d in
  let* ss := list_read new_site d "sites" in
  let* cs := (match dict_lookup d "couplings" with Some JNone => Ok None | _ => list_read new_coupling d "couplings" end) in
  make_system d ss cs pu.
Definition new_event (d : jdict) : pyres event := let* pu := given_units event_table d in make_event d pu.
Definition new_dim (d : jdict) : pyres dimension :=
  let* pu := given_units dim_table d in
  let* ev := list_read new_event d "events" in
  make_dim d ev pu.
Definition new_method (d : jdict) : pyres method := let* ds := list_read new_dim d "spectral_dimensions" in make_method d ds.
(** Lines 536-539; the constructor applied to what is no dict is a TypeError. *)
Definition load_bare (contents : jval) : pyres simulator :=
  match contents with
  | JDict d =>
      let* n := opt_str d "name" in
      let* l := opt_str d "label" in
      let* ds := opt_str d "description" in
      let* ys := list_read new_system d "spin_systems" in
      let* ms := list_read new_method d "methods" in
      let* c := (match dict_lookup d "config" with
                 | None => make_config []
                 | Some (JDict c) => make_config c
                 | Some _ => Err ValueError
                 end) in
      Ok (mkSim n l ds (match ys with Some l => l | None => [] end) (match ms with Some l => l | None => [] end) c)
  | _ => Err TypeError
  end.
