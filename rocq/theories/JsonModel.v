(** Model of the serialisation with units: utils/parseable.py and the [json] and [parse_dict_with_units] of the tensors, Site, Coupling,
    SpinSystem, TransitionQuery, Event, SpectralDimension, Method and Simulator.  Numbers are exact rationals. *)
From Coq Require Import ZArith QArith Qcanon Bool Ascii String List.
From Verif Require Import Base SitesModel.
Import ListNotations.
Open Scope string_scope.
Open Scope list_scope.

(** ** Values *)
(** A transition, as its initial and final states. *)
Definition transition := (list Qc * list Qc)%type.
(** The values of a serialised object.  [JQty x u] is the text "x u" of a quantity: printing a number with its unit and reading the text
    again is exact in this model.  A [JStr] is a text that is not a quantity.  [JPath] is a TransitionPathway object, which is no JSON value. *)
Inductive jval :=
| JNone | JNum (q : Qc) | JStr (s : string) | JQty (q : Qc) (u : string)
| JList (l : list jval) | JDict (d : list (string * jval)) | JPath (p : list transition).
Definition jdict := list (string * jval).
Definition units := list (string * string).
Definition has_key {A} (d : list (string * A)) (k : string) : bool := match dict_lookup d k with Some _ => true | None => false end.
Definition dict_pop {A} (d : list (string * A)) (k : string) : list (string * A) := filter (fun kv => negb (String.eqb (fst kv) k)) d.
Definition Qc_leb (x y : Qc) : bool := Qle_bool x y.
Definition Qc_of_Z (z : Z) : Qc := Q2Qc (inject_Z z).

(** ** Units *)
(** The units of the model with their physical type and size, as in astropy (an external library).  The names with a degree and the
    remaining units of that library are left out. *)
Definition unit_info (u : string) : option (string * Qc) :=
  if String.eqb u "" then Some ("dimensionless", 1%Qc)
  else if String.eqb u "ppm" then Some ("dimensionless", Q2Qc (1 # 1000000))
  else if String.eqb u "%" then Some ("dimensionless", Q2Qc (1 # 100))
  else if String.eqb u "pct" then Some ("dimensionless", Q2Qc (1 # 100))
  else if String.eqb u "Hz" then Some ("frequency", 1%Qc)
  else if String.eqb u "kHz" then Some ("frequency", Q2Qc (1000 # 1))
  else if String.eqb u "MHz" then Some ("frequency", Q2Qc (1000000 # 1))
  else if String.eqb u "rad" then Some ("angle", 1%Qc)
  else if String.eqb u "mrad" then Some ("angle", Q2Qc (1 # 1000))
  else if String.eqb u "T" then Some ("magnetic flux density", 1%Qc)
  else if String.eqb u "mT" then Some ("magnetic flux density", Q2Qc (1 # 1000))
  else None.
(** utils/parseable.py lines 120-134, [enforce_units]; None stands for the exception. *)
Definition enforce_units (value : jval) (required_type default_unit : string) : option Qc :=
  match value with
  | JQty q u =>
      match unit_info u, unit_info default_unit with
      | Some (data_type, s), Some (target_type, s') =>
          if String.eqb required_type data_type && String.eqb data_type target_type then Some (q * s / s')%Qc else None
      | _, _ => None
      end
  | _ => None
  end.

(** ** Parseable *)
(** An entry of [property_unit_types] with its entry of [property_default_units]: one type and unit, or lists of them. *)
Inductive unit_spec := Single (required_type default_unit : string) | Multi (options : list (string * string)).
Definition unit_table := list (string * unit_spec).
(** Lines 46 and 74-75: the default units, of a list the first. *)
Definition default_units (t : unit_table) : units :=
  map (fun e => (fst e, match snd e with Single _ u => u | Multi ((_, u) :: _) => u | Multi [] => "" end)) t.
(** Lines 61-73: the first option that can be enforced. *)
Fixpoint first_fit (v : jval) (options : list (string * string)) : option (Qc * string) :=
  match options with
  | [] => None
  | (ty, u) :: r => match enforce_units v ty u with Some q => Some (q, u) | None => first_fit v r end
  end.
(** Lines 46-75 without the construction of the object.  The results: the dict, which is the argument after the call, and the units.  The
    properties are visited in the order of the table; the code visits a set of them.  The exception of line 66 is never raised: its
    condition is the emptiness of a list that is not empty; when nothing fits, the index of line 73 fails. *)
Definition parse_units (t : unit_table) (json_dict : jdict) : pyres (jdict * units) :=
  for_each t (fun e s =>
    let '(prop, spec) := e in let '(d, pu) := s in
    match dict_lookup d prop with
    | None => Ok (d, pu)
    | Some v =>
        match spec with
        | Single ty u => match enforce_units v ty u with Some q => Ok (dict_set d prop (JNum q), dict_set pu prop u) | None => Err OtherException end
        | Multi options => match first_fit v options with Some (q, u) => Ok (dict_set d prop (JNum q), dict_set pu prop u) | None => Err IndexError end
        end
    end) (json_dict, default_units t).
(** Line 76: the keyword [property_units] is given twice when the dict has that key. *)
Definition no_units_key (d : jdict) : pyres unit := if has_key d "property_units" then Err TypeError else Ok tt.
(** Lines 92-117, [json], of the attributes in their order with their values serialised; None and empty texts are left out. *)
Definition kept (kv : string * jval) : bool :=
  match snd kv with JNone => false | JStr s => negb (String.eqb s "") | _ => true end.
(** Lines 112-116; every attribute with a unit is a number. *)
Definition print_unit (unit : string) (v : jval) : jval :=
  match v with JNum q => JQty q (if String.eqb unit "pct" then "%" else unit) | _ => v end.
Definition parseable_json (attributes : jdict) (property_units : units) : jdict :=
  map (fun kv => match dict_lookup property_units (fst kv) with Some u => (fst kv, print_unit u (snd kv)) | None => kv end) (filter kept attributes).

(** ** Reading attributes *)
(** pydantic's validation of the attributes of the classes; any error is a ValueError.  Numbers must be numbers and texts must be texts: the
    conversions of pydantic between the two are left out.  Keys that are no attribute are ignored. *)
Definition opt_num (d : jdict) (k : string) (valid : Qc -> bool) : pyres (option Qc) :=
  match dict_lookup d k with
  | None | Some JNone => Ok None
  | Some (JNum q) => if valid q then Ok (Some q) else Err ValueError
  | Some _ => Err ValueError
  end.
Definition def_num (d : jdict) (k : string) (default : Qc) (valid : Qc -> bool) : pyres Qc :=
  match dict_lookup d k with
  | None => Ok default
  | Some (JNum q) => if valid q then Ok q else Err ValueError
  | Some _ => Err ValueError
  end.
(** [int(q)] *)
Definition int_of (q : Qc) : Z := Z.quot (Qnum q) (Zpos (Qden q)).
Definition def_int (d : jdict) (k : string) (default : Z) (valid : Z -> bool) : pyres Z :=
  match dict_lookup d k with
  | None => Ok default
  | Some (JNum q) => if valid (int_of q) then Ok (int_of q) else Err ValueError
  | Some _ => Err ValueError
  end.
Definition opt_str (d : jdict) (k : string) : pyres (option string) :=
  match dict_lookup d k with
  | None | Some JNone => Ok None
  | Some (JStr s) => Ok (Some s)
  | Some _ => Err ValueError
  end.
Definition any (q : Qc) : bool := true.
Definition num_or_none (o : option Qc) : jval := match o with Some q => JNum q | None => JNone end.
Definition str_or_none (o : option string) : jval := match o with Some s => JStr s | None => JNone end.

(** ** Tensors: spin_system/tensors.py *)
Record sym_tensor := mkSym {
  zeta : option Qc; Cq : option Qc; D : option Qc; eta : option Qc; alpha : option Qc; beta : option Qc; gamma : option Qc; sym_units : units }.
Record anti_tensor := mkAnti { a_zeta : option Qc; a_alpha : option Qc; a_beta : option Qc; anti_units : units }.
(** Lines 94-109. *)
Definition sym_table : unit_table :=
  [("zeta", Multi [("dimensionless", "ppm"); ("frequency", "Hz")]); ("Cq", Single "frequency" "Hz"); ("D", Single "frequency" "Hz");
   ("alpha", Single "angle" "rad"); ("beta", Single "angle" "rad"); ("gamma", Single "angle" "rad")].
(** Lines 156-162. *)
Definition anti_table : unit_table :=
  [("zeta", Single "dimensionless" "ppm"); ("alpha", Single "angle" "rad"); ("beta", Single "angle" "rad")].
(** Lines 86-92; eta is within 0 and 1. *)
Definition make_sym (d : jdict) (pu : units) : pyres sym_tensor :=
  let* z := opt_num d "zeta" any in
  let* c := opt_num d "Cq" any in
  let* dd := opt_num d "D" any in
  let* e := opt_num d "eta" (fun q => Qc_leb 0 q && Qc_leb q 1) in
  let* a := opt_num d "alpha" any in
  let* b := opt_num d "beta" any in
  let* g := opt_num d "gamma" any in
  Ok (mkSym z c dd e a b g pu).
Definition make_anti (d : jdict) (pu : units) : pyres anti_tensor :=
  let* z := opt_num d "zeta" any in
  let* a := opt_num d "alpha" any in
  let* b := opt_num d "beta" any in
  Ok (mkAnti z a b pu).
Definition parse_sym (d : jdict) : pyres sym_tensor := let* (d, pu) := parse_units sym_table d in let* _ := no_units_key d in make_sym d pu.
Definition parse_anti (d : jdict) : pyres anti_tensor := let* (d, pu) := parse_units anti_table d in let* _ := no_units_key d in make_anti d pu.
(** The argument of [parse_sym] after the call: it is updated in place. *)
Definition sym_argument_after (d : jdict) : jdict := match parse_units sym_table d with Ok (d', _) => d' | Err _ => d end.
Definition json_sym (t : sym_tensor) : jdict :=
  parseable_json [("zeta", num_or_none (zeta t)); ("Cq", num_or_none (Cq t)); ("D", num_or_none (D t)); ("eta", num_or_none (eta t));
                  ("alpha", num_or_none (alpha t)); ("beta", num_or_none (beta t)); ("gamma", num_or_none (gamma t))] (sym_units t).
Definition json_anti (t : anti_tensor) : jdict :=
  parseable_json [("zeta", num_or_none (a_zeta t)); ("alpha", num_or_none (a_alpha t)); ("beta", num_or_none (a_beta t))] (anti_units t).
(** The updates of [property_units] made by the validators of Site and Coupling. *)
Definition with_sym_units (f : units -> units) (t : sym_tensor) : sym_tensor :=
  mkSym (zeta t) (Cq t) (D t) (eta t) (alpha t) (beta t) (gamma t) (f (sym_units t)).
Definition with_anti_units (f : units -> units) (t : anti_tensor) : anti_tensor := mkAnti (a_zeta t) (a_alpha t) (a_beta t) (f (anti_units t)).
Definition pop2 (a b : string) (pu : units) : units := dict_pop (dict_pop pu a) b.

(** A nested object: absent, or a dict that is parsed (site.py lines 227-230, coupling.py 224-226). *)
Definition opt_parse {A} (parse : jdict -> pyres A) (d : jdict) (k : string) : pyres (option A) :=
  match dict_lookup d k with
  | None => Ok None
  | Some (JDict x) => let* a := parse x in Ok (Some a)
  | Some _ => Err TypeError
  end.

(** ** Site: spin_system/site.py *)
Record site := mkSite {
  s_name : option string; s_label : option string; s_description : option string; isotope : string; isotropic_chemical_shift : Qc;
  shielding_symmetric : option sym_tensor; shielding_antisymmetric : option anti_tensor; quadrupolar : option sym_tensor; s_units : units }.
(** Lines 163-165. *)
Definition site_table : unit_table := [("isotropic_chemical_shift", Single "dimensionless" "ppm")].
(** Lines 167-195, the validators, in the order of the attributes. *)
Definition make_site (d : jdict) (ss : option sym_tensor) (sa : option anti_tensor) (qd : option sym_tensor) (pu : units) : pyres site :=
  let* n := opt_str d "name" in
  let* l := opt_str d "label" in
  let* ds := opt_str d "description" in
  let* i := (match dict_lookup d "isotope" with None => format_isotope_string "1H" | Some (JStr s) => format_isotope_string s | Some _ => Err ValueError end) in
  let* shift := def_num d "isotropic_chemical_shift" 0 any in
  let* _ := (match qd with None => Ok tt | Some _ => let* n := twice_spin i in if (n <? 2)%Z then Err ValueError else Ok tt end) in
  Ok (mkSite n l ds i shift (option_map (with_sym_units (pop2 "Cq" "D")) ss) (option_map (with_anti_units (pop2 "Cq" "D")) sa)
        (option_map (with_sym_units (pop2 "D" "zeta")) qd) pu).
(** Lines 200-233. *)
Definition parse_site (d : jdict) : pyres site :=
  let* ss := opt_parse parse_sym d "shielding_symmetric" in
  let* sa := opt_parse parse_anti d "shielding_antisymmetric" in
  let* qd := opt_parse parse_sym d "quadrupolar" in
  let* (d, pu) := parse_units site_table d in
  let* _ := no_units_key d in
  make_site d ss sa qd pu.
(** The argument of the previous function after the call: it is updated in place.  Only for a dict without tensors; when there is one, the dict
    has an object in its place after the call. *)
Definition site_argument_after (d : jdict) : jdict := match parse_units site_table d with Ok (d', _) => d' | Err _ => d end.
Definition dict_or_none {A} (f : A -> jdict) (o : option A) : jval := match o with Some a => JDict (f a) | None => JNone end.
(** parseable.py lines 92-117 and isotope.py lines 52-56. *)
Definition json_site (s : site) : jdict :=
  parseable_json [("name", str_or_none (s_name s)); ("label", str_or_none (s_label s)); ("description", str_or_none (s_description s));
                  ("isotope", JStr (isotope s)); ("isotropic_chemical_shift", JNum (isotropic_chemical_shift s));
                  ("shielding_symmetric", dict_or_none json_sym (shielding_symmetric s));
                  ("shielding_antisymmetric", dict_or_none json_anti (shielding_antisymmetric s));
                  ("quadrupolar", dict_or_none json_sym (quadrupolar s))] (s_units s).

(** ** Coupling: spin_system/coupling.py *)
Record coupling := mkCoupling {
  c_name : option string; c_label : option string; c_description : option string; site_index : list Z; isotropic_j : Qc;
  j_symmetric : option sym_tensor; j_antisymmetric : option anti_tensor; dipolar : option sym_tensor; c_units : units }.
(** Lines 159-161. *)
Definition coupling_table : unit_table := [("isotropic_j", Single "frequency" "Hz")].
Definition int_list (v : jval) : pyres (list Z) :=
  match v with JList l => mapM (fun x => match x with JNum q => Ok (int_of q) | _ => Err ValueError end) l | _ => Err ValueError end.
(** Lines 163-190, the validators. *)
Definition j_units (pu : units) : units := dict_set (pop2 "Cq" "D" pu) "zeta" "Hz".
Definition make_coupling (d : jdict) (js : option sym_tensor) (ja : option anti_tensor) (dp : option sym_tensor) (pu : units) : pyres coupling :=
  let* n := opt_str d "name" in
  let* l := opt_str d "label" in
  let* ds := opt_str d "description" in
  let* v := (match dict_lookup d "site_index" with None => Err ValueError | Some v => int_list v end) in
  let* _ := (match v with [a; b] => if (a =? b)%Z then Err ValueError else Ok tt | _ => Err ValueError end) in
  let* j := def_num d "isotropic_j" 0 any in
  Ok (mkCoupling n l ds v j (option_map (with_sym_units j_units) js) (option_map (with_anti_units j_units) ja)
        (option_map (with_sym_units (pop2 "Cq" "zeta")) dp) pu).
(** Lines 227-230. *)
Definition not_ppm (pu : units) : pyres unit :=
  match dict_lookup pu "zeta" with None => Err KeyError | Some u => if String.eqb u "ppm" then Err ValueError else Ok tt end.
(** Lines 195-231. *)
Definition parse_coupling (d : jdict) : pyres coupling :=
  let* js := opt_parse parse_sym d "j_symmetric" in
  let* _ := (match js with Some t => not_ppm (sym_units t) | None => Ok tt end) in
  let* ja := opt_parse parse_anti d "j_antisymmetric" in
  let* _ := (match ja with Some t => not_ppm (anti_units t) | None => Ok tt end) in
  let* dp := opt_parse parse_sym d "dipolar" in
  let* (d, pu) := parse_units coupling_table d in
  let* _ := no_units_key d in
  make_coupling d js ja dp pu.
(** The argument of the previous function after the call, for a dict without tensors. *)
Definition coupling_argument_after (d : jdict) : jdict := match parse_units coupling_table d with Ok (d', _) => d' | Err _ => d end.
Definition json_coupling (c : coupling) : jdict :=
  parseable_json [("name", str_or_none (c_name c)); ("label", str_or_none (c_label c)); ("description", str_or_none (c_description c));
                  ("site_index", JList (map (fun z => JNum (Qc_of_Z z)) (site_index c))); ("isotropic_j", JNum (isotropic_j c));
                  ("j_symmetric", dict_or_none json_sym (j_symmetric c)); ("j_antisymmetric", dict_or_none json_anti (j_antisymmetric c));
                  ("dipolar", dict_or_none json_sym (dipolar c))] (c_units c).

(** ** SpinSystem: spin_system/__init__.py *)
Record spin_system := mkSystem {
  y_name : option string; y_label : option string; y_description : option string; sites : list site; couplings : option (list coupling);
  abundance : Qc; transition_pathways : option (list (list transition)); y_units : units }.
(** Lines 160-162. *)
Definition system_table : unit_table := [("abundance", Single "dimensionless" "pct")].
(** Lines 346-355: a list of dicts. *)
Definition list_parse {A} (parse : jdict -> pyres A) (d : jdict) (k : string) : pyres (option (list A)) :=
  match dict_lookup d k with
  | None => Ok None
  | Some (JList l) => let* r := mapM (fun x => match x with JDict e => parse e | _ => Err TypeError end) l in Ok (Some r)
  | Some _ => Err TypeError
  end.
(** Lines 168-186.  Pathways must be TransitionPathway objects here; the code also accepts lists of transitions. *)
Definition make_system (d : jdict) (ss : option (list site)) (cs : option (list coupling)) (pu : units) : pyres spin_system :=
  let* n := opt_str d "name" in
  let* l := opt_str d "label" in
  let* ds := opt_str d "description" in
  let* a := def_num d "abundance" (Q2Qc (100 # 1)) (fun q => Qc_leb 0 q && Qc_leb q (Q2Qc (100 # 1))) in
  let* tp := (match dict_lookup d "transition_pathways" with
              | None | Some JNone => Ok None
              | Some (JList l) => let* r := mapM (fun x => match x with JPath p => Ok p | _ => Err ValueError end) l in Ok (Some r)
              | Some _ => Err ValueError
              end) in
  Ok (mkSystem n l ds (match ss with Some l => l | None => [] end) cs a tp pu).
(** Lines 318-357. *)
Definition parse_system (d : jdict) : pyres spin_system :=
  let* ss := list_parse parse_site d "sites" in
  let* cs := list_parse parse_coupling d "couplings" in
  let* (d, pu) := parse_units system_table d in
  let* _ := no_units_key d in
  make_system d ss cs pu.
Definition json_system (y : spin_system) : jdict :=
  parseable_json [("name", str_or_none (y_name y)); ("label", str_or_none (y_label y)); ("description", str_or_none (y_description y));
                  ("sites", JList (map (fun s => JDict (json_site s)) (sites y)));
                  ("couplings", match couplings y with Some l => JList (map (fun c => JDict (json_coupling c)) l) | None => JNone end);
                  ("abundance", JNum (abundance y));
                  ("transition_pathways", match transition_pathways y with Some l => JList (map JPath l) | None => JNone end)] (y_units y).

(** ** TransitionQuery: method/transition_query.py *)
Record query := mkQuery { q_P : option jdict; q_D : option jdict; q_F : option jdict; q_transitions : option (list transition) }.
(** Line 46. *)
Definition default_P : jdict := [("channel-1", JList [JList [JNum (Q2Qc (-1 # 1))]])].
Definition num_list (v : option jval) : pyres (list Qc) :=
  match v with
  | None => Ok []
  | Some (JList l) => mapM (fun x => match x with JNum q => Ok q | _ => Err ValueError end) l
  | Some _ => Err ValueError
  end.
(** transition/base.py lines 34-35. *)
Definition make_transition (v : jval) : pyres transition :=
  match v with
  | JDict d => let* i := num_list (dict_lookup d "initial") in let* f := num_list (dict_lookup d "final") in Ok (i, f)
  | _ => Err ValueError
  end.
Definition opt_dict (d : jdict) (k : string) (default : option jdict) : pyres (option jdict) :=
  match dict_lookup d k with
  | None => Ok default
  | Some JNone => Ok None
  | Some (JDict x) => Ok (Some x)
  | Some _ => Err ValueError
  end.
(** Lines 46-49. *)
Definition make_query (d : jdict) : pyres query :=
  let* p := opt_dict d "P" (Some default_P) in
  let* dd := opt_dict d "D" None in
  let* f := opt_dict d "F" None in
  let* t := (match dict_lookup d "transitions" with
             | None | Some JNone => Ok None
             | Some (JList l) => let* r := mapM make_transition l in Ok (Some r)
             | Some _ => Err ValueError
             end) in
  Ok (mkQuery p dd f t).
Definition default_query : query := mkQuery (Some default_P) None None None.
Definition json_transition (t : transition) : jval := JDict [("initial", JList (map JNum (fst t))); ("final", JList (map JNum (snd t)))].
(** Lines 55-59: only None is left out. *)
Definition json_query (q : query) : jdict :=
  filter (fun kv => match snd kv with JNone => false | _ => true end)
    [("P", dict_or_none (fun d => d) (q_P q)); ("D", dict_or_none (fun d => d) (q_D q)); ("F", dict_or_none (fun d => d) (q_F q));
     ("transitions", match q_transitions q with Some l => JList (map json_transition l) | None => JNone end)].

(** ** Event: method/event.py *)
(** method/frequency_contrib.py lines 7-14: the enumeration. *)
Definition freq_list_all : list string := ["Shielding1_0"; "Shielding1_2"; "Quad1_2"; "Quad2_0"; "Quad2_2"; "Quad2_4"].
Record event := mkEvent {
  fraction : Qc; magnetic_flux_density : Qc; rotor_frequency : Qc; rotor_angle : Qc; freq_contrib : list string; transition_query : query;
  e_units : units }.
(** Lines 62-72. *)
Definition event_table : unit_table :=
  [("magnetic_flux_density", Single "magnetic flux density" "T"); ("rotor_frequency", Single "frequency" "Hz"); ("rotor_angle", Single "angle" "rad")].
Definition non_negative (q : Qc) : bool := Qc_leb 0 q.
Definition angle_range (q : Qc) : bool := Qc_leb 0 q && Qc_leb q (Q2Qc (15707963268 # 10000000000)).
(** Lines 53-59, the attributes with their defaults and bounds. *)
Definition make_event (d : jdict) (pu : units) : pyres event :=
  let* f := def_num d "fraction" 1 any in
  let* b := def_num d "magnetic_flux_density" (Q2Qc (94 # 10)) non_negative in
  let* r := def_num d "rotor_frequency" 0 non_negative in
  let* a := def_num d "rotor_angle" (Q2Qc (955316618 # 1000000000)) angle_range in
  let* fc := (match dict_lookup d "freq_contrib" with
              | None => Ok freq_list_all
              | Some (JList l) => mapM (fun x => match x with JStr s => if existsb (String.eqb s) freq_list_all then Ok s else Err ValueError
                                                             | _ => Err ValueError end) l
              | Some _ => Err ValueError
              end) in
  let* q := (match dict_lookup d "transition_query" with
             | None => Ok default_query
             | Some (JDict x) => make_query x
             | Some _ => Err ValueError
             end) in
  Ok (mkEvent f b r a fc q pu).
(** Lines 83-93. *)
Definition parse_event (d : jdict) : pyres event := let* (d, pu) := parse_units event_table d in let* _ := no_units_key d in make_event d pu.
Fixpoint strings_eqb (a b : list string) : bool :=
  match a, b with [], [] => true | x :: r, y :: t => String.eqb x y && strings_eqb r t | _, _ => false end.
(** Lines 95-106.  The fraction and the contributions are always in the dict. *)
Definition json_event (e : event) : jdict :=
  let dict_ := parseable_json
    [("fraction", JNum (fraction e)); ("magnetic_flux_density", JNum (magnetic_flux_density e)); ("rotor_frequency", JNum (rotor_frequency e));
     ("rotor_angle", JNum (rotor_angle e)); ("freq_contrib", JList (map JStr (freq_contrib e)));
     ("transition_query", JDict (json_query (transition_query e)))] (e_units e) in
  let dict_ := if Qc_eq_bool (fraction e) 1 then dict_pop dict_ "fraction" else dict_ in
  if strings_eqb (freq_contrib e) freq_list_all then dict_pop dict_ "freq_contrib" else dict_.

(** ** SpectralDimension: method/spectral_dimension.py *)
Record dimension := mkDim {
  count : Z; spectral_width : Qc; reference_offset : Qc; origin_offset : option Qc; d_label : option string; d_description : option string;
  events : list event; d_units : units }.
Definition hz_or_ppm : unit_spec := Multi [("frequency", "Hz"); ("dimensionless", "ppm")].
(** Lines 62-72. *)
Definition dim_table : unit_table := [("spectral_width", hz_or_ppm); ("reference_offset", hz_or_ppm); ("origin_offset", hz_or_ppm)].
(** Lines 54-60. *)
Definition make_dim (d : jdict) (ev : option (list event)) (pu : units) : pyres dimension :=
  let* c := def_int d "count" 1024 (fun z => (0 <? z)%Z) in
  let* w := def_num d "spectral_width" (Q2Qc (25000 # 1)) (fun q => Qc_leb 0 q && negb (Qc_eq_bool q 0)) in
  let* r := def_num d "reference_offset" 0 any in
  let* o := opt_num d "origin_offset" any in
  let* l := opt_str d "label" in
  let* ds := opt_str d "description" in
  Ok (mkDim c w r o l ds (match ev with Some l => l | None => [] end) pu).
(** Lines 83-98. *)
Definition parse_dim (d : jdict) : pyres dimension :=
  let* ev := list_parse parse_event d "events" in
  let* (d, pu) := parse_units dim_table d in
  let* _ := no_units_key d in
  make_dim d ev pu.
(** parseable.py lines 92-117. *)
Definition json_dim (x : dimension) : jdict :=
  parseable_json [("count", JNum (Qc_of_Z (count x))); ("spectral_width", JNum (spectral_width x)); ("reference_offset", JNum (reference_offset x));
                  ("origin_offset", num_or_none (origin_offset x)); ("label", str_or_none (d_label x)); ("description", str_or_none (d_description x));
                  ("events", JList (map (fun e => JDict (json_event e)) (events x)))] (d_units x).

(** ** Method: method/__init__.py *)
(** An affine matrix as numpy has it: one or two axes. *)
Inductive matrix := Flat (l : list Qc) | Rows (l : list (list Qc)).
Definition elements (m : matrix) : list Qc := match m with Flat l => l | Rows l => concat l end.
(** A method; [simulation] and [experiment] are the dicts of their CSDM objects: [to_dict] and [parse_dict] of csdmpy are taken to be inverse
    to each other.  The time stamp, and [property_units], which the equality of methods ignores, are left out. *)
Record method := mkMethod {
  m_name : option string; m_label : option string; m_description : option string; channels : list string; dims : list dimension;
  affine : option matrix; simulation : option jdict; experiment : option jdict }.
(** method/named_methods.json *)
Definition NAMED_METHODS : list string :=
  ["BlochDecaySpectrum"; "BlochDecayCentralTransitionSpectrum"; "BlochDecayCTSpectrum"; "ThreeQ_VAS"; "FiveQ_VAS"; "SevenQ_VAS"; "ST1_VAS"; "ST2_VAS";
   "SSB2D"; "Cosy"; "Inadequate"].
(** method/utils.py lines 11-30, [expand_spectral_dimension_object]. *)
Definition list_g : list string := ["magnetic_flux_density"; "rotor_frequency"; "rotor_angle"].
Definition globals_of (py_dict : jdict) : jdict :=
  fold_left (fun glb item => match dict_lookup py_dict item with Some v => dict_set glb item v | None => glb end) list_g [].
Definition fill_event (glb ev : jdict) : jdict := fold_left (fun e kv => if has_key ev (fst kv) then e else dict_set e (fst kv) (snd kv)) glb ev.
Definition as_dict (v : jval) : pyres jdict := match v with JDict d => Ok d | _ => Err AttributeError end.
Definition as_list (v : jval) : pyres (list jval) := match v with JList l => Ok l | _ => Err TypeError end.
Definition expand_dim (glb : jdict) (v : jval) : pyres jval :=
  let* dim := as_dict v in
  let* evs := as_list (match dict_lookup dim "events" with Some x => x | None => JList [JDict []] end) in
  let* evs := mapM (fun e => let* ev := as_dict e in Ok (JDict (fill_event glb ev))) evs in
  Ok (JDict (dict_set dim "events" (JList evs))).
Definition expand (py_dict : jdict) : pyres jdict :=
  match dict_lookup py_dict "spectral_dimensions" with
  | None => Err KeyError
  | Some v =>
      let glb := globals_of py_dict in
      let* l := as_list v in
      let* l := mapM (expand_dim glb) l in
      Ok (fold_left dict_pop (map fst glb) (dict_set py_dict "spectral_dimensions" (JList l)))
  end.
(** Lines 193-203, [validate_affine_matrix]: numpy makes one axis of numbers, two axes of rows of one length. *)
Definition numbers (l : list jval) : pyres (list Qc) := mapM (fun x => match x with JNum q => Ok q | _ => Err ValueError end) l.
Definition as_array (v : jval) : pyres matrix :=
  match v with
  | JList l =>
      match numbers l with
      | Ok q => Ok (Flat q)
      | Err _ =>
          let* rows := mapM (fun x => match x with JList r => numbers r | _ => Err ValueError end) l in
          match rows with
          | [] => Ok (Flat [])
          | r :: t => if forallb (fun s => Nat.eqb (length s) (length r)) t then Ok (Rows rows) else Err ValueError
          end
      end
  | _ => Err ValueError
  end.
Definition check_affine (n : nat) (m : matrix) : pyres matrix :=
  if negb (Nat.eqb (length (elements m)) (n * n)) then Err ValueError
  else match elements m with [] => Err IndexError | x :: _ => if Qc_eq_bool x 0 then Err ValueError else Ok m end.
(** Lines 169-203 and the types of lines 127-134. *)
Definition make_method (d : jdict) (ds : option (list dimension)) : pyres method :=
  let* n := opt_str d "name" in
  let* l := opt_str d "label" in
  let* de := opt_str d "description" in
  let* c := (match dict_lookup d "channels" with
             | None => Ok []
             | Some (JList l) => mapM (fun x => match x with JStr s => format_isotope_string s | _ => Err ValueError end) l
             | Some _ => Err ValueError
             end) in
  let dd := match ds with Some l => l | None => [mkDim 1024 (Q2Qc (25000 # 1)) 0 None None None [] (default_units dim_table)] end in
  let* a := (match dict_lookup d "affine_matrix" with
             | None | Some JNone => Ok None
             | Some v => let* m := as_array v in let* m := check_affine (length dd) m in Ok (Some m)
             end) in
  let* s := opt_dict d "simulation" None in
  let* e := opt_dict d "experiment" None in
  Ok (mkMethod n l de c dd a s e).
(** Lines 205-234. *)
Definition parse_method (d : jdict) : pyres method :=
  match dict_lookup d "spectral_dimensions" with
  | None => let* _ := no_units_key d in make_method d None
  | Some _ =>
      let* d := expand d in
      let* ds := list_parse parse_dim d "spectral_dimensions" in
      let* _ := no_units_key d in
      make_method d ds
  end.
Definition json_matrix (m : matrix) : jval := match m with Flat l => JList (map JNum l) | Rows l => JList (map (fun r => JList (map JNum r)) l) end.
(** Equality of the texts of two quantities. *)
Definition same_text (a b : jval) : bool :=
  match a, b with JQty q u, JQty r v => Qc_eq_bool q r && String.eqb u v | _, _ => false end.
(** Lines 276-281, one event. *)
Definition strip_event (named : bool) (global_ : jdict) (ev : jdict) : pyres jdict :=
  let* ev := for_each global_ (fun kv ev =>
    match dict_lookup ev (fst kv) with
    | None => Err KeyError
    | Some x => Ok (if same_text x (snd kv) then dict_pop ev (fst kv) else ev)
    end) ev in
  if named then (if has_key ev "transition_query" then Ok (dict_pop ev "transition_query") else Err KeyError) else Ok ev.
(** Lines 275-284, one dimension. *)
Definition strip_dim (named : bool) (global_ : jdict) (dim : jdict) : pyres jdict :=
  match dict_lookup dim "events" with
  | Some (JList l) =>
      let* evs := mapM (fun x => match x with JDict ev => strip_event named global_ ev | _ => Err TypeError end) l in
      Ok (if forallb (fun ev => match ev with [] => true | _ => false end) evs then dict_pop dim "events"
          else dict_set dim "events" (JList (map JDict evs)))
  | _ => Err KeyError
  end.
(** Lines 255-296. *)
Definition json_method (m : method) : pyres jdict :=
  let named := match m_name m with Some n => existsb (String.eqb n) NAMED_METHODS | None => false end in
  match dims m with
  | [] => Err IndexError
  | dim0 :: _ =>
      match events dim0 with
      | [] => Err IndexError
      | ev0 :: _ =>
          let global_ := [("magnetic_flux_density", JQty (magnetic_flux_density ev0) "T"); ("rotor_frequency", JQty (rotor_frequency ev0) "Hz");
                          ("rotor_angle", JQty (rotor_angle ev0) "rad")] in
          let* ds := mapM (fun x => let* y := strip_dim named global_ (json_dim x) in Ok (JDict y)) (dims m) in
          Ok (filter (fun kv => match snd kv with JNone => false | _ => true end)
                ([("name", str_or_none (m_name m)); ("label", str_or_none (m_label m)); ("description", str_or_none (m_description m));
                  ("channels", JList (map JStr (channels m))); ("spectral_dimensions", JList ds)] ++ global_ ++
                 [("affine_matrix", match affine m with Some a => json_matrix a | None => JNone end);
                  ("simulation", dict_or_none (fun d => d) (simulation m)); ("experiment", dict_or_none (fun d => d) (experiment m))]))
      end
  end.

(** ** Simulator: simulator/__init__.py and simulator/config.py *)
Record config := mkConfig { number_of_sidebands : Z; integration_volume : string; integration_density : Z; decompose_spectrum : string }.
Record simulator := mkSim {
  x_name : option string; x_label : option string; x_description : option string; spin_systems : list spin_system; methods : list method;
  sim_config : config }.
(** simulator/config.py lines 70-73. *)
Definition def_literal (d : jdict) (k default : string) (allowed : list string) : pyres string :=
  match dict_lookup d k with
  | None => Ok default
  | Some (JStr s) => if existsb (String.eqb s) allowed then Ok s else Err ValueError
  | Some _ => Err ValueError
  end.
Definition make_config (d : jdict) : pyres config :=
  let* n := def_int d "number_of_sidebands" 64 (fun z => (0 <? z)%Z) in
  let* v := def_literal d "integration_volume" "octant" ["octant"; "hemisphere"] in
  let* i := def_int d "integration_density" 70 (fun z => (0 <? z)%Z) in
  let* s := def_literal d "decompose_spectrum" "none" ["none"; "spin_system"] in
  Ok (mkConfig n v i s).
Definition json_config (c : config) : jdict :=
  [("number_of_sidebands", JNum (Qc_of_Z (number_of_sidebands c))); ("integration_volume", JStr (integration_volume c));
   ("integration_density", JNum (Qc_of_Z (integration_density c))); ("decompose_spectrum", JStr (decompose_spectrum c))].
(** simulator/__init__.py lines 35-39, the names of the classes with their own reading; the two names of the central transition method are one class. *)
Definition method_names : list string :=
  ["BlochDecayCTSpectrum"; "BlochDecaySpectrum"; "Method1D"; "Method2D"; "FiveQ_VAS"; "SevenQ_VAS"; "ThreeQ_VAS"; "SSB2D"; "ST1_VAS";
   "ST2_VAS"].
Section Simulator.
  (** The reading of a method of a named class (methods/utils.py lines 142-150), by its name. *)
  Variable parse_named : string -> jdict -> pyres method.
  (** Lines 226-242. *)
  Definition parse_any_method (d : jdict) : pyres method :=
    match dict_lookup d "name" with
    | None => Err KeyError
    | Some (JStr n) => if existsb (String.eqb n) method_names then parse_named n d else parse_method d
    | Some _ => parse_method d
    end.
  (** Lines 172-247. *)
  Definition parse_simulator (d : jdict) : pyres simulator :=
    let* ys := list_parse parse_system d "spin_systems" in
    let* ms := list_parse parse_any_method d "methods" in
    let* n := opt_str d "name" in
    let* l := opt_str d "label" in
    let* ds := opt_str d "description" in
    let* c := (match dict_lookup d "config" with
               | None => make_config []
               | Some (JDict c) => make_config c
               | Some _ => Err ValueError
               end) in
    Ok (mkSim n l ds (match ys with Some l => l | None => [] end) (match ms with Some l => l | None => [] end) c).
End Simulator.
(** Lines 292-340.  None and empty lists are left out. *)
Definition json_simulator (version : string) (s : simulator) (include_methods include_version : bool) : pyres jdict :=
  let* ms := (if include_methods then mapM (fun m => let* d := json_method m in Ok (JDict d)) (methods s) else Ok []) in
  Ok (filter (fun kv => match snd kv with JNone | JList [] => false | _ => true end)
        [("name", str_or_none (x_name s)); ("description", str_or_none (x_description s)); ("label", str_or_none (x_label s));
         ("spin_systems", JList (map (fun y => JDict (json_system y)) (spin_systems s)));
         ("methods", if include_methods then JList ms else JNone); ("config", JDict (json_config (sim_config s)));
         ("version", if include_version then JStr version else JNone)]).
