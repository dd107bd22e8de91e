(** Model of the classes of named methods as they make and read Method objects: methods/utils.py lines 30-225, methods/base.py lines 112-170,
    methods/mqvas.py, stvas.py and ssb2d.py, and methods/methods_data.json.  The objects and the values are those of JsonModel.v.
    Simplifications: every number is a float; spectral dimensions and events given by the caller are dicts; the entry [user_variables] of the
    templates, which no class has as an attribute, is left out; the keyword [property_units] is not given. *)
From Coq Require Import ZArith QArith Qcanon Bool String List.
From Verif Require Import Base SitesModel JsonModel.
From Verif Require PathwayModel MethodsModel.
Import ListNotations.
Open Scope string_scope.
Open Scope list_scope.

(** ** The templates: methods/methods_data.json *)
Record template := mkTemplate { t_name : string; t_description : string; t_channels : nat; t_globals : jdict; t_dims : list (list jdict) }.
(** [{"channel-1": [[x]]}] *)
Definition one_symmetry (x : Z) : jval := JDict [("channel-1", JList [JList [JNum (Qc_of_Z x)]])].
(** Lines 2-23. *)
Definition Bloch_decay : template :=
  mkTemplate "BlochDecaySpectrum" "A one-dimensional Bloch decay spectrum method." 1 []
    [[[("transition_query", JDict [("P", one_symmetry (-1))])]]].
(** Lines 24-50. *)
Definition Bloch_decay_central_transition : template :=
  mkTemplate "BlochDecayCTSpectrum" "A one-dimensional central transition selective Bloch decay spectrum method." 1 []
    [[[("transition_query", JDict [("P", one_symmetry (-1)); ("D", one_symmetry 0)])]]].
(** Lines 51-73. *)
Definition Method1D : template :=
  mkTemplate "Method1D" "A generic one-dimensional spectrum method." 1 [("transition_query", JDict [("P", one_symmetry (-1))])] [[[]]].
(** Lines 74-101. *)
Definition Method2D : template :=
  mkTemplate "Method2D" "A generic two-dimensional correlation spectrum method." 1
    [("rotor_frequency", JNum (Qc_of_Z 1000000000000)); ("transition_query", JDict [("P", one_symmetry (-1))])] [[[]]; [[]]].
(** methods/base.py lines 92-109, by the names of the classes. *)
Definition templates : list template := [Bloch_decay; Bloch_decay_central_transition; Method1D; Method2D].
Definition template_of (n : string) : option template := find (fun t => String.eqb (t_name t) n) templates.

(** ** methods/utils.py *)
(** [{**a, **b}], with the entries in another order. *)
Definition dict_update (a b : jdict) : jdict := b ++ filter (fun kv => negb (has_key b (fst kv))) a.
(** Lines 88-93. *)
Definition parse_transition_query (q : jval) : jval :=
  match q with
  | JList l => JDict [("channel-1", JList (map (fun i => match i with JList _ => i | _ => JList [i] end) l))]
  | _ => q
  end.
(** Lines 76-85. *)
Definition parse_events (evt : jdict) : pyres jdict :=
  match dict_lookup evt "transition_query" with
  | None => Ok evt
  | Some v =>
      let* tq := as_dict v in
      let tq := match dict_lookup tq "P" with Some p => dict_set tq "P" (parse_transition_query p) | None => tq end in
      let tq := match dict_lookup tq "D" with Some p => dict_set tq "D" (parse_transition_query p) | None => tq end in
      Ok (dict_set evt "transition_query" (JDict tq))
  end.
(** The events of a dimension given by the caller, or None. *)
Definition given_events (dim : jdict) : pyres (option (list jdict)) :=
  match dict_lookup dim "events" with
  | None => Ok None
  | Some v => let* l := as_list v in let* l := mapM as_dict l in Ok (Some l)
  end.
(** Lines 66-73; each dimension as its other entries and its events. *)
Definition parse_spectral_dimensions (dims : list jdict) (n : nat) : pyres (list (jdict * option (list jdict))) :=
  match dims with
  | [[]] => Ok (repeat ([], None) n)
  | _ => mapM (fun dim =>
           let* evs := given_events dim in
           match evs with
           | None => Ok (dim, None)
           | Some l => let* l := mapM parse_events l in Ok (dict_pop dim "events", Some l)
           end) dims
  end.
Definition or_default (kwargs : jdict) (k : string) (v : jval) : jval := match dict_lookup kwargs k with Some w => w | None => v end.
(** Lines 30-63. *)
Definition prepare_method_structure (t : template) (kwargs : jdict) : pyres jdict :=
  let prep := [("name", or_default kwargs "name" (JStr (t_name t))); ("description", or_default kwargs "description" (JStr (t_description t)));
               ("label", or_default kwargs "label" JNone); ("simulation", or_default kwargs "simulation" JNone);
               ("experiment", or_default kwargs "experiment" JNone); ("affine_matrix", or_default kwargs "affine_matrix" JNone)] in
  match dict_lookup kwargs "channels" with
  | Some c => let* l := as_list c in
              if Nat.eqb (length l) (t_channels t) then Ok (prep ++ [("channels", c)]) else Err ValueError
  | None => Ok (prep ++ [("channels", JList (repeat (JStr "1H") (t_channels t)))])
  end.
(** Lines 189-198.  The text "1000000000000.0 Hz" is what [json] prints for this quantity. *)
Definition check_rotor_frequency (kwargs globals : jdict) : pyres unit :=
  match filter (fun k => has_key globals k) (map fst kwargs) with
  | [] => Ok tt
  | common =>
      match dict_lookup kwargs "rotor_frequency" with
      | None => Err KeyError
      | Some r_freq =>
          if existsb (String.eqb "rotor_frequency") common && same_text r_freq (JQty (Qc_of_Z 1000000000000) "Hz") then Ok tt else Err ValueError
      end
  end.
(** [Event().dict()] without [property_units], which line 212 removes: method/event.py lines 53-58. *)
Definition event_default : jdict :=
  [("fraction", JNum 1); ("magnetic_flux_density", JNum (Q2Qc (94 # 10))); ("rotor_frequency", JNum 0);
   ("rotor_angle", JNum (Q2Qc (955316618 # 1000000000))); ("freq_contrib", JList (map JStr freq_list_all));
   ("transition_query", JDict [("P", JDict default_P); ("D", JNone); ("F", JNone); ("transitions", JNone)])].
(** Lines 18-22 and 167-174. *)
Definition fix_string (kv : string * jval) : string * jval :=
  match dict_lookup [("magnetic_flux_density", "T"); ("rotor_frequency", "Hz"); ("rotor_angle", "rad")] (fst kv), snd kv with
  | Some u, JNum q => (fst kv, JQty q u)
  | _, _ => kv
  end.
(** Lines 177-186. *)
Definition fill_missing (evs : option (list jdict)) (tem : list jdict) : list jdict :=
  match evs with None => tem | Some l => tem ++ repeat event_default (length l - length tem) end.
(** Lines 207-223, one event; [user] is the event of the caller. *)
Definition gen_one (globals kwargs : jdict) (parse : bool) (e : jdict) (user : option jdict) : jdict :=
  let kw := match user with Some u => dict_update kwargs u | None => kwargs end in
  let e := dict_update e kw in
  let ge := dict_update globals kw in
  let e := dict_update e ge in
  if parse then map fix_string e else e.
(** Lines 206-225 from index [j] on. *)
Fixpoint gen_loop (globals kwargs : jdict) (parse : bool) (evs : option (list jdict)) (tem : list jdict) (j : nat) : pyres (list jdict) :=
  match tem with
  | [] => Ok []
  | e :: r =>
      let* user := (match evs with
                    | None => Ok None
                    | Some l => match nth_error l j with None => Err IndexError | Some u => Ok (Some u) end
                    end) in
      let* rest := gen_loop globals kwargs parse evs r (S j) in
      Ok (gen_one globals kwargs parse e user :: rest)
  end.
(** Lines 201-225. *)
Definition gen_event (tem : list jdict) (evs : option (list jdict)) (globals kwargs : jdict) (parse : bool) : pyres (list jdict) :=
  gen_loop globals kwargs parse evs (fill_missing evs tem) 0.
(** Lines 127-136. *)
Fixpoint gen_dims (tems : list (list jdict)) (dims : list (jdict * option (list jdict))) (globals kwargs : jdict) (parse : bool)
  : pyres (list (jdict * list jdict)) :=
  match tems with
  | [] => Ok []
  | tem :: tr =>
      match dims with
      | [] => Err IndexError
      | (dim, evs) :: dr =>
          let* events := gen_event tem evs globals kwargs parse in
          let* rest := gen_dims tr dr globals kwargs parse in
          Ok ((dim, events) :: rest)
      end
  end.
(** Line 133 with [parse] false: the objects of the dimension and of its events. *)
Definition make_dimension (x : jdict * list jdict) : pyres dimension :=
  let* evs := mapM (fun e => make_event e (default_units event_table)) (snd x) in
  make_dim (fst x) (Some evs) (default_units dim_table).
(** Lines 99-140; [kwargs] has all keyword arguments but [parse]. *)
Definition construct (t : template) (kwargs : jdict) (parse : bool) : pyres method :=
  let* l := as_list (match dict_lookup kwargs "spectral_dimensions" with Some v => v | None => JList [JDict []] end) in
  let kwargs := dict_pop kwargs "spectral_dimensions" in
  match l with
  | [] => Err IndexError
  | _ =>
      let n_tem := length (t_dims t) in
      let* l := mapM as_dict l in
      let* dims := parse_spectral_dimensions l n_tem in
      let* prep := prepare_method_structure t kwargs in
      let* _ := check_rotor_frequency kwargs (t_globals t) in
      if Nat.ltb n_tem (length dims) then Err ValueError else
      let* out := gen_dims (t_dims t) dims (t_globals t) kwargs parse in
      if parse then
        parse_method (prep ++ [("spectral_dimensions", JList (map (fun x => JDict (dict_update (fst x) [("events", JList (map JDict (snd x)))])) out))])
      else
        let* ds := mapM make_dimension out in
        make_method prep (Some ds)
  end.

(** ** The classes of methods/mqvas.py, stvas.py and ssb2d.py *)
Definition names_2D : list string := ["ThreeQ_VAS"; "FiveQ_VAS"; "SevenQ_VAS"; "ST1_VAS"; "ST2_VAS"; "SSB2D"].
(** A query of MethodsModel.v as the dict of the code; only channel-1 occurs. *)
Definition query_dict (q : PathwayModel.sym_query (list Qc)) : option jdict :=
  option_map (map (fun ci => ("channel-1", JList (map (fun item => JList (map JNum item)) (snd ci))))) q.
(** [dim.events[0].transition_query.P = ...; dim.events[0].transition_query.D = ...] *)
Definition set_query (x : dimension) (q : MethodsModel.query) : pyres dimension :=
  match events x with
  | [] => Err IndexError
  | e :: r =>
      let tq := transition_query e in
      let tq := mkQuery (query_dict (fst q)) (query_dict (snd q)) (q_F tq) (q_transitions tq) in
      let e := mkEvent (fraction e) (magnetic_flux_density e) (rotor_frequency e) (rotor_angle e) (freq_contrib e) tq (e_units e) in
      Ok (mkDim (count x) (spectral_width x) (reference_offset x) (origin_offset x) (d_label x) (d_description x) (e :: r) (d_units x))
  end.
Fixpoint set_queries (l : list dimension) (qs : list MethodsModel.query) : pyres (list dimension) :=
  match qs, l with
  | [], _ => Ok l
  | _ :: _, [] => Err IndexError
  | q :: qr, x :: r => let* x := set_query x q in let* r := set_queries r qr in Ok (x :: r)
  end.
(** The spin of the first channel. *)
Definition first_spin (m : method) : pyres Qc :=
  match channels m with [] => Err IndexError | c :: _ => let* n := twice_spin c in Ok (MethodsModel.half n) end.
(** The queries, the affine matrix when the method has none, and the description. *)
Definition apply_update (m : method) (u : list MethodsModel.query * list Qc) (text : string) : pyres method :=
  let* ds := set_queries (dims m) (fst u) in
  let* a := (match affine m with Some a => Ok a | None => check_affine (length ds) (Flat (snd u)) end) in
  Ok (mkMethod (m_name m) (m_label m) (Some text) (channels m) ds (Some a) (simulation m) (experiment m)).
(** mqvas.py line 98 and stvas.py lines 84-87. *)
Definition MQ_text (name : string) : string :=
  "Simulate a " ++ (if String.eqb name "ThreeQ_VAS" then "3" else if String.eqb name "FiveQ_VAS" then "5" else "7") ++ "Q variable-angle spinning spectrum.".
Definition ST_text (name : string) : string :=
  "Simulate a " ++ (if String.eqb name "ST1_VAS" then "1.5 -> 0.5 and -0.5 -> -1.5" else "2.5 -> 1.5 and -1.5 -> -2.5") ++
  " satellite-transition variable-angle spinning spectrum.".
(** mqvas.py lines 74-99, stvas.py lines 58-88, ssb2d.py lines 110-125; [cls] is the class, the tables are read by the name of the method. *)
Definition update (cls : string) (m : method) : pyres method :=
  if String.eqb cls "SSB2D" then apply_update m (MethodsModel.SSB2D_update (option_map elements (affine m))) "Simulate a 2D sideband separation method."
  else
    match m_name m with
    | None => Err KeyError
    | Some name =>
        if existsb (String.eqb cls) ["ST1_VAS"; "ST2_VAS"] then
          let* _ := MethodsModel.lookup String.eqb MethodsModel.ST_p_symmetry name in
          let* spin := first_spin m in
          let* u := MethodsModel.ST_update name spin (option_map elements (affine m)) in
          apply_update m u (ST_text name)
        else
          let* _ := MethodsModel.lookup String.eqb MethodsModel.MQ_p_symmetry name in
          let* spin := first_spin m in
          let* u := MethodsModel.MQ_update name spin (option_map elements (affine m)) in
          apply_update m u (MQ_text name)
    end.
(** base.py line 119: the name of the class unless a name is given. *)
Definition with_name (cls : string) (kwargs : jdict) : jdict := if has_key kwargs "name" then kwargs else dict_set kwargs "name" (JStr cls).
(** base.py lines 113-123 and utils.py lines 102-103 for SpectralDimension objects; [kwargs] without them. *)
Definition new_objects (cls : string) (kwargs : jdict) (ds : list dimension) : pyres method :=
  if negb (Nat.eqb (length ds) 2) then Err ValueError
  else let* m := make_method (with_name cls kwargs) (Some ds) in update cls m.
(** base.py lines 127-168: the number of dimensions, no queries and no events, which are given in dicts. *)
Definition check_dicts (l : list jdict) : pyres unit :=
  if negb (Nat.eqb (length l) 2) then Err ValueError else if existsb (fun dim => has_key dim "events") l then Err ValueError else Ok tt.
(** base.py lines 113-123; [kwargs] may have no spectral dimensions. *)
Definition new_dicts (cls : string) (kwargs : jdict) : pyres method :=
  let* l := (match dict_lookup kwargs "spectral_dimensions" with
             | None => Ok [[]; []]
             | Some v => let* l := as_list v in let* l := mapM as_dict l in let* _ := check_dicts l in Ok l
             end) in
  construct Method2D (dict_update (with_name cls kwargs) [("spectral_dimensions", JList (map JDict l))]) false.
(** ssb2d.py line 97. *)
Definition set_rotor (f : jval) (x : dimension) : pyres dimension :=
  match events x, f with
  | e :: r, JNum q =>
      if non_negative q then
        Ok (mkDim (count x) (spectral_width x) (reference_offset x) (origin_offset x) (d_label x) (d_description x)
              (mkEvent (fraction e) (magnetic_flux_density e) q (rotor_angle e) (freq_contrib e) (transition_query e) (e_units e) :: r) (d_units x))
      else Err ValueError
  | [], _ => Err IndexError
  | _, _ => Err ValueError
  end.
(** ssb2d.py lines 72-108 for dicts.  Without the keyword [rotor_frequency] the call fails, with a KeyError when an event has one. *)
Definition new_SSB2D (kwargs : jdict) : pyres method :=
  match dict_lookup kwargs "rotor_frequency" with
  | None => Err ValueError
  | Some f =>
      if (match f with JNum q => Qc_eq_bool q 0 | _ => false end) then Err ValueError else
      let* m := new_dicts "SSB2D" (dict_pop kwargs "rotor_frequency") in
      match dims m with
      | [] => Err IndexError
      | x :: r => let* x := set_rotor f x in
                  update "SSB2D" (mkMethod (m_name m) (m_label m) (m_description m) (channels m) (x :: r) (affine m) (simulation m) (experiment m))
      end
  end.
(** A call of the class with keyword arguments, the spectral dimensions being dicts. *)
Definition make_named (cls : string) (kwargs : jdict) : pyres method :=
  match template_of cls with
  | Some t => construct t kwargs false
  | None => if String.eqb cls "SSB2D" then new_SSB2D kwargs else let* m := new_dicts cls kwargs in update cls m
  end.
(** methods/utils.py lines 142-150 for the template classes; method/__init__.py lines 205-234 with the class in the place of Method for the
    others.  A dict without spectral dimensions is then the keyword arguments of the class. *)
Definition parse_named (cls : string) (d : jdict) : pyres method :=
  match template_of cls with
  | Some t => construct t d true
  | None =>
      match dict_lookup d "spectral_dimensions" with
      | None => let* _ := no_units_key d in make_named cls d
      | Some _ =>
          let* d := expand d in
          let* ds := list_parse parse_dim d "spectral_dimensions" in
          let* _ := no_units_key d in
          new_objects cls (dict_pop d "spectral_dimensions") (match ds with Some l => l | None => [] end)
      end
  end.
