(** Model of the functions that rewrite dictionaries: utils/extra.py [_reduce_dict], method/utils.py
    [expand_spectral_dimension_object] and methods/utils.py [generate_method_from_template]. *)
From Coq Require Import ZArith QArith Bool Ascii String List.
From Verif Require Import Base SitesModel.
Import ListNotations.
Open Scope string_scope.
Open Scope list_scope.

(** Python values built of None, numbers, strings, lists and dicts with string keys.  Tuples are lists. *)
Inductive pv :=
| PNone | PInt (z : Z) | PFloat (q : Q) | PStr (s : string) | PList (l : list pv) | PDict (d : list (string * pv)).
Definition dict := list (string * pv).
Definition has {A} (d : list (string * A)) (k : string) : bool := match dict_lookup d k with Some _ => true | None => false end.
(** [d[k]] *)
Definition getitem (d : dict) (k : string) : pyres pv := match dict_lookup d k with Some v => Ok v | None => Err KeyError end.
(** [d.pop(k)], the dict that is left, for a key that is there. *)
Definition dict_remove {A} (d : list (string * A)) (k : string) : list (string * A) := filter (fun kv => negb (String.eqb (fst kv) k)) d.
(** A value used as a dict or as a list.  Using a string or a dict where a list is expected is an error here. *)
Definition as_dict (v : pv) : pyres dict := match v with PDict d => Ok d | _ => Err AttributeError end.
Definition as_list (v : pv) : pyres (list pv) := match v with PList l => Ok l | _ => Err TypeError end.
Definition member (k : string) (l : list string) : bool := existsb (String.eqb k) l.

(** ** utils/extra.py *)
(** [v["symbol"]]; indexing a string by a string is a TypeError. *)
Definition symbol_of (v : pv) : pyres pv := match v with PDict d => getitem d "symbol" | _ => Err TypeError end.
(** Lines 2-42.  The recursive calls use the default for [exclude].  In a list, dicts are reduced and all else is kept, lists in lists as well. *)
Fixpoint reduce_value (exclude : list string) (v : pv) : pyres pv :=
  match v with
  | PDict d =>
      (fix go (d : dict) (obj : dict) : pyres pv :=
         match d with
         | [] => Ok (PDict obj)
         | (k, x) :: r =>
             if member k exclude || match x with PNone => true | _ => false end then go r obj
             else if String.eqb k "isotope" then (let* s := symbol_of x in go r (dict_set obj k s))
             else if String.eqb k "channels" then (let* l := as_list x in let* s := mapM symbol_of l in go r (dict_set obj k (PList s)))
             else match x with
                  | PDict _ => let* y := reduce_value ["property_units"] x in go r (dict_set obj k y)
                  | PList l =>
                      let* y := (fix each (l : list pv) : pyres (list pv) :=
                                   match l with
                                   | [] => Ok []
                                   | z :: t => let* z' := (match z with PDict _ => reduce_value ["property_units"] z | _ => Ok z end) in
                                               let* t' := each t in Ok (z' :: t')
                                   end) l in
                      go r (dict_set obj k (PList y))
                  | _ => go r (dict_set obj k x)
                  end
         end) d []
  | _ => Ok v
  end.
Definition reduce_dict (d : dict) (exclude : list string) : pyres pv := reduce_value exclude (PDict d).

(** ** method/utils.py *)
Definition list_g : list string := ["magnetic_flux_density"; "rotor_frequency"; "rotor_angle"].
(** Lines 14-16. *)
Definition globals_of (py_dict : dict) : dict :=
  fold_left (fun glb item => match dict_lookup py_dict item with Some v => dict_set glb item v | None => glb end) list_g [].
(** Lines 23-26: the keys the event has are left alone. *)
Definition fill_event (glb : dict) (ev : dict) : dict :=
  let intersect := filter (fun k => has glb k) (map fst ev) in
  fold_left (fun e kv => if member (fst kv) intersect then e else dict_set e (fst kv) (snd kv)) glb ev.
(** Lines 20-26. *)
Definition expand_dim (glb : dict) (v : pv) : pyres pv :=
  let* dim := as_dict v in
  let dim := if has dim "events" then dim else dict_set dim "events" (PList [PDict []]) in
  let* evs := getitem dim "events" in
  let* evs := as_list evs in
  let* evs := mapM (fun e => let* ev := as_dict e in Ok (PDict (fill_event glb ev))) evs in
  Ok (PDict (dict_set dim "events" (PList evs))).
(** Lines 11-30; the dict that is returned, which is also the argument after the call. *)
Definition expand (py_dict : dict) : pyres dict :=
  let glb := globals_of py_dict in
  let* dims := getitem py_dict "spectral_dimensions" in
  let* dims := as_list dims in
  let* dims := mapM (expand_dim glb) dims in
  let py_dict := dict_set py_dict "spectral_dimensions" (PList dims) in
  Ok (fold_left dict_remove (map fst glb) py_dict).

(** ** methods/utils.py *)
(** An entry of methods_data.json. *)
Record template := mkTemplate {
  t_name : pv; t_description : pv; t_channels : nat;
  t_globals : dict;            (* global_event_attributes *)
  t_dims : list (list dict)    (* the events of each spectral dimension *)
}.
(** Lines 88-93. *)
Definition parse_transition_query (q : pv) : pv :=
  match q with
  | PList l => PDict [("channel-1", PList (map (fun i => match i with PList _ => i | _ => PList [i] end) l))]
  | _ => q
  end.
(** Lines 76-85, [t_query] being an object inside the event. *)
Definition parse_events (evt : dict) : pyres dict :=
  match dict_lookup evt "transition_query" with
  | None => Ok evt
  | Some v =>
      let* tq := as_dict v in
      let tq := match dict_lookup tq "P" with Some p => dict_set tq "P" (parse_transition_query p) | None => tq end in
      let tq := match dict_lookup tq "D" with Some p => dict_set tq "D" (parse_transition_query p) | None => tq end in
      Ok (dict_set evt "transition_query" (PDict tq))
  end.
(** Lines 69-72, one dimension. *)
Definition parse_dimension (dim : dict) : pyres dict :=
  match dict_lookup dim "events" with
  | None => Ok dim
  | Some v =>
      let* l := as_list v in
      let* l := mapM (fun e => let* e := as_dict e in let* e := parse_events e in Ok (PDict e)) l in
      Ok (dict_set dim "events" (PList l))
  end.
(** Lines 66-73.  The second result is the caller's list after the call. *)
Definition parse_spectral_dimensions (dims : list dict) (n : nat) : pyres (list dict * list dict) :=
  match dims with
  | [[]] => Ok (repeat [] n, dims)
  | _ => let* dims := mapM parse_dimension dims in Ok (dims, dims)
  end.
(** [len] *)
Definition py_len (v : pv) : pyres nat :=
  match v with PList l => Ok (length l) | PDict d => Ok (length d) | PStr s => Ok (String.length s) | _ => Err TypeError end.
Definition or_default (kwargs : dict) (k : string) (v : pv) : pv := match dict_lookup kwargs k with Some w => w | None => v end.
(** Lines 30-63. *)
Definition prepare_method_structure (t : template) (kwargs : dict) : pyres dict :=
  let prep := [("name", or_default kwargs "name" (t_name t)); ("description", or_default kwargs "description" (t_description t));
               ("label", or_default kwargs "label" PNone); ("simulation", or_default kwargs "simulation" PNone);
               ("experiment", or_default kwargs "experiment" PNone); ("affine_matrix", or_default kwargs "affine_matrix" PNone)] in
  match dict_lookup kwargs "channels" with
  | Some c => let* n := py_len c in
              if Nat.eqb n (t_channels t) then Ok (prep ++ [("channels", c)]) else Err ValueError
  | None => Ok (prep ++ [("channels", PList (repeat (PStr "1H") (t_channels t)))])
  end.
(** Lines 189-198. *)
Definition check_rotor_frequency (kwargs globals : dict) : pyres unit :=
  match filter (fun k => has globals k) (map fst kwargs) with
  | [] => Ok tt
  | common =>
      let* r_freq := getitem kwargs "rotor_frequency" in
      if member "rotor_frequency" common && match r_freq with PStr s => String.eqb s "1000000000000.0 Hz" | _ => false end
      then Ok tt else Err ValueError
  end.

Section Generate.
  (** [Event().dict()], the defaults of an event, and the text of a float with its unit (lines 167-174). *)
  Variable event_default : dict.
  Variable with_unit : Q -> string -> string.

  Definition default_units : list (string * string) := [("magnetic_flux_density", "T"); ("rotor_frequency", "Hz"); ("rotor_angle", "rad")].
  Definition fix_string (kv : string * pv) : string * pv :=
    match dict_lookup default_units (fst kv), snd kv with
    | Some u, PFloat q => (fst kv, PStr (with_unit q u))
    | _, _ => kv
    end.
  (** Lines 177-186. *)
  Definition fill_missing (dim : dict) (tem : list dict) : pyres (list dict) :=
    match dict_lookup dim "events" with
    | None => Ok tem
    | Some v => let* n := py_len v in Ok (tem ++ repeat event_default (n - length tem))
    end.
  (** Lines 206-223, one event; [user] is the event of the caller, when there is one. *)
  Definition gen_one (globals kwargs : dict) (parse : bool) (e : dict) (user : option dict) : dict :=
    let e := dict_remove e "property_units" in
    let kw := match user with Some u => dict_update kwargs u | None => kwargs end in
    let e := dict_update e kw in
    let ge := dict_update globals kw in
    let e := dict_update e ge in
    if parse then map fix_string e else e.
  (** Lines 206-225 from index [j] on. *)
  Fixpoint gen_loop (globals kwargs : dict) (parse : bool) (dim : dict) (tem : list dict) (j : nat) : pyres (list dict) :=
    match tem with
    | [] => Ok []
    | e :: r =>
        let* user := (match dict_lookup dim "events" with
                      | None => Ok None
                      | Some v => let* l := as_list v in
                                  match nth_error l j with
                                  | None => Err IndexError
                                  | Some u => let* u := as_dict u in Ok (Some u)
                                  end
                      end) in
        let* rest := gen_loop globals kwargs parse dim r (S j) in
        Ok (gen_one globals kwargs parse e user :: rest)
    end.
  (** Lines 201-225. *)
  Definition gen_event (tem : list dict) (dim globals kwargs : dict) (parse : bool) : pyres (list dict) :=
    let* tem := fill_missing dim tem in
    gen_loop globals kwargs parse dim tem 0.
  (** Lines 127-136: the arguments of the spectral dimensions, each with its events. *)
  Fixpoint gen_dims (tems : list (list dict)) (dims : list dict) (globals kwargs : dict) (parse : bool) : pyres (list (dict * list dict)) :=
    match tems with
    | [] => Ok []
    | tem :: tr =>
        match dims with
        | [] => Err IndexError
        | dim :: dr =>
            let* events := gen_event tem dim globals kwargs parse in
            let* rest := gen_dims tr dr globals kwargs parse in
            Ok ((dict_remove dim "events", events) :: rest)
        end
    end.
  (** Lines 99-140 for dicts as spectral dimensions.  Results: the method's own arguments; per spectral dimension its arguments and those of
      its events; and the caller's list of spectral dimensions after the call.  Making the objects of these arguments is not modelled. *)
  Definition construct (t : template) (spectral_dimensions : list dict) (kwargs : dict) (parse : bool)
    : pyres (dict * list (dict * list dict) * list dict) :=
    match spectral_dimensions with
    | [] => Err IndexError
    | _ =>
        let n_tem := length (t_dims t) in
        let* (dims, caller) := parse_spectral_dimensions spectral_dimensions n_tem in
        let* prep := prepare_method_structure t kwargs in
        let* _ := check_rotor_frequency kwargs (t_globals t) in
        if Nat.ltb n_tem (length dims) then Err ValueError else
        let* out := gen_dims (t_dims t) dims (t_globals t) kwargs parse in
        let caller := match spectral_dimensions with [[]] => caller | _ => map (fun dim => dict_remove dim "events") caller end in
        Ok (prep, out, caller)
    end.
End Generate.
