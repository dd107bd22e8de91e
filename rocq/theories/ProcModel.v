(** Model of the serialisation of signal processors: signal_processing/__init__.py lines 38-75 and the attributes of its operations,
    _base.py, apodization.py, affine.py and utils/parseable.py.  Numbers are exact rationals. *)
From Coq Require Import ZArith QArith Qcanon Bool Ascii String List.
From Verif Require Import Base SitesModel JsonModel.
Import ListNotations.
Open Scope string_scope.
Open Scope list_scope.

(** [Union[int, list, tuple]]; a tuple becomes a list. *)
Inductive index := At (z : Z) | Several (l : list jval).
Definition index_val (i : index) : jval := match i with At z => JNum (Qc_of_Z z) | Several l => JList l end.
(** pydantic's validation of it.  Texts, which pydantic turns into integers when they are digits, are errors here. *)
Definition read_index (v : jval) : pyres index :=
  match v with JNum q => Ok (At (int_of q)) | JList l => Ok (Several l) | _ => Err ValueError end.

(** parseable.py lines 137-147, [get_list].  The items of these lists have no method [json]. *)
Fixpoint get_list (v : jval) : pyres jval :=
  match v with
  | JList l =>
      let* l := (fix go l := match l with
                 | [] => Ok []
                 | JNone :: r => go r
                 | JStr "" :: r => go r
                 | x :: r => let* y := get_list x in let* s := go r in Ok (y :: s)
                 end) l in
      Ok (JList l)
  | JDict _ => Err AttributeError
  | _ => Ok v
  end.

Section Proc.
  (** astropy's units, [str] of a unit, and the reading of a unit from a text by csdmpy. *)
  Variables (unit_ : Type) (show : unit_ -> string) (read : string -> option unit_).

  (** An entry of [property_units]: the empty text (apodization.py lines 96 and 146), the quantity 1 (affine.py lines 99 and 161) or a unit. *)
  Inductive entry := NoUnit | One | Unit_ (u : unit_).
  Definition entry_text (e : entry) : string := match e with NoUnit => "" | One => "1.0" | Unit_ u => show u end.

  (** The operations.  [Apodization] is Gaussian or Exponential, with FWHM; [Affine] is affine.Shear (with parallel) or affine.Scale.  The
      entry is that of FWHM or factor in [property_units]; None: the dict is empty. *)
  Inductive apodization_type := Gaussian | Exponential.
  Inductive op :=
  | Scale (factor : Qc)
  | IFFT (dim_index : index)
  | FFT (dim_index : index)
  | ComplexConjugate
  | Apodization (type : apodization_type) (FWHM : Qc) (unit : option entry) (dim_index : index) (dv_index : option index)
  | Shear (factor : Qc) (unit : option entry) (dim_index parallel : Z) (dv_index : option index)
  | AffineScale (factor : Qc) (unit : option entry) (dim_index : Z) (dv_index : option index).

  Definition type_name (t : apodization_type) : string := match t with Gaussian => "Gaussian" | Exponential => "Exponential" end.
  (** parseable.py lines 92-116: an attribute with a list, one with a number that has a unit. *)
  Definition json_index (i : index) : pyres jval := get_list (index_val i).
  Definition json_opt_index (k : string) (i : option index) : pyres jdict :=
    match i with None => Ok [] | Some i => let* v := json_index i in Ok [(k, v)] end.
  Definition json_quantity (q : Qc) (e : option entry) : jval :=
    match e with None => JNum q | Some e => JQty q (entry_text e) end.
  (** _base.py lines 18-26 with parseable.py lines 87-117; the attributes in the order of the fields. *)
  Definition json_op (o : op) : pyres jdict :=
    match o with
    | Scale f => Ok [("factor", JNum f); ("function", JStr "Scale")]
    | IFFT i => let* v := json_index i in Ok [("dim_index", v); ("function", JStr "IFFT")]
    | FFT i => let* v := json_index i in Ok [("dim_index", v); ("function", JStr "FFT")]
    | ComplexConjugate => Ok [("function", JStr "complex_conjugate")]
    | Apodization t w u i s =>
        let* v := json_index i in
        let* x := json_opt_index "dv_index" s in
        Ok ((("dim_index", v) :: x) ++ [("FWHM", json_quantity w u); ("function", JStr "apodization"); ("type", JStr (type_name t))])
    | Shear f u i p s =>
        let* x := json_opt_index "dv_index" s in
        Ok ((("dim_index", JNum (Qc_of_Z i)) :: x) ++
            [("factor", json_quantity f u); ("parallel", JNum (Qc_of_Z p)); ("function", JStr "affine"); ("type", JStr "Shear")])
    | AffineScale f u i s =>
        let* x := json_opt_index "dv_index" s in
        Ok ((("dim_index", JNum (Qc_of_Z i)) :: x) ++ [("factor", json_quantity f u); ("function", JStr "affine"); ("type", JStr "Scale")])
    end.
  (** __init__.py lines 60-75. *)
  Definition json_processor (l : list op) : pyres jdict :=
    let* l := mapM (fun o => let* d := json_op o in Ok (JDict d)) l in Ok [("operations", JList l)].

  (** ** Making operations *)
  (** utils.py lines 23-29 after pydantic's validation as [Union[float, str]], which tries the number first: a text with a number and blanks is
      a number.  The entry is [before], that of the dict given or the default, unless a text with a unit is read. *)
  Definition str_to_quantity (v : jval) (before : option entry) : pyres (Qc * option entry) :=
    match v with
    | JNum q => Ok (q, before)
    | JQty q u =>
        if String.eqb u "" then Ok (q, before)
        else match read u with Some u => Ok (q, Some (Unit_ u)) | None => Err OtherException end
    | JStr _ => Err OtherException
    | _ => Err ValueError
    end.
  Definition def_quantity (d : jdict) (k : string) (default : Qc) (before : option entry) : pyres (Qc * option entry) :=
    match dict_lookup d k with None => Ok (default, before) | Some v => str_to_quantity v before end.
  Definition def_index (d : jdict) (k : string) : pyres index := match dict_lookup d k with None => Ok (At 0) | Some v => read_index v end.
  Definition opt_index (d : jdict) (k : string) : pyres (option index) :=
    match dict_lookup d k with None | Some JNone => Ok None | Some v => let* i := read_index v in Ok (Some i) end.
  (** The constructors, given keyword arguments and [property_units]. *)
  Definition make_apodization (t : apodization_type) (d : jdict) (pu : option entry) : pyres op :=
    let* i := def_index d "dim_index" in
    let* s := opt_index d "dv_index" in
    let* (w, u) := def_quantity d "FWHM" 0 pu in
    Ok (Apodization t w u i s).
  Definition make_shear (d : jdict) (pu : option entry) : pyres op :=
    let* i := def_int d "dim_index" 0 (fun _ => true) in
    let* s := opt_index d "dv_index" in
    let* (f, u) := def_quantity d "factor" 0 pu in
    let* p := def_int d "parallel" 1 (fun _ => true) in
    Ok (Shear f u i p s).
  Definition make_affine_scale (d : jdict) (pu : option entry) : pyres op :=
    let* i := def_int d "dim_index" 0 (fun _ => true) in
    let* s := opt_index d "dv_index" in
    let* (f, u) := def_quantity d "factor" 1 pu in
    Ok (AffineScale f u i s).
  Definition make_scale (d : jdict) : pyres op := let* f := def_num d "factor" 1 any in Ok (Scale f).
  Definition make_fft (mk : index -> op) (d : jdict) : pyres op := let* i := def_index d "dim_index" in Ok (mk i).

  (** ** Reading *)
  (** [getattr(modules[__name__], ...)], lines 49-57: the submodules are attributes of the package once they are imported.  The other names of
      the package and its modules are left out. *)
  Inductive submodule := ApodizationModule | AffineModule.
  Variable imported : submodule -> bool.
  (** _base.py lines 44-53 and apodization.py lines 21-24 (affine.py lines 22-25): the object is made with no units from the dict, and again
      from its attributes and units; the second time changes nothing. *)
  Definition parse_op (d : jdict) : pyres op :=
    match dict_lookup d "function" with
    | None => Err KeyError
    | Some (JStr f) =>
        match dict_lookup d "type" with
        | Some (JStr t) =>
            if String.eqb f "apodization" && imported ApodizationModule then
              if String.eqb t "Gaussian" then let* _ := no_units_key d in make_apodization Gaussian d None
              else if String.eqb t "Exponential" then let* _ := no_units_key d in make_apodization Exponential d None
              else Err AttributeError
            else if String.eqb f "affine" && imported AffineModule then
              if String.eqb t "Shear" then let* _ := no_units_key d in make_shear d None
              else if String.eqb t "Scale" then let* _ := no_units_key d in make_affine_scale d None
              else Err AttributeError
            else Err AttributeError
        | Some _ => if String.eqb f "apodization" || String.eqb f "affine" then Err TypeError else Err AttributeError
        | None =>
            if String.eqb f "Scale" then let* _ := no_units_key d in make_scale d
            else if String.eqb f "IFFT" then let* _ := no_units_key d in make_fft IFFT d
            else if String.eqb f "FFT" then let* _ := no_units_key d in make_fft FFT d
            else if String.eqb f "complex_conjugate" then let* _ := no_units_key d in Ok ComplexConjugate
            else Err AttributeError
        end
    | Some _ => Err TypeError
    end.
  (** Lines 38-58. *)
  Definition parse_processor (d : jdict) : pyres (list op) :=
    match dict_lookup d "operations" with
    | None => Err KeyError
    | Some (JList l) => mapM (fun v => match v with JDict d => parse_op d | _ => Err AttributeError end) l
    | Some _ => Err TypeError
    end.
End Proc.
