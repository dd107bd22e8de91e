(** Model of src/mrsimulator/utils/spectral_fitting.py: parameter names, reading and writing attributes by name, and the parameters made
    for a simulator.  Objects are trees of dicts and lists ([pv]), attributes being keys; lmfit's Parameters are lists in order of
    addition.  The post simulation parameters and the simulation itself are not modelled. *)
From Coq Require Import ZArith QArith Bool Ascii String List DecimalString Decimal.
From Verif Require Import Base SitesModel DictModel.
Import ListNotations.
Open Scope string_scope.
Open Scope list_scope.

(** ** Python's strings *)
(** [s.replace(old, new)] for a non-empty [old]: occurrences from the left that do not overlap. *)
Fixpoint replace_from (old new s : string) (skip : nat) : string :=
  match s with
  | EmptyString => EmptyString
  | String c r =>
      match skip with
      | S k => replace_from old new r k
      | O => if prefix old s then (new ++ replace_from old new r (String.length old - 1))%string
             else String c (replace_from old new r 0)
      end
  end.
Definition replace (old new s : string) : string := replace_from old new s 0.
(** [s.split(c)] *)
Fixpoint split (c : ascii) (s : string) : list string :=
  match s with
  | EmptyString => [EmptyString]
  | String x r => if Ascii.eqb x c then EmptyString :: split c r
                  else match split c r with a :: t => String x a :: t | [] => [String x EmptyString] end
  end.
(** [old in s] *)
Fixpoint contains (old s : string) : bool :=
  if prefix old s then true else match s with EmptyString => false | String _ r => contains old r end.
(** [sep.join(l)] *)
Definition join (sep : string) (l : list string) : string := String.concat sep l.
(** [f"{n}"], [s.isnumeric()] and [int(s)]. *)
Definition dec (n : nat) : string := NilZero.string_of_uint (Nat.to_uint n).
Fixpoint all_digits (s : string) : bool := match s with EmptyString => true | String c r => is_digit c && all_digits r end.
Definition isnumeric (s : string) : bool := match s with EmptyString => false | _ => all_digits s end.
Fixpoint int_from (acc : nat) (s : string) : nat :=
  match s with EmptyString => acc | String c r => int_from (10 * acc + (code c - 48)) r end.
Definition int_of (s : string) : nat := int_from 0 s.

(** ** Names *)
(** Lines 10-29. *)
Definition START : string := "sys_".
Definition ENCODING_PAIRS : list (string * string) :=
  [("spin_systems[", START);
   ("].abundance", "_abundance");
   ("].sites[", "_site_");
   ("].isotropic_chemical_shift", "_isotropic_chemical_shift");
   ("].shielding_symmetric.", "_shielding_symmetric_");
   ("].quadrupolar.", "_quadrupolar_");
   ("].couplings[", "_coupling_");
   ("].isotropic_j", "_isotropic_j");
   ("].j_symmetric.", "_j_symmetric_");
   ("].dipolar.", "_dipolar_");
   ("].post_simulation", "_POST_SIM_");
   (".scale", "scale");
   (".apodization[", "APODIZATION_");
   ("].args", "_args")].
(** Lines 31-44. *)
Definition DECODING_PAIRS : list (string * string) :=
  [("spin_systems.", "sys_");
   (".abundance", "_abundance");
   (".sites.", "_site_");
   (".isotropic_chemical_shift", "_isotropic_chemical_shift");
   (".shielding_symmetric.", "_shielding_symmetric_");
   (".quadrupolar.", "_quadrupolar_");
   (".couplings.", "_coupling_");
   (".isotropic_j", "_isotropic_j");
   (".shielding_j.", "_shielding_j_");
   (".dipolar.", "_dipolar_")].
(** Lines 46-53. *)
Definition EXCLUDE : list string := ["property_units"; "isotope"; "name"; "label"; "description"; "transition_pathways"].
(** Lines 58-72. *)
Definition str_encode (s : string) : string := fold_left (fun s item => replace (fst item) (snd item) s) ENCODING_PAIRS s.
(** Lines 75-97. *)
Definition str_decode (s : string) : list string :=
  split "." (fold_left (fun s item => replace (snd item) (fst item) s) DECODING_PAIRS s).

(** ** Attributes by name *)
(** [obj[int(attr)] if attr.isnumeric() else obj.__getattribute__(attr)] *)
Definition get_one (obj : pv) (attr : string) : pyres pv :=
  if isnumeric attr
  then match obj with
       | PList l => match nth_error l (int_of attr) with Some v => Ok v | None => Err IndexError end
       | _ => Err TypeError
       end
  else match obj with
       | PDict d => match dict_lookup d attr with Some v => Ok v | None => Err AttributeError end
       | _ => Err AttributeError
       end.
Fixpoint get_path (obj : pv) (path : list string) : pyres pv :=
  match path with [] => Ok obj | a :: r => let* x := get_one obj a in get_path x r end.
(** Lines 100-129. *)
Definition get_simulator_object_value (sim : pv) (name : string) : pyres pv := get_path sim (str_decode name).
(** The object after [obj.__setattr__(attr, value)]; a field that does not exist is refused (pydantic: ValueError). *)
Definition set_attr (obj : pv) (attr : string) (v : pv) : pyres pv :=
  match obj with
  | PDict d => match dict_lookup d attr with Some _ => Ok (PDict (dict_set d attr v)) | None => Err ValueError end
  | _ => Err AttributeError
  end.
Fixpoint list_set {A} (l : list A) (n : nat) (v : A) : list A :=
  match l, n with [], _ => [] | _ :: r, O => v :: r | x :: r, S k => x :: list_set r k v end.
(** The tree after the assignment: lines 152-156.  Writing back the changed part stands for the mutation of the object. *)
Fixpoint set_path (obj : pv) (path : list string) (v : pv) : pyres pv :=
  match path with
  | [] => Err IndexError
  | [a] => set_attr obj a v
  | a :: r =>
      let* x := get_one obj a in
      let* y := set_path x r v in
      Ok (match obj with
          | PList l => PList (list_set l (int_of a) y)
          | PDict d => PDict (dict_set d a y)
          | _ => obj
          end)
  end.
Definition set_simulator_object_value (sim : pv) (name : string) (v : pv) : pyres pv := set_path sim (str_decode name) v.

(** Lines 173-201. *)
Fixpoint traverse (v : pv) (parent : string) : list string :=
  match v with
  | PDict d =>
      (fix each (d : dict) : list string :=
         match d with
         | [] => []
         | (key, x) :: r =>
             (if member key EXCLUDE then []
              else match x with
                   | PNone => []
                   | PDict _ | PList _ => traverse x (str_encode (parent ++ "." ++ key))
                   | _ => [str_encode (parent ++ "." ++ key)]
                   end) ++ each r
         end) d
  | PList l =>
      (fix each (l : list pv) (i : nat) : list string :=
         match l with
         | [] => []
         | x :: r => traverse x (str_encode (parent ++ "[" ++ dec i ++ "]")) ++ each r (S i)
         end) l O
  | _ => []
  end.

(** ** Parameters *)
(** One entry of lmfit's Parameters.  lmfit replaces the value of an entry with an expression by that of the expression. *)
Record param := mkParam { p_name : string; p_value : Q; p_min : option Q; p_max : option Q; p_expr : option string }.
Definition as_number (v : pv) : pyres Q :=
  match v with PInt z => Ok (inject_Z z) | PFloat q => Ok q | _ => Err TypeError end.
(** Lines 278. *)
Definition total (l : list Q) : Q := fold_left Qplus l 0%Q.
Definition abundance_scale (l : list Q) : pyres Q := if Qeq_bool (total l) 0 then Err ZeroDivisionError else Ok (100 / total l)%Q.
(** Lines 282-283. *)
Definition expression (length : nat) : string :=
  match join "-" (map (fun i => START ++ dec i ++ "_abundance")%string (seq 0 (length - 1))) with
  | EmptyString => "100"
  | e => ("100-" ++ e)%string
  end.
(** Lines 284-296, one name. *)
Definition add_param (sim : pv) (scale : Q) (length : nat) (item : string) : pyres param :=
  let* x := get_simulator_object_value sim item in
  let* value := as_number x in
  Ok (if contains "_eta" item then mkParam item value (Some 0%Q) (Some 1%Q) None
      else if contains (dec (length - 1) ++ "_abundance") item then mkParam item value (Some 0%Q) (Some 100%Q) (Some (expression length))
      else if contains "abundance" item then mkParam item (value * scale)%Q (Some 0%Q) (Some 100%Q) None
      else mkParam item value None None None).
(** Lines 254-299 for post_sim=None, the spin systems given as trees. *)
Definition make_LMFIT_params (systems : list pv) : pyres (list param) :=
  let sim := PDict [("spin_systems", PList systems)] in
  let temp_list := traverse (PList systems) "spin_systems" in
  let* abundances := mapM (fun s => let* x := get_one s "abundance" in as_number x) systems in
  let* scale := abundance_scale abundances in
  mapM (add_param sim scale (length systems)) temp_list.
(** Lines 340-343: the simulator with the values of the parameters. *)
Definition update_simulator (sim : pv) (values : list (string * Q)) : pyres pv :=
  for_each values (fun nv sim => set_simulator_object_value sim (fst nv) (PFloat (snd nv))) sim.
(** The value lmfit gives an expression "a-b-c" of numbers without sign and names of other parameters. *)
Definition term_value (env : string -> Q) (t : string) : Q :=
  if isnumeric t then inject_Z (Z.of_nat (int_of t)) else env t.
Definition eval_expr (env : string -> Q) (e : string) : Q :=
  match split "-" e with
  | [] => 0%Q
  | t :: r => fold_left (fun acc x => acc - term_value env x)%Q r (term_value env t)
  end.

(** ** The objects *)
(** tensors.py lines 86-92, site.py 154-161, coupling.py 150-157, spin_system/__init__.py 152-158.  The attributes of the
    antisymmetric tensors are zeta, alpha and beta; the others are None then. *)
Record tens := mkTens { t_zeta : option Q; t_Cq : option Q; t_D : option Q; t_eta : option Q; t_alpha : option Q; t_beta : option Q; t_gamma : option Q }.
Record siteR := mkSite { s_isotope : string; s_shift : Q; s_sym : option tens; s_anti : option tens; s_quad : option tens }.
Record coupR := mkCoup { c_sites : Z * Z; c_j : Q; c_sym : option tens; c_anti : option tens; c_dip : option tens }.
Record sysR := mkSys { y_sites : list siteR; y_couplings : option (list coupR); y_abundance : Q }.

(** Their [dict()]: property_units comes first, being a field of the base class. *)
Definition opt {A} (f : A -> pv) (o : option A) : pv := match o with Some a => f a | None => PNone end.
Definition tens_dict (t : tens) : pv :=
  PDict [("property_units", PDict []); ("zeta", opt PFloat (t_zeta t)); ("Cq", opt PFloat (t_Cq t)); ("D", opt PFloat (t_D t));
         ("eta", opt PFloat (t_eta t)); ("alpha", opt PFloat (t_alpha t)); ("beta", opt PFloat (t_beta t)); ("gamma", opt PFloat (t_gamma t))].
Definition texts (d : dict) (name label description : pv) : dict :=
  [("property_units", PDict d); ("name", name); ("label", label); ("description", description)].
Section Dicts.
  (** The units and the texts of the objects, which are not looked at. *)
  Variables (units : dict) (name label description pathways : pv).
  Definition site_dict (s : siteR) : pv :=
    PDict (texts units name label description ++
      [("isotope", PDict [("symbol", PStr (s_isotope s))]); ("isotropic_chemical_shift", PFloat (s_shift s));
       ("shielding_symmetric", opt tens_dict (s_sym s)); ("shielding_antisymmetric", opt tens_dict (s_anti s));
       ("quadrupolar", opt tens_dict (s_quad s))]).
  Definition coup_dict (c : coupR) : pv :=
    PDict (texts units name label description ++
      [("site_index", PList [PInt (fst (c_sites c)); PInt (snd (c_sites c))]); ("isotropic_j", PFloat (c_j c));
       ("j_symmetric", opt tens_dict (c_sym c)); ("j_antisymmetric", opt tens_dict (c_anti c)); ("dipolar", opt tens_dict (c_dip c))]).
  Definition sys_dict (y : sysR) : pv :=
    PDict (texts units name label description ++
      [("sites", PList (map site_dict (y_sites y))); ("couplings", opt (fun l => PList (map coup_dict l)) (y_couplings y));
       ("abundance", PFloat (y_abundance y)); ("transition_pathways", pathways)]).
End Dicts.
