(** Model of a session with tensors, sites, couplings and spin systems: which objects share what, and what the validators check and change.
    - SymmetricTensor, AntisymmetricTensor: spin_system/tensors.py lines 86-117 and 148-163;
    - Site: spin_system/site.py lines 154-198;
    - Coupling: spin_system/coupling.py lines 150-193;
    - SpinSystem.abundance: spin_system/__init__.py lines 157 and 164-166.
    pydantic (an external library, version 1) is modelled as follows.  A constructor validates the arguments given in the order of the fields;
    a ValueError of a validator is collected and raised after the last field, any other exception is raised at once.  The validators of a field
    also run when the argument is None.  A class with [validate_assignment] validates the assigned field, and no other, on assignment; the tensors
    have no such setting, so their attributes are assigned unchecked.  An object given to a field is kept as it is, or copied with or without the
    objects inside, according to the version: [copying].  Left out: names, labels, descriptions, isotropic values, arguments that are dicts (the
    same as a new tensor given to the field), tensors of the other class given to a field, [property_units] set by the user. *)
From Coq Require Import ZArith QArith Qcanon Bool String List.
From Verif Require Import Base SitesModel JsonModel.
Import ListNotations.
Open Scope string_scope.
Open Scope list_scope.

Inductive role := Shielding | AntiShielding | Quadrupolar | J | AntiJ | Dipolar.
Definition role_dec (r s : role) : {r = s} + {r <> s}. Proof. decide equality. Defined.
(** The fields of a Site, site.py lines 159-161, and of a Coupling, coupling.py lines 155-157, in their order. *)
Definition fields_of (is_site : bool) : list role := if is_site then [Shielding; AntiShielding; Quadrupolar] else [J; AntiJ; Dipolar].
Definition wants_anti (r : role) : bool := match r with AntiShielding | AntiJ => true | _ => false end.

Inductive copying := NoCopy | Shallow | Deep.
(** A tensor: its class, the attributes that are not None, and the place of its [property_units]. *)
Record tensor := mkTensor { t_anti : bool; t_values : list (string * Qc); t_units : nat }.
(** A Site or a Coupling; a Site has no index and a Coupling no isotope. *)
Record object := mkObject { o_site : bool; o_isotope : string; o_index : list Z; o_slot : role -> option nat }.
(** [log] is no part of the program: the places of the [property_units] that validators have changed, with the field; a deep copy inherits
    the entries of its original. *)
Record state := mkState { dicts : list units; tensors : list tensor; objects : list object; abundances : list Qc; log : list (nat * role) }.

(** tensors.py lines 110-117 and 163. *)
Definition default_units (anti : bool) : units :=
  if anti then [("zeta", "ppm"); ("alpha", "rad"); ("beta", "rad")]
  else [("zeta", "ppm"); ("Cq", "Hz"); ("D", "Hz"); ("alpha", "rad"); ("beta", "rad"); ("gamma", "rad")].
(** The changes of [property_units]: site.py lines 179-182 and 187-190, coupling.py lines 167-170 and 177-181. *)
Definition pop_units (r : role) (u : units) : units :=
  match r with
  | Shielding | AntiShielding => pop2 "Cq" "D" u
  | Quadrupolar => pop2 "D" "zeta" u
  | Dipolar => pop2 "Cq" "zeta" u
  | J | AntiJ => dict_set (pop2 "Cq" "D" u) "zeta" "Hz"
  end.
(** Whether a validator returns a None at once: site.py line 169, coupling.py lines 165 and 175; not site.py lines 186-191. *)
Definition handles_none (r : role) : bool := match r with Shielding | AntiShielding => false | _ => true end.

Fixpoint update {A} (l : list A) (i : nat) (x : A) : list A :=
  match l, i with
  | [], _ => []
  | _ :: l, O => x :: l
  | y :: l, S i => y :: update l i x
  end.
Definition set_slot (s : role -> option nat) (r : role) (v : option nat) : role -> option nat := fun q => if role_dec q r then v else s q.

(** The log of a copy of the units at a place. *)
Definition inherited (old new : nat) (l : list (nat * role)) : list (nat * role) := map (fun x => (new, snd x)) (filter (fun x => Nat.eqb (fst x) old) l).
(** What pydantic keeps of a tensor given to a field. *)
Definition take (mode : copying) (st : state) (a : nat) (t : tensor) : state * nat :=
  match mode with
  | NoCopy => (st, a)
  | Shallow => (mkState (dicts st) (tensors st ++ [t]) (objects st) (abundances st) (log st), List.length (tensors st))
  | Deep => (mkState (dicts st ++ [nth (t_units t) (dicts st) []]) (tensors st ++ [mkTensor (t_anti t) (t_values t) (List.length (dicts st))])
               (objects st) (abundances st) (inherited (t_units t) (List.length (dicts st)) (log st) ++ log st), List.length (tensors st))
  end.
Definition change_units (r : role) (kept : nat) (st : state) : state :=
  mkState (update (dicts st) kept (pop_units r (nth kept (dicts st) []))) (tensors st) (objects st) (abundances st) ((kept, r) :: log st).
(** The validation of an argument of the field r of an object with the given isotope: site.py lines 167-191, coupling.py lines 163-182.
    A tensor that does not exist or is of the other class is out of the model. *)
Definition validate (mode : copying) (isotope : string) (r : role) (v : option nat) (st : state) : state * pyres (option nat) :=
  match v with
  | None => (st, if handles_none r then Ok None else Err AttributeError)
  | Some a =>
      match nth_error (tensors st) a with
      | None => (st, Err TypeError)
      | Some t =>
          if Bool.eqb (t_anti t) (wants_anti r) then
            let (st1, kept) := take mode st a t in
            let units_kept := t_units (nth kept (tensors st1) t) in
            match r with
            | Quadrupolar =>
                match twice_spin isotope with
                | Err e => (st1, Err e)
                | Ok n => if (n <? 2)%Z then (st1, Err ValueError) else (change_units r units_kept st1, Ok (Some kept))
                end
            | _ => (change_units r units_kept st1, Ok (Some kept))
            end
          else (st, Err TypeError)
      end
  end.
(** The fields of a constructor; [args r] is None for an argument that is not given.  The boolean tells whether a ValueError was collected. *)
Fixpoint validate_all (mode : copying) (isotope : string) (rs : list role) (args : role -> option (option nat)) (slots : role -> option nat) (failed : bool) (st : state)
  : state * pyres ((role -> option nat) * bool) :=
  match rs with
  | [] => (st, Ok (slots, failed))
  | r :: rs =>
      match args r with
      | None => validate_all mode isotope rs args slots failed st
      | Some v =>
          match validate mode isotope r v st with
          | (st', Ok x) => validate_all mode isotope rs args (set_slot slots r x) failed st'
          | (st', Err ValueError) => validate_all mode isotope rs args slots true st'
          | (st', Err e) => (st', Err e)
          end
      end
  end.
Definition empty_slots : role -> option nat := fun _ => None.
Definition add_object (o : object) (st : state) : state := mkState (dicts st) (tensors st) (objects st ++ [o]) (abundances st) (log st).
Definition put_object (i : nat) (o : object) (st : state) : state := mkState (dicts st) (tensors st) (update (objects st) i o) (abundances st) (log st).
(** tensors.py line 89, [Field(ge=0.0, le=1.0)]; spin_system/__init__.py line 157, [Field(ge=0.0, le=100.0)]. *)
Definition eta_ok (values : list (string * Qc)) : bool := match dict_lookup values "eta" with None => true | Some x => Qc_leb 0 x && Qc_leb x 1 end.
Definition abundance_ok (x : Qc) : bool := Qc_leb 0 x && Qc_leb x (Qc_of_Z 100).
(** coupling.py lines 184-190. *)
Definition index_ok (l : list Z) : bool := match l with [a; b] => negb (Z.eqb a b) | _ => false end.

Inductive op :=
| NewTensor (anti : bool) (values : list (string * Qc))
| SetValue (tensor : nat) (name : string) (v : option Qc)
| NewSite (isotope : string) (args : role -> option (option nat))
| NewCoupling (index : list Z) (args : role -> option (option nat))
| SetIsotope (site : nat) (isotope : string)
| SetIndex (coupling : nat) (index : list Z)
| SetTensor (obj : nat) (field : role) (v : option nat)
| NewSystem (abundance : Qc)
| SetAbundance (system : nat) (abundance : Qc).

(** One statement of the session.  Names of objects that do not exist are out of the model (TypeError). *)
Definition step (mode : copying) (c : op) (st : state) : state * pyres unit :=
  match c with
  | NewTensor anti values =>
      if eta_ok values
      then (mkState (dicts st ++ [default_units anti]) (tensors st ++ [mkTensor anti values (List.length (dicts st))]) (objects st) (abundances st) (log st), Ok tt)
      else (st, Err ValueError)
  | SetValue a name v =>
      match nth_error (tensors st) a with
      | None => (st, Err TypeError)
      | Some t =>
          let values := match v with None => dict_pop (t_values t) name | Some x => dict_set (t_values t) name x end in
          (mkState (dicts st) (update (tensors st) a (mkTensor (t_anti t) values (t_units t))) (objects st) (abundances st) (log st), Ok tt)
      end
  | NewSite isotope args =>
      (** site.py lines 193-195 *)
      match format_isotope_string isotope with
      | Err e => (st, Err e)
      | Ok i => match validate_all mode i (fields_of true) args empty_slots false st with
                | (st', Ok (slots, false)) => (add_object (mkObject true i [] slots) st', Ok tt)
                | (st', Ok (_, true)) => (st', Err ValueError)
                | (st', Err e) => (st', Err e)
                end
      end
  | NewCoupling index args =>
      match validate_all mode "" (fields_of false) args empty_slots (negb (index_ok index)) st with
      | (st', Ok (slots, false)) => (add_object (mkObject false "" index slots) st', Ok tt)
      | (st', Ok (_, true)) => (st', Err ValueError)
      | (st', Err e) => (st', Err e)
      end
  | SetIsotope i s =>
      match nth_error (objects st) i with
      | Some o => if o_site o then match format_isotope_string s with
                                   | Err e => (st, Err e)
                                   | Ok f => (put_object i (mkObject true f (o_index o) (o_slot o)) st, Ok tt)
                                   end
                  else (st, Err TypeError)
      | None => (st, Err TypeError)
      end
  | SetIndex i l =>
      match nth_error (objects st) i with
      | Some o => if o_site o then (st, Err TypeError)
                  else if index_ok l then (put_object i (mkObject false (o_isotope o) l (o_slot o)) st, Ok tt) else (st, Err ValueError)
      | None => (st, Err TypeError)
      end
  | SetTensor i r v =>
      match nth_error (objects st) i with
      | Some o => if in_dec role_dec r (fields_of (o_site o))
                  then match validate mode (o_isotope o) r v st with
                       | (st', Ok x) => (put_object i (mkObject (o_site o) (o_isotope o) (o_index o) (set_slot (o_slot o) r x)) st', Ok tt)
                       | (st', Err e) => (st', Err e)
                       end
                  else (st, Err TypeError)
      | None => (st, Err TypeError)
      end
  | NewSystem x => if abundance_ok x then (mkState (dicts st) (tensors st) (objects st) (abundances st ++ [x]) (log st), Ok tt) else (st, Err ValueError)
  | SetAbundance i x =>
      match nth_error (abundances st) i with
      | None => (st, Err TypeError)
      | Some _ => if abundance_ok x then (mkState (dicts st) (tensors st) (objects st) (update (abundances st) i x) (log st), Ok tt) else (st, Err ValueError)
      end
  end.
(** A session: exceptions are caught and the session goes on. *)
Definition start : state := mkState [] [] [] [] [].
Definition session (mode : copying) (cs : list op) : state := fold_left (fun st c => fst (step mode c st)) cs start.
(** What [json()] writes for an attribute of a tensor: its value and its unit, parseable.py lines 92-117. *)
Definition written (st : state) (a : nat) (name : string) : option (Qc * option string) :=
  match nth_error (tensors st) a with
  | None => None
  | Some t => option_map (fun x => (x, dict_lookup (nth (t_units t) (dicts st) []) name)) (dict_lookup (t_values t) name)
  end.
