(** Model of [Simulator.export_spin_systems] and [Simulator.load_spin_systems], on the serialised values of JsonModel. *)
From Coq Require Import ZArith QArith Qcanon Bool Ascii String List.
From Verif Require Import Base SitesModel JsonModel.
Import ListNotations.
Open Scope string_scope.
Open Scope list_scope.

(** [json.dump] as far as the kind of the values goes: an object that is no JSON value raises TypeError (the file has been opened by then, C95).
    Writing a JSON value and reading the text again is taken to be exact. *)
Fixpoint dumps (v : jval) : pyres jval :=
  match v with
  | JPath _ => Err TypeError
  | JList l => let* r := (fix each (l : list jval) : pyres (list jval) :=
                 match l with [] => Ok [] | x :: t => let* a := dumps x in let* b := each t in Ok (a :: b) end) l in Ok (JList r)
  | JDict d => let* r := (fix each (d : list (string * jval)) : pyres (list (string * jval)) :=
                 match d with [] => Ok [] | (k, x) :: t => let* a := dumps x in let* b := each t in Ok ((k, a) :: b) end) d in Ok (JDict r)
  | _ => Ok v
  end.

(** simulator/__init__.py lines 393-401, [export_spin_systems]: the content of the file. *)
Definition export_spin_systems (s : simulator) : pyres jval :=
  let spin_systems := map (fun obj => JDict (json_system obj)) (spin_systems s) in
  dumps (JList spin_systems).

(** [for obj in contents], of a JSON value: the entries of a list, the keys of a dict, the characters of a text.  Of a quantity, which is a text
    that is not empty, one entry stands for its characters. *)
Definition iterate (contents : jval) : pyres (list jval) :=
  match contents with
  | JList l => Ok l
  | JDict d => Ok (map (fun kv => JStr (fst kv)) d)
  | JStr s => Ok (map (fun c => JStr (String c EmptyString)) (list_ascii_of_string s))
  | JQty q u => Ok [contents]
  | JNone | JNum _ | JPath _ => Err TypeError
  end.
(** [SpinSystem.parse_dict_with_units(obj)], spin_system/__init__.py lines 342-357 and utils/parseable.py line 76, of any JSON value.  Whatever is
    no dict raises TypeError: a text or a list that contains the name of an attribute cannot be indexed with it, and at the latest
    [cls( **json_dict )] needs a mapping. *)
Definition parse_item (obj : jval) : pyres spin_system :=
  match obj with JDict d => parse_system d | _ => Err TypeError end.
Definition with_spin_systems (s : simulator) (l : list spin_system) : simulator :=
  mkSim (x_name s) (x_label s) (x_description s) l (methods s) (sim_config s).
(** Lines 371-373, [load_spin_systems], after the file was read: the simulator afterwards, and the exception. *)
Definition load_spin_systems (s : simulator) (contents : jval) : simulator * option exn :=
  match (let* l := iterate contents in mapM parse_item l) with
  | Ok l => (with_spin_systems s l, None)
  | Err e => (s, Some e)
  end.
