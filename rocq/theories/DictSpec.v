(** Specifications for the dictionary functions; of the model only the type of Python values and the lookup in a dict are used. *)
From Coq Require Import ZArith QArith Bool String List.
From Verif Require Import Base SitesModel DictModel.
Import ListNotations.
Open Scope string_scope.
Open Scope list_scope.

(** A dict cleaned at every level: without the excluded keys and the keys that hold None, isotopes replaced by their symbols. *)
Definition the_symbol (v : pv) : pv := match v with PDict d => match dict_lookup d "symbol" with Some s => s | None => PNone end | _ => PNone end.
Fixpoint clean (exclude : list string) (v : pv) : pv :=
  match v with
  | PDict d => PDict (flat_map (fun kv =>
      if (existsb (String.eqb (fst kv)) exclude || match snd kv with PNone => true | _ => false end)%bool then []
      else if String.eqb (fst kv) "isotope" then [(fst kv, the_symbol (snd kv))]
      else if String.eqb (fst kv) "channels" then [(fst kv, match snd kv with PList l => PList (map the_symbol l) | x => x end)]
      else [(fst kv, clean exclude (snd kv))]) d)
  | PList l => PList (map (clean exclude) l)
  | _ => v
  end.
(** The dicts that objects of the library turn into: no repeated keys; "isotope" holds an isotope, "channels" a list of isotopes; a list
    inside a list has no dict in it. *)
Definition is_isotope (v : pv) : Prop := exists d s, v = PDict d /\ dict_lookup d "symbol" = Some s.
Fixpoint no_dicts (v : pv) : Prop :=
  match v with
  | PDict _ => False
  | PList l => (fix all (l : list pv) := match l with [] => True | x :: r => no_dicts x /\ all r end) l
  | _ => True
  end.
Fixpoint object_like (v : pv) : Prop :=
  match v with
  | PDict d =>
      NoDup (map fst d) /\
      (fix all (d : list (string * pv)) := match d with
         | [] => True
         | (k, x) :: r =>
             (if String.eqb k "isotope" then x = PNone \/ is_isotope x
              else if String.eqb k "channels" then x = PNone \/ exists l, x = PList l /\ Forall is_isotope l
              else object_like x) /\ all r
         end) d
  | PList l => (fix all (l : list pv) := match l with
         | [] => True
         | x :: r => match x with PList _ => no_dicts x | _ => object_like x end /\ all r
         end) l
  | _ => True
  end.

(** A dict whose spectral dimensions, and a spectral dimension whose events, are the given ones. *)
Definition has_dims (d : dict) (dims : list dict) : Prop := dict_lookup d "spectral_dimensions" = Some (PList (map PDict dims)).
Definition has_events (dim : dict) (evs : list dict) : Prop := dict_lookup dim "events" = Some (PList (map PDict evs)).
(** The first of several dicts that has a key decides. *)
Fixpoint first_of (ds : list dict) (k : string) : option pv :=
  match ds with
  | [] => None
  | d :: r => match dict_lookup d k with Some v => Some v | None => first_of r k end
  end.
