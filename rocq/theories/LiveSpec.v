(** What it means for the objects of a session to be valid. *)
From Coq Require Import ZArith QArith Qcanon String List.
From Verif Require Import Base SitesModel LiveModel.
Import ListNotations.
Open Scope string_scope.

(** A site with a quadrupolar tensor is an isotope of spin 1 or more. *)
Definition quadrupolar_nucleus (o : object) : Prop := o_site o = true -> o_slot o Quadrupolar <> None -> exists n, twice_spin (o_isotope o) = Ok n /\ (2 <= n)%Z.
(** The isotope of a site is one of the list, in the spelling of the list. *)
Definition known_isotope (o : object) : Prop := o_site o = true -> In (o_isotope o) (map fst isotope_data).
(** A coupling couples two different sites. *)
Definition two_different (o : object) : Prop := o_site o = false -> exists a b, o_index o = [a; b] /\ a <> b.
(** An asymmetry is in [0, 1], an abundance in [0, 100]. *)
Definition asymmetry (t : tensor) : Prop := forall x, dict_lookup (t_values t) "eta" = Some x -> (0 <= x <= 1)%Qc.
Definition percentage (x : Qc) : Prop := (0 <= x <= Q2Qc (100 # 1))%Qc.

(** Nothing the user can see differs: the objects are the same and the tensors that existed are the same, units included. *)
Definition unchanged (st st' : state) : Prop :=
  objects st' = objects st /\ abundances st' = abundances st /\
  forall a t, nth_error (tensors st) a = Some t -> nth_error (tensors st') a = Some t /\ nth (t_units t) (dicts st') [] = nth (t_units t) (dicts st) [].

(** The attribute that a tensor has for its field, and its unit. *)
Definition main_attribute (r : role) : string * string :=
  match r with
  | Shielding | AntiShielding => ("zeta", "ppm")
  | Quadrupolar => ("Cq", "Hz")
  | J | AntiJ => ("zeta", "Hz")
  | Dipolar => ("D", "Hz")
  end.
(** In the whole session no units were changed for two different fields: no tensor, or two that share their units, was given to both. *)
Definition one_field_each (st : state) : Prop := forall d r r', In (d, r) (log st) -> In (d, r') (log st) -> r = r'.
