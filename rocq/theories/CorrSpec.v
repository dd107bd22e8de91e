(** Vocabulary for the transitions of spin systems with any number of sites. *)
From Coq Require Import Qcanon String List.
Import ListNotations.
Open Scope Qc_scope.

(** The quantum number of site i before and after a transition (initial, final). *)
Definition before (t : list Qc * list Qc) (i : nat) : Qc := nth i (fst t) 0.
Definition after (t : list Qc * list Qc) (i : nat) : Qc := nth i (snd t) 0.
Definition has_isotope (isotopes : list string) (i : nat) (c : string) : Prop := nth_error isotopes i = Some c.
(** One site of the isotope goes from a to b with [change a b]; no other site changes. *)
Definition one_site (isotopes : list string) (c : string) (change : Qc -> Qc -> Prop) (t : list Qc * list Qc) : Prop :=
  exists i, has_isotope isotopes i c /\ change (before t i) (after t i) /\ forall j, j <> i -> after t j = before t j.
(** Two sites of the isotope do. *)
Definition two_sites (isotopes : list string) (c : string) (change : Qc -> Qc -> Prop) (t : list Qc * list Qc) : Prop :=
  exists i j, i <> j /\ has_isotope isotopes i c /\ has_isotope isotopes j c /\
    change (before t i) (after t i) /\ change (before t j) (after t j) /\ forall k, k <> i -> k <> j -> after t k = before t k.
(** m -> m - 1 *)
Definition lower (a b : Qc) : Prop := b = a - 1.
(** a -> b for given quantum numbers *)
Definition from_to (x y : Qc) (a b : Qc) : Prop := a = x /\ b = y.
