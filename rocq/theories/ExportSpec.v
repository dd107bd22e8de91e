(** What is expected of spin systems that go through a file. *)
From Coq Require Import ZArith QArith Qcanon Bool String List.
From Verif Require Import Base SitesModel JsonModel JsonSpec.
Import ListNotations.
Open Scope string_scope.
Open Scope list_scope.

(** A text, where the empty one counts as none. *)
Definition some_text (o : option string) : option string := match o with Some "" => None | _ => o end.
(** The same objects without empty texts. *)
Definition tidy_site (s : site) : site :=
  mkSite (some_text (s_name s)) (some_text (s_label s)) (some_text (s_description s)) (isotope s) (isotropic_chemical_shift s)
    (shielding_symmetric s) (shielding_antisymmetric s) (quadrupolar s) (s_units s).
Definition tidy_coupling (c : coupling) : coupling :=
  mkCoupling (some_text (c_name c)) (some_text (c_label c)) (some_text (c_description c)) (site_index c) (isotropic_j c)
    (j_symmetric c) (j_antisymmetric c) (dipolar c) (c_units c).
Definition tidy_system (y : spin_system) : spin_system :=
  mkSystem (some_text (y_name y)) (some_text (y_label y)) (some_text (y_description y)) (map tidy_site (sites y))
    (option_map (map tidy_coupling) (couplings y)) (abundance y) (transition_pathways y) (y_units y).

(** The tensors have the attributes of their role only. *)
Definition role_site (s : site) : Prop :=
  on (fun t => Cq t = None /\ D t = None) (shielding_symmetric s) /\ on (fun t => zeta t = None /\ D t = None) (quadrupolar s).
Definition role_coupling (c : coupling) : Prop :=
  on (fun t => zeta t <> None /\ Cq t = None /\ D t = None) (j_symmetric c) /\ j_antisymmetric c = None /\
  on (fun t => zeta t = None /\ Cq t = None) (dipolar c).
Definition role_system (y : spin_system) : Prop := Forall role_site (sites y) /\ on (Forall role_coupling) (couplings y).
(** No pathways were given to the spin system. *)
Definition no_pathways (y : spin_system) : Prop := forall p l, transition_pathways y <> Some (p :: l).
(** No text of the spin system is empty. *)
Definition texts_site (s : site) : Prop := no_empty (s_name s) /\ no_empty (s_label s) /\ no_empty (s_description s).
Definition texts_coupling (c : coupling) : Prop := no_empty (c_name c) /\ no_empty (c_label c) /\ no_empty (c_description c).
Definition texts_system (y : spin_system) : Prop :=
  no_empty (y_name y) /\ no_empty (y_label y) /\ no_empty (y_description y) /\ Forall texts_site (sites y) /\ on (Forall texts_coupling) (couplings y).
