(** What it means for two methods, simulators or lists to be the same. *)
From Coq Require Import QArith Qcanon String List.
From Verif Require Import Base EqualModel.
Import ListNotations.

(** A Boolean function that decides whether two values are equal: the comparisons of pydantic models and of CSDM objects, which are not code of this library. *)
Definition decides {A} (f : A -> A -> bool) : Prop := forall x y, f x y = true <-> x = y.
(** A numpy array: as many elements as its shape says. *)
Definition is_array (a : array) : Prop := length (data a) = size (shape a).
(** The affine matrix of a constructed method: it went through the validator. *)
Definition validated {D C} (m : emethod D C) : Prop :=
  match affine m with Some a => is_array a | None => True end /\ validate_affine (length (dims m)) (affine m) = Ok (affine m).
(** A vector or a matrix, not an array of three axes or more. *)
Definition at_most_two_axes {D C} (m : emethod D C) : Prop := match affine m with Some a => (length (shape a) <= 2)%nat | None => True end.
(** The usual form: a square matrix. *)
Definition square {D C} (m : emethod D C) : Prop := match affine m with Some a => shape a = [length (dims m); length (dims m)] | None => True end.
(** No simulation yet, or one packed as a CSDM object. *)
Definition packed {D C} (m : emethod D C) : Prop := match simulation m with Unpacked _ => False | _ => True end.
(** The same method: every attribute is the same; of the affine matrices, the elements. *)
Definition same_elements (x y : option array) : Prop :=
  match x, y with Some a, Some b => data a = data b | None, None => True | _, _ => False end.
Definition same_method {D C} (x y : emethod D C) : Prop :=
  name x = name y /\ label x = label y /\ description x = description y /\ channels x = channels y /\ dims x = dims y /\
  same_elements (affine x) (affine y) /\ simulation x = simulation y /\ experiment x = experiment y.
Definition same_simulator {D C S G} (x y : @esimulator D C S G) : Prop :=
  s_name x = s_name y /\ s_label x = s_label y /\ s_description x = s_description y /\ s_systems x = s_systems y /\
  Forall2 same_method (s_methods x) (s_methods y) /\ s_config x = s_config y.
