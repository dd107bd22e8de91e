(** Vocabulary of the properties about what the compiled code reads (C91, C92), independent of the model of the reads. *)
From Coq Require Import String List ZArith Qcanon.
From Verif Require Import Base PathwayModel.
Import ListNotations.
Open Scope Z_scope.

(** The index [i] used on an array of [n] elements names one of its elements. *)
Definition in_array (r : Z * Z) : Prop := 0 <= fst r < snd r.

(** Both sites of a coupling are sites of a spin system of [n] sites, counted from zero. *)
Definition names_sites (n : nat) (c : Z * Z) : Prop :=
  0 <= fst c < Z.of_nat n /\ 0 <= snd c < Z.of_nat n.

(** A number of the C type int. *)
Definition is_int (z : Z) : Prop := - 2 ^ 31 <= z < 2 ^ 31.

(** A transition of a spin system of [n] sites: one number per site for the initial and for the final state. *)
Definition transition_of (n : nat) (t : transition) : Prop := List.length (fst t) = n /\ List.length (snd t) = n.

(** The number of events of a method with these numbers of events per spectral dimension. *)
Definition total_events (n_events : list nat) : nat := fold_right Nat.add O n_events.

(** A pathway with one transition per event. *)
Definition pathway_of (n events : nat) (w : list transition) : Prop :=
  List.length w = events /\ List.Forall (transition_of n) w.
