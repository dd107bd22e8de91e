(** Specification of the reading of named methods: which Method objects a class reads back.  Of the models only the types of the objects and the
    list of the isotopes are used, and the conditions on single attributes of JsonSpec.v. *)
From Coq Require Import ZArith QArith Qcanon Bool String List.
From Verif Require Import Base SitesModel JsonModel JsonSpec.
Import ListNotations.
Open Scope string_scope.
Open Scope list_scope.

(** ** What every class fixes *)
Definition one_dimensional : list string := ["BlochDecaySpectrum"; "BlochDecayCTSpectrum"; "Method1D"].
Definition two_dimensional : list string := ["Method2D"; "ThreeQ_VAS"; "FiveQ_VAS"; "SevenQ_VAS"; "ST1_VAS"; "ST2_VAS"; "SSB2D"].
Definition fixed_2D : list string := ["ThreeQ_VAS"; "FiveQ_VAS"; "SevenQ_VAS"; "ST1_VAS"; "ST2_VAS"; "SSB2D"].
Definition classes : list string := one_dimensional ++ two_dimensional.
(** The classes whose queries are not saved. *)
Definition fixed_queries : list string := ["BlochDecaySpectrum"; "BlochDecayCTSpectrum"] ++ fixed_2D.

Definition symmetry (l : list Z) : jdict := [("channel-1", JList (map (fun z => JList [JNum (Qc_of_Z z)]) l))].
Definition selects (P : Z) (D : list Z) : query := mkQuery (Some (symmetry [P])) (Some (symmetry D)) None None.
(** The query of the first event of every dimension, for a first channel whose spin is [n / 2]. *)
Definition class_queries (cls : string) (n : Z) : list query :=
  let multi k := [selects (if (n =? k)%Z then - k else k)%Z [0%Z]; selects (-1) [0%Z]] in
  if String.eqb cls "BlochDecaySpectrum" then [mkQuery (Some (symmetry [(-1)%Z])) None None None]
  else if String.eqb cls "BlochDecayCTSpectrum" then [selects (-1) [0%Z]]
  else if String.eqb cls "ThreeQ_VAS" then multi 3%Z
  else if String.eqb cls "FiveQ_VAS" then multi 5%Z
  else if String.eqb cls "SevenQ_VAS" then multi 7%Z
  else if String.eqb cls "ST1_VAS" then [selects (-1) [2%Z; (-2)%Z]; selects (-1) [0%Z]]
  else if String.eqb cls "ST2_VAS" then [selects (-1) [4%Z; (-4)%Z]; selects (-1) [0%Z]]
  else [selects (-1) [0%Z]; selects (-1) [0%Z]].
Definition class_text (cls : string) : string :=
  if String.eqb cls "ThreeQ_VAS" then "Simulate a 3Q variable-angle spinning spectrum."
  else if String.eqb cls "FiveQ_VAS" then "Simulate a 5Q variable-angle spinning spectrum."
  else if String.eqb cls "SevenQ_VAS" then "Simulate a 7Q variable-angle spinning spectrum."
  else if String.eqb cls "ST1_VAS" then "Simulate a 1.5 -> 0.5 and -0.5 -> -1.5 satellite-transition variable-angle spinning spectrum."
  else if String.eqb cls "ST2_VAS" then "Simulate a 2.5 -> 1.5 and -1.5 -> -2.5 satellite-transition variable-angle spinning spectrum."
  else "Simulate a 2D sideband separation method.".
(** The query of an event made without one. *)
Definition plain_query : query := mkQuery (Some (symmetry [(-1)%Z])) None None None.

(** ** Methods that come back *)
(** The attributes are valid, texts of dimensions are not empty and every dimension has an event. *)
Definition well_formed (m : method) : Prop :=
  Forall (fun c => exists n, In (c, n) isotope_data) (channels m) /\ Forall good_dim (dims m) /\ Forall (fun x => events x <> []) (dims m) /\
  on (good_matrix (length (dims m))) (affine m).
Definition first_event (m : method) (e : event) : Prop := exists x r s, dims m = x :: r /\ events x = e :: s.
(** An event that differs in nothing but its query from a default event with the field and the rotation of [e0]. *)
Definition plain_event (e0 e : event) : Prop :=
  magnetic_flux_density e = magnetic_flux_density e0 /\ rotor_frequency e = rotor_frequency e0 /\ rotor_angle e = rotor_angle e0 /\ fraction e = 1%Qc /\
  freq_contrib e = ["Shielding1_0"; "Shielding1_2"; "Quad1_2"; "Quad2_0"; "Quad2_2"; "Quad2_4"].
Record readable (cls : string) (m : method) : Prop := {
  r_name : m_name m = Some cls;
  r_formed : well_formed m;
  r_dims : length (dims m) = (if existsb (String.eqb cls) one_dimensional then 1 else 2)%nat;
  r_channels : if existsb (String.eqb cls) fixed_2D then channels m <> [] else length (channels m) = 1%nat;
  r_text : if existsb (String.eqb cls) fixed_2D then m_description m = Some (class_text cls) else m_description m <> None;
  r_affine : In cls fixed_2D -> affine m <> None;
  (** a dimension with several events has one that is saved *)
  r_events : In cls fixed_queries -> forall e0 x, first_event m e0 -> In x (dims m) -> Forall (plain_event e0) (events x) -> length (events x) = 1%nat;
  r_queries : In cls fixed_queries -> forall c r n, channels m = c :: r -> In (c, n) isotope_data ->
    Forall2 (fun x q => map transition_query (events x) = q :: repeat plain_query (length (events x) - 1)) (dims m) (class_queries cls n);
  r_rotor : cls = "Method2D" -> forall e0, first_event m e0 -> rotor_frequency e0 = Qc_of_Z 1000000000000
}.

(** ** The calls of the classes *)
(** The texts of the dimensions are not empty. *)
Definition texts (m : method) : Prop := Forall (fun x => no_empty (d_label x) /\ no_empty (d_description x)) (dims m).
(** No dimension of the arguments gives events. *)
Definition gives_no_events (kwargs : jdict) : Prop :=
  forall l, dict_lookup kwargs "spectral_dimensions" = Some (JList l) -> forall dim, In (JDict dim) l -> dict_lookup dim "events" = None.

(** ** The numbers of the events *)
(** The number that the dict [d] has under [k], or the default. *)
Definition given (d : jdict) (k : string) (default q : Qc) : Prop := match dict_lookup d k with Some v => v = JNum q | None => q = default end.
(** The same where a text of a number with a unit, as "12.5 kHz", is given; [u] is the unit of the attribute. *)
Definition stated (d : jdict) (k u : string) (default q : Qc) : Prop :=
  match dict_lookup d k with Some v => v = JNum q \/ same_amount (JQty q u) v | None => q = default end.
Definition default_field : Qc := Q2Qc (94 # 10).
Definition default_angle : Qc := Q2Qc (955316618 # 1000000000).
(** What a call of a class puts into an event when no events are given, apart from the rotor frequency. *)
Definition made_with (args : jdict) (e : event) : Prop :=
  given args "fraction" 1 (fraction e) /\ given args "magnetic_flux_density" default_field (magnetic_flux_density e) /\ given args "rotor_angle" default_angle (rotor_angle e).
(** The same when the class reads a dict. *)
Definition read_with (d : jdict) (e : event) : Prop :=
  stated d "magnetic_flux_density" "T" default_field (magnetic_flux_density e) /\ stated d "rotor_angle" "rad" default_angle (rotor_angle e).
(** Every dimension has one event, and it satisfies [P]. *)
Definition one_event (P : event -> Prop) (m : method) : Prop := Forall (fun x => exists e, events x = [e] /\ P e) (dims m).
Definition infinite_speed : Qc := Qc_of_Z 1000000000000.
