(** Specifications for saving and loading without units: what becomes of an object, and which simulators can be saved. *)
From Coq Require Import ZArith QArith Qcanon Bool Ascii String List.
From Verif Require Import Base SitesModel JsonModel JsonSpec BareModel.
Import ListNotations.
Open Scope string_scope.
Open Scope list_scope.

(** ** The objects with the units of their class and role *)
Definition in_units (u : units) (t : sym_tensor) : sym_tensor := mkSym (zeta t) (Cq t) (D t) (eta t) (alpha t) (beta t) (gamma t) u.
Definition anti_in_units (u : units) (t : anti_tensor) : anti_tensor := mkAnti (a_zeta t) (a_alpha t) (a_beta t) u.
Definition plain_site (s : site) : site :=
  mkSite (s_name s) (s_label s) (s_description s) (isotope s) (isotropic_chemical_shift s)
    (option_map (in_units (("zeta", "ppm") :: angles)) (shielding_symmetric s))
    (option_map (anti_in_units [("zeta", "ppm"); ("alpha", "rad"); ("beta", "rad")]) (shielding_antisymmetric s))
    (option_map (in_units (("Cq", "Hz") :: angles)) (quadrupolar s)) [("isotropic_chemical_shift", "ppm")].
Definition plain_coupling (c : coupling) : coupling :=
  mkCoupling (c_name c) (c_label c) (c_description c) (site_index c) (isotropic_j c)
    (option_map (in_units (("zeta", "Hz") :: angles)) (j_symmetric c))
    (option_map (anti_in_units [("zeta", "Hz"); ("alpha", "rad"); ("beta", "rad")]) (j_antisymmetric c))
    (option_map (in_units (("D", "Hz") :: angles)) (dipolar c)) [("isotropic_j", "Hz")].
Definition plain_spins (y : spin_system) : spin_system :=
  mkSystem (y_name y) (y_label y) (y_description y) (map plain_site (sites y)) (option_map (map plain_coupling) (couplings y)) (abundance y)
    (transition_pathways y) [("abundance", "pct")].
(** A query without P gets the default P. *)
Definition plain_query (q : query) : query :=
  mkQuery (Some (match q_P q with Some p => p | None => [("channel-1", JList [JList [JNum (Q2Qc (-1 # 1))]])] end)) (q_D q) (q_F q) (q_transitions q).
Definition plain_event (e : event) : event :=
  mkEvent (fraction e) (magnetic_flux_density e) (rotor_frequency e) (rotor_angle e) (freq_contrib e) (plain_query (transition_query e))
    [("magnetic_flux_density", "T"); ("rotor_frequency", "Hz"); ("rotor_angle", "rad")].
Definition plain_dim (x : dimension) : dimension :=
  mkDim (count x) (spectral_width x) (reference_offset x) (origin_offset x) (d_label x) (d_description x) (map plain_event (events x))
    [("spectral_width", "Hz"); ("reference_offset", "Hz"); ("origin_offset", "Hz")].
Definition plain_method (m : method) : method :=
  mkMethod (m_name m) (m_label m) (m_description m) (channels m) (map plain_dim (dims m)) (affine m) (simulation m) (experiment m).
Definition plain_simulator (s : simulator) : simulator :=
  mkSim (x_name s) (x_label s) (x_description s) (map plain_spins (spin_systems s)) (map plain_method (methods s)) (sim_config s).

(** ** What can be saved *)
(** A JSON value without None and without the keys "isotope", "channels" and "property_units" at the places the reduction looks at: the
    entries of a dict, and the items of a list that is an entry of a dict.  No dict has a key twice. *)
Definition special (k : string) : bool := existsb (String.eqb k) ["isotope"; "channels"; "property_units"].
Fixpoint neutral (v : jval) : Prop :=
  match v with
  | JDict d => NoDup (map fst d) /\ (fix all (d : jdict) : Prop := match d with
      | [] => True
      | (k, x) :: r => (special k = false /\ x <> JNone /\
          match x with JList l => (fix each (l : list jval) : Prop := match l with [] => True | z :: t => neutral z /\ each t end) l | _ => neutral x end) /\ all r end) d
  | _ => plain v = true
  end.
Definition neutral_query (q : query) : Prop :=
  on (fun d => neutral (JDict d)) (q_P q) /\ on (fun d => neutral (JDict d)) (q_D q) /\ on (fun d => neutral (JDict d)) (q_F q).
(** No pathways, no affine matrix; the dicts of the queries and of the datasets are neutral. *)
Definition savable_system (y : spin_system) : Prop := match transition_pathways y with Some (_ :: _) => False | _ => True end.
Definition savable_method (m : method) : Prop :=
  affine m = None /\ on (fun d => neutral (JDict d)) (simulation m) /\ on (fun d => neutral (JDict d)) (experiment m) /\
  Forall (fun x => Forall (fun e => neutral_query (transition_query e)) (events x)) (dims m).
Definition savable (s : simulator) : Prop := Forall savable_system (spin_systems s) /\ Forall savable_method (methods s).

(** ** Simulators that come back as they were *)
Definition has_units (u : units) (o : option sym_tensor) : Prop := on (fun t => sym_units t = u) o.
Definition default_dims (x : dimension) : Prop := d_units x = [("spectral_width", "Hz"); ("reference_offset", "Hz"); ("origin_offset", "Hz")].
(** All shieldings in ppm, all dimensions in Hz, and every query with a P. *)
Definition keeps (s : simulator) : Prop :=
  Forall (fun y => Forall (fun s => has_units (("zeta", "ppm") :: angles) (shielding_symmetric s)) (sites y)) (spin_systems s) /\
  Forall (fun m => Forall (fun x => default_dims x /\ Forall (fun e => q_P (transition_query e) <> None) (events x)) (dims m)) (methods s).

(** ** Values the reduction meets *)
(** A dict that the reduction meets inside a value. *)
Inductive met : jval -> jdict -> Prop :=
| met_here d : met (JDict d) d
| met_dict d k x e : In (k, JDict x) d -> special k = false -> met (JDict x) e -> met (JDict d) e
| met_list d k l x e : In (k, JList l) d -> special k = false -> In x l -> met x e -> met (JDict d) e.
