(** The objects that a save and load cycle is expected to preserve, and quantities that are the same amount in another unit. *)
From Coq Require Import ZArith QArith Qcanon Bool String List.
From Verif Require Import Base SitesModel JsonModel.
Import ListNotations.
Open Scope string_scope.
Open Scope list_scope.

(** A text attribute that is not the empty text. *)
Definition no_empty (o : option string) : Prop := o <> Some "".
(** The asymmetry of a tensor, when given, is within 0 and 1. *)
Definition eta_ok (o : option Qc) : Prop := match o with Some q => (0 <= q)%Qc /\ (q <= 1)%Qc | None => True end.
Definition angles : units := [("alpha", "rad"); ("beta", "rad"); ("gamma", "rad")].
(** The unit of zeta is ppm or, when zeta is given, Hz. *)
Definition zeta_unit (z : option Qc) (u : string) : Prop := u = "ppm" \/ (u = "Hz" /\ z <> None).

(** A tensor on its own. *)
Definition good_sym (t : sym_tensor) : Prop :=
  eta_ok (eta t) /\ exists u, zeta_unit (zeta t) u /\ sym_units t = [("zeta", u); ("Cq", "Hz"); ("D", "Hz")] ++ angles.
Definition good_anti (t : anti_tensor) : Prop := anti_units t = [("zeta", "ppm"); ("alpha", "rad"); ("beta", "rad")].
(** The tensors of a site: a shielding has neither Cq nor D, a quadrupolar tensor has neither zeta nor D. *)
Definition good_shielding (t : sym_tensor) : Prop :=
  eta_ok (eta t) /\ Cq t = None /\ D t = None /\ exists u, zeta_unit (zeta t) u /\ sym_units t = ("zeta", u) :: angles.
Definition good_quadrupolar (t : sym_tensor) : Prop :=
  eta_ok (eta t) /\ zeta t = None /\ D t = None /\ sym_units t = ("Cq", "Hz") :: angles.
Definition on {A} (P : A -> Prop) (o : option A) : Prop := match o with Some a => P a | None => True end.
Definition good_site (s : site) : Prop :=
  no_empty (s_name s) /\ no_empty (s_label s) /\ no_empty (s_description s) /\
  (exists n, In (isotope s, n) isotope_data /\ (quadrupolar s <> None -> (2 <= n)%Z)) /\
  on good_shielding (shielding_symmetric s) /\ on good_anti (shielding_antisymmetric s) /\ on good_quadrupolar (quadrupolar s) /\
  s_units s = [("isotropic_chemical_shift", "ppm")].

(** The tensors of a coupling: a symmetric J tensor has zeta and neither Cq nor D, a dipolar tensor has neither zeta nor Cq; there is no
    antisymmetric J tensor. *)
Definition good_j (t : sym_tensor) : Prop :=
  eta_ok (eta t) /\ zeta t <> None /\ Cq t = None /\ D t = None /\ sym_units t = ("zeta", "Hz") :: angles.
Definition good_dipolar (t : sym_tensor) : Prop :=
  eta_ok (eta t) /\ zeta t = None /\ Cq t = None /\ sym_units t = ("D", "Hz") :: angles.
Definition good_coupling (c : coupling) : Prop :=
  no_empty (c_name c) /\ no_empty (c_label c) /\ no_empty (c_description c) /\ (exists a b, site_index c = [a; b] /\ a <> b) /\
  on good_j (j_symmetric c) /\ j_antisymmetric c = None /\ on good_dipolar (dipolar c) /\ c_units c = [("isotropic_j", "Hz")].

Definition good_system (y : spin_system) : Prop :=
  no_empty (y_name y) /\ no_empty (y_label y) /\ no_empty (y_description y) /\ Forall good_site (sites y) /\
  on (Forall good_coupling) (couplings y) /\ (0 <= abundance y)%Qc /\ (abundance y <= Q2Qc (100 # 1))%Qc /\ y_units y = [("abundance", "pct")].

(** An event whose query has a P. *)
Definition good_event (e : event) : Prop :=
  (0 <= magnetic_flux_density e)%Qc /\ (0 <= rotor_frequency e)%Qc /\ (0 <= rotor_angle e)%Qc /\
  (rotor_angle e <= Q2Qc (15707963268 # 10000000000))%Qc /\
  incl (freq_contrib e) ["Shielding1_0"; "Shielding1_2"; "Quad1_2"; "Quad2_0"; "Quad2_2"; "Quad2_4"] /\
  q_P (transition_query e) <> None /\
  e_units e = [("magnetic_flux_density", "T"); ("rotor_frequency", "Hz"); ("rotor_angle", "rad")].

Definition hz_ppm (u : string) : Prop := u = "Hz" \/ u = "ppm".
Definition good_dim (x : dimension) : Prop :=
  (0 < count x)%Z /\ (0 < spectral_width x)%Qc /\ no_empty (d_label x) /\ no_empty (d_description x) /\ Forall good_event (events x) /\
  exists u v w, hz_ppm u /\ hz_ppm v /\ (w = "Hz" \/ (w = "ppm" /\ origin_offset x <> None)) /\
    d_units x = [("spectral_width", u); ("reference_offset", v); ("origin_offset", w)].

(** A matrix with as many elements as a square one of the size of the dimensions, flat or in rows of one length, whose first entry is not zero. *)
Definition good_matrix (n : nat) (m : matrix) : Prop :=
  (exists x r, elements m = x :: r /\ x <> 0%Qc) /\ length (elements m) = (n * n)%nat /\
  match m with Flat _ => True | Rows l => forall r s, In r l -> In s l -> length r = length s end.
(** A method that is none of the named ones, all of whose dimensions have events. *)
Definition good_method (m : method) : Prop :=
  (forall n, m_name m = Some n -> ~ In n NAMED_METHODS) /\
  Forall (fun c => exists n, In (c, n) isotope_data) (channels m) /\ dims m <> [] /\ Forall good_dim (dims m) /\
  Forall (fun x => events x <> []) (dims m) /\ on (good_matrix (length (dims m))) (affine m).

Definition good_config (c : config) : Prop :=
  (0 < number_of_sidebands c)%Z /\ (0 < integration_density c)%Z /\ In (integration_volume c) ["octant"; "hemisphere"] /\
  In (decompose_spectrum c) ["none"; "spin_system"].
Definition good_simulator (s : simulator) : Prop :=
  Forall good_system (spin_systems s) /\
  Forall (fun m => good_method m /\ exists n, m_name m = Some n /\ ~ In n ["Method1D"; "Method2D"]) (methods s) /\ good_config (sim_config s).

(** ** The part of these conditions that is about the attributes only *)
Definition clean_site (s : site) : Prop :=
  no_empty (s_name s) /\ no_empty (s_label s) /\ no_empty (s_description s) /\
  on (fun t => Cq t = None /\ D t = None) (shielding_symmetric s) /\ on (fun t => zeta t = None /\ D t = None) (quadrupolar s).
Definition clean_coupling (c : coupling) : Prop :=
  no_empty (c_name c) /\ no_empty (c_label c) /\ no_empty (c_description c) /\
  on (fun t => zeta t <> None /\ Cq t = None /\ D t = None) (j_symmetric c) /\ j_antisymmetric c = None /\
  on (fun t => zeta t = None /\ Cq t = None) (dipolar c).
Definition clean_system (y : spin_system) : Prop :=
  no_empty (y_name y) /\ no_empty (y_label y) /\ no_empty (y_description y) /\ Forall clean_site (sites y) /\ on (Forall clean_coupling) (couplings y).
Definition clean_dim (x : dimension) : Prop :=
  no_empty (d_label x) /\ no_empty (d_description x) /\ Forall (fun e => q_P (transition_query e) <> None) (events x).
Definition clean_method (m : method) : Prop :=
  (forall n, m_name m = Some n -> ~ In n NAMED_METHODS) /\ dims m <> [] /\ Forall clean_dim (dims m) /\ Forall (fun x => events x <> []) (dims m).

(** ** Objects a user can obtain: read from a dict, or built from attributes and from such objects *)
Definition sym_obtained (t : sym_tensor) : Prop := (exists d, parse_sym d = Ok t) \/ (exists d, make_sym d (default_units sym_table) = Ok t).
Definition anti_obtained (t : anti_tensor) : Prop := (exists d, parse_anti d = Ok t) \/ (exists d, make_anti d (default_units anti_table) = Ok t).
Definition site_obtained (s : site) : Prop :=
  (exists d, parse_site d = Ok s) \/
  (exists d ss sa qd, on sym_obtained ss /\ on anti_obtained sa /\ on sym_obtained qd /\ make_site d ss sa qd (default_units site_table) = Ok s).
Definition coupling_obtained (c : coupling) : Prop :=
  (exists d, parse_coupling d = Ok c) \/
  (exists d js ja dp, on sym_obtained js /\ on anti_obtained ja /\ on sym_obtained dp /\ make_coupling d js ja dp (default_units coupling_table) = Ok c).
Definition system_obtained (y : spin_system) : Prop :=
  (exists d, parse_system d = Ok y) \/
  (exists d ss cs, on (Forall site_obtained) ss /\ on (Forall coupling_obtained) cs /\ make_system d ss cs (default_units system_table) = Ok y).
Definition event_obtained (e : event) : Prop := (exists d, parse_event d = Ok e) \/ (exists d, make_event d (default_units event_table) = Ok e).
Definition dim_obtained (x : dimension) : Prop :=
  (exists d, parse_dim d = Ok x) \/ (exists d ev, on (Forall event_obtained) ev /\ make_dim d ev (default_units dim_table) = Ok x).
Definition method_obtained (m : method) : Prop :=
  (exists d, parse_method d = Ok m) \/ (exists d ds, on (Forall dim_obtained) ds /\ make_method d ds = Ok m).
Definition config_obtained (c : config) : Prop := exists d, make_config d = Ok c.

(** ** Values that can be written to a JSON file *)
Fixpoint plain (v : jval) : bool :=
  match v with
  | JPath _ => false
  | JList l => forallb plain l
  | JDict d => forallb (fun kv => plain (snd kv)) d
  | _ => true
  end.

(** ** Amounts *)
(** [x] in unit [w] is the quantity [v] of physical type [ty]. *)
Definition amount (x : Qc) (w ty : string) (v : jval) : Prop :=
  exists q u s s', v = JQty q u /\ unit_info u = Some (ty, s) /\ unit_info w = Some (ty, s') /\ (x * s' = q * s)%Qc.
(** Serialised values that are equal up to the unit in which the quantities are written.  The entries of a query and of a dataset have no
    quantities. *)
Definition opaque_key (k : string) : bool := existsb (String.eqb k) ["transition_query"; "simulation"; "experiment"].
Inductive same_amount : jval -> jval -> Prop :=
| same_qty : forall q u q' u' ty s s', unit_info u = Some (ty, s) -> unit_info u' = Some (ty, s') -> (q * s = q' * s')%Qc -> same_amount (JQty q u) (JQty q' u')
| same_refl : forall v, same_amount v v
| same_list : forall l l', Forall2 same_amount l l' -> same_amount (JList l) (JList l')
| same_dict : forall d d', Forall2 (fun x y => fst x = fst y /\ (opaque_key (fst x) = true -> snd x = snd y) /\ same_amount (snd x) (snd y)) d d' ->
    same_amount (JDict d) (JDict d').
