(** C104: the classes of named methods read back what they save. *)
From Coq Require Import ZArith QArith Qcanon Bool Ascii String Lia List.
From Verif Require Import Base SitesModel JsonModel JsonSpec JsonProofs JsonUnits NamedModel NamedSpec NamedProofs.
From Verif Require PropJson.
Import ListNotations.
Open Scope string_scope.
Open Scope list_scope.

(** * C104: a named method that is saved and read by its class is the same method *)
(** Any Method object with the name of a class, with the attributes that the class gives. *)
Theorem C104_read_partial : forall cls m, In cls classes -> readable cls m -> exists d, json_method m = Ok d /\ parse_any_method parse_named d = Ok m.
Proof. exact named_back. Qed.
(** What a call of a two-dimensional class makes comes back, unless another name was given or a dimension has an empty text. *)
Theorem C104_made_2D_partial : forall cls args m, In cls fixed_2D -> make_named cls args = Ok m -> m_name m = Some cls -> texts m ->
  exists d, json_method m = Ok d /\ parse_any_method parse_named d = Ok m.
Proof.
  intros cls args m HC H N T. apply (named_back cls); [cbn in *; tauto|exact (two_dim_made cls args m HC H N T)].
Qed.
(** What BlochDecaySpectrum and BlochDecayCTSpectrum make without events and without a query. *)
Theorem C104_made_Bloch_partial : forall cls args m, In cls ["BlochDecaySpectrum"; "BlochDecayCTSpectrum"] -> make_named cls args = Ok m -> m_name m = Some cls ->
  m_description m <> None -> texts m -> gives_no_events args -> dict_lookup args "transition_query" = None ->
  exists d, json_method m = Ok d /\ parse_any_method parse_named d = Ok m.
Proof.
  intros cls args m HC H N D T G Q. apply (named_back cls); [cbn in *; tauto|exact (Bloch_made cls args m HC H N D T G Q)].
Qed.
(** What Method1D and Method2D make, with any events whose queries have a P; for Method2D the rotor frequency of the first event is 1e12 Hz. *)
Theorem C104_made_generic_partial : forall cls args m, In cls ["Method1D"; "Method2D"] -> make_named cls args = Ok m -> m_name m = Some cls ->
  m_description m <> None -> Forall clean_dim (dims m) -> (cls = "Method2D" -> forall e0, first_event m e0 -> rotor_frequency e0 = Qc_of_Z 1000000000000) ->
  exists d, json_method m = Ok d /\ parse_any_method parse_named d = Ok m.
Proof.
  intros cls args m HC H N D C R. apply (named_back cls); [cbn in *; tauto|exact (generic_made cls args m HC H N D C R)].
Qed.
(** A simulator: its methods are of the named classes, or have names that no class has. *)
Theorem C104_simulator_partial : forall version s with_version,
  Forall (fun y => system_obtained y /\ clean_system y) (spin_systems s) ->
  Forall (fun m => (exists cls, In cls classes /\ readable cls m) \/
                   (method_obtained m /\ clean_method m /\ exists n, m_name m = Some n /\ ~ In n ["Method1D"; "Method2D"])) (methods s) ->
  config_obtained (sim_config s) ->
  exists d, json_simulator version s true with_version = Ok d /\ parse_simulator parse_named d = Ok s.
Proof.
  intros v s w Y M C. apply simulator_reads.
  - revert Y. apply Forall_impl. intros y [O K]. now apply system_good.
  - revert M. apply Forall_impl. intros m [(cls & I & R)|(O & K & N)]; [exact (named_back cls m I R)|]. apply plain_reads. split; [now apply method_good|exact N].
  - now apply config_good.
Qed.

(** * C105: whatever is given or read, a method of a two-dimensional class selects the symmetries of the class *)
Theorem C105_made : forall cls args m, In cls fixed_2D -> make_named cls args = Ok m -> m_name m = Some cls ->
  m_description m = Some (class_text cls) /\ affine m <> None /\ forall c t n, channels m = c :: t -> In (c, n) isotope_data ->
  Forall2 (fun x q => exists e r, events x = e :: r /\ q_P (transition_query e) = q_P q /\ q_D (transition_query e) = q_D q) (dims m) (class_queries cls n).
Proof. intros cls args m HC H N. destruct (make_named_update cls args m HC H) as (m0 & L & U). exact (update_sets cls m0 m HC L U N). Qed.
Theorem C105_read : forall cls d m, In cls fixed_2D -> parse_named cls d = Ok m -> m_name m = Some cls ->
  m_description m = Some (class_text cls) /\ affine m <> None /\ forall c t n, channels m = c :: t -> In (c, n) isotope_data ->
  Forall2 (fun x q => exists e r, events x = e :: r /\ q_P (transition_query e) = q_P q /\ q_D (transition_query e) = q_D q) (dims m) (class_queries cls n).
Proof. intros cls args m HC H N. destruct (parse_named_update cls args m HC H) as (m0 & L & U). exact (update_sets cls m0 m HC L U N). Qed.

(** ** What is lost *)
(** A description given to a two-dimensional class is lost when the method is saved and read. *)
Theorem C104_description_refuted : forall cls m d r, In cls fixed_2D -> m_name m = Some cls -> m_name r = Some cls -> m_description m <> Some (class_text cls) ->
  json_method m = Ok d -> parse_any_method parse_named d = Ok r -> r <> m.
Proof.
  intros cls m d r HC N NR D J P ->. apply D. unfold parse_any_method in P.
  assert (LN : dict_lookup d "name" = Some (JStr cls)).
  { unfold json_method in J. rewrite N in J. destruct (dims m) as [|d0 dr]; [discriminate|]. destruct (events d0) as [|e0 er]; [discriminate|].
    apply bind_ok in J. destruct J as (a & _ & J). injection J as <-. reflexivity. }
  rewrite LN in P. assert (MN : existsb (String.eqb cls) method_names = true) by (cbn in HC; repeat (destruct HC as [<-|HC]; [reflexivity|]); destruct HC). rewrite MN in P.
  now apply (C105_read cls d m HC P).
Qed.
(** A Method2D whose first event has another rotor frequency is saved, and cannot be read. *)
Theorem C104_rotor_refuted : forall m d e0, m_name m = Some "Method2D" -> first_event m e0 -> rotor_frequency e0 <> Qc_of_Z 1000000000000 -> json_method m = Ok d ->
  exists e, parse_any_method parse_named d = Err e.
Proof. exact rotor_lost. Qed.

(** ** Concrete cases *)
Definition num (z : Z) : jval := JNum (Q2Qc (z # 1)).
Definition dim_args (c : Z) : jval := JDict [("count", num c); ("spectral_width", num 30000); ("label", JStr "axis")].
Definition args_3Q : jdict :=
  [("channels", JList [JStr "87Rb"]); ("magnetic_flux_density", num 7); ("label", JStr "run"); ("spectral_dimensions", JList [dim_args 128; dim_args 256])].
Example C104_3Q : PropJson.holds (fun m => m_name m = Some "ThreeQ_VAS" /\ texts m /\ length (dims m) = 2%nat /\
  map (fun x => map (fun e => (this (magnetic_flux_density e), this (rotor_frequency e))) (events x)) (dims m) = repeat [((7 # 1)%Q, (1000000000000 # 1)%Q)] 2 /\
  option_map (fun a => map this (elements a)) (affine m) = Some [(9 # 16)%Q; (7 # 16)%Q; 0%Q; 1%Q] /\
  exists d, json_method m = Ok d /\ parse_any_method parse_named d = Ok m) (make_named "ThreeQ_VAS" args_3Q).
Proof.
  destruct (make_named "ThreeQ_VAS" args_3Q) as [m|] eqn:E; [|vm_compute in E; discriminate]. cbn [PropJson.holds].
  assert (X : m_name m = Some "ThreeQ_VAS" /\ texts m /\ length (dims m) = 2%nat /\
    map (fun x => map (fun e => (this (magnetic_flux_density e), this (rotor_frequency e))) (events x)) (dims m) = repeat [((7 # 1)%Q, (1000000000000 # 1)%Q)] 2 /\
    option_map (fun a => map this (elements a)) (affine m) = Some [(9 # 16)%Q; (7 # 16)%Q; 0%Q; 1%Q]).
  { vm_compute in E. injection E as <-. repeat split; repeat constructor; discriminate. }
  destruct X as (X1 & X2 & X3 & X4 & X5). repeat (split; [assumption|]). apply (C104_made_2D_partial "ThreeQ_VAS" args_3Q); auto. cbn. tauto.
Qed.
Definition args_SSB : jdict := [("channels", JList [JStr "13C"]); ("rotor_frequency", num 1500)].
Example C104_SSB2D : PropJson.holds (fun m => m_name m = Some "SSB2D" /\ texts m /\
  map (fun x => map (fun e => this (rotor_frequency e)) (events x)) (dims m) = [[(1500 # 1)%Q]; [(1000000000000 # 1)%Q]] /\
  exists d, json_method m = Ok d /\ parse_any_method parse_named d = Ok m) (make_named "SSB2D" args_SSB).
Proof.
  destruct (make_named "SSB2D" args_SSB) as [m|] eqn:E; [|vm_compute in E; discriminate]. cbn [PropJson.holds].
  assert (X : m_name m = Some "SSB2D" /\ texts m /\ map (fun x => map (fun e => this (rotor_frequency e)) (events x)) (dims m) = [[(1500 # 1)%Q]; [(1000000000000 # 1)%Q]]).
  { vm_compute in E. injection E as <-. repeat split; repeat constructor; discriminate. }
  destruct X as (X1 & X2 & X3). repeat (split; [assumption|]). apply (C104_made_2D_partial "SSB2D" args_SSB); auto. cbn. tauto.
Qed.
Definition args_CT : jdict :=
  [("channels", JList [JStr "27Al"]); ("rotor_frequency", num 12500); ("spectral_dimensions", JList [dim_args 512])].
Example C104_CT : PropJson.holds (fun m => m_name m = Some "BlochDecayCTSpectrum" /\
  map (fun x => map transition_query (events x)) (dims m) = [[selects (-1) [0%Z]]] /\ exists d, json_method m = Ok d /\ parse_any_method parse_named d = Ok m) (make_named "BlochDecayCTSpectrum" args_CT).
Proof.
  destruct (make_named "BlochDecayCTSpectrum" args_CT) as [m|] eqn:E; [|vm_compute in E; discriminate]. cbn [PropJson.holds].
  assert (X : m_name m = Some "BlochDecayCTSpectrum" /\ m_description m <> None /\ texts m /\ map (fun x => map transition_query (events x)) (dims m) = [[selects (-1) [0%Z]]]).
  { vm_compute in E. injection E as <-. split; [reflexivity|]. split; [discriminate|]. split; [repeat constructor; discriminate|]. vm_compute. reflexivity. }
  destruct X as (X1 & X2 & X3 & X4). split; [exact X1|]. split; [exact X4|]. apply (C104_made_Bloch_partial "BlochDecayCTSpectrum" args_CT); auto; [cbn; tauto|].
  intros l [= <-] dim [[= <-]|[]]. reflexivity.
Qed.
(** A generic method with two events and two queries. *)
Definition query_arg (z : Z) : jval := JDict [("P", JList [num z])].
Definition args_1D : jdict :=
  [("channels", JList [JStr "27Al"]); ("spectral_dimensions", JList [JDict [("events", JList [JDict [("fraction", JNum (Q2Qc (1 # 2))); ("transition_query", query_arg (-3))];
     JDict [("fraction", JNum (Q2Qc (1 # 2))); ("rotor_frequency", num 8000)]])]])].
Example C104_1D : PropJson.holds (fun m => m_name m = Some "Method1D" /\
  map (fun x => map transition_query (events x)) (dims m) = [[mkQuery (Some (symmetry [(-3)%Z])) None None None; plain_query]] /\
  exists d, json_method m = Ok d /\ parse_any_method parse_named d = Ok m) (make_named "Method1D" args_1D).
Proof.
  destruct (make_named "Method1D" args_1D) as [m|] eqn:E; [|vm_compute in E; discriminate]. cbn [PropJson.holds].
  assert (X : m_name m = Some "Method1D" /\ m_description m <> None /\ Forall clean_dim (dims m) /\
    map (fun x => map transition_query (events x)) (dims m) = [[mkQuery (Some (symmetry [(-3)%Z])) None None None; plain_query]]).
  { vm_compute in E. injection E as <-. split; [reflexivity|]. split; [discriminate|]. split; [repeat constructor; discriminate|]. vm_compute. reflexivity. }
  destruct X as (X1 & X2 & X3 & X4). split; [exact X1|]. split; [exact X4|]. apply (C104_made_generic_partial "Method1D" args_1D); auto; [cbn; tauto|discriminate].
Qed.
(** A generic two-dimensional method without rotation in its first dimension is made and saved, and cannot be read. *)
Definition args_2D : jdict :=
  [("channels", JList [JStr "13C"]); ("spectral_dimensions", JList [JDict [("events", JList [JDict [("rotor_frequency", num 0)]])]; JDict []])].
Example C104_rotor_case : PropJson.holds (fun m => PropJson.holds (fun d => exists e, parse_any_method parse_named d = Err e) (json_method m)) (make_named "Method2D" args_2D).
Proof.
  destruct (make_named "Method2D" args_2D) as [m|] eqn:E; [|vm_compute in E; discriminate]. cbn [PropJson.holds]. destruct (json_method m) as [d|] eqn:J.
  - cbn [PropJson.holds]. vm_compute in E. injection E as <-. refine (C104_rotor_refuted _ _ _ _ _ _ J); [reflexivity| |].
    + eexists _, _, _. split; reflexivity.
    + intros X. discriminate (f_equal (fun x => Qnum (this x)) X).
  - exfalso. vm_compute in E. injection E as <-. vm_compute in J. discriminate.
Qed.
(** A Bloch decay method with two equal events is read with one, and one with a query of the user with the query of the class. *)
Definition args_two : jdict := [("channels", JList [JStr "13C"]); ("spectral_dimensions", JList [JDict [("events", JList [JDict []; JDict []])]])].
Theorem C104_events_refuted : exists m d r, make_named "BlochDecaySpectrum" args_two = Ok m /\ json_method m = Ok d /\ parse_any_method parse_named d = Ok r /\
  map (fun x => length (events x)) (dims m) = [2%nat] /\ map (fun x => length (events x)) (dims r) = [1%nat].
Proof.
  destruct (make_named "BlochDecaySpectrum" args_two) as [m|] eqn:E; [|vm_compute in E; discriminate]. destruct (json_method m) as [d|] eqn:J; [|exfalso; vm_compute in E; injection E as <-; vm_compute in J; discriminate].
  destruct (parse_any_method parse_named d) as [r|] eqn:P; [|exfalso; vm_compute in E; injection E as <-; vm_compute in J; injection J as <-; vm_compute in P; discriminate].
  exists m, d, r. split; [reflexivity|]. split; [exact J|]. split; [exact P|]. vm_compute in E. injection E as <-. vm_compute in J. injection J as <-. vm_compute in P. injection P as <-. split; reflexivity.
Qed.
Definition args_query : jdict := [("channels", JList [JStr "13C"]); ("transition_query", JDict [("P", JDict [("channel-1", JList [JList [num (-2)]])])])].
Theorem C104_query_refuted : exists m d r, make_named "BlochDecaySpectrum" args_query = Ok m /\ json_method m = Ok d /\ parse_any_method parse_named d = Ok r /\
  map (fun x => map transition_query (events x)) (dims m) = [[mkQuery (Some (symmetry [(-2)%Z])) None None None]] /\ map (fun x => map transition_query (events x)) (dims r) = [[plain_query]].
Proof.
  destruct (make_named "BlochDecaySpectrum" args_query) as [m|] eqn:E; [|vm_compute in E; discriminate]. destruct (json_method m) as [d|] eqn:J; [|exfalso; vm_compute in E; injection E as <-; vm_compute in J; discriminate].
  destruct (parse_any_method parse_named d) as [r|] eqn:P; [|exfalso; vm_compute in E; injection E as <-; vm_compute in J; injection J as <-; vm_compute in P; discriminate].
  exists m, d, r. split; [reflexivity|]. split; [exact J|]. split; [exact P|]. vm_compute in E. injection E as <-. vm_compute in J. injection J as <-. vm_compute in P. injection P as <-. split; vm_compute; reflexivity.
Qed.
(** The rotor frequency of a saved Method2D in another unit is refused, although it is the same amount. *)
Definition saved_2D (f : jval) : jdict := [("name", JStr "Method2D"); ("channels", JList [JStr "13C"]); ("rotor_frequency", f); ("spectral_dimensions", JList [JDict []; JDict []])].
Theorem C104_unit_refuted : same_amount (JDict (saved_2D (JQty (Qc_of_Z 1000000000000) "Hz"))) (JDict (saved_2D (JQty (Qc_of_Z 1000000000) "kHz"))) /\
  (exists m, parse_named "Method2D" (saved_2D (JQty (Qc_of_Z 1000000000000) "Hz")) = Ok m) /\ parse_named "Method2D" (saved_2D (JQty (Qc_of_Z 1000000000) "kHz")) = Err ValueError.
Proof.
  split; [|split].
  - apply same_dict. unfold saved_2D. repeat (constructor; [split; [reflexivity|]; split; [try reflexivity; discriminate|]; first [apply same_refl|idtac]|]); [|constructor].
    eapply same_qty; [reflexivity|reflexivity|]. apply Qc_is_canon. reflexivity.
  - destruct (parse_named "Method2D" (saved_2D (JQty (Qc_of_Z 1000000000000) "Hz"))) as [m|] eqn:E; [eauto|exfalso; vm_compute in E; discriminate].
  - vm_compute. reflexivity.
Qed.
(** Whatever the description given. *)
Example C104_description_case : PropJson.holds (fun m => m_name m = Some "ST1_VAS" /\ m_description m = Some (class_text "ST1_VAS"))
  (make_named "ST1_VAS" [("channels", JList [JStr "87Rb"]); ("description", JStr "mine")]).
Proof. destruct (make_named "ST1_VAS" _) as [m|] eqn:E; [|vm_compute in E; discriminate]. vm_compute in E. injection E as <-. split; reflexivity. Qed.
(** A saved triple-quantum method whose events ask for another query is read with the queries of the class; 87Rb has the spin 3/2. *)
Definition saved_3Q : jdict :=
  [("name", JStr "ThreeQ_VAS"); ("channels", JList [JStr "87Rb"]);
   ("spectral_dimensions", JList [JDict [("events", JList [JDict [("transition_query", JDict [("P", JDict [("channel-1", JList [JList [num 1]])])])]])]; JDict []])].
Example C105_case : PropJson.holds (fun m => m_name m = Some "ThreeQ_VAS" /\ channels m = ["87Rb"] /\ In ("87Rb", 3%Z) isotope_data /\
  map (fun x => map transition_query (events x)) (dims m) = [[selects (-3) [0%Z]]; [selects (-1) [0%Z]]]) (parse_named "ThreeQ_VAS" saved_3Q).
Proof.
  destruct (parse_named "ThreeQ_VAS" saved_3Q) as [m|] eqn:E; [|vm_compute in E; discriminate]. vm_compute in E. injection E as <-. cbn [PropJson.holds]. split; [reflexivity|]. split; [reflexivity|].
  split; [cbn; tauto|]. vm_compute. reflexivity.
Qed.
(** A simulator with a triple-quantum and a generic method. *)
Example C104_simulator_case : exists m1 m2 y, make_named "ThreeQ_VAS" args_3Q = Ok m1 /\ make_named "Method1D" args_1D = Ok m2 /\ parse_system PropJson.system_dict = Ok y /\
  exists c, make_config [] = Ok c /\ forall version, exists d, json_simulator version (mkSim (Some "run") None None [y] [m1; m2] c) true true = Ok d /\
    parse_simulator parse_named d = Ok (mkSim (Some "run") None None [y] [m1; m2] c).
Proof.
  destruct (PropJson.holds_ok _ _ _ C104_3Q) as (m1 & E1 & N1 & T1 & _). destruct (PropJson.holds_ok _ _ _ PropJson.C40_read_system) as (y & Ey & Oy & Cy & _).
  destruct (make_named "Method1D" args_1D) as [m2|] eqn:E2; [|exfalso; vm_compute in E2; discriminate]. destruct (make_config []) as [c|] eqn:EC; [|exfalso; vm_compute in EC; discriminate].
  exists m1, m2, y. split; [exact E1|]. split; [reflexivity|]. split; [exact Ey|]. exists c. split; [reflexivity|]. intros v. apply C104_simulator_partial; cbn [spin_systems methods sim_config].
  - constructor; [split; assumption|constructor].
  - constructor; [|constructor; [|constructor]]; left.
    + exists "ThreeQ_VAS". split; [cbn; tauto|]. apply (two_dim_made "ThreeQ_VAS" args_3Q); auto. cbn. tauto.
    + exists "Method1D". split; [cbn; tauto|]. apply (generic_made "Method1D" args_1D); [cbn; tauto|exact E2| | | |discriminate]; vm_compute in E2; injection E2 as <-; [reflexivity|discriminate|repeat constructor; discriminate].
  - now exists [].
Qed.
Print Assumptions C104_read_partial.
Print Assumptions C104_made_2D_partial.
Print Assumptions C104_made_Bloch_partial.
Print Assumptions C104_made_generic_partial.
Print Assumptions C104_simulator_partial.
Print Assumptions C105_made.
Print Assumptions C105_read.
Print Assumptions C104_description_refuted.
Print Assumptions C104_rotor_refuted.
Print Assumptions C104_events_refuted.
Print Assumptions C104_query_refuted.
Print Assumptions C104_unit_refuted.
