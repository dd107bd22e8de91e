(** C106, C107: the values of attributes that are left out, and the ranges of those that are given. *)
From Coq Require Import ZArith QArith Qcanon Bool Ascii String List.
From Verif Require Import Base SitesModel SitesSpec SitesProofs JsonModel JsonSpec JsonProofs JsonUnits JsonSame JsonLost.
Import ListNotations.
Open Scope string_scope.
Open Scope list_scope.

(** ** What is documented *)
(** An object is made of a dict of attributes by the constructor (the nested objects are given apart) or by the reading with units. *)
Definition left_out (d : jdict) (k : string) : Prop := dict_lookup d k = None.
Definition made_sym (d : jdict) (t : sym_tensor) : Prop := parse_sym d = Ok t \/ exists pu, make_sym d pu = Ok t.
Definition made_anti (d : jdict) (t : anti_tensor) : Prop := parse_anti d = Ok t \/ exists pu, make_anti d pu = Ok t.
Definition made_site (d : jdict) (s : site) : Prop := parse_site d = Ok s \/ exists ss sa qd pu, make_site d ss sa qd pu = Ok s.
Definition made_coupling (d : jdict) (c : coupling) : Prop := parse_coupling d = Ok c \/ exists js ja dp pu, make_coupling d js ja dp pu = Ok c.
Definition made_system (d : jdict) (y : spin_system) : Prop := parse_system d = Ok y \/ exists ss cs pu, make_system d ss cs pu = Ok y.
Definition made_event (d : jdict) (e : event) : Prop := parse_event d = Ok e \/ exists pu, make_event d pu = Ok e.
Definition made_dim (d : jdict) (x : dimension) : Prop := parse_dim d = Ok x \/ exists ev pu, make_dim d ev pu = Ok x.
Definition made_method (d : jdict) (m : method) : Prop := parse_method d = Ok m \/ exists ds, make_method d ds = Ok m.

Definition holds {A} (P : A -> Prop) (r : pyres A) : Prop := match r with Ok a => P a | Err _ => False end.

(** ** Reading leaves out what was left out *)
Lemma unread t d d1 pu k : NoDup (map fst t) -> parse_units t d = Ok (d1, pu) -> dict_lookup d k = None -> dict_lookup d1 k = None.
Proof. intros N P L. destruct (parse_units_inv t d d1 pu N P) as (_ & _ & K). rewrite K, L. now destruct (dict_lookup t k). Qed.
Lemma def_num_none d k x0 valid x : dict_lookup d k = None -> def_num d k x0 valid = Ok x -> x = x0.
Proof. unfold def_num. intros ->. congruence. Qed.
Lemma opt_num_none d k valid x : dict_lookup d k = None -> opt_num d k valid = Ok x -> x = None.
Proof. unfold opt_num. intros ->. congruence. Qed.
Lemma opt_str_none d k x : dict_lookup d k = None -> opt_str d k = Ok x -> x = None.
Proof. unfold opt_str. intros ->. congruence. Qed.
Lemma def_int_none d k x0 valid x : dict_lookup d k = None -> def_int d k x0 valid = Ok x -> x = x0.
Proof. unfold def_int. intros ->. congruence. Qed.
Lemma opt_dict_none d k x0 x : dict_lookup d k = None -> opt_dict d k x0 = Ok x -> x = x0.
Proof. unfold opt_dict. intros ->. congruence. Qed.
Lemma def_literal_none d k x0 al x : dict_lookup d k = None -> def_literal d k x0 al = Ok x -> x = x0.
Proof. unfold def_literal. intros ->. congruence. Qed.
Ltac dflt := intros L;
  match goal with
  | H : def_num _ ?k _ _ = Ok ?x |- ?x = _ => exact (def_num_none _ _ _ _ _ L H)
  | H : opt_num _ ?k _ = Ok ?x |- ?x = _ => exact (opt_num_none _ _ _ _ L H)
  | H : opt_str _ ?k = Ok ?x |- ?x = _ => exact (opt_str_none _ _ _ L H)
  | H : def_int _ ?k _ _ = Ok ?x |- ?x = _ => exact (def_int_none _ _ _ _ _ L H)
  | H : opt_dict _ ?k _ = Ok ?x |- ?x = _ => exact (opt_dict_none _ _ _ _ L H)
  | H : def_literal _ ?k _ _ = Ok ?x |- ?x = _ => exact (def_literal_none _ _ _ _ _ L H)
  | _ => cbn [transition_pathways freq_contrib transition_query channels affine]; unfold left_out in L; match goal with H : _ = Ok ?x |- ?x = _ => rewrite L in H; injection H as H; exact (eq_sym H) end
  end.

(** * C106 *)
Definition sym_defaults (d : jdict) (t : sym_tensor) : Prop :=
  (left_out d "zeta" -> zeta t = None) /\ (left_out d "Cq" -> Cq t = None) /\ (left_out d "D" -> D t = None) /\ (left_out d "eta" -> eta t = None) /\
  (left_out d "alpha" -> alpha t = None) /\ (left_out d "beta" -> beta t = None) /\ (left_out d "gamma" -> gamma t = None).
Definition anti_defaults (d : jdict) (t : anti_tensor) : Prop :=
  (left_out d "zeta" -> a_zeta t = None) /\ (left_out d "alpha" -> a_alpha t = None) /\ (left_out d "beta" -> a_beta t = None).
Definition site_defaults (d : jdict) (s : site) : Prop :=
  (left_out d "isotope" -> isotope s = "1H") /\ (left_out d "isotropic_chemical_shift" -> isotropic_chemical_shift s = 0%Qc) /\
  (left_out d "name" -> s_name s = None) /\ (left_out d "label" -> s_label s = None) /\ (left_out d "description" -> s_description s = None).
Definition coupling_defaults (d : jdict) (c : coupling) : Prop :=
  (left_out d "isotropic_j" -> isotropic_j c = 0%Qc) /\
  (left_out d "name" -> c_name c = None) /\ (left_out d "label" -> c_label c = None) /\ (left_out d "description" -> c_description c = None).
Definition system_defaults (d : jdict) (y : spin_system) : Prop :=
  (left_out d "abundance" -> abundance y = Q2Qc (100 # 1)) /\ (left_out d "transition_pathways" -> transition_pathways y = None) /\
  (left_out d "name" -> y_name y = None) /\ (left_out d "label" -> y_label y = None) /\ (left_out d "description" -> y_description y = None).
(** The query that is made when none is given selects changes of the total magnetic quantum number by -1. *)
Definition event_defaults (d : jdict) (e : event) : Prop :=
  (left_out d "fraction" -> fraction e = 1%Qc) /\ (left_out d "magnetic_flux_density" -> magnetic_flux_density e = Q2Qc (94 # 10)) /\
  (left_out d "rotor_frequency" -> rotor_frequency e = 0%Qc) /\ (left_out d "rotor_angle" -> rotor_angle e = Q2Qc (955316618 # 1000000000)) /\
  (left_out d "freq_contrib" -> freq_contrib e = ["Shielding1_0"; "Shielding1_2"; "Quad1_2"; "Quad2_0"; "Quad2_2"; "Quad2_4"]) /\
  (left_out d "transition_query" ->
     transition_query e = mkQuery (Some [("channel-1", JList [JList [JNum (Q2Qc (-1 # 1))]])]) None None None).
Definition dim_defaults (d : jdict) (x : dimension) : Prop :=
  (left_out d "count" -> count x = 1024%Z) /\ (left_out d "spectral_width" -> spectral_width x = Q2Qc (25000 # 1)) /\
  (left_out d "reference_offset" -> reference_offset x = 0%Qc) /\ (left_out d "origin_offset" -> origin_offset x = None) /\
  (left_out d "label" -> d_label x = None) /\ (left_out d "description" -> d_description x = None).
Definition method_defaults (d : jdict) (m : method) : Prop :=
  (left_out d "channels" -> channels m = []) /\ (left_out d "affine_matrix" -> affine m = None) /\
  (left_out d "simulation" -> simulation m = None) /\ (left_out d "experiment" -> experiment m = None) /\
  (left_out d "name" -> m_name m = None) /\ (left_out d "label" -> m_label m = None) /\ (left_out d "description" -> m_description m = None).

Lemma make_sym_defaults d pu t : make_sym d pu = Ok t -> sym_defaults d t.
Proof. unfold make_sym. intros H. do 7 inv H. injection H as <-. repeat split; dflt. Qed.
Theorem C106_symmetric_tensor : forall d t, made_sym d t -> sym_defaults d t.
Proof.
  intros d t [H|[pu H]]; [|exact (make_sym_defaults _ _ _ H)]. unfold parse_sym in H. inv H. destruct a as [d1 pu]. inv H. apply make_sym_defaults in H.
  assert (U : forall k, left_out d k -> left_out d1 k) by (intros k; apply (unread sym_table d d1 pu k ltac:(nd) E)). unfold sym_defaults in *. intuition.
Qed.
Lemma make_anti_defaults d pu t : make_anti d pu = Ok t -> anti_defaults d t.
Proof. unfold make_anti. intros H. do 3 inv H. injection H as <-. repeat split; dflt. Qed.
Theorem C106_antisymmetric_tensor : forall d t, made_anti d t -> anti_defaults d t.
Proof.
  intros d t [H|[pu H]]; [|exact (make_anti_defaults _ _ _ H)]. unfold parse_anti in H. inv H. destruct a as [d1 pu]. inv H. apply make_anti_defaults in H.
  assert (U : forall k, left_out d k -> left_out d1 k) by (intros k; apply (unread anti_table d d1 pu k ltac:(nd) E)). unfold anti_defaults in *. intuition.
Qed.
Lemma make_site_defaults d ss sa qd pu s : make_site d ss sa qd pu = Ok s -> site_defaults d s.
Proof.
  unfold make_site. intros H. do 6 inv H. injection H as <-. repeat split; dflt.
Qed.
(** Also: a tensor that is not given is None. *)
Theorem C106_site : forall d s, made_site d s -> site_defaults d s.
Proof.
  intros d s [H|(ss & sa & qd & pu & H)]; [|exact (make_site_defaults _ _ _ _ _ _ H)]. unfold parse_site in H. do 3 inv H. inv H. destruct a2 as [d1 pu]. inv H. apply make_site_defaults in H.
  assert (U : forall k, left_out d k -> left_out d1 k) by (intros k; apply (unread site_table d d1 pu k ltac:(nd) E2)). unfold site_defaults in *. intuition.
Qed.
Theorem C106_site_tensors : forall d s, parse_site d = Ok s ->
  (left_out d "shielding_symmetric" -> shielding_symmetric s = None) /\ (left_out d "shielding_antisymmetric" -> shielding_antisymmetric s = None) /\
  (left_out d "quadrupolar" -> quadrupolar s = None).
Proof.
  intros d s H. unfold parse_site in H. do 3 inv H. inv H. destruct a2 as [d1 pu]. inv H. unfold make_site in H. do 6 inv H. injection H as <-. cbn.
  unfold opt_parse, left_out in *. repeat split; intros L; rewrite L in *;
    match goal with |- option_map _ ?o = None => let X := fresh in assert (X : o = None) by congruence; rewrite X; reflexivity end.
Qed.
Lemma make_coupling_defaults d ss sa qd pu s : make_coupling d ss sa qd pu = Ok s -> coupling_defaults d s.
Proof. unfold make_coupling. intros H. do 6 inv H. injection H as <-. repeat split; dflt. Qed.
Theorem C106_coupling : forall d s, made_coupling d s -> coupling_defaults d s.
Proof.
  intros d s [H|(ss & sa & qd & pu & H)]; [|exact (make_coupling_defaults _ _ _ _ _ _ H)]. unfold parse_coupling in H. do 5 inv H. inv H. destruct a4 as [d1 pu]. inv H. apply make_coupling_defaults in H.
  assert (U : forall k, left_out d k -> left_out d1 k) by (intros k; apply (unread coupling_table d d1 pu k ltac:(nd) E4)). unfold coupling_defaults in *. intuition.
Qed.
Theorem C106_coupling_tensors : forall d s, parse_coupling d = Ok s ->
  (left_out d "j_symmetric" -> j_symmetric s = None) /\ (left_out d "j_antisymmetric" -> j_antisymmetric s = None) /\ (left_out d "dipolar" -> dipolar s = None).
Proof.
  intros d s H. unfold parse_coupling in H. do 5 inv H. inv H. destruct a4 as [d1 pu]. inv H. unfold make_coupling in H. do 6 inv H. injection H as <-. cbn.
  unfold opt_parse, left_out in *. repeat split; intros L; rewrite L in *;
    match goal with |- option_map _ ?o = None => let X := fresh in assert (X : o = None) by congruence; rewrite X; reflexivity end.
Qed.
Lemma make_system_defaults d ss cs pu s : make_system d ss cs pu = Ok s -> system_defaults d s.
Proof. unfold make_system. intros H. do 5 inv H. injection H as <-. repeat split; dflt. Qed.
Theorem C106_system : forall d s, made_system d s -> system_defaults d s.
Proof.
  intros d s [H|(ss & cs & pu & H)]; [|exact (make_system_defaults _ _ _ _ _ H)]. unfold parse_system in H. do 2 inv H. inv H. destruct a1 as [d1 pu]. inv H. apply make_system_defaults in H.
  assert (U : forall k, left_out d k -> left_out d1 k) by (intros k; apply (unread system_table d d1 pu k ltac:(nd) E1)). unfold system_defaults in *. intuition.
Qed.
(** The sites that are left out are none; the couplings that are left out are None (the documentation says: an empty list). *)
Theorem C106_system_parts : forall d s, parse_system d = Ok s -> (left_out d "sites" -> sites s = []) /\ (left_out d "couplings" -> couplings s = None).
Proof.
  intros d s H. unfold parse_system in H. do 2 inv H. inv H. destruct a1 as [d1 pu]. inv H. unfold make_system in H. do 5 inv H. injection H as <-. cbn.
  unfold list_parse, left_out in *. split; intros L; rewrite L in *; [|congruence]. match goal with |- match ?o with _ => _ end = [] => let X := fresh in assert (X : o = None) by congruence; rewrite X; reflexivity end.
Qed.
Lemma make_event_defaults d pu e : make_event d pu = Ok e -> event_defaults d e.
Proof. unfold make_event. intros H. do 6 inv H. injection H as <-. repeat split; dflt. Qed.
Theorem C106_event : forall d e, made_event d e -> event_defaults d e.
Proof.
  intros d t [H|[pu H]]; [|exact (make_event_defaults _ _ _ H)]. unfold parse_event in H. inv H. destruct a as [d1 pu]. inv H. apply make_event_defaults in H.
  assert (U : forall k, left_out d k -> left_out d1 k) by (intros k; apply (unread event_table d d1 pu k ltac:(nd) E)). unfold event_defaults in *. intuition.
Qed.
Lemma make_dim_defaults d ev pu x : make_dim d ev pu = Ok x -> dim_defaults d x.
Proof. unfold make_dim. intros H. do 6 inv H. injection H as <-. repeat split; dflt. Qed.
Theorem C106_dimension : forall d x, made_dim d x -> dim_defaults d x.
Proof.
  intros d t [H|(ev & pu & H)]; [|exact (make_dim_defaults _ _ _ _ H)]. unfold parse_dim in H. inv H. inv H. destruct a0 as [d1 pu]. inv H. apply make_dim_defaults in H.
  assert (U : forall k, left_out d k -> left_out d1 k) by (intros k; apply (unread dim_table d d1 pu k ltac:(nd) E0)). unfold dim_defaults in *. intuition.
Qed.

Lemma make_method_defaults d ds m : make_method d ds = Ok m -> method_defaults d m.
Proof. unfold make_method. intros H. do 4 inv H. do 3 inv H. injection H as <-. repeat split; dflt. Qed.
Theorem C106_method : forall d m, made_method d m -> method_defaults d m.
Proof.
  intros d m [H|(ds & H)]; [|exact (make_method_defaults _ _ _ H)]. unfold parse_method in H.
  destruct (dict_lookup d "spectral_dimensions") as [v|] eqn:L; [|inv H; exact (make_method_defaults _ _ _ H)].
  inv H. inv H. inv H. apply make_method_defaults in H. unfold expand in E. rewrite L in E. inv E. inv E. injection E as E.
  assert (U : forall k, k <> "spectral_dimensions" -> left_out d k -> left_out a k).
  { intros k N K. unfold left_out in *. subst a. generalize (map fst (globals_of d)). intros gs. assert (Z : dict_lookup (dict_set d "spectral_dimensions" (JList a3)) k = None) by (rewrite lookup_set; destruct (String.eqb_spec "spectral_dimensions" k); [congruence|exact K]).
    revert Z. generalize (dict_set d "spectral_dimensions" (JList a3)). induction gs as [|g gs IH]; intros e Z; [exact Z|]. cbn [fold_left]. apply IH. rewrite lookup_pop. now destruct (String.eqb k g). }
  unfold method_defaults in *. repeat split; intros K; apply U in K; try discriminate; intuition.
Qed.
(** The query of an event, the configuration, and a method and a simulator of which everything is left out. *)
Theorem C106_query : forall d q, make_query d = Ok q ->
  (left_out d "P" -> q_P q = Some [("channel-1", JList [JList [JNum (Q2Qc (-1 # 1))]])]) /\ (left_out d "D" -> q_D q = None) /\
  (left_out d "F" -> q_F q = None) /\ (left_out d "transitions" -> q_transitions q = None).
Proof.
  unfold make_query. intros d q H. do 4 inv H. injection H as <-. repeat split; try dflt.
Qed.
Theorem C106_config : forall d c, make_config d = Ok c ->
  (left_out d "number_of_sidebands" -> number_of_sidebands c = 64%Z) /\ (left_out d "integration_volume" -> integration_volume c = "octant") /\
  (left_out d "integration_density" -> integration_density c = 70%Z) /\ (left_out d "decompose_spectrum" -> decompose_spectrum c = "none").
Proof. unfold make_config. intros d c H. do 4 inv H. injection H as <-. repeat split; dflt. Qed.
(** Without spectral dimensions, a method has one, with the defaults and no events. *)
Theorem C106_method_dimensions : forall d m, parse_method d = Ok m -> left_out d "spectral_dimensions" ->
  exists x, dims m = [x] /\ count x = 1024%Z /\ spectral_width x = Q2Qc (25000 # 1) /\ reference_offset x = 0%Qc /\ origin_offset x = None /\
            d_label x = None /\ d_description x = None /\ events x = [].
Proof.
  intros d m H L. unfold parse_method in H. unfold left_out in L. rewrite L in H. inv H. unfold make_method in H. do 4 inv H. do 3 inv H. injection H as <-. eexists. repeat split.
Qed.
Theorem C106_simulator : forall parse_named d s, parse_simulator parse_named d = Ok s ->
  (left_out d "spin_systems" -> spin_systems s = []) /\ (left_out d "methods" -> methods s = []) /\
  (left_out d "config" -> sim_config s = mkConfig 64 "octant" 70 "none") /\
  (left_out d "name" -> x_name s = None) /\ (left_out d "label" -> x_label s = None) /\ (left_out d "description" -> x_description s = None).
Proof.
  intros pn d s H. unfold parse_simulator in H. do 6 inv H. injection H as <-. cbn.
  repeat split; try dflt; intros L; unfold left_out in L.
  - unfold list_parse in E. rewrite L in E. injection E as <-. reflexivity.
  - unfold list_parse in E0. rewrite L in E0. injection E0 as <-. reflexivity.
Qed.
(** The documentation of the couplings: the default value is an empty list. *)
Theorem C106_couplings_refuted : ~ (forall d y, parse_system d = Ok y -> left_out d "couplings" -> couplings y = Some []).
Proof. intros C. discriminate (C [] _ eq_refl eq_refl). Qed.
Example C106_witness :
  holds (fun s => isotope s = "1H") (parse_site [("label", JStr "x")]) /\
  holds (fun c => this (isotropic_j c) = (0 # 1)%Q) (parse_coupling [("site_index", JList [JNum 0; JNum 1])]) /\
  holds (fun y => length (sites y) = 1%nat) (parse_system [("sites", JList [JDict []])]) /\
  holds (fun e => this (rotor_angle e) = (477658309 # 500000000)%Q) (parse_event [("fraction", JNum 1)]) /\
  holds (fun m => length (dims m) = 1%nat /\ length (channels m) = 1%nat)
        (parse_method [("channels", JList [JStr "13C"]); ("spectral_dimensions", JList [JDict [("count", JNum (Q2Qc (512 # 1)))]])]) /\
  holds (fun s => length (spin_systems s) = 1%nat) (parse_simulator (fun _ _ => Err KeyError) [("spin_systems", JList [JDict []])]).
Proof. repeat split; vm_compute; auto. Qed.

(** * C107 *)
(** What is built by the constructor, or read, is within the documented ranges. *)
Definition between (a x b : Qc) : Prop := (a <= x)%Qc /\ (x <= b)%Qc.
Lemma valid_num d k x0 valid x : def_num d k x0 valid = Ok x -> valid x0 = true -> valid x = true.
Proof. unfold def_num. destruct (dict_lookup d k) as [[]|]; try discriminate; [|congruence]. destruct (valid q) eqn:V; congruence. Qed.
Lemma valid_int d k x0 valid x : def_int d k x0 valid = Ok x -> valid x0 = true -> valid x = true.
Proof. unfold def_int. destruct (dict_lookup d k) as [[]|]; try discriminate; [|congruence]. destruct (valid (int_of q)) eqn:V; congruence. Qed.
Lemma valid_literal d k x0 al x : def_literal d k x0 al = Ok x -> In x0 al -> In x al.
Proof.
  unfold def_literal. destruct (dict_lookup d k) as [[]|]; try discriminate; [|congruence]. destruct (existsb (String.eqb s) al) eqn:V; [|discriminate]. intros [= <-] _.
  apply existsb_exists in V. destruct V as (y & I & E). apply String.eqb_eq in E. now subst y.
Qed.
Lemma made_make_sym d t : made_sym d t -> exists d' pu, make_sym d' pu = Ok t.
Proof. intros [H|[pu H]]; [|eauto]. unfold parse_sym in H. inv H. destruct a as [d1 pu]. inv H. eauto. Qed.
Lemma made_make_system d y : made_system d y -> exists d' ss cs pu, make_system d' ss cs pu = Ok y.
Proof. intros [H|(ss & cs & pu & H)]; [|eauto 6]. unfold parse_system in H. do 2 inv H. inv H. destruct a1 as [d1 pu]. inv H. eauto 6. Qed.
Lemma made_make_event d y : made_event d y -> exists d' pu, make_event d' pu = Ok y.
Proof. intros [H|(pu & H)]; [|eauto]. unfold parse_event in H. inv H. destruct a as [d1 pu]. inv H. eauto. Qed.
Lemma made_make_dim d y : made_dim d y -> exists d' ev pu, make_dim d' ev pu = Ok y.
Proof. intros [H|(ev & pu & H)]; [|eauto]. unfold parse_dim in H. inv H. inv H. destruct a0 as [d1 pu]. inv H. eauto. Qed.
Lemma made_make_coupling d c : made_coupling d c -> exists d' js ja dp pu, make_coupling d' js ja dp pu = Ok c.
Proof. intros [H|(ss & cs & dp & pu & H)]; [|eauto 7]. unfold parse_coupling in H. do 5 inv H. inv H. destruct a4 as [d1 pu]. inv H. eauto 7. Qed.
Theorem C107_tensor : forall d t, made_sym d t -> forall x, eta t = Some x -> between 0 x 1.
Proof.
  intros d t M x E. destruct (made_make_sym d t M) as (d' & pu & H). unfold make_sym in H. do 7 inv H. injection H as <-. cbn [eta] in E. subst. apply leb2. match goal with X : opt_num d' "eta" _ = Ok _ |- _ => exact (opt_num_valid _ _ _ _ X x eq_refl) end.
Qed.
Theorem C107_system : forall d y, made_system d y -> between 0 (abundance y) (Q2Qc (100 # 1)).
Proof.
  intros d t M. destruct (made_make_system d t M) as (d' & ss & cs & pu & H). unfold make_system in H. do 5 inv H. injection H as <-. cbn [abundance]. apply leb2. match goal with X : def_num _ _ _ _ = Ok _ |- _ => exact (valid_num _ _ _ _ _ X eq_refl) end.
Qed.
Theorem C107_coupling : forall d c, made_coupling d c -> exists a b, site_index c = [a; b] /\ a <> b.
Proof.
  intros d t M. destruct (made_make_coupling d t M) as (d' & ss & cs & dp & pu & H). unfold make_coupling in H. do 6 inv H. injection H as <-. cbn [site_index].
  destruct a2 as [|i [|j [|? ?]]]; try discriminate. destruct (i =? j)%Z eqn:N; [discriminate|]. exists i, j. split; [reflexivity|]. now apply Z.eqb_neq.
Qed.
Theorem C107_event : forall d e, made_event d e ->
  (0 <= magnetic_flux_density e)%Qc /\ (0 <= rotor_frequency e)%Qc /\ between 0 (rotor_angle e) (Q2Qc (15707963268 # 10000000000)) /\
  incl (freq_contrib e) ["Shielding1_0"; "Shielding1_2"; "Quad1_2"; "Quad2_0"; "Quad2_2"; "Quad2_4"].
Proof.
  intros d e M. destruct (made_make_event d e M) as (d' & pu & H). unfold make_event in H. do 6 inv H. injection H as <-. cbn [magnetic_flux_density rotor_frequency rotor_angle freq_contrib].
  repeat split.
  - apply Qc_leb_iff. match goal with X : def_num d' "magnetic_flux_density" _ _ = Ok _ |- _ => exact (valid_num _ _ _ _ _ X eq_refl) end.
  - apply Qc_leb_iff. match goal with X : def_num d' "rotor_frequency" _ _ = Ok _ |- _ => exact (valid_num _ _ _ _ _ X eq_refl) end.
  - match goal with X : def_num d' "rotor_angle" _ _ = Ok _ |- _ => exact (proj1 (leb2 _ _ _ (valid_num _ _ _ _ _ X eq_refl))) end.
  - match goal with X : def_num d' "rotor_angle" _ _ = Ok _ |- _ => exact (proj2 (leb2 _ _ _ (valid_num _ _ _ _ _ X eq_refl))) end.
  - destruct (dict_lookup d' "freq_contrib") as [[]|] eqn:L; try discriminate; [|injection E3 as <-; apply incl_refl]. clear - E3. revert a3 E3. induction l as [|x l IH]; intros r H; [injection H as <-; intros ? []|].
    cbn [mapM] in H. inv H. inv H. injection H as <-. destruct x; try discriminate. destruct (existsb (String.eqb s) freq_list_all) eqn:V; [|discriminate]. injection E as <-.
    intros y [<-|I]; [|exact (IH _ E0 y I)]. apply existsb_exists in V. destruct V as (z & I & Z). apply String.eqb_eq in Z. now subst z.
Qed.
Theorem C107_dimension : forall d x, made_dim d x -> (0 < count x)%Z /\ (0 < spectral_width x)%Qc.
Proof.
  intros d e M. destruct (made_make_dim d e M) as (d' & ev & pu & H). unfold make_dim in H. do 6 inv H. injection H as <-. cbn [count spectral_width]. split.
  - match goal with X : def_int d' "count" _ _ = Ok _ |- _ => pose proof (valid_int _ _ _ _ _ X eq_refl) as V end. now apply Z.ltb_lt.
  - assert (V := valid_num _ _ _ _ _ E0 eq_refl). cbn beta in V. apply andb_true_iff in V. destruct V as [V W]. apply Qc_leb_iff in V.
    apply Qcle_lt_or_eq in V. destruct V as [V|V]; [exact V|]. exfalso. rewrite <- V in W. discriminate W.
Qed.
Theorem C107_config : forall d c, make_config d = Ok c ->
  (0 < number_of_sidebands c)%Z /\ (0 < integration_density c)%Z /\ In (integration_volume c) ["octant"; "hemisphere"] /\
  In (decompose_spectrum c) ["none"; "spin_system"].
Proof.
  unfold make_config. intros d c H. do 4 inv H. injection H as <-. cbn [number_of_sidebands integration_density integration_volume decompose_spectrum]. repeat split.
  - match goal with X : def_int d "number_of_sidebands" _ _ = Ok _ |- _ => pose proof (valid_int _ _ _ _ _ X eq_refl) as V end. now apply Z.ltb_lt.
  - match goal with X : def_int d "integration_density" _ _ = Ok _ |- _ => pose proof (valid_int _ _ _ _ _ X eq_refl) as V end. now apply Z.ltb_lt.
  - match goal with X : def_literal d "integration_volume" _ _ = Ok _ |- _ => apply (valid_literal _ _ _ _ _ X) end. now left.
  - match goal with X : def_literal d "decompose_spectrum" _ _ = Ok _ |- _ => apply (valid_literal _ _ _ _ _ X) end. now left.
Qed.
(** Within the ranges everything is accepted and kept as it is given, outside nothing is. *)
Theorem C107_event_accepts : forall f b r a pu,
  ((exists e, make_event [("fraction", JNum f); ("magnetic_flux_density", JNum b); ("rotor_frequency", JNum r); ("rotor_angle", JNum a)] pu = Ok e /\
              fraction e = f /\ magnetic_flux_density e = b /\ rotor_frequency e = r /\ rotor_angle e = a) <->
   (0 <= b)%Qc /\ (0 <= r)%Qc /\ between 0 a (Q2Qc (15707963268 # 10000000000))) /\
  (~ ((0 <= b)%Qc /\ (0 <= r)%Qc /\ between 0 a (Q2Qc (15707963268 # 10000000000))) ->
   make_event [("fraction", JNum f); ("magnetic_flux_density", JNum b); ("rotor_frequency", JNum r); ("rotor_angle", JNum a)] pu = Err ValueError).
Proof.
  intros f b r a pu. set (d := [("fraction", JNum f); ("magnetic_flux_density", JNum b); ("rotor_frequency", JNum r); ("rotor_angle", JNum a)]).
  assert (X : make_event d pu = if Qc_leb 0 b && (Qc_leb 0 r && (Qc_leb 0 a && Qc_leb a (Q2Qc (15707963268 # 10000000000)))) then Ok (mkEvent f b r a freq_list_all default_query pu) else Err ValueError).
  { unfold make_event, def_num, non_negative, angle_range, d. cbn -[Q2Qc Qc_leb freq_list_all default_query]. destruct (Qc_leb 0 b); [|reflexivity]. destruct (Qc_leb 0 r); [|reflexivity].
    cbn -[Q2Qc Qc_leb freq_list_all default_query]. destruct (Qc_leb 0 a); [|reflexivity]. cbn -[Q2Qc Qc_leb freq_list_all default_query]. now destruct (Qc_leb a _). }
  rewrite X. unfold between. rewrite <- !Qc_leb_iff, <- !andb_true_iff. destruct (_ && _).
  - split; [|intros Z; now destruct Z]. split; [reflexivity|]. intros _. eexists. repeat split.
  - split; [|reflexivity]. split; [intros (e & Y & _); discriminate Y|discriminate].
Qed.
Theorem C107_system_accepts : forall a pu, 
  (exists y, make_system [("abundance", JNum a)] None None pu = Ok y /\ abundance y = a) <-> between 0 a (Q2Qc (100 # 1)).
Proof.
  intros a pu. assert (X : make_system [("abundance", JNum a)] None None pu = if Qc_leb 0 a && Qc_leb a (Q2Qc (100 # 1)) then Ok (mkSystem None None None [] None a None pu) else Err ValueError).
  { unfold make_system, def_num. cbn -[Q2Qc Qc_leb]. now destruct (Qc_leb 0 a && _). }
  rewrite X. unfold between. rewrite <- !Qc_leb_iff, <- andb_true_iff. destruct (_ && _); split; try discriminate; auto; [intros _; eexists; repeat split|intros (y & Y & _); discriminate Y].
Qed.
Theorem C107_tensor_accepts : forall x pu, (exists t, make_sym [("eta", JNum x)] pu = Ok t /\ eta t = Some x) <-> between 0 x 1.
Proof.
  intros a pu. assert (X : make_sym [("eta", JNum a)] pu = if Qc_leb 0 a && Qc_leb a 1 then Ok (mkSym None None None (Some a) None None None pu) else Err ValueError).
  { unfold make_sym, opt_num. cbn -[Q2Qc Qc_leb]. now destruct (Qc_leb 0 a && _). }
  rewrite X. unfold between. rewrite <- !Qc_leb_iff, <- andb_true_iff. destruct (_ && _); split; try discriminate; auto; [intros _; eexists; repeat split|intros (y & Y & _); discriminate Y].
Qed.
Lemma int_of_Z z : int_of (Qc_of_Z z) = z.
Proof. unfold int_of, Qc_of_Z, Q2Qc, this. rewrite (Qred_identity (inject_Z z)); [cbn; apply Z.quot_1_r|cbn; apply Z.gcd_1_r]. Qed.
Theorem C107_dimension_accepts : forall n w pu,
  (exists x, make_dim [("count", JNum (Qc_of_Z n)); ("spectral_width", JNum w)] None pu = Ok x /\ count x = n /\ spectral_width x = w) <-> (0 < n)%Z /\ (0 < w)%Qc.
Proof.
  intros n w pu. split.
  - intros (x & H & <- & <-). exact (C107_dimension _ x (or_intror (ex_intro _ _ (ex_intro _ _ H)))).
  - intros [N W]. unfold make_dim, def_int, def_num. cbn -[Q2Qc Qc_leb int_of Qc_of_Z Qc_eq_bool Z.ltb]. rewrite int_of_Z. apply Z.ltb_lt in N. rewrite N.
    cbn -[Q2Qc Qc_leb int_of Qc_of_Z Qc_eq_bool Z.ltb]. assert (W1 : Qc_leb 0 w = true) by (apply Qc_leb_iff, Qclt_le_weak, W). rewrite W1.
    assert (W2 : Qc_eq_bool w 0 = false) by (destruct (Qc_eq_bool w 0) eqn:Z; [|reflexivity]; apply Qc_eq_bool_correct in Z; rewrite Z in W; destruct (Qclt_not_eq _ _ W eq_refl)). rewrite W2.
    cbn -[Q2Qc Qc_leb int_of Qc_of_Z Qc_eq_bool Z.ltb]. eexists. repeat split.
Qed.
Theorem C107_config_accepts : forall n i, 
  (exists c, make_config [("number_of_sidebands", JNum (Qc_of_Z n)); ("integration_density", JNum (Qc_of_Z i))] = Ok c /\ number_of_sidebands c = n /\ integration_density c = i)
  <-> (0 < n)%Z /\ (0 < i)%Z.
Proof.
  intros n i. split.
  - intros (x & H & <- & <-). destruct (C107_config _ x H) as (A & B & _). auto.
  - intros [N W]. unfold make_config, def_int. cbn -[int_of Qc_of_Z Z.ltb]. rewrite !int_of_Z. apply Z.ltb_lt in N. apply Z.ltb_lt in W. rewrite N. cbn -[Z.ltb]. rewrite W. eexists. repeat split.
Qed.
(** A number of points that is no whole number is cut. *)
Theorem C107_count_cut : forall x pu d, make_dim [("count", JNum x)] None pu = Ok d -> count d = Z.quot (Qnum x) (Zpos (Qden x)).
Proof. intros x pu d H. unfold make_dim in H. do 6 inv H. injection H as <-. cbn [count]. unfold def_int in E. cbn -[int_of Z.ltb] in E. destruct (0 <? int_of x)%Z; [|discriminate]. injection E as <-. reflexivity. Qed.
Example C107_witness :
  holds (fun e => this (rotor_frequency e) = (12000 # 1)%Q) (parse_event [("rotor_frequency", JQty (Q2Qc (12 # 1)) "kHz"); ("freq_contrib", JList [JStr "Quad1_2"])]) /\
  parse_event [("rotor_frequency", JQty (Q2Qc (-12 # 1)) "kHz")] = Err ValueError /\
  holds (fun y => this (abundance y) = (50 # 1)%Q) (parse_system [("abundance", JQty (Q2Qc (1 # 2)) "")]) /\
  parse_system [("abundance", JQty (Q2Qc (3 # 2)) "")] = Err ValueError /\
  holds (fun t => eta t <> None) (parse_sym [("eta", JNum (Q2Qc (1 # 3)))]) /\
  holds (fun x => count x = 2%Z) (parse_dim [("count", JNum (Q2Qc (5 # 2)))]) /\
  holds (fun c => integration_volume c = "hemisphere") (make_config [("integration_volume", JStr "hemisphere")]) /\
  holds (fun c => length (site_index c) = 2%nat) (parse_coupling [("site_index", JList [JNum 0; JNum 1])]).
Proof. repeat split; vm_compute; first [reflexivity|discriminate]. Qed.

(** * The table of units of C82: every unit is a prefix with a unit of its type, or a fraction *)
Inductive si_prefix : string -> Z -> Prop := si_none : si_prefix "" 0 | si_kilo : si_prefix "k" 3 | si_mega : si_prefix "M" 6 | si_milli : si_prefix "m" (-3).
Inductive base_unit : string -> string -> Prop :=
  base_Hz : base_unit "Hz" "frequency" | base_rad : base_unit "rad" "angle" | base_T : base_unit "T" "magnetic flux density".
(** The unit "u" of the type has the size of s units of that type. *)
Inductive si_unit : string -> string -> Q -> Prop :=
| si_scaled p k b ty : si_prefix p k -> base_unit b ty -> si_unit (p ++ b) ty (10 ^ k)
| si_plain : si_unit "" "dimensionless" 1
| si_percent : si_unit "%" "dimensionless" (10 ^ (-2))
| si_pct : si_unit "pct" "dimensionless" (10 ^ (-2))
| si_ppm : si_unit "ppm" "dimensionless" (10 ^ (-6)).
Theorem C82_units : forall u ty s, unit_info u = Some (ty, s) -> si_unit u ty s.
Proof.
  intros u ty s. unfold unit_info.
  repeat (match goal with |- (if String.eqb u ?x then _ else _) = _ -> _ => destruct (String.eqb_spec u x) as [->|_] end;
    [intros [= <- <-]; first [exact si_plain|exact si_percent|exact si_pct|exact si_ppm
      |exact (si_scaled "" 0 _ _ si_none base_Hz)|exact (si_scaled "k" 3 _ _ si_kilo base_Hz)|exact (si_scaled "M" 6 _ _ si_mega base_Hz)
      |exact (si_scaled "" 0 _ _ si_none base_rad)|exact (si_scaled "m" (-3) _ _ si_milli base_rad)
      |exact (si_scaled "" 0 _ _ si_none base_T)|exact (si_scaled "m" (-3) _ _ si_milli base_T)]|]).
  discriminate.
Qed.
Example C82_units_witness : unit_info "kHz" = Some ("frequency", Q2Qc (1000 # 1)) /\ si_unit "kHz" "frequency" 1000.
Proof. split; [reflexivity|exact (si_scaled "k" 3 _ _ si_kilo base_Hz)]. Qed.

Print Assumptions C106_symmetric_tensor.
Print Assumptions C106_antisymmetric_tensor.
Print Assumptions C106_site.
Print Assumptions C106_site_tensors.
Print Assumptions C106_coupling.
Print Assumptions C106_coupling_tensors.
Print Assumptions C106_system.
Print Assumptions C106_system_parts.
Print Assumptions C106_event.
Print Assumptions C106_dimension.
Print Assumptions C106_method.
Print Assumptions C106_query.
Print Assumptions C106_config.
Print Assumptions C106_method_dimensions.
Print Assumptions C106_simulator.
Print Assumptions C106_couplings_refuted.
Print Assumptions C107_tensor.
Print Assumptions C107_system.
Print Assumptions C107_coupling.
Print Assumptions C107_event.
Print Assumptions C107_dimension.
Print Assumptions C107_config.
Print Assumptions C107_event_accepts.
Print Assumptions C107_system_accepts.
Print Assumptions C107_tensor_accepts.
Print Assumptions C107_dimension_accepts.
Print Assumptions C107_config_accepts.
Print Assumptions C107_count_cut.
Print Assumptions C82_units.
