(** C121: saving a simulator without units and loading it. *)
From Coq Require Import ZArith QArith Qcanon Bool Ascii String Lia List.
From Verif Require Import Base SitesModel SitesSpec SitesProofs JsonModel JsonSpec JsonProofs JsonUnits BareModel BareSpec BareProofs BareRead BareLost PropJson.
Import ListNotations.
Open Scope string_scope.
Open Scope list_scope.

(** * C121: a simulator that is saved without units and loaded without units is the same simulator *)
(** What can be obtained: spin systems, methods and configurations that were read or built. *)
Definition simulator_obtained (s : simulator) : Prop :=
  Forall system_obtained (spin_systems s) /\ Forall method_obtained (methods s) /\ config_obtained (sim_config s).
Lemma round s : simulator_obtained s -> savable s -> exists v, save_bare s = Ok v /\ load_bare v = Ok (plain_simulator s).
Proof.
  intros (Y & M & C) S. exists (JDict (saved_simulator s)). split; [now apply save_simulator|]. apply load_saved; [| |now apply config_good|exact S].
  - revert Y. apply Forall_impl. intros y O. now apply system_valid.
  - revert M. apply Forall_impl. intros m O. now apply method_valid.
Qed.
(** A simulator whose shieldings are in ppm, whose dimensions are in Hz and whose queries have a P comes back, if it can be saved. *)
Theorem C121_same_partial : forall s, simulator_obtained s -> savable s -> keeps s -> exists v, save_bare s = Ok v /\ load_bare v = Ok s.
Proof.
  intros s O S K. destruct (round s O S) as (v & A & B). exists v. split; [exact A|]. destruct O as (Y & M & _). now rewrite (simulator_same s Y M K) in B.
Qed.
(** In general the simulator comes back with the same numbers and texts, in the units of the classes. *)
Theorem C121_loaded : forall s, simulator_obtained s -> savable s -> exists v, save_bare s = Ok v /\ load_bare v = Ok (plain_simulator s).
Proof. exact round. Qed.
(** So no other simulator comes back as it was. *)
Lemma map_fixed A (f : A -> A) l : map f l = l -> Forall (fun x => f x = x) l.
Proof. induction l as [|x l IH]; intros H; [constructor|]. injection H as H1 H2. constructor; [exact H1|now apply IH]. Qed.
Lemma same_keeps s : plain_simulator s = s -> keeps s.
Proof.
  intros H. split.
  - pose proof (f_equal spin_systems H) as Y. cbn [plain_simulator spin_systems] in Y. apply map_fixed in Y. revert Y. apply Forall_impl. intros y E.
    pose proof (f_equal sites E) as X. cbn [plain_spins sites] in X. apply map_fixed in X. revert X. apply Forall_impl. intros t E2.
    pose proof (f_equal shielding_symmetric E2) as X. cbn [plain_site shielding_symmetric] in X. unfold has_units. destruct (shielding_symmetric t) as [z|]; [|exact I].
    injection X as X. cbn. now rewrite <- X.
  - pose proof (f_equal methods H) as Y. cbn [plain_simulator methods] in Y. apply map_fixed in Y. revert Y. apply Forall_impl. intros m E.
    pose proof (f_equal dims E) as X. cbn [plain_method dims] in X. apply map_fixed in X. revert X. apply Forall_impl. intros x E2. split.
    + unfold default_dims. now rewrite <- E2.
    + pose proof (f_equal events E2) as X. cbn [plain_dim events] in X. apply map_fixed in X. revert X. apply Forall_impl. intros e E3.
      pose proof (f_equal (fun e => q_P (transition_query e)) E3) as X. cbn in X. rewrite <- X. discriminate.
Qed.
Theorem C121_exact_refuted : forall s v, simulator_obtained s -> savable s -> save_bare s = Ok v -> (load_bare v = Ok s <-> keeps s).
Proof.
  intros s v O S E. destruct (round s O S) as (w & A & B). assert (w = v) by congruence. subst w. split.
  - intros L. apply same_keeps. congruence.
  - intros K. destruct O as (Y & M & _). now rewrite (simulator_same s Y M K) in B.
Qed.
(** The widths and offsets of the dimensions come back as the same numbers of Hz, also if they were in ppm; the anisotropies of the shieldings
    as the same numbers of ppm, also if they were in Hz. *)
Theorem C121_units_refuted : forall s v s', simulator_obtained s -> savable s -> save_bare s = Ok v -> load_bare v = Ok s' ->
  map (fun m => map (fun x => (count x, spectral_width x, reference_offset x, origin_offset x)) (dims m)) (methods s') =
  map (fun m => map (fun x => (count x, spectral_width x, reference_offset x, origin_offset x)) (dims m)) (methods s) /\
  Forall (fun m => Forall (fun x => d_units x = [("spectral_width", "Hz"); ("reference_offset", "Hz"); ("origin_offset", "Hz")]) (dims m)) (methods s') /\
  map (fun y => map (fun t => option_map (fun z => (zeta z, eta z)) (shielding_symmetric t)) (sites y)) (spin_systems s') =
  map (fun y => map (fun t => option_map (fun z => (zeta z, eta z)) (shielding_symmetric t)) (sites y)) (spin_systems s) /\
  Forall (fun y => Forall (fun t => on (fun z => sym_units z = [("zeta", "ppm"); ("alpha", "rad"); ("beta", "rad"); ("gamma", "rad")]) (shielding_symmetric t)) (sites y)) (spin_systems s').
Proof.
  intros s v s' O S E L. destruct (round s O S) as (w & A & B). assert (s' = plain_simulator s) by congruence. subst s'. clear. cbn [plain_simulator methods spin_systems].
  split; [|split; [|split]].
  - rewrite map_map. apply map_ext. intros m. cbn [plain_method dims]. rewrite map_map. apply map_ext. reflexivity.
  - apply Forall_map, Forall_forall. intros m _. cbn [plain_method dims]. apply Forall_map, Forall_forall. reflexivity.
  - rewrite map_map. apply map_ext. intros y. cbn [plain_spins sites]. rewrite map_map. apply map_ext. intros t. cbn [plain_site shielding_symmetric]. now destruct (shielding_symmetric t).
  - apply Forall_map, Forall_forall. intros y _. cbn [plain_spins sites]. apply Forall_map, Forall_forall. intros t _. cbn [plain_site shielding_symmetric]. now destruct (shielding_symmetric t).
Qed.
(** A query whose P is None comes back with the default P. *)
Theorem C121_query_refuted : forall s v s', simulator_obtained s -> savable s -> save_bare s = Ok v -> load_bare v = Ok s' ->
  map (fun m => map (fun x => map (fun e => q_P (transition_query e)) (events x)) (dims m)) (methods s') =
  map (fun m => map (fun x => map (fun e => match q_P (transition_query e) with Some p => Some p | None => Some [("channel-1", JList [JList [JNum (Q2Qc (-1 # 1))]])] end) (events x)) (dims m)) (methods s).
Proof.
  intros s v s' O S E L. destruct (round s O S) as (w & A & B). assert (s' = plain_simulator s) by congruence. subst s'. clear. cbn [plain_simulator methods].
  rewrite map_map. apply map_ext. intros m. cbn [plain_method dims]. rewrite map_map. apply map_ext. intros x. cbn [plain_dim events]. rewrite map_map. apply map_ext. intros e. cbn. now destruct (q_P (transition_query e)).
Qed.
(** ** Simulators that cannot be saved *)
(** The reduction leaves objects that json.dump refuses: the affine matrix of a method, and the pathways of a spin system. *)
Theorem C121_affine_refuted : forall s m, In m (methods s) -> affine m <> None -> exists e, save_bare s = Err e.
Proof.
  intros s m I A. destruct (save_bare s) as [v|e] eqn:E; [|eauto]. exfalso. destruct (saves_method s v m E I) as [w W]. destruct (affine m) as [a|] eqn:AE; [|congruence]. exact (no_affine m a w AE W).
Qed.
Theorem C121_pathways_refuted : forall s y p l, In y (spin_systems s) -> transition_pathways y = Some (p :: l) -> exists e, save_bare s = Err e.
Proof.
  intros s y p l I T. destruct (save_bare s) as [v|e] eqn:E; [|eauto]. exfalso. destruct (saves_system s v y E I) as [w W]. exact (no_pathways y p l w T W).
Qed.
(** A simulation or an experiment with a dict that has the symbol of an isotope: the spectrum of a single spin system carries the spin system. *)
Theorem C121_decomposed_refuted : forall s m d e t, In m (methods s) -> simulation m = Some d \/ experiment m = Some d -> met (JDict d) e -> In ("isotope", JStr t) e ->
  exists x, save_bare s = Err x.
Proof.
  intros s m d e t I D M T. destruct (save_bare s) as [v|x] eqn:E; [|eauto]. exfalso. destruct (saves_method s v m E I) as [w W].
  destruct D as [D|D]; [apply (no_isotope m w "simulation" d e t)|apply (no_isotope m w "experiment" d e t)]; auto.
Qed.

(** ** Concrete simulators *)
(** The simulator of C40 and one with a dimension in ppm, a shielding in Hz, a method without a name and an empty text. *)
Definition read_sim := parse_simulator (fun _ _ => Err OtherException).
Example C121_case : holds (fun s => simulator_obtained s /\ savable s /\ keeps s /\ length (spin_systems s) = 1%nat /\ length (methods s) = 1%nat) (read_sim sim_dict).
Proof.
  destruct (holds_ok _ _ _ C40_read_simulator) as (s & E & Y & M & C & L1 & L2). unfold read_sim. pose proof E as E'. rewrite E. cbn [holds].
  assert (O : simulator_obtained s).
  { split; [|split; [|exact C]]; [revert Y|revert M]; apply Forall_impl; tauto. }
  split; [exact O|]. clear - E L1 L2. vm_compute in E. injection E as <-.
  split; [|split; [|split; reflexivity]].
  - split; repeat constructor; cbn; try tauto; try discriminate; intuition discriminate.
  - split; repeat constructor; cbn; try discriminate.
Qed.
Definition ppm_method : jdict := [("channels", JList [JStr "29Si"]); ("spectral_dimensions", JList [JDict [("count", JNum (q 512)); ("spectral_width", JQty (q 100) "ppm"); ("events", JList [JDict []])]])].
Definition hz_system : jdict := [("name", JStr ""); ("sites", JList [JDict [("isotope", JStr "29Si"); ("shielding_symmetric", JDict [("zeta", JQty (q 5) "kHz"); ("eta", JNum 0)])]])].
Definition with_pieces (P : simulator -> Prop) : Prop := holds (fun y => holds (fun m => holds (fun c => P (mkSim None None None [y] [m] c)) (make_config [])) (parse_method ppm_method)) (parse_system hz_system).
Example C121_lost_case : with_pieces (fun s => simulator_obtained s /\ savable s /\ ~ keeps s /\ exists v s', save_bare s = Ok v /\ load_bare v = Ok s' /\ s' <> s /\
  map (fun m => map (fun x => (this (spectral_width x), d_units x)) (dims m)) (methods s) = [[((100 # 1)%Q, [("spectral_width", "ppm"); ("reference_offset", "Hz"); ("origin_offset", "Hz")])]] /\
  map (fun m => map (fun x => (this (spectral_width x), d_units x)) (dims m)) (methods s') = [[((100 # 1)%Q, [("spectral_width", "Hz"); ("reference_offset", "Hz"); ("origin_offset", "Hz")])]]).
Proof.
  unfold with_pieces. destruct (parse_system hz_system) as [y|] eqn:Ey; [|vm_compute in Ey; discriminate]. cbn [holds].
  destruct (parse_method ppm_method) as [m|] eqn:Em; [|vm_compute in Em; discriminate]. cbn [holds].
  destruct (make_config []) as [c|] eqn:Ec; [|vm_compute in Ec; discriminate]. cbn [holds].
  assert (O : simulator_obtained (mkSim None None None [y] [m] c)).
  { split; [constructor; [left; eauto|constructor]|]. split; [constructor; [left; eauto|constructor]|exists []; exact Ec]. }
  split; [exact O|]. assert (S : savable (mkSim None None None [y] [m] c)).
  { clear O. vm_compute in Ey, Em. injection Ey as <-. injection Em as <-. split; repeat constructor; cbn; try tauto; try discriminate; intuition discriminate. }
  split; [exact S|]. assert (W : map (fun x => (this (spectral_width x), d_units x)) (dims m) = [((100 # 1)%Q, [("spectral_width", "ppm"); ("reference_offset", "Hz"); ("origin_offset", "Hz")])]).
  { clear - Em. vm_compute in Em. injection Em as <-. reflexivity. }
  assert (K : ~ keeps (mkSim None None None [y] [m] c)).
  { intros [_ K]. cbn [methods] in K. inversion K as [|? ? X _]. subst. clear - X W. destruct (dims m) as [|x l]; [discriminate|]. inversion X as [|? ? [D _] _]. subst. unfold default_dims in D. cbn in W. rewrite D in W. discriminate. }
  split; [exact K|]. destruct (round _ O S) as (v & A & B). exists v, (plain_simulator (mkSim None None None [y] [m] c)). split; [exact A|]. split; [exact B|]. split; [|split].
  - intros X. apply K, same_keeps, X.
  - cbn [methods map]. now rewrite W.
  - cbn [plain_simulator methods map plain_method dims]. rewrite map_map. cbn [plain_dim spectral_width d_units].
    destruct (dims m) as [|x [|? ?]]; try discriminate. cbn in *. injection W as W1 _. rewrite W1. reflexivity.
Qed.
(** The dataset of a decomposed simulation, as to_dict writes it, without the entries that do not matter. *)
Definition decomposed : jdict :=
  [("csdm", JDict [("version", JStr "1.0"); ("dependent_variables", JList [JDict [("name", JStr "spin system 0");
     ("application", JDict [("com.github.DeepanshS.mrsimulator", JDict [("spin_systems", JList [JDict [("sites", JList [JDict [("isotope", JStr "29Si")]])]])])])]])])].
Example C121_decomposed_case : met (JDict decomposed) [("isotope", JStr "29Si")].
Proof.
  unfold decomposed. eapply met_dict; [now left|reflexivity|]. eapply met_list; [right; now left|reflexivity|now left|]. eapply met_dict; [right; now left|reflexivity|].
  eapply met_dict; [now left|reflexivity|]. eapply met_list; [now left|reflexivity|now left|]. eapply met_list; [now left|reflexivity|now left|]. constructor.
Qed.
(** A method with an affine matrix, as the two-dimensional methods have. *)
Example C121_affine_case : holds (fun m => method_obtained m /\ affine m <> None /\ exists e, save_bare (mkSim None None None [] [m] (mkConfig 64 "octant" 70 "none")) = Err e)
  (parse_method [("channels", JList [JStr "29Si"]); ("affine_matrix", JList [JNum 1])]).
Proof.
  destruct (parse_method _) as [m|] eqn:E; [|vm_compute in E; discriminate]. cbn [holds]. split; [left; eauto|].
  assert (A : affine m <> None) by (vm_compute in E; injection E as <-; discriminate). split; [exact A|]. apply (C121_affine_refuted _ m); [now left|exact A].
Qed.
Print Assumptions C121_same_partial.
Print Assumptions C121_loaded.
Print Assumptions C121_exact_refuted.
Print Assumptions C121_units_refuted.
Print Assumptions C121_query_refuted.
Print Assumptions C121_affine_refuted.
Print Assumptions C121_pathways_refuted.
Print Assumptions C121_decomposed_refuted.
