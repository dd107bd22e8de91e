(** C122: spin systems that are exported to a file and loaded again. *)
From Coq Require Import ZArith QArith Qcanon Bool Ascii String Lia List.
From Verif Require Import Base SitesModel JsonModel JsonSpec JsonUnits ExportModel ExportSpec ExportProofs.
From Verif Require PropJson.
Import ListNotations.
Open Scope string_scope.
Open Scope list_scope.

(** Exporting succeeds exactly when no spin system was given transition pathways. *)
Theorem C122_exported : forall s, (exists c, export_spin_systems s = Ok c) <-> Forall no_pathways (spin_systems s).
Proof.
  intros s. split; [intros [c H]; now apply export_inv in H|]. intros F. eexists. exact (export_ok s F).
Qed.
Print Assumptions C122_exported.

(** Loading an exported file into any simulator: when the tensors have the attributes of their role only, the simulator has the exported spin
    systems, in their order, in place of its own, and all else is as before; they differ from those exported in that empty texts are no texts. *)
Theorem C122_loaded : forall s r c, Forall system_obtained (spin_systems s) -> Forall role_system (spin_systems s) -> export_spin_systems s = Ok c ->
  exists r', load_spin_systems r c = (r', None) /\ spin_systems r' = map tidy_system (spin_systems s) /\
    x_name r' = x_name r /\ x_label r' = x_label r /\ x_description r' = x_description r /\ methods r' = methods r /\ sim_config r' = sim_config r.
Proof.
  intros s r c O R E. destruct (export_inv s c E) as [-> _]. eexists. split; [exact (load_exported r _ O R)|]. now cbn.
Qed.
Print Assumptions C122_loaded.

(** So they are the same spin systems when no text is empty. *)
Theorem C122_same_partial : forall s r c, Forall system_obtained (spin_systems s) -> Forall role_system (spin_systems s) -> Forall texts_system (spin_systems s) ->
  export_spin_systems s = Ok c -> exists r', load_spin_systems r c = (r', None) /\ spin_systems r' = spin_systems s.
Proof.
  intros s r c O R T E. destruct (C122_loaded s r c O R E) as (r' & L & S & _). exists r'. split; [exact L|]. rewrite S. apply map_id_in. intros y Hy.
  apply tidy_same. rewrite Forall_forall in T. auto.
Qed.
Print Assumptions C122_same_partial.

(** When some tensor has an attribute of another role, the exported file cannot be loaded; the simulator is as before. *)
Theorem C122_role_refuted : forall s r c, Forall system_obtained (spin_systems s) -> ~ Forall role_system (spin_systems s) -> export_spin_systems s = Ok c ->
  exists e, load_spin_systems r c = (r, Some e).
Proof.
  intros s r c O R E. destruct (export_inv s c E) as [-> _]. exact (load_fails r _ O R).
Qed.
Print Assumptions C122_role_refuted.

(** What was loaded is exported as the file it was loaded from, when that file had been exported. *)
Theorem C122_again : forall s r r' c, Forall system_obtained (spin_systems s) -> export_spin_systems s = Ok c -> load_spin_systems r c = (r', None) ->
  export_spin_systems r' = Ok c.
Proof.
  intros s r r' c O E L. destruct (export_inv s c E) as [-> N].
  assert (R : Forall role_system (spin_systems s)).
  { destruct (Forall_or _ _ _ _ (Forall_impl _ role_system_dec O)) as [K|(y & I & e & X)]; [exact K|]. exfalso.
    destruct (loaded_ok _ _ _ L) as (l & ys & IT & M & _). cbn [iterate] in IT. injection IT as <-. rewrite JsonProofs.mapM_map in M. cbn [parse_item] in M.
    destruct (mapM_err _ _ (fun y => parse_system (json_system y)) _ y e I X) as [e' Y]. congruence. }
  rewrite (load_exported r _ O R) in L. injection L as <-.
  rewrite export_ok; cbn [with_spin_systems spin_systems].
  - do 2 f_equal. rewrite map_map. apply map_ext. intros y. now rewrite tidy_system_json.
  - apply Forall_map. revert N. apply Forall_impl. intros y N p l. exact (N p l).
Qed.
Print Assumptions C122_again.

(** Whatever file was loaded, its spin systems can be exported; and loading the file that was exported gives them back without empty texts when
    their tensors have the attributes of their role only. *)
Theorem C122_any_file : forall r c r', plain c = true -> load_spin_systems r c = (r', None) ->
  exists c', export_spin_systems r' = Ok c' /\
    (Forall role_system (spin_systems r') -> exists r'', load_spin_systems r c' = (r'', None) /\ spin_systems r'' = map tidy_system (spin_systems r')).
Proof.
  intros r c r' P L. pose proof (loaded_obtained r c r' P L) as F.
  assert (O : Forall system_obtained (spin_systems r')) by (revert F; apply Forall_impl; tauto).
  assert (N : Forall no_pathways (spin_systems r')) by (revert F; apply Forall_impl; tauto).
  exists (JList (map (fun y => JDict (json_system y)) (spin_systems r'))). split; [exact (export_ok r' N)|]. intros R.
  destruct (C122_loaded r' r _ O R (export_ok r' N)) as (r'' & A & B & _). eauto.
Qed.
Print Assumptions C122_any_file.

(** A file that cannot be loaded leaves the simulator alone. *)
Theorem C122_failed : forall r c r' e, load_spin_systems r c = (r', Some e) -> r' = r.
Proof. intros r c r' e. unfold load_spin_systems. destruct (bind _ _); [discriminate|]. now intros [= <- _]. Qed.
Print Assumptions C122_failed.

(** A file that holds a whole simulator, as written by [save], is refused. *)
Theorem C122_saved_simulator : forall version s methods_too version_too d r, json_simulator version s methods_too version_too = Ok d ->
  load_spin_systems r (JDict d) = (r, Some TypeError).
Proof.
  intros v s m w d r H. unfold json_simulator in H. inv H. apply (f_equal (fun x => match x with Ok d => d | Err _ => [] end)) in H. cbv iota in H.
  unfold load_spin_systems. cbn [iterate bind]. destruct d as [|kv d]; [|reflexivity]. exfalso.
  assert (I : In ("config", JDict (json_config (sim_config s))) []) by (rewrite <- H; apply filter_In; split; [cbn; auto 8|reflexivity]). destruct I.
Qed.
Print Assumptions C122_saved_simulator.
(** But an empty dict or an empty text, which is no list of spin systems, takes away all spin systems without an error. *)
Theorem C122_empty_refuted : forall r c, In c [JDict []; JStr ""] -> exists r', load_spin_systems r c = (r', None) /\ spin_systems r' = [].
Proof. intros r c [<-|[<-|[]]]; eexists; split; reflexivity. Qed.
Print Assumptions C122_empty_refuted.

(** ** Concrete cases *)
Definition conf : config := mkConfig 64 "octant" 70 "none".
Definition two (y z : spin_system) : simulator := mkSim (Some "mine") None None [y; z] [] conf.
(** Two spin systems that were read: one with sites, tensors and a coupling, one whose label is empty. *)
Definition untidy_dict : jdict := [("label", JStr ""); ("sites", JList [JDict [("isotope", JStr "29Si"); ("name", JStr "Q4")]])].
Definition stray_dict : jdict := [("sites", JList [JDict [("isotope", JStr "29Si"); ("shielding_symmetric", JDict [("zeta", JQty (PropJson.q 5) "ppm"); ("Cq", JQty (PropJson.q 3) "MHz")])]])].
Example C122_case : PropJson.holds (fun y => PropJson.holds (fun z =>
    Forall system_obtained (spin_systems (two y z)) /\ Forall role_system (spin_systems (two y z)) /\ Forall no_pathways (spin_systems (two y z)) /\
    texts_system y /\ y_label z = Some "" /\ y_label (tidy_system z) = None)
  (parse_system untidy_dict)) (parse_system PropJson.system_dict).
Proof.
  destruct (parse_system PropJson.system_dict) as [y|] eqn:E; [|vm_compute in E; discriminate]. cbn [PropJson.holds].
  destruct (parse_system untidy_dict) as [z|] eqn:F; [|vm_compute in F; discriminate]. cbn [PropJson.holds].
  split; [constructor; [left; now exists PropJson.system_dict|constructor; [left; now exists untidy_dict|constructor]]|]. vm_compute in E. injection E as <-. vm_compute in F. injection F as <-.
  repeat split; repeat constructor; intros; try discriminate.
Qed.
(** A file that can be loaded, whose spin system can be exported, and whose exported file cannot be loaded. *)
Example C122_stray_case : PropJson.holds (fun y => system_obtained y /\ no_pathways y /\ ~ role_system y /\ load_spin_systems (mkSim None None None [] [] conf) (JList [JDict stray_dict]) = (mkSim None None None [y] [] conf, None))
  (parse_system stray_dict).
Proof.
  destruct (parse_system stray_dict) as [y|] eqn:E; [|vm_compute in E; discriminate]. cbn [PropJson.holds].
  split; [left; eauto|]. split; [vm_compute in E; injection E as <-; discriminate|]. split.
  - vm_compute in E. injection E as <-. intros [F _]. inversion F as [|? ? R _]; subst. destruct R as [[C _] _]. discriminate.
  - unfold load_spin_systems. cbn [iterate bind mapM parse_item]. rewrite E. reflexivity.
Qed.
(** A pathway. *)
Example C122_pathway_case : ~ Forall no_pathways [mkSystem None None None [] None (PropJson.q 100) (Some [[([Q2Qc (1 # 2)], [Q2Qc (-1 # 2)])]]) [("abundance", "pct")]].
Proof. intros F. inversion F as [|? ? N _]; subst. now apply (N [([Q2Qc (1 # 2)], [Q2Qc (-1 # 2)])] []). Qed.
Example C122_saved_case : exists d, json_simulator "0.6" (mkSim None None None [] [] conf) true true = Ok d.
Proof. eexists. reflexivity. Qed.
