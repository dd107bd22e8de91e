(** C114: the field, the rotor frequency and the rotor angle given to a named method are those of its events. *)
From Coq Require Import ZArith QArith Qcanon Bool Ascii String Lia List.
From Verif Require Import Base SitesModel JsonModel JsonSpec JsonProofs JsonUnits NamedModel NamedSpec NamedProofs NamedValues.
From Verif Require PropJson PropNamed.
Import ListNotations.
Open Scope string_scope.
Open Scope list_scope.

(** * C114: a method made without events has in every dimension one event with the numbers of the call *)
Theorem C114_made_1D : forall cls args m, In cls one_dimensional -> make_named cls args = Ok m -> gives_no_events args ->
  one_event (fun e => made_with args e /\ given args "rotor_frequency" 0 (rotor_frequency e)) m.
Proof.
  intros cls args m HC H NG. assert (T : exists t te, template_of cls = Some t /\ In t templates /\ Forall (fun x => x = [te]) (t_dims t) /\ dict_lookup (t_globals t) "rotor_frequency" = None).
  { cbn in HC. destruct HC as [<-|[<-|[<-|[]]]]; eexists _, _; (split; [reflexivity|]; split; [cbn; tauto|]; split; [repeat constructor|reflexivity]). }
  destruct T as (t & te & T1 & T2 & T3 & T4). unfold make_named in H. rewrite T1 in H. pose proof (template_values t te args m T2 T3 H NG) as F. unfold one_event. revert F. apply Forall_impl. intros x (e & EX & A & B & C & D).
  exists e. split; [exact EX|]. rewrite T4 in D. split; [split; [|split]; assumption|exact D].
Qed.
(** The two-dimensional classes spin infinitely fast, and refuse another rotor frequency. *)
Theorem C114_made_2D : forall cls args m, In cls two_dimensional -> cls <> "SSB2D" -> make_named cls args = Ok m -> gives_no_events args ->
  one_event (fun e => made_with args e /\ rotor_frequency e = infinite_speed) m.
Proof.
  intros cls args m HC NS H NG.
  assert (K : Forall (fun x => exists e, events x = [e] /\ values args infinite_speed e) (dims m)).
  { unfold make_named in H. cbn in HC. destruct HC as [<-|HC]; [exact (two_values args m H NG)|].
    assert (T : template_of cls = None) by (repeat (destruct HC as [<-|HC]; [reflexivity|]); destruct HC). rewrite T in H. destruct (String.eqb_spec cls "SSB2D"); [congruence|].
    apply bind_ok in H. destruct H as (m0 & H1 & H2). exact (values_all args infinite_speed _ _ (update_same _ _ _ H2) (new_values cls args m0 H1)). }
  unfold one_event. revert K. apply Forall_impl. intros x (e & EX & A & B & C & D). exists e. split; [exact EX|]. split; [split; [|split]; assumption|exact D].
Qed.
(** SSB2D spins at the given speed in its first dimension only. *)
Theorem C114_made_SSB2D : forall args m, make_named "SSB2D" args = Ok m ->
  exists f x y, dict_lookup args "rotor_frequency" = Some (JNum f) /\ (0 < f)%Qc /\ dims m = [x; y] /\
    (exists e, events x = [e] /\ made_with args e /\ rotor_frequency e = f) /\ (exists e, events y = [e] /\ made_with args e /\ rotor_frequency e = infinite_speed).
Proof.
  intros args m H. unfold make_named in H. change (template_of "SSB2D") with (@None template) in H. cbn [String.eqb Ascii.eqb Bool.eqb] in H. unfold new_SSB2D in H.
  destruct (dict_lookup args "rotor_frequency") as [v|] eqn:LR; [|discriminate]. destruct (match v with JNum q => Qc_eq_bool q 0 | _ => false end) eqn:Z; [discriminate|]. apply bind_ok in H. destruct H as (m0 & H1 & H).
  pose proof (new_values _ _ _ H1) as F. destruct (new_dicts_made _ _ _ H1) as (_ & L2 & _). destruct (dims m0) as [|x [|y [|]]]; try discriminate L2. apply bind_ok in H. destruct H as (x1 & S & H).
  inversion F as [|? ? (e & EX & A & B & C & D) F2]; subst. inversion F2 as [|? ? Fy _]; subst. unfold set_rotor in S. rewrite EX in S. destruct v as [|f| | | | |]; try discriminate. destruct (non_negative f) eqn:NF; [|discriminate]. injection S as <-.
  apply update_same in H. cbn [dims] in H. inversion H as [|? x' ? r' S1 S2 [EQ1 EQ2] EQ3]; subst. inversion S2 as [|? y' ? r'' S3 S4 EQ4 EQ5]; subst. inversion S4; subst.
  assert (G : forall e, values (dict_pop args "rotor_frequency") (rotor_frequency e) e -> made_with args e).
  { intros e' (G1 & G2 & G3 & _). unfold made_with, given in *. rewrite lookup_pop in G1, G2, G3. cbn [String.eqb Ascii.eqb Bool.eqb] in *. auto. }
  exists f, x', y'. split; [reflexivity|]. split; [|split; [reflexivity|split]].
  - unfold non_negative in NF. apply Qc_leb_iff in NF. destruct (Qcle_lt_or_eq _ _ NF) as [|<-]; [assumption|]. cbn in Z. rewrite Qc_eqb_refl in Z. discriminate.
  - destruct (values_same (dict_pop args "rotor_frequency") f _ _ S1) as (e' & E1 & V).
    { eexists. split; [reflexivity|]. cbn [fraction magnetic_flux_density rotor_angle rotor_frequency]. unfold values. cbn [fraction magnetic_flux_density rotor_angle rotor_frequency]. auto. }
    exists e'. split; [exact E1|]. pose proof V as (_ & _ & _ & VF). split; [apply G; rewrite VF; exact V|exact VF].
  - destruct (values_same _ _ _ _ S3 Fy) as (e' & E1 & V). exists e'. split; [exact E1|]. pose proof V as (_ & _ & _ & VF). split; [apply G; rewrite VF; exact V|exact VF].
Qed.

(** * The same for dicts that are read, where the numbers may be texts with any unit *)
Theorem C114_read_1D : forall cls d m, In cls one_dimensional -> parse_named cls d = Ok m -> gives_no_events d ->
  one_event (fun e => given d "fraction" 1 (fraction e) /\ read_with d e /\ stated d "rotor_frequency" "Hz" 0 (rotor_frequency e)) m.
Proof.
  intros cls d m HC H NG. assert (T : exists t te, template_of cls = Some t /\ In t templates /\ Forall (fun x => x = [te]) (t_dims t) /\ dict_lookup (t_globals t) "rotor_frequency" = None).
  { cbn in HC. destruct HC as [<-|[<-|[<-|[]]]]; eexists _, _; (split; [reflexivity|]; split; [cbn; tauto|]; split; [repeat constructor|reflexivity]). }
  destruct T as (t & te & T1 & T2 & T3 & T4). unfold parse_named in H. rewrite T1 in H. pose proof (read_template t te d m T2 T3 H NG) as F. rewrite T4 in F. exact F.
Qed.
Theorem C114_read_2D : forall d m, parse_named "Method2D" d = Ok m -> gives_no_events d ->
  one_event (fun e => given d "fraction" 1 (fraction e) /\ read_with d e /\ rotor_frequency e = infinite_speed) m.
Proof.
  intros d m H NG. change (construct Method2D d true = Ok m) in H. assert (HT : In Method2D templates) by (cbn; tauto). pose proof (read_template Method2D [] d m HT ltac:(repeat constructor) H NG) as F.
  pose proof (read_rotor d m H NG) as R. unfold one_event in *. apply (Forall_and_impl _ _ _ _ _ F R). intros x (e & EX & A & B & _) (e' & EX' & C). rewrite EX in EX'. injection EX' as <-. exists e. auto.
Qed.
(** The other two-dimensional classes do not put in their rotor frequency when they read a dict with dimensions. *)
Theorem C114_read_fixed : forall cls d m ds, In cls fixed_2D -> parse_named cls d = Ok m -> gives_no_events d -> dict_lookup d "spectral_dimensions" = Some (JList ds) ->
  one_event (fun e => fraction e = 1%Qc /\ read_with d e /\ stated d "rotor_frequency" "Hz" 0 (rotor_frequency e)) m.
Proof. exact read_fixed. Qed.
(** So a dict without a rotor frequency is a static experiment for them, while the call with the same entries spins infinitely fast. *)
Theorem C114_static_refuted : forall cls d m r ds, In cls fixed_2D -> cls <> "SSB2D" -> gives_no_events d -> dict_lookup d "spectral_dimensions" = Some (JList ds) ->
  dict_lookup d "rotor_frequency" = None -> make_named cls d = Ok m -> parse_named cls d = Ok r ->
  one_event (fun e => rotor_frequency e = infinite_speed) m /\ one_event (fun e => rotor_frequency e = 0%Qc) r.
Proof.
  intros cls d m r ds HC NS NG L LR HM HR. assert (H2 : In cls two_dimensional) by now right. split.
  - pose proof (C114_made_2D cls d m H2 NS HM NG) as F. revert F. apply Forall_impl. intros x (e & EX & _ & D). eauto.
  - pose proof (C114_read_fixed cls d r ds HC HR NG L) as F. revert F. apply Forall_impl. intros x (e & EX & _ & _ & D). unfold stated in D. rewrite LR in D. eauto.
Qed.

(** ** Concrete cases *)
Definition plain_3Q : jdict := [("name", JStr "ThreeQ_VAS"); ("channels", JList [JStr "87Rb"]); ("spectral_dimensions", JList [JDict [("count", PropNamed.num 128)]; JDict [("count", PropNamed.num 64)]])].
Example C114_static_case : exists m r, make_named "ThreeQ_VAS" plain_3Q = Ok m /\ parse_named "ThreeQ_VAS" plain_3Q = Ok r /\ length (dims m) = 2%nat /\ length (dims r) = 2%nat /\
  one_event (fun e => rotor_frequency e = infinite_speed) m /\ one_event (fun e => rotor_frequency e = 0%Qc) r.
Proof.
  destruct (make_named "ThreeQ_VAS" plain_3Q) as [m|] eqn:E; [|vm_compute in E; discriminate]. destruct (parse_named "ThreeQ_VAS" plain_3Q) as [r|] eqn:F; [|vm_compute in F; discriminate]. exists m, r. split; [reflexivity|]. split; [reflexivity|].
  assert (L : length (dims m) = 2%nat /\ length (dims r) = 2%nat) by (split; [vm_compute in E; injection E as <-; reflexivity|vm_compute in F; injection F as <-; reflexivity]). destruct L as [L1 L2]. split; [exact L1|]. split; [exact L2|].
  apply (C114_static_refuted "ThreeQ_VAS" plain_3Q m r [JDict [("count", PropNamed.num 128)]; JDict [("count", PropNamed.num 64)]]); auto; try discriminate; [cbn; tauto|].
  intros l [= <-] dim [[= <-]|[[= <-]|[]]]; reflexivity.
Qed.
Definition Bloch_dict (f : jval) : jdict := [("channels", JList [JStr "27Al"]); ("rotor_frequency", f); ("magnetic_flux_density", JQty (Q2Qc (14 # 1)) "T"); ("spectral_dimensions", JList [JDict []])].
Example C114_read_case : PropJson.holds (fun m => map (fun x => map (fun e => (this (rotor_frequency e), this (magnetic_flux_density e))) (events x)) (dims m) = [[(12500 # 1, 14 # 1)%Q]] /\ gives_no_events (Bloch_dict (JQty (Q2Qc (25 # 2)) "kHz")))
  (parse_named "BlochDecayCTSpectrum" (Bloch_dict (JQty (Q2Qc (25 # 2)) "kHz"))).
Proof.
  destruct (parse_named "BlochDecayCTSpectrum" _) as [m|] eqn:E; [|vm_compute in E; discriminate]. vm_compute in E. injection E as <-. split; [vm_compute; reflexivity|]. intros l [= <-] dim [[= <-]|[]]. reflexivity.
Qed.
(** A number without a unit is a number of hertz. *)
Example C114_number_case : PropJson.holds (fun m => map (fun x => map (fun e => this (rotor_frequency e)) (events x)) (dims m) = [[(12500 # 1)%Q]])
  (parse_named "BlochDecayCTSpectrum" (Bloch_dict (JNum (Q2Qc (12500 # 1))))).
Proof. destruct (parse_named "BlochDecayCTSpectrum" _) as [m|] eqn:E; [|vm_compute in E; discriminate]. vm_compute in E. injection E as <-. vm_compute. reflexivity. Qed.
Example C114_made_case : exists m, make_named "BlochDecayCTSpectrum" PropNamed.args_CT = Ok m /\ length (dims m) = 1%nat /\
  one_event (fun e => made_with PropNamed.args_CT e /\ given PropNamed.args_CT "rotor_frequency" 0 (rotor_frequency e)) m.
Proof.
  destruct (make_named "BlochDecayCTSpectrum" PropNamed.args_CT) as [m|] eqn:E; [|vm_compute in E; discriminate]. exists m. split; [reflexivity|]. split; [vm_compute in E; injection E as <-; reflexivity|].
  apply (C114_made_1D "BlochDecayCTSpectrum"); auto; [cbn; tauto|]. intros l [= <-] dim [[= <-]|[]]. reflexivity.
Qed.
Example C114_SSB_case : exists m, make_named "SSB2D" PropNamed.args_SSB = Ok m.
Proof. destruct (PropJson.holds_ok _ _ _ PropNamed.C104_SSB2D) as (m & E & _). eauto. Qed.
Print Assumptions C114_made_1D.
Print Assumptions C114_made_2D.
Print Assumptions C114_made_SSB2D.
Print Assumptions C114_read_1D.
Print Assumptions C114_read_2D.
Print Assumptions C114_read_fixed.
Print Assumptions C114_static_refuted.
