(** C99: reading what a signal processor serialises to. *)
From Coq Require Import ZArith QArith Qcanon Bool Ascii String List Lia.
From Verif Require Import Base BaseProofs SitesModel JsonModel ProcModel ProcSpec ProcProofs.
Import ListNotations.
Open Scope string_scope.
Open Scope list_scope.

(** Processors whose widths and affine factors have units are read back the same, operation by operation, when both submodules are imported.
    Missing: see the refuted statements. *)
Theorem C99_round_trip_partial (unit_ : Type) (show : unit_ -> string) read imported l :
  (forall u, show u <> "" -> read (show u) = Some u) -> (forall m, imported m = true) ->
  List.Forall plain l -> List.Forall (given_with_unit show) l ->
  exists d, json_processor unit_ show l = Ok d /\ parse_processor unit_ read imported d = Ok l.
Proof.
  intros U L P G. destruct (processor_round show read imported U L l P) as (d & E1 & E2).
  { revert G. apply Forall_impl. apply given_not_one. }
  exists d. split; [exact E1|]. rewrite E2. f_equal. induction G as [|o l' Go G IH]; [reflexivity|]. cbn [map]. inversion P; subst.
  rewrite (after_given show o Go). f_equal. clear - G. induction G as [|o' l' Go G IH]; [reflexivity|]. cbn [map]. now rewrite (after_given show o' Go), IH.
Qed.
Print Assumptions C99_round_trip_partial.

(** The units of the example are their names. *)
Definition name_unit (s : string) : option string := if existsb (String.eqb s) ["Hz"; "K / s"; "1.0"] then Some s else None.
Definition shown (u : string) : string := if existsb (String.eqb u) ["Hz"; "K / s"; "1.0"] then u else "".
Definition two : Qc := Q2Qc 2.
Definition listed : jval := JList [JNum (Qc_of_Z 0); JNum (Qc_of_Z 1)].
Definition sample_ops : list (op string) :=
  [IFFT _ (Several [JNum (Qc_of_Z 0); JNum (Qc_of_Z 1)]); Apodization _ Gaussian two (Some (Unit_ _ "Hz")) (At 1) (Some (At 0));
   Shear _ two (Some (Unit_ _ "K / s")) 1 0 None; FFT _ (At 1); Scale _ two].
Example C99_round_trip_case : (forall u, shown u <> "" -> name_unit (shown u) = Some u) /\ List.Forall plain sample_ops /\ List.Forall (given_with_unit shown) sample_ops /\
  make_apodization string name_unit Gaussian [("FWHM", JQty two "Hz"); ("dim_index", JNum (Qc_of_Z 1)); ("dv_index", JNum (Qc_of_Z 0))] (Some (NoUnit _)) = nth 1 (map Ok sample_ops) (Err OtherException) /\
  json_processor string shown sample_ops = Ok [("operations", JList
    [JDict [("dim_index", listed); ("function", JStr "IFFT")];
     JDict [("dim_index", JNum (Qc_of_Z 1)); ("dv_index", JNum (Qc_of_Z 0)); ("FWHM", JQty two "Hz"); ("function", JStr "apodization"); ("type", JStr "Gaussian")];
     JDict [("dim_index", JNum (Qc_of_Z 1)); ("factor", JQty two "K / s"); ("parallel", JNum (Qc_of_Z 0)); ("function", JStr "affine"); ("type", JStr "Shear")];
     JDict [("dim_index", JNum (Qc_of_Z 1)); ("function", JStr "FFT")];
     JDict [("factor", JNum two); ("function", JStr "Scale")]])].
Proof.
  split.
  { intros u. unfold shown, name_unit. destruct (existsb (String.eqb u) _) eqn:E; [intros _; now rewrite E|congruence]. }
  split.
  { repeat constructor; cbn; eauto. }
  split.
  { repeat constructor; cbn; eexists; (split; [reflexivity|discriminate]). }
  split; reflexivity.
Qed.

(** Also without units: the number, the kind and the indexes are read back, and reading once more changes nothing.  Missing: affine operations
    whose factor was given as a number, see C99_affine_number_refuted. *)
Theorem C99_numbers_kept_partial (unit_ : Type) (show : unit_ -> string) read imported l :
  (forall u, show u <> "" -> read (show u) = Some u) -> (forall m, imported m = true) ->
  List.Forall plain l -> List.Forall not_one l ->
  exists d l', json_processor unit_ show l = Ok d /\ parse_processor unit_ read imported d = Ok l' /\ List.Forall2 (same_but_unit show) l l' /\
    exists d', json_processor unit_ show l' = Ok d' /\ parse_processor unit_ read imported d' = Ok l'.
Proof.
  intros U L P N. destruct (processor_round show read imported U L l P N) as (d & E1 & E2). exists d, (map (after show) l).
  split; [exact E1|]. split; [exact E2|]. split.
  { clear. induction l; [constructor|]. constructor; [apply after_same|assumption]. }
  destruct (processor_round show read imported U L (map (after show) l)) as (d' & D1 & D2).
  { apply Forall_map. revert P. apply Forall_impl. apply after_plain. }
  { apply Forall_map. clear. apply Forall_forall. intros o _. apply after_not_one. }
  exists d'. split; [exact D1|]. rewrite D2, map_map. f_equal. apply map_ext. apply after_after.
Qed.
Print Assumptions C99_numbers_kept_partial.

(** A width given as a number: the processor read back is not the same, and serialises to something else. *)
Theorem C99_number_refuted (unit_ : Type) (show : unit_ -> string) read imported : (forall m, imported m = true) ->
  exists o d o', make_apodization unit_ read Exponential [("FWHM", JNum two)] (Some (NoUnit _)) = Ok o /\
    json_processor unit_ show [o] = Ok d /\ parse_processor unit_ read imported d = Ok [o'] /\ o' <> o /\ json_processor unit_ show [o'] <> Ok d.
Proof.
  intros L. eexists. eexists. exists (Apodization _ Exponential two None (At 0) None). split; [reflexivity|]. split; [reflexivity|].
  split; [unfold parse_processor, parse_op; cbn; rewrite L; reflexivity|]. split; discriminate.
Qed.
Print Assumptions C99_number_refuted.
(** An affine factor given as a number is never read back the same, whatever the unit "1.0" is read as. *)
Theorem C99_affine_number_refuted (unit_ : Type) (show : unit_ -> string) read imported :
  exists o d, make_affine_scale unit_ read [("factor", JNum two)] (Some (One _)) = Ok o /\
    json_processor unit_ show [o] = Ok d /\ parse_processor unit_ read imported d <> Ok [o].
Proof.
  eexists. eexists. split; [reflexivity|]. split; [reflexivity|]. unfold parse_processor, parse_op. cbn.
  destruct (imported AffineModule); cbn; [|discriminate]. unfold make_affine_scale, def_quantity. cbn. destruct (read "1.0"); discriminate.
Qed.
Print Assumptions C99_affine_number_refuted.
(** Reading where the submodule was not imported, as in a new process, raises. *)
Theorem C99_not_imported_refuted (unit_ : Type) (show : unit_ -> string) read imported x :
  imported ApodizationModule = false -> show x <> "" ->
  exists o d, given_with_unit show o /\ plain o /\ json_processor unit_ show [o] = Ok d /\ parse_processor unit_ read imported d = Err AttributeError.
Proof.
  intros F N. exists (Apodization _ Gaussian two (Some (Unit_ _ x)) (At 0) None). eexists. split; [cbn; eauto|]. split; [cbn; auto|].
  split; [reflexivity|]. unfold parse_processor, parse_op. cbn. rewrite F. reflexivity.
Qed.
Print Assumptions C99_not_imported_refuted.
(** Items None and "" of a list of indexes are lost. *)
Theorem C99_list_refuted (unit_ : Type) (show : unit_ -> string) read imported :
  exists o d o', make_fft unit_ (IFFT unit_) [("dim_index", JList [JNum (Qc_of_Z 1); JNone])] = Ok o /\
    json_processor unit_ show [o] = Ok d /\ parse_processor unit_ read imported d = Ok [o'] /\ o' <> o.
Proof. eexists. eexists. eexists. split; [reflexivity|]. split; [reflexivity|]. split; [reflexivity|]. discriminate. Qed.
Print Assumptions C99_list_refuted.

(** ** C106: what is left out of an operation *)
Definition missing (d : jdict) (k : string) : Prop := dict_lookup d k = None.
Definition operation_defaults {unit_} (d : jdict) (o : op unit_) : Prop :=
  match o with
  | Scale _ f => missing d "factor" -> f = Q2Qc 1
  | IFFT _ i | FFT _ i => missing d "dim_index" -> i = At 0
  | ComplexConjugate _ => True
  | Apodization _ _ w _ i s => (missing d "FWHM" -> w = Q2Qc 0) /\ (missing d "dim_index" -> i = At 0) /\ (missing d "dv_index" -> s = None)
  | Shear _ f _ i p s => (missing d "factor" -> f = Q2Qc 0) /\ (missing d "dim_index" -> i = 0%Z) /\ (missing d "parallel" -> p = 1%Z) /\ (missing d "dv_index" -> s = None)
  | AffineScale _ f _ i s => (missing d "factor" -> f = Q2Qc 1) /\ (missing d "dim_index" -> i = 0%Z) /\ (missing d "dv_index" -> s = None)
  end.
(** Made by a constructor with the entries of d, or read from d. *)
Definition made_operation {unit_} (read : string -> option unit_) imported (d : jdict) (o : op unit_) : Prop :=
  make_scale unit_ d = Ok o \/ make_fft unit_ (IFFT unit_) d = Ok o \/ make_fft unit_ (FFT unit_) d = Ok o \/ (exists t pu, make_apodization unit_ read t d pu = Ok o) \/
  (exists pu, make_shear unit_ read d pu = Ok o) \/ (exists pu, make_affine_scale unit_ read d pu = Ok o) \/ parse_op unit_ read imported d = Ok o.
Theorem C106_operations : forall (unit_ : Type) (read : string -> option unit_) imported (d : jdict) (o : op unit_), made_operation read imported d o -> operation_defaults d o.
Proof.
  intros unit_ read imported d o.
  assert (S : make_scale unit_ d = Ok o -> operation_defaults d o).
  { unfold make_scale, def_num. intros H. destruct (dict_lookup d "factor") as [v|] eqn:L; cbn [bind] in H.
    - destruct v; try discriminate. cbn [any bind] in H. injection H as <-. cbn. unfold missing. congruence.
    - injection H as <-. cbn; reflexivity. }
  assert (I : forall mk, mk = IFFT unit_ \/ mk = FFT unit_ -> make_fft unit_ mk d = Ok o -> operation_defaults d o).
  { intros mk K. unfold make_fft, def_index. intros H. destruct (dict_lookup d "dim_index") as [v|] eqn:L; cbn [bind] in H.
    - destruct (read_index v); [|discriminate]. cbn [bind] in H. injection H as <-. destruct K as [->| ->]; cbn; unfold missing; congruence.
    - injection H as <-. destruct K as [->| ->]; cbn; reflexivity. }
  assert (A : forall t pu, make_apodization unit_ read t d pu = Ok o -> operation_defaults d o).
  { intros t pu. unfold make_apodization, def_index, opt_index, def_quantity. intros H.
    destruct (match dict_lookup d "dim_index" with None => Ok (At 0) | Some v => read_index v end) as [i|] eqn:E1; [|discriminate]. cbn [bind] in H.
    destruct (match dict_lookup d "dv_index" with None | Some JNone => Ok None | Some v => let* i := read_index v in Ok (Some i) end) as [s|] eqn:E2; [|discriminate]. cbn [bind] in H.
    destruct (match dict_lookup d "FWHM" with None => Ok (Q2Qc 0, pu) | Some v => str_to_quantity unit_ read v pu end) as [[w u]|] eqn:E3; [|discriminate]. cbn [bind] in H. injection H as <-.
    cbn. unfold missing. repeat split; intros M; rewrite M in *; congruence. }
  assert (Q : forall pu, make_shear unit_ read d pu = Ok o -> operation_defaults d o).
  { intros pu. unfold make_shear, def_int, opt_index, def_quantity. intros H.
    match type of H with (let* _ := ?e in _) = _ => destruct e as [i|] eqn:E1; [|discriminate] end. cbn [bind] in H.
    match type of H with (let* _ := ?e in _) = _ => destruct e as [s|] eqn:E2; [|discriminate] end. cbn [bind] in H.
    match type of H with bind ?e _ = _ => destruct e as [[f u]|] eqn:E3; [|discriminate] end. cbn [bind] in H.
    match type of H with (let* _ := ?e in _) = _ => destruct e as [p|] eqn:E4; [|discriminate] end. cbn [bind] in H. injection H as <-.
    cbn. unfold missing. repeat split; intros M; rewrite M in *; congruence. }
  assert (F : forall pu, make_affine_scale unit_ read d pu = Ok o -> operation_defaults d o).
  { intros pu. unfold make_affine_scale, def_int, opt_index, def_quantity. intros H.
    match type of H with (let* _ := ?e in _) = _ => destruct e as [i|] eqn:E1; [|discriminate] end. cbn [bind] in H.
    match type of H with (let* _ := ?e in _) = _ => destruct e as [s|] eqn:E2; [|discriminate] end. cbn [bind] in H.
    match type of H with bind ?e _ = _ => destruct e as [[f u]|] eqn:E3; [|discriminate] end. cbn [bind] in H. injection H as <-.
    cbn. unfold missing. repeat split; intros M; rewrite M in *; congruence. }
  intros [H|[H|[H|[(t & pu & H)|[(pu & H)|[(pu & H)|H]]]]]]; eauto.
  unfold parse_op in H. destruct (dict_lookup d "function") as [[]|]; try discriminate.
  all: try (destruct (dict_lookup d "type") as [[]|]; repeat match type of H with (if ?b then _ else _) = _ => destruct b | (let* _ := ?e in _) = _ => destruct e; cbn [bind] in H end; try discriminate; eauto).
  injection H as <-. exact Logic.I.
Qed.
Print Assumptions C106_operations.
Example C106_operations_example : parse_op string name_unit (fun _ => true) [("function", JStr "apodization"); ("type", JStr "Gaussian")] = Ok (Apodization _ Gaussian (Q2Qc 0) None (At 0) None) /\
  parse_op string name_unit (fun _ => true) [("function", JStr "Scale")] = Ok (Scale _ (Q2Qc 1)).
Proof. split; reflexivity. Qed.
