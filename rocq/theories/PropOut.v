(** C93 - C96: labels of decomposed spectra, axes taken from an experiment, interrupted saves, serialisation after runs. *)
From Coq Require Import String List ZArith QArith Bool Lia.
From Verif Require Import Base InterpModel AxisModel AxisSpec OutModel OutSpec OutProofs.
Import ListNotations.

(** ** C93.  Names and labels of the spectra of a decomposed simulation. *)

(** Every spectrum of a decomposed simulation that is not empty becomes one dependent variable, in order, with its own
    data, the name of its own spin system (or "spin system i" when that has none) and the description of its own spin system
    as application metadata.  Its components label and its description are the last non-empty ones of the spin systems up
    to its own that have a spectrum. *)
Theorem C93_names_and_labels_partial :
  forall (J D : Type) (show : nat -> string) systems (data : list (option D)),
  (List.length data <= List.length systems)%nat ->
  exists out, as_csdm_variables J D show true systems data = Ok out /\
  List.length out = List.length (positions 0 data) /\
  forall j i d, nth_error (positions 0 data) j = Some (i, d) ->
  exists s v, nth_error systems i = Some s /\ nth_error out j = Some v /\
    d_components J D v = Some d /\ d_application J D v = Some (i_json J s) /\
    (nonempty (i_name J s) -> d_name J D v = i_name J s) /\
    (~ nonempty (i_name J s) -> d_name J D v = Some ("spin system " ++ show i)%string) /\
    is_last_nonempty (d_components_label J D v)
      (map (fun k => match nth_error systems k with None => None | Some s => i_label J s end) (firstn (S j) (map fst (positions 0 data)))) /\
    is_last_nonempty (d_description J D v)
      (map (fun k => match nth_error systems k with None => None | Some s => i_description J s end) (firstn (S j) (map fst (positions 0 data)))).
Proof.
  intros J D show systems data L. destruct (pack_loop_spec J D show systems data (dvar0 J D) 0 []) as (out & R & Lo & H); [lia|].
  exists out. split; [exact R|]. split; [exact Lo|]. intros j i d X.
  destruct (H j i d X) as (s & v & H1 & H2 & H3 & H4 & H5 & H6 & H7). exists s, v.
  split; [exact H1|]. split; [exact H2|]. split; [exact H3|]. split; [exact H5|].
  split; [|split; [|split]].
  - intros (n & E & N). rewrite H4. unfold name_of. rewrite E.
    destruct (given (Some n)) eqn:G; [reflexivity|]. apply given_false in G. exfalso. apply G. exists n. auto.
  - intros N. rewrite H4. unfold name_of. destruct (i_name J s) as [n|]; [|reflexivity].
    destruct (given (Some n)) eqn:G; [|reflexivity]. apply given_true in G. contradiction.
  - rewrite H6. apply carried_spec.
  - rewrite H7. apply carried_spec.
Qed.
Print Assumptions C93_names_and_labels_partial.

(** Without decomposition nothing of a spin system is attached. *)
Theorem C93_sum_has_no_labels :
  forall (J D : Type) (show : nat -> string) systems (data : list (option D)),
  exists out, as_csdm_variables J D show false systems data = Ok out /\
  map (d_components J D) out = map Some (map snd (positions 0 data)) /\
  Forall (fun v => d_components_label J D v = None /\ d_name J D v = None /\ d_description J D v = None /\ d_application J D v = None) out.
Proof.
  intros J D show systems data. destruct (pack_loop_none J D show systems data (dvar0 J D) 0 []) as (out & R & H & K).
  exists out. split; [exact R|]. split; [exact H|]. apply K; reflexivity.
Qed.
Print Assumptions C93_sum_has_no_labels.

(** The full claim, every spectrum carries the label and description of its own spin system, is false: a spin system
    without label gets the label of an earlier one. *)
Theorem C93_own_label_refuted :
  let a := {| i_name := None; i_label := Some "Q3"%string; i_description := Some "a silicate"%string; i_json := 1%nat |} in
  let b := {| i_name := Some "other"%string; i_label := None; i_description := Some ""%string; i_json := 2%nat |} in
  exists v w, as_csdm_variables nat nat (fun _ => "0"%string) true [a; b] [Some 7%nat; Some 8%nat] = Ok [v; w] /\
  d_name _ _ w = Some "other"%string /\ d_application _ _ w = Some 2%nat /\
  d_components_label _ _ w = Some "Q3"%string /\ d_description _ _ w = Some "a silicate"%string.
Proof. cbv zeta. do 2 eexists. split; [vm_compute; reflexivity|]. vm_compute. auto. Qed.
Print Assumptions C93_own_label_refuted.

Example C93_example :
  let s n l := {| i_name := n; i_label := l; i_description := None; i_json := tt |} in
  let systems := [s None (Some "a"); s (Some "x") (Some "b"); s (Some "y") (Some "c")]%string in
  (List.length [Some 1; None; Some 3]%nat <= List.length systems)%nat /\
  match as_csdm_variables unit nat (fun _ => "0"%string) true systems [Some 1; None; Some 3]%nat with
  | Ok l => map (fun v => (d_components _ _ v, d_name _ _ v, d_components_label _ _ v)) l
  | Err _ => []
  end = [(Some 1%nat, Some "spin system 0"%string, Some "a"%string); (Some 3%nat, Some "y"%string, Some "c"%string)].
Proof. cbv zeta. split; [cbn; lia|reflexivity]. Qed.

(** ** C94.  Axes taken from an experiment. *)

(** For an experiment with as many dimensions as the method, all with complex_fft and a positive increment, the call
    returns, and the dataset the method then simulates has the axes of the experiment, in the opposite order. *)
Theorem C94_axes_in_reverse :
  forall dims experiment, List.length experiment = List.length dims -> Forall spectrum_axis experiment ->
  snd (update_from_experiment dims 0 experiment) = None /\
  same_axes (to_csdm_dimensions (fst (update_from_experiment dims 0 experiment))) (rev experiment).
Proof.
  intros dims exp L F.
  assert (F' : Forall (fun c => (0 < cd_count c)%Z /\ (0 < cd_inc c)%Q) exp) by (revert F; apply Forall_impl; intros c (_ & ? & ?); auto).
  assert (U := update_all exp [] dims F'). cbn [app List.length] in U. rewrite U by lia.
  cbn [fst snd]. split; [reflexivity|].
  rewrite L, skipn_all, app_nil_r. unfold to_csdm_dimensions, same_axes. rewrite map_map.
  assert (G : forall l, Forall spectrum_axis l -> Forall2 (fun x y => cd_count x = cd_count y /\ qlist_eq (csdm_coordinates x) (csdm_coordinates y))
    (map (fun c => to_csdm_dimension (adopted c)) l) l).
  { induction 1; cbn; constructor; auto. apply adopted_axis. auto. }
  rewrite <- map_rev. apply G. apply Forall_rev. exact F.
Qed.
Print Assumptions C94_axes_in_reverse.

(** So a method of one dimension takes over the axis. *)
Theorem C94_same_axis_partial :
  forall d c, spectrum_axis c ->
  snd (update_from_experiment [d] 0 [c]) = None /\
  same_axes (to_csdm_dimensions (fst (update_from_experiment [d] 0 [c]))) [c].
Proof. intros d c H. apply (C94_axes_in_reverse [d] [c]); auto. Qed.
Print Assumptions C94_same_axis_partial.

(** An experiment with more dimensions than the method: IndexError, after all dimensions of the method were changed. *)
Theorem C94_too_many_dimensions :
  forall dims experiment, (List.length dims < List.length experiment)%nat -> Forall spectrum_axis experiment ->
  snd (update_from_experiment dims 0 experiment) = Some IndexError /\
  map sd_count (fst (update_from_experiment dims 0 experiment)) = map cd_count (firstn (List.length dims) experiment).
Proof.
  intros dims exp L F.
  assert (F' : Forall (fun c => (0 < cd_count c)%Z /\ (0 < cd_inc c)%Q) exp) by (revert F; apply Forall_impl; intros c (_ & ? & ?); auto).
  assert (U := update_too_many exp [] dims F' L). cbn [app List.length] in U. rewrite U.
  split; [reflexivity|]. cbn [fst]. rewrite map_map. reflexivity.
Qed.
Print Assumptions C94_too_many_dimensions.

(** The full claim, the simulated dataset has the axes of the experiment, is false: with two dimensions they are exchanged;
    without complex_fft the axis is shifted by half its width; and a negative increment raises after the number of points
    was already changed. *)
Definition axis (n : Z) (inc : Q) (fft : bool) : csdm_dim :=
  {| cd_count := n; cd_inc := inc; cd_ref := 0; cd_fft := fft; cd_label := None; cd_origin := None |}.
Definition dim0 : sdim := {| sd_count := 1024; sd_width := 25000; sd_ref := 0; sd_origin := None |}.
Theorem C94_axes_refuted :
  (let r := update_from_experiment [dim0; dim0] 0 [axis 8 10 true; axis 4 25 true] in
   snd r = None /\ map cd_count (to_csdm_dimensions (fst r)) = [4; 8]%Z) /\
  (let r := update_from_experiment [dim0] 0 [axis 4 25 false] in
   snd r = None /\ ~ same_axes (to_csdm_dimensions (fst r)) [axis 4 25 false]) /\
  (let r := update_from_experiment [dim0] 0 [axis 4 (-25) true] in
   snd r = Some ValueError /\ map sd_count (fst r) = [4]%Z /\ map sd_width (fst r) = map sd_width [dim0]).
Proof.
  split; [|split].
  - vm_compute. auto.
  - split; [reflexivity|]. intros H. inversion H as [|x y l l' [_ Q] H2 E1 E2]; subst. clear H H2.
    vm_compute in Q. inversion Q as [|x y l l' E Q2 E1 E2]; subst. discriminate E.
  - vm_compute. auto.
Qed.
Print Assumptions C94_axes_refuted.
Example C94_example : spectrum_axis (axis 8 10 true) /\
  map sd_count (fst (update_from_experiment [dim0] 0 [axis 8 10 true])) = [8]%Z /\
  map (fun d => sd_width d == 80) (fst (update_from_experiment [dim0] 0 [axis 8 10 true])) = [80 == 80].
Proof. unfold spectrum_axis. cbn. repeat split; try lia. Qed.

(** ** C95.  Saving. *)

(** When save returns, the file holds the whole text and nothing else, whatever was there before. *)
Theorem C95_returned_save_is_complete :
  forall file can_open serialised, snd (save can_open serialised) = None ->
  exists l t, serialised = Ok l /\ whole_text l = Some t /\ after file (fst (save can_open serialised)) = Some t.
Proof.
  intros file o ser. unfold save. destruct o as [e|]; [discriminate|]. destruct ser as [l|e]; [|discriminate].
  pose proof (dump_whole l) as W. pose proof (dump_writes l) as OW. destruct (dump l) as [es x]. cbn [fst snd] in *. intros ->.
  destruct (whole_text l) as [t|] eqn:E.
  - destruct W as [_ <-]. exists l, (written es). split; [reflexivity|]. split; [exact E|].
    unfold after. cbn [fold_left apply]. fold (after (Some ""%string) es). rewrite (after_writes _ OW). reflexivity.
  - destruct W as (e & W). discriminate W.
Qed.
Print Assumptions C95_returned_save_is_complete.

(** Stopped at any point: the file is as it was, or holds the beginning of what was to be written. *)
Theorem C95_interrupted_save :
  forall file can_open serialised k, let es := fst (save can_open serialised) in
  interrupted file k es = file \/
  exists s t, interrupted file k es = Some s /\ after file es = Some t /\ prefix s t = true.
Proof.
  intros file o ser k es. destruct k as [|k]; [left; reflexivity|].
  destruct o as [e|]; [left; unfold es, interrupted; destruct k; reflexivity|]. right.
  assert (S : exists ws, es = Truncate :: ws /\ only_writes ws).
  { unfold es, save. destruct ser as [l|e].
    - pose proof (dump_writes l) as W. destruct (dump l) as [ws x]. cbn [fst] in *. exists ws. auto.
    - exists []. split; [reflexivity|constructor]. }
  destruct S as (ws & -> & W). destruct (interrupted_save file ws (S k) W) as (s & E & P); [lia|].
  exists s, (written ws). split; [exact E|]. split; [|exact P].
  unfold after. cbn [fold_left apply]. fold (after (Some ""%string) ws). rewrite (after_writes _ W). reflexivity.
Qed.
Print Assumptions C95_interrupted_save.

(** The full claim, that a save that does not return leaves the file as it was, is false: whenever the object cannot be
    serialised the file is left empty, whatever it held. *)
Theorem C95_failed_save_refuted :
  forall old e, snd (save None (Err e)) = Some e /\ after (Some old) (fst (save None (Err e))) = Some ""%string.
Proof. intros. split; reflexivity. Qed.
Print Assumptions C95_failed_save_refuted.

(** And a number that is not finite leaves the text before it. *)
Theorem C95_failed_number_refuted :
  forall old l a e b, l = (map Text a ++ Raise e :: b)%list ->
  snd (save None (Ok l)) = Some e /\ after (Some old) (fst (save None (Ok l))) = Some (String.concat "" a).
Proof.
  intros old l a e b ->. unfold save.
  assert (H : dump (map Text a ++ Raise e :: b)%list = (map Write a, Some e)).
  { induction a as [|s a IH]; cbn [map app dump]; [reflexivity|]. rewrite IH. reflexivity. }
  rewrite H. cbn [fst snd]. split; [reflexivity|]. unfold after. cbn [fold_left apply]. fold (after (Some ""%string) (map Write a)).
  rewrite after_writes by (apply Forall_map, Forall_forall; discriminate). f_equal. clear H. cbn [append].
  induction a as [|s [|s2 a] IH]; cbn [map written String.concat].
  - reflexivity.
  - apply append_nil.
  - cbn [map written] in IH. rewrite IH. reflexivity.
Qed.
Print Assumptions C95_failed_number_refuted.

(** export_spin_systems serialises first: when that raises, nothing happened to the file. *)
Theorem C95_export_keeps_the_file :
  forall file can_open e k, snd (export_spin_systems can_open (Err e)) = Some e /\
  interrupted file k (fst (export_spin_systems can_open (Err e))) = file.
Proof. intros file o e k. split; [reflexivity|]. destruct k; reflexivity. Qed.
Print Assumptions C95_export_keeps_the_file.

Theorem C95_returned_export_is_complete :
  forall file can_open serialised, snd (export_spin_systems can_open serialised) = None ->
  exists l t, serialised = Ok l /\ whole_text l = Some t /\ after file (fst (export_spin_systems can_open serialised)) = Some t.
Proof.
  intros file o ser H.
  assert (E : export_spin_systems o ser = save o ser).
  { unfold export_spin_systems, save in *. destruct ser, o; try reflexivity; discriminate H. }
  rewrite E in *. apply C95_returned_save_is_complete. exact H.
Qed.
Print Assumptions C95_returned_export_is_complete.

Example C95_example :
  after (Some "old"%string) (fst (save None (Ok [Text "{"; Text "}"]%string))) = Some "{}"%string /\
  interrupted (Some "old"%string) 2 (fst (save None (Ok [Text "{"; Text "}"]%string))) = Some "{"%string /\
  after (Some "old"%string) (fst (save None (Ok [Text "{"; Raise ValueError; Text "}"]%string))) = Some "{"%string.
Proof. vm_compute. auto. Qed.

(** ** C96.  Serialising after any session. *)

(** Whatever was run and assigned before, with any failures: json with methods and dict succeed exactly when no method holds
    a plain array as its simulation, and raise AttributeError else. *)
Theorem C96_serialisable_iff :
  forall fails l turn n, let methods := session fails turn (repeat {| k_simulation := NoSim; k_experiment := NoSim |} n) l in
  (simulator_json methods = Ok tt <-> Forall (fun m => k_simulation m <> Array) methods) /\
  (simulator_dict methods = Ok tt <-> Forall (fun m => k_simulation m <> Array) methods) /\
  (simulator_json methods = Ok tt \/ simulator_json methods = Err AttributeError) /\
  (simulator_dict methods = Ok tt \/ simulator_dict methods = Err AttributeError).
Proof.
  intros fails l turn n methods.
  assert (S : Forall sound methods).
  { unfold methods. apply (session_keeps fails sound (fun _ => True)).
    - intros idx pack m _ H. exact H.
    - intros i v k m _ _ H. exact H.
    - intros i v k m _ E _. unfold sound. cbn. destruct v; try discriminate E; inversion E; discriminate.
    - apply Forall_forall. auto.
    - apply Forall_forall. intros m Hm. apply repeat_spec in Hm. subst. discriminate. }
  assert (DJ : forall m, method_json m = Ok tt \/ method_json m = Err AttributeError)
    by (intros [[| |] [| |]]; cbn; auto).
  assert (DD : forall m, method_dict m = Ok tt \/ method_dict m = Err AttributeError)
    by (intros [[| |] [| |]]; cbn; auto).
  destruct (mapM_unit method_json methods DJ) as [A1 A2]. destruct (mapM_unit method_dict methods DD) as [B1 B2].
  fold (simulator_json methods) in A1, A2. fold (simulator_dict methods) in B1, B2.
  assert (EJ : forall m, sound m -> (method_json m = Ok tt <-> k_simulation m <> Array)).
  { intros [[| |] [| |]] H; cbn in *; split; intros; try congruence; try discriminate; exfalso; apply H; reflexivity. }
  assert (ED : forall m, method_dict m = Ok tt <-> k_simulation m <> Array).
  { intros [[| |] [| |]]; cbn in *; split; intros; try congruence; try discriminate. }
  split; [|split; [|split; assumption]].
  - rewrite A1. split; intros F; rewrite Forall_forall in *; intros m Hm; apply EJ; auto.
  - rewrite B1. split; intros F; rewrite Forall_forall in *; intros m Hm; apply ED; auto.
Qed.
Print Assumptions C96_serialisable_iff.

(** Sessions in which every run packs its result as a dataset and no plain array is assigned. *)
Theorem C96_packed_sessions_partial :
  forall fails l turn n,
  (forall a, In a l -> match a with Run _ pack => pack = true | SetSimulation _ v => v <> VArray | SetExperiment _ _ => True end) ->
  let methods := session fails turn (repeat {| k_simulation := NoSim; k_experiment := NoSim |} n) l in
  simulator_json methods = Ok tt /\ simulator_dict methods = Ok tt.
Proof.
  intros fails l turn n A methods. destruct (C96_serialisable_iff fails l turn n) as (H1 & H2 & _).
  fold methods in H1, H2. rewrite H1, H2.
  assert (F : Forall (fun m => k_simulation m <> Array) methods); [|auto].
  apply (session_keeps fails (fun m => k_simulation m <> Array)
    (fun a => match a with Run _ pack => pack = true | SetSimulation _ v => v <> VArray | SetExperiment _ _ => True end)).
  - intros idx pack m E _. rewrite E. discriminate.
  - intros i v k m E V _. cbn. destruct v; inversion V; try discriminate. congruence.
  - intros i v k m _ _ H. exact H.
  - apply Forall_forall. exact A.
  - apply Forall_forall. intros m Hm. apply repeat_spec in Hm. subst. discriminate.
Qed.
Print Assumptions C96_packed_sessions_partial.

(** After [run(pack_as_csdm=False)] the simulator cannot be serialised, and saving it empties the file (C95). *)
Theorem C96_arrays_refuted :
  forall fails old, (forall t i, fails t i = None) ->
  let methods := session fails 0 [{| k_simulation := NoSim; k_experiment := NoSim |}] [Run None false] in
  simulator_json methods = Err AttributeError /\ simulator_dict methods = Err AttributeError /\
  after (Some old) (fst (save None (let* _ := simulator_json methods in Ok [Text "{}"%string]))) = Some ""%string.
Proof.
  intros fails old H methods. unfold methods. cbn [session do fst run_loop List.length seq map]. unfold py_index, py_assign.
  cbn. rewrite H. cbn. auto.
Qed.
Print Assumptions C96_arrays_refuted.

Example C96_example :
  let m0 := {| k_simulation := NoSim; k_experiment := NoSim |} in
  let methods := session (fun _ _ => None) 0 [m0; m0] [Run None false; SetExperiment (-1) VDataset; SetExperiment 0 VArray; Run (Some [0; 5]%Z) true] in
  map k_simulation methods = [Dataset; Array] /\ map k_experiment methods = [NoSim; Dataset] /\
  simulator_json methods = Err AttributeError /\
  simulator_json (session (fun _ _ => None) 4 methods [Run (Some [1]%Z) true]) = Ok tt.
Proof. vm_compute. auto. Qed.

(** A run goes through the chosen methods in order and stops at the first one that cannot be run; the ones before keep their
    new spectra, the ones after are not touched.  It raises nothing exactly when every chosen method exists and none fails. *)
Theorem C96_stops_at_failure :
  forall fails turn methods index pack,
  let chosen := match index with None => map Z.of_nat (seq 0 (List.length methods)) | Some l => l end in
  let exists_ i := (- Z.of_nat (List.length methods) <= i < Z.of_nat (List.length methods))%Z in
  (snd (do fails turn methods (Run index pack)) = None <->
   forall i, In i chosen -> exists_ i /\ fails turn i = None) /\
  (forall e, snd (do fails turn methods (Run index pack)) = Some e ->
   exists before i after, chosen = (before ++ i :: after)%list /\
     (forall k, In k before -> exists_ k /\ fails turn k = None) /\
     ((exists_ i /\ fails turn i = Some e) \/ (~ exists_ i /\ e = IndexError)) /\
     do fails turn methods (Run index pack) = (fst (do fails turn methods (Run (Some before) pack)), Some e)).
Proof.
  intros fails turn methods index pack chosen ex.
  assert (G : forall l ms, List.length ms = List.length methods ->
    (snd (run_loop fails turn pack ms l) = None <-> forall i, In i l -> ex i /\ fails turn i = None) /\
    (forall e, snd (run_loop fails turn pack ms l) = Some e ->
     exists before i after, l = (before ++ i :: after)%list /\
       (forall k, In k before -> ex k /\ fails turn k = None) /\
       ((ex i /\ fails turn i = Some e) \/ (~ ex i /\ e = IndexError)) /\
       run_loop fails turn pack ms l = (fst (run_loop fails turn pack ms before), Some e))).
  { induction l as [|i r IH]; intros ms L.
    - cbn. split; [split; [intros _ i []|reflexivity]|discriminate].
    - cbn [run_loop].
      assert (D : ex i /\ (exists m, py_index ms i = Ok m) \/ ~ ex i /\ py_index ms i = Err IndexError).
      { unfold ex, py_index. rewrite <- L. destruct (Z.ltb_spec i 0).
        - destruct (Z.ltb_spec (i + Z.of_nat (List.length ms)) 0); [right; split; [lia|reflexivity]|].
          left. split; [lia|]. destruct (nth_error ms (Z.to_nat (i + Z.of_nat (List.length ms)))) eqn:E; [eauto|].
          apply nth_error_None in E. lia.
        - destruct (Z.ltb_spec i 0); [lia|]. destruct (nth_error ms (Z.to_nat i)) eqn:E.
          + left. split; [|eauto]. assert (nth_error ms (Z.to_nat i) <> None) by congruence. apply nth_error_Some in H1. lia.
          + right. apply nth_error_None in E. split; [lia|reflexivity]. }
      destruct D as [[X [m E]]|[X E]]; rewrite E.
      + destruct (fails turn i) as [x|] eqn:F.
        * cbn. split; [split; [discriminate|]|].
          -- intros H. destruct (H i (or_introl eq_refl)) as [_ K]. congruence.
          -- intros e K. inversion K. subst x. exists [], i, r. cbn. repeat split; auto; tauto.
        * assert (A : exists ms', (forall v, py_assign ms i v = Ok (ms' v)) /\ forall v, List.length (ms' v) = List.length ms).
          { unfold py_assign. unfold ex in X. rewrite <- L in X.
            set (j := if (i <? 0)%Z then (i + Z.of_nat (List.length ms))%Z else i).
            assert (0 <= j < Z.of_nat (List.length ms))%Z by (unfold j; destruct (Z.ltb_spec i 0); lia).
            destruct (Z.ltb_spec j 0); [lia|]. destruct (Z.ltb_spec j (Z.of_nat (List.length ms))); [|lia].
            eexists. split; [reflexivity|]. intros v. clear. generalize (Z.to_nat j). induction ms as [|y ys IH]; intros [|n]; cbn; auto. }
          destruct A as (ms' & A & AL). rewrite A.
          destruct (IH (ms' (set_simulation (if pack then Dataset else Array) m))) as [I1 I2]; [rewrite AL; exact L|].
          split.
          -- rewrite I1. split; [intros H k [<-|Hk]; auto|intros H k Hk; apply H; right; exact Hk].
          -- intros e K. destruct (I2 e K) as (b & k & a & Hl & Hb & Hk & Hr). exists (i :: b), k, a.
             subst r. split; [reflexivity|]. split; [intros z [<-|Hz]; auto|]. split; [exact Hk|].
             cbn [run_loop]. rewrite E, F, A. exact Hr.
      + cbn. split; [split; [discriminate|]|].
        * intros H. destruct (H i (or_introl eq_refl)) as [K _]. contradiction.
        * intros e K. inversion K. exists [], i, r. cbn. repeat split; auto; tauto. }
  exact (G chosen methods eq_refl).
Qed.
Print Assumptions C96_stops_at_failure.

Example C96_stops_example :
  let m0 := {| k_simulation := NoSim; k_experiment := NoSim |} in
  let fails (_ : nat) i := if (i =? 1)%Z then Some ValueError else None in
  do fails 0 [m0; m0; m0] (Run None true) =
    ([{| k_simulation := Dataset; k_experiment := NoSim |}; m0; m0], Some ValueError) /\
  snd (do fails 0 [m0; m0; m0] (Run (Some [0; -1]%Z) true)) = None.
Proof. vm_compute. auto. Qed.
