(** Model of what happens around a simulation, beside the numbers:
    - the names and labels of the spectra of a decomposed simulation: [_as_csdm_object] and
      [_update_name_description_application], src/mrsimulator/simulator/__init__.py lines 555-612;
    - [update_spectral_dimension_attributes_from_experiment], src/mrsimulator/method/__init__.py lines 236-246;
    - the kind of object a method holds as its simulation, and whether it can be serialised: [Simulator.run], lines 404-479,
      [Method.dict] and [Method.json], method/__init__.py lines 248-295, the validators of lines 172-191;
    - [Simulator.save] and [export_spin_systems], simulator/__init__.py lines 380-402 and 481-519: what is in the file. *)
From Coq Require Import String List ZArith QArith Bool.
From Verif Require Import Base InterpModel AxisModel.
Import ListNotations.
Open Scope Z_scope.

(** ** Names and labels *)
Section Labels.
(** [J]: the result of SpinSystem.json(); [D]: the array of a spectrum; [show]: the decimal text of an index. *)
Variables (J D : Type) (show : nat -> string).

Record sysinfo := { i_name : option string; i_label : option string; i_description : option string; i_json : J }.

(** [x not in ["", None]] *)
Definition given (x : option string) : bool := match x with None => false | Some s => negb (String.eqb s "") end.

(** The dictionary [dependent_variable]: its keys besides the three fixed ones (lines 569-573), absent at first. *)
Record dvar := {
  d_components : option D; d_components_label : option string; d_name : option string;
  d_description : option string; d_application : option J }.
Definition dvar0 : dvar :=
  {| d_components := None; d_components_label := None; d_name := None; d_description := None; d_application := None |}.

(** Lines 591-612. *)
Definition update_name_description_application (systems : list sysinfo) (obj : dvar) (index : nat) : pyres dvar :=
  match nth_error systems index with
  | None => Err IndexError
  | Some s =>
      let obj := if given (i_label s)
                 then {| d_components := d_components obj; d_components_label := i_label s; d_name := d_name obj;
                         d_description := d_description obj; d_application := d_application obj |} else obj in
      let name := match i_name s with
                  | Some n => if given (Some n) then n else ("spin system " ++ show index)%string
                  | None => ("spin system " ++ show index)%string
                  end in
      let obj := {| d_components := d_components obj; d_components_label := d_components_label obj; d_name := Some name;
                    d_description := d_description obj; d_application := d_application obj |} in
      let obj := if given (i_description s)
                 then {| d_components := d_components obj; d_components_label := d_components_label obj; d_name := d_name obj;
                         d_description := i_description s; d_application := d_application obj |} else obj in
      Ok {| d_components := d_components obj; d_components_label := d_components_label obj; d_name := d_name obj;
            d_description := d_description obj; d_application := Some (i_json s) |}
  end.

(** Lines 574-584: the loop over the spectra; [None] is an empty one.  The same dictionary is used in every turn;
    [add_dependent_variable] stores what it holds at that time (csdmpy copies the values). *)
Fixpoint pack_loop (decompose : bool) (systems : list sysinfo) (obj : dvar) (index : nat) (data : list (option D))
    (new : list dvar) : pyres (list dvar) :=
  match data with
  | [] => Ok new
  | None :: r => pack_loop decompose systems obj (S index) r new
  | Some datum :: r =>
      let obj := {| d_components := Some datum; d_components_label := d_components_label obj; d_name := d_name obj;
                    d_description := d_description obj; d_application := d_application obj |} in
      let* obj := if decompose then update_name_description_application systems obj index else Ok obj in
      pack_loop decompose systems obj (S index) r (new ++ [obj])
  end.
Definition as_csdm_variables (decompose : bool) (systems : list sysinfo) (data : list (option D)) : pyres (list dvar) :=
  pack_loop decompose systems dvar0 0 data [].
End Labels.

(** ** The axes of an experiment *)
(** method/__init__.py lines 236-246: the attributes of the i-th spectral dimension are assigned one by one, each
    validated ([count] and [spectral_width] have to be positive, spectral_dimension.py lines 45-46); the dimensions and the
    exception, if the loop was left by one.  A dimension without an origin offset has the origin offset 0 in csdmpy. *)
Fixpoint update_from_experiment (dims : list sdim) (i : nat) (experiment : list csdm_dim) : list sdim * option exn :=
  match experiment with
  | [] => (dims, None)
  | c :: r =>
      match nth_error dims i with
      | None => (dims, Some IndexError)
      | Some d =>
          if negb (0 <? cd_count c) then (dims, Some ValueError) else
          let d := {| sd_count := cd_count c; sd_width := sd_width d; sd_ref := sd_ref d; sd_origin := sd_origin d |} in
          let width := (zq (cd_count c) * cd_inc c)%Q in
          if negb (Qltb 0 width) then (upd_nat dims i d, Some ValueError) else
          let d := {| sd_count := cd_count c; sd_width := width; sd_ref := cd_ref c;
                      sd_origin := Some (match cd_origin c with None => 0%Q | Some o => o end) |} in
          update_from_experiment (upd_nat dims i d) (S i) r
      end
  end.

(** ** Simulations and serialisation *)
(** What [method.simulation] is: nothing, a CSDM dataset, or a plain array. *)
Inductive simkind := NoSim | Dataset | Array.

(** What a user does between saves: runs methods, assigns simulations and experiments.  The value of an assignment may be
    something else, which the validators refuse (method/__init__.py lines 172-191); an array is refused as an experiment. *)
Inductive value := VNone | VDataset | VArray | VOther.
Inductive act :=
| Run (method_index : option (list Z)) (pack_as_csdm : bool)
| SetSimulation (i : Z) (v : value)
| SetExperiment (i : Z) (v : value).
Record mstate := { k_simulation : simkind; k_experiment : simkind }.

Definition validate_simulation (v : value) : pyres simkind :=
  match v with VNone => Ok NoSim | VDataset => Ok Dataset | VArray => Ok Array | VOther => Err ValueError end.
Definition validate_experiment (v : value) : pyres simkind :=
  match v with VNone => Ok NoSim | VDataset => Ok Dataset | VArray | VOther => Err ValueError end.

Definition set_simulation (k : simkind) (m : mstate) : mstate := {| k_simulation := k; k_experiment := k_experiment m |}.
Definition set_experiment (k : simkind) (m : mstate) : mstate := {| k_simulation := k_simulation m; k_experiment := k |}.

Section Acts.
(** Whether computing the spectrum of the method at a position raises, in a given turn. *)
Variable fails : nat -> Z -> option exn.

(** simulator/__init__.py lines 436-479. *)
Fixpoint run_loop (turn : nat) (pack : bool) (methods : list mstate) (index : list Z) : list mstate * option exn :=
  match index with
  | [] => (methods, None)
  | i :: r =>
      match py_index methods i with
      | Err e => (methods, Some e)
      | Ok m =>
          match fails turn i with
          | Some e => (methods, Some e)
          | None =>
              match py_assign methods i (set_simulation (if pack then Dataset else Array) m) with
              | Err e => (methods, Some e)
              | Ok methods' => run_loop turn pack methods' r
              end
          end
      end
  end.

Definition assign (v : pyres simkind) (f : simkind -> mstate -> mstate) (methods : list mstate) (i : Z) : list mstate * option exn :=
  match py_index methods i, v with
  | Ok m, Ok k => match py_assign methods i (f k m) with Ok ms => (ms, None) | Err e => (methods, Some e) end
  | Err e, _ => (methods, Some e)
  | _, Err e => (methods, Some e)
  end.

Definition do (turn : nat) (methods : list mstate) (a : act) : list mstate * option exn :=
  match a with
  | Run index pack =>
      run_loop turn pack methods
        (match index with None => map Z.of_nat (seq 0 (List.length methods)) | Some l => l end)
  | SetSimulation i v => assign (validate_simulation v) set_simulation methods i
  | SetExperiment i v => assign (validate_experiment v) set_experiment methods i
  end.

Fixpoint session (turn : nat) (methods : list mstate) (l : list act) : list mstate :=
  match l with [] => methods | a :: r => session (S turn) (fst (do turn methods a)) r end.
End Acts.

(** [sim.to_dict(...)] of something that is not a CSDM object: AttributeError. *)
Definition to_dict (k : simkind) : pyres unit := match k with Array => Err AttributeError | _ => Ok tt end.
(** Method.json, lines 256-295, as far as it can raise. *)
Definition method_json (m : mstate) : pyres unit :=
  let* _ := to_dict (k_simulation m) in to_dict (k_experiment m).
(** Method.dict, lines 248-254: here an experiment that is not a dataset is left alone. *)
Definition method_dict (m : mstate) : pyres unit :=
  let* _ := to_dict (k_simulation m) in
  match k_experiment m with Dataset => to_dict Dataset | _ => Ok tt end.
(** Simulator.json with include_methods, Simulator.dict. *)
Definition simulator_json (methods : list mstate) : pyres unit := let* _ := mapM method_json methods in Ok tt.
Definition simulator_dict (methods : list mstate) : pyres unit := let* _ := mapM method_dict methods in Ok tt.

(** ** Files *)
(** What [json.dump] does with an object: it writes the pieces of its text one after the other; a number that is not
    finite ([allow_nan=False]: ValueError) or an object it does not know (TypeError) raises in the middle. *)
Inductive piece := Text (s : string) | Raise (e : exn).

(** The operations on the file; a process may be interrupted after any of them. *)
Inductive effect := Truncate | Write (s : string).

Fixpoint dump (l : list piece) : list effect * option exn :=
  match l with
  | [] => ([], None)
  | Raise e :: _ => ([], Some e)
  | Text s :: r => let '(es, x) := dump r in (Write s :: es, x)
  end.

(** Lines 495-519: the file is opened, the object is serialised (with or without units), then written.  [can_open]: opening
    for writing may raise, before anything happens to the file. *)
Definition save (can_open : option exn) (serialise : pyres (list piece)) : list effect * option exn :=
  match can_open with
  | Some e => ([], Some e)
  | None => match serialise with
            | Err e => ([Truncate], Some e)
            | Ok l => let '(es, x) := dump l in (Truncate :: es, x)
            end
  end.

(** Lines 395-402: the spin systems are serialised before the file is opened. *)
Definition export_spin_systems (can_open : option exn) (serialise : pyres (list piece)) : list effect * option exn :=
  match serialise with
  | Err e => ([], Some e)
  | Ok l => match can_open with
            | Some e => ([], Some e)
            | None => let '(es, x) := dump l in (Truncate :: es, x)
            end
  end.

(** The file, or None when there is none. *)
Definition apply (file : option string) (e : effect) : option string :=
  match e, file with
  | Truncate, _ => Some ""%string
  | Write s, Some t => Some (t ++ s)%string
  | Write s, None => Some s
  end.
Definition after (file : option string) (l : list effect) : option string := fold_left apply l file.
(** The file when the process stops after [k] of the operations. *)
Definition interrupted (file : option string) (k : nat) (l : list effect) : option string := after file (firstn k l).
