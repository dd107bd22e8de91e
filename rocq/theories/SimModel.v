(** Model of the simulation driver:
    - [one_d_spectrum], src/c_lib/base/base_model.pyx lines 206-508 (the loop over spin systems
      with its transition pathway cache);
    - [Simulator.run], src/mrsimulator/simulator/__init__.py lines 404-479.

    Simplifications.  Arithmetic is exact (canonical rationals [Qc]).  A spectrum is the flat list of
    its [npts] values; the reshape to [method.shape()] is not modelled.  The C routine
    [__mrsimulator_core] (line 469) is the field [core]: it adds [core isotopes data w k] to
    bin [k] for a spin system with these sites' isotopes and data and the pathway [w]; it does not read the abundance.  [method._get_transition_pathways_np] depends on the spin
    system only through the isotopes of its sites (method/__init__.py lines 336-372) and is
    the field [get_pathways] here; PathwayModel.v gives it concretely. *)
From Coq Require Import List ZArith Bool String Qcanon.
From Verif Require Import Base ChunksModel.
Import ListNotations.
Open Scope Qc_scope.

(** numpy arrays of [n] numbers. *)
Definition vzero (n : nat) : list Qc := repeat 0 n.
Fixpoint vadd (a b : list Qc) : list Qc :=
  match a, b with x :: a', y :: b' => (x + y) :: vadd a' b' | _, _ => [] end.
Definition vscale (c : Qc) (a : list Qc) : list Qc := map (fun x => x * c) a.
(** [np.asarray(l).sum(axis=0)] for arrays of length [n] *)
Definition vsum (n : nat) (l : list (list Qc)) : list Qc := fold_left vadd l (vzero n).

Section Sim.
(** [P]: a transition pathway; [D]: all other attributes of a spin system. *)
Variables (P D : Type).

(** The attributes of a SpinSystem read by the driver (base_model.pyx 250-259, 440). *)
Record spin_sys := {
  ss_isotopes : list string;            (* site.isotope.symbol for each site *)
  ss_abundance : Qc;
  ss_pathways : option (list P);        (* user supplied transition_pathways, or None *)
  ss_data : D }.

(** The attributes of the method read by the driver. *)
Record meth := {
  channel : string;                     (* line 51 *)
  gamma_negative : bool;                (* line 496: gyromagnetic_ratio < 0 *)
  npts : nat;                           (* total_n_points, line 146 *)
  norm : Qc;                            (* np.prod(incre), line 171 *)
  get_pathways : list string -> pyres (list P);
  core : list string -> D -> P -> nat -> Qc;
  flip : nat -> nat }.                  (* index map of fftn(ifftn(x).conj()).real, line 497; see AxisModel.v *)

(** [channel not in isotopes] (line 252). *)
Definition has_channel (m : meth) (s : spin_sys) : bool :=
  existsb (String.eqb (channel m)) (ss_isotopes s).

(** The variables p_number_of_sites, p_isotopes, transition_pathway_c/pathway_count
    (lines 206-208, 439-454). *)
Record cache := { p_nsites : nat; p_isotopes : option (list string); p_paths : list P }.
Definition cache0 : cache := {| p_nsites := 0; p_isotopes := None; p_paths := [] |}.

Definition isotopes_eqb (a b : list string) : bool :=
  if list_eq_dec string_dec a b then true else false.

(** Lines 440-448: the pathways of one spin system.  An empty pathway array has shape (0,), so that
    [pathway_count, transition_count_per_pathway = transition_pathway.shape[:2]] (line 450)
    raises ValueError. *)
Definition paths_of (m : meth) (s : spin_sys) : pyres (list P) :=
  let* w := match ss_pathways s with None => get_pathways m (ss_isotopes s) | Some w => Ok w end in
  match w with [] => Err ValueError | _ => Ok w end.

(** Lines 439-454: recompute the pathways when
    [number_of_sites != p_number_of_sites and isotopes != p_isotopes]. *)
Definition update_cache (m : meth) (s : spin_sys) (c : cache) : pyres cache :=
  let number_of_sites := List.length (ss_isotopes s) in
  if negb (Nat.eqb number_of_sites (p_nsites c)) &&
     negb (match p_isotopes c with None => false | Some i => isotopes_eqb (ss_isotopes s) i end)
  then let* w := paths_of m s in
       Ok {| p_nsites := number_of_sites; p_isotopes := Some (ss_isotopes s); p_paths := w |}
  else Ok c.

(** Lines 432, 468-484: [amp] starts at zero, every pathway adds to it, then
    [temp = amp*abundance/norm]. *)
Definition system_amp (m : meth) (s : spin_sys) (w : list P) : list Qc :=
  let amp := fold_left (fun amp p => vadd amp (map (core m (ss_isotopes s) (ss_data s) p) (seq 0 (npts m)))) w (vzero (npts m)) in
  map (fun x => x * ss_abundance s / norm m) amp.

(** Lines 249-492 with decompose_spectrum = 0. *)
Definition step_sum (m : meth) (s : spin_sys) (st : cache * list Qc) : pyres (cache * list Qc) :=
  let '(c, amp1) := st in
  if negb (has_channel m s) then Ok st else
  let* c' := update_cache m s c in
  Ok (c', vadd amp1 (system_amp m s (p_paths c'))).

(** Lines 249-492 with decompose_spectrum = 1. *)
Definition step_dec (m : meth) (s : spin_sys) (st : cache * list (list Qc)) : pyres (cache * list (list Qc)) :=
  let '(c, ai) := st in
  if negb (has_channel m s) then Ok (c, ai ++ [[]]) else
  let* c' := update_cache m s c in
  Ok (c', ai ++ [system_amp m s (p_paths c')]).

(** Lines 496-503: reversal of one array for a negative gyromagnetic ratio.  numpy's fft of an
    empty array raises ValueError. *)
Definition reverse_arr (m : meth) (a : list Qc) : pyres (list Qc) :=
  match a with
  | [] => Err ValueError
  | _ => mapM (fun k => py_index a (Z.of_nat (flip m k))) (seq 0 (List.length a))
  end.

(** The value returned by one_d_spectrum: an ndarray or a list of ndarrays / empty lists. *)
Inductive amp_result := Arr (v : list Qc) | Lst (l : list (list Qc)).

(** [one_d_spectrum] with decompose_spectrum = 0, lines 249-508. *)
Definition one_d_sum (m : meth) (systems : list spin_sys) : pyres (list Qc) :=
  let* st := for_each systems (step_sum m) (cache0, vzero (npts m)) in
  if gamma_negative m then reverse_arr m (snd st) else Ok (snd st).

(** [one_d_spectrum] with decompose_spectrum = 1, lines 249-508: with an empty list of
    individual amplitudes the zero array is returned (line 500). *)
Definition one_d_dec (m : meth) (systems : list spin_sys) : pyres amp_result :=
  let* st := for_each systems (step_dec m) (cache0, []) in
  match snd st with
  | [] => let* v := (if gamma_negative m then reverse_arr m (vzero (npts m)) else Ok (vzero (npts m))) in Ok (Arr v)
  | ai => if gamma_negative m then let* l := mapM (reverse_arr m) ai in Ok (Lst l) else Ok (Lst ai)
  end.

(** Simulator.run lines 439-473 with decompose_spectrum = "none".
    [amp[0]] raises IndexError when there is no chunk (line 468).  joblib returns the results in
    order. *)
Definition run_sum (cpu : Z) (m : meth) (systems : list spin_sys) (n_jobs : Z) : pyres (list Qc) :=
  let* chunks := get_chunks cpu systems n_jobs in
  let* amp := mapM (one_d_sum m) chunks in
  match amp with
  | [] => Err IndexError
  | _ => Ok (vsum (npts m) amp)
  end.

(** [simulated_data += item] (line 471).  For a list item this is concatenation.  For an ndarray
    item (a chunk without spin systems, all zeros) Python evaluates the numpy sum
    [np.asarray(simulated_data) + item]: it broadcasts [item] over the entries when they all have its
    shape and raises ValueError otherwise (simplification: the degenerate broadcasts possible when the
    spectrum has a single point are not modelled). *)
Definition iadd (n : nat) (acc : list (list Qc)) (item : amp_result) : pyres (list (list Qc)) :=
  match item with
  | Lst l => Ok (acc ++ l)
  | Arr v => if forallb (fun e => Nat.eqb (List.length e) n) acc
             then Ok (map (fun e => vadd e v) acc) else Err ValueError
  end.

(** Simulator.run lines 439-473 with decompose_spectrum = "spin_system". *)
Definition run_dec (cpu : Z) (m : meth) (systems : list spin_sys) (n_jobs : Z) : pyres (list (list Qc)) :=
  let* chunks := get_chunks cpu systems n_jobs in
  let* amp := mapM (one_d_dec m) chunks in
  match amp with
  | [] => Err IndexError
  | Lst _ :: _ => for_each amp (fun item acc => iadd (npts m) acc item) []
  | Arr _ :: _ =>
      (* np.asarray(amp).sum(axis=0): all chunks are empty here, see SimProofs *)
      let* vs := mapM (fun a => match a with Arr v => Ok v | Lst _ => Err ValueError end) amp in
      Ok [vsum (npts m) vs]
  end.
End Sim.

Arguments ss_isotopes {P D}. Arguments ss_abundance {P D}. Arguments ss_pathways {P D}. Arguments ss_data {P D}.
Arguments channel {P D}. Arguments gamma_negative {P D}. Arguments npts {P D}. Arguments norm {P D}.
Arguments get_pathways {P D}. Arguments core {P D}. Arguments flip {P D}.
Arguments has_channel {P D}. Arguments paths_of {P D}. Arguments system_amp {P D}. Arguments one_d_sum {P D}.
Arguments one_d_dec {P D}. Arguments run_sum {P D}. Arguments run_dec {P D}. Arguments step_sum {P D}.
Arguments step_dec {P D}. Arguments update_cache {P D}. Arguments cache0 {P}. Arguments p_nsites {P}.
Arguments p_isotopes {P}. Arguments p_paths {P}. Arguments reverse_arr {P D}.

(** ** Simulator.run over the methods, simulator/__init__.py lines 432-479 *)
Section Run.
(** [I]: the part of a method the simulation reads; [S]: a stored simulation. *)
Variables (I S : Type).
Record method_obj := { m_input : I; m_origin : Qc; m_simulation : option S }.

(** [simulate i] stands for lines 439-473 and 475-479 (chunks, one_d_spectrum, packing); the loop
    body lines 462-466 set origin_offset of every dimension to [origin i] = |B0 gamma 1e6|.
    Simplification: the origin offsets of the dimensions, all set to the same value, are one field. *)
Variables (simulate : I -> pyres S) (origin : I -> Qc).

Definition run_one (methods : list method_obj) (index : Z) : pyres (list method_obj) :=
  let* mth := py_index methods index in
  let* s := simulate (m_input mth) in
  py_assign methods index {| m_input := m_input mth; m_origin := origin (m_input mth); m_simulation := Some s |}.

(** [method_index=None] selects all methods (line 434). *)
Definition run_methods (methods : list method_obj) (method_index : option (list Z)) : pyres (list method_obj) :=
  let idx := match method_index with
             | None => map Z.of_nat (seq 0 (List.length methods))
             | Some l => l end in
  for_each idx (fun i ms => run_one ms i) methods.
End Run.
Arguments m_input {I S}. Arguments m_origin {I S}. Arguments m_simulation {I S}.
Arguments run_methods {I S}. Arguments run_one {I S}.
