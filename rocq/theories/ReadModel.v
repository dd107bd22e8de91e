(** Model of what the compiled code reads from the arrays Python hands to it:
    - [one_d_spectrum], src/c_lib/base/base_model.pyx lines 183-197 (the affine matrix), 249-284, 345-375 (the sites and
      couplings of a spin system), 439-484 (the array of transition pathways and the pointer into it);
    - [__mrsimulator_core], src/c_lib/lib/simulation.c lines 93-151 (the pointer walks through the pathway);
    - [MRS_rotate_single_site_interaction_components] and [MRS_rotate_coupled_site_interaction_components],
      src/c_lib/lib/mrsimulator.c lines 453-524 and 526-566;
    - [Coupling.validate_site_index], src/mrsimulator/spin_system/coupling.py lines 184-190;
    - [Method.validate_affine_matrix], src/mrsimulator/method/__init__.py lines 193-203.
    base_model.pyx is compiled without bounds checks and without negative indexes (lines 13-14), and C has none.

    Simplifications.  Arithmetic is exact.  A read is the pair of the index read and the number of elements of the array;
    the values read and what is computed from them are in FreqModel.v.  The reads of the flags of frequency contributions
    are in FreqModel.v (C33), those of the arrays the C code allocates itself in MemModel.v. *)
From Coq Require Import String List ZArith Bool Qcanon.
From Verif Require Import Base PathwayModel.
Import ListNotations.
Open Scope Z_scope.

Definition zlen {A} (l : list A) : Z := Z.of_nat (List.length l).

(** An index and the number of elements of the array it is used on. *)
Definition access := (Z * Z)%type.

(** ** Couplings *)
(** coupling.py lines 184-190; [List[int]] (line 153) is a list of integers. *)
Definition validate_site_index (v : list Z) : pyres (Z * Z) :=
  match v with
  | [a; x] => if a =? x then Err ValueError else Ok (a, x)
  | _ => Err ValueError
  end.

(** ** One transition pathway in C *)
(** mrsimulator.c lines 466-523: [mi] starts at [transition], [mf] at [&transition[n_sites]]; every turn of the loop reads
    both and moves both by one, on each of its paths. *)
Fixpoint site_reads (k : nat) (mi mf : Z) : list Z :=
  match k with O => [] | S k' => mi :: mf :: site_reads k' (mi + 1) (mf + 1) end.

(** [int + unsigned int] is an unsigned int. *)
Definition uint32 (z : Z) : Z := z mod 2 ^ 32.

(** mrsimulator.c lines 542-548; [p] is the index of [transition[0]]. *)
Definition coupling_reads (n_sites p : Z) (c : Z * Z) : list Z :=
  let '(site_index_A, site_index_X) := c in
  [p + site_index_A; p + site_index_X; p + uint32 (site_index_A + n_sites); p + uint32 (site_index_X + n_sites)].

(** mrsimulator.c lines 573-609. *)
Definition rotate_reads (n_sites : nat) (couplings : list (Z * Z)) (p : Z) : list Z :=
  site_reads n_sites p (p + Z.of_nat n_sites) ++ flat_map (coupling_reads (Z.of_nat n_sites) p) couplings.

(** simulation.c lines 107-150: the loop over the events of one dimension; [transition_increment = 2*number_of_sites]. *)
Fixpoint event_reads (n_sites : nat) (couplings : list (Z * Z)) (k : nat) (p : Z) : list Z * Z :=
  match k with
  | O => ([], p)
  | S k' =>
      let here := rotate_reads n_sites couplings p in
      let '(rest, p') := event_reads n_sites couplings k' (p + 2 * Z.of_nat n_sites) in
      (here ++ rest, p')
  end.

(** simulation.c lines 104-151: the loop over the dimensions ([n_events] has one number of events per dimension). *)
Fixpoint core_reads (n_sites : nat) (couplings : list (Z * Z)) (n_events : list nat) (p : Z) : list Z :=
  match n_events with
  | [] => []
  | k :: r => let '(here, p') := event_reads n_sites couplings k p in here ++ core_reads n_sites couplings r p'
  end.

(** ** The driver *)
(** The attributes of a SpinSystem that decide what is read: the isotopes of its sites, the site indexes of its couplings
    (validated as above, else None), and the pathways the user gave, or None. *)
Record system := {
  s_isotopes : list string;
  s_couplings : option (list (Z * Z));
  s_pathways : option (list (list transition)) }.

(** Transition.tolist, transition/base.py lines 98-108: [initial + final]. *)
Definition tolist (t : transition) : list Qc := fst t ++ snd t.

Definition all_same (l : list nat) : bool :=
  match l with [] => true | x :: r => forallb (Nat.eqb x) r end.

(** The array [transition_pathway_c], [pathway_count] and [transition_count_per_pathway] (lines 440-450).  The unpacking of
    [shape[:2]] raises ValueError for an empty list of pathways and for pathways of different lengths (the array has one
    dimension then), the conversion to float32 for transitions of different lengths.  The arrays the method makes and the
    lists the user gives go through the same conversion here: the former always have the same shapes. *)
Definition pack (w : list (list transition)) : pyres (list Qc * nat * nat) :=
  match w with
  | [] => Err ValueError
  | p0 :: _ =>
      if all_same (map (@List.length transition) w) && all_same (map (fun t => List.length (tolist t)) (concat w))
      then Ok (flat_map tolist (concat w), List.length w, List.length p0)
      else Err ValueError
  end.

(** p_number_of_sites, p_isotopes, transition_pathway_c, pathway_count and pathway_increment (lines 206-208, 450-454). *)
Record pcache := {
  q_nsites : nat; q_isotopes : option (list string);
  q_array : list Qc; q_count : nat; q_increment : Z }.
Definition pcache0 : pcache := {| q_nsites := 0; q_isotopes := None; q_array := []; q_count := 0; q_increment := 0 |}.

Definition same_isotopes (a : list string) (b : option (list string)) : bool :=
  match b with None => false | Some b => if list_eq_dec string_dec a b then true else false end.

Section Driver.
(** [method._get_transition_pathways_np], as a function of the isotopes of the spin system; PathwayModel.v gives it. *)
Variable get_pathways : list string -> pyres (list (list transition)).
(** The channel of the method, and the number of events of each of its spectral dimensions. *)
Variables (channel : string) (n_events : list nat).

(** Lines 439-454. *)
Definition refresh (s : system) (c : pcache) : pyres pcache :=
  let number_of_sites := List.length (s_isotopes s) in
  if negb (Nat.eqb number_of_sites (q_nsites c)) && negb (same_isotopes (s_isotopes s) (q_isotopes c))
  then
    let* w := match s_pathways s with None => get_pathways (s_isotopes s) | Some w => Ok w end in
    let* (array, pathway_count, transition_count_per_pathway) := pack w in
    Ok {| q_nsites := number_of_sites; q_isotopes := Some (s_isotopes s); q_array := array; q_count := pathway_count;
          q_increment := 2 * Z.of_nat number_of_sites * Z.of_nat transition_count_per_pathway |}
  else Ok c.

(** Lines 468-484, and 351 ([number_of_couplings] is 0 without couplings): one call of the core per pathway, with a
    pointer to [transition_pathway_c[pathway_increment*trans__]]. *)
Definition system_reads (s : system) (c : pcache) : list access :=
  let couplings := match s_couplings s with None => [] | Some l => l end in
  flat_map (fun trans => map (fun i => (i, zlen (q_array c)))
    (core_reads (List.length (s_isotopes s)) couplings n_events (q_increment c * Z.of_nat trans)))
    (seq 0 (q_count c)).

(** Lines 249-484: the loop over the spin systems; the reads made and, if the loop was left by one, the exception. *)
Fixpoint systems_reads (l : list system) (c : pcache) : list access * option exn :=
  match l with
  | [] => ([], None)
  | s :: r =>
      if existsb (String.eqb channel) (s_isotopes s) then
        match refresh s c with
        | Err e => ([], Some e)
        | Ok c' => let '(rest, e) := systems_reads r c' in (system_reads s c' ++ rest, e)
        end
      else systems_reads r c
  end.
Definition run_reads (l : list system) : list access * option exn := systems_reads l pcache0.
End Driver.

(** ** The affine matrix *)
(** The attributes of a Method that matter here: the number of its spectral dimensions and the elements of its affine
    matrix in the order of [ravel], or None. *)
Record meth := { m_dims : nat; m_affine : option (list Qc) }.

(** What a user can do to these: assign the spectral dimensions (validated on its own, method/__init__.py line 131;
    the same number results from changing the list in place), assign the affine matrix. *)
Inductive op := SetDims (n : nat) | SetAffine (v : option (list Qc)).

(** method/__init__.py lines 193-203; a refused value leaves the attribute alone.  [v.ravel()[0]] of an empty array
    raises IndexError. *)
Definition validate_affine_matrix (dim_len : nat) (v : option (list Qc)) : pyres (option (list Qc)) :=
  match v with
  | None => Ok None
  | Some v =>
      if negb (Nat.eqb (List.length v) (dim_len ^ 2)) then Err ValueError
      else match v with
           | [] => Err IndexError
           | x :: _ => if Qc_eq_dec x 0%Qc then Err ValueError else Ok (Some v)
           end
  end.

Definition step (m : meth) (o : op) : meth :=
  match o with
  | SetDims n => {| m_dims := n; m_affine := m_affine m |}
  | SetAffine v => match validate_affine_matrix (m_dims m) v with
                   | Ok a => {| m_dims := m_dims m; m_affine := a |}
                   | Err _ => m
                   end
  end.
Definition history (m : meth) (l : list op) : meth := fold_left step l m.
(** Method(): one spectral dimension, no affine matrix (lines 131-132). *)
Definition meth0 : meth := {| m_dims := 1; m_affine := None |}.

(** The product of two one dimensional numpy arrays: an array of one element is stretched. *)
Definition np_mul (a b : list Qc) : pyres (list Qc) :=
  if Nat.eqb (List.length a) (List.length b) then Ok (zip_with Qcmult a b)
  else match a, b with
       | [x], _ => Ok (map (Qcmult x) b)
       | _, [y] => Ok (map (fun x => Qcmult x y) a)
       | _, _ => Err ValueError
       end.

(** Reading or writing an element without a bounds check: outside of the array a read gives some number [outside]. *)
Definition read_raw (outside : Qc) (a : list Qc) (i : nat) : Qc := nth i a outside.

(** base_model.pyx lines 186-197: the array handed to the core and the reads and writes made while preparing it.
    [incre] has one increment per spectral dimension. *)
Definition affine_prepare (outside : Qc) (incre : list Qc) (affine : option (list Qc)) : pyres (list Qc * list access) :=
  match affine with
  | None => Ok ([1%Qc; 0%Qc; 0%Qc; 1%Qc], [])
  | Some m =>
      let increment_fraction := flat_map (fun item => map (fun x => Qcdiv x item) incre) incre in
      let* a := np_mul m increment_fraction in
      let n := zlen a in
      if Qc_eq_dec (read_raw outside a 2) 0%Qc then Ok (a, [(2, n)])
      else
        let a2 := Qcdiv (read_raw outside a 2) (read_raw outside a 0) in
        let b := upd_nat a 2 a2 in
        let b3 := Qcminus (read_raw outside b 3) (Qcmult (read_raw outside b 1) (read_raw outside b 2)) in
        Ok (upd_nat b 3 b3, [(2, n); (2, n); (0, n); (2, n); (3, n); (1, n); (2, n); (3, n)])
  end.

(** simulation.c lines 162-170 and frequency_averaging.c: with two dimensions the core reads the four elements
    of the matrix, else none. *)
Definition affine_core (n_dims : nat) (a : list Qc) : list access :=
  if Nat.eqb n_dims 2 then map (fun i => (i, zlen a)) [0; 1; 2; 3] else [].

(** The reads and writes of the array of the affine matrix during a run of the method. *)
Definition affine_run (outside : Qc) (incre : list Qc) (m : meth) : pyres (list access) :=
  let* (a, prep) := affine_prepare outside incre (m_affine m) in
  Ok (prep ++ affine_core (m_dims m) a).
