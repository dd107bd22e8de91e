(** Model of src/mrsimulator/signal_processing: the operations on a csdm dataset, and of the parameters of operations in
    src/mrsimulator/utils/spectral_fitting.py lines 204-246.
    Numbers are exact reals.  Units are their size in a coherent system: a value v in a unit u stands for v * u.  Of csdmpy the model has
    the coordinates of a linear dimension, the order of the axes of the components (components first, then the dimensions from last to
    first) and that [fft] returns a new dataset; the transform itself is a parameter. *)
From Coq Require Import Reals ZArith Bool Ascii String List.
From Coquelicot Require Import Complex.
From Verif Require Import Base DftModel FitModel.
Import ListNotations.
Open Scope list_scope.
Open Scope R_scope.

Record dimension := mkDim { d_count : nat; d_increment : R; d_offset : R; d_reciprocal_offset : R; d_unit : R; d_fft : bool }.
Definition coordinates (d : dimension) : list R :=
  map (fun i => d_increment d * (INR i - (if d_fft d then INR (d_count d / 2) else 0)) + d_offset d) (seq 0 (d_count d)).
(** One dependent variable: the shape of its components array and the entries at indexes in the order of the axes. *)
Record variable := mkVar { v_shape : list nat; v_at : list nat -> C }.
Record dataset := mkData { dims : list dimension; dvs : list variable }.

(** numpy's in-place product [v *= w] for an array [w] of the same number of axes: every axis has the length of that of [v], or 1. *)
Fixpoint broadcasts (shape operand : list nat) : bool :=
  match shape, operand with
  | [], [] => true
  | s :: sh, o :: op => ((o =? s)%nat || (o =? 1)%nat) && broadcasts sh op
  | _, _ => false
  end.
Fixpoint clip (operand idx : list nat) : list nat :=
  match operand, idx with o :: op, i :: r => (if (o =? 1)%nat then O else i) :: clip op r | _, _ => [] end.
Definition imul (v w : variable) : pyres variable :=
  if broadcasts (v_shape v) (v_shape w) then Ok (mkVar (v_shape v) (fun idx => v_at v idx * v_at w (clip (v_shape w) idx))%C)
  else Err ValueError.

(** utils.py lines 12-20: the vector along the axis of dimension [dim], every other axis of length 1. *)
Fixpoint pick (sel : list bool) (idx : list nat) : nat :=
  match sel, idx with b :: s, i :: r => if b then i else pick s r | _, _ => O end.
Definition get_broadcast_shape (array : list C) (dim : Z) (ndim : nat) : pyres variable :=
  let* sel := py_assign (repeat false (ndim + 1)) (- dim - 1) true in
  Ok (mkVar (map (fun b : bool => if b then length array else 1%nat) sel) (fun idx => nth (pick sel idx) array (RtoC 0))).

(** dim_index and dv_index: an integer or a list of them. *)
Inductive sel := One (z : Z) | Many (l : list Z).
Definition as_list (s : sel) : list Z := match s with One z => [z] | Many l => l end.
(** _base.py lines 29-42. *)
Definition get_dv_indexes (indexes : option sel) (n : nat) : list Z :=
  match indexes with None => zrange 0 (Z.of_nat n) | Some s => as_list s end.
(** [for i in dv_indexes: data.dependent_variables[i].components *= w] *)
Definition multiply_variables (indexes : list Z) (w : variable) (l : list variable) : pyres (list variable) :=
  for_each indexes (fun i l => let* v := py_index l i in let* v' := imul v w in py_assign l i v') l.

(** apodization.py lines 40-62. *)
Definition apodize (fn : dimension -> pyres (list R)) (dim_index : sel) (dv_index : option sel) (data : dataset) : pyres dataset :=
  let ndim := length (dims data) in
  let* l := for_each (as_list dim_index) (fun i l =>
      let* d := py_index (dims data) i in
      let* f := fn d in
      let* w := get_broadcast_shape (map RtoC f) i ndim in
      multiply_variables (get_dv_indexes dv_index (length l)) w l) (dvs data) in
  Ok (mkData (dims data) l).

(** The unit of FWHM: none until a string with a unit is given; [1 / ""] is a TypeError then.  Lines 36-38: the coordinates in the
    inverse unit. *)
Definition in_inverse_unit (d : dimension) (unit : option R) : pyres (list R) :=
  match unit with None => Err TypeError | Some u => Ok (map (fun x => x * d_unit d * u) (coordinates d)) end.
(** apodization.py lines 153-155. *)
Definition exponential_fn (FWHM : R) (unit : option R) (d : dimension) : pyres (list R) :=
  let* x := in_inverse_unit d unit in Ok (map (fun x => exp (- FWHM * PI * Rabs x)) x).
(** numpy's ifftshift of a vector of length n, as a map of indexes. *)
Definition ifftshift (n i : nat) : nat := (i + n / 2) mod n.
(** apodization.py lines 105-111.  [np.fft.ifft(...).real] of a real vector is a sum of cosines.  Divisions by zero, which give nan in
    numpy, are errors here. *)
Definition gaussian_fn (FWHM : R) (unit : option R) (d : dimension) : pyres (list R) :=
  let* x := in_inverse_unit d unit in
  let n := length x in
  match x with
  | [] => Err IndexError
  | x0 :: _ =>
      let span := last x 0 - x0 in
      let sigma := FWHM / (2354820045030949 / 1000000000000000) in
      if Req_EM_T span 0 then Err OtherException else if Req_EM_T sigma 0 then Err OtherException else
      let xinv k := (INR (ifftshift n k) - INR (n / 2)) / span in
      let g k := exp (- (1 / 2) * (xinv k / sigma) ^ 2) in
      let amp m := / INR n * rsum n (fun k => g k * cos (2 * PI * (INR k * INR m) / INR n)) in
      Ok (map (fun i => amp (ifftshift n i) / (sigma * sqrt (2 * PI))) (seq 0 n))
  end.
(** affine.py lines 108-142.  A factor given as a number has the unit 1. *)
Definition shear (factor unit : R) (dim_index parallel : Z) (dv_index : option sel) (data : dataset) : pyres dataset :=
  let n_dim := length (dims data) in
  let* x := py_index (dims data) dim_index in
  let* y := py_index (dims data) parallel in
  let* vector_x := get_broadcast_shape (map RtoC (coordinates x)) dim_index n_dim in
  let* vector_y := get_broadcast_shape (map RtoC (coordinates y)) parallel n_dim in
  let multiplier := (/ unit) / (d_unit x * d_unit y) in
  let shape := map (fun ab => if (fst ab =? 1)%nat then snd ab else fst ab) (combine (v_shape vector_x) (v_shape vector_y)) in
  let xy idx := fst (v_at vector_x (clip (v_shape vector_x) idx) * v_at vector_y (clip (v_shape vector_y) idx))%C in
  let w := mkVar shape (fun idx => cis (-2 * PI * xy idx * factor * multiplier)) in
  let* l := multiply_variables (get_dv_indexes dv_index (length (dvs data))) w (dvs data) in
  Ok (mkData (dims data) l).
(** affine.py lines 167-176.  An offset divided by zero is an error here, inf in astropy. *)
Definition scale_dimension (factor : R) (dim_index : Z) (data : dataset) : pyres dataset :=
  let* d := py_index (dims data) dim_index in
  if Req_EM_T factor 0 then Err OtherException else
  let* l := py_assign (dims data) dim_index
    (mkDim (d_count d) (d_increment d * factor) (d_offset d * factor) (d_reciprocal_offset d / factor) (d_unit d) (d_fft d)) in
  Ok (mkData l (dvs data)).
(** __init__.py lines 94-121: [data *= factor]. *)
Definition scale_data (factor : R) (data : dataset) : dataset :=
  mkData (dims data) (map (fun v => mkVar (v_shape v) (fun idx => v_at v idx * RtoC factor)%C) (dvs data)).

Inductive operation :=
| Scale (factor : R)
| FFT (dim_index : sel)  (** IFFT and FFT are the same code, lines 124-166 *)
| Exponential (FWHM : R) (unit : option R) (dim_index : sel) (dv_index : option sel)
| Gaussian (FWHM : R) (unit : option R) (dim_index : sel) (dv_index : option sel)
| Shear (factor unit : R) (dim_index parallel : Z) (dv_index : option sel)
| AffineScale (factor : R) (dim_index : Z).

Section Apply.
  (** csdmpy's transform along one dimension, a new dataset. *)
  Variable fft : Z -> dataset -> pyres dataset.
  Definition operate (o : operation) (data : dataset) : pyres dataset :=
    match o with
    | Scale f => Ok (scale_data f data)
    | FFT s => for_each (as_list s) fft data
    | Exponential f u s v => apodize (exponential_fn f u) s v data
    | Gaussian f u s v => apodize (gaussian_fn f u) s v data
    | Shear f u d p v => shear f u d p v data
    | AffineScale f d => scale_dimension f d data
    end.
  (** __init__.py lines 77-91. *)
  Definition apply_operations (ops : list operation) (data : dataset) : pyres dataset := for_each ops operate data.

  (** The same with the caller's object in view: its content, the content of the object at hand, and whether the two are one object.
      Every operation but the transform changes the object at hand; a transform along at least one dimension is a new object. *)
  Record objects := mkObj { given : dataset; current : dataset; same : bool }.
  Definition new_object (o : operation) : bool := match o with FFT s => negb (Nat.eqb (length (as_list s)) 0) | _ => false end.
  Definition operate_on_objects (o : operation) (h : objects) : pyres objects :=
    let* d := operate o (current h) in
    Ok (if new_object o then mkObj (given h) d false else mkObj (if same h then d else given h) d (same h)).
  Definition apply_on_objects (ops : list operation) (data : dataset) : pyres objects := for_each ops operate_on_objects (mkObj data data true).
End Apply.

(** ** Parameters of operations *)
Open Scope string_scope.
(** [operation.__class__.__name__] *)
Definition class_name (o : operation) : string :=
  match o with
  | Scale _ => "Scale" | FFT _ => "FFT" | Exponential _ _ _ _ => "Exponential" | Gaussian _ _ _ _ => "Gaussian"
  | Shear _ _ _ _ _ => "Shear" | AffineScale _ _ => "Scale"
  end.
(** spectral_fitting.py line 55. *)
Definition POST_SIM_DICT : list (string * string) := [("Gaussian", "FWHM"); ("Exponential", "FWHM"); ("Scale", "factor")].
Definition post_attr (name : string) : option string :=
  match find (fun kv => String.eqb (fst kv) name) POST_SIM_DICT with Some kv => Some (snd kv) | None => None end.
Definition get_attr (o : operation) (attr : string) : pyres R :=
  match o with
  | Scale f | Shear f _ _ _ _ | AffineScale f _ => if String.eqb attr "factor" then Ok f else Err AttributeError
  | Exponential f _ _ _ | Gaussian f _ _ _ => if String.eqb attr "FWHM" then Ok f else Err AttributeError
  | FFT _ => Err AttributeError
  end.
Definition set_attr (o : operation) (attr : string) (v : R) : pyres operation :=
  match o with
  | Scale _ => if String.eqb attr "factor" then Ok (Scale v) else Err ValueError
  | Shear _ u d p s => if String.eqb attr "factor" then Ok (Shear v u d p s) else Err ValueError
  | AffineScale _ d => if String.eqb attr "factor" then Ok (AffineScale v d) else Err ValueError
  | Exponential _ u d s => if String.eqb attr "FWHM" then Ok (Exponential v u d s) else Err ValueError
  | Gaussian _ u d s => if String.eqb attr "FWHM" then Ok (Gaussian v u d s) else Err ValueError
  | FFT _ => Err ValueError
  end.
(** Lines 204-226. *)
Fixpoint post_sim_params_from (i : nat) (ops : list operation) : pyres (list (string * R)) :=
  match ops with
  | [] => Ok []
  | o :: r =>
      match post_attr (class_name o) with
      | None => post_sim_params_from (S i) r
      | Some attr =>
          let* v := get_attr o attr in
          let* l := post_sim_params_from (S i) r in
          Ok (("operation_" ++ dec i ++ "_" ++ class_name o ++ "_" ++ attr, v) :: l)
      end
  end.
Definition post_sim_LMFIT_params (ops : list operation) : pyres (list (string * R)) := post_sim_params_from 0 ops.
(** Lines 229-246. *)
Definition update_post_sim (params : list (string * R)) (ops : list operation) : pyres (list operation) :=
  for_each params (fun nv ops =>
    if contains "operation_" (fst nv) then
      let split_name := split "_"%char (fst nv) in
      let* index := py_index split_name 1 in
      if isnumeric index then
        let* o := py_index ops (Z.of_nat (int_of index)) in
        let* key := py_index split_name 2 in
        match post_attr key with
        | None => Err KeyError
        | Some attr => let* o' := set_attr o attr (snd nv) in py_assign ops (Z.of_nat (int_of index)) o'
        end
      else Err ValueError
    else Ok ops) ops.
