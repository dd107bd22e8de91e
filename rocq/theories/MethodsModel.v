(** Model of the named methods: src/mrsimulator/methods/mqvas.py lines 14-25 and 74-99, stvas.py lines 13-22 and 58-88,
    ssb2d.py lines 110-125, and the queries of methods_data.json.  Python floats that are exact here (multiples of 1/2) and the
    quotients of the tables are rationals. *)
From Coq Require Import ZArith QArith Bool String Qcanon List.
From Verif Require Import Base PathwayModel.
Import ListNotations.
Open Scope Qc_scope.

Definition half (n : Z) : Qc := Q2Qc (n # 2).
Definition quot (n : Z) (d : positive) : Qc := Q2Qc (n # d).

(** mqvas.py lines 14-19. *)
Definition shear_factor_MQ_MAS : list (Z * list (Qc * Qc)) :=
  [(3%Z, [(half 3, quot 21 27); (half 5, quot 114 72); (half 7, quot 303 135); (half 9, quot 546 216)]);
   (5%Z, [(half 5, quot 150 72); (half 7, quot 165 135); (half 9, quot 570 216)]);
   (7%Z, [(half 7, quot 483 135); (half 9, quot 84 216)]);
   (9%Z, [(half 9, quot 1116 216)])].
(** Lines 21-25. *)
Definition MQ_p_symmetry : list (string * Qc) := [("ThreeQ_VAS", half 3); ("FiveQ_VAS", half 5); ("SevenQ_VAS", half 7)]%string.
(** stvas.py lines 13-18, 20. *)
Definition shear_factor_ST_MAS : list (Z * list (Qc * Qc)) :=
  [(3%Z, [(half 3, quot 24 27); (half 5, quot 21 72); (half 7, quot 84 135); (half 9, quot 165 216)]);
   (5%Z, [(half 5, quot 132 72); (half 7, quot 69 135); (half 9, quot 12 216)]);
   (7%Z, [(half 7, quot 324 135); (half 9, quot 243 216)]);
   (9%Z, [(half 9, quot 600 216)])].
Definition ST_p_symmetry : list (string * Qc) := [("ST1_VAS", half 3); ("ST2_VAS", half 5)]%string.

(** [d[k]] of a dict. *)
Fixpoint lookup {K V} (eqb : K -> K -> bool) (d : list (K * V)) (k : K) : pyres V :=
  match d with [] => Err KeyError | (k', v) :: r => if eqb k k' then Ok v else lookup eqb r k end.
Definition qc_eqb (a b : Qc) : bool := if Qc_eq_dec a b then true else false.
Definition shear (table : list (Z * list (Qc * Qc))) (n : Z) (spin : Qc) : pyres Qc :=
  let* row := lookup Z.eqb table n in lookup qc_eqb row spin.
(** [int(x)]. *)
Definition trunc (x : Qc) : Z := Z.quot (Qnum (this x)) (Zpos (Qden (this x))).
Definition of_int (z : Z) : Qc := Q2Qc (inject_Z z).

(** A query on channel-1 with the given items. *)
Definition query := (sym_query (list Qc) * sym_query (list Qc))%type.
Definition channel1 (items : list (list Qc)) : sym_query (list Qc) := Some [(1%nat, items)].

(** The affine matrix (row major): the user's, or the shear.  [1 / (1 + k)] raises ZeroDivisionError for k = -1; no table entry is -1
    and the division of Qc is total, so this is left out. *)
Definition affine_of (table : list (Z * list (Qc * Qc))) (affine : option (list Qc)) (n : Z) (spin : Qc) : pyres (list Qc) :=
  match affine with
  | Some a => Ok a
  | None => let* k := shear table n spin in Ok [1 / (1 + k); k / (1 + k); 0; 1]
  end.
(** mqvas.py lines 74-99: the queries of the two events and the affine matrix. *)
Definition MQ_update (name : string) (spin : Qc) (affine : option (list Qc)) : pyres (list query * list Qc) :=
  let* mq := lookup String.eqb MQ_p_symmetry name in
  let P := trunc (of_int 2 * mq) in
  let nQ := P in
  let P := if qc_eqb mq spin then (- P)%Z else P in
  let* a := affine_of shear_factor_MQ_MAS affine nQ spin in
  Ok ([(channel1 [[of_int P]], channel1 [[0]]); (channel1 [[of_int (-1)]], channel1 [[0]])], a).
(** stvas.py lines 58-88. *)
Definition ST_update (name : string) (spin : Qc) (affine : option (list Qc)) : pyres (list query * list Qc) :=
  let* st := lookup String.eqb ST_p_symmetry name in
  let d := st * st - (st - 1) * (st - 1) in
  let* a := affine_of shear_factor_ST_MAS affine (trunc (of_int 2 * st)) spin in
  Ok ([(channel1 [[of_int (-1)]], channel1 [[d]; [- d]]); (channel1 [[of_int (-1)]], channel1 [[0]])], a).
(** ssb2d.py lines 110-120. *)
Definition SSB2D_update (affine : option (list Qc)) : list query * list Qc :=
  let q := (channel1 [[of_int (-1)]], channel1 [[0]]) in
  ([q; q], match affine with Some a => a | None => [1; of_int (-1); 0; 1] end).
(** methods_data.json: BlochDecaySpectrum and BlochDecayCTSpectrum. *)
Definition BlochDecay_query : query := (channel1 [[of_int (-1)]], None).
Definition BlochDecayCT_query : query := (channel1 [[of_int (-1)]], channel1 [[0]]).
(** ssb2d.py lines 74-96: the rotor frequency written to the first event of the first dimension, if any.  [objects]: the spectral
    dimensions are SpectralDimension objects; [keyword]: the argument rotor_frequency; [dimensions]: for every dict with events, the
    rotor frequencies given in the events. *)
Definition SSB2D_rotor (objects : bool) (keyword : option Qc) (dimensions : list (option (list (option Qc)))) : pyres (option Qc) :=
  if objects then Ok None else
  let check := flat_map (fun item => match item with Some evs => map (fun ev : option Qc => match ev with None => true | _ => false end) evs | None => [] end) dimensions in
  match keyword with
  | None => if forallb (fun b : bool => b) check then Err ValueError else Err KeyError
  | Some f => if qc_eqb f 0 then Err ValueError else Ok (Some f)
  end.
