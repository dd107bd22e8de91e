(** Model of src/c_lib/lib/angular_momentum.c: the rotations built on the Wigner matrices of WignerMatrix. *)
From Coq Require Import Reals List ZArith.
From Coquelicot Require Import Complex.
From Verif Require Import DftModel.
From Verif Require Export WignerMatrix.
Import ListNotations.
Open Scope C_scope.
(** Repeated multiplication, as the loops of lines 785-810 and 833-850 do with [real], [imag]. *)
Fixpoint cpow (z : C) (n : nat) : C := match n with O => RtoC 1 | S m => z * cpow z m end.
(** Lines 782-810 and 829-850: component l-m is multiplied by e^m and component l+m by its conjugate. *)
Definition scale_phases (l : nat) (e : C) (v : list C) : list C :=
  map (fun j => if Nat.ltb j l then nth j v (RtoC 0) * cpow e (l - j)
                else if Nat.ltb l j then nth j v (RtoC 0) * Cconj (cpow e (j - l)) else nth j v (RtoC 0)) (seq 0 (2 * l + 1)).
(** Lines 818-827 and 579-589: product of the first [rows] rows of the matrix stored row by row with a vector. *)
Definition mat_vec (rows n1 : nat) (w : list R) (v : list C) : list C :=
  map (fun m => csum n1 (fun mp => RtoC (nth (m * n1 + mp) w 0%R) * nth mp v (RtoC 0))) (seq 0 rows).

(** Lines 754-851, [single_wigner_rotation].  [e_beta] is the cosine and sine of beta, from the tables (lines 46-51). *)
Definition rotation (k : wconst) (l : nat) (alpha : R) (e_beta : C) (gamma : R) (v : list C) : list C :=
  scale_phases l (cis gamma) (mat_vec (2 * l + 1) (2 * l + 1) (wigner_d k false l e_beta) (scale_phases l (cis alpha) v)).
Definition single_wigner_rotation (k : wconst) (l : nat) (alpha beta gamma : R) (v : list C) : list C :=
  rotation k l alpha (cos_sin_from_table beta) gamma v.

(** Lines 521-593, [__wigner_rotation_2], one orientation: [e m] is exp_Im_alpha[4-m], the phase for component -m. *)
Definition half_vector (l : nat) (e : nat -> C) (v : list C) : list C :=
  map (fun j => if Nat.ltb j l then nth j v (RtoC 0) * e (l - j)%nat
                else if Nat.ltb l j then let m := (j - l)%nat in
                  let t := nth (l - m) v (RtoC 0) * e m in
                  let scale := if Nat.eqb (m mod 2) 0 then 1%R else (-1)%R in
                  ((fst t * scale)%R, (- snd t * scale)%R)
                else nth j v (RtoC 0)) (seq 0 (2 * l + 1)).
Definition rotation_2 (k : wconst) (l : nat) (e : nat -> C) (e_beta : C) (v : list C) : list C :=
  mat_vec (l + 1) (2 * l + 1) (wigner_d k true l e_beta) (half_vector l e v).

(** Lines 960-980, [get_exp_Im_alpha]: from exp(I alpha) of every orientation.  Rows 0..3 hold m = 4, 3, 2, 1; without fourth rank
    the rows 0 and 1 are left as allocated ([junk]). *)
Definition exp_table := nat -> nat -> C.
Definition get_exp_Im_alpha (fourth : bool) (ea : nat -> C) (junk : exp_table) : exp_table := fun row o =>
  let e1 := ea o in let e2 := e1 * e1 in let e3 := e2 * e1 in let e4 := e3 * e1 in
  match row with
  | 3%nat => e1 | 2%nat => e2
  | 1%nat => if fourth then e3 else junk row o
  | 0%nat => if fourth then e4 else junk row o
  | _ => junk row o
  end.

(** Lines 944-951: after every octant. *)
Definition step_alpha (fourth : bool) (n_octants : nat) (t : exp_table) : exp_table := fun row o =>
  if Nat.eqb n_octants 1 then t row o else
  match row with
  | 3%nat => t row o * (0, -1)%R
  | 2%nat => t row o * RtoC (-1)
  | 1%nat => if fourth then t row o * (0, 1)%R else t row o
  | _ => t row o
  end.

(** Lines 883-953, [__batch_wigner_rotation] for one octant or a hemisphere (n_octants 1 or 4, the two volumes the Python layer
    allows): the components of every orientation of every octant, octant after octant, and the table afterwards.  [eb o]: cosine
    and sine of beta of orientation o of the octant. *)
Fixpoint batch_loop (k : wconst) (npts n_octants : nat) (fourth : bool) (eb : nat -> C) (R2 R4 : list C) (todo : nat) (t : exp_table)
  : list (list C * list C) * exp_table :=
  match todo with
  | O => ([], t)
  | S n =>
      let here := map (fun o => (rotation_2 k 2 (fun m => t (4 - m)%nat o) (eb o) R2,
                                 if fourth then rotation_2 k 4 (fun m => t (4 - m)%nat o) (eb o) R4 else [])) (seq 0 npts) in
      let '(rest, t') := batch_loop k npts n_octants fourth eb R2 R4 n (step_alpha fourth n_octants t) in
      (here ++ rest, t')
  end.
Definition batch_rotation (k : wconst) (npts n_octants : nat) (fourth : bool) (eb : nat -> C) (R2 R4 : list C) (t : exp_table) :=
  batch_loop k npts n_octants fourth eb R2 R4 n_octants t.
