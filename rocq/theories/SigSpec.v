(** What C49 and C76 to C79 say, independent of the code. *)
From Coq Require Import Reals ZArith List.
From Coquelicot Require Import Complex.
From Verif Require Import Base SigModel.
Import ListNotations.
Open Scope list_scope.
Open Scope R_scope.

(** A dataset whose variables have, for some number of components, one axis for every dimension. *)
Definition variable_over (ds : list dimension) (v : variable) : Prop := exists p, v_shape v = p :: rev (map d_count ds).
Definition well_formed (data : dataset) : Prop := Forall (variable_over (dims data)) (dvs data).
(** The entry of component [p] at the point [ix], one index for every dimension, and the points of a grid. *)
Definition entry (v : variable) (p : nat) (ix : list nat) : C := v_at v (p :: rev ix).
Definition point (ds : list dimension) (ix : list nat) : Prop := Forall2 (fun d i => (i < d_count d)%nat) ds ix.
(** Same dimensions, same number of variables of the same shapes. *)
Definition same_shape (a b : dataset) : Prop :=
  dims b = dims a /\ Forall2 (fun v w => v_shape w = v_shape v) (dvs a) (dvs b).

(** How often variable [k] of [n] is named by a list of Python indexes. *)
Definition names (n : nat) (k : nat) (i : Z) : bool := (i =? Z.of_nat k)%Z || (i =? Z.of_nat k - Z.of_nat n)%Z.
Fixpoint times (n k : nat) (l : list Z) : nat := match l with [] => O | i :: r => ((if names n k i then 1 else 0) + times n k r)%nat end.
Definition selected (n k : nat) (s : option sel) : nat := match s with None => 1%nat | Some l => times n k (as_list l) end.
Definition in_range (n : nat) (i : Z) : Prop := (- Z.of_nat n <= i < Z.of_nat n)%Z.
Definition valid_selection (n : nat) (s : option sel) : Prop := match s with None => True | Some l => Forall (in_range n) (as_list l) end.

Fixpoint cpow (z : C) (n : nat) : C := match n with O => RtoC 1 | S m => (z * cpow z m)%C end.
Fixpoint rprod (l : list R) : R := match l with [] => 1 | x :: r => x * rprod r end.

(** The physical value of the coordinate with index [i]. *)
Definition coordinate (d : dimension) (i : nat) : R := nth i (coordinates d) 0 * d_unit d.

(** The operations before the first that makes a new dataset. *)
Fixpoint before_transform (ops : list operation) : list operation :=
  match ops with [] => [] | o :: r => if new_object o then [] else o :: before_transform r end.

(** Operations with a number to fit, that number, and the operation with another number in its place. *)
Definition fitted (o : operation) : bool :=
  match o with Scale _ | AffineScale _ _ | Exponential _ _ _ _ | Gaussian _ _ _ _ => true | _ => false end.
Definition number (o : operation) : R :=
  match o with Scale f | AffineScale f _ | Exponential f _ _ _ | Gaussian f _ _ _ => f | Shear f _ _ _ _ => f | FFT _ => 0 end.
Definition with_number (o : operation) (v : R) : operation :=
  match o with
  | Scale _ => Scale v | AffineScale _ d => AffineScale v d | Exponential _ u d s => Exponential v u d s | Gaussian _ u d s => Gaussian v u d s
  | _ => o
  end.
Fixpoint numbered {A} (i : nat) (l : list A) : list (nat * A) := match l with [] => [] | x :: r => (i, x) :: numbered (S i) r end.

(** The documented apodization functions of a physical coordinate; gamma and sigma in the inverse unit. *)
Definition documented_exponential (gamma x : R) : R := exp (- gamma * PI * Rabs x).
Definition documented_gaussian (sigma x : R) : R := exp (-2 * PI ^ 2 * sigma ^ 2 * x ^ 2).
(** The documented shear: a factor of unit modulus with the phase -2 pi a x y. *)
Definition documented_shear (a x y : R) : C := (cos (2 * PI * (a * x * y)), - sin (2 * PI * (a * x * y))).
