(** The shape of a spectrum, seen through functions of the position. *)
From Coq Require Import Reals QArith Qreals List.
From Verif Require Import InterpModel InterpSpec.
Open Scope R_scope.

(** A function of the position in the spectrum whose slope is at most lam. *)
Definition gentle (F : R -> R) (lam : R) : Prop := forall x y, Rabs (F x - F y) <= lam * Rabs (x - y).
(** The spectrum weighed with F: the sum over the bins of F at the centre of the bin times the content of the bin. *)
Definition weighed (F : R -> R) (out : writes) (count : Z) : R := fold_right Rplus 0 (map (fun k => F (Q2R (centre k)) * Q2R (deposit out k)) (bins count)).
(** A sum over sidebands, octants and triangles. *)
Definition over_all (nt n_oct nsb : nat) (g : nat -> nat -> tri -> R) : R :=
  fold_right Rplus 0 (map (fun i => fold_right Rplus 0 (map (fun j => fold_right Rplus 0 (map (g i j) (grid_tris nt))) (seq 0 n_oct))) (seq 0 nsb)).
(** The mean of F over the three vertices, where f gives the position of a vertex. *)
Definition vertex_mean (F : R -> R) (f : nat -> R) (t : tri) : R := let '(a, b, c) := t in (F (f a) + F (f b) + F (f c)) / 3.
(** No two vertices of the triangle are further apart than d. *)
Definition narrow (f : nat -> R) (d : R) (t : tri) : Prop := let '(a, b, c) := t in Rabs (f a - f b) <= d /\ Rabs (f b - f c) <= d /\ Rabs (f c - f a) <= d.
