(** Averages over the directions of space. *)
From Coq Require Import Reals.
From Coquelicot Require Import Coquelicot.
From Verif Require Import PhysSpec.
Open Scope R_scope.

(** A quantity g that depends on a direction: its slope is at most L. *)
Definition unit_vector (u : axis -> R) : Prop := u X * u X + u Y * u Y + u Z * u Z = 1.
Definition dist3 (u v : axis -> R) : R := Rabs (u X - v X) + Rabs (u Y - v Y) + Rabs (u Z - v Z).
Definition slope (g : (axis -> R) -> R) (L : R) : Prop := forall u v, unit_vector u -> unit_vector v -> Rabs (g u - g v) <= L * dist3 u v.
(** The integral over the directions with azimuth from a to a' in the upper half of the sphere, and the average over the upper half. *)
Definition over_directions (g : (axis -> R) -> R) (a a' : R) : R := RInt (fun alpha => RInt (fun beta => g (direction alpha beta) * sin beta) 0 (PI / 2)) a a'.
Definition hemisphere_average (g : (axis -> R) -> R) : R := over_directions g 0 (2 * PI) / (2 * PI).
Definition octant_average (g : (axis -> R) -> R) : R := over_directions g 0 (PI / 2) / (PI / 2).
