(** Specification of C87: the area of the part of a triangle inside a rectangle, by Cavalieri's principle. *)
From Coq Require Import Reals.
From Coquelicot Require Import Coquelicot.
Open Scope R_scope.

(** A point of the triangle with vertices A, B, C: a weighted mean of the vertices. *)
Definition in_triangle (A B C : R * R) (x y : R) : Prop :=
  exists a b c, 0 <= a /\ 0 <= b /\ 0 <= c /\ a + b + c = 1 /\
    x = a * fst A + b * fst B + c * fst C /\ y = a * snd A + b * snd B + c * snd C.
(** [l] is the length of the part of the vertical line at x that lies in the triangle and between the heights y1 and y2. *)
Definition slice_length (A B C : R * R) (y1 y2 x l : R) : Prop :=
  (l = 0 /\ forall y, ~ (in_triangle A B C x y /\ y1 <= y <= y2)) \/
  (exists lo hi, lo <= hi /\ l = hi - lo /\ forall y, (in_triangle A B C x y /\ y1 <= y <= y2) <-> lo <= y <= hi).
(** [area] is the area of the part of the triangle with x1 <= x <= x2 and y1 <= y <= y2. *)
Definition area_within (A B C : R * R) (x1 x2 y1 y2 area : R) : Prop :=
  exists len, (forall x, slice_length A B C y1 y2 x (len x)) /\ is_RInt len x1 x2 area.
(** The area of the triangle (half the cross product of two edges). *)
Definition triangle_area (A B C : R * R) : R :=
  Rabs ((fst B - fst A) * (snd C - snd A) - (fst C - fst A) * (snd B - snd A)) / 2.
(** A cell of the spectrum, row k and column q, covers k <= x <= k+1 and q <= y <= q+1.  Its value [v] is the share of the
    amplitude [amp] that corresponds to the part of the triangle in it, up to 8 millionths of the amplitude per unit
    of area of the triangle. *)
Definition share_close (amp : R) (A B C : R * R) (k q : Z) (v : R) : Prop :=
  exists part, area_within A B C (IZR k) (IZR k + 1) (IZR q) (IZR q + 1) part /\
    Rabs (v - amp * (part / triangle_area A B C)) <= 8 / 1000000 * (Rabs amp / triangle_area A B C).
