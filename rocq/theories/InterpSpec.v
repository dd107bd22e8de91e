(** Specification of the powder interpolation: what C15-C24 mean, independent of the code. *)
From Coq Require Import ZArith QArith Qabs Bool List.
From Verif Require Import InterpModel.
Import ListNotations.
Open Scope Q_scope.

(** ** Specification: the tent *)
(** The fraction of a triangle's unit-area tent with feet f0 <= f2 and apex above f1 that lies to the left of x. *)
Definition tent_cdf (f0 f1 f2 x : Q) : Q :=
  if Qle_bool x f0 then 0
  else if Qltb x f1 then (x - f0) * (x - f0) / ((f2 - f0) * (f1 - f0))
  else if Qltb x f2 then 1 - (f2 - x) * (f2 - x) / ((f2 - f0) * (f2 - f1))
  else 1.
(** The tent itself: slopes up from f0 to f1 and down from f1 to f2, apex 2/(f2-f0). *)
Definition tent_up (f0 f1 f2 x : Q) : Q := (2 / (f2 - f0)) * (x - f0) / (f1 - f0).
Definition tent_down (f0 f1 f2 x : Q) : Q := (2 / (f2 - f0)) * (f2 - x) / (f2 - f1).

(** ** Bins, totals, moments *)
Definition qsum (l : list Q) : Q := fold_right Qplus 0 l.
Definition bins (points : Z) : list Z := map Z.of_nat (seq 0 (Z.to_nat points)).
Definition total (w : writes) (points : Z) : Q := qsum (map (deposit w) (bins points)).
(** The centre of bin k and a weighted sum over the bins. *)
Definition centre (k : Z) : Q := zq k + half.
Definition moment (g : Z -> Q) (w : writes) (points : Z) : Q := qsum (map (fun k => g k * deposit w k) (bins points)).
(** ** Delta peaks *)
(** Specification: a unit peak at f gives the bin centred at k+1/2 the weight max(0, 1 - |f - (k+1/2)|). *)
Definition hat (d : Q) : Q := if Qlt_le_dec (Qabs d) 1 then 1 - Qabs d else 0.

(** An addition inside the array, or an addition of zero one past its end. *)
Definition safe_write (points : Z) (w : Z * Q) : Prop :=
  (0 <= fst w < points)%Z \/ (fst w = points /\ snd w == 0).

(** ** Specification: the grid of a face *)
(** Row r (0 <= r <= nt) has nt+1-r points; [point nt r c] is the index of point c of row r. *)
Fixpoint row_start (nt r : nat) : nat := match r with O => 0%nat | S r' => (row_start nt r' + (nt + 1 - r'))%nat end.
Definition point (nt r c : nat) : nat := (row_start nt r + c)%nat.
(** The upward triangle at column c of row r, and the downward one to its right. *)
Definition up (nt r c : nat) : tri := (point nt r c, point nt r (c + 1), point nt (r + 1) c).
Definition down (nt r c : nat) : tri := (point nt r (c + 1), point nt (r + 1) c, point nt (r + 1) (c + 1)).
(** Row r of triangles: up 0, down 0, up 1, ..., up (nt-r-1). *)
Definition row_tris (nt r : nat) : list tri :=
  flat_map (fun c => if (c + 1 <? nt - r)%nat then [up nt r c; down nt r c] else [up nt r c]) (seq 0 (nt - r)).
Definition grid_tris (nt : nat) : list tri := flat_map (row_tris nt) (seq 0 nt).

(** The sum of the weights of the three vertices of a triangle. *)
Definition vertex_sum (w : nat -> Q) (t : tri) : Q := let '(a, b, c) := t in w a + w b + w c.
(** The amplitude of the whole pattern: the sum over sidebands, octants and triangles. *)
Definition pattern_amplitude (nt n_oct nsb : nat) (amps : nat -> Q) : Q :=
  qsum (map (fun i => qsum (map (fun j => qsum (map (vertex_sum (fun p => amps (i * (n_oct * n_pts nt) + j * n_pts nt + p)%nat)) (grid_tris nt))) (seq 0 n_oct))) (seq 0 nsb)).

(** Equality of triples of rationals. *)
Definition eq3 (a b : Q * Q * Q) : Prop := fst (fst a) == fst (fst b) /\ snd (fst a) == snd (fst b) /\ snd a == snd b.

(** At least half a bin away from both ends of the window. *)
Definition interior (x : Q) (count : Z) := half <= x /\ x <= zq count - half.
