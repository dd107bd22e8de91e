(** Model of the powder averaging scheme (src/c_lib/lib/octahedron.c, schemes.c, mrsimulator.c lines 53-95,
    src/mrsimulator/simulator/config.py) and of the one dimensional averaging (src/c_lib/lib/frequency_averaging.c). *)
From Coq Require Import ZArith QArith Qabs Bool List Reals.
From Verif Require Import InterpModel.
Import ListNotations.
Open Scope Q_scope.

(** ** octahedron.c *)
(** The integer coordinates (x, y, z) on the face x+y+z = nt in the order visited by the two loops of lines 26-37,
    followed by the pole of lines 39-43.  nt >= 1 (ConfigSimulator requires it); with nt = 0 the C loop bound
    [nt - 1] wraps around, which is not modelled. *)
Definition face (nt : nat) : list (nat * nat * nat) :=
  flat_map (fun j => map (fun i => ((nt - i - j)%nat, i, j)) (seq 0 (nt - j + 1))) (seq 0 nt).
Definition sq (n : nat) : Q := inject_Z (Z.of_nat n) * inject_Z (Z.of_nat n).
Definition r2 (p : nat * nat * nat) : Q := let '(x, y, z) := p in sq x + sq y + sq z.
(** Squares of the direction cosines, lines 28-34 and 39-41. *)
Definition cosine_squares (nt : nat) : list (Q * Q * Q) :=
  map (fun p => let '(x, y, z) := p in (sq x / r2 p, sq y / r2 p, sq z / r2 p)) (face nt) ++ [(0, 0, 1)].

(** Weights, lines 35 and 42-43, over the reals because of the square root. *)
Definition rsq (n : nat) : R := (INR n * INR n)%R.
Definition rr2 (p : nat * nat * nat) : R := let '(x, y, z) := p in (rsq x + rsq y + rsq z)%R.
Definition amplitudes (nt : nat) : list R :=
  map (fun p => (INR nt / (rr2 p * sqrt (rr2 p)))%R) (face nt) ++ [(1 / (INR nt * INR nt))%R].

(** [get_total_amplitude], lines 161-182: the walk of InterpModel, summing the vertex amplitudes of every triangle. *)
Definition get_total_amplitude (nt : nat) (amp : nat -> R) : option R :=
  match triangles nt with
  | None => None
  | Some ts => Some (fold_left (fun s t => let '(a, b, c) := t in (s + (amp b + amp c + amp a))%R) ts 0%R)
  end.

(** [octahedronGetComplexExpOfPolarAngleOverOctant], lines 88-159: exp(I beta) = (cos, sin) and exp(I alpha) of one
    orientation from its cosine squares.  [pole]: the last point, whose exp(I alpha) is set to 0 + 0i (lines 142, 151). *)
Definition exp_I_beta (p : R * R * R) : R * R := let '(x2, y2, z2) := p in (sqrt z2, sqrt (x2 + y2)).
Definition exp_I_alpha (pole : bool) (p : R * R * R) : R * R :=
  let '(x2, y2, z2) := p in if pole then (0, 0)%R else ((sqrt x2 / sqrt (x2 + y2))%R, (sqrt y2 / sqrt (x2 + y2))%R).

(** ** schemes.c lines 17-28, 139-140; mrsimulator.c lines 74-76 *)
(** unsigned overflow is not modelled *)
Inductive volume := Octant | Hemisphere.
Definition octant_orientations (n : nat) : nat := ((n + 1) * (n + 2) / 2)%nat.
Definition n_octants (v : volume) : nat := match v with Octant => 1%nat | Hemisphere => 4%nat end.
Definition total_orientations (n : nat) (v : volume) : nat :=
  match v with Octant => octant_orientations n | Hemisphere => (octant_orientations n * 4)%nat end.

(** config.py lines 12-14, 103-119: [int(vol * (n + 1) * (n + 2) / 2)]; the division is exact here, not in floats. *)
Definition get_orientations_count (n : nat) (v : volume) : Z :=
  let vol := match v with Octant => 1%Z | Hemisphere => 4%Z end in
  trunc (inject_Z (vol * (Z.of_nat n + 1) * (Z.of_nat n + 2)) / 2).

(** ** frequency_averaging.c *)
(** mrsimulator.c lines 82-87: plan->norm_amplitudes from the scheme's amplitudes. *)
Definition norm_amplitudes (nsb n_oct : nat) (w : nat -> Q) (i : nat) : Q :=
  w i * (1 / inject_Z (Z.of_nat (nsb * nsb * n_oct))).

Fixpoint opt_concat {A} (l : list (option (list A))) : option (list A) :=
  match l with
  | [] => Some []
  | None :: _ => None
  | Some a :: r => match opt_concat r with Some b => Some (a ++ b) | None => None end
  end.

(** Lines 41-57: the amplitudes used.  [norm] is plan->norm_amplitudes; [sb] the sideband intensities, a flat array
    over sidebands, octants and orientations. *)
Definition amps_1d (nsb npts : nat) (norm sb : nat -> Q) (k : nat) : Q :=
  match nsb with 1%nat => norm (k mod npts)%nat | _ => norm (k mod npts)%nat * sb k end.

(** Line 60: the delta test looks at the three corners of the first octant only. *)
Definition is_delta (nt npts : nat) (freq : nat -> Q) : bool :=
  Qltb (Qabs (freq 0%nat - freq nt)) TOL && Qltb (Qabs (freq 0%nat - freq (npts - 1)%nat)) TOL.

(** Lines 67 and 82. *)
Definition in_window (offset : Q) (count : Z) : bool := (0 <=? trunc offset)%Z && (trunc offset <=? count)%Z.

(** [__1D_averaging], lines 23-96.  [offset_0] = normalize_offset + R0_offset; [vr i] = vr_freq[i] * inverse_increment. *)
Definition averaging_1d (nt n_oct nsb : nat) (offset_0 : Q) (vr : nat -> Q) (freq norm sb : nat -> Q) (count : Z) : option writes :=
  let npts := n_pts nt in
  let amps := amps_1d nsb npts norm sb in
  let delta := is_delta nt npts freq in
  opt_concat (flat_map (fun i =>
    let offset := (if delta then offset_0 + freq 0%nat else offset_0) + vr i in
    if in_window offset count then
      map (fun j =>
        let a := fun p => amps (i * (n_oct * npts) + j * npts + p)%nat in
        if delta then octahedron_delta nt offset a count
        else octahedron_interpolation nt (fun p => freq (j * npts + p)%nat + offset) a count)
      (seq 0 n_oct)
    else []) (seq 0 nsb)).
