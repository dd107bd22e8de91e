(** Model of src/c_lib/lib/frequency_averaging.c, lines 108-230, continued: the calls of the two dimensional averaging
    ([AxisModel.averaging_2d]) with their interpolation, the products of event amplitudes and the elements read. *)
From Coq Require Import ZArith QArith Qabs Bool List.
From Verif Require Import InterpModel PowderModel AxisModel Interp2DModel.
Import ListNotations.
Open Scope Q_scope.

(** Lines 124-125, 155-169: the product of the amplitudes of the events of a dimension, starting from ones.  [events]: the
    freq_amplitude arrays, flat arrays over sidebands, octants and orientations. *)
Definition event_product (events : list (nat -> Q)) (k : nat) : Q := fold_left (fun a e => a * e k) events 1.

(** Lines 108-230: the additions to the spectrum.  [None]: the interpolation reads a variable that was never set. *)
Definition spectrum_2d (nt n_oct nsb : nat) (a : Q * Q * Q * Q) (gamma : Q) (d0 d1 : sdim) (R0 R1 : Q)
    (vrA vrB freq0 freq1 : nat -> Q) (ev0 ev1 : list (nat -> Q)) (norm : nat -> Q) : option writes :=
  opt_concat (map (fun call => let '(_, c) := call in
      octahedron_interpolation2D nt (c_f0 c) (c_f1 c) (c_amp c) (sd_count d0) (sd_count d1))
    (averaging_2d a gamma d0 d1 (n_pts nt) n_oct nsb R0 R1 vrA vrB freq0 freq1 (event_product ev0) (event_product ev1) norm)).

(** Lines 213-215: the elements of freq_ampA (of freq_ampB) that vm_double_multiply reads for sideband i (k) and octant j:
    total_orientations of them. *)
Definition amplitude_reads (nt n_oct : nat) (i j : nat) : list nat :=
  map (fun p => (i * (n_oct * n_pts nt) + j * n_pts nt + p)%nat) (seq 0 (n_oct * n_pts nt)).
(** Lines 116-118: the length of these arrays. *)
Definition amplitude_size (nt n_oct nsb : nat) : nat := (n_oct * n_pts nt * nsb)%nat.
