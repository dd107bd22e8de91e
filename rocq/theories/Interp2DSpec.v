(** Specification of the two dimensional powder interpolation: what C85-C88 mean. *)
From Coq Require Import ZArith QArith Qabs Bool List.
From Verif Require Import InterpModel InterpSpec.
Import ListNotations.
Open Scope Q_scope.

(** The spectrum has [m1] columns; the element of row p and column q is element p*m1+q of the array. *)
Definition cell (w : writes) (m1 p q : Z) : Q := deposit w (p * m1 + q).
(** The sum of the spectrum over its columns, in row p. *)
Definition row_total (w : writes) (m1 p : Z) : Q := qsum (map (cell w m1 p) (bins m1)).
(** The sum of the whole spectrum. *)
Definition total2D (w : writes) (m0 m1 : Z) : Q := qsum (map (row_total w m1) (bins m0)).

(** The product of the amplitudes of the events of a dimension, element k. *)
Definition product (events : list (nat -> Q)) (k : nat) : Q := fold_right (fun e a => e k * a) 1 events.
(** The amplitude of a two dimensional pattern: the sum over the pairs of sidebands, the octants and the triangles of a face of
    the products of the amplitudes of the two sidebands and the weight of the orientation at the three vertices. *)
Definition pattern2D_amplitude (nt n_oct nsb : nat) (amp0 amp1 weight : nat -> Q) : Q :=
  let at_ i j p := (i * (n_oct * n_pts nt) + j * n_pts nt + p)%nat in
  qsum (map (fun i => qsum (map (fun k => qsum (map (fun j => qsum (map
    (vertex_sum (fun p => amp0 (at_ i j p) * amp1 (at_ k j p) * weight p)) (grid_tris nt)))
    (seq 0 n_oct))) (seq 0 nsb))) (seq 0 nsb)).
