(** Small independent definitions used in the statements about the Fourier transforms. *)
From Coq Require Import List Arith.
Import ListNotations.

(** [valid_index shape ks]: ks is an index of an array of this shape; [flips shape ks]: the index with every k replaced by -k
    modulo the length of its axis. *)
Definition valid_index (shape ks : list nat) : Prop := Forall2 (fun n k => (k < n)%nat) shape ks.
Fixpoint flips (shape ks : list nat) : list nat :=
  match shape, ks with n :: sh, k :: ks' => ((n - k) mod n)%nat :: flips sh ks' | _, _ => [] end.

