(** Small independent definitions for the statements about rotations of spherical tensors.  A tensor of rank l is the list of its
    2l+1 components, from -l to l. *)
From Coq Require Import Reals List ZArith Bool.
From Coquelicot Require Import Complex.
From Verif Require Import DftModel.
Import ListNotations.
Open Scope R_scope.

(** Squared norm. *)
Definition norm2 (v : list C) : R := fold_right (fun z s => fst z * fst z + snd z * snd z + s) 0 v.

(** The tensor of a real interaction: component m is (-1)^m times the conjugate of component -m. *)
Definition real_tensor (l : nat) (v : list C) : Prop :=
  length v = (2 * l + 1)%nat /\
  forall m, (m <= l)%nat -> nth (l + m) v (RtoC 0) = (RtoC ((-1) ^ m) * Cconj (nth (l - m) v (RtoC 0)))%C.

(** Wigner's formula for the reduced matrix element d^l_{m1 m2}(beta), with c = cos (beta/2), s = sin (beta/2). *)
Definition zfact (z : Z) : R := INR (fact (Z.to_nat z)).
Definition wigner_term (l m1 m2 : Z) (c s : R) (k : Z) : R :=
  if ((0 <=? l + m2 - k) && (0 <=? k) && (0 <=? m1 - m2 + k) && (0 <=? l - m1 - k))%Z
  then (-1) ^ Z.to_nat (m1 - m2 + k) * c ^ Z.to_nat (2 * l + m2 - m1 - 2 * k) * s ^ Z.to_nat (m1 - m2 + 2 * k)
       / (zfact (l + m2 - k) * zfact k * zfact (m1 - m2 + k) * zfact (l - m1 - k))
  else 0.
Definition wigner_formula (l m1 m2 : Z) (beta : R) : R :=
  sqrt (zfact (l + m1) * zfact (l - m1) * zfact (l + m2) * zfact (l - m2)) *
  fold_right Rplus 0 (map (fun k => wigner_term l m1 m2 (cos (beta / 2)) (sin (beta / 2)) (Z.of_nat k)) (seq 0 (Z.to_nat (2 * l + 1)))).

(** Squared distance of two tensors. *)
Definition dist2 (a b : list C) : R := norm2 (map (fun p => fst p - snd p)%C (combine a b)).
