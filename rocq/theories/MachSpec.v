(** Vocabulary of C100. *)
From Coq Require Import ZArith List.
From Flocq Require Import IEEE754.BinarySingleNaN.
From Verif Require Import MachModel.
Open Scope Z_scope.

(** No addition leaves the array of [points] elements, but for a zero added to the element after the last (C18_writes_inside_refuted). *)
Definition stays_inside (points : Z) (w : additions) : Prop :=
  exists l, w = Some l /\ forall i x, In (i, x) l -> 0 <= i < points \/ i = points /\ x = B754_zero false.
(** None of the three frequencies is a NaN. *)
Definition numbers (a b c : double) : Prop := is_nan a = false /\ is_nan b = false /\ is_nan c = false.
