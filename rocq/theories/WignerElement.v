(** Model of the single elements of the Wigner matrices, src/c_lib/lib/angular_momentum.c lines 16-42 and 626-752.
    Doubles are real numbers; the integers do not overflow; [None] is the end of the process by [exit(1)]. *)
From Coq Require Import Reals List ZArith Bool.
Import ListNotations.
Open Scope R_scope.

(** [fac], lines 17-29: the loop multiplies ix, ix-1, ..., 2.  Its argument is always a whole number here. *)
Fixpoint fac_loop (ix : nat) (sum : R) : R :=
  match ix with
  | S (S _ as p) => fac_loop p (sum * INR ix)
  | _ => sum
  end.
Definition fac (x : Z) : option R := if (x <? 0)%Z then None else Some (fac_loop (Z.to_nat x) 1).

(** [my_power], lines 32-42. *)
Fixpoint power_loop (n : nat) (temp x : R) : R := match n with O => temp | S p => power_loop p (temp * x) x end.
Definition my_power (x : R) (n : Z) : R := if (n =? 0)%Z then 1 else power_loop (Z.to_nat n) 1 x.

Definition bind {A B} (a : option A) (f : A -> option B) : option B := match a with Some x => f x | None => None end.
(** One pass of the loop of [generic_wigner_d_element], lines 634-648. *)
Definition element_step (l m1 m2 : Z) (cx sx : R) (st : option (R * R)) (k : Z) : option (R * R) :=
  bind st (fun p => let '(sum, sign) := p in
  let k1 := (l - m1 - k)%Z in
  let k2 := (l + m2 - k)%Z in
  let k3 := (k + m1 - m2)%Z in
  if ((0 <=? k1) && (0 <=? k2) && (0 <=? k3))%Z then
    let n1 := (2 * l + m2 - m1 - 2 * k)%Z in
    let n2 := (m1 - m2 + 2 * k)%Z in
    bind (fac k1) (fun f1 => bind (fac k2) (fun f2 => bind (fac k3) (fun f3 => bind (fac k) (fun f4 =>
      Some (sum + sign * my_power cx n1 * my_power sx n2 / (f1 * f2 * f3 * f4), - sign)))))
  else Some (sum, - sign)).
(** [generic_wigner_d_element], lines 626-652. *)
Definition generic_wigner_d_element (l m1 m2 : Z) (beta : R) : option R :=
  bind (fold_left (element_step l m1 m2 (cos (beta / 2)) (sin (beta / 2))) (map Z.of_nat (seq 0 (Z.to_nat (l - m1 + 1)))) (Some (0, 1)))
  (fun p => bind (fac (l + m2)) (fun a => bind (fac (l - m2)) (fun b => bind (fac (l + m1)) (fun c => bind (fac (l - m1)) (fun d =>
    Some (fst p * sqrt (a * b * c * d))))))).

(** [wigner_d_element_from_exp_I_beta], lines 665-752: (cx, sx) the cosine and sine.  A column outside -2..2 falls through the
    remaining cases to 0. *)
Definition wigner_d_element_from_exp_I_beta (l m1 m2 : Z) (cx sx : R) : R :=
  if negb (l =? 2)%Z then 0
  else match m1, m2 with
  | (2)%Z, (2)%Z => (1 + cx) * (1 + cx) / 4
  | (2)%Z, (1)%Z => - sx * (1 + cx) / 2
  | (2)%Z, (0)%Z => 0.6123724355 * sx * sx
  | (2)%Z, (-1)%Z => - sx * (1 - cx) / 2
  | (2)%Z, (-2)%Z => (1 - cx) * (1 - cx) / 4
  | (-2)%Z, (2)%Z => (1 - cx) * (1 - cx) / 4
  | (-2)%Z, (1)%Z => sx * (1 - cx) / 2
  | (-2)%Z, (0)%Z => 0.6123724355 * sx * sx
  | (-2)%Z, (-1)%Z => sx * (1 + cx) / 2
  | (-2)%Z, (-2)%Z => (1 + cx) * (1 + cx) / 4
  | (1)%Z, (2)%Z => sx * (1 + cx) / 2
  | (1)%Z, (1)%Z => (2 * cx * cx + cx - 1) / 2
  | (1)%Z, (0)%Z => -1.224744871 * sx * cx
  | (1)%Z, (-1)%Z => - (2 * cx * cx - cx - 1) / 2
  | (1)%Z, (-2)%Z => - sx * (1 - cx) / 2
  | (0)%Z, (2)%Z => 0.6123724355 * sx * sx
  | (0)%Z, (1)%Z => 1.224744871 * sx * cx
  | (0)%Z, (0)%Z => 1.5 * cx * cx - 0.5
  | (0)%Z, (-1)%Z => -1.224744871 * sx * cx
  | (0)%Z, (-2)%Z => 0.6123724355 * sx * sx
  | (-1)%Z, (2)%Z => sx * (1 - cx) / 2
  | (-1)%Z, (1)%Z => - (2 * cx * cx - cx - 1) / 2
  | (-1)%Z, (0)%Z => 1.224744871 * sx * cx
  | (-1)%Z, (-1)%Z => (2 * cx * cx + cx - 1) / 2
  | (-1)%Z, (-2)%Z => - sx * (1 + cx) / 2
  | _, _ => 0
  end.

(** [wigner_d_element], lines 655-660: rank 2 is passed on as rank 1. *)
Definition wigner_d_element (l m1 m2 : Z) (beta : R) : option R :=
  if negb (l =? 2)%Z then generic_wigner_d_element l m1 m2 beta
  else Some (wigner_d_element_from_exp_I_beta 1 m1 m2 (cos beta) (sin beta)).
