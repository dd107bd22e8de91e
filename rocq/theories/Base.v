(** Shared helpers: Python results, loops, indexing and slicing.
    Nothing in this file models mrsimulator itself; it fixes the meaning of the
    Python constructs the models use. *)
From Coq Require Import List ZArith QArith Lia Bool.
Import ListNotations.

(** Exceptions raised by the modelled Python code. *)
Inductive exn :=
| ZeroDivisionError | IndexError | ValueError | KeyError | TypeError
| AttributeError | OtherException.

(** The outcome of a Python call: a value or a raised exception. *)
Inductive pyres (A : Type) := Ok (a : A) | Err (e : exn).
Arguments Ok {A} a.
Arguments Err {A} e.

Definition bind {A B} (x : pyres A) (f : A -> pyres B) : pyres B :=
  match x with Ok a => f a | Err e => Err e end.
Notation "'let*' x ':=' c1 'in' c2" := (bind c1 (fun x => c2))
  (at level 61, x pattern, c1 at next level, right associativity).

(** [for x in l: s = body(x, s)] with exceptions. *)
Fixpoint for_each {X S} (l : list X) (body : X -> S -> pyres S) (s : S) : pyres S :=
  match l with
  | [] => Ok s
  | x :: r => let* s' := body x s in for_each r body s'
  end.

(** [ [f(x) for x in l] ] with exceptions. *)
Fixpoint mapM {X Y} (f : X -> pyres Y) (l : list X) : pyres (list Y) :=
  match l with
  | [] => Ok []
  | x :: r => let* y := f x in let* ys := mapM f r in Ok (y :: ys)
  end.

(** [list(range(a, b))] *)
Definition zrange (a b : Z) : list Z :=
  map (fun k => (a + Z.of_nat k)%Z) (seq 0 (Z.to_nat (b - a))).

(** Python's [l[i]], negative indexes count from the end. *)
Definition py_index {A} (l : list A) (i : Z) : pyres A :=
  let n := Z.of_nat (length l) in
  let j := if (i <? 0)%Z then (i + n)%Z else i in
  if (j <? 0)%Z then Err IndexError
  else match nth_error l (Z.to_nat j) with Some a => Ok a | None => Err IndexError end.

Fixpoint upd_nat {A} (l : list A) (i : nat) (v : A) : list A :=
  match l, i with
  | [], _ => []
  | _ :: r, O => v :: r
  | x :: r, S k => x :: upd_nat r k v
  end.

(** Python's [l[i] = v]. *)
Definition py_assign {A} (l : list A) (i : Z) (v : A) : pyres (list A) :=
  let n := Z.of_nat (length l) in
  let j := if (i <? 0)%Z then (i + n)%Z else i in
  if (j <? 0)%Z then Err IndexError
  else if (j <? n)%Z then Ok (upd_nat l (Z.to_nat j) v) else Err IndexError.

(** Python's [l[a:b]] with step one. *)
Definition py_slice {A} (l : list A) (a b : Z) : list A :=
  let n := Z.of_nat (length l) in
  let clamp i := Z.max 0 (Z.min n (if (i <? 0)%Z then (i + n)%Z else i)) in
  firstn (Z.to_nat (clamp b - clamp a)) (skipn (Z.to_nat (clamp a)) l).

(** Sum of a list of rationals. *)
Fixpoint sumQ (l : list Q) : Q := match l with [] => 0 | x :: r => x + sumQ r end.
