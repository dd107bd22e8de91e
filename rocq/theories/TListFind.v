(** Model of the searching methods of transition lists: index, count, remove and the operator in, which AbstractList (src/mrsimulator/utils/abstract_list.py line 10) inherits from collections.abc. *)
From Coq Require Import ZArith QArith Qabs Bool String Qcanon List Lia.
From Verif Require Import Base PathwayModel TListModel.
Import ListNotations.
Open Scope Z_scope.

(** [v is value or v == value] for an element v that is a Transition (transition/base.py lines 34-35): pydantic compares the dicts of two models, and the dict of a model with what is no model.  Dicts are equal when they have
    the same keys with equal values; the keys of a dict are distinct.  Objects of other kinds are equal to no Transition. *)
Definition qcs_eqb (a b : list Qc) : bool := if list_eq_dec Qc_eq_dec a b then true else false.
Definition has_value (d : list (string * dval)) (k : string) (l : list Qc) : bool := existsb (fun kv => String.eqb (fst kv) k && match snd kv with Nums l' => qcs_eqb l' l | Junk => false end) d.
Definition equals (t : transition) (value : item) : bool :=
  match value with
  | ITrans u => qcs_eqb (fst t) (fst u) && qcs_eqb (snd t) (snd u)
  | IDict d => Nat.eqb (List.length d) 2 && has_value d "initial" (fst t) && has_value d "final" (snd t)
  | IOther => false
  end.
(** An element that is no Transition (after insert) is compared by a function. *)
Section Find.
  Variable other : item -> item -> bool.
  Definition item_equals (x value : item) : bool := match x with ITrans t => equals t value | _ => other x value end.
  (** Sequence.index(value, start=0, stop=None): [fuel] is more than the length. *)
  Fixpoint index_loop (fuel : nat) (l : list item) (value : item) (stop : option Z) (i : Z) : pyres Z :=
    match fuel with
    | O => Err ValueError
    | S f => if match stop with None => true | Some s => i <? s end then
               match py_index l i with
               | Err _ => Err ValueError
               | Ok v => if item_equals v value then Ok i else index_loop f l value stop (i + 1)
               end
             else Err ValueError
    end.
  Definition index (l : list item) (value : item) (start : Z) (stop : option Z) : pyres Z :=
    let n := Z.of_nat (List.length l) in
    let start := if start <? 0 then Z.max (n + start) 0 else start in
    let stop := match stop with Some s => Some (if s <? 0 then s + n else s) | None => None end in
    index_loop (S (List.length l)) l value stop start.
  (** Sequence.__contains__ and count (no bounds); MutableSequence.remove is [del self[self.index(value)]]. *)
  Definition contains (l : list item) (value : item) : bool := existsb (fun v => item_equals v value) l.
  Definition count (l : list item) (value : item) : nat := List.length (filter (fun v => item_equals v value) l).
  Definition remove (l : list item) (value : item) : outcome := of_res l (let* i := index l value 0 None in py_del l i).
End Find.

(** ** Equality of lists *)
(** The two classes of transition lists (pathway.py lines 11 and 90): TransitionPathway is a subclass of TransitionList. *)
Inductive lclass := TransitionList | TransitionPathway.
Definition is_a (c d : lclass) : bool := match c, d with TransitionList, TransitionPathway => false | _, _ => true end.
Definition tlist := (lclass * list transition)%type.
(** abstract_list.py lines 44-57, the method __eq__. *)
Definition eq_method (self other : tlist) : bool :=
  if negb (is_a (fst other) (fst self)) then false
  else if negb (Nat.eqb (List.length (snd self)) (List.length (snd other))) then false
  else forallb (fun p => equals (fst p) (ITrans (snd p))) (combine (snd self) (snd other)).
(** Python's ==: the method of the right operand comes first when its class is a proper subclass of that of the left. *)
Definition list_eq (a b : tlist) : bool := match fst a, fst b with TransitionList, TransitionPathway => eq_method b a | _, _ => eq_method a b end.
