(** Model of src/mrsimulator/utils/abstract_list.py, src/mrsimulator/transition/pathway.py (TransitionList, TransitionPathway) and
    src/mrsimulator/transition/base.py (Transition).  Quantum numbers are rationals.  Objects that are neither a Transition nor a dict
    are not looked into. *)
From Coq Require Import ZArith QArith Qabs Bool String Qcanon List Lia.
From Verif Require Import Base PathwayModel.
Import ListNotations.
Open Scope Z_scope.

(** transition/base.py lines 34-35: the two fields.  PathwayModel's [transition] is (initial, final). *)
(** What may be given to the list operations.  A dict has string keys; a value is a list of numbers or something pydantic rejects for a
    List[float]. *)
Inductive dval := Nums (l : list Qc) | Junk.
Inductive item := ITrans (t : transition) | IDict (d : list (string * dval)) | IOther.

(** Construction of a Transition from the entries of a dict: the fields default to [], other keys are ignored, invalid values raise pydantic's ValidationError, which is a
    ValueError. *)
Definition field (d : list (string * dval)) (name : string) : pyres (list Qc) :=
  match find (fun kv => String.eqb (fst kv) name) d with
  | None => Ok []
  | Some (_, Nums l) => Ok l
  | Some (_, Junk) => Err ValueError
  end.
Definition make_transition (d : list (string * dval)) : pyres transition :=
  let* i := field d "initial" in let* f := field d "final" in Ok (i, f).
(** pathway.py lines 15-24, [_check_for_transition_object]. *)
Definition check (x : item) : pyres item :=
  match x with
  | IDict d => let* t := make_transition d in Ok (ITrans t)
  | ITrans t => Ok (ITrans t)
  | IOther => Err ValueError
  end.
(** Lines 12-13, the constructor. *)
Definition new_list (data : list item) : pyres (list item) := mapM check data.

(** ** Python's list *)
(** An index from the end when negative; IndexError outside. *)
Definition position (n : nat) (i : Z) : option nat :=
  let j := if i <? 0 then i + Z.of_nat n else i in
  if (0 <=? j) && (j <? Z.of_nat n) then Some (Z.to_nat j) else None.
(** A slice bound, or the index of [insert]: clamped. *)
Definition clamp (n : nat) (i : Z) : nat :=
  let j := if i <? 0 then i + Z.of_nat n else i in Z.to_nat (Z.min (Z.max j 0) (Z.of_nat n)).
Definition py_del (l : list item) (i : Z) : pyres (list item) :=
  match position (List.length l) i with Some k => Ok (firstn k l ++ skipn (S k) l) | None => Err IndexError end.
Definition py_insert (l : list item) (i : Z) (x : item) : list item :=
  let k := clamp (List.length l) i in firstn k l ++ x :: skipn k l.
(** [l[a:b] = xs] and [del l[a:b]] (step 1): an empty range when b is before a. *)
Definition py_set_slice (l : list item) (a b : Z) (xs : list item) : list item :=
  let i := clamp (List.length l) a in let j := Nat.max i (clamp (List.length l) b) in firstn i l ++ xs ++ skipn j l.

(** ** The operations *)
Inductive op :=
  | Append (x : item)          (* pathway.py lines 29-30 over abstract_list.py lines 37-43 *)
  | Insert (i : Z) (x : item)  (* abstract_list.py lines 37-39: not overridden in TransitionList *)
  | SetItem (i : Z) (x : item) (* pathway.py lines 26-27 *)
  | SetSlice (a b : Z) (x : item)
  | DelItem (i : Z)            (* abstract_list.py lines 33-35 *)
  | DelSlice (a b : Z)
  | Extend (xs : list item)    (* the mixins of collections.abc.MutableSequence: extend and +=, pop, reverse, clear *)
  | Pop (i : Z)
  | Reverse
  | Clear.
(** An operation may raise; the list keeps what was done before. *)
Definition outcome := (pyres unit * list item)%type.
Definition of_res (l : list item) (r : pyres (list item)) : outcome := match r with Ok l' => (Ok tt, l') | Err e => (Err e, l) end.
Definition append (l : list item) (x : item) : outcome :=
  of_res l (let* y := check x in Ok (py_insert l (Z.of_nat (List.length l)) y)).
Definition set_item (l : list item) (i : Z) (x : item) : outcome := of_res l (let* y := check x in py_assign l i y).
(** [self._list[a:b] = item]: the right side is iterated.  Iterating a pydantic model gives one (name, value) tuple for each of its
    two fields. *)
Definition iterate (x : item) : list item := match x with ITrans _ => [IOther; IOther] | _ => [] end.
Definition set_slice (l : list item) (a b : Z) (x : item) : outcome :=
  of_res l (let* y := check x in Ok (py_set_slice l a b (iterate y))).
Definition then_ (o : outcome) (k : list item -> outcome) : outcome := match o with (Ok _, l) => k l | e => e end.
Fixpoint extend (l : list item) (xs : list item) : outcome :=
  match xs with [] => (Ok tt, l) | x :: r => then_ (append l x) (fun l' => extend l' r) end.
(** [for i in range(n//2): self[i], self[n-i-1] = self[n-i-1], self[i]] *)
Fixpoint reverse_loop (n : nat) (is : list nat) (l : list item) : outcome :=
  match is with
  | [] => (Ok tt, l)
  | i :: r =>
      match py_index l (Z.of_nat (n - i - 1)), py_index l (Z.of_nat i) with
      | Ok x, Ok y => then_ (set_item l (Z.of_nat i) x) (fun l' =>
                      then_ (set_item l' (Z.of_nat (n - i - 1)) y) (fun l'' => reverse_loop n r l''))
      | Err e, _ | _, Err e => (Err e, l)
      end
  end.
Definition pop (l : list item) (i : Z) : outcome := of_res l (let* _ := py_index l i in py_del l i).
(** [while True: self.pop()] until IndexError. *)
Fixpoint clear_loop (fuel : nat) (l : list item) : outcome :=
  match fuel with
  | O => (Ok tt, l)
  | S f => match pop l (-1) with (Ok _, l') => clear_loop f l' | (Err _, l') => (Ok tt, l') end
  end.
Definition step (o : op) (l : list item) : outcome :=
  match o with
  | Append x => append l x
  | Insert i x => (Ok tt, py_insert l i x)
  | SetItem i x => set_item l i x
  | SetSlice a b x => set_slice l a b x
  | DelItem i => of_res l (py_del l i)
  | DelSlice a b => (Ok tt, py_set_slice l a b [])
  | Extend xs => extend l xs
  | Pop i => pop l i
  | Reverse => reverse_loop (List.length l) (seq 0 (List.length l / 2)) l
  | Clear => clear_loop (S (List.length l)) l
  end.
(** A history: exceptions are caught by the user. *)
Definition run (ops : list op) (l : list item) : list item := fold_left (fun l o => snd (step o l)) ops l.

(** ** Transition.P, Transition.D, filter *)
(** numpy: element-wise operation on two one-dimensional arrays with broadcasting. *)
Definition broadcast {A B C} (f : A -> B -> C) (a : list A) (b : list B) : pyres (list C) :=
  if Nat.eqb (List.length a) (List.length b) then Ok (map (fun p => f (fst p) (snd p)) (combine a b))
  else match a, b with
       | [x], _ => Ok (map (f x) b)
       | _, [y] => Ok (map (fun x => f x y) a)
       | _, _ => Err ValueError
       end.
Open Scope Qc_scope.
(** base.py lines 63-73 and 81-91. *)
Definition tr_P (t : transition) : pyres (list Qc) := broadcast (fun f i => f - i) (snd t) (fst t).
Definition tr_D (t : transition) : pyres (list Qc) := broadcast (fun f i => f - i) (map (fun x => x * x) (snd t)) (map (fun x => x * x) (fst t)).
(** [np.allclose(a, b)]: |a - b| <= 1e-8 + 1e-5 |b|. *)
Definition qabs (x : Qc) : Qc := Q2Qc (Qabs.Qabs (this x)).
Definition close (a b : Qc) : bool := if Qclt_le_dec (Q2Qc (1 # 100000000) + Q2Qc (1 # 100000) * qabs b) (qabs (a - b)) then false else true.
Definition allclose (a b : list Qc) : pyres bool := let* l := broadcast close a b in Ok (forallb (fun x => x) l).
Fixpoint filterM {A} (f : A -> pyres bool) (l : list A) : pyres (list A) :=
  match l with [] => Ok [] | x :: r => let* b := f x in let* r' := filterM f r in Ok (if b then x :: r' else r') end.
(** pathway.py lines 32-68, for a list of transitions.  The result is the list itself, a plain Python list (P and D None but not PP) or a
    new TransitionList. *)
Inductive kind := Self | PlainList | NewList.
Definition tl_filter (l : list transition) (P : option (list Qc)) (PP : bool) (D : option (list Qc)) : pyres (kind * list transition) :=
  match P, PP, D with
  | None, false, None => Ok (Self, l)
  | _, _, _ =>
      let* l1 := match P with None => Ok l | Some p => filterM (fun t => let* x := tr_P t in allclose x p) l end in
      let* l2 := match D with None => Ok l1 | Some d => filterM (fun t => let* x := tr_D t in allclose x d) l1 end in
      Ok (match P, D with None, None => PlainList | _, _ => NewList end, l2)
  end.
(** base.py lines 97-107; pathway.py lines 119-126: [np.asarray(...).ravel()] of lists of one length is their concatenation. *)
Definition tr_tolist (t : transition) : list Qc := fst t ++ snd t.
Definition pathway_tolist (p : list transition) : list Qc := concat (map tr_tolist p).
