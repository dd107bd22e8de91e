(** Model of the comparison of methods and simulators.
    - Method.__eq__: method/__init__.py lines 152-167;
    - Simulator.__eq__: simulator/__init__.py lines 156-170;
    - AbstractList.__eq__: utils/abstract_list.py lines 44-57;
    - validate_affine_matrix: method/__init__.py lines 193-203.
    External code: the comparison of SpectralDimension, SpinSystem and ConfigSimulator objects (pydantic, by their attributes), of CSDM objects
    (csdmpy), and of a CSDM object with an array; they are the variables of the sections.  numpy is modelled below.  Python's comparison of lists
    takes an object to be equal to itself without a call of its [__eq__]; two lists are modelled that have no object in common. *)
From Coq Require Import ZArith QArith Qcanon Bool String List.
From Verif Require Import Base.
Import ListNotations.
Open Scope list_scope.

(** ** numpy *)
(** An array: the number of elements along each axis, and the elements in the order of [ravel]. *)
Record array := mkArray { shape : list nat; data : list Qc }.
Definition size (s : list nat) : nat := fold_right Nat.mul 1%nat s.
(** Axes that are missing on the left have one element. *)
Definition pad (r : nat) (s : list nat) : list nat := repeat 1%nat (r - length s) ++ s.
(** The shape of both arrays together; None when they cannot be broadcast. *)
Fixpoint broadcast (s t : list nat) : option (list nat) :=
  match s, t with
  | [], [] => Some []
  | a :: s, b :: t =>
      match (if Nat.eqb a b then Some a else if Nat.eqb a 1 then Some b else if Nat.eqb b 1 then Some a else None), broadcast s t with
      | Some c, Some r => Some (c :: r)
      | _, _ => None
      end
  | _, _ => None
  end.
Definition together (a b : array) : option (list nat) :=
  let r := Nat.max (length (shape a)) (length (shape b)) in broadcast (pad r (shape a)) (pad r (shape b)).
(** All indices, the last one fastest. *)
Fixpoint indices (s : list nat) : list (list nat) :=
  match s with [] => [[]] | d :: s => flat_map (fun i => map (cons i) (indices s)) (seq 0 d) end.
(** The place of an element; an axis with one element has the index 0 throughout. *)
Fixpoint place (acc : nat) (s i : list nat) : nat :=
  match s, i with
  | d :: s, k :: i => place (acc * d + (if Nat.eqb d 1 then 0 else k)) s i
  | _, _ => acc
  end.
Definition element (a : array) (i : list nat) : Qc := nth (place 0 (pad (length i) (shape a)) i) (data a) 0%Qc.
(** [np.all(a == b)]; arrays that cannot be broadcast are not equal (numpy before 1.25, with a warning). *)
Definition np_all_equal (a b : array) : bool :=
  match together a b with None => false | Some s => forallb (fun i => Qc_eq_bool (element a i) (element b i)) (indices s) end.

(** ** Method *)
(** What a comparison gives: True or False, or an array of so many of them. *)
Inductive outcome := Scalar (b : bool) | Elementwise (n : nat).
(** The simulation of a method: nothing, a CSDM object, or the array stored when [pack_as_csdm] is false. *)
Inductive result (C : Type) := Nothing | Packed (c : C) | Unpacked (a : array).
Arguments Nothing {C}. Arguments Packed {C}. Arguments Unpacked {C}.
(** A method with spectral dimensions of the type D and CSDM objects of the type C; an experiment is no array. *)
Record emethod (D C : Type) := mkE {
  name : option string; label : option string; description : option string; channels : list string; dims : list D;
  affine : option array; simulation : result C; experiment : option C }.
Arguments mkE {D C}. Arguments name {D C}. Arguments label {D C}. Arguments description {D C}. Arguments channels {D C}. Arguments dims {D C}.
Arguments affine {D C}. Arguments simulation {D C}. Arguments experiment {D C}.

Definition opt_eqb {A} (f : A -> A -> bool) (x y : option A) : bool :=
  match x, y with None, None => true | Some a, Some b => f a b | _, _ => false end.
Fixpoint list_eqb {A} (f : A -> A -> bool) (x y : list A) : bool :=
  match x, y with [], [] => true | a :: x, b :: y => f a b && list_eqb f x y | _, _ => false end.
(** [np.all(check)] of a list.  With an array of several elements in the list numpy raises a ValueError: for the list of unequal depth, or for
    the truth value of the array.  With an array of one element the result depends on the version; it is the variable [single]; empty arrays are left out. *)
Definition np_all (single : pyres bool) (check : list outcome) : pyres bool :=
  if existsb (fun o => match o with Elementwise n => negb (Nat.eqb n 1) | _ => false end) check then Err ValueError
  else if existsb (fun o => match o with Elementwise _ => true | _ => false end) check then single
  else Ok (forallb (fun o => match o with Scalar b => b | _ => false end) check).

Section Methods.
  Context {D C : Type} (dim_eqb : D -> D -> bool) (csdm_eqb : C -> C -> bool) (mixed : C -> array -> outcome) (single : pyres bool).
  (** [np.all(self.affine_matrix == other.affine_matrix)]; an array compared with None gives False for every element, and it has an element:
      the validator of lines 193-203. *)
  Definition affine_eqb (x y : option array) : bool := opt_eqb np_all_equal x y.
  (** [self.simulation == other.simulation] *)
  Definition compare_results (x y : result C) : outcome :=
    match x, y with
    | Nothing, Nothing => Scalar true
    | Packed a, Packed b => Scalar (csdm_eqb a b)
    | Nothing, Packed _ | Packed _, Nothing => Scalar false
    | Unpacked a, Unpacked b => match together a b with None => Scalar false | Some s => Elementwise (size s) end
    | Unpacked a, Nothing | Nothing, Unpacked a => Elementwise (size (shape a))
    | Packed c, Unpacked a | Unpacked a, Packed c => mixed c a
    end.
  (** Lines 152-167 for two methods. *)
  Definition method_eq (x y : emethod D C) : pyres bool :=
    np_all single
      [Scalar (opt_eqb String.eqb (name x) (name y)); Scalar (opt_eqb String.eqb (label x) (label y));
       Scalar (opt_eqb String.eqb (description x) (description y)); Scalar (list_eqb String.eqb (channels x) (channels y));
       Scalar (list_eqb dim_eqb (dims x) (dims y)); Scalar (affine_eqb (affine x) (affine y)); compare_results (simulation x) (simulation y);
       Scalar (opt_eqb csdm_eqb (experiment x) (experiment y))].
  (** Lines 193-203, the part after [np.asarray]. *)
  Definition validate_affine (n : nat) (v : option array) : pyres (option array) :=
    match v with
    | None => Ok None
    | Some a => if negb (Nat.eqb (length (data a)) (n * n)) then Err ValueError
                else match data a with [] => Err IndexError | x :: _ => if Qc_eq_bool x 0 then Err ValueError else Ok (Some a) end
    end.
  (** Python's comparison of two lists: the lengths, then the elements up to the first that differs. *)
  Fixpoint lists_eq (x y : list (emethod D C)) : pyres bool :=
    match x, y with
    | [], [] => Ok true
    | a :: x, b :: y => let* r := method_eq a b in if r then lists_eq x y else Ok false
    | _, _ => Ok false
    end.
  Definition methods_eq (x y : list (emethod D C)) : pyres bool := if Nat.eqb (length x) (length y) then lists_eq x y else Ok false.

  (** ** Simulator: lines 156-170.  [indexes] is never set. *)
  Context {S G : Type} (system_eqb : S -> S -> bool) (config_eqb : G -> G -> bool).
  Record esimulator := mkES {
    s_name : option string; s_label : option string; s_description : option string; s_systems : list S; s_methods : list (emethod D C); s_config : G }.
  Definition simulator_eq (x y : esimulator) : pyres bool :=
    let* m := methods_eq (s_methods x) (s_methods y) in
    np_all single
      [Scalar (opt_eqb String.eqb (s_name x) (s_name y)); Scalar (opt_eqb String.eqb (s_label x) (s_label y));
       Scalar (opt_eqb String.eqb (s_description x) (s_description y)); Scalar (list_eqb system_eqb (s_systems x) (s_systems y)); Scalar m;
       Scalar (config_eqb (s_config x) (s_config y)); Scalar true].
End Methods.
Arguments mkES {D C S G}.

(** ** AbstractList: lines 44-57 *)
(** The classes of the library that derive from it. *)
Inductive list_class := CSites | CTransitionList | CTransitionPathway.
(** [isinstance] of an object of the class [c] for the class [d]. *)
Definition is_instance (c d : list_class) : bool :=
  match c, d with CSites, CSites | CTransitionList, CTransitionList | CTransitionPathway, (CTransitionList | CTransitionPathway) => true | _, _ => false end.
Definition same_class (c d : list_class) : bool := is_instance c d && is_instance d c.
Section Lists.
  Context {A : Type} (eqb : A -> A -> bool).
  Record alist := mkAList { a_class : list_class; a_items : list A }.
  (** [self.__eq__(other)] *)
  Definition call_eq (x y : alist) : bool :=
    if negb (is_instance (a_class y) (a_class x)) then false
    else if negb (Nat.eqb (length (a_items x)) (length (a_items y))) then false
    else forallb (fun ab => eqb (fst ab) (snd ab)) (combine (a_items x) (a_items y)).
  (** [x == y]: Python calls the method of the right operand when its class is a proper subclass of the class of the left one. *)
  Definition python_eq (x y : alist) : bool :=
    if is_instance (a_class y) (a_class x) && negb (same_class (a_class x) (a_class y)) then call_eq y x else call_eq x y.
End Lists.
