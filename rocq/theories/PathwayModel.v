(** Model of the enumeration and selection of transitions:
    - [get_zeeman_states], src/c_lib/base/base_model.pyx lines 511-531;
    - [SpinSystem._all_transitions], src/mrsimulator/spin_system/__init__.py lines 268-281;
    - src/mrsimulator/method/utils.py lines 33-130;
    - [Method._get_transition_pathways] and [_np], src/mrsimulator/method/__init__.py lines 336-372.

    Spin quantum numbers are exact canonical rationals.  A site is given by its isotope symbol and by twice
    its spin, the integer stored in isotope_data.json (spin_system/isotope.py line 57). *)
From Coq Require Import ZArith QArith Bool String Qcanon Lia List.
From Verif Require Import Base.
Import ListNotations.
Open Scope Qc_scope.

Definition Qc_of_nat (n : nat) : Qc := Q2Qc (inject_Z (Z.of_nat n)).
(** The spin I of a site from the stored integer 2I (isotope.py line 57). *)
Definition spin_of (twoI : nat) : Qc := Qc_of_nat twoI / Qc_of_nat 2.

(** ** Zeeman states *)
(** [np.arange(two_Ip1) - spin] (base_model.pyx lines 517-520). *)
Definition spin_numbers (twoI : nat) : list Qc :=
  map (fun k => Qc_of_nat k - spin_of twoI) (seq 0 (twoI + 1)).

(** [np.kron] of two one dimensional arrays. *)
Definition kron (a b : list Qc) : list Qc := flat_map (fun x => map (fun y => x * y) b) a.

(** Lines 524-529: the inner loop for column [j]. *)
Definition zeeman_column (spins : list nat) (j : nat) : list Qc :=
  fold_left (fun k i_s => let '(i, s) := i_s in
               if Nat.eqb i j then kron k (spin_numbers s) else kron k (repeat 1 (s + 1)))
            (combine (seq 0 (List.length spins)) spins) [1].

(** [np.asarray(lst).T] for a list of equally long arrays (line 531). *)
Definition transpose (cols : list (list Qc)) : list (list Qc) :=
  map (fun r => map (fun col => nth r col 0) cols) (seq 0 (List.length (hd [] cols))).

(** Lines 514-531. *)
Definition zeeman_states (spins : list nat) : list (list Qc) :=
  transpose (map (zeeman_column spins) (seq 0 (List.length spins))).

(** ** Transitions *)
(** A row of the array of shape (M, 2, N): (initial state, final state). *)
Definition transition := (list Qc * list Qc)%type.

(** spin_system/__init__.py lines 276-281: meshgrid, transpose and reshape list the index pairs (a, b) with
    [a] varying slowest. *)
Definition all_transitions_of (states : list (list Qc)) : list transition :=
  flat_map (fun a => map (fun b => (nth a states [], nth b states [])) (seq 0 (List.length states)))
           (seq 0 (List.length states)).
Definition all_transitions (spins : list nat) : list transition := all_transitions_of (zeeman_states spins).

(** [transitions[:, 1, :] - transitions[:, 0, :]] for one row (utils.py line 55). *)
Fixpoint zip_with (f : Qc -> Qc -> Qc) (a b : list Qc) : list Qc :=
  match a, b with x :: a', y :: b' => f x y :: zip_with f a' b' | _, _ => [] end.
Definition P_fn (t : transition) : list Qc := zip_with (fun i f => f - i) (fst t) (snd t).
(** [transitions[:, 1, :] ** 2 - transitions[:, 0, :] ** 2] for one row (line 60). *)
Definition D_fn (t : transition) : list Qc := zip_with (fun i f => f * f - i * i) (fst t) (snd t).

(** ** numpy index sets *)
Definition memb (x : nat) (l : list nat) : bool := existsb (Nat.eqb x) l.
Fixpoint insert_u (x : nat) (l : list nat) : list nat :=
  match l with
  | [] => [x]
  | y :: r => if (x <? y)%nat then x :: l else if (x =? y)%nat then l else y :: insert_u x r
  end.
(** [np.unique]: sorted, without duplicates. *)
Definition unique (l : list nat) : list nat := fold_right insert_u [] l.
Definition union1d (a b : list nat) : list nat := unique (a ++ b).
Definition intersect1d (a b : list nat) : list nat := filter (fun x => memb x b) (unique a).

(** [reduce(f, l)] without an initial value (TypeError on an empty list). *)
Definition reduce1 {A} (f : A -> A -> A) (l : list A) : pyres A :=
  match l with [] => Err TypeError | x :: r => Ok (fold_left f r x) end.

(** [np.where(fn[:, i] == v)]. *)
Definition where_col (fn : list (list Qc)) (i : nat) (v : Qc) : list nat :=
  filter (fun r => if Qc_eq_dec (nth i (nth r fn []) 0) v then true else false) (seq 0 (List.length fn)).

(** [get_symmetry_indexes], utils.py lines 42-51; [n] is [fn.shape[1]], the number of sites. *)
Definition get_symmetry_indexes (n : nat) (fn : list (list Qc)) (list_of_sym : list (list Qc)) : pyres (list nat) :=
  let* sets := mapM (fun search =>
      reduce1 intersect1d (map (fun i => where_col fn i (nth i search 0)) (seq 0 n))) list_of_sym in
  Ok (fold_left union1d sets []).

Definition P_symmetry_indexes (n : nat) (ts : list transition) (l : list (list Qc)) := get_symmetry_indexes n (map P_fn ts) l.
Definition D_symmetry_indexes (n : nat) (ts : list transition) (l : list (list Qc)) := get_symmetry_indexes n (map D_fn ts) l.

(** ** Query permutations *)
(** The mutable lists of the queries live in a heap; a list object is its address. *)
Definition addr := nat.
Definition heap := list (list Qc).
(** Computations on the heap that may raise; the heap survives an exception. *)
Definition hm (A : Type) := heap -> pyres A * heap.
Definition ret {A} (x : A) : hm A := fun h => (Ok x, h).
Definition raise {A} (e : exn) : hm A := fun h => (Err e, h).
Definition hbind {A B} (m : hm A) (f : A -> hm B) : hm B :=
  fun h => match m h with (Ok x, h') => f x h' | (Err e, h') => (Err e, h') end.
Notation "'do' x <- m ; f" := (hbind m (fun x => f)) (at level 60, x pattern, m at level 55, right associativity).
Definition lift {A} (r : pyres A) : hm A := fun h => (r, h).
(** Read, write and create list objects.  A dangling address cannot occur in Python. *)
Definition hread (a : addr) : hm (list Qc) := fun h => match nth_error h a with Some l => (Ok l, h) | None => (Err OtherException, h) end.
Definition hwrite (a : addr) (l : list Qc) : hm unit := fun h => (Ok tt, upd_nat h a l).
Definition halloc (l : list Qc) : hm addr := fun h => (Ok (List.length h), h ++ [l]).
Fixpoint hmapM {A B} (f : A -> hm B) (l : list A) : hm (list B) :=
  match l with
  | [] => ret []
  | x :: r => do y <- f x; do ys <- hmapM f r; ret (y :: ys)
  end.

(** The value of a symmetry query: a dict from "channel-k" (here the number k) to a list of items; an item is a
    list object with one number per site.  [None] when the attribute is None. *)
Definition sym_query (item : Type) := option (list (nat * list item)).
Fixpoint dict_get {A} (d : list (nat * A)) (k : nat) : pyres A :=
  match d with [] => Err KeyError | (k', v) :: r => if Nat.eqb k k' then Ok v else dict_get r k end.

Section Query.
(** [list(set(permutations(item)))] (line 120) is some listing of the distinct permutations; its order is
    up to the hash table.  [set_perms] is that listing. *)
Variable set_perms : list Qc -> list (list Qc).

(** [np.where(isotope == item)[0]] (get_iso_dict, lines 64-75). *)
Definition iso_indexes (isotopes : list string) (c : string) : list nat :=
  filter (fun i => String.eqb (nth i isotopes EmptyString) c) (seq 0 (List.length isotopes)).

(** Lines 111-120: the loop over the items of one channel. *)
Fixpoint channel_items (n : nat) (items : list addr) : hm (list (list Qc)) :=
  match items with
  | [] => ret []
  | a :: r =>
      do item <- hread a;
      if (n <? List.length item)%nat then raise ValueError else
      let item' := item ++ repeat 0 (n - List.length item) in
      do _ <- hwrite a item';
      do rest <- channel_items n r;
      ret (set_perms item' ++ rest)
  end.

(** Lines 101-121: the loop over the channels; [None] is the early [return np.asarray([])]. *)
Fixpoint channel_loop (q : sym_query addr) (isotopes : list string) (i : nat) (channels : list string) : hm (option (list (list (list Qc)))) :=
  match channels with
  | [] => ret (Some [])
  | c :: r =>
      if negb (existsb (String.eqb c) isotopes) then ret None else
      do d <- (match q with None => raise TypeError | Some d => ret d end);
      do items <- lift (dict_get d (i + 1));
      do temp <- channel_items (List.length (iso_indexes isotopes c)) items;
      do rest <- channel_loop q isotopes (i + 1) r;
      ret (match rest with None => None | Some l => Some (temp :: l) end)
  end.

(** One row of [P_expanded[:, idx] = values] (line 128). *)
Definition set_columns (row : list Qc) (idx : list nat) (values : list Qc) : list Qc :=
  fold_left (fun row iv => upd_nat row (fst iv) (snd iv)) (combine idx values) row.

(** Lines 125-128: numpy broadcasts one row over all rows and raises ValueError when the numbers of rows
    differ otherwise; an empty list (shape (0,)) never broadcasts. *)
Definition assign_channel (rows : list (list Qc)) (idx : list nat) (temp : list (list Qc)) : pyres (list (list Qc)) :=
  match temp with
  | [] => Err ValueError
  | [t] => Ok (map (fun row => set_columns row idx t) rows)
  | _ => if Nat.eqb (List.length temp) (List.length rows)
         then Ok (map (fun rt => set_columns (fst rt) idx (snd rt)) (combine rows temp))
         else Err ValueError
  end.

(** Lines 123-130: [max()] of no channel raises ValueError. *)
Definition expand (isotopes channels : list string) (permuted : list (list (list Qc))) : pyres (list (list Qc)) :=
  match permuted with
  | [] => Err ValueError
  | _ =>
    let len := fold_right (fun t m => Nat.max (List.length t) m) 0%nat permuted in
    for_each (combine channels permuted)
      (fun ct rows => assign_channel rows (iso_indexes isotopes (fst ct)) (snd ct))
      (repeat (repeat 0 (List.length isotopes)) len)
  end.

(** [query_permutations], lines 78-130. *)
Definition query_permutations (q : sym_query addr) (isotopes channels : list string) : hm (list (list Qc)) :=
  do p <- channel_loop q isotopes 0 channels;
  match p with None => ret [] | Some permuted => lift (expand isotopes channels permuted) end.

(** ** Events and methods *)
Record tquery := { tq_P : sym_query addr; tq_D : sym_query addr }.

(** pydantic's [.dict()] builds new dicts and lists (method/__init__.py lines 345, 356). *)
Definition copy_query (q : sym_query addr) : hm (sym_query addr) :=
  match q with
  | None => ret None
  | Some d => do d' <- hmapM (fun kv => do l <- hmapM (fun a => do x <- hread a; halloc x) (snd kv); ret (fst kv, l)) d;
              ret (Some d')
  end.
Definition copy_tquery (q : tquery) : hm tquery :=
  do p <- copy_query (tq_P q); do d <- copy_query (tq_D q); ret {| tq_P := p; tq_D := d |}.

(** [selected_transitions[indexes]]. *)
Definition take {A} (d : A) (l : list A) (idx : list nat) : list A := map (fun i => nth i l d) idx.

(** Lines 341-362: the transitions selected for one event. *)
Definition event_transitions (channels isotopes : list string) (all : list transition) (q : tquery) : hm (list transition) :=
  do qp <- copy_tquery q;
  do list_of_P <- query_permutations (tq_P qp) isotopes channels;
  do idx <- lift (P_symmetry_indexes (List.length isotopes) all list_of_P);
  let sel := take ([], []) all idx in
  match tq_D q with
  | None => ret sel
  | Some _ =>
      do qd <- copy_tquery q;
      do list_of_D <- query_permutations (tq_D qd) isotopes channels;
      do idx2 <- lift (D_symmetry_indexes (List.length isotopes) sel list_of_D);
      ret (take ([], []) sel idx2)
  end.

(** Lines 336-364: the selected transitions of every event, in order ([events]: the transition queries of all events
    of all dimensions). *)
Definition segments (channels isotopes : list string) (spins : list nat) (events : list tquery) : hm (list (list transition)) :=
  hmapM (event_transitions channels isotopes (all_transitions spins)) events.

(** [cartesian_product] of index ranges of the given lengths (lines 33-39): row [p] of the reshaped array holds
    [(p / stride_i) mod len_i] in column [i]; without arguments numpy raises ValueError. *)
Fixpoint prodn (l : list nat) : nat := match l with [] => 1%nat | x :: r => (x * prodn r)%nat end.
Fixpoint unravel (lens : list nat) (p : nat) : list nat :=
  match lens with [] => [] | x :: r => ((p / prodn r) mod x)%nat :: unravel r p end.
Definition cartesian_index (lens : list nat) : pyres (list (list nat)) :=
  match lens with [] => Err ValueError | _ => Ok (map (unravel lens) (seq 0 (prodn lens))) end.

(** Lines 366-372. *)
Definition pathways_of_segments (segs : list (list transition)) : pyres (list (list transition)) :=
  let* ci := cartesian_index (map (@List.length transition) segs) in
  Ok (map (fun item => map (fun sj => nth (snd sj) (fst sj) ([], [])) (combine segs item)) ci).

Definition get_pathways_np (channels isotopes : list string) (spins : list nat) (events : list tquery) : hm (list (list transition)) :=
  do segs <- segments channels isotopes spins events;
  lift (pathways_of_segments segs).
End Query.
