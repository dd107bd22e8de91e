(** Model of src/mrsimulator/utils/collection.py.  An argument is a single item or an array; arrays are flat (the ravel of line 227 is
    not modelled) and a tuple is not an array.  The objects made are records of the arguments; their validation is modelled for the
    isotope only. *)
From Coq Require Import ZArith QArith Bool Ascii String List.
From Verif Require Import Base SitesModel.
Import ListNotations.
Open Scope string_scope.
Open Scope list_scope.

Inductive arg (A : Type) := Scalar (a : A) | Arr (l : list A).
Arguments Scalar {A} a.
Arguments Arr {A} l.

(** Lines 10-11. *)
Definition SHIELDING_SYM_PARAMS : list string := ["zeta"; "eta"; "alpha"; "beta"; "gamma"].
Definition QUADRUPOLAR_PARAMS : list string := ["Cq"; "eta"; "alpha"; "beta"; "gamma"].

(** Lines 231-235. *)
Definition get_length {A} (item : arg A) : nat := match item with Arr l => length l | Scalar _ => O end.
(** Lines 218-222. *)
Definition get_default_lists {A} (item : arg A) (n : nat) : list A := match item with Arr l => l | Scalar a => repeat a n end.
(** Lines 238-248. *)
Definition check_size (n_list : list nat) : pyres nat :=
  match filter (fun n => Nat.ltb 0 n) n_list with
  | [] => Err IndexError
  | first :: r => if forallb (fun n => Nat.eqb n first) (first :: r) then Ok first else Err ValueError
  end.
(** Indexing of an array by an array of indexes. *)
Definition take {A} (l : list A) (index : list nat) : pyres (list A) :=
  mapM (fun k => match nth_error l k with Some a => Ok a | None => Err IndexError end) index.
(** [abundance_.max()] *)
Definition qmax (a b : Q) : Q := if Qle_bool a b then b else a.
Definition array_max (l : list Q) : pyres Q := match l with [] => Err ValueError | a :: r => Ok (fold_left qmax r a) end.
(** Line 111. *)
Definition where_above (l : list Q) (cut : Q) : list nat :=
  filter (fun k => match nth_error l k with Some a => negb (Qle_bool a cut) | None => false end) (seq 0 (length l)).

(** The parameters of a tensor, by name; None when not given. *)
Definition tensor := list (string * option Q).
Record system := mkSystem {
  isotope : string; shift : Q; label : option string; name : option string; description : option string;
  abundance : Q; shielding : option tensor; quad : option tensor
}.

(** Lines 159-190: the dict reduced to the known names. *)
Definition tensor_arg := list (string * arg (option Q)).
Definition known_items (params : list string) (d : tensor_arg) : tensor_arg :=
  concat (map (fun item => match dict_lookup d item with Some v => [(item, v)] | None => [] end) params).
Definition tensor_sizes (params : list string) (d : option tensor_arg) : list nat :=
  match d with None => [] | Some d => map (fun kv => get_length (snd kv)) (known_items params d) end.
(** Lines 137-143 and 147-153: one list for each of the names. *)
Definition tensor_lists (params : list string) (d : tensor_arg) (n : nat) (index : list nat) : pyres (list (list (option Q))) :=
  mapM (fun item => match dict_lookup (known_items params d) item with
                    | Some v => take (get_default_lists v n) index
                    | None => Ok (repeat None (length index))
                    end) params.
(** Lines 193-215: entry [i] of each list. *)
Definition tensor_at (params : list string) (items : list (list (option Q))) (i : nat) : tensor :=
  map (fun pl => (fst pl, nth i (snd pl) None)) (combine params items).
Definition populate_shielding (sys : list system) (items : list (list (option Q))) : list system :=
  map (fun si => let s := fst si in
       mkSystem (isotope s) (shift s) (label s) (name s) (description s) (abundance s)
                (Some (tensor_at SHIELDING_SYM_PARAMS items (snd si))) (quad s))
      (combine sys (seq 0 (length sys))).
Definition populate_quadrupolar (sys : list system) (items : list (list (option Q))) : pyres (list system) :=
  mapM (fun si => let s := fst si in
        let* n := twice_spin (isotope s) in
        Ok (if Z.ltb 1 n
            then mkSystem (isotope s) (shift s) (label s) (name s) (description s) (abundance s) (shielding s)
                          (Some (tensor_at QUADRUPOLAR_PARAMS items (snd si)))
            else s))
       (combine sys (seq 0 (length sys))).

(** Lines 126-133: zip. *)
Fixpoint zip6 (a : list string) (b : list Q) (c d e : list (option string)) (f : list Q)
  : list (string * Q * option string * option string * option string * Q) :=
  match a, b, c, d, e, f with
  | x1 :: a', x2 :: b', x3 :: c', x4 :: d', x5 :: e', x6 :: f' => (x1, x2, x3, x4, x5, x6) :: zip6 a' b' c' d' e' f'
  | _, _, _, _, _, _ => []
  end.

(** Lines 14-156. *)
Definition single_site_system_generator (isotopes : arg string) (shifts : arg Q)
  (shielding_symmetric quadrupolar : option tensor_arg) (abundances : option (arg Q))
  (labels names descriptions : arg (option string)) (rtol : Q) : pyres (list system) :=
  let n_abd := match abundances with Some a => get_length a | None => O end in
  let* n_len := check_size ([get_length isotopes; get_length shifts]
                            ++ tensor_sizes SHIELDING_SYM_PARAMS shielding_symmetric
                            ++ tensor_sizes QUADRUPOLAR_PARAMS quadrupolar
                            ++ [n_abd; get_length labels; get_length names; get_length descriptions]) in
  let abd := match abundances with Some a => a | None => Scalar (1 / inject_Z (Z.of_nat n_len))%Q end in
  let isotopes_ := get_default_lists isotopes n_len in
  let shifts_ := get_default_lists shifts n_len in
  let abundance_ := get_default_lists abd n_len in
  let labels_ := get_default_lists labels n_len in
  let names_ := get_default_lists names n_len in
  let descriptions_ := get_default_lists descriptions n_len in
  let* top := array_max abundance_ in
  let index := where_above abundance_ (rtol * top)%Q in
  let* i1 := take isotopes_ index in
  let* i2 := take shifts_ index in
  let* i3 := take labels_ index in
  let* i4 := take names_ index in
  let* i5 := take descriptions_ index in
  let* i6 := take abundance_ index in
  let* sys := mapM (fun t => let '(ist, iso, lab, nam, dis, abd) := t in
                    let* symbol := format_isotope_string ist in
                    Ok (mkSystem symbol iso lab nam dis abd None None)) (zip6 i1 i2 i3 i4 i5 i6) in
  let* sys := (match shielding_symmetric with
               | None => Ok sys
               | Some d => let* lst := tensor_lists SHIELDING_SYM_PARAMS d n_len index in Ok (populate_shielding sys lst)
               end) in
  match quadrupolar with
  | None => Ok sys
  | Some d => let* lst := tensor_lists QUADRUPOLAR_PARAMS d n_len index in populate_quadrupolar sys lst
  end.
