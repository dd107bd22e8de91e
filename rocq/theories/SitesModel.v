(** Model of src/mrsimulator/spin_system/isotope.py (symbols), the isotope and site listings of spin_system/__init__.py and
    simulator/__init__.py, utils/__init__.py [flatten_dict] and the table of Sites.to_pd.  Strings are ASCII. *)
From Coq Require Import ZArith QArith Bool Ascii String List.
From Verif Require Import Base.
Import ListNotations.
Open Scope string_scope.
Open Scope list_scope.

(** ** isotope.py *)
(** isotope_data.json: the symbols with twice the spin, in the order of the file. *)
Definition isotope_data : list (string * Z) :=
  [("2H", 2%Z); ("1H", 1%Z); ("3He", 1%Z); ("6Li", 2%Z); ("7Li", 3%Z); ("9Be", 3%Z); ("10B", 6%Z); ("11B", 3%Z); ("13C", 1%Z);
   ("15N", 1%Z); ("14N", 2%Z); ("17O", 5%Z); ("19F", 1%Z); ("21Ne", 3%Z); ("23Na", 3%Z); ("25Mg", 5%Z); ("27Al", 5%Z); ("29Si", 1%Z);
   ("31P", 1%Z); ("33S", 3%Z); ("37Cl", 3%Z); ("35Cl", 3%Z); ("41K", 3%Z); ("39K", 3%Z); ("43Ca", 7%Z); ("45Sc", 7%Z); ("49Ti", 7%Z);
   ("47Ti", 5%Z); ("51V", 7%Z); ("53Cr", 3%Z); ("55Mn", 5%Z); ("57Fe", 1%Z); ("59Co", 7%Z); ("61Ni", 3%Z); ("63Cu", 3%Z); ("65Cu", 3%Z);
   ("67Zn", 5%Z); ("69Ga", 3%Z); ("71Ga", 3%Z); ("73Ge", 9%Z); ("75As", 3%Z); ("77Se", 1%Z); ("79Br", 3%Z); ("81Br", 3%Z); ("83Kr", 9%Z);
   ("85Rb", 5%Z); ("87Rb", 3%Z); ("87Sr", 9%Z); ("89Y", 1%Z); ("91Zr", 5%Z); ("93Nb", 9%Z); ("97Mo", 5%Z); ("95Mo", 5%Z); ("101Ru", 5%Z);
   ("99Ru", 5%Z); ("103Rh", 1%Z); ("105Pd", 5%Z); ("109Ag", 1%Z); ("107Ag", 1%Z); ("111Cd", 1%Z); ("113In", 9%Z); ("119Sn", 1%Z); ("117Sn", 1%Z);
   ("115Sn", 1%Z); ("123Sb", 7%Z); ("121Sb", 5%Z); ("125Te", 1%Z); ("127I", 5%Z); ("129Xe", 1%Z); ("131Xe", 3%Z); ("133Cs", 7%Z); ("135Ba", 3%Z);
   ("137Ba", 3%Z); ("139La", 7%Z); ("141Pr", 5%Z); ("143Nd", 7%Z); ("145Nd", 7%Z); ("149Sm", 7%Z); ("153Eu", 5%Z); ("151Eu", 5%Z); ("157Gd", 3%Z);
   ("155Gd", 3%Z); ("159Tb", 3%Z); ("161Dy", 5%Z); ("163Dy", 5%Z); ("165Ho", 7%Z); ("167Er", 7%Z); ("169Tm", 1%Z); ("173Yb", 5%Z); ("171Yb", 1%Z);
   ("175Lu", 7%Z); ("179Hf", 9%Z); ("177Hf", 7%Z); ("181Ta", 7%Z); ("183W", 1%Z); ("185Re", 5%Z); ("187Os", 1%Z); ("189Os", 3%Z); ("191Ir", 3%Z);
   ("193Ir", 3%Z); ("195Pt", 1%Z); ("197Au", 3%Z); ("201Hg", 3%Z); ("199Hg", 1%Z); ("203Tl", 1%Z); ("205Tl", 1%Z); ("207Pb", 1%Z)].
Definition code (c : ascii) : nat := nat_of_ascii c.
Definition between (a b : nat) (c : ascii) : bool := (Nat.leb a (code c) && Nat.leb (code c) b)%bool.
(** The classes \d, \s and \w of the regular expression, for ASCII. *)
Definition is_digit (c : ascii) : bool := between 48 57 c.
Definition is_space (c : ascii) : bool := (between 9 13 c || between 28 32 c)%bool.
Definition is_word (c : ascii) : bool := (between 48 57 c || between 65 90 c || between 97 122 c || Nat.eqb (code c) 95)%bool.
(** The longest prefix with a property, and the rest. *)
Fixpoint span (p : ascii -> bool) (s : string) : string * string :=
  match s with
  | EmptyString => (EmptyString, EmptyString)
  | String c r => if p c then let '(a, b) := span p r in (String c a, b) else (EmptyString, s)
  end.
(** Lines 92-96, [re.match] of (\d+)\s*(\w+) and the concatenation of its groups.  When no word character follows the digits and the
    white space, the engine gives back the last digit, which then is the second group: this needs two digits. *)
Definition match_isotope (s : string) : option string :=
  let '(d, r) := span is_digit s in
  let '(_, r') := span is_space r in
  let '(w, _) := span is_word r' in
  match d, w with
  | EmptyString, _ => None
  | String _ EmptyString, EmptyString => None
  | _, EmptyString => Some d
  | _, _ => Some (d ++ w)%string
  end.
Definition known (s : string) : bool := existsb (fun kv => String.eqb (fst kv) s) isotope_data.
(** Lines 90-103. *)
Definition format_isotope_string (s : string) : pyres string :=
  match match_isotope s with
  | None => Err OtherException
  | Some f => if known f then Ok f else Err OtherException
  end.
(** Lines 106-111 and 57-60, twice the spin of a symbol. *)
Definition twice_spin (s : string) : pyres Z :=
  let* f := format_isotope_string s in
  match find (fun kv => String.eqb (fst kv) f) isotope_data with Some (_, n) => Ok n | None => Err KeyError end.

(** ** Listings *)
(** spin_system/__init__.py lines 404-425, [allowed_isotopes]; [int] truncates.  The order of the set is not modelled: it is used for
    membership only. *)
Definition allowed_isotopes (spin_I : option Q) : list string :=
  match spin_I with
  | None => map fst isotope_data
  | Some spin => let x := (2 * spin)%Q in let n := Z.quot (Qnum x) (Zpos (Qden x)) in
      map fst (filter (fun kv => Z.eqb (snd kv) n) isotope_data)
  end.
(** Lines 223-235, SpinSystem.get_isotopes with symbol=True, of the symbols of the sites. *)
Definition system_isotopes (spin_I : option Q) (sites : list string) : list string :=
  filter (fun s => existsb (String.eqb s) (allowed_isotopes spin_I)) sites.
(** [np.unique] of strings: sorted by code points, without repetition. *)
Fixpoint insert_unique (s : string) (l : list string) : list string :=
  match l with
  | [] => [s]
  | x :: r => match String.compare s x with Lt => s :: l | Eq => l | Gt => x :: insert_unique s r end
  end.
Definition np_unique (l : list string) : list string := fold_right insert_unique [] l.
(** simulator/__init__.py lines 284-290, [get_isotopes] with symbol=True; with symbol=False every symbol is made an Isotope. *)
Definition get_isotopes (spin_I : option Q) (systems : list (list string)) : list string :=
  np_unique (fold_left (fun st sys => st ++ system_isotopes spin_I sys) systems []).
(** Lines 543-559, [sites]; [eqb] is the equality of Site objects. *)
Definition unique_sites {site : Type} (eqb : site -> site -> bool) (systems : list (list site)) : list site :=
  fold_left (fun acc sys => fold_left (fun acc s => if existsb (eqb s) acc then acc else acc ++ [s]) sys acc) systems [].

(** ** flatten_dict *)
(** Values of a nested dict: a leaf or a dict. *)
Inductive node (A : Type) := Leaf (a : A) | Node (d : list (string * node A)).
Arguments Leaf {A} a.
Arguments Node {A} d.
(** [d[k] = v]: in place when the key exists, at the end otherwise. *)
Fixpoint dict_set {A} (d : list (string * A)) (k : string) (v : A) : list (string * A) :=
  match d with
  | [] => [(k, v)]
  | (k', v') :: r => if String.eqb k' k then (k', v) :: r else (k', v') :: dict_set r k v
  end.
Definition dict_update {A} (d e : list (string * A)) : list (string * A) := fold_left (fun d kv => dict_set d (fst kv) (snd kv)) e d.
Definition dict_lookup {A} (d : list (string * A)) (k : string) : option A :=
  match find (fun kv => String.eqb (fst kv) k) d with Some (_, v) => Some v | None => None end.
(** utils/__init__.py lines 45-55. *)
Fixpoint flatten {A} (previous : option string) (n : node A) : list (string * A) :=
  match n with
  | Leaf _ => []
  | Node d =>
      (fix go (d : list (string * node A)) (result : list (string * A)) : list (string * A) :=
         match d with
         | [] => result
         | (k, v) :: r =>
             go r (match v with
                   | Leaf a => dict_set result (match previous with Some p => p ++ "." ++ k | None => k end)%string a
                   | Node _ => dict_update result (flatten (Some k) v)
                   end)
         end) d []
  end.
Definition flatten_dict {A} (d : list (string * node A)) : list (string * A) := flatten None (Node d).

(** simulator/__init__.py lines 620-628: the columns. *)
Definition site_labels : list string :=
  ["name"; "label"; "description"; "isotope"; "isotropic_chemical_shift";
   "shielding_symmetric.zeta"; "shielding_symmetric.eta"; "shielding_symmetric.alpha"; "shielding_symmetric.beta"; "shielding_symmetric.gamma";
   "quadrupolar.Cq"; "quadrupolar.eta"; "quadrupolar.alpha"; "quadrupolar.beta"; "quadrupolar.gamma"]%string.
(** Lines 639-656, [to_pd]: the columns with their cells; columns that are None throughout are dropped.  [sites]: the json() dicts. *)
Definition to_pd {A} (sites : list (list (string * node A))) : list (string * list (option A)) :=
  let row := map (fun item => (item, map (fun s => dict_lookup (flatten_dict s) item) sites)) site_labels in
  filter (fun col => existsb (fun c => match c with Some _ => true | None => false end) (snd col)) row.
