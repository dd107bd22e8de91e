(** Specifications for site listings and flattened attributes; of the model only the type of nested dictionaries is used. *)
From Coq Require Import ZArith Bool Ascii String List.
From Verif Require Import SitesModel.
Import ListNotations.

(** The entries of a list that equal no earlier entry, in order. *)
Definition first_occurrences {X} (eqb : X -> X -> bool) (dflt : X) (l : list X) : list X :=
  map (fun i => nth i l dflt)
      (filter (fun i => forallb (fun j => negb (eqb (nth i l dflt) (nth j l dflt))) (seq 0 i)) (seq 0 (length l))).

(** ["a"; "b"] is written a.b. *)
Fixpoint dotted (path : list string) : string :=
  match path with
  | [] => EmptyString
  | [k] => k
  | k :: r => (k ++ "." ++ dotted r)%string
  end.
Fixpoint no_dot (s : string) : Prop :=
  match s with EmptyString => True | String c r => c <> "."%char /\ no_dot r end.

(** The attributes of a nested dict: the path of keys to each value, in order. *)
Fixpoint leaves {A} (n : node A) : list (list string * A) :=
  match n with
  | Leaf a => [([], a)]
  | Node d => flat_map (fun kv => map (fun pv => (fst kv :: fst pv, snd pv)) (leaves (snd kv))) d
  end.
Definition attributes {A} (d : list (string * node A)) : list (list string * A) := leaves (Node d).

(** The nuclear spins of the usual NMR tables: the isotopes of spin n/2. *)
Definition isotopes_of_spin (n : Z) : list string :=
  (match n with
   | 1 => ["1H"; "3He"; "13C"; "15N"; "19F"; "29Si"; "31P"; "57Fe"; "77Se"; "89Y"; "103Rh"; "107Ag"; "109Ag"; "111Cd"; "113Cd"; "115Sn"; "117Sn"; "119Sn"; "123Te"; "125Te"; "129Xe"; "169Tm"; "171Yb"; "183W"; "187Os"; "195Pt"; "199Hg"; "203Tl"; "205Tl"; "207Pb"]
   | 2 => ["2H"; "6Li"; "14N"]
   | 3 => ["7Li"; "9Be"; "11B"; "21Ne"; "23Na"; "33S"; "35Cl"; "37Cl"; "39K"; "41K"; "53Cr"; "61Ni"; "63Cu"; "65Cu"; "69Ga"; "71Ga"; "75As"; "79Br"; "81Br"; "87Rb"; "131Xe"; "135Ba"; "137Ba"; "155Gd"; "157Gd"; "159Tb"; "189Os"; "191Ir"; "193Ir"; "197Au"; "201Hg"]
   | 5 => ["17O"; "25Mg"; "27Al"; "47Ti"; "55Mn"; "67Zn"; "85Rb"; "91Zr"; "95Mo"; "97Mo"; "99Ru"; "101Ru"; "105Pd"; "121Sb"; "127I"; "141Pr"; "151Eu"; "153Eu"; "161Dy"; "163Dy"; "173Yb"; "185Re"; "187Re"]
   | 6 => ["10B"]
   | 7 => ["43Ca"; "45Sc"; "49Ti"; "51V"; "59Co"; "123Sb"; "133Cs"; "139La"; "143Nd"; "145Nd"; "147Sm"; "149Sm"; "165Ho"; "167Er"; "175Lu"; "177Hf"; "181Ta"]
   | 9 => ["73Ge"; "83Kr"; "87Sr"; "93Nb"; "113In"; "115In"; "179Hf"; "209Bi"]
   | _ => []
   end)%Z%string.

(** The attributes a table of sites has columns for. *)
Definition tabulated : list (list string) :=
  ([["name"]; ["label"]; ["description"]; ["isotope"]; ["isotropic_chemical_shift"]] ++
   map (fun a => ["shielding_symmetric"; a]) ["zeta"; "eta"; "alpha"; "beta"; "gamma"] ++
   map (fun a => ["quadrupolar"; a]) ["Cq"; "eta"; "alpha"; "beta"; "gamma"])%list%string.
