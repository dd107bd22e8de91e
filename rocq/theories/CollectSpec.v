(** What property C48 says, independent of the code. *)
From Coq Require Import ZArith QArith Bool String List.
From Verif Require Import Base SitesModel CollectModel.
Import ListNotations.
Open Scope string_scope.

(** Entry [k] of an argument: a single item stands for every entry. *)
Definition entry {A} (item : arg A) (k : nat) (a : A) : Prop :=
  match item with Scalar x => a = x | Arr l => nth_error l k = Some a end.

(** An argument that fits [n] systems. *)
Definition fits {A} (n : nat) (item : arg A) : Prop := match item with Scalar _ => True | Arr l => length l = n end.
Definition is_array_of {A} (n : nat) (item : arg A) : Prop := exists l, item = Arr l /\ length l = n.

Definition tensor_fits (params : list string) (n : nat) (d : option tensor_arg) : Prop :=
  forall d', d = Some d' -> forall k v, In k params -> dict_lookup d' k = Some v -> fits n v.

(** The tensor of system [k]: each of the names in order, with the entry given for it or None. *)
Definition tensor_entry (params : list string) (d : tensor_arg) (k : nat) (t : tensor) : Prop :=
  map fst t = params /\
  forall p x, In (p, x) t -> match dict_lookup d p with Some v => entry v k x | None => x = None end.

(** The abundance of entry [k]; 1/n when none is given. *)
Definition abundance_entry (n : nat) (a : option (arg Q)) (k : nat) (x : Q) : Prop :=
  match a with Some a => entry a k x | None => x = (1 / inject_Z (Z.of_nat n))%Q end.

(** Entry [k] is kept: its abundance is larger than rtol times every abundance. *)
Definition kept (n : nat) (a : option (arg Q)) (rtol : Q) (k : nat) : Prop :=
  exists x top j, abundance_entry n a k x /\ (j < n)%nat /\ abundance_entry n a j top /\
    (forall i y, (i < n)%nat -> abundance_entry n a i y -> (y <= top)%Q) /\ (rtol * top < x)%Q.

(** System [s] is made of entry [k] of all the arguments. *)
Record made_of (isotopes : arg string) (shifts : arg Q) (shield quadr : option tensor_arg) (n : nat) (a : option (arg Q))
  (labels names descriptions : arg (option string)) (k : nat) (s : system) : Prop := {
  made_isotope : exists i, entry isotopes k i /\ format_isotope_string i = Ok (isotope s);
  made_shift : entry shifts k (shift s);
  made_label : entry labels k (label s);
  made_name : entry names k (name s);
  made_description : entry descriptions k (description s);
  made_abundance : abundance_entry n a k (abundance s);
  made_shielding : match shield with
                   | None => shielding s = None
                   | Some d => exists t, shielding s = Some t /\ tensor_entry ["zeta"; "eta"; "alpha"; "beta"; "gamma"] d k t
                   end;
  (* a quadrupolar tensor for spins larger than 1/2 only *)
  made_quad : match quadr with
              | None => quad s = None
              | Some d => exists n2, twice_spin (isotope s) = Ok n2 /\
                  ((1 < n2)%Z /\ (exists t, quad s = Some t /\ tensor_entry ["Cq"; "eta"; "alpha"; "beta"; "gamma"] d k t) \/
                   (n2 <= 1)%Z /\ quad s = None)
              end
}.

(** One of the arguments is an array of [m] items.  Names that are no parameters of the tensor do not count. *)
Definition tensor_array (params : list string) (m : nat) (d : option tensor_arg) : Prop :=
  exists d' k v, d = Some d' /\ In k params /\ dict_lookup d' k = Some v /\ is_array_of m v.
Definition has_array (isotopes : arg string) (shifts : arg Q) (shield quadr : option tensor_arg) (a : option (arg Q))
  (labels names descriptions : arg (option string)) (m : nat) : Prop :=
  is_array_of m isotopes \/ is_array_of m shifts \/
  tensor_array ["zeta"; "eta"; "alpha"; "beta"; "gamma"] m shield \/ tensor_array ["Cq"; "eta"; "alpha"; "beta"; "gamma"] m quadr \/
  (exists x, a = Some x /\ is_array_of m x) \/
  is_array_of m labels \/ is_array_of m names \/ is_array_of m descriptions.
