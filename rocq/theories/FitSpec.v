(** What properties C46 and C47 say, independent of the code. *)
From Coq Require Import ZArith QArith Bool String List.
From Verif Require Import Base SitesModel DictModel FitModel.
Import ListNotations.
Open Scope string_scope.
Open Scope list_scope.

(** The attributes of a spin system that hold numbers. *)
Inductive tattr := Zeta | Cq | D | Eta | Alpha | Beta | Gamma.
Inductive stensor := ShieldSym | ShieldAnti | Quadrupolar.
Inductive ctensor := JSym | JAnti | Dipolar.
Inductive path :=
| Abundance (i : nat)
| Shift (i j : nat)
| SiteT (i j : nat) (t : stensor) (a : tattr)
| IsoJ (i j : nat)
| CoupT (i j : nat) (t : ctensor) (a : tattr).

Definition tattr_name (a : tattr) : string :=
  match a with Zeta => "zeta" | Cq => "Cq" | D => "D" | Eta => "eta" | Alpha => "alpha" | Beta => "beta" | Gamma => "gamma" end.
Definition stensor_name (t : stensor) : string :=
  match t with ShieldSym => "shielding_symmetric" | ShieldAnti => "shielding_antisymmetric" | Quadrupolar => "quadrupolar" end.
Definition ctensor_name (t : ctensor) : string :=
  match t with JSym => "j_symmetric" | JAnti => "j_antisymmetric" | Dipolar => "dipolar" end.

(** How the attribute is written in Python: spin_systems[i].sites[j].attribute1.attribute2 *)
Definition python_text (p : path) : string :=
  match p with
  | Abundance i => "spin_systems[" ++ dec i ++ "].abundance"
  | Shift i j => "spin_systems[" ++ dec i ++ "].sites[" ++ dec j ++ "].isotropic_chemical_shift"
  | SiteT i j t a => "spin_systems[" ++ dec i ++ "].sites[" ++ dec j ++ "]." ++ stensor_name t ++ "." ++ tattr_name a
  | IsoJ i j => "spin_systems[" ++ dec i ++ "].couplings[" ++ dec j ++ "].isotropic_j"
  | CoupT i j t a => "spin_systems[" ++ dec i ++ "].couplings[" ++ dec j ++ "]." ++ ctensor_name t ++ "." ++ tattr_name a
  end%string.

(** The steps from the simulator to the attribute. *)
Definition steps (p : path) : list string :=
  match p with
  | Abundance i => ["spin_systems"; dec i; "abundance"]
  | Shift i j => ["spin_systems"; dec i; "sites"; dec j; "isotropic_chemical_shift"]
  | SiteT i j t a => ["spin_systems"; dec i; "sites"; dec j; stensor_name t; tattr_name a]
  | IsoJ i j => ["spin_systems"; dec i; "couplings"; dec j; "isotropic_j"]
  | CoupT i j t a => ["spin_systems"; dec i; "couplings"; dec j; ctensor_name t; tattr_name a]
  end.

(** The documented name: sys_i_site_j_attribute1_attribute2 *)
Definition documented_name (p : path) : string :=
  match p with
  | Abundance i => "sys_" ++ dec i ++ "_abundance"
  | Shift i j => "sys_" ++ dec i ++ "_site_" ++ dec j ++ "_isotropic_chemical_shift"
  | SiteT i j t a => "sys_" ++ dec i ++ "_site_" ++ dec j ++ "_" ++ stensor_name t ++ "_" ++ tattr_name a
  | IsoJ i j => "sys_" ++ dec i ++ "_coupling_" ++ dec j ++ "_isotropic_j"
  | CoupT i j t a => "sys_" ++ dec i ++ "_coupling_" ++ dec j ++ "_" ++ ctensor_name t ++ "_" ++ tattr_name a
  end%string.

(** Attributes of the antisymmetric tensors have no name of their own in the table of the code; those of j_symmetric have, but it is not
    decoded. *)
Definition encodable (p : path) : Prop :=
  match p with SiteT _ _ ShieldAnti _ | CoupT _ _ JAnti _ => False | _ => True end.
Definition decodable (p : path) : Prop :=
  match p with SiteT _ _ ShieldAnti _ | CoupT _ _ JAnti _ | CoupT _ _ JSym _ => False | _ => True end.

(** The attributes present in a list of spin systems, with their values: first the sites, then the couplings, then the abundance. *)
Definition present {A} (o : option A) (mk : A -> list (path * Q)) : list (path * Q) := match o with Some a => mk a | None => [] end.
Definition tens_paths (mk : tattr -> path) (t : tens) : list (path * Q) :=
  present (t_zeta t) (fun q => [(mk Zeta, q)]) ++ present (t_Cq t) (fun q => [(mk Cq, q)]) ++ present (t_D t) (fun q => [(mk D, q)]) ++
  present (t_eta t) (fun q => [(mk Eta, q)]) ++ present (t_alpha t) (fun q => [(mk Alpha, q)]) ++
  present (t_beta t) (fun q => [(mk Beta, q)]) ++ present (t_gamma t) (fun q => [(mk Gamma, q)]).
Definition site_paths (i j : nat) (s : siteR) : list (path * Q) :=
  (Shift i j, s_shift s) :: present (s_sym s) (tens_paths (SiteT i j ShieldSym)) ++
  present (s_anti s) (tens_paths (SiteT i j ShieldAnti)) ++ present (s_quad s) (tens_paths (SiteT i j Quadrupolar)).
Definition coup_paths (i j : nat) (c : coupR) : list (path * Q) :=
  (IsoJ i j, c_j c) :: present (c_sym c) (tens_paths (CoupT i j JSym)) ++
  present (c_anti c) (tens_paths (CoupT i j JAnti)) ++ present (c_dip c) (tens_paths (CoupT i j Dipolar)).
Fixpoint each_from {A} (f : nat -> A -> list (path * Q)) (i : nat) (l : list A) : list (path * Q) :=
  match l with [] => [] | x :: r => f i x ++ each_from f (S i) r end.
Definition sys_paths (i : nat) (y : sysR) : list (path * Q) :=
  each_from (site_paths i) 0 (y_sites y) ++ present (y_couplings y) (each_from (coup_paths i) 0) ++ [(Abundance i, y_abundance y)].
Definition all_paths (systems : list sysR) : list (path * Q) := each_from sys_paths 0 systems.

(** Sum of a list of numbers. *)
Definition sumQ (l : list Q) : Q := fold_right Qplus 0%Q l.

(** The parameter a fit should have for an attribute with value [q], among [n] spin systems whose abundances add up to [sum]. *)
Definition one_hundred_minus_others (n : nat) (e : string) : Prop :=
  forall env : string -> Q,
    (eval_expr env e == 100 - sumQ (map (fun i => env (documented_name (Abundance i))) (seq 0 (n - 1))))%Q.
Definition is_eta (p : path) : Prop := match p with SiteT _ _ _ Eta | CoupT _ _ _ Eta => True | _ => False end.
Definition describes (n : nat) (sum : Q) (pq : path * Q) (r : param) : Prop :=
  p_name r = documented_name (fst pq) /\
  match fst pq with
  | Abundance i =>
      p_min r = Some 0%Q /\ p_max r = Some 100%Q /\
      (S i < n -> (p_value r == snd pq * 100 / sum)%Q /\ p_expr r = None)%nat /\
      (S i = n -> exists e, p_expr r = Some e /\ one_hundred_minus_others n e)
  | _ =>
      p_value r = snd pq /\ p_expr r = None /\
      (is_eta (fst pq) -> p_min r = Some 0%Q /\ p_max r = Some 1%Q) /\ (~ is_eta (fst pq) -> p_min r = None /\ p_max r = None)
  end.
