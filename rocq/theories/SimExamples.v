(** Concrete simulators used as witnesses and examples in PropSim.v: a 1H method over two-site systems whose core
    routine puts one unit of intensity into the bin given by the shift of the flipped site. *)
From Coq Require Import ZArith QArith Bool String Qcanon Lia List.
From Verif Require Import Base PathwayModel SimModel SimProofs PathwayProofs SelectProofs.
Import ListNotations.
Open Scope string_scope.

Definition twice_spin (iso : string) : nat := if String.eqb iso "17O" then 5 else if String.eqb iso "14N" then 2 else 1.
(** One event with P = {"channel-1": [[-1]]}. *)
Definition ex_heap : heap := [[Q2Qc (-1)]].
Definition ex_query : tquery := {| tq_P := Some [(1%nat, [0%nat])]; tq_D := None |}.
Definition ex_paths (ch : string) (isotopes : list string) : pyres (list (list transition)) :=
  fst (get_pathways_np sp [ch] isotopes (map twice_spin isotopes) [ex_query] ex_heap).

(** Delta line at the shift of the site that changes by -1. *)
Definition ex_core (_ : list string) (shifts : list nat) (w : list transition) (k : nat) : Qc :=
  match w with
  | t :: _ => if existsb (fun ps => (if Qc_eq_dec (fst ps) (Q2Qc (-1)) then true else false) && Nat.eqb (snd ps) k)
                        (combine (P_fn t) shifts) then 1%Qc else 0%Qc
  | [] => 0%Qc
  end.
Definition ex_method (neg : bool) : meth (list transition) (list nat) :=
  {| channel := "1H"; gamma_negative := neg; npts := 4; norm := 1%Qc; get_pathways := ex_paths "1H"; core := ex_core;
     flip := fun k => ((4 - k) mod 4)%nat |}.
Definition ex_sys (isotopes : list string) (shifts : list nat) : spin_sys (list transition) (list nat) :=
  {| ss_isotopes := isotopes; ss_abundance := Q2Qc 1; ss_pathways := None; ss_data := shifts |}.
Definition CH := ex_sys ["13C"; "1H"] [0%nat; 1%nat].
Definition HC := ex_sys ["1H"; "13C"] [2%nat; 3%nat].
Definition H1 := ex_sys ["1H"] [3%nat].
Definition C1 := ex_sys ["13C"] [3%nat].

(** Results in a form in which numbers are compared as rationals. *)
Definition show (r : pyres (list Qc)) : option (list Q) := match r with Ok v => Some (map this v) | Err _ => None end.
Definition show_list (r : pyres (list (list Qc))) : option (list (list Q)) :=
  match r with Ok v => Some (map (map this) v) | Err _ => None end.

Lemma ex_wf neg : wf_meth (ex_method neg).
Proof. split; [cbn; lia|]. intros k Hk. apply (Nat.mod_upper_bound (4 - k) 4). lia. Qed.

Lemma ex_safe neg : cache_safe_all (ex_method neg) [CH; H1; CH].
Proof.
  intros s t Hs Ht _ _ L. simpl in Hs, Ht.
  destruct Hs as [<-|[<-|[<-|[]]]]; destruct Ht as [<-|[<-|[<-|[]]]]; cbn in L; try discriminate; split; reflexivity.
Qed.
