(** C126: None for an optional attribute. *)
From Coq Require Import ZArith QArith Qcanon Bool Ascii String List.
From Verif Require Import Base SitesModel SitesSpec SitesProofs JsonModel JsonSpec JsonProofs JsonUnits BareModel.
Import ListNotations.
Open Scope string_scope.
Open Scope list_scope.

(** The dict without a key; the attributes whose default is None (tensors.py lines 86-92 and 152-154, site.py 154-161, coupling.py 150-157, spin_system/__init__.py 152-158, transition_query.py 46-49). *)
Definition without (d : jdict) (k : string) : jdict := filter (fun kv => negb (String.eqb (fst kv) k)) d.
Definition tensor_attributes : list string := ["zeta"; "Cq"; "D"; "eta"; "alpha"; "beta"; "gamma"].
Definition antisymmetric_attributes : list string := ["zeta"; "alpha"; "beta"].
Definition texts : list string := ["name"; "label"; "description"].
Definition site_tensors : list string := ["shielding_symmetric"; "shielding_antisymmetric"; "quadrupolar"].
Definition coupling_tensors : list string := ["j_symmetric"; "j_antisymmetric"; "dipolar"].
Definition is_none (d : jdict) (k : string) : Prop := dict_lookup d k = Some JNone.

Lemma lookup_without d k j : dict_lookup (without d k) j = if String.eqb j k then None else dict_lookup d j.
Proof.
  unfold dict_lookup, without. induction d as [|[a v] d IH]; cbn [filter find fst]; [destruct (String.eqb j k); reflexivity|].
  destruct (String.eqb_spec a k) as [->|N]; cbn [negb find fst].
  - rewrite IH. destruct (String.eqb_spec k j) as [E|M]; [rewrite <- E, String.eqb_refl; reflexivity|reflexivity].
  - destruct (String.eqb_spec a j) as [E|M]; [|exact IH]. rewrite <- E. destruct (String.eqb_spec a k); [contradiction|reflexivity].
Qed.
Ltac each := cbn [In tensor_attributes antisymmetric_attributes texts site_tensors coupling_tensors app] in *;
  repeat match goal with K : _ \/ _ |- _ => destruct K as [<-|K] | K : False |- _ => destruct K end.
Ltac same := unfold is_none in *; rewrite ?lookup_without; cbn [String.eqb Ascii.eqb Bool.eqb]; match goal with N : dict_lookup _ _ = Some JNone |- _ => rewrite ?N end; reflexivity.

(** ** C126 *)
(** The constructors take None as if the attribute were left out. *)
Theorem C126_symmetric_tensor : forall d k, In k tensor_attributes -> is_none d k -> new_sym d = new_sym (without d k).
Proof. intros d k K N. unfold new_sym, given_units, make_sym, opt_num. each; same. Qed.
Theorem C126_antisymmetric_tensor : forall d k, In k antisymmetric_attributes -> is_none d k -> new_anti d = new_anti (without d k).
Proof. intros d k K N. unfold new_anti, given_units, make_anti, opt_num. each; same. Qed.
Theorem C126_site : forall d k, In k (texts ++ site_tensors) -> is_none d k -> new_site d = new_site (without d k).
Proof. intros d k K N. unfold new_site, given_units, opt_read, make_site, opt_str, def_num. each; same. Qed.
Theorem C126_coupling : forall d k, In k (texts ++ coupling_tensors) -> is_none d k -> new_coupling d = new_coupling (without d k).
Proof. intros d k K N. unfold new_coupling, given_units, opt_read, make_coupling, opt_str, def_num. each; same. Qed.
Theorem C126_system : forall d k, In k (texts ++ ["couplings"; "transition_pathways"]) -> is_none d k -> new_system d = new_system (without d k).
Proof. intros d k K N. unfold new_system, given_units, list_read, make_system, opt_str, def_num. each; same. Qed.
Theorem C126_query : forall d k, In k ["D"; "F"; "transitions"] -> is_none d k -> make_query d = make_query (without d k).
Proof. intros d k K N. unfold make_query, opt_dict. each; same. Qed.
(** But for P of a query, whose default is not None: with None there is no condition on P, left out the transition changes P of the first channel by -1. *)
Theorem C126_query_refuted : forall d q q', is_none d "P" -> make_query d = Ok q -> make_query (without d "P") = Ok q' -> q_P q = None /\ q_P q' = Some default_P.
Proof.
  intros d q q' N. unfold make_query, opt_dict. rewrite !lookup_without. cbn [String.eqb Ascii.eqb Bool.eqb]. rewrite N. cbn [bind].
  intros H H'. split; [revert H; clear|revert H'; clear];
    (repeat match goal with |- context [let* _ := ?e in _] => destruct e; cbn [bind]; [|discriminate] end; intros H; injection H as <-; reflexivity).
Qed.
(** An attribute with a default that is not None refuses None. *)
Theorem C126_numbers : forall d, (is_none d "isotropic_chemical_shift" -> exists e, new_site d = Err e) /\ (is_none d "isotropic_j" -> exists e, new_coupling d = Err e) /\ (is_none d "abundance" -> exists e, new_system d = Err e) /\
  (is_none d "sites" -> exists e, new_system d = Err e).
Proof.
  intros d. unfold is_none.
  split; [intros N; unfold new_site, make_site, def_num; rewrite N|split; [intros N; unfold new_coupling, make_coupling, def_num; rewrite N|split; [intros N; unfold new_system, make_system, def_num; rewrite N|intros N; unfold new_system, list_read; rewrite N]]];
  repeat match goal with |- context [let* _ := ?e in _] => destruct e; cbn [bind]; [|eexists; reflexivity] end; eexists; reflexivity.
Qed.
(** parse_dict_with_units does not take None for a tensor, nor for a quantity of a tensor. *)
Theorem C126_parse_refuted : (forall d k, In k site_tensors -> is_none d k -> exists e, parse_site d = Err e) /\ (forall d k, In k coupling_tensors -> is_none d k -> exists e, parse_coupling d = Err e) /\ 
  (forall d k, In k ["zeta"; "Cq"; "D"; "alpha"; "beta"; "gamma"] -> is_none d k -> exists e, parse_sym d = Err e).
Proof.
  unfold is_none. split; [|split].
  - intros d k K N. destruct (parse_site d) as [s|e] eqn:E; [exfalso|eauto]. unfold parse_site in E.
    destruct (opt_parse parse_sym d "shielding_symmetric") eqn:E1; [|discriminate]. destruct (opt_parse parse_anti d "shielding_antisymmetric") eqn:E2; [|discriminate]. destruct (opt_parse parse_sym d "quadrupolar") eqn:E3; [|discriminate].
    unfold opt_parse in *. each; rewrite N in *; discriminate.
  - intros d k K N. destruct (parse_coupling d) as [s|e] eqn:E; [exfalso|eauto]. unfold parse_coupling in E.
    destruct (opt_parse parse_sym d "j_symmetric") eqn:E1; [|discriminate]. cbn [bind] in E. destruct (match a with Some t => not_ppm (sym_units t) | None => Ok tt end) eqn:Q1; [|discriminate]. cbn [bind] in E.
    destruct (opt_parse parse_anti d "j_antisymmetric") eqn:E2; [|discriminate]. cbn [bind] in E. match type of E with context [let* _ := ?e in _] => destruct e eqn:Q2; [|discriminate] end. cbn [bind] in E.
    destruct (opt_parse parse_sym d "dipolar") eqn:E3; [|discriminate]. unfold opt_parse in *. each; rewrite N in *; discriminate.
  - intros d k K N. destruct (parse_sym d) as [s|e] eqn:E; [exfalso|eauto]. unfold parse_sym in E. destruct (parse_units sym_table d) as [[d1 pu]|] eqn:P; [|discriminate].
    destruct (parse_units_inv sym_table d d1 pu ltac:(repeat constructor; cbn; intuition discriminate) P) as (F & _).
    each; (eapply F; [|exact N|]; [cbn; eauto 10|with_strategy transparent [enforce_units] reflexivity]).
Qed.
Print Assumptions C126_symmetric_tensor.
Print Assumptions C126_antisymmetric_tensor.
Print Assumptions C126_site.
Print Assumptions C126_coupling.
Print Assumptions C126_system.
Print Assumptions C126_query.
Print Assumptions C126_query_refuted.
Print Assumptions C126_numbers.
Print Assumptions C126_parse_refuted.
(** Dicts with None that the constructors accept, and one that parse_dict_with_units does not. *)
Example C126_example : let d := [("isotope", JStr "27Al"); ("name", JNone); ("quadrupolar", JNone); ("shielding_symmetric", JDict [("zeta", JNum (Q2Qc 5)); ("Cq", JNone)])] in
  is_none d "quadrupolar" /\ is_none d "name" /\ (exists s, new_site d = Ok s /\ quadrupolar s = None /\ shielding_symmetric s <> None) /\ (exists e, parse_site d = Err e) /\ 
  (exists q q', make_query [("P", JNone)] = Ok q /\ make_query (without [("P", JNone)] "P") = Ok q') /\ is_none [("zeta", JNone)] "zeta".
Proof. cbv zeta. split; [reflexivity|]. split; [reflexivity|]. split; [eexists; split; [reflexivity|split; [reflexivity|discriminate]]|]. split; [eexists; reflexivity|]. split; [do 2 eexists; split; reflexivity|reflexivity]. Qed.
Example C126_system_example : let d := [("sites", JList [JDict [("isotope", JStr "29Si")]]); ("couplings", JNone); ("transition_pathways", JNone)] in
  is_none d "couplings" /\ is_none d "transition_pathways" /\ (exists y, new_system d = Ok y /\ List.length (sites y) = 1%nat) /\ exists e, new_system [("sites", JNone)] = Err e.
Proof. cbv zeta. split; [reflexivity|]. split; [reflexivity|]. split; [eexists; split; reflexivity|eexists; reflexivity]. Qed.
