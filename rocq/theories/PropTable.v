(** C72: the table of the sites themselves. *)
From Coq Require Import ZArith QArith Bool Ascii String Qcanon List Lia.
From Verif Require Import Base SitesModel SitesSpec SitesProofs JsonModel JsonProofs PropSites.
Import ListNotations.
Open Scope string_scope.
Open Scope list_scope.

(** ** The table that is expected *)
(** A number with the unit of its attribute. *)
Definition quantity (u : units) (k : string) (o : option Qc) : option jval :=
  match o with
  | None => None
  | Some q => Some (match dict_lookup u k with Some unit => JQty q (if String.eqb unit "pct" then "%" else unit) | None => JNum q end)
  end.
Definition text (o : option string) : option jval := match o with None | Some "" => None | Some s => Some (JStr s) end.
Definition tensor (o : option sym_tensor) (k : string) (f : sym_tensor -> option Qc) : option jval := match o with None => None | Some t => quantity (sym_units t) k (f t) end.
Definition columns : list (string * (site -> option jval)) :=
  [("name", fun s => text (s_name s)); ("label", fun s => text (s_label s)); ("description", fun s => text (s_description s)); ("isotope", fun s => Some (JStr (isotope s)));
   ("isotropic_chemical_shift", fun s => quantity (s_units s) "isotropic_chemical_shift" (Some (isotropic_chemical_shift s)));
   ("shielding_symmetric.zeta", fun s => tensor (shielding_symmetric s) "zeta" zeta); ("shielding_symmetric.eta", fun s => tensor (shielding_symmetric s) "eta" eta);
   ("shielding_symmetric.alpha", fun s => tensor (shielding_symmetric s) "alpha" alpha); ("shielding_symmetric.beta", fun s => tensor (shielding_symmetric s) "beta" beta);
   ("shielding_symmetric.gamma", fun s => tensor (shielding_symmetric s) "gamma" gamma);
   ("quadrupolar.Cq", fun s => tensor (quadrupolar s) "Cq" Cq); ("quadrupolar.eta", fun s => tensor (quadrupolar s) "eta" eta);
   ("quadrupolar.alpha", fun s => tensor (quadrupolar s) "alpha" alpha); ("quadrupolar.beta", fun s => tensor (quadrupolar s) "beta" beta);
   ("quadrupolar.gamma", fun s => tensor (quadrupolar s) "gamma" gamma)].

(** ** The dicts of sites as nested dicts *)
Fixpoint to_node (v : jval) : node jval := match v with JDict d => Node (map (fun kv => (fst kv, to_node (snd kv))) d) | _ => Leaf v end.
Definition nodes (d : jdict) : list (string * node jval) := map (fun kv => (fst kv, to_node (snd kv))) d.

Lemma attr_cons {A} k (n : node A) d : attributes ((k, n) :: d) = map (fun pv => (k :: fst pv, snd pv)) (leaves n) ++ attributes d.
Proof. reflexivity. Qed.
Lemma attr_in {A} (d : list (string * node A)) p v : In (p, v) (attributes d) <-> exists k n q, In (k, n) d /\ p = k :: q /\ In (q, v) (leaves n).
Proof.
  unfold attributes. cbn [leaves]. rewrite in_flat_map. split.
  - intros ([k n] & H & X). apply in_map_iff in X. destruct X as ([q w] & E & X). cbn [fst snd] in *. injection E as <- <-. eauto 6.
  - intros (k & n & q & H & -> & X). exists (k, n). split; [exact H|]. apply in_map_iff. exists (q, v). auto.
Qed.
Lemma nodup_app {X} (a b : list X) : NoDup a -> NoDup b -> (forall x, In x a -> ~ In x b) -> NoDup (a ++ b).
Proof. induction a as [|x a IH]; cbn; intros A B D; [exact B|]. apply NoDup_cons_iff in A. destruct A as [A1 A2]. constructor; [rewrite in_app_iff; intros [H|H]; [auto|exact (D x (or_introl eq_refl) H)]|]. apply IH; auto. Qed.
Lemma attr_nodup {A} (d : list (string * node A)) : NoDup (map fst d) -> (forall k n, In (k, n) d -> NoDup (map fst (leaves n))) -> NoDup (map fst (attributes d)).
Proof.
  induction d as [|[k n] d IH]; intros N L; [constructor|]. rewrite attr_cons, map_app. cbn [map fst] in N. apply NoDup_cons_iff in N. destruct N as [N1 N2]. apply nodup_app.
  - rewrite map_map. cbn [fst]. rewrite <- (map_map fst (fun q => k :: q)). apply FinFun.Injective_map_NoDup; [intros a b [= E]; exact E|]. apply (L k n). left. reflexivity.
  - apply IH; [exact N2|]. intros k' n' H. apply (L k' n'). right. exact H.
  - intros p P Q. rewrite map_map in P. apply in_map_iff in P. destruct P as ([q w] & <- & _). cbn [fst] in Q. apply in_map_iff in Q. destruct Q as ([p' w'] & E & Q). cbn [fst] in E. subst p'.
    apply attr_in in Q. destruct Q as (k' & n' & q' & H & [= <- <-] & _). apply N1. apply in_map_iff. exists (k, n'). auto.
Qed.
Definition good (d : list (string * node jval)) : Prop := NoDup (map fst d) /\ (forall k, In k (map fst d) -> no_dot k) /\
  forall k e, In (k, Node e) d -> only_leaves e /\ NoDup (map fst e) /\ forall j, In j (map fst e) -> no_dot j.
Lemma good_two d : good d -> two_levels d.
Proof.
  intros (N & K & G). split; [intros k e H; apply (G k e H)|]. split.
  - apply attr_nodup; [exact N|]. intros k [a|e] H; [cbn; repeat constructor; auto|]. destruct (G k e H) as (O & M & _). change (leaves (Node e)) with (attributes e). apply attr_nodup; [exact M|].
    intros j m J. destruct (O j m J) as [a ->]. cbn. repeat constructor; auto.
  - intros p v x H X. apply attr_in in H. destruct H as (k & n & q & H & -> & L). destruct X as [<-|X]; [apply K; apply in_map_iff; exists (k, n); auto|].
    destruct n as [a|e]; [cbn in L; destruct L as [[= <- <-]|[]]; destruct X|]. destruct (G k e H) as (O & _ & J). change (leaves (Node e)) with (attributes e) in L. apply attr_in in L.
    destruct L as (j & m & r & H' & -> & L). destruct X as [<-|X]; [apply J; apply in_map_iff; exists (j, m); auto|]. destruct (O j m H') as [a ->]. cbn in L. destruct L as [[= <- <-]|[]]. destruct X.
Qed.
Lemma flat_lookup (d : list (string * node jval)) label v : two_levels d -> (dict_lookup (flatten_dict d) label = Some v <-> exists p, In (p, v) (attributes d) /\ dotted p = label).
Proof.
  intros W. destruct (C58_partial jval d W) as [E N]. split.
  - intros H. apply lookup_in in H. rewrite E in H. apply in_map_iff in H. destruct H as ([p w] & Q & H). cbn [fst snd] in Q. injection Q as <- <-. eauto.
  - intros (p & H & <-). apply in_lookup; [exact N|]. rewrite E. apply in_map_iff. exists (p, v). auto.
Qed.
Lemma some_ext {X} (a b : option X) : (forall v, a = Some v <-> b = Some v) -> a = b.
Proof. intros H. destruct a as [x|]; [symmetry; apply H; reflexivity|]. destruct b as [y|]; [apply H; reflexivity|reflexivity]. Qed.
Lemma flat1 d k : good d -> no_dot k -> dict_lookup (flatten_dict d) k = match dict_lookup d k with Some (Leaf v) => Some v | _ => None end.
Proof.
  intros G K. apply some_ext. intros v. rewrite (flat_lookup d k v (good_two d G)). destruct G as (N & K' & G). split.
  - intros (p & H & E). apply attr_in in H. destruct H as (k' & n & q & H & -> & L). destruct n as [a|e].
    + cbn in L. destruct L as [[= <- <-]|[]]. cbn in E. subst k'. rewrite (in_lookup d k (Leaf a) N H). reflexivity.
    + change (leaves (Node e)) with (attributes e) in L. apply attr_in in L. destruct L as (j & m & r & _ & -> & _). exfalso. change (dotted (k' :: j :: r)) with (k' ++ "." ++ dotted (j :: r))%string in E. exact (dot_in _ _ _ K E).
  - intros H. destruct (dict_lookup d k) as [[a|e]|] eqn:L; try discriminate. injection H as <-. apply lookup_in in L. exists [k]. split; [|reflexivity]. apply attr_in. exists k, (Leaf a), []. cbn. auto.
Qed.
Lemma flat2 d k j : good d -> no_dot k -> dict_lookup (flatten_dict d) (k ++ "." ++ j)%string = match dict_lookup d k with Some (Node e) => match dict_lookup e j with Some (Leaf v) => Some v | _ => None end | _ => None end.
Proof.
  intros G K. apply some_ext. intros v. rewrite (flat_lookup d _ v (good_two d G)). destruct G as (N & K' & G). split.
  - intros (p & H & E). apply attr_in in H. destruct H as (k' & n & q & H & -> & L). assert (no_dot k') by (apply K'; apply in_map_iff; exists (k', n); auto). destruct n as [a|e].
    + cbn in L. destruct L as [[= <- <-]|[]]. cbn [dotted] in E. subst k'. exfalso. exact (dot_in k j _ H0 eq_refl).
    + destruct (G k' e H) as (O & M & _). change (leaves (Node e)) with (attributes e) in L. apply attr_in in L. destruct L as (j' & m & r & J & -> & L). destruct (O j' m J) as [a ->]. cbn in L. destruct L as [[= <- <-]|[]].
      change (dotted [k'; j']) with (k' ++ "." ++ j')%string in E. destruct (dot_cut _ _ _ _ H0 K E) as [-> ->]. rewrite (in_lookup d k (Node e) N H), (in_lookup e j (Leaf a) M J). reflexivity.
  - intros H. destruct (dict_lookup d k) as [[a|e]|] eqn:L; try discriminate. destruct (dict_lookup e j) as [[a|]|] eqn:L'; try discriminate. injection H as <-. apply lookup_in in L, L'. exists [k; j]. split; [|reflexivity].
    apply attr_in. exists k, (Node e), [j]. split; [exact L|]. split; [reflexivity|]. change (leaves (Node e)) with (attributes e). apply attr_in. exists j, (Leaf a), []. cbn. auto.
Qed.
(** The dict of a site. *)
Lemma keys_nodes d : map fst (nodes d) = map fst d.
Proof. unfold nodes. rewrite map_map. reflexivity. Qed.
Lemma lookup_nodes d k : dict_lookup (nodes d) k = option_map to_node (dict_lookup d k).
Proof. unfold dict_lookup, nodes. induction d as [|[j v] d IH]; [reflexivity|]. cbn [map find fst snd]. destruct (String.eqb j k); [reflexivity|exact IH]. Qed.
Lemma keys_json items pu k : In k (map fst (parseable_json items pu)) -> In k (map fst items).
Proof. unfold parseable_json. rewrite map_map. intros H. apply in_map_iff in H. destruct H as ([a b] & E & H). apply filter_In in H. destruct H as [H _]. replace k with a; [apply (in_map fst _ (a, b)); exact H|]. rewrite <- E. cbn [fst]. destruct (dict_lookup pu a); reflexivity. Qed.
Lemma nodup_json items pu : NoDup (map fst items) -> NoDup (map fst (parseable_json items pu)).
Proof.
  intros N. replace (map fst (parseable_json items pu)) with (map fst (filter kept items)).
  - induction items as [|x items IH]; [constructor|]. cbn [map] in N. apply NoDup_cons_iff in N. destruct N as [N1 N2]. cbn [filter]. destruct (kept x); [|auto]. cbn [map]. constructor; [|auto]. intros H. apply N1. apply in_map_iff in H. destruct H as (y & <- & H). apply filter_In in H. apply in_map. tauto.
  - unfold parseable_json. rewrite map_map. apply map_ext. intros [a b]. cbn [fst]. destruct (dict_lookup pu a); reflexivity.
Qed.
Lemma values_json items pu k v : In (k, v) (parseable_json items pu) -> exists w, In (k, w) items /\ (v = w \/ exists u, v = print_unit u w).
Proof. unfold parseable_json. intros H. apply in_map_iff in H. destruct H as ([a b] & E & H). apply filter_In in H. destruct H as [H _]. cbn [fst snd] in E. destruct (dict_lookup pu a) as [u|]; injection E as <- <-; exists b; eauto. Qed.
Definition flat (v : jval) : Prop := match v with JDict _ => False | _ => True end.
Lemma flat_num o : flat (num_or_none o). Proof. destruct o; exact I. Qed.
Lemma flat_print u w : flat w -> flat (print_unit u w). Proof. destruct w; cbn; auto. Qed.
Lemma leaf_flat v : flat v -> to_node v = Leaf v. Proof. destruct v; cbn; contradiction || reflexivity. Qed.
Definition plain_dict (d : jdict) : Prop := NoDup (map fst d) /\ (forall k, In k (map fst d) -> no_dot k) /\ forall k v, In (k, v) d -> flat v.
Lemma plain_items items pu : NoDup (map fst items) -> (forall k, In k (map fst items) -> no_dot k) -> (forall k v, In (k, v) items -> flat v) -> plain_dict (parseable_json items pu).
Proof.
  intros N K F. split; [apply nodup_json; exact N|]. split; [intros k H; apply K; exact (keys_json items pu k H)|]. intros k v H. destruct (values_json items pu k v H) as (w & W & [->|[u ->]]); [exact (F k w W)|apply flat_print; exact (F k w W)].
Qed.
Ltac keys := repeat match goal with H : _ \/ _ |- _ => destruct H as [H|H] | H : False |- _ => destruct H end.
Lemma plain_sym t : plain_dict (json_sym t).
Proof.
  apply plain_items; [cbn; repeat constructor; cbn; intuition discriminate|cbn; intros k H; keys; subst k; cbn; repeat split; discriminate|]. cbn. intros k v H. keys; injection H as <- <-; apply flat_num.
Qed.
Lemma plain_anti t : plain_dict (json_anti t).
Proof.
  apply plain_items; [cbn; repeat constructor; cbn; intuition discriminate|cbn; intros k H; keys; subst k; cbn; repeat split; discriminate|]. cbn. intros k v H. keys; injection H as <- <-; apply flat_num.
Qed.
Lemma plain_leaves d : plain_dict d -> only_leaves (nodes d) /\ NoDup (map fst (nodes d)) /\ forall j, In j (map fst (nodes d)) -> no_dot j.
Proof.
  intros (N & K & F). rewrite keys_nodes. split; [|auto]. intros k v H. apply in_map_iff in H. destruct H as ([a b] & [= <- <-] & H). exists b. apply leaf_flat. exact (F a b H).
Qed.
Lemma site_values s k v : In (k, v) (json_site s) -> flat v \/ exists d, v = JDict d /\ plain_dict d.
Proof.
  intros H. apply values_json in H. destruct H as (w & W & E). cbn in W. assert (X : flat w \/ exists d, w = JDict d /\ plain_dict d).
  { keys; injection W as <- <-; try (left; exact I); try (left; match goal with |- flat (str_or_none ?o) => destruct o; exact I end);
      match goal with |- flat (dict_or_none _ ?o) \/ _ => destruct o; [right|left; exact I] end; (eexists; split; [reflexivity|]); apply plain_sym || apply plain_anti. }
  destruct E as [->|[u ->]]; [exact X|]. destruct X as [X|(d & -> & P)]; [left; apply flat_print; exact X|right; exists d; auto].
Qed.
Lemma good_site s : good (nodes (json_site s)).
Proof.
  split; [rewrite keys_nodes; apply nodup_json; cbn; repeat constructor; cbn; intuition discriminate|]. split.
  - rewrite keys_nodes. intros k H. apply keys_json in H. cbn in H. keys; subst k; cbn; repeat split; discriminate.
  - intros k e H. apply in_map_iff in H. destruct H as ([a b] & E & H). cbn [fst snd] in E. injection E as <- E. destruct (site_values s a b H) as [F|(d & -> & P)]; [rewrite (leaf_flat b F) in E; discriminate|].
    cbn [to_node] in E. injection E as <-. exact (plain_leaves d P).
Qed.
Lemma lookup_site s k : dict_lookup (json_site s) k =
  match dict_lookup [("name", str_or_none (s_name s)); ("label", str_or_none (s_label s)); ("description", str_or_none (s_description s)); ("isotope", JStr (isotope s)); ("isotropic_chemical_shift", JNum (isotropic_chemical_shift s));
                  ("shielding_symmetric", dict_or_none json_sym (shielding_symmetric s)); ("shielding_antisymmetric", dict_or_none json_anti (shielding_antisymmetric s)); ("quadrupolar", dict_or_none json_sym (quadrupolar s))] k with
  | Some v => if kept (k, v) then Some (match dict_lookup (s_units s) k with Some u => print_unit u v | None => v end) else None | None => None end.
Proof. apply lookup_json. cbn. repeat constructor; cbn; intuition discriminate. Qed.
Lemma lookup_sym t k : dict_lookup (json_sym t) k =
  match dict_lookup [("zeta", num_or_none (zeta t)); ("Cq", num_or_none (Cq t)); ("D", num_or_none (D t)); ("eta", num_or_none (eta t)); ("alpha", num_or_none (alpha t)); ("beta", num_or_none (beta t)); ("gamma", num_or_none (gamma t))] k with
  | Some v => if kept (k, v) then Some (match dict_lookup (sym_units t) k with Some u => print_unit u v | None => v end) else None | None => None end.
Proof. apply lookup_json. cbn. repeat constructor; cbn; intuition discriminate. Qed.
Ltac dots := cbn; repeat split; discriminate.
Lemma cell_text s k o : no_dot k -> dict_lookup (json_site s) k = (if kept (k, str_or_none o) then Some (match dict_lookup (s_units s) k with Some u => print_unit u (str_or_none o) | None => str_or_none o end) else None) ->
  dict_lookup (flatten_dict (nodes (json_site s))) k = text o.
Proof.
  intros K E. rewrite (flat1 _ k (good_site s) K), lookup_nodes, E. destruct o as [[|c r]|]; cbn [str_or_none text kept snd String.eqb negb option_map]; try reflexivity. destruct (dict_lookup (s_units s) k); reflexivity.
Qed.
Lemma cell_tensor s k o j f : no_dot k -> dict_lookup (json_site s) k = (if kept (k, dict_or_none json_sym o) then Some (match dict_lookup (s_units s) k with Some u => print_unit u (dict_or_none json_sym o) | None => dict_or_none json_sym o end) else None) ->
  (forall t, dict_lookup (json_sym t) j = if kept (j, num_or_none (f t)) then Some (match dict_lookup (sym_units t) j with Some u => print_unit u (num_or_none (f t)) | None => num_or_none (f t) end) else None) ->
  dict_lookup (flatten_dict (nodes (json_site s))) (k ++ "." ++ j)%string = tensor o j f.
Proof.
  intros K E T. rewrite (flat2 _ k j (good_site s) K), lookup_nodes, E. destruct o as [t|]; cbn [dict_or_none kept snd tensor option_map]; [|reflexivity].
  replace (match dict_lookup (s_units s) k with Some u => print_unit u (JDict (json_sym t)) | None => JDict (json_sym t) end) with (JDict (json_sym t)) by (destruct (dict_lookup (s_units s) k); reflexivity).
  cbn [option_map to_node]. change (map (fun kv : string * jval => (fst kv, to_node (snd kv))) (json_sym t)) with (nodes (json_sym t)). rewrite lookup_nodes, T. unfold quantity. destruct (f t); cbn [num_or_none kept snd option_map]; [|reflexivity]. destruct (dict_lookup (sym_units t) j); reflexivity.
Qed.
Lemma cells s label f : isotope s <> "" -> In (label, f) columns -> dict_lookup (flatten_dict (nodes (json_site s))) label = f s.
Proof.
  intros I0 H. cbn in H. keys; injection H as <- <-.
  1-3: (apply cell_text; [dots|rewrite lookup_site; reflexivity]).
  - rewrite flat1, lookup_nodes, lookup_site; [|apply good_site|dots]. cbn. destruct (String.eqb_spec (isotope s) ""); [contradiction|]. cbn. destruct (dict_lookup (s_units s) "isotope"); reflexivity.
  - rewrite flat1, lookup_nodes, lookup_site; [|apply good_site|dots]. cbn. unfold quantity. destruct (dict_lookup (s_units s) "isotropic_chemical_shift"); reflexivity.
  - apply (cell_tensor s "shielding_symmetric" _ "zeta"); [dots|rewrite lookup_site; reflexivity|intros t; rewrite lookup_sym; reflexivity].
  - apply (cell_tensor s "shielding_symmetric" _ "eta"); [dots|rewrite lookup_site; reflexivity|intros t; rewrite lookup_sym; reflexivity].
  - apply (cell_tensor s "shielding_symmetric" _ "alpha"); [dots|rewrite lookup_site; reflexivity|intros t; rewrite lookup_sym; reflexivity].
  - apply (cell_tensor s "shielding_symmetric" _ "beta"); [dots|rewrite lookup_site; reflexivity|intros t; rewrite lookup_sym; reflexivity].
  - apply (cell_tensor s "shielding_symmetric" _ "gamma"); [dots|rewrite lookup_site; reflexivity|intros t; rewrite lookup_sym; reflexivity].
  - apply (cell_tensor s "quadrupolar" _ "Cq"); [dots|rewrite lookup_site; reflexivity|intros t; rewrite lookup_sym; reflexivity].
  - apply (cell_tensor s "quadrupolar" _ "eta"); [dots|rewrite lookup_site; reflexivity|intros t; rewrite lookup_sym; reflexivity].
  - apply (cell_tensor s "quadrupolar" _ "alpha"); [dots|rewrite lookup_site; reflexivity|intros t; rewrite lookup_sym; reflexivity].
  - apply (cell_tensor s "quadrupolar" _ "beta"); [dots|rewrite lookup_site; reflexivity|intros t; rewrite lookup_sym; reflexivity].
  - apply (cell_tensor s "quadrupolar" _ "gamma"); [dots|rewrite lookup_site; reflexivity|intros t; rewrite lookup_sym; reflexivity].
Qed.
(** ** C72 *)
(** The table of a list of sites: the columns above, in this order, with one cell for every site, without those in which no site has a value. *)
Theorem C72_sites : forall (sites : list site), (forall s, In s sites -> isotope s <> "") ->
  to_pd (map (fun s => nodes (json_site s)) sites) =
  filter (fun col => existsb (fun cell => match cell with Some _ => true | None => false end) (snd col)) (map (fun c => (fst c, map (snd c) sites)) columns).
Proof.
  intros sites I0. unfold to_pd. f_equal. change site_labels with (map fst columns). rewrite map_map. apply map_ext_in. intros [label f] H. cbn [fst snd]. f_equal. rewrite map_map. apply map_ext_in. intros s S. apply cells; auto.
Qed.
Print Assumptions C72_sites.
(** Sites that the constructor or the reader makes have an isotope. *)
Theorem C72_isotope : forall d ss sa qd pu s, make_site d ss sa qd pu = Ok s -> isotope s <> "".
Proof.
  intros d ss sa qd pu s H. unfold make_site in H.
  destruct (opt_str d "name"); [|discriminate]. cbn [bind] in H. destruct (opt_str d "label"); [|discriminate]. cbn [bind] in H. destruct (opt_str d "description"); [|discriminate]. cbn [bind] in H.
  match type of H with bind ?x _ = _ => destruct x as [i|] eqn:E; [|discriminate] end. cbn [bind] in H.
  assert (X : exists t, format_isotope_string t = Ok i) by (destruct (dict_lookup d "isotope") as [[]|]; try discriminate; eauto). destruct X as [t X].
  destruct (def_num d "isotropic_chemical_shift" 0 any); [|discriminate]. cbn [bind] in H. match type of H with bind ?x _ = _ => destruct x; [|discriminate] end. cbn [bind] in H. injection H as <-. cbn [isotope].
  intros ->. apply C54_accepts in X. destruct X as (mass & white & word & rest & _ & E' & M & _). destruct mass; [apply M; reflexivity|discriminate].
Qed.
Print Assumptions C72_isotope.
Example C72_sites_example : let t := mkSym (Some (Qc_of_Z 5)) None None (Some (Qc_of_Z 1)) None None None [("zeta", "ppm"); ("alpha", "rad")] in
  let a := mkSite (Some "a") None (Some "") "29Si" (Qc_of_Z 2) (Some t) None None [("isotropic_chemical_shift", "ppm")] in let b := mkSite None None None "1H" (Qc_of_Z 0) None None None [("isotropic_chemical_shift", "ppm")] in
  to_pd (map (fun s => nodes (json_site s)) [a; b]) =
  [("name", [Some (JStr "a"); None]); ("isotope", [Some (JStr "29Si"); Some (JStr "1H")]); ("isotropic_chemical_shift", [Some (JQty (Qc_of_Z 2) "ppm"); Some (JQty (Qc_of_Z 0) "ppm")]);
   ("shielding_symmetric.zeta", [Some (JQty (Qc_of_Z 5) "ppm"); None]); ("shielding_symmetric.eta", [Some (JNum (Qc_of_Z 1)); None])].
Proof. reflexivity. Qed.
