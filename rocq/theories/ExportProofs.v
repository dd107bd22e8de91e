(** Proofs about exported and loaded spin systems. *)
From Coq Require Import ZArith QArith Qcanon Bool Ascii String Lia List.
From Verif Require Import Base SitesModel SitesSpec SitesProofs JsonModel JsonSpec JsonProofs JsonUnits JsonLost ExportModel ExportSpec.
Import ListNotations.
Open Scope string_scope.
Open Scope list_scope.

(** ** Writing *)
Lemma dumps_plain : forall v, dumps v = if plain v then Ok v else Err TypeError.
Proof.
  fix IH 1. intros [|q|s|q u|l|d|p]; try reflexivity.
  - cbn [dumps plain].
    assert (E : (fix each (l : list jval) : pyres (list jval) :=
                 match l with [] => Ok [] | x :: t => let* a := dumps x in let* b := each t in Ok (a :: b) end) l = if forallb plain l then Ok l else Err TypeError).
    { induction l as [|x t IHl]; [reflexivity|]. rewrite (IH x). cbn [forallb]. destruct (plain x); [|reflexivity]. cbn [bind andb]. rewrite IHl. now destruct (forallb plain t). }
    rewrite E. now destruct (forallb plain l).
  - cbn [dumps plain].
    assert (E : (fix each (d : list (string * jval)) : pyres (list (string * jval)) :=
                 match d with [] => Ok [] | (k, x) :: t => let* a := dumps x in let* b := each t in Ok ((k, a) :: b) end) d = if forallb (fun kv => plain (snd kv)) d then Ok d else Err TypeError).
    { induction d as [|[k x] t IHl]; [reflexivity|]. rewrite (IH x). cbn [forallb snd]. destruct (plain x); [|reflexivity]. cbn [bind andb]. rewrite IHl. now destruct (forallb _ t). }
    rewrite E. now destruct (forallb _ d).
Qed.
Lemma plain_no_pathways y : no_pathways y -> plain (JDict (json_system y)) = true.
Proof.
  intros N. destruct (transition_pathways y) as [[|p l]|] eqn:T; [|now elim (N p l)|now apply plain_system].
  cbn [plain]. unfold json_system. apply plain_json. cbn [forallb snd]. rewrite !plain_str, T, plain_list by (intros; apply plain_site).
  destruct (couplings y); [|reflexivity]. now rewrite plain_list by (intros; apply plain_coupling).
Qed.
Lemma no_pathways_dec y : no_pathways y \/ exists p l, transition_pathways y = Some (p :: l).
Proof.
  unfold no_pathways. destruct (transition_pathways y) as [[|p l]|]; [left; discriminate|right; eauto|left; discriminate].
Qed.
Lemma export_ok s : Forall no_pathways (spin_systems s) -> export_spin_systems s = Ok (JList (map (fun y => JDict (json_system y)) (spin_systems s))).
Proof.
  intros F. unfold export_spin_systems. rewrite dumps_plain. cbn [plain]. replace (forallb plain _) with true; [reflexivity|]. symmetry. apply forallb_forall. intros v Hv.
  apply in_map_iff in Hv. destruct Hv as (y & <- & Hy). rewrite Forall_forall in F. now apply plain_no_pathways, F.
Qed.
Lemma export_err s : ~ Forall no_pathways (spin_systems s) -> export_spin_systems s = Err TypeError.
Proof.
  intros F. unfold export_spin_systems. rewrite dumps_plain. cbn [plain]. replace (forallb plain _) with false; [reflexivity|]. symmetry. apply not_true_iff_false. intros P.
  apply F. rewrite Forall_forall. intros y Hy. destruct (no_pathways_dec y) as [N|(p & l & T)]; [exact N|]. exfalso.
  rewrite forallb_forall in P. specialize (P (JDict (json_system y)) (in_map (fun y => JDict (json_system y)) _ _ Hy)). rewrite (paths_not_plain y p l T) in P. discriminate.
Qed.
Lemma export_inv s c : export_spin_systems s = Ok c -> c = JList (map (fun y => JDict (json_system y)) (spin_systems s)) /\ Forall no_pathways (spin_systems s).
Proof.
  intros H. assert (D : {Forall no_pathways (spin_systems s)} + {~ Forall no_pathways (spin_systems s)}).
  { apply Forall_dec. intros y. unfold no_pathways. destruct (transition_pathways y) as [[|p l]|]; [left; discriminate|right; intros X; now apply (X p l)|left; discriminate]. }
  destruct D as [D|D]; [rewrite (export_ok s D) in H; split; [congruence|exact D]|rewrite (export_err s D) in H; discriminate].
Qed.

(** ** Empty texts are not written *)
Lemma some_text_json k a r : filter kept ((k, str_or_none (some_text a)) :: r) = filter kept ((k, str_or_none a) :: r).
Proof. now destruct a as [[|]|]. Qed.
Lemma texts_json a b c r :
  filter kept (("name", str_or_none (some_text a)) :: ("label", str_or_none (some_text b)) :: ("description", str_or_none (some_text c)) :: r) =
  filter kept (("name", str_or_none a) :: ("label", str_or_none b) :: ("description", str_or_none c) :: r).
Proof. destruct a as [[|]|], b as [[|]|], c as [[|]|]; reflexivity. Qed.
Lemma tidy_site_json s : json_site (tidy_site s) = json_site s.
Proof. unfold json_site, parseable_json, tidy_site. cbn [s_name s_label s_description isotope isotropic_chemical_shift shielding_symmetric shielding_antisymmetric quadrupolar s_units]. now rewrite texts_json. Qed.
Lemma tidy_coupling_json c : json_coupling (tidy_coupling c) = json_coupling c.
Proof. unfold json_coupling, parseable_json, tidy_coupling. cbn [c_name c_label c_description site_index isotropic_j j_symmetric j_antisymmetric dipolar c_units]. now rewrite texts_json. Qed.
Lemma tidy_system_json y : json_system (tidy_system y) = json_system y.
Proof.
  unfold json_system, parseable_json, tidy_system. cbn [y_name y_label y_description sites couplings abundance transition_pathways y_units]. rewrite texts_json.
  rewrite map_map. rewrite (map_ext (fun x => JDict (json_site (tidy_site x))) (fun s => JDict (json_site s))) by (intros; now rewrite tidy_site_json).
  destruct (couplings y) as [l|]; [|reflexivity]. cbn [option_map]. rewrite map_map.
  now rewrite (map_ext (fun x => JDict (json_coupling (tidy_coupling x))) (fun s => JDict (json_coupling s))) by (intros; now rewrite tidy_coupling_json).
Qed.
Lemma no_empty_some o : no_empty (some_text o).
Proof. unfold no_empty. now destruct o as [[|]|]. Qed.

(** ** Reading what was written *)
Lemma tidy_made_site d ss sa qd s : on good_sym ss -> on good_anti sa -> on good_sym qd -> make_site d ss sa qd [("isotropic_chemical_shift", "ppm")] = Ok s ->
  role_site s -> good_site (tidy_site s).
Proof.
  intros Gs Ga Gq H. unfold make_site in H. do 6 inv H. injection H as <-. unfold role_site, good_site, tidy_site.
  cbn [s_name s_label s_description isotope isotropic_chemical_shift shielding_symmetric shielding_antisymmetric quadrupolar s_units].
  intros (C4 & C5). do 3 (split; [apply no_empty_some|]). split; [|split; [|split; [|split]]].
  - assert (KN : known a2 = true) by (destruct (dict_lookup d "isotope") as [[]|]; try discriminate; apply format_ok in E2; tauto).
    apply known_in in KN. apply in_map_iff in KN. destruct KN as ((i & n) & X & HI). cbn in X. subst i. exists n. split; [exact HI|]. intros NQ.
    destruct qd as [t|]; [|now elim NQ]. destruct (isotope_spin a2 n HI) as [_ I2]. rewrite I2 in E4. cbn [bind] in E4.
    destruct (n <? 2)%Z eqn:LT; [discriminate|]. now apply Z.ltb_ge in LT.
  - destruct ss as [t|]; [|exact I]. cbn in *. destruct C4. now apply shielding_good.
  - destruct sa as [t|]; [|exact I]. cbn in *. rewrite anti_pop; assumption.
  - destruct qd as [t|]; [|exact I]. cbn in *. destruct C5. now apply quad_good.
  - reflexivity.
Qed.
Lemma tidy_site_good s : site_obtained s -> role_site s -> good_site (tidy_site s).
Proof.
  intros [[d H]|(d & ss & sa & qd & H1 & H2 & H3 & H)].
  - unfold parse_site in H. inv H. inv H. inv H. inv H. destruct a2 as [d1 pu]. inv H.
    destruct (parse_units_inv site_table d _ _ ltac:(nd) E2) as (F & U & K). subst pu.
    unfold read_units, site_table in H. cbn [map fst snd] in H. rewrite single_unit in H.
    apply (tidy_made_site _ _ _ _ _ (opt_parse_good _ _ _ _ _ _ read_sym E) (opt_parse_good _ _ _ _ _ _ read_anti E0) (opt_parse_good _ _ _ _ _ _ read_sym E1) H).
  - exact (tidy_made_site d ss sa qd s (on_impl _ _ _ _ sym_good H1) (on_impl _ _ _ _ anti_good H2) (on_impl _ _ _ _ sym_good H3) H).
Qed.
Lemma tidy_made_coupling d js ja dp c : on good_sym js -> on good_sym dp -> make_coupling d js ja dp [("isotropic_j", "Hz")] = Ok c ->
  role_coupling c -> good_coupling (tidy_coupling c).
Proof.
  intros Gs Gd H. unfold make_coupling in H. do 6 inv H. injection H as <-. unfold role_coupling, good_coupling, tidy_coupling.
  cbn [c_name c_label c_description site_index isotropic_j j_symmetric j_antisymmetric dipolar c_units].
  intros (C4 & C5 & C6). do 3 (split; [apply no_empty_some|]). split; [|split; [|split; [|split]]].
  - destruct a2 as [|x [|y [|z r]]]; try discriminate. exists x, y. split; [reflexivity|]. destruct (x =? y)%Z eqn:X; [discriminate|]. now apply Z.eqb_neq in X.
  - destruct js as [t|]; [|exact I]. cbn in *. destruct C4 as (X & Y & Z). now apply j_good.
  - exact C5.
  - destruct dp as [t|]; [|exact I]. cbn in *. destruct C6. now apply dipolar_good.
  - reflexivity.
Qed.
Lemma tidy_coupling_good c : coupling_obtained c -> role_coupling c -> good_coupling (tidy_coupling c).
Proof.
  intros [[d H]|(d & js & ja & dp & H1 & H2 & H3 & H)].
  - unfold parse_coupling in H. do 6 inv H. destruct a4 as [d1 pu]. inv H.
    destruct (parse_units_inv coupling_table d _ _ ltac:(nd) E4) as (F & U & K). subst pu.
    unfold read_units, coupling_table in H. cbn [map fst snd] in H. rewrite single_unit in H.
    apply (tidy_made_coupling _ _ _ _ _ (opt_parse_good _ _ _ _ _ _ read_sym E) (opt_parse_good _ _ _ _ _ _ read_sym E3) H).
  - exact (tidy_made_coupling d js ja dp c (on_impl _ _ _ _ sym_good H1) (on_impl _ _ _ _ sym_good H3) H).
Qed.
(** The parts of an obtained spin system. *)
Lemma list_parse_all A (parse : jdict -> pyres A) d k o : list_parse parse d k = Ok o -> on (Forall (fun x => exists e, parse e = Ok x)) o.
Proof.
  intros H. apply (list_parse_good _ parse (fun x => exists e, parse e = Ok x) d k o); [|exact H]. intros e x E. now exists e.
Qed.
Lemma made_parts d ss cs pu y : make_system d ss cs pu = Ok y -> on (Forall site_obtained) ss -> on (Forall coupling_obtained) cs ->
  Forall site_obtained (sites y) /\ on (Forall coupling_obtained) (couplings y) /\ y_units y = pu /\ (0 <= abundance y)%Qc /\ (abundance y <= Q2Qc (100 # 1))%Qc.
Proof.
  intros H S C. unfold make_system in H. do 5 inv H. injection H as <-. cbn [sites couplings y_units abundance].
  split; [destruct ss; [exact S|constructor]|]. split; [exact C|]. split; [reflexivity|].
  apply leb2. refine (def_num_valid _ _ _ _ _ _ E2). apply andb_true_iff. split; apply Qc_leb_true; discriminate.
Qed.
Lemma system_parts y : system_obtained y ->
  Forall site_obtained (sites y) /\ on (Forall coupling_obtained) (couplings y) /\ y_units y = [("abundance", "pct")] /\ (0 <= abundance y)%Qc /\ (abundance y <= Q2Qc (100 # 1))%Qc.
Proof.
  intros [[d H]|(d & ss & cs & H1 & H2 & H)]; [|exact (made_parts _ _ _ _ _ H H1 H2)].
  unfold parse_system in H. do 3 inv H. destruct a1 as [d1 pu]. inv H.
  destruct (parse_units_inv system_table d _ _ ltac:(nd) E1) as (F & U & K). subst pu.
  unfold read_units, system_table in H. cbn [map fst snd] in H. rewrite single_unit in H. apply (made_parts _ _ _ _ _ H).
  - apply list_parse_all in E. revert E. apply on_Forall_impl. intros s P. now left.
  - apply list_parse_all in E0. revert E0. apply on_Forall_impl. intros s P. now left.
Qed.
Lemma tidy_system_good y : system_obtained y -> role_system y -> good_system (tidy_system y).
Proof.
  intros O (R1 & R2). destruct (system_parts y O) as (S & C & U & A & B). unfold good_system, tidy_system.
  cbn [y_name y_label y_description sites couplings abundance y_units]. do 3 (split; [apply no_empty_some|]). split; [|split; [|auto]].
  - apply Forall_map. rewrite Forall_forall in *. intros s Hs. apply tidy_site_good; auto.
  - destruct (couplings y) as [l|]; [|exact I]. cbn [option_map on] in *. apply Forall_map. rewrite Forall_forall in *. intros s Hs. apply tidy_coupling_good; auto.
Qed.
Lemma tidy_system_reads y : system_obtained y -> role_system y -> parse_system (json_system y) = Ok (tidy_system y).
Proof. intros O R. rewrite <- (tidy_system_json y). now apply system_round, tidy_system_good. Qed.

(** ** What cannot be read *)
Lemma none_dec (A : Type) (o : option A) : o = None \/ o <> None.
Proof. destruct o; [right; discriminate|now left]. Qed.
Lemma role_site_dec s : site_obtained s -> role_site s \/ exists e, parse_site (json_site s) = Err e.
Proof.
  intros O.
  assert (D : role_site s \/ exists t, (shielding_symmetric s = Some t /\ (Cq t <> None \/ D t <> None)) \/ (quadrupolar s = Some t /\ (zeta t <> None \/ D t <> None))).
  { unfold role_site, on. destruct (shielding_symmetric s) as [t|], (quadrupolar s) as [u|];
      try destruct (none_dec _ (Cq t)), (none_dec _ (D t)); try destruct (none_dec _ (zeta u)), (none_dec _ (D u));
      solve [left; repeat split; auto | right; exists t; tauto | right; exists u; tauto]. }
  destruct D as [D|[t T]]; [now left|right; exact (site_stray s t O T)].
Qed.
Lemma role_coupling_dec c : coupling_obtained c -> role_coupling c \/ exists e, parse_coupling (json_coupling c) = Err e.
Proof.
  intros O. destruct (none_dec _ (j_antisymmetric c)) as [N|N].
  2: { right. apply (coupling_stray c (mkSym None None None None None None None []) O). auto. }
  assert (D : role_coupling c \/ exists t, (j_symmetric c = Some t /\ (zeta t = None \/ Cq t <> None \/ D t <> None)) \/ (dipolar c = Some t /\ (zeta t <> None \/ Cq t <> None))).
  { unfold role_coupling, on. destruct (j_symmetric c) as [t|], (dipolar c) as [u|];
      try destruct (none_dec _ (zeta t)), (none_dec _ (Cq t)), (none_dec _ (D t)); try destruct (none_dec _ (zeta u)), (none_dec _ (Cq u));
      solve [left; repeat split; auto | right; exists t; tauto | right; exists u; tauto]. }
  destruct D as [D|[t T]]; [now left|right; apply (coupling_stray c t O); tauto].
Qed.
Lemma Forall_or A (P Q : A -> Prop) l : Forall (fun x => P x \/ Q x) l -> Forall P l \/ exists x, In x l /\ Q x.
Proof.
  induction 1 as [|x l H F IH]; [now left|]. destruct H as [H|H]; [|right; exists x; split; [now left|exact H]].
  destruct IH as [IH|(y & Hy & Y)]; [left; now constructor|right; exists y; split; [now right|exact Y]].
Qed.
Lemma mapM_err A B (f : A -> pyres B) l x e : In x l -> f x = Err e -> exists e', mapM f l = Err e'.
Proof.
  intros I H. destruct (mapM f l) as [r|e'] eqn:M; [|eauto]. exfalso. apply mapM_inv in M. destruct (Forall2_in _ _ _ _ _ _ M I) as (y & _ & Y). congruence.
Qed.
Lemma role_system_dec y : system_obtained y -> role_system y \/ exists e, parse_system (json_system y) = Err e.
Proof.
  intros O. destruct (system_parts y O) as (S & C & U & _).
  assert (L1 : dict_lookup (json_system y) "sites" = Some (JList (map (fun s => JDict (json_site s)) (sites y)))) by (unfold json_system; rewrite lookup_json by nd; rewrite U; reflexivity).
  assert (L2 : dict_lookup (json_system y) "couplings" = option_map (fun l => JList (map (fun s => JDict (json_coupling s)) l)) (couplings y)) by (unfold json_system; rewrite lookup_json by nd; rewrite U; cbn; now destruct (couplings y)).
  destruct (Forall_or _ _ _ _ (Forall_impl _ role_site_dec S)) as [R|(s & I & e & E)].
  2: { right. unfold parse_system, list_parse. rewrite L1, mapM_map. destruct (mapM_err _ _ (fun s => parse_site (json_site s)) _ s e I E) as [e' M]. rewrite M. cbn. eauto. }
  assert (D : on (Forall role_coupling) (couplings y) \/ exists l c e, couplings y = Some l /\ In c l /\ parse_coupling (json_coupling c) = Err e).
  { destruct (couplings y) as [l|]; [|left; exact I]. cbn [on] in *. destruct (Forall_or _ _ _ _ (Forall_impl _ role_coupling_dec C)) as [K|(c & I & e & E)]; [now left|right; eauto 6]. }
  destruct D as [D|(l & c & e & L & I & E)]; [left; now split|]. right. unfold parse_system. destruct (list_parse parse_site (json_system y) "sites"); [|cbn; eauto].
  cbn [bind]. unfold list_parse. rewrite L2, L. cbn [option_map]. rewrite mapM_map. destruct (mapM_err _ _ (fun s => parse_coupling (json_coupling s)) _ c e I E) as [e' M]. rewrite M. cbn. eauto.
Qed.
Lemma ok_role y r : system_obtained y -> parse_system (json_system y) = Ok r -> role_system y.
Proof. intros O H. destruct (role_system_dec y O) as [R|[e E]]; [exact R|congruence]. Qed.

(** ** Loading *)
Lemma load_ok s l r : mapM parse_item l = Ok r -> load_spin_systems s (JList l) = (with_spin_systems s r, None).
Proof. intros H. unfold load_spin_systems. cbn [iterate bind]. now rewrite H. Qed.
Lemma mapM_all A B (f : A -> pyres B) (g : A -> B) l : Forall (fun x => f x = Ok (g x)) l -> mapM f l = Ok (map g l).
Proof. induction 1 as [|x l H F IH]; [reflexivity|]. cbn [mapM map]. rewrite H. cbn [bind]. rewrite IH. reflexivity. Qed.
Lemma load_exported r l : Forall system_obtained l -> Forall role_system l ->
  load_spin_systems r (JList (map (fun y => JDict (json_system y)) l)) = (with_spin_systems r (map tidy_system l), None).
Proof.
  intros O R. apply load_ok. rewrite mapM_map. cbn [parse_item]. apply mapM_all. rewrite Forall_forall in *. intros y Hy. apply tidy_system_reads; auto.
Qed.
Lemma load_fails r l : Forall system_obtained l -> ~ Forall role_system l ->
  exists e, load_spin_systems r (JList (map (fun y => JDict (json_system y)) l)) = (r, Some e).
Proof.
  intros O R. unfold load_spin_systems. cbn [iterate bind]. rewrite mapM_map. cbn [parse_item].
  destruct (Forall_or _ _ _ _ (Forall_impl _ role_system_dec O)) as [K|(y & I & e & E)]; [now elim R|].
  destruct (mapM_err _ _ (fun y => parse_system (json_system y)) _ y e I E) as [e' M]. rewrite M. eauto.
Qed.
Lemma map_id_in A (f : A -> A) l : (forall x, In x l -> f x = x) -> map f l = l.
Proof. induction l as [|x l IH]; intros H; [reflexivity|]. cbn [map]. rewrite (H x (or_introl eq_refl)), IH; [reflexivity|]. intros y Hy. apply H. now right. Qed.
Lemma tidy_same y : texts_system y -> tidy_system y = y.
Proof.
  intros (A & B & C & S & K). unfold tidy_system. destruct y as [n l d ss cs a tp u]. cbn in *.
  assert (T : forall o, no_empty o -> some_text o = o) by (intros [[|]|] H; try reflexivity; now elim H).
  rewrite !T by assumption. f_equal.
  - apply map_id_in. intros s Hs. rewrite Forall_forall in S. destruct (S s Hs) as (X & Y & Z). destruct s. unfold tidy_site. cbn in *. now rewrite !T.
  - destruct cs as [cs|]; [|reflexivity]. cbn in *. f_equal. apply map_id_in. intros s Hs. rewrite Forall_forall in K. destruct (K s Hs) as (X & Y & Z). destruct s. unfold tidy_coupling. cbn in *. now rewrite !T.
Qed.

Lemma read_no_pathways d y : plain (JDict d) = true -> parse_system d = Ok y -> no_pathways y.
Proof.
  intros P H. unfold parse_system in H. do 3 inv H. destruct a1 as [d1 pu]. inv H. destruct (parse_units_inv system_table d _ _ ltac:(nd) E1) as (_ & _ & K).
  unfold make_system in H. do 5 inv H. injection H as <-. unfold no_pathways. cbn [transition_pathways]. rewrite K in E7. change (dict_lookup system_table "transition_pathways") with (@None unit_spec) in E7. cbv iota in E7.
  intros p l ->. destruct (dict_lookup d "transition_pathways") as [v|] eqn:L; [|discriminate]. destruct v as [| | | |l'| |]; try discriminate.
  inv E7. injection E7 as ->. cbn [plain] in P. rewrite forallb_forall in P.
  assert (I : In ("transition_pathways", JList l') d).
  { unfold dict_lookup in L. destruct (find _ d) as [[k v]|] eqn:F; [|discriminate]. apply find_some in F. destruct F as [F1 F2]. cbn in F2. apply String.eqb_eq in F2. congruence. }
  specialize (P _ I). cbn [snd plain] in P. destruct l' as [|x l']; [discriminate|]. cbn [mapM] in E8. inv E8. destruct x; try discriminate.
Qed.
Lemma loaded_ok r c r' : load_spin_systems r c = (r', None) -> exists l ys, iterate c = Ok l /\ mapM parse_item l = Ok ys /\ r' = with_spin_systems r ys.
Proof.
  unfold load_spin_systems. destruct (iterate c) as [l|e]; cbn [bind]; [|discriminate]. destruct (mapM parse_item l) as [ys|e] eqn:M; [|discriminate]. intros H. exists l, ys. split; [reflexivity|]. split; [exact M|]. congruence.
Qed.
Lemma loaded_obtained r c r' : plain c = true -> load_spin_systems r c = (r', None) -> Forall (fun y => system_obtained y /\ no_pathways y) (spin_systems r').
Proof.
  intros P H. destruct (loaded_ok _ _ _ H) as (l & ys & I & M & ->). cbn [with_spin_systems spin_systems]. apply mapM_inv in M.
  assert (Q : Forall (fun v => plain v = true) l).
  { destruct c as [|q|t|q u|l0|d|p]; cbn [iterate] in I; try discriminate; apply (f_equal (fun x => match x with Ok a => a | Err _ => [] end)) in I; cbv iota in I; subst l.
    - rewrite Forall_forall. intros v Hv. apply in_map_iff in Hv. now destruct Hv as (c & <- & _).
    - cbn [plain] in P. rewrite forallb_forall in P. now rewrite Forall_forall.
    - rewrite Forall_forall. intros v Hv. apply in_map_iff in Hv. now destruct Hv as (c & <- & _). }
  clear H I P. induction M as [|v y l ys H1 F IH]; [constructor|]. inversion Q; subst. constructor; [|now apply IH].
  destruct v; try discriminate. cbn [parse_item] in H1. split; [left; eauto|now apply (read_no_pathways d)].
Qed.
