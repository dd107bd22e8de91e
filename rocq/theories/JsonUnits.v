(** Proofs: the objects that are read or built satisfy the conditions of the round trips, and reading does not depend on the units written. *)
From Coq Require Import ZArith QArith Qcanon Bool Ascii String Lia List.
From Verif Require Import Base SitesModel SitesSpec SitesProofs JsonModel JsonSpec JsonProofs.
From Verif Require DictProofs BaseProofs.
Import ListNotations.
Open Scope string_scope.
Open Scope list_scope.

(** ** Objects that are read or built *)
Ltac inv H := let a := fresh "a" in let E := fresh "E" in apply bind_ok in H; destruct H as (a & E & H).
Lemma first_fit_unit v o q u : first_fit v o = Some (q, u) -> In u (map snd o).
Proof.
  induction o as [|[ty w] o IH]; cbn; [discriminate|]. destruct (enforce_units v ty w); [intros [= -> ->]; now left|]. intros H. right. now apply IH.
Qed.
Lemma opt_num_valid d k valid o : opt_num d k valid = Ok o -> forall q, o = Some q -> valid q = true.
Proof.
  unfold opt_num. intros H q ->. destruct (dict_lookup d k) as [[]|]; try discriminate. destruct (valid q0) eqn:V; [|discriminate]. injection H as <-. exact V.
Qed.
Lemma def_num_valid d k default valid q : valid default = true -> def_num d k default valid = Ok q -> valid q = true.
Proof.
  unfold def_num. intros V H. destruct (dict_lookup d k) as [[]|]; try discriminate; [|congruence]. destruct (valid q0) eqn:W; congruence.
Qed.
Lemma def_int_valid d k default valid q : valid default = true -> def_int d k default valid = Ok q -> valid q = true.
Proof.
  unfold def_int. intros V H. destruct (dict_lookup d k) as [[]|]; try discriminate; [|congruence]. destruct (valid (int_of q0)) eqn:W; congruence.
Qed.
Lemma leb2 a b x : Qc_leb a x && Qc_leb x b = true -> (a <= x)%Qc /\ (x <= b)%Qc.
Proof. rewrite andb_true_iff, !Qc_leb_iff. auto. Qed.
Lemma parse_units_inv t d d1 pu : NoDup (map fst t) -> parse_units t d = Ok (d1, pu) -> all_fit t d /\ pu = read_units t d /\
  forall k, dict_lookup d1 k = match dict_lookup t k with Some sp => option_map (read_value sp) (dict_lookup d k) | None => dict_lookup d k end.
Proof.
  intros N H. pose proof (parse_units_fit t d _ N H) as F. destruct (parse_units_ok t d N F) as (d' & E & K).
  assert (X : (d', read_units t d) = (d1, pu)) by congruence. pose proof (f_equal fst X) as X1. pose proof (f_equal snd X) as X2. cbn [fst snd] in X1, X2. subst d1. auto.
Qed.
Lemma make_sym_good d pu t u : make_sym d pu = Ok t -> zeta_unit (zeta t) u -> pu = [("zeta", u); ("Cq", "Hz"); ("D", "Hz")] ++ angles -> good_sym t.
Proof.
  unfold make_sym. intros H Z ->. do 7 inv H. injection H as <-. cbn [zeta] in Z. split; [|exists u; split; [exact Z|reflexivity]].
  cbn [eta]. destruct a2 as [q|]; [|exact I]. apply leb2. exact (opt_num_valid _ _ _ _ E2 q eq_refl).
Qed.
Lemma built_sym d t : make_sym d (default_units sym_table) = Ok t -> good_sym t.
Proof. intros H. apply (make_sym_good d _ t "ppm" H); [now left|reflexivity]. Qed.
Lemma read_sym d t : parse_sym d = Ok t -> good_sym t.
Proof.
  unfold parse_sym. intros H. inv H. destruct a as [d1 pu]. inv H.
  destruct (parse_units_inv sym_table d _ _ ltac:(nd) E) as (F & U & K). subst pu. clear E.
  unfold read_units, sym_table in H. cbn [map fst snd] in H. rewrite !single_unit in H.
  pose proof (K "zeta") as KZ. cbn [dict_lookup find fst snd String.eqb Ascii.eqb Bool.eqb sym_table] in KZ. fold (@dict_lookup jval) in KZ.
  change (match find (fun kv => String.eqb (fst kv) "zeta") d with Some (_, v) => Some v | None => None end) with (dict_lookup d "zeta") in KZ.
  destruct (dict_lookup d "zeta") as [v|] eqn:L.
  - pose proof (F "zeta" (Multi [("dimensionless", "ppm"); ("frequency", "Hz")]) v (or_introl eq_refl) L) as FZ.
    destruct (fit (Multi [("dimensionless", "ppm"); ("frequency", "Hz")]) v) as [[q u]|] eqn:FV; [|congruence].
    assert (U : u = "ppm" \/ u = "Hz") by (apply first_fit_unit in FV; cbn in FV; intuition).
    apply (make_sym_good _ _ t u H); [|reflexivity].
    assert (Z : zeta t = Some q).
    { unfold make_sym in H. do 7 inv H. injection H as <-. cbn [zeta]. unfold opt_num in E. change (option_map (read_value (Multi [("dimensionless", "ppm"); ("frequency", "Hz")])) (Some v)) with (Some (read_value (Multi [("dimensionless", "ppm"); ("frequency", "Hz")]) v)) in KZ. rewrite KZ in E. unfold read_value in E. rewrite FV in E. cbn in E. congruence. }
    destruct U as [->| ->]; [now left|right; split; [reflexivity|congruence]].
  - apply (make_sym_good _ _ t "ppm" H); [now left|reflexivity].
Qed.
Lemma read_anti d t : parse_anti d = Ok t -> good_anti t.
Proof.
  unfold parse_anti. intros H. inv H. destruct a as [d1 pu]. inv H.
  destruct (parse_units_inv anti_table d _ _ ltac:(nd) E) as (F & U & K). subst pu.
  unfold read_units, anti_table in H. cbn [map fst snd] in H. rewrite !single_unit in H. unfold make_anti in H. do 3 inv H. injection H as <-. reflexivity.
Qed.
Lemma built_anti d t : make_anti d (default_units anti_table) = Ok t -> good_anti t.
Proof. unfold make_anti. intros H. do 3 inv H. injection H as <-. reflexivity. Qed.
Lemma opt_parse_good A (parse : jdict -> pyres A) (good : A -> Prop) d k o : (forall x t, parse x = Ok t -> good t) -> opt_parse parse d k = Ok o -> on good o.
Proof.
  intros G. unfold opt_parse. destruct (dict_lookup d k) as [[]|]; try discriminate; [|intros [= <-]; exact I]. intros H. inv H. injection H as <-. cbn. eauto.
Qed.
Lemma list_parse_good A (parse : jdict -> pyres A) (good : A -> Prop) d k o : (forall x t, parse x = Ok t -> good t) -> list_parse parse d k = Ok o -> on (Forall good) o.
Proof.
  intros G. unfold list_parse. destruct (dict_lookup d k) as [[]|]; try discriminate; [|intros [= <-]; exact I]. intros H. inv H. injection H as <-. cbn.
  revert a E. induction l as [|x l IH]; intros r E; cbn [mapM] in E; [injection E as <-; constructor|]. inv E. inv E. injection E as <-. constructor; [|now apply IH].
  destruct x; try discriminate. eauto.
Qed.
Lemma shielding_good t : good_sym t -> Cq t = None -> D t = None -> good_shielding (with_sym_units (pop2 "Cq" "D") t).
Proof.
  destruct t as [z c d e a b g pu]. intros (G & u & Z & U) C X. cbn [zeta eta Cq D sym_units] in *. subst. split; [exact G|]. repeat split. exists u. split; [exact Z|reflexivity].
Qed.
Lemma quad_good t : good_sym t -> zeta t = None -> D t = None -> good_quadrupolar (with_sym_units (pop2 "D" "zeta") t).
Proof.
  destruct t as [z c d e a b g pu]. intros (G & u & Z & U) C X. cbn [zeta eta Cq D sym_units] in *. subst. split; [exact G|]. repeat split.
Qed.
Lemma j_good t : good_sym t -> zeta t <> None -> Cq t = None -> D t = None -> good_j (with_sym_units j_units t).
Proof.
  destruct t as [z c d e a b g pu]. intros (G & u & Z & U) C X Y. cbn [zeta eta Cq D sym_units] in *. subst. split; [exact G|]. repeat split. exact C.
Qed.
Lemma dipolar_good t : good_sym t -> zeta t = None -> Cq t = None -> good_dipolar (with_sym_units (pop2 "Cq" "zeta") t).
Proof.
  destruct t as [z c d e a b g pu]. intros (G & u & Z & U) C X. cbn [zeta eta Cq D sym_units] in *. subst. split; [exact G|]. repeat split.
Qed.
Lemma built_site d ss sa qd s : on good_sym ss -> on good_anti sa -> on good_sym qd -> make_site d ss sa qd [("isotropic_chemical_shift", "ppm")] = Ok s ->
  clean_site s -> good_site s.
Proof.
  intros Gs Ga Gq H. unfold make_site in H. do 6 inv H. injection H as <-. unfold clean_site, good_site.
  cbn [s_name s_label s_description isotope isotropic_chemical_shift shielding_symmetric shielding_antisymmetric quadrupolar s_units].
  intros (C1 & C2 & C3 & C4 & C5). split; [exact C1|]. split; [exact C2|]. split; [exact C3|]. split; [|split; [|split; [|split]]].
  - assert (KN : known a2 = true) by (destruct (dict_lookup d "isotope") as [[]|]; try discriminate; apply format_ok in E2; tauto).
    apply known_in in KN. apply in_map_iff in KN. destruct KN as ((i & n) & X & HI). cbn in X. subst i. exists n. split; [exact HI|]. intros NQ.
    destruct qd as [t|]; [|now elim NQ]. destruct (isotope_spin a2 n HI) as [_ I2]. rewrite I2 in E4. cbn [bind] in E4.
    destruct (n <? 2)%Z eqn:LT; [discriminate|]. now apply Z.ltb_ge in LT.
  - destruct ss as [t|]; [|exact I]. cbn in *. destruct C4. now apply shielding_good.
  - destruct sa as [t|]; [|exact I]. cbn in *. rewrite anti_pop; assumption.
  - destruct qd as [t|]; [|exact I]. cbn in *. destruct C5. now apply quad_good.
  - reflexivity.
Qed.
Lemma read_site d s : parse_site d = Ok s -> clean_site s -> good_site s.
Proof.
  unfold parse_site. intros H. inv H. inv H. inv H. inv H. destruct a2 as [d1 pu]. inv H.
  destruct (parse_units_inv site_table d _ _ ltac:(nd) E2) as (F & U & K). subst pu.
  unfold read_units, site_table in H. cbn [map fst snd] in H. rewrite single_unit in H.
  apply (built_site _ _ _ _ _ (opt_parse_good _ _ _ _ _ _ read_sym E) (opt_parse_good _ _ _ _ _ _ read_anti E0) (opt_parse_good _ _ _ _ _ _ read_sym E1) H).
Qed.
Lemma built_coupling d js ja dp c : on good_sym js -> on good_sym dp -> make_coupling d js ja dp [("isotropic_j", "Hz")] = Ok c ->
  clean_coupling c -> good_coupling c.
Proof.
  intros Gs Gd H. unfold make_coupling in H. do 6 inv H. injection H as <-. unfold clean_coupling, good_coupling.
  cbn [c_name c_label c_description site_index isotropic_j j_symmetric j_antisymmetric dipolar c_units].
  intros (C1 & C2 & C3 & C4 & C5 & C6). split; [exact C1|]. split; [exact C2|]. split; [exact C3|]. split; [|split; [|split; [|split]]].
  - destruct a2 as [|x [|y [|z r]]]; try discriminate. exists x, y. split; [reflexivity|]. destruct (x =? y)%Z eqn:X; [discriminate|]. now apply Z.eqb_neq in X.
  - destruct js as [t|]; [|exact I]. cbn in *. destruct C4 as (X & Y & Z). now apply j_good.
  - exact C5.
  - destruct dp as [t|]; [|exact I]. cbn in *. destruct C6. now apply dipolar_good.
  - reflexivity.
Qed.
Lemma read_coupling d c : parse_coupling d = Ok c -> clean_coupling c -> good_coupling c.
Proof.
  unfold parse_coupling. intros H. do 6 inv H. destruct a4 as [d1 pu]. inv H.
  destruct (parse_units_inv coupling_table d _ _ ltac:(nd) E4) as (F & U & K). subst pu.
  unfold read_units, coupling_table in H. cbn [map fst snd] in H. rewrite single_unit in H.
  apply (built_coupling _ _ _ _ _ (opt_parse_good _ _ _ _ _ _ read_sym E) (opt_parse_good _ _ _ _ _ _ read_sym E3) H).
Qed.
(** No coupling that was read has an antisymmetric tensor. *)
Lemma no_anti d c : parse_coupling d = Ok c -> dict_lookup d "j_antisymmetric" = None /\ j_antisymmetric c = None.
Proof.
  unfold parse_coupling. intros H. do 6 inv H. destruct a4 as [d1 pu]. inv H.
  assert (N : a1 = None).
  { destruct a1 as [t|]; [|reflexivity]. pose proof (opt_parse_good _ _ _ _ _ _ read_anti E1) as G. cbn in G. unfold good_anti in G. rewrite G in E2. discriminate. }
  subst a1. split.
  - unfold opt_parse in E1. destruct (dict_lookup d "j_antisymmetric") as [[]|]; try discriminate; [|reflexivity]. inv E1. discriminate.
  - unfold make_coupling in H. do 6 inv H. injection H as <-. reflexivity.
Qed.
Lemma Forall_and_impl A (P Q R : A -> Prop) l : Forall P l -> Forall Q l -> (forall x, P x -> Q x -> R x) -> Forall R l.
Proof. intros H1 H2 I. rewrite Forall_forall in *. auto. Qed.
Lemma built_system d ss cs y : on (Forall (fun s => clean_site s -> good_site s)) ss -> on (Forall (fun c => clean_coupling c -> good_coupling c)) cs ->
  make_system d ss cs [("abundance", "pct")] = Ok y -> clean_system y -> good_system y.
Proof.
  intros Gs Gc H. unfold make_system in H. do 5 inv H. injection H as <-. unfold clean_system, good_system.
  cbn [y_name y_label y_description sites couplings abundance transition_pathways y_units].
  intros (C1 & C2 & C3 & C4 & C5). repeat (split; [assumption|]).
  assert (A : (0 <= a2)%Qc /\ (a2 <= Q2Qc (100 # 1))%Qc).
  { apply leb2. refine (def_num_valid _ _ _ _ _ _ E2). apply andb_true_iff. split; apply Qc_leb_true; discriminate. }
  split; [|split; [|destruct A; auto]].
  - destruct ss as [l|]; [|constructor]. cbn in Gs. apply (Forall_and_impl _ _ _ _ _ Gs C4). auto.
  - destruct cs as [l|]; [|exact I]. cbn in *. apply (Forall_and_impl _ _ _ _ _ Gc C5). auto.
Qed.
Lemma read_system d y : parse_system d = Ok y -> clean_system y -> good_system y.
Proof.
  unfold parse_system. intros H. do 3 inv H. destruct a1 as [d1 pu]. inv H.
  destruct (parse_units_inv system_table d _ _ ltac:(nd) E1) as (F & U & K). subst pu.
  unfold read_units, system_table in H. cbn [map fst snd] in H. rewrite single_unit in H.
  apply (built_system _ _ _ _ (list_parse_good _ _ _ _ _ _ read_site E) (list_parse_good _ _ _ _ _ _ read_coupling E0) H).
Qed.
Lemma built_event d e : make_event d [("magnetic_flux_density", "T"); ("rotor_frequency", "Hz"); ("rotor_angle", "rad")] = Ok e ->
  q_P (transition_query e) <> None -> good_event e.
Proof.
  intros H. unfold make_event in H. do 6 inv H. injection H as <-. unfold good_event.
  cbn [fraction magnetic_flux_density rotor_frequency rotor_angle freq_contrib transition_query e_units]. intros Q.
  assert (A : angle_range a2 = true) by (refine (def_num_valid _ _ _ _ _ _ E2); apply andb_true_iff; split; apply Qc_leb_true; discriminate). apply leb2 in A.
  assert (B : non_negative a0 = true) by (refine (def_num_valid _ _ _ _ _ _ E0); apply Qc_leb_true; discriminate). apply Qc_leb_iff in B.
  assert (C : non_negative a1 = true) by (refine (def_num_valid _ _ _ _ _ _ E1); apply Qc_leb_true; discriminate). apply Qc_leb_iff in C.
  destruct A. repeat (split; [assumption|]). split; [|split; [exact Q|reflexivity]].
  destruct (dict_lookup d "freq_contrib") as [[]|]; try discriminate; [|injection E3 as <-; apply incl_refl].
  clear - E3. revert a3 E3. induction l as [|x l IH]; intros r E3; cbn [mapM] in E3; [injection E3 as <-; intros y []|]. inv E3. inv E3. injection E3 as <-.
  intros y [<-|Hy]; [|now apply (IH _ E0)]. destruct x; try discriminate. destruct (existsb (String.eqb s) freq_list_all) eqn:X; [|discriminate]. injection E as <-.
  apply existsb_exists in X. destruct X as (z & Z1 & Z2). apply String.eqb_eq in Z2. now subst z.
Qed.
Lemma read_event d e : parse_event d = Ok e -> q_P (transition_query e) <> None -> good_event e.
Proof.
  unfold parse_event. intros H. inv H. destruct a as [d1 pu]. inv H.
  destruct (parse_units_inv event_table d _ _ ltac:(nd) E) as (F & U & K). subst pu.
  unfold read_units, event_table in H. cbn [map fst snd] in H. rewrite !single_unit in H. apply (built_event _ _ H).
Qed.
Lemma make_dim_good d ev x u v w : on (Forall (fun e => q_P (transition_query e) <> None -> good_event e)) ev ->
  make_dim d ev [("spectral_width", u); ("reference_offset", v); ("origin_offset", w)] = Ok x -> hz_ppm u -> hz_ppm v -> (w = "Hz" \/ (w = "ppm" /\ origin_offset x <> None)) ->
  clean_dim x -> good_dim x.
Proof.
  intros G H Hu Hv Hw. unfold make_dim in H. do 6 inv H. injection H as <-. unfold clean_dim, good_dim.
  cbn [count spectral_width reference_offset origin_offset d_label d_description events d_units] in *. intros (C1 & C2 & C3).
  assert (A : (0 <? a)%Z = true) by (refine (def_int_valid _ _ _ (fun z => (0 <? z)%Z) _ _ E); reflexivity). apply Z.ltb_lt in A.
  assert (B : Qc_leb 0 a0 && negb (Qc_eq_bool a0 0) = true).
  { refine (def_num_valid _ _ _ (fun q => Qc_leb 0 q && negb (Qc_eq_bool q 0)) _ _ E0). rewrite Qc_leb_true by discriminate. rewrite Qc_eqb_false; [reflexivity|]. intros X. discriminate (f_equal (fun x => Qnum (this x)) X). }
  apply andb_true_iff in B. destruct B as [B1 B2]. apply Qc_leb_iff in B1. apply negb_true_iff in B2.
  repeat (split; [try assumption|]).
  - destruct (Qcle_lt_or_eq _ _ B1) as [|X]; [assumption|]. subst a0. rewrite Qc_eqb_refl in B2. discriminate.
  - destruct ev as [l|]; [|constructor]. cbn in G. apply (Forall_and_impl _ _ _ _ _ G C3). auto.
  - exists u, v, w. auto.
Qed.
Lemma read_unit_cases d k : hz_ppm (match dict_lookup d k with Some y => match fit hz_or_ppm y with Some (_, u) => u | None => first_unit hz_or_ppm end | None => first_unit hz_or_ppm end).
Proof.
  destruct (dict_lookup d k) as [y|]; [|now left]. destruct (fit hz_or_ppm y) as [[q u]|] eqn:F; [|now left]. apply first_fit_unit in F. cbn in F. unfold hz_ppm. intuition.
Qed.
Lemma read_dim d x : parse_dim d = Ok x -> clean_dim x -> good_dim x.
Proof.
  unfold parse_dim. intros H. do 2 inv H. destruct a0 as [d1 pu]. inv H.
  destruct (parse_units_inv dim_table d _ _ ltac:(nd) E0) as (F & U & K). subst pu.
  unfold read_units, dim_table in H. cbn [map fst snd] in H.
  refine (make_dim_good _ _ _ _ _ _ (list_parse_good _ _ _ _ _ _ read_event E) H (read_unit_cases _ _) (read_unit_cases _ _) _).
  destruct (dict_lookup d "origin_offset") as [y|] eqn:L; [|now left]. pose proof (F "origin_offset" hz_or_ppm y ltac:(cbn; auto) L) as FY.
  destruct (fit hz_or_ppm y) as [[q u]|] eqn:FE; [|congruence].
  assert (Z : origin_offset x = Some q).
  { unfold make_dim in H. do 6 inv H. injection H as <-. cbn [origin_offset]. unfold opt_num in E5.
    assert (KO : dict_lookup d1 "origin_offset" = Some (JNum q)) by (rewrite K; cbn [dict_lookup find fst snd String.eqb Ascii.eqb Bool.eqb dim_table]; fold (dict_lookup d "origin_offset"); rewrite L; cbn [option_map]; unfold read_value; now rewrite FE).
    rewrite KO in E5. cbn in E5. congruence. }
  apply first_fit_unit in FE. cbn in FE. destruct FE as [<-|[<-|[]]]; [now left|right; split; [reflexivity|congruence]].
Qed.
Lemma as_array_good n v m m' : as_array v = Ok m -> check_affine n m = Ok m' -> good_matrix n m'.
Proof.
  unfold check_affine. intros A H. destruct (Nat.eqb _ _) eqn:L; [|discriminate]. apply Nat.eqb_eq in L. cbn [negb] in H.
  destruct (elements m) as [|x r] eqn:E; [discriminate|]. destruct (Qc_eq_bool x 0) eqn:Z; [discriminate|]. injection H as <-.
  split; [|split].
  - exists x, r. split; [exact E|]. intros ->. rewrite Qc_eqb_refl in Z. discriminate.
  - now rewrite E.
  - destruct m as [l|l]; [exact I|]. destruct v; try discriminate. cbn [as_array] in A. destruct (numbers l0); [discriminate|]. inv A. destruct a as [|y a]; [discriminate|].
    destruct (forallb _ a) eqn:F; [|discriminate]. injection A as <-. rewrite forallb_forall in F.
    assert (G : forall s, In s (y :: a) -> length s = length y) by (intros s [<-|Hs]; [reflexivity|apply Nat.eqb_eq; now apply F]).
    intros s t Hs Ht. now rewrite (G s Hs), (G t Ht).
Qed.
Lemma built_method d ds m : on (Forall (fun x => clean_dim x -> good_dim x)) ds -> make_method d ds = Ok m -> clean_method m -> good_method m.
Proof.
  intros G H. unfold make_method in H. do 7 inv H. injection H as <-. unfold clean_method, good_method.
  cbn [m_name m_label m_description channels dims affine simulation experiment]. intros (C1 & C2 & C3 & C4). split; [exact C1|]. split; [|split; [exact C2|split; [|split; [exact C4|]]]].
  - destruct (dict_lookup d "channels") as [[]|]; try discriminate; [|injection E2 as <-; constructor].
    clear - E2. revert a2 E2. induction l as [|x l IH]; intros r E; cbn [mapM] in E; [injection E as <-; constructor|]. inv E. inv E. injection E as <-. constructor; [|now apply IH].
    destruct x; try discriminate. apply format_ok in E0. destruct E0 as [_ KN]. apply known_in in KN. apply in_map_iff in KN. destruct KN as ((i & n) & X & HI). cbn in X. subst i. eauto.
  - destruct ds as [l|]; [|inversion C4 as [|? ? X _]; now elim X]. cbn in G. apply (Forall_and_impl _ _ _ _ _ G C3). auto.
  - destruct (dict_lookup d "affine_matrix") as [v|]; [|injection E3 as <-; exact I].
    assert (X : a3 = None \/ exists p q, as_array v = Ok p /\ check_affine (length match ds with Some l => l | None => [mkDim 1024 (Q2Qc (25000 # 1)) 0 None None None [] (default_units dim_table)] end) p = Ok q /\ a3 = Some q).
    { destruct v; try (left; congruence); right; inv E3; inv E3; injection E3 as <-; eauto. }
    destruct X as [->|(p & q & P1 & P2 & ->)]; [exact I|]. cbn. now apply (as_array_good _ _ _ _ P1).
Qed.
Lemma read_method d m : parse_method d = Ok m -> clean_method m -> good_method m.
Proof.
  unfold parse_method. destruct (dict_lookup d "spectral_dimensions").
  - intros H. inv H. inv H. inv H. apply (built_method _ _ _ (list_parse_good _ _ _ _ _ _ read_dim E0) H).
  - intros H. inv H. apply (built_method _ None _ I H).
Qed.

(** ** Obtained objects *)
Lemma sym_good t : sym_obtained t -> good_sym t.
Proof. intros [[d H]|[d H]]; [exact (read_sym d t H)|exact (built_sym d t H)]. Qed.
Lemma anti_good t : anti_obtained t -> good_anti t.
Proof. intros [[d H]|[d H]]; [exact (read_anti d t H)|exact (built_anti d t H)]. Qed.
Lemma on_impl A (P Q : A -> Prop) o : (forall x, P x -> Q x) -> on P o -> on Q o.
Proof. destruct o; cbn; auto. Qed.
Lemma on_Forall_impl A (P Q : A -> Prop) o : (forall x, P x -> Q x) -> on (Forall P) o -> on (Forall Q) o.
Proof. intros I. apply on_impl. intros l. apply Forall_impl, I. Qed.
Lemma site_good s : site_obtained s -> clean_site s -> good_site s.
Proof.
  intros [[d H]|(d & ss & sa & qd & H1 & H2 & H3 & H)]; [exact (read_site d s H)|].
  exact (built_site d ss sa qd s (on_impl _ _ _ _ sym_good H1) (on_impl _ _ _ _ anti_good H2) (on_impl _ _ _ _ sym_good H3) H).
Qed.
Lemma coupling_good c : coupling_obtained c -> clean_coupling c -> good_coupling c.
Proof.
  intros [[d H]|(d & js & ja & dp & H1 & H2 & H3 & H)]; [exact (read_coupling d c H)|].
  exact (built_coupling d js ja dp c (on_impl _ _ _ _ sym_good H1) (on_impl _ _ _ _ sym_good H3) H).
Qed.
Lemma system_good y : system_obtained y -> clean_system y -> good_system y.
Proof.
  intros [[d H]|(d & ss & cs & H1 & H2 & H)]; [exact (read_system d y H)|].
  exact (built_system d ss cs y (on_Forall_impl _ _ _ _ site_good H1) (on_Forall_impl _ _ _ _ coupling_good H2) H).
Qed.
Lemma event_good e : event_obtained e -> q_P (transition_query e) <> None -> good_event e.
Proof. intros [[d H]|[d H]]; [exact (read_event d e H)|exact (built_event d e H)]. Qed.
Lemma dim_good x : dim_obtained x -> clean_dim x -> good_dim x.
Proof.
  intros [[d H]|(d & ev & H1 & H)]; [exact (read_dim d x H)|].
  exact (make_dim_good d ev x "Hz" "Hz" "Hz" (on_Forall_impl _ _ _ _ event_good H1) H (or_introl eq_refl) (or_introl eq_refl) (or_introl eq_refl)).
Qed.
Lemma method_good m : method_obtained m -> clean_method m -> good_method m.
Proof.
  intros [[d H]|(d & ds & H1 & H)]; [exact (read_method d m H)|]. exact (built_method d ds m (on_Forall_impl _ _ _ _ dim_good H1) H).
Qed.
Lemma literal_in d k x l s : In x l -> def_literal d k x l = Ok s -> In s l.
Proof.
  intros I. unfold def_literal. destruct (dict_lookup d k) as [[]|]; try discriminate; [|now intros [= <-]].
  destruct (existsb (String.eqb s0) l) eqn:E; [|discriminate]. intros [= <-]. apply existsb_exists in E. destruct E as (z & Z1 & Z2). apply String.eqb_eq in Z2. now subst z.
Qed.
Lemma config_good c : config_obtained c -> good_config c.
Proof.
  intros [d H]. unfold make_config in H. do 4 inv H. injection H as <-. unfold good_config. cbn [number_of_sidebands integration_volume integration_density decompose_spectrum].
  split; [|split; [|split]].
  - apply Z.ltb_lt. refine (def_int_valid _ _ _ (fun z => (0 <? z)%Z) _ _ E). reflexivity.
  - apply Z.ltb_lt. refine (def_int_valid _ _ _ (fun z => (0 <? z)%Z) _ _ E1). reflexivity.
  - refine (literal_in _ _ _ _ _ _ E0). now left.
  - refine (literal_in _ _ _ _ _ _ E2). now left.
Qed.

(** ** Objects that do not come back *)
Lemma unfit t d k sp v : NoDup (map fst t) -> In (k, sp) t -> dict_lookup d k = Some v -> fit sp v = None -> exists e, parse_units t d = Err e.
Proof.
  intros N I L F. destruct (parse_units t d) as [r|e] eqn:E; [|eauto]. exfalso. exact (parse_units_fit t d r N E k sp v I L F).
Qed.
Lemma sym_unfit d k sp q : In (k, sp) sym_table -> dict_lookup d k = Some (JNum q) -> exists e, parse_sym d = Err e.
Proof.
  intros I L. assert (F : fit sp (JNum q) = None).
  { cbn in I. repeat (destruct I as [I|I]; [injection I as <- <-; cbn; rewrite !enforce_num; reflexivity|]). destruct I. }
  destruct (unfit sym_table d k sp (JNum q) ltac:(nd) I L F) as [e E]. exists e. unfold parse_sym. now rewrite E.
Qed.
Lemma opt_parse_err A (parse : jdict -> pyres A) d k x e : dict_lookup d k = Some (JDict x) -> parse x = Err e -> opt_parse parse d k = Err e.
Proof. intros L E. unfold opt_parse. now rewrite L, E. Qed.
Lemma lookup_sym t k : In k ["zeta"; "Cq"; "D"] -> dict_lookup (sym_units t) k = None ->
  dict_lookup (json_sym t) k = option_map JNum (if String.eqb k "zeta" then zeta t else if String.eqb k "Cq" then Cq t else D t).
Proof.
  intros I U. unfold json_sym. rewrite lookup_json by nd. rewrite U. destruct I as [<-|[<-|[<-|[]]]]; cbn.
  - now destruct (zeta t).
  - now destruct (Cq t).
  - now destruct (D t).
Qed.
Lemma popped pu a b : dict_lookup (pop2 a b pu) a = None /\ dict_lookup (pop2 a b pu) b = None.
Proof. unfold pop2. rewrite !lookup_pop, !String.eqb_refl. destruct (String.eqb a b); auto. Qed.
Lemma site_shape s : site_obtained s -> s_units s = [("isotropic_chemical_shift", "ppm")] /\
  (forall t, shielding_symmetric s = Some t -> dict_lookup (sym_units t) "Cq" = None /\ dict_lookup (sym_units t) "D" = None) /\
  (forall t, quadrupolar s = Some t -> dict_lookup (sym_units t) "D" = None /\ dict_lookup (sym_units t) "zeta" = None).
Proof.
  assert (M : forall d ss sa qd, make_site d ss sa qd [("isotropic_chemical_shift", "ppm")] = Ok s -> s_units s = [("isotropic_chemical_shift", "ppm")] /\
    (forall t, shielding_symmetric s = Some t -> dict_lookup (sym_units t) "Cq" = None /\ dict_lookup (sym_units t) "D" = None) /\
    (forall t, quadrupolar s = Some t -> dict_lookup (sym_units t) "D" = None /\ dict_lookup (sym_units t) "zeta" = None)).
  { intros d ss sa qd H. unfold make_site in H. do 6 inv H. injection H as <-. cbn [s_units shielding_symmetric quadrupolar]. split; [reflexivity|].
    split; intros t Ht; [destruct ss|destruct qd]; try discriminate; injection Ht as <-; apply popped. }
  intros [[d H]|(d & ss & sa & qd & _ & _ & _ & H)]; [|exact (M _ _ _ _ H)].
  unfold parse_site in H. do 4 inv H. destruct a2 as [d1 pu]. inv H. destruct (parse_units_inv site_table d _ _ ltac:(nd) E2) as (F & U & K). subst pu.
  unfold read_units, site_table in H. cbn [map fst snd] in H. rewrite single_unit in H. exact (M _ _ _ _ H).
Qed.
Lemma stray_tensor t k : In k ["zeta"; "Cq"; "D"] -> dict_lookup (sym_units t) k = None ->
  (if String.eqb k "zeta" then zeta t else if String.eqb k "Cq" then Cq t else D t) <> None -> exists e, parse_sym (json_sym t) = Err e.
Proof.
  intros I U X. pose proof (lookup_sym t k I U) as L. destruct (if String.eqb k "zeta" then zeta t else if String.eqb k "Cq" then Cq t else D t) as [q|]; [|congruence].
  cbn in L. destruct I as [<-|[<-|[<-|[]]]]; eapply sym_unfit; try exact L; cbn; eauto.
Qed.
Lemma site_stray s t : site_obtained s ->
  (shielding_symmetric s = Some t /\ (Cq t <> None \/ D t <> None)) \/ (quadrupolar s = Some t /\ (zeta t <> None \/ D t <> None)) ->
  exists e, parse_site (json_site s) = Err e.
Proof.
  intros O H. destruct (site_shape s O) as (U & S & Q). destruct (parse_site (json_site s)) as [r|e] eqn:P; [|eauto]. exfalso.
  unfold parse_site in P. inv P. inv P. inv P. clear P.
  assert (L1 : dict_lookup (json_site s) "shielding_symmetric" = option_map (fun t => JDict (json_sym t)) (shielding_symmetric s)) by (unfold json_site; rewrite lookup_json by nd; rewrite U; cbn; now destruct (shielding_symmetric s)).
  assert (L2 : dict_lookup (json_site s) "quadrupolar" = option_map (fun t => JDict (json_sym t)) (quadrupolar s)) by (unfold json_site; rewrite lookup_json by nd; rewrite U; cbn; now destruct (quadrupolar s)).
  destruct H as [[H X]|[H X]].
  - destruct (S t H) as [S1 S2]. assert (Z : exists e, parse_sym (json_sym t) = Err e) by (destruct X; [apply (stray_tensor t "Cq")|apply (stray_tensor t "D")]; cbn; auto).
    destruct Z as [e Z]. rewrite H in L1. rewrite (opt_parse_err _ parse_sym _ _ _ _ L1 Z) in E. discriminate.
  - destruct (Q t H) as [S1 S2]. assert (Z : exists e, parse_sym (json_sym t) = Err e) by (destruct X; [apply (stray_tensor t "zeta")|apply (stray_tensor t "D")]; cbn; auto).
    destruct Z as [e Z]. rewrite H in L2. rewrite (opt_parse_err _ parse_sym _ _ _ _ L2 Z) in E1. discriminate.
Qed.

(** Texts *)
Lemma json_no_empty items pu k : NoDup (map fst items) -> dict_lookup (parseable_json items pu) k <> Some (JStr "").
Proof.
  intros N. rewrite lookup_json by exact N. destruct (dict_lookup items k) as [v|]; [|discriminate]. destruct (kept (k, v)) eqn:K; [|discriminate]. intros [= X].
  assert (v = JStr "") by (destruct (dict_lookup pu k); [destruct v; cbn in X; congruence|exact X]). subst v. discriminate.
Qed.
Lemma opt_str_empty d k : opt_str d k = Ok (Some "") -> dict_lookup d k = Some (JStr "").
Proof. unfold opt_str. destruct (dict_lookup d k) as [[]|]; try discriminate. now intros [= ->]. Qed.
Lemma site_texts d s : parse_site d = Ok s -> opt_str d "name" = Ok (s_name s) /\ opt_str d "label" = Ok (s_label s) /\ opt_str d "description" = Ok (s_description s).
Proof.
  unfold parse_site. intros H. do 4 inv H. destruct a2 as [d1 pu]. inv H. destruct (parse_units_inv site_table d _ _ ltac:(nd) E2) as (_ & _ & K).
  unfold make_site in H. do 6 inv H. injection H as <-. cbn [s_name s_label s_description]. unfold opt_str in *. rewrite K in E4, E5, E6. auto.
Qed.
Lemma coupling_texts d s : parse_coupling d = Ok s -> opt_str d "name" = Ok (c_name s) /\ opt_str d "label" = Ok (c_label s) /\ opt_str d "description" = Ok (c_description s).
Proof.
  unfold parse_coupling. intros H. do 6 inv H. destruct a4 as [d1 pu]. inv H. destruct (parse_units_inv coupling_table d _ _ ltac:(nd) E4) as (_ & _ & K).
  unfold make_coupling in H. do 6 inv H. injection H as <-. cbn [c_name c_label c_description]. unfold opt_str in *. rewrite K in E6, E7, E8. auto.
Qed.
Lemma system_texts d s : parse_system d = Ok s -> opt_str d "name" = Ok (y_name s) /\ opt_str d "label" = Ok (y_label s) /\ opt_str d "description" = Ok (y_description s).
Proof.
  unfold parse_system. intros H. do 3 inv H. destruct a1 as [d1 pu]. inv H. destruct (parse_units_inv system_table d _ _ ltac:(nd) E1) as (_ & _ & K).
  unfold make_system in H. do 5 inv H. injection H as <-. cbn [y_name y_label y_description]. unfold opt_str in *. rewrite K in E3, E4, E5. auto.
Qed.
Lemma dim_texts d s : parse_dim d = Ok s -> opt_str d "label" = Ok (d_label s) /\ opt_str d "description" = Ok (d_description s).
Proof.
  unfold parse_dim. intros H. do 2 inv H. destruct a0 as [d1 pu]. inv H. destruct (parse_units_inv dim_table d _ _ ltac:(nd) E0) as (_ & _ & K).
  unfold make_dim in H. do 6 inv H. injection H as <-. cbn [d_label d_description]. unfold opt_str in *. rewrite K in E6, E7. auto.
Qed.

(** Couplings *)
Lemma coupling_shape c : coupling_obtained c -> c_units c = [("isotropic_j", "Hz")] /\
  (forall t, j_symmetric c = Some t -> dict_lookup (sym_units t) "Cq" = None /\ dict_lookup (sym_units t) "D" = None) /\
  (forall t, dipolar c = Some t -> dict_lookup (sym_units t) "Cq" = None /\ dict_lookup (sym_units t) "zeta" = None).
Proof.
  assert (M : forall d js ja dp, make_coupling d js ja dp [("isotropic_j", "Hz")] = Ok c -> c_units c = [("isotropic_j", "Hz")] /\
    (forall t, j_symmetric c = Some t -> dict_lookup (sym_units t) "Cq" = None /\ dict_lookup (sym_units t) "D" = None) /\
    (forall t, dipolar c = Some t -> dict_lookup (sym_units t) "Cq" = None /\ dict_lookup (sym_units t) "zeta" = None)).
  { intros d js ja dp H. unfold make_coupling in H. do 6 inv H. injection H as <-. cbn [c_units j_symmetric dipolar]. split; [reflexivity|].
    split; intros t Ht; [destruct js as [t'|]|destruct dp]; try discriminate; injection Ht as <-; [|apply popped].
    cbn [with_sym_units sym_units]. unfold j_units. rewrite !lookup_set. cbn. apply popped. }
  intros [[d H]|(d & ss & sa & qd & _ & _ & _ & H)]; [|exact (M _ _ _ _ H)].
  unfold parse_coupling in H. do 6 inv H. destruct a4 as [d1 pu]. inv H. destruct (parse_units_inv coupling_table d _ _ ltac:(nd) E4) as (F & U & K). subst pu.
  unfold read_units, coupling_table in H. cbn [map fst snd] in H. rewrite single_unit in H. exact (M _ _ _ _ H).
Qed.
Lemma no_zeta d x : dict_lookup d "j_symmetric" = Some (JDict x) -> dict_lookup x "zeta" = None -> exists e, parse_coupling d = Err e.
Proof.
  intros L Z. destruct (parse_coupling d) as [r|e] eqn:P; [|eauto]. exfalso. unfold parse_coupling in P. inv P. inv P. clear P.
  unfold opt_parse in E. rewrite L in E. inv E. injection E as <-. unfold parse_sym in E1. inv E1. destruct a as [d1 pu]. inv E1.
  destruct (parse_units_inv sym_table x _ _ ltac:(nd) E) as (_ & U & _). unfold make_sym in E1. do 7 inv E1. injection E1 as <-. cbn [sym_units] in E0. subst pu.
  unfold not_ppm, read_units, sym_table in E0. cbn [map fst snd] in E0. rewrite Z in E0. cbn in E0. discriminate.
Qed.
Lemma coupling_stray c t : coupling_obtained c ->
  (j_symmetric c = Some t /\ (zeta t = None \/ Cq t <> None \/ D t <> None)) \/ (dipolar c = Some t /\ (zeta t <> None \/ Cq t <> None)) \/ j_antisymmetric c <> None ->
  exists e, parse_coupling (json_coupling c) = Err e.
Proof.
  intros O H. destruct (coupling_shape c O) as (U & S & Q). destruct (parse_coupling (json_coupling c)) as [r|e] eqn:P; [|eauto]. exfalso.
  assert (L1 : dict_lookup (json_coupling c) "j_symmetric" = option_map (fun t => JDict (json_sym t)) (j_symmetric c)) by (unfold json_coupling; rewrite lookup_json by nd; rewrite U; cbn; now destruct (j_symmetric c)).
  assert (L2 : dict_lookup (json_coupling c) "dipolar" = option_map (fun t => JDict (json_sym t)) (dipolar c)) by (unfold json_coupling; rewrite lookup_json by nd; rewrite U; cbn; now destruct (dipolar c)).
  assert (L3 : dict_lookup (json_coupling c) "j_antisymmetric" = option_map (fun t => JDict (json_anti t)) (j_antisymmetric c)) by (unfold json_coupling; rewrite lookup_json by nd; rewrite U; cbn; now destruct (j_antisymmetric c)).
  destruct H as [[H [X|X]]|[[H X]|X]].
  - rewrite H in L1. destruct (no_zeta _ (json_sym t) L1) as [e E]; [|congruence]. unfold json_sym. rewrite lookup_json by nd. rewrite X. reflexivity.
  - destruct (S t H) as [S1 S2]. assert (Z : exists e, parse_sym (json_sym t) = Err e) by (destruct X; [apply (stray_tensor t "Cq")|apply (stray_tensor t "D")]; cbn; auto).
    destruct Z as [e Z]. unfold parse_coupling in P. inv P. rewrite H in L1. rewrite (opt_parse_err _ parse_sym _ _ _ _ L1 Z) in E. discriminate.
  - destruct (Q t H) as [S1 S2]. assert (Z : exists e, parse_sym (json_sym t) = Err e) by (destruct X; [apply (stray_tensor t "zeta")|apply (stray_tensor t "Cq")]; cbn; auto).
    destruct Z as [e Z]. unfold parse_coupling in P. do 5 inv P. rewrite H in L2. rewrite (opt_parse_err _ parse_sym _ _ _ _ L2 Z) in E3. discriminate.
  - destruct (no_anti _ _ P) as [N _]. rewrite N in L3. destruct (j_antisymmetric c); [discriminate|congruence].
Qed.

(** Values that are no JSON *)
Lemma plain_json items pu : forallb (fun kv => plain (snd kv)) items = true -> forallb (fun kv => plain (snd kv)) (parseable_json items pu) = true.
Proof.
  rewrite !forallb_forall. intros H x Hx. unfold parseable_json in Hx. apply in_map_iff in Hx. destruct Hx as ([k v] & <- & Hv). apply filter_In in Hv. destruct Hv as [Hv _].
  specialize (H _ Hv). cbn [fst snd] in *. destruct (dict_lookup pu k); cbn [snd]; [|exact H]. destruct v; cbn in *; auto.
Qed.
Lemma plain_num o : plain (num_or_none o) = true. Proof. now destruct o. Qed.
Lemma plain_str o : plain (str_or_none o) = true. Proof. now destruct o. Qed.
Lemma plain_sym t : plain (JDict (json_sym t)) = true.
Proof. cbn [plain]. unfold json_sym. apply plain_json. cbn [forallb snd]. now rewrite !plain_num. Qed.
Lemma plain_anti t : plain (JDict (json_anti t)) = true.
Proof. cbn [plain]. unfold json_anti. apply plain_json. cbn [forallb snd]. now rewrite !plain_num. Qed.
Lemma plain_on A (f : A -> jdict) o : (forall x, plain (JDict (f x)) = true) -> plain (dict_or_none f o) = true.
Proof. intros H. destruct o; [apply H|reflexivity]. Qed.
Lemma plain_site s : plain (JDict (json_site s)) = true.
Proof. cbn [plain]. unfold json_site. apply plain_json. cbn [forallb snd]. now rewrite !plain_str, !(plain_on _ json_sym _ plain_sym), (plain_on _ json_anti _ plain_anti). Qed.
Lemma plain_list A (f : A -> jval) l : (forall x, plain (f x) = true) -> plain (JList (map f l)) = true.
Proof. intros H. cbn [plain]. apply forallb_forall. intros x Hx. apply in_map_iff in Hx. destruct Hx as (y & <- & _). apply H. Qed.
Lemma plain_coupling c : plain (JDict (json_coupling c)) = true.
Proof.
  cbn [plain]. unfold json_coupling. apply plain_json. cbn [forallb snd]. now rewrite !plain_str, !(plain_on _ json_sym _ plain_sym), (plain_on _ json_anti _ plain_anti), plain_list.
Qed.
Lemma plain_system y : transition_pathways y = None -> plain (JDict (json_system y)) = true.
Proof.
  intros T. cbn [plain]. unfold json_system. apply plain_json. cbn [forallb snd]. rewrite !plain_str, T, plain_list by (intros; apply plain_site).
  destruct (couplings y); [|reflexivity]. now rewrite plain_list by (intros; apply plain_coupling).
Qed.
Lemma paths_not_plain y p l : transition_pathways y = Some (p :: l) -> plain (JDict (json_system y)) = false.
Proof.
  intros T. apply not_true_iff_false. intros P. cbn [plain] in P. rewrite forallb_forall in P.
  assert (L : exists v, In ("transition_pathways", v) (json_system y) /\ plain v = false).
  { unfold json_system, parseable_json. rewrite T.
    assert (I : In ("transition_pathways", JList (map JPath (p :: l))) (filter kept [("name", str_or_none (y_name y)); ("label", str_or_none (y_label y)); ("description", str_or_none (y_description y));
                  ("sites", JList (map (fun s => JDict (json_site s)) (sites y)));
                  ("couplings", match couplings y with Some l => JList (map (fun c => JDict (json_coupling c)) l) | None => JNone end);
                  ("abundance", JNum (abundance y)); ("transition_pathways", JList (map JPath (p :: l)))])).
    { apply filter_In. split; [|reflexivity]. cbn. auto 10. }
    apply (in_map (fun kv => match dict_lookup (y_units y) (fst kv) with Some u => (fst kv, print_unit u (snd kv)) | None => kv end)) in I. cbn [fst snd print_unit] in I.
    destruct (dict_lookup (y_units y) "transition_pathways"); exists (JList (map JPath (p :: l))); split; try exact I; reflexivity. }
  destruct L as (v & I & V). specialize (P _ I). cbn in P. congruence.
Qed.
