(** Proofs about the numbers of the events that a named class makes when no events are given. *)
From Coq Require Import ZArith QArith Qcanon Bool Ascii String List Lia.
From Verif Require Import Base SitesModel SitesProofs JsonModel JsonSpec JsonProofs JsonUnits JsonLost NamedModel NamedSpec NamedProofs.
From Verif Require BaseProofs.
Import ListNotations.
Open Scope string_scope.
Open Scope list_scope.

(** ** Numbers of a made event *)
Lemma def_num_given d k dflt valid q : def_num d k dflt valid = Ok q -> given d k dflt q.
Proof. unfold def_num, given. destruct (dict_lookup d k) as [[]|]; try discriminate; [destruct (valid _); [congruence|discriminate]|congruence]. Qed.
Lemma made_numbers d pu e : make_event d pu = Ok e ->
  given d "fraction" 1 (fraction e) /\ given d "magnetic_flux_density" default_field (magnetic_flux_density e) /\ given d "rotor_frequency" 0 (rotor_frequency e) /\
  given d "rotor_angle" default_angle (rotor_angle e).
Proof.
  unfold make_event. intros H. inv H. inv H. inv H. inv H. inv H. inv H. injection H as <-. cbn [fraction magnetic_flux_density rotor_frequency rotor_angle].
  repeat split; eapply def_num_given; eassumption.
Qed.
Lemma given_same d d' k a q : dict_lookup d k = dict_lookup d' k -> given d k a q -> given d' k a q.
Proof. unfold given. now intros ->. Qed.
(** The entries of the dict that the keyword arguments and the template give. *)
Lemma given_gen t te kw k a q : In t templates -> Forall (fun x => x = [te]) (t_dims t) -> In k ["fraction"; "magnetic_flux_density"; "rotor_frequency"; "rotor_angle"] ->
  given (gen_one (t_globals t) kw false te None) k a q ->
  given kw k (match dict_lookup (t_globals t) k with Some (JNum x) => x | _ => a end) q.
Proof.
  intros HT TE HK. unfold given. rewrite lookup_gen_false. cbn [user_of]. change (dict_lookup [] k) with (@None jval). cbv iota. destruct (dict_lookup kw k); [auto|].
  assert (TN : dict_lookup te k = None).
  { cbn in HT. destruct HT as [<-|[<-|[<-|[<-|[]]]]]; cbn [t_dims Bloch_decay Bloch_decay_central_transition Method1D Method2D] in TE; inversion TE as [|? ? TE1 _]; injection TE1 as <-; cbn in HK; repeat (destruct HK as [<-|HK]; [reflexivity|]); destruct HK. }
  destruct (dict_lookup (t_globals t) k) as [v|] eqn:G; [|now rewrite TN].
  assert (exists z, v = JNum z).
  { cbn in HT, HK. destruct HT as [<-|[<-|[<-|[<-|[]]]]]; repeat (destruct HK as [<-|HK]; [first [discriminate | injection G as <-; eexists; reflexivity]|]); destruct HK. }
  destruct H as [z ->]. congruence.
Qed.
(** A method of the first four classes. *)
Lemma template_values t te args m : In t templates -> Forall (fun x => x = [te]) (t_dims t) -> construct t args false = Ok m -> gives_no_events args ->
  Forall (fun x => exists e, events x = [e] /\ given args "fraction" 1 (fraction e) /\ given args "magnetic_flux_density" default_field (magnetic_flux_density e) /\
    given args "rotor_angle" default_angle (rotor_angle e) /\
    given args "rotor_frequency" (match dict_lookup (t_globals t) "rotor_frequency" with Some (JNum x) => x | _ => 0%Qc end) (rotor_frequency e)) (dims m).
Proof.
  intros HT TE H NG. pose proof (no_events_made t te args m HT TE H NG) as F. revert F. apply Forall_impl. intros x (e & EX & ME). exists e. split; [exact EX|].
  destruct (made_numbers _ _ _ ME) as (M1 & M2 & M3 & M4).
  assert (K : forall k a q, In k ["fraction"; "magnetic_flux_density"; "rotor_frequency"; "rotor_angle"] ->
    given (gen_one (t_globals t) (dict_pop args "spectral_dimensions") false te None) k a q -> given args k (match dict_lookup (t_globals t) k with Some (JNum x) => x | _ => a end) q).
  { intros k a q HK G. apply (given_gen t te) in G; auto. revert G. apply given_same. rewrite lookup_pop. cbn in HK. repeat (destruct HK as [<-|HK]; [reflexivity|]). destruct HK. }
  assert (N : forall k, In k ["fraction"; "magnetic_flux_density"; "rotor_angle"] -> dict_lookup (t_globals t) k = None).
  { intros k HK. cbn in HT, HK. destruct HT as [<-|[<-|[<-|[<-|[]]]]]; repeat (destruct HK as [<-|HK]; [reflexivity|]); destruct HK. }
  apply K in M1; [|cbn; tauto]. apply K in M2; [|cbn; tauto]. apply K in M3; [|cbn; tauto]. apply K in M4; [|cbn; tauto]. rewrite N in M1, M2, M4 by (cbn; tauto). auto.
Qed.
(** Method2D has no rotor frequency among its arguments. *)
Lemma two_rotor args m : construct Method2D args false = Ok m -> gives_no_events args -> dict_lookup args "rotor_frequency" = None.
Proof.
  intros H NG. assert (HT : In Method2D templates) by (cbn; tauto). pose proof (no_events_made Method2D [] args m HT ltac:(repeat constructor) H NG) as NE.
  destruct (construct_inv Method2D args m HT H) as [(M1 & _) (_ & _ & _ & _ & _ & _ & _ & CR & _)]. set (kw := dict_pop args "spectral_dimensions") in *.
  assert (LK : dict_lookup kw "rotor_frequency" = dict_lookup args "rotor_frequency") by (unfold kw; now rewrite lookup_pop).
  rewrite <- LK. destruct (dict_lookup kw "rotor_frequency") as [r|] eqn:KR; [exfalso|reflexivity]. unfold check_rotor_frequency in CR.
  assert (F : In "rotor_frequency" (filter (fun k => has_key (t_globals Method2D) k) (map fst kw))).
  { apply filter_In. split; [|reflexivity]. clear - KR. induction kw as [|[k w] s IH]; [discriminate|]. rewrite lookup_cons in KR. destruct (String.eqb_spec k "rotor_frequency") as [->|]; [now left|]. right. now apply IH. }
  destruct (filter _ (map fst kw)) as [|k0 kr]; [destruct F|]. rewrite KR in CR. destruct (existsb _ _ && same_text _ _) eqn:S; [|discriminate].
  apply andb_true_iff in S. destruct S as [_ S]. destruct r; try discriminate S. destruct (dims m) as [|x ds] eqn:DM; [discriminate M1|]. inversion NE as [|? ? (e & _ & ME) _]; subst.
  apply (made_rotor (gen_one (t_globals Method2D) kw false [] None) e q u); [|exact ME]. rewrite lookup_gen_false. cbn [user_of].
  change (dict_lookup [] "rotor_frequency") with (@None jval). cbv iota. now rewrite KR.
Qed.
Definition values (args : jdict) (f : Qc) (e : event) : Prop :=
  given args "fraction" 1 (fraction e) /\ given args "magnetic_flux_density" default_field (magnetic_flux_density e) /\ given args "rotor_angle" default_angle (rotor_angle e) /\ rotor_frequency e = f.
Lemma two_values args m : construct Method2D args false = Ok m -> gives_no_events args ->
  Forall (fun x => exists e, events x = [e] /\ values args (Qc_of_Z 1000000000000) e) (dims m).
Proof.
  intros H NG. pose proof (two_rotor args m H NG) as R. assert (HT : In Method2D templates) by (cbn; tauto). pose proof (template_values Method2D [] args m HT ltac:(repeat constructor) H NG) as F.
  revert F. apply Forall_impl. intros x (e & EX & A & B & C & D). exists e. split; [exact EX|]. unfold given in D. rewrite R in D. repeat (split; [assumption|]). exact D.
Qed.
(** The arguments that the two-dimensional classes hand on. *)
Lemma new_values cls args m : new_dicts cls args = Ok m -> Forall (fun x => exists e, events x = [e] /\ values args (Qc_of_Z 1000000000000) e) (dims m).
Proof.
  unfold new_dicts. intros H. inv H. set (kw := dict_update (with_name cls args) [("spectral_dimensions", JList (map JDict a))]) in *.
  assert (SD : dict_lookup kw "spectral_dimensions" = Some (JList (map JDict a))) by (unfold kw; rewrite lookup_update; reflexivity).
  assert (NG : gives_no_events kw).
  { intros l SL dim Hd. rewrite SD in SL. injection SL as <-. apply in_map_iff in Hd. destruct Hd as (d & [= ->] & Hd). destruct (dict_lookup args "spectral_dimensions") as [v|].
    - inv E. inv E. inv E. injection E as <-. unfold check_dicts in E2. destruct (negb _); [discriminate|]. match type of E2 with context [if ?b then _ else _] => destruct b eqn:X; [discriminate|] end.
      destruct (dict_lookup dim "events") eqn:Y; [|reflexivity]. exfalso. apply not_true_iff_false in X. apply X. apply existsb_exists. exists dim. split; [exact Hd|]. unfold has_key. now rewrite Y.
    - injection E as <-. destruct Hd as [<-|[<-|[]]]; reflexivity. }
  pose proof (two_values kw m H NG) as F. revert F. apply Forall_impl. intros x (e & EX & A & B & C & D). exists e. split; [exact EX|].
  assert (LK : forall k, In k ["fraction"; "magnetic_flux_density"; "rotor_angle"] -> dict_lookup kw k = dict_lookup args k).
  { intros k HK. unfold kw. rewrite lookup_update. assert (N : dict_lookup [("spectral_dimensions", JList (map JDict a))] k = None /\ String.eqb "name" k = false) by (cbn in HK; repeat (destruct HK as [<-|HK]; [split; reflexivity|]); destruct HK).
    destruct N as [-> N]. unfold with_name. destruct (has_key args "name"); [reflexivity|]. now rewrite lookup_set, N. }
  unfold values. split; [apply (given_same kw); [apply LK; cbn; tauto|exact A]|]. split; [apply (given_same kw); [apply LK; cbn; tauto|exact B]|]. split; [apply (given_same kw); [apply LK; cbn; tauto|exact C]|exact D].
Qed.
(** The queries of the class leave the numbers as they are. *)
Definition same_numbers (x y : dimension) : Prop := map (fun e => (fraction e, magnetic_flux_density e, rotor_angle e, rotor_frequency e)) (events x) = map (fun e => (fraction e, magnetic_flux_density e, rotor_angle e, rotor_frequency e)) (events y).
Lemma set_queries_same : forall ds qs ds', set_queries ds qs = Ok ds' -> Forall2 same_numbers ds ds'.
Proof.
  induction ds as [|x ds IH]; intros [|q qs] ds' H; try discriminate; cbn [set_queries] in H; try (injection H as <-).
  - constructor.
  - constructor; [reflexivity|]. clear. induction ds; constructor; [reflexivity|assumption].
  - inv H. inv H. injection H as <-. constructor; [|now apply (IH qs)]. unfold set_query in E. destruct (events x) as [|e r] eqn:EX; [discriminate|]. injection E as <-. unfold same_numbers. rewrite EX. reflexivity.
Qed.
Lemma apply_same m u s m' : apply_update m u s = Ok m' -> Forall2 same_numbers (dims m) (dims m').
Proof. unfold apply_update. intros H. inv H. inv H. injection H as <-. exact (set_queries_same _ _ _ E). Qed.
Lemma update_same cls m m' : update cls m = Ok m' -> Forall2 same_numbers (dims m) (dims m').
Proof.
  unfold update. destruct (String.eqb cls "SSB2D"); [apply apply_same|]. destruct (m_name m); [|discriminate]. destruct (existsb _ _); intros H; inv H; inv H; inv H; exact (apply_same _ _ _ _ H).
Qed.
Lemma values_same args f x y : same_numbers x y -> (exists e, events x = [e] /\ values args f e) -> exists e, events y = [e] /\ values args f e.
Proof.
  unfold same_numbers. intros S (e & EX & A & B & C & D). rewrite EX in S. destruct (events y) as [|e' [|]]; try discriminate S. injection S as S1 S2 S3 S4. exists e'. split; [reflexivity|].
  unfold values. rewrite <- S1, <- S2, <- S3, <- S4. auto.
Qed.
Lemma values_all args f ds ds' : Forall2 same_numbers ds ds' -> Forall (fun x => exists e, events x = [e] /\ values args f e) ds -> Forall (fun x => exists e, events x = [e] /\ values args f e) ds'.
Proof. induction 1 as [|x y l r S F IH]; intros H; [constructor|]. inversion H as [|? ? H1 H2]; subst. constructor; [exact (values_same args f x y S H1)|auto]. Qed.

(** ** The events that a dict gives *)
Transparent enforce_units.
Lemma enforce_stated v ty u q : enforce_units v ty u = Some q -> same_amount (JQty q u) v.
Proof.
  unfold enforce_units. destruct v; try discriminate. destruct (unit_info u0) as [[dt s]|] eqn:U0; [|discriminate]. destruct (unit_info u) as [[tt s']|] eqn:U; [|discriminate]. destruct (String.eqb ty dt && _) eqn:E; [|discriminate].
  intros [= <-]. apply andb_true_iff in E. destruct E as [_ E]. apply String.eqb_eq in E. subst tt. eapply same_qty; [exact U|exact U0|]. pose proof (unit_size _ _ _ U). now field.
Qed.
Opaque enforce_units.
Lemma parsed_numbers d e : parse_event d = Ok e ->
  given d "fraction" 1 (fraction e) /\ stated d "magnetic_flux_density" "T" default_field (magnetic_flux_density e) /\ stated d "rotor_angle" "rad" default_angle (rotor_angle e) /\
  stated d "rotor_frequency" "Hz" 0 (rotor_frequency e).
Proof.
  unfold parse_event. intros H. inv H. destruct a as [d1 pu]. inv H. apply made_numbers in H. destruct H as (M1 & M2 & M3 & M4).
  destruct (parse_units_inv event_table d d1 pu ltac:(repeat constructor; cbn; intuition discriminate) E) as (AF & _ & L).
  assert (K : forall k ty u dflt q, In (k, Single ty u) event_table -> dict_lookup event_table k = Some (Single ty u) -> given d1 k dflt q -> stated d k u dflt q).
  { intros k ty u dflt q I HL G. unfold given in G. unfold stated. rewrite L, HL in G. destruct (dict_lookup d k) as [v|] eqn:LD; cbn [option_map] in G; [|exact G].
    specialize (AF k _ v I LD). unfold read_value, fit in *. destruct (enforce_units v ty u) as [z|] eqn:EN; cbn [option_map] in *; [|now exfalso]. injection G as ->. right. exact (enforce_stated _ _ _ _ EN). }
  split; [unfold given in *; rewrite L in M1; exact M1|]. split; [|split]; eapply K; try eassumption; try reflexivity; cbn; auto.
Qed.
Lemma parsed_dim z x : parse_dim z = Ok x -> match dict_lookup z "events" with Some (JList l) => Forall2 (fun v e => exists d, v = JDict d /\ parse_event d = Ok e) l (events x) | Some _ => False | None => events x = [] end.
Proof.
  unfold parse_dim. intros H. inv H. inv H. destruct a0 as [d1 pu]. inv H. assert (EV : events x = match a with Some l => l | None => [] end) by (unfold make_dim in H; do 6 inv H; now injection H as <-).
  unfold list_parse in E. destruct (dict_lookup z "events") as [[]|]; try discriminate; [|injection E as <-; exact EV]. inv E. injection E as <-. rewrite EV. apply mapM_F2 in E2. clear - E2.
  induction E2 as [|v e l r X F IH]; constructor; [|exact IH]. destruct v; try discriminate. eauto.
Qed.
Lemma expanded_dim glb v z : expand_dim glb v = Ok z -> exists dim l l', v = JDict dim /\ dict_lookup dim "events" = match l with Some y => Some (JList y) | None => None end /\
  Forall2 (fun w w' => exists d, w = JDict d /\ w' = JDict (fill_event glb d)) (match l with Some y => y | None => [JDict []] end) l' /\ z = JDict (dict_set dim "events" (JList l')).
Proof.
  unfold expand_dim. intros H. inv H. inv H. inv H. injection H as <-. destruct v; try discriminate. injection E as ->. apply mapM_F2 in E1.
  destruct (dict_lookup a "events") as [w|] eqn:L.
  - destruct w; try discriminate. injection E0 as <-. exists a, (Some l), a1. split; [reflexivity|]. split; [exact L|]. split; [|reflexivity]. clear - E1. induction E1 as [|w w' l r X F IH]; constructor; [|exact IH]. inv X. destruct w; try discriminate. injection E as ->. injection X as <-. eauto.
  - injection E0 as <-. exists a, None, a1. split; [reflexivity|]. split; [exact L|]. split; [|reflexivity]. clear - E1. induction E1 as [|w w' l r X F IH]; constructor; [|exact IH]. inv X. destruct w; try discriminate. injection E as ->. injection X as <-. eauto.
Qed.
(** The events of the dimensions when none are given, before they are read. *)
Lemma no_events_out t te kwargs l ds kw out p : Forall (fun x => x = [te]) (t_dims t) ->
  mapM as_dict (match dict_lookup kwargs "spectral_dimensions" with Some (JList l) => l | _ => [JDict []] end) = Ok l ->
  parse_spectral_dimensions l (length (t_dims t)) = Ok ds -> gen_dims (t_dims t) ds (t_globals t) kw p = Ok out -> gives_no_events kwargs ->
  Forall (fun x => snd x = [gen_one (t_globals t) kw p te None]) out.
Proof.
  intros TE ML PS GD NG.
  assert (NE : Forall (fun d => dict_lookup d "events" = None) l).
  { destruct (dict_lookup kwargs "spectral_dimensions") as [v|] eqn:SD; [|injection ML as <-; repeat constructor].
    destruct v as [|?|?|? ?|vl|?|?]; try (injection ML as <-; repeat constructor). specialize (NG vl SD). apply mapM_F2 in ML. clear - NG ML. induction ML as [|x y vl l' F1 F2 IH]; [constructor|].
    destruct x; try discriminate. injection F1 as <-. constructor; [apply NG; now left|apply IH; intros dim Hd; apply NG; now right]. }
  assert (NN : forall x evs, In (x, evs) ds -> evs = None).
  { intros x evs I. unfold parse_spectral_dimensions in PS. assert (X : (forall x evs, In (x, evs) ds -> evs = None) \/ mapM (fun dim => let* evs := given_events dim in
           match evs with None => Ok (dim, None) | Some l => let* l := mapM parse_events l in Ok (dict_pop dim "events", Some l) end) l = Ok ds).
    { destruct l as [|[|] [|]]; try (right; exact PS). left. injection PS as <-. intros y ev Hy. apply repeat_spec in Hy. congruence. }
    destruct X as [X|X]; [exact (X x evs I)|]. clear PS. apply mapM_F2 in X. clear - X NE I. induction X as [|d p l ds F1 F2 IH]; [destruct I|]. inversion NE as [|? ? N1 N2]; subst. destruct I as [->|I]; [|now apply IH].
    unfold given_events in F1. rewrite N1 in F1. cbn [bind] in F1. congruence. }
  pose proof (gen_dims_inv _ _ _ _ _ _ GD) as GI. clear - GI TE NN. induction GI as [|tem x tr r (evs & I & G) F IH]; [constructor|].
  inversion TE as [|? ? T1 T2]; subst. constructor; [|now apply IH]. rewrite (NN _ _ I) in G. now apply gen_event_none in G.
Qed.
Lemma template_read t te d m : In t templates -> Forall (fun x => x = [te]) (t_dims t) -> construct t d true = Ok m -> gives_no_events d ->
  Forall (fun x => exists e, events x = [e] /\ parse_event (gen_one (t_globals t) (dict_pop d "spectral_dimensions") true te None) = Ok e) (dims m) /\
  check_rotor_frequency (dict_pop d "spectral_dimensions") (t_globals t) = Ok tt.
Proof.
  intros HT TE H NG. unfold construct in H. apply bind_ok in H. destruct H as (l0 & E & H). destruct l0 as [|v0 vr]; [discriminate|].
  apply bind_ok in H. destruct H as (a0 & E0 & H). apply bind_ok in H. destruct H as (a1 & E1 & H). apply bind_ok in H. destruct H as (a2 & E2 & H). apply bind_ok in H. destruct H as ([] & E3 & H).
  destruct (Nat.ltb _ _); [discriminate|]. apply bind_ok in H. destruct H as (out & E4 & H). split; [|exact E3]. set (kw := dict_pop d "spectral_dimensions") in *.
  assert (FO : Forall (fun x => snd x = [gen_one (t_globals t) kw true te None]) out).
  { apply (no_events_out t te d a0 a1 kw out true TE); auto. destruct (dict_lookup d "spectral_dimensions") as [[]|]; cbn [as_list] in E; try discriminate E; inversion E; subst; exact E0. }
  clear E4 E1 E0 E NG. set (g := gen_one (t_globals t) kw true te None) in *. clearbody g.
  set (sd := JList (map (fun x => JDict (dict_update (fst x) [("events", JList (map JDict (snd x)))])) out)) in *. unfold parse_method in H.
  assert (PK : forall k, In k list_g -> dict_lookup a2 k = None).
  { intros k HK. unfold prepare_method_structure in E2. destruct (dict_lookup kw "channels"); [inv E2; destruct (Nat.eqb _ _); [|discriminate]|]; injection E2 as <-; cbn in HK; repeat (destruct HK as [<-|HK]; [reflexivity|]); destruct HK. }
  assert (PS : dict_lookup a2 "spectral_dimensions" = None).
  { unfold prepare_method_structure in E2. destruct (dict_lookup kw "channels"); [inv E2; destruct (Nat.eqb _ _); [|discriminate]|]; injection E2 as <-; reflexivity. }
  assert (LA : forall k, dict_lookup (a2 ++ [("spectral_dimensions", sd)]) k = match dict_lookup a2 k with Some v => Some v | None => if String.eqb "spectral_dimensions" k then Some sd else None end).
  { intros k. clear. induction a2 as [|[j v] r IH]; cbn [app]; [rewrite lookup_cons; now destruct (String.eqb _ k)|]. rewrite !lookup_cons. destruct (String.eqb j k); [reflexivity|exact IH]. }
  rewrite LA, PS, String.eqb_refl in H. inv H. unfold expand in E. rewrite LA, PS, String.eqb_refl in E.
  assert (GL : globals_of (a2 ++ [("spectral_dimensions", sd)]) = []).
  { unfold globals_of, list_g. cbn [fold_left]. rewrite !LA. rewrite (PK "magnetic_flux_density"), (PK "rotor_frequency"), (PK "rotor_angle") by (cbn; tauto). reflexivity. }
  rewrite GL in E. inv E. injection E0 as <-. inv E. injection E as <-. cbn [map fold_left] in H. inv H. inv H. unfold list_parse in E. rewrite lookup_set, String.eqb_refl in E. inv E. injection E as <-.
  destruct (make_method_inv _ _ _ H) as (MD & _). rewrite MD. apply mapM_F2 in E0. apply mapM_F2 in E4. clear - FO E0 E4. lazymatch type of E0 with Forall2 _ _ ?a => lazymatch type of E4 with Forall2 _ _ ?b => revert a b E0 E4 end end. induction out as [|[dm evs] out IH]; intros a b E0 E4.
  - inversion E0; subst. inversion E4; subst. constructor.
  - inversion E0 as [|? z ? zr X1 X2]; subst. inversion E4 as [|? y ? yr Y1 Y2]; subst. inversion FO as [|? ? F1 F2]; subst. cbn [snd fst] in *. subst evs. constructor; [|exact (IH F2 zr yr X2 Y2)].
    destruct (expanded_dim _ _ _ X1) as (dim & l & l' & [= <-] & LE & FE & ->). rewrite lookup_update, lookup_cons, String.eqb_refl in LE. destruct l as [l|]; [|discriminate]. injection LE as <-.
    inversion FE as [|? w ? lr (d & D1 & D2) FE2]; subst. injection D1 as <-. inversion FE2; subst. clear FE2. apply parsed_dim in Y1. rewrite lookup_set, String.eqb_refl in Y1. inversion Y1 as [|? e ? er (d & D1 & PE) Z]; subst. injection D1 as <-. inversion Z; subst. exists e. split; [reflexivity|exact PE].
Qed.
Lemma stated_fix d kw k u dflt q v0 : In (k, u) [("magnetic_flux_density", "T"); ("rotor_frequency", "Hz"); ("rotor_angle", "rad")] ->
  dict_lookup d k = option_map (fun v => snd (fix_string (k, v))) (match dict_lookup kw k with Some v => Some v | None => v0 end) ->
  (v0 = None \/ exists z, v0 = Some (JNum z)) -> stated d k u dflt q -> stated kw k u (match v0 with Some (JNum z) => z | _ => dflt end) q.
Proof.
  intros I L V. unfold stated. rewrite L. assert (SN : forall z, snd (fix_string (k, JNum z)) = JQty z u) by (intros z; cbn in I; repeat (destruct I as [[= <- <-]|I]; [reflexivity|]); destruct I).
  assert (AM : forall z, same_amount (JQty q u) (JQty z u) -> z = q).
  { intros z A. inversion A; subst; [|reflexivity]. match goal with U1 : unit_info u = Some (_, ?a), U2 : unit_info u = Some (_, ?b), Q : (_ = _)%Qc |- _ => rename U1 into U, U2 into U', Q into EQ end. rewrite U in U'. injection U' as <-. pose proof (unit_size _ _ _ U) as NZ. lazymatch type of EQ with (_ * ?s = _)%Qc => assert (X : (q * s / s = z * s / s)%Qc) by now rewrite EQ end. rewrite !Qcdiv_mult_l in X by exact NZ. now symmetry. }
  destruct (dict_lookup kw k) as [v|].
  - cbn [option_map]. destruct v as [|z| | | | |]; try (intros [H|H]; [|]; unfold fix_string in H; cbn [fst snd] in H; destruct (dict_lookup _ k) in H; cbn [snd] in H; auto; fail).
    rewrite SN. intros [H|H]; [discriminate|]. left. f_equal. auto.
  - destruct V as [->|[z ->]]; cbn [option_map]; [auto|]. rewrite SN. intros [H|H]; [discriminate|]. symmetry. auto.
Qed.
Lemma read_template t te d m : In t templates -> Forall (fun x => x = [te]) (t_dims t) -> construct t d true = Ok m -> gives_no_events d ->
  one_event (fun e => given d "fraction" 1 (fraction e) /\ read_with d e /\
    stated d "rotor_frequency" "Hz" (match dict_lookup (t_globals t) "rotor_frequency" with Some (JNum x) => x | _ => 0%Qc end) (rotor_frequency e)) m.
Proof.
  intros HT TE H NG. destruct (template_read t te d m HT TE H NG) as [F _]. unfold one_event. revert F. apply Forall_impl. intros x (e & EX & PE). exists e. split; [exact EX|].
  destruct (parsed_numbers _ _ PE) as (P1 & P2 & P3 & P4). set (kw := dict_pop d "spectral_dimensions") in *. set (g := gen_one (t_globals t) kw true te None) in *.
  assert (LK : forall k, In k ["fraction"; "magnetic_flux_density"; "rotor_frequency"; "rotor_angle"] -> dict_lookup kw k = dict_lookup d k).
  { intros k HK. unfold kw. rewrite lookup_pop. cbn in HK. repeat (destruct HK as [<-|HK]; [reflexivity|]). destruct HK. }
  assert (TN : forall k, In k ["fraction"; "magnetic_flux_density"; "rotor_frequency"; "rotor_angle"] -> dict_lookup te k = None).
  { intros k HK. cbn in HT. destruct HT as [<-|[<-|[<-|[<-|[]]]]]; cbn [t_dims Bloch_decay Bloch_decay_central_transition Method1D Method2D] in TE; inversion TE as [|? ? TE1 _]; injection TE1 as <-; cbn in HK; repeat (destruct HK as [<-|HK]; [reflexivity|]); destruct HK. }
  assert (GN : forall k, In k ["fraction"; "magnetic_flux_density"; "rotor_angle"] -> dict_lookup (t_globals t) k = None).
  { intros k HK. cbn in HT, HK. destruct HT as [<-|[<-|[<-|[<-|[]]]]]; repeat (destruct HK as [<-|HK]; [reflexivity|]); destruct HK. }
  assert (RN : dict_lookup (t_globals t) "rotor_frequency" = None \/ exists z, dict_lookup (t_globals t) "rotor_frequency" = Some (JNum z)).
  { cbn in HT. destruct HT as [<-|[<-|[<-|[<-|[]]]]]; [left; reflexivity|left; reflexivity|left; reflexivity|right; eexists; reflexivity]. }
  assert (LG : forall k, In k ["fraction"; "magnetic_flux_density"; "rotor_frequency"; "rotor_angle"] ->
    dict_lookup g k = option_map (fun v => snd (fix_string (k, v))) (match dict_lookup d k with Some v => Some v | None => dict_lookup (t_globals t) k end)).
  { intros k HK. unfold g. rewrite lookup_gen. cbn [user_of]. change (dict_lookup [] k) with (@None jval). cbv iota. rewrite (LK k HK), (TN k HK). destruct (dict_lookup d k); [reflexivity|]. now destruct (dict_lookup (t_globals t) k). }
  split; [|split; [split|]].
  - unfold given in *. rewrite LG in P1 by (cbn; tauto). rewrite GN in P1 by (cbn; tauto). destruct (dict_lookup d "fraction"); cbn [option_map] in P1; exact P1.
  - refine (stated_fix g d "magnetic_flux_density" "T" default_field _ None _ _ (or_introl eq_refl) P2); [cbn; tauto|]. rewrite LG by (cbn; tauto). now rewrite GN by (cbn; tauto).
  - refine (stated_fix g d "rotor_angle" "rad" default_angle _ None _ _ (or_introl eq_refl) P3); [cbn; tauto|]. rewrite LG by (cbn; tauto). now rewrite GN by (cbn; tauto).
  - refine (stated_fix g d "rotor_frequency" "Hz" 0 _ (dict_lookup (t_globals t) "rotor_frequency") _ _ RN P4); [cbn; tauto|]. now rewrite LG by (cbn; tauto).
Qed.
(** The rotor frequency of a Method2D that is read is the infinite speed. *)
Lemma read_rotor d m : construct Method2D d true = Ok m -> gives_no_events d -> one_event (fun e => rotor_frequency e = infinite_speed) m.
Proof.
  intros H NG. assert (HT : In Method2D templates) by (cbn; tauto). pose proof (read_template Method2D [] d m HT ltac:(repeat constructor) H NG) as F.
  destruct (template_read Method2D [] d m HT ltac:(repeat constructor) H NG) as [_ CR]. unfold one_event in *. revert F. apply Forall_impl. intros x (e & EX & _ & _ & S). exists e. split; [exact EX|].
  unfold stated in S. destruct (dict_lookup d "rotor_frequency") as [v|] eqn:LR; [|exact S]. set (kw := dict_pop d "spectral_dimensions") in *.
  assert (KR : dict_lookup kw "rotor_frequency" = Some v) by (unfold kw; rewrite lookup_pop; exact LR). unfold check_rotor_frequency in CR.
  assert (I : In "rotor_frequency" (filter (fun k => has_key (t_globals Method2D) k) (map fst kw))).
  { apply filter_In. split; [|reflexivity]. clear - KR. induction kw as [|[k w] s IH]; [discriminate|]. rewrite lookup_cons in KR. destruct (String.eqb_spec k "rotor_frequency") as [->|]; [now left|]. right. now apply IH. }
  destruct (filter _ (map fst kw)) as [|k0 kr]; [destruct I|]. rewrite KR in CR. destruct (existsb _ _ && same_text _ _) eqn:T; [|discriminate]. apply andb_true_iff in T. destruct T as [_ T].
  destruct v; try discriminate T. unfold same_text in T. apply andb_true_iff in T. destruct T as [T1 T2]. apply String.eqb_eq in T2. apply Qc_eqb_iff in T1. subst. destruct S as [S|S]; [discriminate|].
  inversion S; subst; [|assumption]. match goal with U1 : unit_info "Hz" = Some (_, ?a), U2 : unit_info "Hz" = Some (_, ?b), Q : (_ = _)%Qc |- _ => cbn in U1, U2; injection U1 as <- <-; injection U2 as <-; rewrite !Qcmult_1_r in Q; exact Q end.
Qed.
(** The two-dimensional classes read the values of the dict, and know no other rotor frequency. *)
Lemma expand_read d ds d' ol : dict_lookup d "spectral_dimensions" = Some (JList ds) -> expand d = Ok d' -> list_parse parse_dim d' "spectral_dimensions" = Ok ol ->
  exists l, ol = Some l /\ Forall2 (read_dims d) ds l.
Proof.
  intros L E E0. unfold expand in E. rewrite L in E. cbn [as_list bind] in E. inv E. injection E as <-. unfold list_parse in E0. rewrite pop_all in E0.
  assert (X : existsb (String.eqb "spectral_dimensions") (map fst (globals_of d)) = false).
  { apply not_true_iff_false. intros X. apply existsb_exists in X. destruct X as (z & Z1 & Z2). apply String.eqb_eq in Z2. subst z.
    assert (N : dict_lookup (globals_of d) "spectral_dimensions" = None) by (apply lookup_globals_other; cbn; intuition discriminate). apply lookup_none in N. contradiction. }
  rewrite X, lookup_set in E0. cbn [String.eqb Ascii.eqb Bool.eqb] in E0. inv E0. injection E0 as <-. exists a0. split; [reflexivity|]. apply mapM_F2 in E1. apply mapM_F2 in E.
  clear - E1 E. revert a0 E. induction E1 as [|v w ds ws Hv E1 IH]; intros l E; inversion E as [|? y ? r Y1 Y2]; subst; constructor; [|now apply IH].
  destruct (expanded_dim _ _ _ Hv) as (dim & ev & l' & -> & LE & FE & ->). exists dim, (match ev with Some y => y | None => [JDict []] end). split; [reflexivity|]. split; [destruct ev; auto|].
  apply parsed_dim in Y1. rewrite lookup_set, String.eqb_refl in Y1. clear - FE Y1. revert Y1. generalize (events y). induction FE as [|w w' l l' (d0 & -> & ->) F IH]; intros es Y1; inversion Y1 as [|? e ? er (d1 & D1 & PE) Z]; subst; constructor; [|now apply IH].
  injection D1 as <-. eauto.
Qed.
Lemma read_fixed cls d m ds : In cls fixed_2D -> parse_named cls d = Ok m -> gives_no_events d -> dict_lookup d "spectral_dimensions" = Some (JList ds) ->
  one_event (fun e => fraction e = 1%Qc /\ read_with d e /\ stated d "rotor_frequency" "Hz" 0 (rotor_frequency e)) m.
Proof.
  intros HC H NG LV. assert (T : template_of cls = None) by (cbn in HC; repeat (destruct HC as [<-|HC]; [reflexivity|]); destruct HC). unfold parse_named in H. rewrite T, LV in H.
  inv H. inv H. inv H. unfold new_objects in H. destruct (negb _); [discriminate|]. inv H. destruct (make_method_inv _ _ _ E2) as (MD & _). destruct (expand_read d ds a a0 LV E E0) as (l & -> & F).
  assert (LF : forall k, In k ["fraction"; "magnetic_flux_density"; "rotor_frequency"; "rotor_angle"] -> dict_lookup (fill_event (globals_of d) []) k = if String.eqb k "fraction" then None else dict_lookup d k).
  { intros k HK. unfold globals_of, list_g. cbn [fold_left]. destruct (dict_lookup d "magnetic_flux_density") eqn:D1, (dict_lookup d "rotor_frequency") eqn:D2, (dict_lookup d "rotor_angle") eqn:D3;
    cbn in HK; repeat (destruct HK as [<-|HK]; [rewrite ?D1, ?D2, ?D3; reflexivity|]); destruct HK. }
  set (P := fun e => (fraction e, magnetic_flux_density e, rotor_angle e, rotor_frequency e)).
  assert (F1 : Forall (fun x => exists e, events x = [e] /\ fraction e = 1%Qc /\ read_with d e /\ stated d "rotor_frequency" "Hz" 0 (rotor_frequency e)) (dims a2)).
  { rewrite MD. specialize (NG ds LV). clear - F NG LF. induction F as [|v x ds l (dim & evs & -> & EV & FE) F IH]; [constructor|]. constructor; [|apply IH; intros dm Hd; apply NG; now right].
    rewrite (NG dim (or_introl eq_refl)) in EV. destruct EV as [[_ ->]|EV]; [|discriminate]. inversion FE as [|? e ? er (ev & D1 & PE) Z]; subst. injection D1 as <-. inversion Z; subst. exists e. split; [reflexivity|].
    destruct (parsed_numbers _ _ PE) as (P1 & P2 & P3 & P4). unfold read_with, given, stated in *. rewrite LF in P1, P2, P3, P4 by (cbn; tauto). cbn [String.eqb Ascii.eqb Bool.eqb] in *. auto. }
  pose proof (update_same _ _ _ H) as S. unfold one_event. clear - S F1. induction S as [|x y l r S F IH]; [constructor|]. inversion F1 as [|? ? (e & EX & A & B & C) H2]; subst. constructor; [|auto].
  unfold same_numbers in S. rewrite EX in S. destruct (events y) as [|e' [|]]; try discriminate S. injection S as S1 S2 S3 S4. exists e'. split; [reflexivity|]. unfold read_with in *. rewrite <- S1, <- S2, <- S3, <- S4. auto.
Qed.
