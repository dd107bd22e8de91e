(** Proofs: reading gives the same object for the same amounts in other units. *)
From Coq Require Import ZArith QArith Qcanon Bool Ascii String List.
From Verif Require Import Base SitesModel SitesSpec SitesProofs JsonModel JsonSpec JsonProofs.
Import ListNotations.
Open Scope string_scope.
Open Scope list_scope.

Definition erel (x y : string * jval) : Prop := fst x = fst y /\ (opaque_key (fst x) = true -> snd x = snd y) /\ same_amount (snd x) (snd y).
Definition drel (d e : jdict) : Prop := Forall2 erel d e.
Lemma same_cases v w : same_amount v w -> v = w \/ (exists q u q' u', v = JQty q u /\ w = JQty q' u') \/
  (exists l l', v = JList l /\ w = JList l' /\ Forall2 same_amount l l') \/ (exists d d', v = JDict d /\ w = JDict d' /\ drel d d').
Proof.
  intros H. destruct H.
  - right. left. eauto 6.
  - now left.
  - right. right. left. eauto.
  - right. right. right. eauto.
Qed.
Lemma drel_refl d : drel d d.
Proof. unfold drel. induction d; constructor; [|assumption]. split; [reflexivity|]. split; [auto|apply same_refl]. Qed.
Lemma same_all l : Forall2 same_amount l l.
Proof. induction l; constructor; [apply same_refl|assumption]. Qed.

Definition orel (k : string) (a b : option jval) : Prop :=
  match a, b with Some v, Some w => (opaque_key k = true -> v = w) /\ same_amount v w | None, None => True | _, _ => False end.
Lemma lookup_rel d e k : drel d e -> orel k (dict_lookup d k) (dict_lookup e k).
Proof.
  intros H. induction H as [|[p v] [p' w] d e (E & O & A) H IH]; [exact I|]. cbn [fst snd] in *. subst p'. rewrite !lookup_cons.
  destruct (String.eqb_spec p k) as [->|]; [|exact IH]. split; assumption.
Qed.
Lemma lookup_opaque d e k : drel d e -> opaque_key k = true -> dict_lookup d k = dict_lookup e k.
Proof.
  intros H O. pose proof (lookup_rel d e k H) as L. destruct (dict_lookup d k), (dict_lookup e k); cbn in L; try contradiction; [|reflexivity]. f_equal. now apply L.
Qed.
Lemma has_rel d e k : drel d e -> has_key d k = has_key e k.
Proof. intros H. unfold has_key. pose proof (lookup_rel d e k H) as L. now destruct (dict_lookup d k), (dict_lookup e k). Qed.
Lemma set_rel d e k v w : drel d e -> (opaque_key k = true -> v = w) -> same_amount v w -> drel (dict_set d k v) (dict_set e k w).
Proof.
  intros H O A. unfold drel in *. induction H as [|[p x] [p' y] d e (E & O' & A') H IH]; cbn [dict_set].
  - constructor; [repeat split; assumption|constructor].
  - cbn [fst snd] in *. subst p'. destruct (String.eqb_spec p k) as [->|]; constructor; try assumption; repeat split; assumption.
Qed.
Lemma pop_rel d e k : drel d e -> drel (dict_pop d k) (dict_pop e k).
Proof.
  intros H. unfold drel, dict_pop in *. induction H as [|[p x] [p' y] d e (E & O' & A') H IH]; cbn [filter]; [constructor|]. cbn [fst snd] in *. subst p'.
  destruct (negb (String.eqb p k)); [|exact IH]. constructor; [repeat split; assumption|exact IH].
Qed.
Lemma pops_rel ks : forall d e, drel d e -> drel (fold_left dict_pop ks d) (fold_left dict_pop ks e).
Proof. induction ks as [|k ks IH]; intros d e H; [exact H|]. cbn [fold_left]. apply IH. now apply pop_rel. Qed.

(** ** Quantities *)
Lemma enforce_rel v w ty u : same_amount v w -> enforce_units v ty u = enforce_units w ty u.
Proof.
  Local Transparent enforce_units.
  intros H. destruct H as [q x q' x' t s s' H1 H2 H3| | |]; try reflexivity. unfold enforce_units. rewrite H1, H2. destruct (unit_info u) as [[t' s0]|]; [|reflexivity].
  destruct (String.eqb ty t && String.eqb t t'); [|reflexivity]. now rewrite H3.
Qed.
Lemma first_fit_rel v w o : same_amount v w -> first_fit v o = first_fit w o.
Proof. intros H. induction o as [|[ty u] o IH]; [reflexivity|]. cbn [first_fit]. rewrite (enforce_rel v w ty u H), IH. reflexivity. Qed.
Definition prel (x y : pyres (jdict * units)) : Prop :=
  match x, y with Ok (d, p), Ok (e, q) => drel d e /\ p = q | Err a, Err b => a = b | _, _ => False end.
Lemma step_rel x d e pu : drel d e -> prel (step x (d, pu)) (step x (e, pu)).
Proof.
  intros H. destruct x as [p sp]. unfold step. pose proof (lookup_rel d e p H) as L. destruct (dict_lookup d p) as [v|], (dict_lookup e p) as [w|]; cbn in L; try contradiction; [|cbn; auto].
  destruct L as [_ A]. destruct sp as [ty u|o].
  - rewrite (enforce_rel v w ty u A). destruct (enforce_units w ty u); [|reflexivity]. split; [|reflexivity]. apply set_rel; auto. apply same_refl.
  - rewrite (first_fit_rel v w o A). destruct (first_fit w o) as [[q u]|]; [|reflexivity]. split; [|reflexivity]. apply set_rel; auto. apply same_refl.
Qed.
Lemma parse_units_rel t d e : drel d e -> prel (parse_units t d) (parse_units t e).
Proof.
  intros H. rewrite !parse_units_step. generalize (default_units t). revert d e H. induction t as [|x t IH]; intros d e H pu; cbn [for_each]; [cbn; auto|].
  pose proof (step_rel x d e pu H) as S. destruct (step x (d, pu)) as [[d1 p1]|], (step x (e, pu)) as [[e1 q1]|]; cbn in S; try contradiction; [|now subst]. destruct S as [S ->].
  cbn [bind]. now apply IH.
Qed.
Lemma after_units A (make : jdict -> units -> pyres A) t d e : drel d e -> (forall x y pu, drel x y -> make x pu = make y pu) ->
  (let* (d, pu) := parse_units t d in let* _ := no_units_key d in make d pu) = (let* (e, pu) := parse_units t e in let* _ := no_units_key e in make e pu).
Proof.
  intros H M. pose proof (parse_units_rel t d e H) as P. destruct (parse_units t d) as [[d1 p1]|], (parse_units t e) as [[e1 q1]|]; cbn in P; try contradiction; [|now subst].
  destruct P as [P ->]. cbn [bind]. unfold no_units_key. rewrite (has_rel d1 e1 _ P). now rewrite (M d1 e1 q1 P).
Qed.

(** ** Readers of attributes *)
Ltac look H k := let L := fresh "L" in pose proof (lookup_rel _ _ k H) as L;
  match type of L with orel _ ?a ?b => destruct a as [?v|], b as [?w|] end; cbn in L; try contradiction; try reflexivity.
Ltac shallow A := apply same_cases in A; destruct A as [->|[(? & ? & ? & ? & -> & ->)|[(? & ? & -> & -> & ?)|(? & ? & -> & -> & ?)]]]; try reflexivity.
Lemma opt_num_rel d e k valid : drel d e -> opt_num d k valid = opt_num e k valid.
Proof. intros H. unfold opt_num. look H k. destruct L as [_ A]. shallow A. Qed.
Lemma def_num_rel d e k x valid : drel d e -> def_num d k x valid = def_num e k x valid.
Proof. intros H. unfold def_num. look H k. destruct L as [_ A]. shallow A. Qed.
Lemma def_int_rel d e k x valid : drel d e -> def_int d k x valid = def_int e k x valid.
Proof. intros H. unfold def_int. look H k. destruct L as [_ A]. shallow A. Qed.
Lemma opt_str_rel d e k : drel d e -> opt_str d k = opt_str e k.
Proof. intros H. unfold opt_str. look H k. destruct L as [_ A]. shallow A. Qed.
Lemma mapM_rel A (f : jval -> pyres A) l l' : Forall2 same_amount l l' -> (forall v w, same_amount v w -> f v = f w) -> mapM f l = mapM f l'.
Proof. intros H F. induction H as [|v w l l' A1 H IH]; [reflexivity|]. cbn [mapM]. now rewrite (F v w A1), IH. Qed.
Lemma opt_parse_rel A (parse : jdict -> pyres A) d e k : drel d e -> (forall x y, drel x y -> parse x = parse y) -> opt_parse parse d k = opt_parse parse e k.
Proof. intros H F. unfold opt_parse. look H k. destruct L as [_ B]. shallow B. now rewrite (F _ _ H0). Qed.
Lemma list_parse_rel A (parse : jdict -> pyres A) d e k : drel d e -> (forall x y, drel x y -> parse x = parse y) -> list_parse parse d k = list_parse parse e k.
Proof.
  intros H F. unfold list_parse. look H k. destruct L as [_ B]. shallow B.
  erewrite mapM_rel; [reflexivity|eassumption|]. intros v w B. shallow B. now apply F.
Qed.

(** ** Objects *)
Lemma make_sym_rel x y pu : drel x y -> make_sym x pu = make_sym y pu.
Proof. intros H. unfold make_sym. now rewrite !(opt_num_rel x y _ _ H). Qed.
Lemma make_anti_rel x y pu : drel x y -> make_anti x pu = make_anti y pu.
Proof. intros H. unfold make_anti. now rewrite !(opt_num_rel x y _ _ H). Qed.
Lemma parse_sym_rel x y : drel x y -> parse_sym x = parse_sym y.
Proof. intros H. unfold parse_sym. apply (after_units _ make_sym); [exact H|apply make_sym_rel]. Qed.
Lemma parse_anti_rel x y : drel x y -> parse_anti x = parse_anti y.
Proof. intros H. unfold parse_anti. apply (after_units _ make_anti); [exact H|apply make_anti_rel]. Qed.
Lemma make_site_rel ss sa qd x y pu : drel x y -> make_site x ss sa qd pu = make_site y ss sa qd pu.
Proof.
  intros H. unfold make_site. rewrite !(opt_str_rel x y _ H), !(def_num_rel x y _ _ _ H).
  assert (E : (match dict_lookup x "isotope" with None => format_isotope_string "1H" | Some (JStr s) => format_isotope_string s | Some _ => Err ValueError end) =
    (match dict_lookup y "isotope" with None => format_isotope_string "1H" | Some (JStr s) => format_isotope_string s | Some _ => Err ValueError end)).
  { look H "isotope". destruct L as [_ A]. shallow A. }
  now rewrite E.
Qed.
Lemma parse_site_rel x y : drel x y -> parse_site x = parse_site y.
Proof.
  intros H. unfold parse_site. rewrite !(opt_parse_rel _ parse_sym x y _ H parse_sym_rel), !(opt_parse_rel _ parse_anti x y _ H parse_anti_rel).
  destruct (opt_parse parse_sym y "shielding_symmetric"); [|reflexivity]. cbn [bind]. destruct (opt_parse parse_anti y "shielding_antisymmetric"); [|reflexivity]. cbn [bind].
  destruct (opt_parse parse_sym y "quadrupolar"); [|reflexivity]. cbn [bind]. apply (after_units _ (fun d pu => make_site d _ _ _ pu)); [exact H|apply make_site_rel].
Qed.
Lemma make_coupling_rel js ja dp x y pu : drel x y -> make_coupling x js ja dp pu = make_coupling y js ja dp pu.
Proof.
  intros H. unfold make_coupling. rewrite !(opt_str_rel x y _ H), !(def_num_rel x y _ _ _ H).
  assert (E : (match dict_lookup x "site_index" with None => Err ValueError | Some v => int_list v end) = (match dict_lookup y "site_index" with None => Err ValueError | Some v => int_list v end)).
  { look H "site_index". destruct L as [_ A]. shallow A. unfold int_list. erewrite mapM_rel; [reflexivity|eassumption|]. intros v w B. shallow B. }
  now rewrite E.
Qed.
Lemma parse_coupling_rel x y : drel x y -> parse_coupling x = parse_coupling y.
Proof.
  intros H. unfold parse_coupling. rewrite !(opt_parse_rel _ parse_sym x y _ H parse_sym_rel), !(opt_parse_rel _ parse_anti x y _ H parse_anti_rel).
  destruct (opt_parse parse_sym y "j_symmetric") as [js|]; [|reflexivity]. cbn [bind]. destruct (match js with Some t => not_ppm (sym_units t) | None => Ok tt end); [|reflexivity]. cbn [bind].
  destruct (opt_parse parse_anti y "j_antisymmetric") as [ja|]; [|reflexivity]. cbn [bind]. destruct (match ja with Some t => not_ppm (anti_units t) | None => Ok tt end); [|reflexivity]. cbn [bind].
  destruct (opt_parse parse_sym y "dipolar"); [|reflexivity]. cbn [bind]. apply (after_units _ (fun d pu => make_coupling d _ _ _ pu)); [exact H|apply make_coupling_rel].
Qed.
Lemma make_system_rel ss cs x y pu : drel x y -> make_system x ss cs pu = make_system y ss cs pu.
Proof.
  intros H. unfold make_system. rewrite !(opt_str_rel x y _ H), !(def_num_rel x y _ _ _ H).
  assert (E : (match dict_lookup x "transition_pathways" with
              | None | Some JNone => Ok None
              | Some (JList l) => let* r := mapM (fun x => match x with JPath p => Ok p | _ => Err ValueError end) l in Ok (Some r)
              | Some _ => Err ValueError
              end) = (match dict_lookup y "transition_pathways" with
              | None | Some JNone => Ok None
              | Some (JList l) => let* r := mapM (fun x => match x with JPath p => Ok p | _ => Err ValueError end) l in Ok (Some r)
              | Some _ => Err ValueError
              end)).
  { look H "transition_pathways". destruct L as [_ A]. shallow A. erewrite mapM_rel; [reflexivity|eassumption|]. intros v w B. shallow B. }
  now rewrite E.
Qed.
Lemma parse_system_rel x y : drel x y -> parse_system x = parse_system y.
Proof.
  intros H. unfold parse_system. rewrite (list_parse_rel _ parse_site x y _ H parse_site_rel), (list_parse_rel _ parse_coupling x y _ H parse_coupling_rel).
  destruct (list_parse parse_site y "sites"); [|reflexivity]. cbn [bind]. destruct (list_parse parse_coupling y "couplings"); [|reflexivity]. cbn [bind].
  apply (after_units _ (fun d pu => make_system d _ _ pu)); [exact H|apply make_system_rel].
Qed.
Lemma make_event_rel x y pu : drel x y -> make_event x pu = make_event y pu.
Proof.
  intros H. unfold make_event. rewrite !(def_num_rel x y _ _ _ H). rewrite (lookup_opaque x y "transition_query" H eq_refl).
  match goal with |- context [match dict_lookup x "freq_contrib" with None => _ | Some _ => _ end] => idtac end.
  assert (E : forall (f : jval -> pyres string), (forall v w, same_amount v w -> f v = f w) ->
    (match dict_lookup x "freq_contrib" with None => Ok freq_list_all | Some (JList l) => mapM f l | Some _ => Err ValueError end) =
    (match dict_lookup y "freq_contrib" with None => Ok freq_list_all | Some (JList l) => mapM f l | Some _ => Err ValueError end)).
  { intros f F. look H "freq_contrib". destruct L as [_ A]. shallow A. now apply mapM_rel. }
  rewrite E; [reflexivity|]. intros v w B. shallow B.
Qed.
Lemma parse_event_rel x y : drel x y -> parse_event x = parse_event y.
Proof. intros H. unfold parse_event. apply (after_units _ make_event); [exact H|apply make_event_rel]. Qed.
Lemma make_dim_rel ev x y pu : drel x y -> make_dim x ev pu = make_dim y ev pu.
Proof. intros H. unfold make_dim. now rewrite !(def_int_rel x y _ _ _ H), !(def_num_rel x y _ _ _ H), !(opt_num_rel x y _ _ H), !(opt_str_rel x y _ H). Qed.
Lemma parse_dim_rel x y : drel x y -> parse_dim x = parse_dim y.
Proof.
  intros H. unfold parse_dim. rewrite (list_parse_rel _ parse_event x y _ H parse_event_rel). destruct (list_parse parse_event y "events"); [|reflexivity]. cbn [bind].
  apply (after_units _ (fun d pu => make_dim d _ pu)); [exact H|apply make_dim_rel].
Qed.

(** ** Methods *)
Lemma globals_rel x y : drel x y -> drel (globals_of x) (globals_of y).
Proof.
  intros H. unfold globals_of. generalize (drel_refl []). generalize (@nil (string * jval)) at 1 3 as a. generalize (@nil (string * jval)) as b.
  induction list_g as [|k ks IH]; intros b a B; [exact B|]. cbn [fold_left]. apply IH.
  pose proof (lookup_rel x y k H) as L. destruct (dict_lookup x k), (dict_lookup y k); cbn in L; try contradiction; [|exact B]. apply set_rel; tauto.
Qed.
Lemma fill_rel g h x y : drel g h -> drel x y -> drel (fill_event g x) (fill_event h y).
Proof.
  intros G H. unfold fill_event. assert (B : drel x y) by exact H. revert B. generalize x at 1 3 as a. generalize y at 1 3 as b.
  induction G as [|[p v] [p' w] g h (E & O & A) G IH]; intros b a B; [exact B|]. cbn [fold_left]. apply IH. cbn [fst snd] in *. subst p'. rewrite (has_rel x y p H).
  destruct (has_key y p); [exact B|]. now apply set_rel.
Qed.
Definition vrel (x y : pyres jval) : Prop := match x, y with Ok v, Ok w => same_amount v w | Err a, Err b => a = b | _, _ => False end.
Definition lrel (x y : pyres (list jval)) : Prop := match x, y with Ok v, Ok w => Forall2 same_amount v w | Err a, Err b => a = b | _, _ => False end.
Lemma mapM_vrel (f g : jval -> pyres jval) l l' : Forall2 same_amount l l' -> (forall v w, same_amount v w -> vrel (f v) (g w)) -> lrel (mapM f l) (mapM g l').
Proof.
  intros H F. induction H as [|v w l l' A H IH]; cbn [mapM]; [constructor|]. pose proof (F v w A) as X. destruct (f v), (g w); cbn in X; try contradiction; [|now subst].
  cbn [bind]. destruct (mapM f l), (mapM g l'); cbn in IH; try contradiction; [|now subst]. cbn [bind]. constructor; assumption.
Qed.
Lemma as_dict_rel v w : same_amount v w -> match as_dict v, as_dict w with Ok d, Ok e => drel d e | Err a, Err b => a = b | _, _ => False end.
Proof. intros A. apply same_cases in A. destruct A as [->|[(? & ? & ? & ? & -> & ->)|[(? & ? & -> & -> & ?)|(? & ? & -> & -> & ?)]]]; cbn; auto. destruct w; cbn; auto using drel_refl. Qed.
Lemma as_list_rel v w : same_amount v w -> lrel (as_list v) (as_list w).
Proof. intros A. apply same_cases in A. destruct A as [->|[(? & ? & ? & ? & -> & ->)|[(? & ? & -> & -> & ?)|(? & ? & -> & -> & ?)]]]; cbn; auto. destruct w; cbn; auto using same_all. Qed.
Lemma expand_dim_rel g h v w : drel g h -> same_amount v w -> vrel (expand_dim g v) (expand_dim h w).
Proof.
  intros G A. unfold expand_dim. pose proof (as_dict_rel v w A) as X. destruct (as_dict v) as [d|], (as_dict w) as [d1|]; cbn in X; try contradiction; [|now subst]. cbn [bind].
  assert (S : same_amount (match dict_lookup d "events" with Some x => x | None => JList [JDict []] end) (match dict_lookup d1 "events" with Some x => x | None => JList [JDict []] end)).
  { pose proof (lookup_rel d d1 "events" X) as L. destruct (dict_lookup d "events"), (dict_lookup d1 "events"); cbn in L; try contradiction; [apply L|apply same_refl]. }
  pose proof (as_list_rel _ _ S) as Y. clear S. destruct (as_list _) as [l|], (as_list _) as [l'|]; cbn in Y; try contradiction; [|now subst]. cbn [bind].
  assert (M : lrel (mapM (fun x => let* ev := as_dict x in Ok (JDict (fill_event g ev))) l) (mapM (fun x => let* ev := as_dict x in Ok (JDict (fill_event h ev))) l')).
  { apply mapM_vrel; [exact Y|]. intros a b B. pose proof (as_dict_rel a b B) as Z. destruct (as_dict a), (as_dict b); cbn in Z; try contradiction; [|now subst]. cbn. apply same_dict.
    now apply fill_rel. }
  destruct (mapM _ l) as [r|], (mapM _ l') as [r'|]; cbn in M; try contradiction; [|now subst]. cbn. apply same_dict. apply set_rel; [exact X|discriminate|]. now apply same_list.
Qed.
Lemma glb_keys g h : drel g h -> map fst g = map fst h.
Proof. intros H. induction H as [|[p v] [p' w] g h (E & _) H IH]; [reflexivity|]. cbn in *. now f_equal. Qed.
Lemma expand_rel x y : drel x y -> match expand x, expand y with Ok d, Ok e => drel d e | Err a, Err b => a = b | _, _ => False end.
Proof.
  intros H. unfold expand. pose proof (lookup_rel x y "spectral_dimensions" H) as L. destruct (dict_lookup x "spectral_dimensions"), (dict_lookup y "spectral_dimensions"); cbn in L; try contradiction; [|reflexivity].
  destruct L as [_ A]. pose proof (as_list_rel _ _ A) as Y. destruct (as_list j) as [l|], (as_list j0) as [l'|]; cbn in Y; try contradiction; [|now subst]. cbn [bind].
  pose proof (globals_rel x y H) as G. pose proof (mapM_vrel (expand_dim (globals_of x)) (expand_dim (globals_of y)) l l' Y (fun v w => expand_dim_rel _ _ v w G)) as M.
  destruct (mapM _ l) as [r|], (mapM _ l') as [r'|]; cbn in M; try contradiction; [|now subst]. cbn [bind]. rewrite (glb_keys _ _ G). apply pops_rel. apply set_rel; [exact H|discriminate|]. now apply same_list.
Qed.
Lemma numbers_rel l l' : Forall2 same_amount l l' -> numbers l = numbers l'.
Proof. intros H. unfold numbers. apply mapM_rel; [exact H|]. intros v w B. shallow B. Qed.
Lemma as_array_rel v w : same_amount v w -> as_array v = as_array w.
Proof.
  intros A. shallow A. unfold as_array. rewrite (numbers_rel _ _ H). destruct (numbers x0); [reflexivity|].
  erewrite mapM_rel; [reflexivity|eassumption|]. intros v w B. shallow B. now apply numbers_rel.
Qed.
Lemma make_method_rel ds x y : drel x y -> make_method x ds = make_method y ds.
Proof.
  intros H. unfold make_method. rewrite !(opt_str_rel x y _ H).
  assert (C : (match dict_lookup x "channels" with None => Ok [] | Some (JList l) => mapM (fun x => match x with JStr s => format_isotope_string s | _ => Err ValueError end) l | Some _ => Err ValueError end) =
    (match dict_lookup y "channels" with None => Ok [] | Some (JList l) => mapM (fun x => match x with JStr s => format_isotope_string s | _ => Err ValueError end) l | Some _ => Err ValueError end)).
  { look H "channels". destruct L as [_ A]. shallow A. apply mapM_rel; [assumption|]. intros v w B. shallow B. }
  rewrite C. unfold opt_dict. rewrite (lookup_opaque x y "simulation" H eq_refl), (lookup_opaque x y "experiment" H eq_refl).
  assert (F : forall n, (match dict_lookup x "affine_matrix" with None | Some JNone => Ok None | Some v => let* m := as_array v in let* m := check_affine n m in Ok (Some m) end) =
    (match dict_lookup y "affine_matrix" with None | Some JNone => Ok None | Some v => let* m := as_array v in let* m := check_affine n m in Ok (Some m) end)).
  { intros n. look H "affine_matrix". destruct L as [_ A]. pose proof (as_array_rel _ _ A) as E. shallow A. rewrite E. reflexivity. }
  now rewrite F.
Qed.
Lemma parse_method_rel x y : drel x y -> parse_method x = parse_method y.
Proof.
  intros H. unfold parse_method. pose proof (expand_rel x y H) as X. pose proof (lookup_rel x y "spectral_dimensions" H) as L.
  destruct (dict_lookup x "spectral_dimensions"), (dict_lookup y "spectral_dimensions"); cbn in L; try contradiction.
  - destruct (expand x) as [d|], (expand y) as [d'|]; try contradiction; [|now subst]. cbn [bind].
    rewrite (list_parse_rel _ parse_dim d d' _ X parse_dim_rel). destruct (list_parse parse_dim d' "spectral_dimensions"); [|reflexivity]. cbn [bind].
    unfold no_units_key. rewrite (has_rel d d' _ X). now rewrite (make_method_rel _ d d' X).
  - unfold no_units_key. rewrite (has_rel x y _ H). now rewrite (make_method_rel _ x y H).
Qed.
Lemma make_config_rel x y : drel x y -> make_config x = make_config y.
Proof.
  intros H. unfold make_config. rewrite !(def_int_rel x y _ _ _ H).
  assert (E : forall k s a, def_literal x k s a = def_literal y k s a) by (intros k s a; unfold def_literal; look H k; destruct L as [_ A]; shallow A). now rewrite !E.
Qed.
Lemma parse_simulator_rel parse_named x y : (forall n x y, drel x y -> parse_named n x = parse_named n y) -> drel x y ->
  parse_simulator parse_named x = parse_simulator parse_named y.
Proof.
  intros P H. unfold parse_simulator. rewrite (list_parse_rel _ parse_system x y _ H parse_system_rel).
  rewrite (list_parse_rel _ (parse_any_method parse_named) x y _ H).
  - rewrite !(opt_str_rel x y _ H).
    assert (E : (match dict_lookup x "config" with None => make_config [] | Some (JDict c) => make_config c | Some _ => Err ValueError end) =
      (match dict_lookup y "config" with None => make_config [] | Some (JDict c) => make_config c | Some _ => Err ValueError end)).
    { look H "config". destruct L as [_ A]. shallow A. now apply make_config_rel. }
    now rewrite E.
  - intros a b B. unfold parse_any_method. look B "name". destruct L as [_ A]. shallow A; try now apply parse_method_rel.
    destruct w; try now apply parse_method_rel. destruct (existsb _ _); [now apply P|now apply parse_method_rel].
Qed.
