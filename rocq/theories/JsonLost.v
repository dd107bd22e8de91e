(** Proofs: what a method loses in a save and load cycle, and the amounts that are read. *)
From Coq Require Import ZArith QArith Qcanon Bool Ascii String Lia List.
From Verif Require Import Base SitesModel SitesSpec SitesProofs JsonModel JsonSpec JsonProofs JsonUnits.
Import ListNotations.
Open Scope string_scope.
Open Scope list_scope.

Ltac okeq H := match type of H with Ok ?x = Ok ?y => let Q := fresh in assert (Q : x = y) by congruence; clear H; subst y end.
Lemma mapM_inv A B (f : A -> pyres B) l r : mapM f l = Ok r -> Forall2 (fun x y => f x = Ok y) l r.
Proof.
  revert r. induction l as [|x l IH]; intros r H; cbn [mapM] in H; [injection H as <-; constructor|]. inv H. inv H. injection H as <-. constructor; auto.
Qed.
Lemma lookup_globals_other d k : ~ In k list_g -> dict_lookup (globals_of d) k = None.
Proof.
  intros N. unfold globals_of. assert (Z : dict_lookup (@nil (string * jval)) k = None) by reflexivity. revert Z. generalize (@nil (string * jval)) as g.
  induction list_g as [|j ks IH]; intros g Z; [exact Z|]. cbn [fold_left]. apply IH; [intros X; apply N; now right|].
  destruct (dict_lookup d j); [|exact Z]. rewrite lookup_set. destruct (String.eqb_spec j k) as [->|]; [|exact Z]. exfalso. apply N. now left.
Qed.
Lemma fill_other g ev k : dict_lookup g k = None -> dict_lookup (fill_event g ev) k = dict_lookup ev k.
Proof.
  unfold fill_event. generalize ev at 2 3 as e0. induction g as [|[p v] g IH]; intros e0 N; [reflexivity|]. cbn [fold_left fst snd]. rewrite lookup_cons in N.
  destruct (String.eqb_spec p k) as [->|NE]; [discriminate|]. rewrite IH by exact N. destruct (has_key ev p); [reflexivity|]. rewrite lookup_set. now destruct (String.eqb_spec p k).
Qed.
Definition read_dims (d : jdict) (v : jval) (x : dimension) : Prop := exists dim evs, v = JDict dim /\
  (dict_lookup dim "events" = None /\ evs = [JDict []] \/ dict_lookup dim "events" = Some (JList evs)) /\
  Forall2 (fun e y => exists ev, e = JDict ev /\ parse_event (fill_event (globals_of d) ev) = Ok y) evs (events x).
Lemma parse_method_inv d m ds : dict_lookup d "spectral_dimensions" = Some (JList ds) -> parse_method d = Ok m -> Forall2 (read_dims d) ds (dims m).
Proof.
  intros L H. unfold parse_method in H. rewrite L in H. inv H. inv H. inv H. unfold expand in E. rewrite L in E. cbn [as_list bind] in E. inv E. injection E as <-.
  unfold list_parse in E0. rewrite pop_all in E0.
  assert (X : existsb (String.eqb "spectral_dimensions") (map fst (globals_of d)) = false).
  { apply not_true_iff_false. intros X. apply existsb_exists in X. destruct X as (z & Z1 & Z2). apply String.eqb_eq in Z2. subst z.
    assert (N : dict_lookup (globals_of d) "spectral_dimensions" = None) by (apply lookup_globals_other; cbn; intuition discriminate). apply lookup_none in N. contradiction. }
  rewrite X, lookup_set in E0. cbn [String.eqb Ascii.eqb Bool.eqb] in E0. inv E0. injection E0 as <-.
  unfold make_method in H. do 7 inv H. injection H as <-. cbn [dims].
  apply mapM_inv in E2. apply mapM_inv in E. clear - E2 E. rename E into EE. rename E2 into E. rename EE into E2. match type of E2 with Forall2 _ _ ?r => revert r E2 end. induction E as [|v w ds ws Hv E IH]; intros l E2; inversion E2; subst; constructor; [|now apply IH].
  clear IH E2 E. unfold expand_dim in Hv. inv Hv. destruct v as [| | | | |dim|]; try discriminate. injection E as <-. inv Hv. inv Hv. injection Hv as <-.
  exists dim, a. split; [reflexivity|]. split.
  - destruct (dict_lookup dim "events") as [x|]; [|left; split; [reflexivity|now injection E as <-]]. right. destruct x; try discriminate. now injection E as <-.
  - cbn in H1. unfold parse_dim in H1. inv H1. inv H1. destruct a2 as [d1 pu]. inv H1. unfold make_dim in H1. do 6 inv H1. injection H1 as <-. cbn [events].
    unfold list_parse in E1. rewrite lookup_set in E1. cbn [String.eqb Ascii.eqb Bool.eqb] in E1. inv E1. injection E1 as <-.
    apply mapM_inv in E0. apply mapM_inv in E10. clear - E0 E10. match type of E10 with Forall2 _ _ ?r => revert r E10 end. induction E0 as [|e f evs fs He E0 IH]; intros r E10; inversion E10; subst; constructor; [|now apply IH].
    inv He. injection He as <-. destruct e; try discriminate. injection E as <-. eauto.
Qed.
Definition stripped (named : bool) (v : jval) : Prop := exists dim, v = JDict dim /\
  match dict_lookup dim "events" with
  | None => True
  | Some (JList l) => l <> [] /\ (named = true -> Forall (fun e => exists ev, e = JDict ev /\ dict_lookup ev "transition_query" = None) l)
  | Some _ => False
  end.
Lemma json_method_inv m d : json_method m = Ok d -> exists ds, dict_lookup d "spectral_dimensions" = Some (JList ds) /\ length ds = length (dims m) /\
  Forall (stripped (match m_name m with Some n => existsb (String.eqb n) NAMED_METHODS | None => false end)) ds.
Proof.
  unfold json_method. set (named := match m_name m with Some n => existsb (String.eqb n) NAMED_METHODS | None => false end).
  destruct (dims m) as [|dim0 rest] eqn:DM; [discriminate|]. destruct (events dim0) as [|ev0 evr]; [discriminate|].
  intros H. inv H. okeq H. exists a. split; [|split].
  - rewrite (lookup_filter _ _ (fun v => match v with JNone => false | _ => true end)); [reflexivity|reflexivity|]. unfold app. nd.
  - apply mapM_inv in E. symmetry. clear - E. induction E; cbn; auto.
  - apply mapM_inv in E. clear - E. induction E as [|x y l r Hx E IH]; constructor; [|exact IH]. clear IH E. inv Hx. injection Hx as <-. exists a. split; [reflexivity|].
    unfold strip_dim in E. destruct (dict_lookup (json_dim x) "events") as [[]|]; try discriminate. inv E. okeq E.
    match goal with |- context [if ?b then _ else _] => destruct b eqn:F end.
    + rewrite lookup_pop. cbn. exact I.
    + rewrite lookup_set. cbn [String.eqb Ascii.eqb Bool.eqb]. split; [destruct a0; discriminate|]. intros N. apply mapM_inv in E0. clear F. rewrite Forall_map. clear - E0 N.
      induction E0 as [|e f evs fs He E0 IH]; constructor; [|exact IH]. exists f. split; [reflexivity|]. destruct e; try discriminate. unfold strip_event in He. inv He. rewrite N in He.
      destruct (has_key a "transition_query"); [|discriminate]. injection He as <-. rewrite lookup_pop. reflexivity.
Qed.
Lemma come_back_events m d r : json_method m = Ok d -> parse_method d = Ok r -> length (dims r) = length (dims m) /\ Forall (fun x => events x <> []) (dims r).
Proof.
  intros J P. destruct (json_method_inv m d J) as (ds & L & N & S). pose proof (parse_method_inv d r ds L P) as R. split; [rewrite <- N; symmetry; clear - R; induction R; cbn; auto|].
  clear - R S. induction R as [|v x ds xs Hv R IH]; constructor; [|apply IH; now inversion S].
  inversion S as [|? ? (dim' & -> & S1) _]; subst. destruct Hv as (dim & evs & EV & C & F). injection EV as <-.
  assert (NE : evs <> []) by (destruct C as [[_ ->]|C]; [discriminate|]; rewrite C in S1; apply S1). inversion F; subst; [now elim NE|discriminate].
Qed.
Lemma event_default d y : dict_lookup d "transition_query" = None -> parse_event d = Ok y -> transition_query y = default_query.
Proof.
  intros L H. unfold parse_event in H. inv H. destruct a as [d1 pu]. inv H. destruct (parse_units_inv event_table d _ _ ltac:(nd) E) as (_ & _ & K).
  unfold make_event in H. do 6 inv H. injection H as <-. cbn [transition_query]. rewrite K in E6. cbn [dict_lookup find fst snd String.eqb Ascii.eqb Bool.eqb event_table] in E6.
  fold (dict_lookup d "transition_query") in E6. rewrite L in E6. congruence.
Qed.
Lemma named_default m d r n : m_name m = Some n -> In n NAMED_METHODS -> json_method m = Ok d -> parse_method d = Ok r ->
  Forall (fun x => Forall (fun e => transition_query e = default_query) (events x)) (dims r).
Proof.
  intros NM NI J P. destruct (json_method_inv m d J) as (ds & L & N & S). rewrite NM in S.
  assert (X : existsb (String.eqb n) NAMED_METHODS = true) by (apply existsb_exists; exists n; split; [exact NI|apply String.eqb_refl]). rewrite X in S.
  pose proof (parse_method_inv d r ds L P) as R.
  assert (G : dict_lookup (globals_of d) "transition_query" = None) by (apply lookup_globals_other; cbn; intuition discriminate).
  clear - R S G. induction R as [|v x ds xs Hv R IH]; constructor; [|apply IH; now inversion S].
  inversion S as [|? ? (dim' & -> & S1) _]; subst. destruct Hv as (dim & evs & EV & C & F). injection EV as <-.
  assert (Q : Forall (fun e => exists ev, e = JDict ev /\ dict_lookup ev "transition_query" = None) evs).
  { destruct C as [[_ ->]|C]; [repeat constructor; eexists; split; reflexivity|]. rewrite C in S1. now apply S1. }
  clear - F Q G. induction F as [|e y evs ys (ev & -> & He) F IH]; constructor; [|apply IH; now inversion Q]. inversion Q as [|? ? (ev' & E & N) _]; subst. injection E as <-.
  eapply event_default; [|exact He]. now rewrite fill_other.
Qed.
Lemma Forall2_in A B (R : A -> B -> Prop) l r x : Forall2 R l r -> In x l -> exists y, In y r /\ R x y.
Proof.
  intros H. induction H as [|a b l r Hab H IH]; [intros []|]. intros [->|Hx]; [exists b; split; [now left|exact Hab]|]. destruct (IH Hx) as (y & Hy & Hr). exists y. split; [now right|exact Hr].
Qed.
Lemma unnamed_json m d : m_name m = None -> json_method m = Ok d -> dict_lookup d "name" = None.
Proof.
  intros N H. unfold json_method in H. destruct (dims m); [discriminate|]. destruct (events d0); [discriminate|]. inv H. okeq H.
  rewrite (lookup_filter _ _ (fun v => match v with JNone => false | _ => true end)); [|reflexivity|unfold app; nd]. rewrite N. reflexivity.
Qed.
Lemma unnamed_simulator parse_named version s m d with_version : In m (methods s) -> m_name m = None -> json_simulator version s true with_version = Ok d ->
  exists e, parse_simulator parse_named d = Err e.
Proof.
  intros I N J. destruct (parse_simulator parse_named d) as [r|e] eqn:P; [|eauto]. exfalso. unfold json_simulator in J. inv J. okeq J.
  apply mapM_inv in E. destruct (Forall2_in _ _ _ _ _ m E I) as (v & V & HV). clear E. inv HV. injection HV as <-. pose proof (unnamed_json m a0 N E) as NN.
  unfold parse_simulator in P. inv P. inv P. clear P E0. unfold list_parse in E1.
  rewrite (lookup_filter _ _ (fun v => match v with JNone | JList [] => false | _ => true end)) in E1; [|reflexivity|nd].
  cbn [dict_lookup find fst snd String.eqb Ascii.eqb Bool.eqb] in E1. destruct a as [|v0 vr]; [destruct V|]. inv E1. apply mapM_inv in E0.
  destruct (Forall2_in _ _ _ _ _ _ E0 V) as (y & _ & Y). unfold parse_any_method in Y. rewrite NN in Y. discriminate.
Qed.

(** ** Amounts *)
Lemma enforce_amount v ty w x : enforce_units v ty w = Some x <-> exists q u s s', v = JQty q u /\ unit_info u = Some (ty, s) /\ unit_info w = Some (ty, s') /\ (x * s' = q * s)%Qc.
Proof.
  Local Transparent enforce_units. unfold enforce_units. split.
  - destruct v; try discriminate. destruct (unit_info u) as [[t s]|] eqn:U; [|discriminate]. destruct (unit_info w) as [[t' s']|] eqn:W; [|discriminate].
    destruct (String.eqb_spec ty t) as [->|]; [|discriminate]. destruct (String.eqb_spec t t') as [->|]; [|discriminate]. cbn [andb]. intros [= <-]. exists q, u, s, s'. repeat split; auto.
    pose proof (unit_size _ _ _ W). field. assumption.
  - intros (q & u & s & s' & -> & U & W & E). rewrite U, W, !String.eqb_refl. cbn [andb]. f_equal. rewrite <- E. pose proof (unit_size _ _ _ W). field. assumption.
Qed.
Lemma lookup_read t d k : dict_lookup (read_units t d) k =
  match dict_lookup t k with
  | Some sp => Some (match dict_lookup d k with Some v => match fit sp v with Some (_, u) => u | None => first_unit sp end | None => first_unit sp end)
  | None => None
  end.
Proof.
  unfold read_units. induction t as [|[p sp] t IH]; [reflexivity|]. cbn [map fst snd]. rewrite !lookup_cons. destruct (String.eqb_spec p k) as [->|]; [reflexivity|exact IH].
Qed.
Lemma fit_amount sp v x u : fit sp v = Some (x, u) -> exists ty, match sp with Single a b => a = ty /\ b = u | Multi o => In (ty, u) o end /\ amount x u ty v.
Proof.
  destruct sp as [a b|o]; cbn [fit].
  - destruct (enforce_units v a b) as [q|] eqn:E; [|discriminate]. intros [= -> ->]. exists a. split; [auto|]. now apply enforce_amount.
  - induction o as [|[a b] o IH]; [discriminate|]. cbn [first_fit]. destruct (enforce_units v a b) as [q|] eqn:E.
    + intros [= -> ->]. exists a. split; [now left|]. now apply enforce_amount.
    + intros H. destruct (IH H) as (ty & I & A). exists ty. split; [now right|exact A].
Qed.
Lemma read_amount t d d1 pu k sp v : NoDup (map fst t) -> parse_units t d = Ok (d1, pu) -> dict_lookup d k = Some v -> dict_lookup t k = Some sp ->
  exists x u ty, dict_lookup d1 k = Some (JNum x) /\ dict_lookup pu k = Some u /\ match sp with Single a b => a = ty /\ b = u | Multi o => In (ty, u) o end /\ amount x u ty v.
Proof.
  intros N P L T. destruct (parse_units_inv t d d1 pu N P) as (F & -> & K). specialize (K k). rewrite T, L in K. cbn [option_map] in K.
  assert (I : In (k, sp) t) by (clear - T; induction t as [|[p s] t IH]; [discriminate|]; rewrite lookup_cons in T; destruct (String.eqb_spec p k) as [->|]; [left; congruence|right; auto]).
  pose proof (F k sp v I L) as X. rewrite lookup_read, T, L. unfold read_value in K. destruct (fit sp v) as [[x u]|] eqn:E; [|congruence].
  destruct (fit_amount sp v x u E) as (ty & M & A). exists x, u, ty. auto.
Qed.
Lemma def_num_read d k x0 valid x q : dict_lookup d k = Some (JNum q) -> def_num d k x0 valid = Ok x -> x = q.
Proof. intros L. unfold def_num. rewrite L. destruct (valid q); congruence. Qed.
Lemma opt_num_read d k valid x q : dict_lookup d k = Some (JNum q) -> opt_num d k valid = Ok x -> x = Some q.
Proof. intros L. unfold opt_num. rewrite L. destruct (valid q); congruence. Qed.
Lemma site_amount d s v : parse_site d = Ok s -> dict_lookup d "isotropic_chemical_shift" = Some v -> amount (isotropic_chemical_shift s) "ppm" "dimensionless" v.
Proof.
  intros H L. unfold parse_site in H. do 4 inv H. destruct a2 as [d1 pu]. inv H. destruct (read_amount site_table d d1 pu _ _ v ltac:(nd) E2 L eq_refl) as (x & u & ty & K & _ & (<- & <-) & A).
  unfold make_site in H. do 6 inv H. injection H as <-. cbn [isotropic_chemical_shift]. now rewrite (def_num_read _ _ _ _ _ _ K E8).
Qed.
Lemma coupling_amount d s v : parse_coupling d = Ok s -> dict_lookup d "isotropic_j" = Some v -> amount (isotropic_j s) "Hz" "frequency" v.
Proof.
  intros H L. unfold parse_coupling in H. do 6 inv H. destruct a4 as [d1 pu]. inv H. destruct (read_amount coupling_table d d1 pu _ _ v ltac:(nd) E4 L eq_refl) as (x & u & ty & K & _ & (<- & <-) & A).
  unfold make_coupling in H. do 6 inv H. injection H as <-. cbn [isotropic_j]. match goal with X : def_num _ _ _ _ = Ok _ |- _ => now rewrite (def_num_read _ _ _ _ _ _ K X) end.
Qed.
Lemma system_amount d s v : parse_system d = Ok s -> dict_lookup d "abundance" = Some v -> amount (abundance s) "pct" "dimensionless" v.
Proof.
  intros H L. unfold parse_system in H. do 3 inv H. destruct a1 as [d1 pu]. inv H. destruct (read_amount system_table d d1 pu _ _ v ltac:(nd) E1 L eq_refl) as (x & u & ty & K & _ & (<- & <-) & A).
  unfold make_system in H. do 5 inv H. injection H as <-. cbn [abundance]. match goal with X : def_num _ _ _ _ = Ok _ |- _ => now rewrite (def_num_read _ _ _ _ _ _ K X) end.
Qed.
Lemma event_amount d e v : parse_event d = Ok e ->
  (dict_lookup d "magnetic_flux_density" = Some v -> amount (magnetic_flux_density e) "T" "magnetic flux density" v) /\
  (dict_lookup d "rotor_frequency" = Some v -> amount (rotor_frequency e) "Hz" "frequency" v) /\
  (dict_lookup d "rotor_angle" = Some v -> amount (rotor_angle e) "rad" "angle" v).
Proof.
  intros H. unfold parse_event in H. inv H. destruct a as [d1 pu]. inv H. unfold make_event in H. do 6 inv H. injection H as <-. cbn [magnetic_flux_density rotor_frequency rotor_angle].
  split; [|split]; intros L; destruct (read_amount event_table d d1 pu _ _ v ltac:(nd) E L eq_refl) as (x & u & ty & K & _ & (<- & <-) & A).
  - now rewrite (def_num_read _ _ _ _ _ _ K E2).
  - now rewrite (def_num_read _ _ _ _ _ _ K E3).
  - now rewrite (def_num_read _ _ _ _ _ _ K E4).
Qed.
Lemma sym_amount d t v : parse_sym d = Ok t ->
  (dict_lookup d "zeta" = Some v -> exists x u ty, zeta t = Some x /\ dict_lookup (sym_units t) "zeta" = Some u /\ (u = "ppm" /\ ty = "dimensionless" \/ u = "Hz" /\ ty = "frequency") /\ amount x u ty v) /\
  (dict_lookup d "Cq" = Some v -> exists x, Cq t = Some x /\ amount x "Hz" "frequency" v) /\
  (dict_lookup d "D" = Some v -> exists x, D t = Some x /\ amount x "Hz" "frequency" v) /\
  (dict_lookup d "alpha" = Some v -> exists x, alpha t = Some x /\ amount x "rad" "angle" v) /\
  (dict_lookup d "beta" = Some v -> exists x, beta t = Some x /\ amount x "rad" "angle" v) /\
  (dict_lookup d "gamma" = Some v -> exists x, gamma t = Some x /\ amount x "rad" "angle" v).
Proof.
  intros H. unfold parse_sym in H. inv H. destruct a as [d1 pu]. inv H. unfold make_sym in H. do 7 inv H. injection H as <-. cbn [zeta Cq D alpha beta gamma sym_units].
  repeat split; intros L; destruct (read_amount sym_table d d1 pu _ _ v ltac:(nd) E L eq_refl) as (x & u & ty & K & U & M & A); [|destruct M as (<- & <-); exists x; split; [|exact A]..].
  - exists x, u, ty. split; [exact (opt_num_read _ _ _ _ _ K E1)|]. split; [exact U|]. split; [|exact A]. destruct M as [M|[M|[]]]; injection M as <- <-; auto.
  - exact (opt_num_read _ _ _ _ _ K E2).
  - exact (opt_num_read _ _ _ _ _ K E3).
  - exact (opt_num_read _ _ _ _ _ K E5).
  - exact (opt_num_read _ _ _ _ _ K E6).
  - exact (opt_num_read _ _ _ _ _ K E7).
Qed.
Lemma dim_amount d s v : parse_dim d = Ok s ->
  (dict_lookup d "spectral_width" = Some v -> exists u ty, dict_lookup (d_units s) "spectral_width" = Some u /\ (u = "ppm" /\ ty = "dimensionless" \/ u = "Hz" /\ ty = "frequency") /\ amount (spectral_width s) u ty v) /\
  (dict_lookup d "reference_offset" = Some v -> exists u ty, dict_lookup (d_units s) "reference_offset" = Some u /\ (u = "ppm" /\ ty = "dimensionless" \/ u = "Hz" /\ ty = "frequency") /\ amount (reference_offset s) u ty v) /\
  (dict_lookup d "origin_offset" = Some v -> exists x u ty, origin_offset s = Some x /\ dict_lookup (d_units s) "origin_offset" = Some u /\ (u = "ppm" /\ ty = "dimensionless" \/ u = "Hz" /\ ty = "frequency") /\ amount x u ty v).
Proof.
  intros H. unfold parse_dim in H. do 2 inv H. destruct a0 as [d1 pu]. inv H. unfold make_dim in H. do 6 inv H. injection H as <-. cbn [spectral_width reference_offset origin_offset d_units].
  split; [|split]; intros L; destruct (read_amount dim_table d d1 pu _ _ v ltac:(nd) E0 L eq_refl) as (x & u & ty & K & U & M & A);
    assert (M' : u = "ppm" /\ ty = "dimensionless" \/ u = "Hz" /\ ty = "frequency") by (destruct M as [M|[M|[]]]; injection M as <- <-; auto).
  - exists u, ty. rewrite (def_num_read _ _ _ _ _ _ K E3). auto.
  - exists u, ty. rewrite (def_num_read _ _ _ _ _ _ K E4). auto.
  - exists x, u, ty. split; [exact (opt_num_read _ _ _ _ _ K E5)|]. auto.
Qed.
