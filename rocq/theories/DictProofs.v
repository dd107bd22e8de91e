(** Proofs about DictModel. *)
From Coq Require Import ZArith QArith Bool Ascii String Lia List.
From Verif Require Import Base SitesModel SitesSpec SitesProofs DictModel DictSpec.
Import ListNotations.
Open Scope string_scope.
Open Scope list_scope.

(** Induction over values. *)
Section PvInd.
  Variable P : pv -> Prop.
  Hypothesis HNone : P PNone.
  Hypothesis HInt : forall z, P (PInt z).
  Hypothesis HFloat : forall q, P (PFloat q).
  Hypothesis HStr : forall s, P (PStr s).
  Hypothesis HList : forall l, Forall P l -> P (PList l).
  Hypothesis HDict : forall d, Forall (fun kv => P (snd kv)) d -> P (PDict d).
  Fixpoint pv_ind' (v : pv) : P v :=
    match v with
    | PNone => HNone | PInt z => HInt z | PFloat q => HFloat q | PStr s => HStr s
    | PList l => HList l ((fix go l : Forall P l := match l with [] => Forall_nil _ | x :: r => Forall_cons _ (pv_ind' x) (go r) end) l)
    | PDict d => HDict d ((fix go d : Forall (fun kv => P (snd kv)) d :=
                             match d with [] => Forall_nil _ | (k, x) :: r => Forall_cons (k, x) (pv_ind' x) (go r) end) d)
    end.
End PvInd.

(** ** Dicts *)
Lemma set_same : forall A (d : list (string * A)) k v, dict_lookup d k = Some v -> dict_set d k v = d.
Proof.
  intros A; induction d as [|[k' v'] r IH]; intros k v H; [discriminate|]. rewrite lookup_cons in H. cbn [dict_set].
  destruct (String.eqb k' k); [now injection H as ->|]. now rewrite IH.
Qed.
Lemma lookup_remove : forall A (d : list (string * A)) k j, dict_lookup (dict_remove d k) j = if String.eqb j k then None else dict_lookup d j.
Proof.
  intros A; induction d as [|[k' v'] r IH]; intros k j; cbn [dict_remove filter fst].
  - cbn. now destruct (String.eqb j k).
  - rewrite lookup_cons. destruct (String.eqb_spec k' k) as [->|N]; cbn [negb].
    + fold (dict_remove r k). rewrite IH. destruct (String.eqb_spec j k) as [->|M]; [reflexivity|]. destruct (String.eqb_spec k j); congruence.
    + rewrite lookup_cons. fold (dict_remove r k). rewrite IH. destruct (String.eqb_spec k' j) as [->|M]; [|reflexivity]. destruct (String.eqb_spec j k); congruence.
Qed.
Lemma lookup_update_last : forall A (e d : list (string * A)) j,
  dict_lookup (dict_update d e) j = match dict_lookup (rev e) j with Some v => Some v | None => dict_lookup d j end.
Proof.
  intros A e d j. unfold dict_update. revert d. induction e as [|[k v] e IH] using rev_ind; intros d; [reflexivity|].
  rewrite fold_left_app, rev_app_distr. cbn [fold_left rev app fst snd]. rewrite lookup_set, lookup_cons. destruct (String.eqb k j); [reflexivity|apply IH].
Qed.
Lemma member_in : forall k l, member k l = true <-> In k l.
Proof. intros k l. unfold member. rewrite existsb_exists. split; [intros (x & H & E); apply String.eqb_eq in E; now subst|intros H; exists k; now rewrite String.eqb_refl]. Qed.
Lemma lookup_none : forall A (d : list (string * A)) k, dict_lookup d k = None <-> ~ In k (map fst d).
Proof.
  intros A; induction d as [|[k' v'] r IH]; intros k; [cbn; tauto|]. rewrite lookup_cons. cbn [map fst In].
  destruct (String.eqb_spec k' k) as [->|N]; [split; [discriminate|tauto]|]. rewrite IH. tauto.
Qed.

(** ** C41 *)
Lemma mapM_symbols : forall l, Forall is_isotope l -> mapM symbol_of l = Ok (map the_symbol l).
Proof.
  induction 1 as [|x l (d & s & -> & E) H IH]; [reflexivity|]. cbn [mapM map]. unfold symbol_of at 1, getitem. rewrite E. cbn [bind].
  rewrite IH. cbn [bind the_symbol]. now rewrite E.
Qed.
Lemma no_dicts_clean : forall ex v, no_dicts v -> clean ex v = v.
Proof.
  intros ex v; induction v as [| | | |l IH|d IH] using pv_ind'; intros H; cbn [clean]; try reflexivity; [|destruct H].
  f_equal. cbn [no_dicts] in H. induction IH as [|x r Hx Hr IHr]; [reflexivity|]. destruct H as [H1 H2]. cbn [map]. now rewrite Hx, IHr.
Qed.
(** The entries a dict keeps, with the values they get. *)
Definition keep (exclude nested : list string) (kv : string * pv) : list (string * pv) :=
  if (existsb (String.eqb (fst kv)) exclude || match snd kv with PNone => true | _ => false end)%bool then []
  else if String.eqb (fst kv) "isotope" then [(fst kv, the_symbol (snd kv))]
  else if String.eqb (fst kv) "channels" then [(fst kv, match snd kv with PList l => PList (map the_symbol l) | x => x end)]
  else [(fst kv, clean nested (snd kv))].
Lemma keep_keys : forall ex ne d k, In k (map fst (flat_map (keep ex ne) d)) -> In k (map fst d).
Proof.
  intros ex ne d k H. apply in_map_iff in H. destruct H as ([k' v] & <- & H). apply in_flat_map in H. destruct H as ([j x] & H & K).
  unfold keep in K. cbn [fst snd] in K. apply in_map_iff. exists (j, x). split; [|exact H].
  destruct (_ || _); [destruct K|]. destruct (String.eqb j "isotope"); [|destruct (String.eqb j "channels")]; destruct K as [K|[]]; now injection K as <- _.
Qed.
(** The loops of [reduce_value]. *)
Definition PU : list string := ["property_units"].
Fixpoint reduce_elems (l : list pv) : pyres (list pv) :=
  match l with
  | [] => Ok []
  | z :: t => let* z' := (match z with PDict _ => reduce_value PU z | _ => Ok z end) in let* t' := reduce_elems t in Ok (z' :: t')
  end.
Fixpoint reduce_entries (exclude : list string) (d : dict) (obj : dict) : pyres pv :=
  match d with
  | [] => Ok (PDict obj)
  | (k, x) :: r =>
      if member k exclude || match x with PNone => true | _ => false end then reduce_entries exclude r obj
      else if String.eqb k "isotope" then (let* s := symbol_of x in reduce_entries exclude r (dict_set obj k s))
      else if String.eqb k "channels" then (let* l := as_list x in let* s := mapM symbol_of l in reduce_entries exclude r (dict_set obj k (PList s)))
      else match x with
           | PDict _ => let* y := reduce_value PU x in reduce_entries exclude r (dict_set obj k y)
           | PList l => let* y := reduce_elems l in reduce_entries exclude r (dict_set obj k (PList y))
           | _ => reduce_entries exclude r (dict_set obj k x)
           end
  end.
Lemma reduce_unfold : forall exclude d, reduce_value exclude (PDict d) = reduce_entries exclude d [].
Proof.
  intros exclude d. cbn [reduce_value]. generalize (@nil (string * pv)). induction d as [|[k x] r IH]; intros obj; [reflexivity|]. cbn [reduce_entries].
  destruct (member k exclude || _); [apply IH|]. destruct (String.eqb k "isotope").
  { destruct (symbol_of x); cbn [bind]; [apply IH|reflexivity]. }
  destruct (String.eqb k "channels").
  { destruct (as_list x) as [l|]; cbn [bind]; [|reflexivity]. destruct (mapM symbol_of l); cbn [bind]; [apply IH|reflexivity]. }
  destruct x as [|z|q|s|l|e]; try apply IH.
  - match goal with |- bind ?a _ = bind ?b _ => replace a with b by (induction l as [|z t IHl]; [reflexivity|]; cbn [reduce_elems]; now rewrite IHl) end.
    destruct (reduce_elems l); cbn [bind]; [apply IH|reflexivity].
  - change ["property_units"] with PU. destruct (reduce_value PU (PDict e)); cbn [bind]; [apply IH|reflexivity].
Qed.
Lemma clean_keep : forall ex d, clean ex (PDict d) = PDict (flat_map (keep ex ex) d).
Proof. reflexivity. Qed.
Lemma reduce_spec : forall v, object_like v ->
  match v with
  | PDict d => forall ex, reduce_value ex v = Ok (PDict (flat_map (keep ex PU) d))
  | PList l => reduce_elems l = Ok (map (clean PU) l)
  | _ => True
  end.
Proof.
  intros v; induction v as [| | | |l IH|d IH] using pv_ind'; intros O; try exact I.
  - cbn [object_like] in O. induction IH as [|x r Hx Hr IHr]; [reflexivity|]. destruct O as [O1 O2]. cbn [reduce_elems map].
    assert (E : match x with PDict _ => reduce_value PU x | _ => Ok x end = Ok (clean PU x)).
    { destruct x as [|z|q|s|l|e]; try reflexivity; [now rewrite no_dicts_clean|]. rewrite clean_keep. now apply Hx. }
    rewrite E. cbn [bind]. rewrite IHr; auto.
  - intros exclude. cbn [object_like] in O. destruct O as [ND O]. rewrite reduce_unfold.
    enough (G : forall obj, (forall k, In k (map fst obj) -> ~ In k (map fst d)) -> reduce_entries exclude d obj = Ok (PDict (obj ++ flat_map (keep exclude PU) d))) by (rewrite G; auto).
    induction IH as [|[k x] r F1 F2 IH]; intros obj D; [cbn; now rewrite app_nil_r|].
    cbn [map fst] in ND. inversion ND as [|a b ND1 ND2]; subst. destruct O as [O1 O2]. cbn [snd] in F1.
    assert (S : forall y, reduce_entries exclude r (dict_set obj k y) = Ok (PDict (obj ++ (k, y) :: flat_map (keep exclude PU) r))).
    { intros y. rewrite set_fresh by (intros X; apply (D k X); now left). rewrite IH; auto; [now rewrite <- app_assoc|].
      intros j X. rewrite map_app in X. apply in_app_iff in X. destruct X as [X|[<-|[]]]; [intros Y; apply (D j X); now right|exact ND1]. }
    cbn [reduce_entries flat_map]. unfold keep at 1. cbn [fst snd]. fold (member k exclude).
    destruct (member k exclude || match x with PNone => true | _ => false end) eqn:E.
    + cbn [app]. apply IH; auto. intros j X Y; apply (D j X); now right.
    + apply orb_false_iff in E. destruct E as [_ E].
      destruct (String.eqb k "isotope").
      * destruct O1 as [->|(e & s & -> & Es)]; [discriminate|]. unfold symbol_of, getitem. cbn [the_symbol]. rewrite Es. cbn [bind]. apply S.
      * destruct (String.eqb k "channels").
        -- destruct O1 as [->|(l & -> & Fl)]; [discriminate|]. cbn [as_list bind]. rewrite (mapM_symbols l Fl). cbn [bind]. apply S.
        -- destruct x as [|z|q|s|l|e]; try apply S.
           ++ rewrite (F1 O1). cbn [bind]. apply S.
           ++ rewrite (F1 O1). cbn [bind]. apply S.
Qed.

(** ** C42 *)
Lemma has_true : forall A (d : list (string * A)) k, has d k = true <-> dict_lookup d k <> None.
Proof. intros A d k. unfold has. destruct (dict_lookup d k); split; congruence. Qed.
Lemma globals_lookup : forall d k, dict_lookup (globals_of d) k = if member k list_g then dict_lookup d k else None.
Proof.
  intros d k. unfold globals_of.
  assert (G : forall l acc, dict_lookup (fold_left (fun glb item => match dict_lookup d item with Some v => dict_set glb item v | None => glb end) l acc) k =
    if member k l then match dict_lookup d k with Some v => Some v | None => dict_lookup acc k end else dict_lookup acc k).
  { induction l as [|x l IH]; intros acc; [reflexivity|]. cbn [fold_left]. rewrite IH. unfold member. cbn [existsb]. fold (member k l).
    destruct (String.eqb_spec k x) as [->|N]; cbn [orb].
    - destruct (dict_lookup d x) as [v|] eqn:E.
      + rewrite lookup_set, String.eqb_refl. now destruct (member x l).
      + now destruct (member x l).
    - assert (X : dict_lookup (match dict_lookup d x with Some v => dict_set acc x v | None => acc end) k = dict_lookup acc k).
      { destruct (dict_lookup d x); [|reflexivity]. rewrite lookup_set. destruct (String.eqb_spec x k); congruence. }
      now rewrite X. }
  rewrite G. destruct (member k list_g); [|reflexivity]. now destruct (dict_lookup d k).
Qed.
Lemma globals_nodup : forall d, NoDup (map fst (globals_of d)).
Proof.
  intros d. unfold globals_of. assert (N : NoDup (map fst (@nil (string * pv)))) by constructor. revert N. generalize (@nil (string * pv)).
  induction list_g as [|x l IH]; intros acc N; [exact N|]. cbn [fold_left]. apply IH. destruct (dict_lookup d x); [now apply set_nodup|exact N].
Qed.
Lemma globals_nil : forall d, (forall k, In k list_g -> dict_lookup d k = None) -> globals_of d = [].
Proof. intros d H. unfold globals_of. cbn [list_g fold_left]. rewrite !H by (cbn; tauto). reflexivity. Qed.
Lemma fill_lookup : forall glb ev k, NoDup (map fst glb) ->
  dict_lookup (fill_event glb ev) k = match dict_lookup ev k with Some v => Some v | None => dict_lookup glb k end.
Proof.
  intros glb ev k N. unfold fill_event. cbv zeta. set (inter := filter (fun k => has glb k) (map fst ev)).
  assert (G : forall (l acc : dict), NoDup (map fst l) -> dict_lookup (fold_left (fun e kv => if member (fst kv) inter then e else dict_set e (fst kv) (snd kv)) l acc) k =
    match dict_lookup l k with Some v => if member k inter then dict_lookup acc k else Some v | None => dict_lookup acc k end).
  { induction l as [|[j v] l IH]; intros acc Nl; [reflexivity|]. cbn [map fst] in Nl. inversion Nl as [|a b N1 N2]; subst. cbn [fold_left fst snd].
    rewrite (IH _ N2), lookup_cons. destruct (String.eqb_spec j k) as [->|M].
    - assert (X : dict_lookup l k = None) by now apply lookup_none. rewrite X. destruct (member k inter); [reflexivity|]. now rewrite lookup_set, String.eqb_refl.
    - assert (X : dict_lookup (if member j inter then acc else dict_set acc j v) k = dict_lookup acc k).
      { destruct (member j inter); [reflexivity|]. rewrite lookup_set. destruct (String.eqb_spec j k); congruence. }
      now rewrite X. }
  rewrite (G glb ev N).
  assert (M : member k inter = true <-> dict_lookup ev k <> None /\ dict_lookup glb k <> None).
  { rewrite member_in. unfold inter. rewrite filter_In, has_true, (lookup_none _ ev k). destruct (in_dec string_dec k (map fst ev)); tauto. }
  destruct (dict_lookup glb k) as [v|], (dict_lookup ev k) as [w|], (member k inter); try reflexivity; exfalso.
  - assert (false = true) by (apply M; split; discriminate). discriminate.
  - destruct (proj1 M eq_refl). congruence.
Qed.
Lemma remove_all : forall ks d k, dict_lookup (fold_left (@dict_remove pv) ks d) k = if member k ks then None else dict_lookup d k.
Proof.
  induction ks as [|x ks IH]; intros d k; [reflexivity|]. cbn [fold_left]. rewrite IH, lookup_remove. unfold member. cbn [existsb]. fold (member k ks).
  destruct (String.eqb k x), (member k ks); reflexivity.
Qed.
Lemma mapM_ok : forall X Y (f : X -> pyres Y) (g : X -> Y) l, (forall x, In x l -> f x = Ok (g x)) -> mapM f l = Ok (map g l).
Proof. intros X Y f g; induction l as [|x l IH]; intros H; [reflexivity|]. cbn [mapM map]. rewrite H by now left. cbn [bind]. rewrite IH; [reflexivity|]. intros y Hy. apply H. now right. Qed.
(** The events of a dimension after line 21. *)
Definition given_events (dim : dict) : list dict :=
  match dict_lookup dim "events" with
  | Some (PList l) => map (fun e => match e with PDict d => d | _ => [] end) l
  | _ => [[]]
  end.
Definition new_dim (glb dim : dict) : dict := dict_set dim "events" (PList (map PDict (map (fill_event glb) (given_events dim)))).
Lemma set_set : forall A (d : list (string * A)) k v w, dict_set (dict_set d k v) k w = dict_set d k w.
Proof. intros A; induction d as [|[k' v'] r IH]; intros k v w; cbn [dict_set]; [now rewrite String.eqb_refl|]. destruct (String.eqb k' k) eqn:E; cbn [dict_set]; rewrite E; [reflexivity|now rewrite IH]. Qed.
Lemma expand_dim_ok : forall glb dim, dict_lookup dim "events" = None \/ (exists evs, has_events dim evs) -> expand_dim glb (PDict dim) = Ok (PDict (new_dim glb dim)).
Proof.
  intros glb dim H. unfold expand_dim, new_dim, given_events, has. cbn [as_dict bind]. destruct H as [H|(evs & H)].
  - rewrite H. unfold getitem. rewrite lookup_set, String.eqb_refl. cbn [bind as_list mapM as_dict map]. now rewrite set_set.
  - unfold has_events in H. rewrite H. unfold getitem. rewrite H. cbn [bind as_list].
    rewrite (mapM_ok _ _ _ (fun e => PDict (fill_event glb (match e with PDict d => d | _ => [] end)))).
    + cbn [bind]. rewrite !map_map. reflexivity.
    + intros x Hx. apply in_map_iff in Hx. destruct Hx as (e & <- & _). reflexivity.
Qed.

(** ** C43 *)
Lemma mapM_inv : forall X Y (f : X -> pyres Y) l r, mapM f l = Ok r -> length r = length l /\
  forall i x, nth_error l i = Some x -> exists y, nth_error r i = Some y /\ f x = Ok y.
Proof.
  intros X Y f; induction l as [|x l IH]; intros r H; cbn [mapM] in H.
  - injection H as <-. split; [reflexivity|]. intros [|i] y N; discriminate.
  - destruct (f x) as [y|] eqn:E; [|discriminate]. cbn [bind] in H. destruct (mapM f l) as [ys|] eqn:F; [|discriminate]. cbn [bind] in H. injection H as <-.
    destruct (IH ys eq_refl) as [L N]. split; [cbn; now rewrite L|]. intros [|i] z Hz; cbn in *; [injection Hz as <-; eauto|auto].
Qed.
Lemma mapM_total : forall X Y (f : X -> pyres Y) l, (forall x, In x l -> exists y, f x = Ok y) -> exists r, mapM f l = Ok r.
Proof.
  intros X Y f; induction l as [|x l IH]; intros H; [now exists []|]. destruct (H x (or_introl eq_refl)) as [y Hy].
  destruct IH as [r Hr]; [intros z Hz; apply H; now right|]. exists (y :: r). cbn [mapM]. rewrite Hy. cbn [bind]. rewrite Hr. reflexivity.
Qed.
Section GenerateProofs.
  Variable event_default : dict.
  Variable with_unit : Q -> string -> string.
  Notation gen_one := (gen_one with_unit).
  Lemma gen_one_lookup : forall globals kwargs parse e user k, NoDup (map fst globals) -> NoDup (map fst kwargs) ->
    (forall u, user = Some u -> NoDup (map fst u)) ->
    dict_lookup (gen_one globals kwargs parse e user) k =
    option_map (fun v => if parse then snd (fix_string with_unit (k, v)) else v)
      (first_of [match user with Some u => u | None => [] end; kwargs; globals; dict_remove e "property_units"] k).
  Proof.
    intros globals kwargs parse e user k NG NK NU. unfold DictModel.gen_one. cbv zeta.
    set (kw := match user with Some u => dict_update kwargs u | None => kwargs end). set (e' := dict_remove e "property_units").
    assert (K1 : NoDup (map fst kw)) by (unfold kw; destruct user; [now apply update_nodup|exact NK]).
    assert (K2 : forall j, dict_lookup kw j = first_of [match user with Some u => u | None => [] end; kwargs] j).
    { intros j. unfold kw. cbn [first_of]. destruct user as [u|]; [rewrite lookup_update by (now apply NU)|]; [|cbn]; destruct (dict_lookup kwargs j); reflexivity. }
    assert (E : dict_lookup (dict_update (dict_update e' kw) (dict_update globals kw)) k =
                first_of [match user with Some u => u | None => [] end; kwargs; globals; e'] k).
    { rewrite lookup_update by now apply update_nodup. rewrite !lookup_update by exact K1. rewrite K2. cbn [first_of].
      destruct (dict_lookup (match user with Some u => u | None => [] end) k); [reflexivity|]. destruct (dict_lookup kwargs k); [reflexivity|].
      destruct (dict_lookup globals k); [reflexivity|]. destruct (dict_lookup e' k); reflexivity. }
    rewrite <- E.
    match goal with |- dict_lookup (if parse then map _ ?X else ?X) k = _ => change X with (dict_update (dict_update e' kw) (dict_update globals kw)) end.
    generalize (dict_update (dict_update e' kw) (dict_update globals kw)). intros l. destruct parse; [|now destruct (dict_lookup l k)].
    induction l as [|[j v] l IH]; [reflexivity|]. cbn [map]. rewrite lookup_cons.
    assert (F : fst (fix_string with_unit (j, v)) = j) by (unfold fix_string; cbn [fst snd]; destruct (dict_lookup default_units j), v; reflexivity).
    destruct (fix_string with_unit (j, v)) as [j' v'] eqn:G. cbn [fst] in F. subst j'. rewrite lookup_cons. destruct (String.eqb_spec j k) as [->|_]; [|exact IH].
    cbn [option_map]. now rewrite G.
  Qed.
  Lemma gen_loop_inv : forall globals kwargs parse dim tem j0 evs, gen_loop with_unit globals kwargs parse dim tem j0 = Ok evs ->
    length evs = length tem /\
    forall j e, nth_error tem j = Some e -> exists user, nth_error evs j = Some (gen_one globals kwargs parse e user) /\
      match dict_lookup dim "events" with
      | None => user = None
      | Some v => exists l u, v = PList l /\ nth_error l (j0 + j) = Some (PDict u) /\ user = Some u
      end.
  Proof.
    intros globals kwargs parse dim; induction tem as [|e r IH]; intros j0 evs H; cbn [gen_loop] in H.
    - injection H as <-. split; [reflexivity|]. intros [|j] e N; discriminate.
    - match type of H with bind ?a _ = _ => destruct a as [user|] eqn:U; [|discriminate] end. cbn [bind] in H.
      destruct (gen_loop with_unit globals kwargs parse dim r (S j0)) as [rest|] eqn:R; [|discriminate]. cbn [bind] in H. injection H as <-.
      destruct (IH (S j0) rest R) as [L N]. split; [cbn; now rewrite L|]. intros [|j] e' He; cbn [nth_error] in *.
      + injection He as <-. exists user. split; [reflexivity|]. rewrite Nat.add_0_r. destruct (dict_lookup dim "events") as [v|]; [|now injection U as <-].
        destruct v as [| | | |l|]; cbn [as_list bind] in U; try discriminate U. destruct (nth_error l j0) as [[| | | | |u]|] eqn:NE; cbn [as_dict bind] in U; try discriminate U.
        injection U as <-. exists l, u. auto.
      + destruct (N j e' He) as (us & A & B). exists us. split; [exact A|]. replace (j0 + S j)%nat with (S j0 + j)%nat by lia. exact B.
  Qed.
  Lemma gen_loop_total : forall globals kwargs parse dim tem j0,
    (dict_lookup dim "events" = None \/ exists evs, has_events dim evs /\ (j0 + length tem <= length evs)%nat) ->
    exists r, gen_loop with_unit globals kwargs parse dim tem j0 = Ok r.
  Proof.
    intros globals kwargs parse dim; induction tem as [|e r IH]; intros j0 H; cbn [gen_loop]; [now exists []|].
    destruct (IH (S j0)) as [rest Hr]. { destruct H as [H|(evs & H & L)]; [now left|]. right. exists evs. split; [exact H|]. cbn in L. lia. }
    destruct H as [H|(evs & H & L)].
    - rewrite H. cbn [bind]. rewrite Hr. cbn [bind]. eexists; reflexivity.
    - unfold has_events in H. rewrite H. cbn [as_list bind].
      destruct (nth_error evs j0) as [u|] eqn:N; [|apply nth_error_None in N; cbn in L; lia]. rewrite (map_nth_error PDict j0 evs N). cbn [as_dict bind]. rewrite Hr. cbn [bind]. eexists; reflexivity.
  Qed.
  Notation gen_dims := (gen_dims event_default with_unit).
  Notation gen_event := (gen_event event_default with_unit).
  Lemma gen_dims_inv : forall globals kwargs parse tems dims out, gen_dims tems dims globals kwargs parse = Ok out -> length out = length tems /\
    (length tems <= length dims)%nat /\
    forall i tem dim, nth_error tems i = Some tem -> nth_error dims i = Some dim -> exists evs, nth_error out i = Some (dict_remove dim "events", evs) /\
      gen_event tem dim globals kwargs parse = Ok evs.
  Proof.
    intros globals kwargs parse; induction tems as [|tem tr IH]; intros dims out H; cbn [DictModel.gen_dims] in H.
    - injection H as <-. split; [reflexivity|]. split; [cbn; lia|]. intros [|i] tem dim N; discriminate.
    - destruct dims as [|dim dr]; [discriminate|]. destruct (gen_event tem dim globals kwargs parse) as [evs|] eqn:E; [|discriminate]. cbn [bind] in H.
      destruct (gen_dims tr dr globals kwargs parse) as [rest|] eqn:R; [|discriminate]. cbn [bind] in H. injection H as <-.
      destruct (IH dr rest R) as (L & M & N). split; [cbn; now rewrite L|]. split; [cbn; lia|]. intros [|i] t d Ht Hd; cbn [nth_error] in *.
      + injection Ht as <-. injection Hd as <-. eauto.
      + eauto.
  Qed.
  Lemma gen_dims_total : forall globals kwargs parse tems dims, (length tems <= length dims)%nat ->
    (forall i tem dim, nth_error tems i = Some tem -> nth_error dims i = Some dim -> exists evs, gen_event tem dim globals kwargs parse = Ok evs) ->
    exists out, gen_dims tems dims globals kwargs parse = Ok out.
  Proof.
    intros globals kwargs parse; induction tems as [|tem tr IH]; intros dims L H; cbn [DictModel.gen_dims]; [now exists []|].
    destruct dims as [|dim dr]; [cbn in L; lia|]. destruct (H 0%nat tem dim eq_refl eq_refl) as [evs E]. rewrite E. cbn [bind].
    destruct (IH dr) as [rest R]; [cbn in L; lia| |rewrite R; cbn [bind]; eexists; reflexivity]. intros i t d Ht Hd. exact (H (S i) t d Ht Hd).
  Qed.
End GenerateProofs.
