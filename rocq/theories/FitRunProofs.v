(** Proofs for C97 and C98. *)
From Coq Require Import Reals ZArith QArith Qreals Bool String List Lia Lra.
From Coquelicot Require Import Complex.
From Verif Require Import Base BaseProofs SitesModel SitesProofs DictModel DictProofs FitModel FitSpec FitProofs SigModel SigSpec SigProofs PropSig
  FitRunModel FitRunSpec.
Import ListNotations.
Open Scope list_scope.

(** ** Writing attributes twice, and in another order *)
Lemma dict_set_comm {A} (d : list (string * A)) a b y z u v : a <> b -> dict_lookup d a = Some u -> dict_lookup d b = Some v ->
  dict_set (dict_set d a y) b z = dict_set (dict_set d b z) a y.
Proof.
  intros N. induction d as [|[k x] d IH]; intros Ha Hb; [discriminate Ha|]. unfold dict_lookup in *. cbn [find fst] in Ha, Hb. cbn [dict_set].
  destruct (String.eqb_spec k a) as [Ea|Na], (String.eqb_spec k b) as [Eb|Nb]; cbn [dict_set]; subst.
  - contradiction.
  - apply String.eqb_neq in Nb. rewrite String.eqb_refl, Nb. reflexivity.
  - apply String.eqb_neq in Na. rewrite String.eqb_refl, Na. reflexivity.
  - apply String.eqb_neq in Na, Nb. rewrite Na, Nb. f_equal. auto.
Qed.
Lemma list_set_comm {A} (l : list A) : forall n m y z, n <> m -> list_set (list_set l n y) m z = list_set (list_set l m z) n y.
Proof. induction l as [|x l IH]; intros [|n] [|m] y z N; cbn; try congruence; auto. now rewrite IH by congruence. Qed.
Lemma list_set_twice {A} (l : list A) : forall n y z, list_set (list_set l n y) n z = list_set l n z.
Proof. induction l as [|x l IH]; intros [|n] y z; cbn; auto. now rewrite IH. Qed.

Definition wr (obj : pv) (a : string) (y : pv) : pv :=
  match obj with PList l => PList (list_set l (int_of a) y) | PDict d => PDict (dict_set d a y) | _ => obj end.
Lemma set_first t a r v t1 : set_path t (a :: r) v = Ok t1 ->
  exists y, t1 = wr t a y /\
  ((r = [] /\ y = v /\ exists d x, t = PDict d /\ dict_lookup d a = Some x) \/
   (r <> [] /\ exists o, get_one t a = Ok o /\ set_path o r v = Ok y)).
Proof.
  destruct r as [|c r].
  - cbn [set_path]. unfold FitModel.set_attr. destruct t as [|?|?|?|l|d]; try discriminate. destruct (dict_lookup d a) eqn:E; [|discriminate].
    intros H. injection H as <-. exists v. split; [reflexivity|]. left. eauto 6.
  - rewrite set_cons. destruct (get_one t a) as [o|e] eqn:G; [|discriminate]. cbn [bind].
    destruct (set_path o (c :: r) v) as [y|e] eqn:S; [|discriminate]. cbn [bind]. intros H. injection H as <-.
    exists y. split; [reflexivity|]. right. split; [discriminate|]. eauto.
Qed.
Lemma set_first_ok t a r v y : ((r = [] /\ y = v /\ exists d x, t = PDict d /\ dict_lookup d a = Some x) \/
   (r <> [] /\ exists o, get_one t a = Ok o /\ set_path o r v = Ok y)) -> set_path t (a :: r) v = Ok (wr t a y).
Proof.
  intros [(-> & -> & d & x & -> & L)|(N & o & G & S)].
  - cbn [set_path]. unfold FitModel.set_attr. rewrite L. reflexivity.
  - destruct r as [|c r]; [congruence|]. rewrite set_cons, G. cbn [bind]. rewrite S. reflexivity.
Qed.

(** An element that can be reached or assigned. *)
Definition there (t : pv) (a : string) : Prop :=
  (exists d x, t = PDict d /\ dict_lookup d a = Some x) \/ exists l, t = PList l /\ isnumeric a = true.
Lemma got_there t a o : get_one t a = Ok o -> there t a.
Proof.
  unfold get_one. destruct (isnumeric a) eqn:N; destruct t as [|?|?|?|l|d]; try discriminate; intros H.
  - right. eauto.
  - destruct (dict_lookup d a) as [x|] eqn:L; [|discriminate]. left. eauto.
Qed.
Lemma wr_comm t a b y z : a <> b -> (isnumeric a = true -> isnumeric b = true -> int_of a <> int_of b) -> there t a -> there t b ->
  wr (wr t a y) b z = wr (wr t b z) a y.
Proof.
  intros N M [(d & x & -> & L)|(l & -> & Na)] [(d' & x' & E & L')|(l' & E & Nb)]; try discriminate.
  - injection E as <-. cbn. f_equal. exact (dict_set_comm d a b y z x x' N L L').
  - injection E as <-. cbn. f_equal. apply list_set_comm. auto.
Qed.
Lemma wr_twice t a y z : wr (wr t a y) a z = wr t a z.
Proof. destruct t; cbn; try reflexivity; f_equal; [apply list_set_twice | apply set_set]. Qed.
Lemma wr_one t a b y o : a <> b -> (isnumeric a = true -> isnumeric b = true -> int_of a <> int_of b) -> there t a ->
  get_one t b = Ok o -> get_one (wr t a y) b = Ok o.
Proof.
  intros N M H G. destruct H as [(d & x & -> & L)|(l & -> & Na)]; unfold get_one in *; cbn [wr].
  - destruct (isnumeric b); [discriminate|]. apply String.eqb_neq in N. rewrite lookup_set, N. exact G.
  - destruct (isnumeric b) eqn:Nb; [|discriminate]. rewrite list_set_other by auto. exact G.
Qed.
Lemma wr_dict t a b y d x : a <> b -> t = PDict d -> dict_lookup d b = Some x -> exists d' x', wr t a y = PDict d' /\ dict_lookup d' b = Some x'.
Proof. intros N -> L. cbn. do 2 eexists. split; [reflexivity|]. apply String.eqb_neq in N. rewrite lookup_set, N. exact L. Qed.
Lemma wr_same t a y o : get_one t a = Ok o -> get_one (wr t a y) a = Ok y.
Proof. exact (get_one_written t a o y). Qed.

Lemma set_diamond a b : diverge a b -> forall t v w t1 t2, set_path t a v = Ok t1 -> set_path t b w = Ok t2 ->
  exists t3, set_path t1 b w = Ok t3 /\ set_path t2 a v = Ok t3.
Proof.
  induction 1 as [a b r r' N M|a r r' Dv IH]; intros t v w t1 t2 H1 H2.
  - destruct (set_first _ _ _ _ _ H1) as (y & -> & C1). destruct (set_first _ _ _ _ _ H2) as (z & -> & C2).
    assert (T1 : there t a) by (destruct C1 as [(_ & _ & ?)|(_ & o & G & _)]; [left; auto | eapply got_there; eauto]).
    assert (T2 : there t b) by (destruct C2 as [(_ & _ & ?)|(_ & o & G & _)]; [left; auto | eapply got_there; eauto]).
    exists (wr (wr t a y) b z). split.
    + apply set_first_ok. destruct C2 as [(-> & -> & d & x & -> & L)|(Ne & o & G & S)].
      * left. split; [reflexivity|]. split; [reflexivity|]. eapply wr_dict; eauto.
      * right. split; [exact Ne|]. exists o. split; [|exact S]. eapply wr_one; eauto.
    + rewrite (wr_comm t a b y z N M T1 T2). apply set_first_ok. destruct C1 as [(-> & -> & d & x & -> & L)|(Ne & o & G & S)].
      * left. split; [reflexivity|]. split; [reflexivity|]. eapply wr_dict; eauto.
      * right. split; [exact Ne|]. exists o. split; [|exact S]. eapply wr_one; eauto. intros X Y E. exact (M Y X (eq_sym E)).
  - destruct (set_first _ _ _ _ _ H1) as (y1 & -> & C1). destruct (set_first _ _ _ _ _ H2) as (z & -> & C2).
    destruct C1 as [(-> & _)|(Ne1 & o & G & S1)]; [inversion Dv|]. destruct C2 as [(-> & _)|(Ne2 & o' & G' & S2)]; [inversion Dv|].
    rewrite G in G'. injection G' as <-. destruct (IH o v w y1 z S1 S2) as (u & U1 & U2). exists (wr t a u).
    split; [rewrite <- (wr_twice t a y1 u)|rewrite <- (wr_twice t a z u)]; apply set_first_ok; right; (split; [assumption|]).
    + exists y1. split; [eapply wr_same; eauto|exact U1].
    + exists z. split; [eapply wr_same; eauto|exact U2].
Qed.
Lemma set_again a : forall t v w t1, set_path t a v = Ok t1 -> set_path t1 a w = set_path t a w.
Proof.
  induction a as [|x a IH]; intros t v w t1 H; [discriminate|]. destruct (set_first _ _ _ _ _ H) as (y & -> & C).
  destruct C as [(-> & -> & d & z & -> & L)|(Ne & o & G & S)].
  - cbn. rewrite L, lookup_set, String.eqb_refl, set_set. reflexivity.
  - destruct a as [|b a]; [congruence|]. rewrite !set_cons, (wr_same t x y o G), G. cbn [bind]. rewrite (IH o v w y S).
    destruct (set_path o (b :: a) w) as [u|e]; [|reflexivity]. cbn [bind]. f_equal. exact (wr_twice t x y u).
Qed.

(** ** The simulator after an update *)
Definition named (values : list (path * Q)) : list (string * Q) := map (fun pv => (documented_name (fst pv), snd pv)) values.
Lemma update_cons p v r sim : decodable p ->
  update_simulator sim (named ((p, v) :: r)) = let* s := set_path sim (steps p) (PFloat v) in update_simulator s (named r).
Proof. intros D. unfold update_simulator, named. cbn [map for_each fst snd]. unfold set_simulator_object_value. now rewrite (decode_documented p D). Qed.
Lemma update_after_set r : forall a b s p v, ~ In p (map fst r) -> Forall decodable (map fst r) ->
  set_path a (steps p) (PFloat v) = Ok b -> update_simulator a (named r) = Ok s ->
  exists s', set_path s (steps p) (PFloat v) = Ok s' /\ update_simulator b (named r) = Ok s'.
Proof.
  induction r as [|[q w] r IH]; intros a b s p v N F B U.
  - cbn in *. injection U as <-. eauto.
  - cbn [map fst In] in N, F. inversion F as [|? ? Dq Fr]; subst. rewrite (update_cons q w r a Dq) in U. rewrite (update_cons q w r b Dq).
    destruct (set_path a (steps q) (PFloat w)) as [a1|e] eqn:A1; [|discriminate]. cbn [bind] in U.
    destruct (set_diamond _ _ (steps_diverge p q ltac:(intros ->; apply N; now left)) a _ _ b a1 B A1) as (c & C1 & C2).
    rewrite C1. cbn [bind]. apply (IH a1 c s p v); auto.
Qed.
Lemma update_again l1 : forall l2 sim s1, map fst l1 = map fst l2 -> NoDup (map fst l1) -> Forall decodable (map fst l1) ->
  update_simulator sim (named l1) = Ok s1 -> update_simulator s1 (named l2) = update_simulator sim (named l2).
Proof.
  induction l1 as [|[p v] r1 IH]; intros [|[p2 v2] r2] sim s1 E N F U; try discriminate.
  - cbn in *. injection U as <-. reflexivity.
  - cbn [map fst] in E. injection E as <- E. cbn [map fst] in N, F. inversion N as [|? ? Np Nr]; subst. inversion F as [|? ? Dp Fr]; subst.
    rewrite (update_cons p v r1 sim Dp) in U. destruct (set_path sim (steps p) (PFloat v)) as [a|e] eqn:A; [|discriminate]. cbn [bind] in U.
    rewrite !(update_cons p v2 r2 _ Dp). rewrite <- (set_again (steps p) sim (PFloat v) (PFloat v2) a A).
    assert (X : exists b, set_path a (steps p) (PFloat v2) = Ok b).
    { apply (set_succeeds (steps p) a (PFloat v)); [apply (set_then_get _ _ _ _ A (steps_last p)) | apply steps_nonempty | apply steps_last]. }
    destruct X as (b & B). destruct (update_after_set r1 a b s1 p v2 Np Fr B U) as (s' & S1 & S2).
    rewrite S1, B. cbn [bind]. apply (IH r2 b s' E Nr Fr S2).
Qed.

(** ** The names *)
Lemma no_operation p : contains "operation_" (documented_name p) = false.
Proof.
  rewrite name_tok, contains_tok by reflexivity. destruct p as [i|i j|i j t a|i j|i j t a]; try reflexivity; destruct t, a; reflexivity.
Qed.
Lemma update_post_named l ops : update_post_sim (map (fun nv => (fst nv, Q2R (snd nv))) (named l)) ops = Ok ops.
Proof.
  unfold update_post_sim, named. induction l as [|[p v] r IH]; [reflexivity|]. cbn [map for_each fst snd]. rewrite no_operation. cbn [bind]. exact IH.
Qed.
Lemma exists_fn {A} (ks : list nat) : forall vs : list A, NoDup ks -> length vs = length ks -> A -> exists f, map f ks = vs.
Proof.
  induction ks as [|k ks IH]; intros [|v vs] N L a; try discriminate.
  - exists (fun _ => a). reflexivity.
  - inversion N as [|? ? Nk Nr]; subst. cbn in L. destruct (IH vs Nr ltac:(lia) a) as (f & <-).
    exists (fun i => if Nat.eqb i k then v else f i). cbn [map]. rewrite Nat.eqb_refl. f_equal. apply map_ext_in. intros i Hi.
    destruct (Nat.eqb_spec i k); [congruence|reflexivity].
Qed.
Lemma numbered_in {A} (l : list A) : forall k i x, In (i, x) (numbered k l) -> (k <= i)%nat.
Proof. induction l as [|a l IH]; intros k i x H; [destruct H|]. destruct H as [H|H]; [injection H as -> _; lia | apply IH in H; lia]. Qed.
Lemma numbered_nodup {A} (l : list A) (p : nat * A -> bool) : forall k, NoDup (map fst (filter p (numbered k l))).
Proof.
  induction l as [|a l IH]; intros k; cbn [numbered filter map]; [constructor|].
  destruct (p (k, a)); [cbn [map]|apply IH]. constructor; [|apply IH].
  intros H. apply in_map_iff in H as ((i & x) & E & H). cbn in E. subst i. apply filter_In in H as [H _]. apply numbered_in in H. lia.
Qed.

(** ** The operations after an update *)
Definition with_numbers (f : nat -> R) (k : nat) (ops : list operation) : list operation :=
  map (fun io => if fitted (snd io) then with_number (snd io) (f (fst io)) else snd io) (numbered k ops).
Lemma with_numbers_cons f k o ops : with_numbers f k (o :: ops) = (if fitted o then with_number o (f k) else o) :: with_numbers f (S k) ops.
Proof. reflexivity. Qed.
Lemma fitted_with o x : fitted (with_number o x) = fitted o. Proof. destruct o; reflexivity. Qed.
Lemma with_with o x y : with_number (with_number o x) y = with_number o y. Proof. destruct o; reflexivity. Qed.
Lemma with_numbers_again f g ops : forall k, with_numbers g k (with_numbers f k ops) = with_numbers g k ops.
Proof.
  induction ops as [|o ops IH]; intros k; [reflexivity|]. rewrite !with_numbers_cons, IH. f_equal.
  destruct (fitted o) eqn:E; [rewrite fitted_with, E; apply with_with|rewrite E; reflexivity].
Qed.
Lemma names_with f ops : forall k, map (fun io => (fst io, operation_name (fst io) (snd io))) (filter (fun io => fitted (snd io)) (numbered k (with_numbers f k ops))) =
  map (fun io => (fst io, operation_name (fst io) (snd io))) (filter (fun io => fitted (snd io)) (numbered k ops)).
Proof.
  induction ops as [|o ops IH]; intros k; [reflexivity|]. rewrite with_numbers_cons. cbn [numbered filter snd].
  destruct (fitted o) eqn:E.
  - rewrite fitted_with, E. cbn [map fst snd]. rewrite IH. f_equal. destruct o; reflexivity.
  - rewrite E. apply IH.
Qed.

(** A list of values for the names of the operations: one function of the position gives all operations. *)
Lemma update_ops ops names B : post_sim_LMFIT_params ops = Ok names -> map fst B = map fst names ->
  exists f, forall g, update_post_sim (map (fun nv => (fst nv, Q2R (snd nv))) B) (with_numbers g 0 ops) = Ok (with_numbers f 0 ops) /\
            update_post_sim (map (fun nv => (fst nv, Q2R (snd nv))) B) ops = Ok (with_numbers f 0 ops).
Proof.
  intros E EB. pose proof E as E'. unfold post_sim_LMFIT_params in E. rewrite params_from in E. injection E as E.
  destruct (exists_fn (map fst (filter (fun io => fitted (snd io)) (numbered 0 ops))) (map (fun nv : string * Q => Q2R (snd nv)) B)) as (f & F).
  { apply numbered_nodup. }
  { rewrite !map_length. apply (f_equal (@length string)) in EB. rewrite <- E, !map_length in EB. exact EB. }
  { exact 0%R. }
  exists f. rewrite map_map in F. intros g. split.
  - destruct (post_sim_LMFIT_params (with_numbers g 0 ops)) as [names'|e] eqn:E2.
    2:{ unfold post_sim_LMFIT_params in E2. rewrite params_from in E2. discriminate E2. }
    assert (N : map (fun io => (fst io, operation_name (fst io) (snd io))) (filter (fun io => fitted (snd io)) (numbered 0 (with_numbers g 0 ops))) =
                map (fun io => (fst io, operation_name (fst io) (snd io))) (filter (fun io => fitted (snd io)) (numbered 0 ops))) by apply names_with.
    rewrite (C80_update _ f names' E2).
    + f_equal. apply with_numbers_again.
    + unfold post_sim_LMFIT_params in E2. rewrite params_from in E2. injection E2 as E2.
      transitivity (map fst B); [rewrite map_map; reflexivity|]. rewrite EB, <- E, <- E2, !map_map. cbn [fst].
      apply (f_equal (map snd)) in N. rewrite !map_map in N. cbn [snd] in N. symmetry. exact N.
    + rewrite map_map. cbn [snd]. rewrite <- F. apply (f_equal (map fst)) in N. rewrite !map_map in N. cbn [fst] in N.
      rewrite <- (map_map fst f), <- (map_map fst f (filter _ (numbered 0 (with_numbers g 0 ops)))).
      f_equal. symmetry. exact N.
  - rewrite (C80_update ops f names E').
    + reflexivity.
    + rewrite map_map. exact EB.
    + rewrite map_map. cbn [snd]. symmetry. exact F.
Qed.
Lemma with_numbers_ext f g ops : forall k, (forall i, (k <= i)%nat -> f i = g i) -> with_numbers f k ops = with_numbers g k ops.
Proof.
  induction ops as [|o ops IH]; intros k H; [reflexivity|]. rewrite !with_numbers_cons, (H k) by lia. f_equal. apply IH. intros i Hi. apply H. lia.
Qed.
Lemma own_numbers ops : forall k, exists g, with_numbers g k ops = ops.
Proof.
  induction ops as [|o ops IH]; intros k; [exists (fun _ => 0%R); reflexivity|]. destruct (IH (S k)) as (g & G).
  exists (fun i => if Nat.eqb i k then number o else g i). rewrite with_numbers_cons, Nat.eqb_refl. f_equal.
  - destruct o; reflexivity.
  - rewrite <- G at 2. apply with_numbers_ext. intros i Hi. destruct (Nat.eqb_spec i k); [lia|reflexivity].
Qed.

(** ** Setting the values *)
Lemma set_values_sim all A : forall B st s, Forall decodable (map fst A) -> update_simulator (f_sim st) (named A) = Ok s ->
  set_values all (named A ++ B) st = set_values all B (mkFit s (f_ops st) (f_simulation st)).
Proof.
  induction A as [|[p v] r IH]; intros B st s F U.
  - cbn in U. injection U as <-. destruct st; reflexivity.
  - cbn [map fst] in F. inversion F as [|? ? Dp Fr]; subst. rewrite (update_cons p v r _ Dp) in U.
    destruct (set_path (f_sim st) (steps p) (PFloat v)) as [a|e] eqn:E; [|discriminate]. cbn [bind] in U.
    unfold named. cbn [map app set_values fst snd]. rewrite no_operation. cbn [negb]. unfold set_simulator_object_value.
    rewrite (decode_documented p Dp), E. exact (IH B (mkFit a (f_ops st) (f_simulation st)) s Fr U).
Qed.
Lemma set_values_ops all s x ops f : (forall g, update_post_sim (map (fun nv => (fst nv, Q2R (snd nv))) all) (with_numbers g 0 ops) = Ok (with_numbers f 0 ops)) ->
  forall B g, Forall (fun nv => contains "operation_" (fst nv) = true) B -> (B = [] -> with_numbers g 0 ops = with_numbers f 0 ops) ->
  set_values all B (mkFit s (Some (with_numbers g 0 ops)) x) = (mkFit s (Some (with_numbers f 0 ops)) x, None).
Proof.
  intros U. induction B as [|[n v] B IH]; intros g F E.
  - cbn. rewrite E by reflexivity. reflexivity.
  - inversion F as [|? ? C FB]; subst. cbn [fst] in C. cbn [set_values]. rewrite C. cbn [negb f_ops f_sim f_simulation]. rewrite U.
    apply IH; auto.
Qed.
Lemma update_post_split A B ops : update_post_sim (map (fun nv => (fst nv, Q2R (snd nv))) (named A ++ B)) ops =
  update_post_sim (map (fun nv => (fst nv, Q2R (snd nv))) B) ops.
Proof.
  rewrite map_app. unfold update_post_sim. rewrite BaseProofs.for_each_app.
  pose proof (update_post_named A ops) as U. unfold update_post_sim in U. rewrite U. reflexivity.
Qed.

(** ** The parameters made for a simulator and a processor *)
Section Made.
  Variables (units : dict) (name label description pathways : pv) (systems : list sysR) (params : list param)
    (ops : list operation) (names : list (string * R)).
  Notation sys := (sys_dict units name label description pathways).
  Hypothesis Made : make_LMFIT_params (map sys systems) = Ok params.
  Hypothesis Post : post_sim_LMFIT_params ops = Ok names.

  Lemma made_decodable : Forall decodable (map fst (all_paths systems)) /\ map p_name params = map (fun pq => documented_name (fst pq)) (all_paths systems).
  Proof.
    assert (Z : ~ (sumQ (map y_abundance systems) == 0)%Q).
    { intros Z. rewrite (params_zero units name label description pathways systems Z) in Made. discriminate Made. }
    assert (D : forall p q, In (p, q) (all_paths systems) -> decodable p).
    { intros p q I. destruct (decodable_dec p) as [D|D]; [exact D|]. exfalso.
      rewrite (params_fail units name label description pathways systems Z) in Made; [discriminate Made|]. eauto. }
    split.
    - apply Forall_forall. intros p I. apply in_map_iff in I as ((p' & q) & E & I). cbn in E. subst p'. eauto.
    - destruct (params_described units name label description pathways systems Z D) as (params' & E & F).
      rewrite E in Made. injection Made as <-. clear - F. induction F as [|pq r l l' H F IH]; [reflexivity|]. cbn [map]. f_equal; [apply H|exact IH].
  Qed.

  (** Values for these names, in this order. *)
  Definition proper (values : list (string * Q)) : Prop := map fst values = map p_name params ++ map fst names.
  Lemma proper_split values : proper values ->
    exists A B, values = named A ++ B /\ map fst A = map fst (all_paths systems) /\ map fst B = map fst names.
  Proof.
    unfold proper. destruct made_decodable as [_ ->]. intros E.
    exists (combine (map fst (all_paths systems)) (map snd (firstn (length (all_paths systems)) values))), (skipn (length (all_paths systems)) values).
    assert (L : (length (all_paths systems) <= length values)%nat).
    { apply (f_equal (@length string)) in E. rewrite app_length, !map_length in E. lia. }
    assert (E1 : map fst (firstn (length (all_paths systems)) values) = map (fun pq => documented_name (fst pq)) (all_paths systems)).
    { rewrite <- firstn_map, E, firstn_app, map_length, Nat.sub_diag, firstn_O, app_nil_r. rewrite firstn_all2; [reflexivity|]. rewrite map_length. lia. }
    split; [|split].
    - rewrite <- (firstn_skipn (length (all_paths systems)) values) at 1. f_equal. revert E1.
      generalize (firstn (length (all_paths systems)) values) as l. generalize (all_paths systems) as a.
      induction a as [|[p q] a IH]; intros [|[n v] l] H; try discriminate; [reflexivity|]. cbn [map fst] in H. injection H as -> H.
      cbn [map combine named fst snd]. f_equal. apply IH. exact H.
    - assert (G : forall (a : list path) (l : list Q), length a = length l -> map fst (combine a l) = a).
      { induction a as [|x a IH]; intros [|y l] H; try discriminate; [reflexivity|]. cbn in *. f_equal. apply IH. lia. }
      apply G. rewrite !map_length, firstn_length. lia.
    - rewrite <- skipn_map, E, skipn_app, map_length, Nat.sub_diag. rewrite skipn_all2; [reflexivity|]. rewrite map_length. lia.
  Qed.

  Variable d : dict.
  Hypothesis Here : dict_lookup d "spin_systems" = Some (PList (map sys systems)).

  (** What is kept: the tree, up to the values of the parameters, and the operations, up to theirs. *)
  Definition kept (st : fstate) : Prop :=
    (f_sim st = PDict d \/ exists A, map fst A = map fst (all_paths systems) /\ update_simulator (PDict d) (named A) = Ok (f_sim st)) /\
    exists g, f_ops st = Some (with_numbers g 0 ops).
  Lemma kept_start x : kept (mkFit (PDict d) (Some ops) x).
  Proof. split; [now left|]. destruct (own_numbers ops 0) as (g & G). exists g. cbn. now rewrite G. Qed.
  Lemma nodup_paths : NoDup (map fst (all_paths systems)).
  Proof. apply all_nodup. Qed.

  (** Proper values are all set, and the result does not depend on what was kept. *)
  Lemma set_proper values : proper values -> exists A s f, map fst A = map fst (all_paths systems) /\
    (exists B, values = named A ++ B) /\ update_simulator (PDict d) (named A) = Ok s /\
    update_post_sim (map (fun nv => (fst nv, Q2R (snd nv))) values) ops = Ok (with_numbers f 0 ops) /\
    forall st, kept st -> set_values values values st = (mkFit s (Some (with_numbers f 0 ops)) (f_simulation st), None).
  Proof.
    intros P. destruct (proper_split values P) as (A & B & -> & EA & EB). destruct made_decodable as [D _].
    destruct (update_ok A (PDict d)) as (s & U & _).
    { rewrite EA. apply nodup_paths. }
    { intros p v I. assert (I' : In p (map fst (all_paths systems))) by (rewrite <- EA; change p with (fst (p, v)); now apply in_map).
      split; [rewrite Forall_forall in D; auto|]. apply in_map_iff in I' as ((p' & q) & E & I'). cbn in E. subst p'.
      exists (PFloat q). exact (proj1 (present_get units name label description pathways d systems p q Here I')). }
    destruct (update_ops ops names B Post EB) as (f & F).
    exists A, s, f. split; [exact EA|]. split; [eauto|]. split; [exact U|].
    split; [rewrite update_post_split; apply (F f)|].
    intros st (K1 & (g & K2)).
    assert (U' : update_simulator (f_sim st) (named A) = Ok s).
    { destruct K1 as [->|(A0 & EA0 & U0)]; [exact U|]. rewrite (update_again A0 A (PDict d) (f_sim st)); auto.
      - congruence.
      - rewrite EA0. apply nodup_paths.
      - rewrite EA0. exact D. }
    rewrite (set_values_sim _ A B st s); [|rewrite EA; exact D|exact U']. rewrite K2.
    apply set_values_ops.
    - intros g'. rewrite update_post_split. apply (F g').
    - apply Forall_forall. intros [n v] I. assert (I' : In n (map fst B)) by (change n with (fst (n, v)); now apply in_map).
      rewrite EB in I'. unfold post_sim_LMFIT_params in Post. rewrite params_from in Post. injection Post as Post'. rewrite <- Post', map_map in I'.
      apply in_map_iff in I' as (io & E & _). cbn [fst] in *. rewrite <- E. apply contains_operation.
    - intros EB0. subst B. destruct (F g) as [F1 _]. cbn in F1. now injection F1 as ->.
  Qed.
End Made.
