(** Proofs about single_site_system_generator. *)
From Coq Require Import ZArith QArith Bool Ascii String List Lia Lqa Sorted.
From Verif Require Import Base SitesModel SitesProofs CollectModel CollectSpec.
Import ListNotations.
Open Scope string_scope.
Open Scope list_scope.

(** * Sizes *)
Lemma length_array {A} (x : arg A) m : (0 < m)%nat -> get_length x = m <-> is_array_of m x.
Proof.
  intros P. unfold get_length, is_array_of. destruct x; split.
  - intros; lia.
  - intros [l [H _]]. discriminate.
  - intros; eauto.
  - intros [l' [H <-]]. now injection H as ->.
Qed.

Lemma known_lookup params d k : NoDup params -> dict_lookup (known_items params d) k =
  if existsb (String.eqb k) params then dict_lookup d k else None.
Proof.
  unfold known_items. induction params as [|p r IH]; intros N; [reflexivity|]. inversion N; subst.
  cbn [map concat existsb]. destruct (dict_lookup d p) as [v|] eqn:E.
  - cbn [app]. rewrite lookup_cons. destruct (String.eqb p k) eqn:K.
    + apply String.eqb_eq in K. subst. rewrite String.eqb_refl. cbn. now rewrite E.
    + rewrite String.eqb_sym in K. rewrite K. cbn [orb]. auto.
  - cbn [app]. rewrite IH by auto. destruct (String.eqb k p) eqn:K; [|reflexivity].
    apply String.eqb_eq in K. subst. cbn [orb]. rewrite E. now destruct (existsb (String.eqb p) r).
Qed.
Lemma known_in_lookup params d k v : In (k, v) (known_items params d) <-> In k params /\ dict_lookup d k = Some v.
Proof.
  unfold known_items. rewrite in_concat. split.
  - intros [l [H I]]. apply in_map_iff in H as [p [<- P]]. destruct (dict_lookup d p) eqn:E; [|destruct I].
    destruct I as [I|[]]. apply pair_equal_spec in I as [<- <-]. auto.
  - intros [P E]. exists [(k, v)]. split; [|now left]. apply in_map_iff. exists k. now rewrite E.
Qed.
Lemma tensor_sizes_in params d m : (0 < m)%nat -> In m (tensor_sizes params d) <-> tensor_array params m d.
Proof.
  intros P. unfold tensor_sizes, tensor_array. destruct d as [d|].
  - rewrite in_map_iff. split.
    + intros [[k v] [L I]]. apply known_in_lookup in I as [I E]. exists d, k, v. cbn in L. apply length_array in L; auto.
    + intros [d' [k [v [Q [I [E L]]]]]]. injection Q as <-. exists (k, v). cbn. split; [now apply length_array|]. now apply known_in_lookup.
  - split; [intros []|]. intros [d' [k [v [Q _]]]]. discriminate.
Qed.

Section Gen.
Variables (isotopes : arg string) (shifts : arg Q) (shield quadr : option tensor_arg) (a : option (arg Q)).
Variables (labels names descriptions : arg (option string)).
Definition sizes : list nat := [get_length isotopes; get_length shifts] ++ tensor_sizes SHIELDING_SYM_PARAMS shield
  ++ tensor_sizes QUADRUPOLAR_PARAMS quadr
  ++ [match a with Some a => get_length a | None => O end; get_length labels; get_length names; get_length descriptions].
Lemma sizes_in m : (0 < m)%nat -> In m sizes <-> has_array isotopes shifts shield quadr a labels names descriptions m.
Proof.
  intros P. unfold sizes, has_array. rewrite !in_app_iff. cbn [In].
  rewrite !(length_array _ m P). rewrite !(tensor_sizes_in _ _ m P).
  assert (Q : match a with Some a => get_length a | None => O end = m <-> exists x, a = Some x /\ is_array_of m x).
  { destruct a as [x|]. rewrite length_array by auto. split; [eauto|]. intros [y [H I]]. now injection H as <-.
    split; [lia|]. intros [y [H _]]. discriminate. }
  unfold SHIELDING_SYM_PARAMS, QUADRUPOLAR_PARAMS. tauto.
Qed.
End Gen.

Lemma check_ok l n : (0 < n)%nat -> In n l -> (forall m, In m l -> (0 < m)%nat -> m = n) -> check_size l = Ok n.
Proof.
  intros P I A. unfold check_size.
  assert (F : forall m, In m (filter (fun n => Nat.ltb 0 n) l) -> m = n).
  { intros m H. apply filter_In in H as [H K]. apply Nat.ltb_lt in K. auto. }
  assert (K : In n (filter (fun n => Nat.ltb 0 n) l)) by (apply filter_In; split; auto; now apply Nat.ltb_lt).
  destruct (filter _ l) as [|f r]; [destruct K|].
  assert (f = n) by (apply F; now left). subst f.
  replace (forallb _ _) with true; [reflexivity|]. symmetry. apply forallb_forall. intros m H. apply Nat.eqb_eq. auto.
Qed.
Lemma check_mismatch l m n : (0 < m)%nat -> (0 < n)%nat -> m <> n -> In m l -> In n l -> check_size l = Err ValueError.
Proof.
  intros P Q N I J. unfold check_size.
  assert (K : In n (filter (fun n => Nat.ltb 0 n) l)) by (apply filter_In; split; auto; now apply Nat.ltb_lt).
  assert (K' : In m (filter (fun n => Nat.ltb 0 n) l)) by (apply filter_In; split; auto; now apply Nat.ltb_lt).
  destruct (filter _ l) as [|f r]; [destruct K|].
  destruct (forallb _ _) eqn:E; [|reflexivity]. rewrite forallb_forall in E.
  apply E, Nat.eqb_eq in K. apply E, Nat.eqb_eq in K'. congruence.
Qed.
Lemma check_none l : (forall m, In m l -> m = O) -> check_size l = Err IndexError.
Proof.
  intros H. unfold check_size. replace (filter _ l) with (@nil nat); [reflexivity|].
  symmetry. induction l as [|x r IH]; [reflexivity|]. cbn. assert (x = O) by (apply H; now left). subst. cbn. apply IH. intros; apply H; now right.
Qed.

(** * Entries *)
Lemma default_length {A} (x : arg A) n : fits n x -> length (get_default_lists x n) = n.
Proof. destruct x; cbn; [intros; apply repeat_length | auto]. Qed.
Lemma nth_error_repeat' {A} (x : A) n k : (k < n)%nat -> nth_error (repeat x n) k = Some x.
Proof. revert k. induction n; intros [|k] H; cbn; auto; try lia. apply IHn. lia. Qed.
Lemma default_entry {A} (x : arg A) n k y : (k < n)%nat -> nth_error (get_default_lists x n) k = Some y <-> entry x k y.
Proof.
  intros H. destruct x; cbn; [|tauto]. rewrite nth_error_repeat' by auto. split; [intros Q; now injection Q | now intros ->].
Qed.

Lemma take_ok {A} (l : list A) index : (forall k, In k index -> (k < length l)%nat) ->
  exists r, take l index = Ok r /\ Forall2 (fun k y => nth_error l k = Some y) index r.
Proof.
  unfold take. induction index as [|k r IH]; intros H.
  - exists []. split; [reflexivity | constructor].
  - destruct IH as [t [E F]]; [intros; apply H; now right|].
    destruct (nth_error l k) as [y|] eqn:K. 
    + exists (y :: t). cbn [mapM bind]. rewrite K. cbn [bind]. rewrite E. cbn. split; [reflexivity|]. now constructor.
    + exfalso. apply nth_error_None in K. specialize (H k (or_introl eq_refl)). lia.
Qed.

Lemma qmax_spec l acc : exists m, fold_left qmax l acc = m /\ (m = acc \/ In m l) /\ (acc <= m)%Q /\ forall x, In x l -> (x <= m)%Q.
Proof.
  revert acc. induction l as [|x r IH]; intros acc; cbn [fold_left].
  - exists acc. repeat split; auto. apply Qle_refl. intros x [].
  - destruct (IH (qmax acc x)) as [m [E [I [L U]]]]. exists m. split; [exact E|]. unfold qmax in *.
    destruct (Qle_bool acc x) eqn:K.
    + apply Qle_bool_iff in K. split; [destruct I as [-> | I]; cbn; auto|]. split; [lra|].
      intros y [<- | H]; auto.
    + assert (~ (acc <= x)%Q) by (rewrite <- Qle_bool_iff, K; discriminate).
      split; [destruct I as [-> | I]; cbn; auto|]. split; [lra|]. intros y [<- | H']; auto. lra.
Qed.
Lemma array_max_ok l : l <> [] -> exists m, array_max l = Ok m /\ In m l /\ forall x, In x l -> (x <= m)%Q.
Proof.
  destruct l as [|x r]; [congruence|]. intros _. destruct (qmax_spec r x) as [m [E [I [L U]]]].
  exists m. cbn [array_max]. rewrite E. split; [reflexivity|]. split; [cbn; destruct I; auto|]. intros y [<- | H]; auto.
Qed.

Lemma where_in l cut k : In k (where_above l cut) <-> exists x, nth_error l k = Some x /\ (cut < x)%Q.
Proof.
  unfold where_above. rewrite filter_In, in_seq. split.
  - intros [H K]. destruct (nth_error l k) as [x|]; [|discriminate]. exists x. split; auto.
    destruct (Qlt_le_dec cut x); auto. apply Qle_bool_iff in q. rewrite q in K. discriminate.
  - intros [x [E L]]. split. { assert (nth_error l k <> None) by congruence. apply nth_error_Some in H. lia. }
    rewrite E. destruct (Qle_bool x cut) eqn:B; [|reflexivity]. apply Qle_bool_iff in B. lra.
Qed.
Lemma seq_sorted a n : StronglySorted lt (seq a n).
Proof.
  revert a. induction n; intros; cbn; constructor; auto. apply Forall_forall. intros x H. apply in_seq in H. lia.
Qed.
Lemma filter_sorted {A} (R : A -> A -> Prop) p l : StronglySorted R l -> StronglySorted R (filter p l).
Proof.
  induction 1; cbn; [constructor|]. destruct (p a); auto. constructor; auto.
  apply Forall_forall. intros x I. apply filter_In in I as [I _]. rewrite Forall_forall in H0. auto.
Qed.

Lemma forall2_length {A B} (R : A -> B -> Prop) l r : Forall2 R l r -> length l = length r.
Proof. induction 1; cbn; auto. Qed.

(** * Tensors *)
Lemma tensor_lists_ok params d n index : NoDup params -> tensor_fits params n (Some d) -> (forall k, In k index -> (k < n)%nat) ->
  exists items, tensor_lists params d n index = Ok items /\
    Forall2 (fun p it => length it = length index /\ forall i k, nth_error index i = Some k ->
       match dict_lookup d p with Some v => entry v k (nth i it None) | None => nth i it None = None end) params items.
Proof.
  intros N Fi B. unfold tensor_lists.
  assert (G : forall ps, incl ps params -> exists items, mapM (fun item => match dict_lookup (known_items params d) item with
                    | Some v => take (get_default_lists v n) index
                    | None => Ok (repeat None (length index))
                    end) ps = Ok items /\ Forall2 (fun p it => length it = length index /\ forall i k, nth_error index i = Some k ->
       match dict_lookup d p with Some v => entry v k (nth i it None) | None => nth i it None = None end) ps items).
  { induction ps as [|p ps IH]; intros I. { exists []. split; [reflexivity | constructor]. }
    destruct IH as [items [E F]]; [intros x X; apply I; now right|].
    assert (Ip : In p params) by (apply I; now left).
    assert (X : existsb (String.eqb p) params = true) by (apply existsb_exists; exists p; split; auto; apply String.eqb_refl).
    cbn [mapM bind]. rewrite known_lookup by auto. rewrite X. destruct (dict_lookup d p) as [v|] eqn:D.
    - assert (Fv : fits n v) by (apply (Fi d eq_refl p); auto).
      destruct (take_ok (get_default_lists v n) index) as [t [T TF]].
      { intros k K. rewrite default_length by auto. auto. }
      rewrite T. cbn [bind]. rewrite E. cbn [bind]. exists (t :: items). split; [reflexivity|]. constructor; auto.
      split; [symmetry; eapply forall2_length; eauto|]. intros i k K. rewrite D.
      apply (proj1 (default_entry v n k _ (B k (nth_error_In _ _ K)))).
      clear -TF K. revert i K. induction TF; intros [|i] K; cbn in *; try discriminate; auto. injection K as <-. auto.
    - cbn [bind]. rewrite E. cbn [bind]. exists (repeat None (length index) :: items). split; [reflexivity|]. constructor; auto.
      split; [apply repeat_length|]. intros i k K. rewrite D. apply nth_repeat. }
  apply G. apply incl_refl.
Qed.

Lemma tensor_at_entry params d index items i k : NoDup params ->
  Forall2 (fun p it => length it = length index /\ forall i k, nth_error index i = Some k ->
       match dict_lookup d p with Some v => entry v k (nth i it None) | None => nth i it None = None end) params items ->
  nth_error index i = Some k -> tensor_entry params d k (tensor_at params items i).
Proof.
  intros N F K. unfold tensor_at, tensor_entry. split.
  - rewrite map_map. cbn [fst]. clear N. induction F; cbn; f_equal; auto.
  - intros p x I. apply in_map_iff in I as [[p' it] [Q I]]. cbn in Q. apply pair_equal_spec in Q as [<- <-].
    clear N. induction F as [|p0 it0 ps its [L H] F IH]; cbn in I; [destruct I|]. destruct I as [I|I]; [|exact (IH I)].
    apply pair_equal_spec in I as [<- <-]. exact (H i k K).
Qed.

Lemma nodup_sym : NoDup SHIELDING_SYM_PARAMS.
Proof. unfold SHIELDING_SYM_PARAMS. repeat constructor; cbn; intuition discriminate. Qed.
Lemma nodup_quad : NoDup QUADRUPOLAR_PARAMS.
Proof. unfold QUADRUPOLAR_PARAMS. repeat constructor; cbn; intuition discriminate. Qed.

(** * The spins *)
Lemma twice_spin_known s r : format_isotope_string s = Ok r -> exists n, twice_spin r = Ok n.
Proof.
  intros H. apply format_ok in H as [_ K]. apply known_in in K. pose proof (format_known r K) as F.
  unfold twice_spin. rewrite F. cbn [bind]. apply in_map_iff in K as [[k n] [E I]]. cbn in E. subst k.
  destruct (find _ isotope_data) as [[k m]|] eqn:D; [eauto|].
  exfalso. apply (find_none _ _ D) in I. cbn in I. rewrite String.eqb_refl in I. discriminate.
Qed.

(** * Lists indexed by position *)
Lemma combine_seq_forall2 {A B C} (R : A -> B -> Prop) (S : A -> C -> Prop) (f : B * nat -> C) index l off :
  Forall2 R index l ->
  (forall i k b, nth_error index i = Some k -> R k b -> S k (f (b, (off + i)%nat))) ->
  Forall2 S index (map f (combine l (seq off (length l)))).
Proof.
  intros F. revert off. induction F as [|k b index l H F IH]; intros off G; cbn; constructor.
  - specialize (G O k b eq_refl H). now rewrite Nat.add_0_r in G.
  - apply IH. intros i k' b' E Rk. specialize (G (Datatypes.S i) k' b' E Rk). now rewrite <- plus_n_Sm in G.
Qed.
Lemma combine_seq_mapM {A B C} (R : A -> B -> Prop) (S : A -> C -> Prop) (f : B * nat -> pyres C) index l off :
  Forall2 R index l ->
  (forall i k b, nth_error index i = Some k -> R k b -> exists c, f (b, (off + i)%nat) = Ok c /\ S k c) ->
  exists r, mapM f (combine l (seq off (length l))) = Ok r /\ Forall2 S index r.
Proof.
  intros F. revert off. induction F as [|k b index l H F IH]; intros off G.
  - exists []. split; [reflexivity | constructor].
  - destruct (G O k b eq_refl H) as [c [E Sc]]. rewrite Nat.add_0_r in E.
    destruct (IH (Datatypes.S off)) as [r [Er Fr]].
    { intros i k' b' E' Rk. destruct (G (Datatypes.S i) k' b' E' Rk) as [c' [E'' S']]. rewrite <- plus_n_Sm in E''. eauto. }
    exists (c :: r). cbn [length seq combine mapM bind]. rewrite E. cbn [bind]. rewrite Er. cbn [bind]. split; [reflexivity | now constructor].
Qed.

Lemma zip6_ok (a : list string) b c d e f (index : list nat) (Ra : nat -> string -> Prop) Rb Rc Rd Re Rf :
  Forall2 Ra index a -> Forall2 Rb index b -> Forall2 Rc index c -> Forall2 Rd index d -> Forall2 Re index e -> Forall2 Rf index f ->
  Forall2 (fun k t => let '(x1, x2, x3, x4, x5, x6) := t in Ra k x1 /\ Rb k x2 /\ Rc k x3 /\ Rd k x4 /\ Re k x5 /\ Rf k x6)
    index (zip6 a b c d e f).
Proof.
  intros H. revert b c d e f. induction H; intros b c d e f Hb Hc Hd He Hf.
  - inversion Hb; subst. constructor.
  - inversion Hb; inversion Hc; inversion Hd; inversion He; inversion Hf; subst. cbn. constructor; auto 10.
Qed.
Lemma mapM_forall2 {A B C} (R : A -> B -> Prop) (S : A -> C -> Prop) (f : B -> pyres C) index l :
  Forall2 R index l -> (forall k b, In k index -> R k b -> exists c, f b = Ok c /\ S k c) ->
  exists r, mapM f l = Ok r /\ Forall2 S index r.
Proof.
  induction 1 as [|k b index l H F IH]; intros G.
  - exists []. split; [reflexivity | constructor].
  - destruct (G k b (or_introl eq_refl) H) as [c [E Sc]]. destruct IH as [r [Er Fr]]; [intros; apply G; auto; now right|].
    exists (c :: r). cbn [mapM bind]. rewrite E. cbn [bind]. rewrite Er. split; [reflexivity | now constructor].
Qed.
Lemma forall2_impl_in {A B} (R S : A -> B -> Prop) l r : Forall2 R l r -> (forall a b, In a l -> R a b -> S a b) -> Forall2 S l r.
Proof. induction 1; intros G; constructor; [apply G; auto; now left | apply IHForall2; intros; apply G; auto; now right]. Qed.
