(** Proofs for C102 and C103. *)
From Coq Require Import ZArith QArith Qcanon Bool String Lia List.
From Verif Require Import Base SitesModel SitesProofs JsonModel LiveModel LiveSpec.
Import ListNotations.
Open Scope string_scope.
Open Scope list_scope.

(** ** Lists *)
Lemma update_length {A} (l : list A) i x : List.length (update l i x) = List.length l.
Proof. revert i. induction l as [|y l IH]; intros [|i]; cbn; auto. Qed.
Lemma update_nth {A} (l : list A) i j x : nth_error (update l i x) j = if Nat.eqb i j then (match nth_error l j with Some _ => Some x | None => None end) else nth_error l j.
Proof.
  revert i j. induction l as [|y l IH]; intros i j.
  - destruct i, j; cbn; try reflexivity. destruct (Nat.eqb _ _); reflexivity.
  - destruct i as [|i], j as [|j]; cbn; try reflexivity. apply IH.
Qed.
Lemma update_Forall {A} (P : A -> Prop) l i x : Forall P l -> P x -> Forall P (update l i x).
Proof. intros F Px. revert i. induction F as [|y l Py F IH]; intros [|i]; cbn; constructor; auto. Qed.
Lemma update_other {A} (l : list A) i j x d : i <> j -> nth j (update l i x) d = nth j l d.
Proof. revert i j. induction l as [|y l IH]; intros [|i] [|j] N; cbn; auto; congruence. Qed.
Lemma update_same {A} (l : list A) i x d : (i < List.length l)%nat -> nth i (update l i x) d = x.
Proof. revert i. induction l as [|y l IH]; intros [|i] L; cbn in *; try lia; auto. apply IH. lia. Qed.

(** ** What validation leaves alone *)
Lemma take_same mode st a t : objects (fst (take mode st a t)) = objects st /\ abundances (fst (take mode st a t)) = abundances st.
Proof. destruct mode; split; reflexivity. Qed.
Lemma take_tensors mode st a t : exists l, tensors (fst (take mode st a t)) = tensors st ++ l /\ (forall x, In x l -> t_values x = t_values t).
Proof.
  destruct mode; cbn.
  - exists []. split; [now rewrite app_nil_r|intros x []].
  - eexists. split; [reflexivity|]. intros x [<-|[]]. reflexivity.
  - eexists. split; [reflexivity|]. intros x [<-|[]]. reflexivity.
Qed.
Lemma validate_same mode i r v st : let st' := fst (validate mode i r v st) in
  objects st' = objects st /\ abundances st' = abundances st /\ exists l, tensors st' = tensors st ++ l /\ forall x, In x l -> exists t, In t (tensors st) /\ t_values x = t_values t.
Proof.
  assert (K : objects st = objects st /\ abundances st = abundances st /\ exists l, tensors st = tensors st ++ l /\ forall x, In x l -> exists t, In t (tensors st) /\ t_values x = t_values t).
  { split; [|split]; auto. exists []. split; [now rewrite app_nil_r|intros x []]. }
  unfold validate. destruct v as [a|]; [|exact K]. destruct (nth_error (tensors st) a) as [t|] eqn:E; [|exact K].
  destruct (Bool.eqb _ _); [|exact K].
  pose proof (take_same mode st a t) as S. pose proof (take_tensors mode st a t) as T. destruct (take mode st a t) as [st1 kept]. cbn [fst] in *.
  assert (K1 : objects st1 = objects st /\ abundances st1 = abundances st /\ exists l, tensors st1 = tensors st ++ l /\ forall x, In x l -> exists t, In t (tensors st) /\ t_values x = t_values t).
  { destruct S as [S1 S2]. split; [|split]; auto. destruct T as (l & -> & HT). exists l. split; [reflexivity|]. intros x Hx. exists t. split; [eapply nth_error_In; eauto|auto]. }
  cbv zeta. destruct r; try exact K1. destruct (twice_spin i) as [n|e]; [|exact K1]. destruct (n <? 2)%Z; exact K1.
Qed.
Lemma validate_all_same mode i rs args : forall slots failed st, let st' := fst (validate_all mode i rs args slots failed st) in
  objects st' = objects st /\ abundances st' = abundances st /\ exists l, tensors st' = tensors st ++ l /\ forall x, In x l -> exists t, In t (tensors st) /\ t_values x = t_values t.
Proof.
  induction rs as [|r rs IH]; intros slots failed st; cbn [validate_all].
  - split; [|split]; auto. exists []. split; [now rewrite app_nil_r|intros x []].
  - destruct (args r) as [v|]; [|apply IH]. pose proof (validate_same mode i r v st) as V. destruct (validate mode i r v st) as [st1 [x|e]]; cbn [fst] in *.
    + specialize (IH (set_slot slots r x) failed st1). cbn in IH. destruct V as (V1 & V2 & l & V3 & V4), IH as (I1 & I2 & l' & I3 & I4).
      cbn. split; [congruence|]. split; [congruence|]. exists (l ++ l'). rewrite I3, V3. split; [now rewrite app_assoc|]. intros y Hy. apply in_app_or in Hy. destruct Hy as [Hy|Hy]; [auto|].
      destruct (I4 y Hy) as (t & Ht & Et). rewrite V3 in Ht. apply in_app_or in Ht. destruct Ht as [Ht|Ht]; [eauto|]. destruct (V4 t Ht) as (t' & ? & ?). exists t'. split; [auto|congruence].
    + destruct e; try exact V. specialize (IH slots true st1). cbn in IH. destruct V as (V1 & V2 & l & V3 & V4), IH as (I1 & I2 & l' & I3 & I4).
      cbn. split; [congruence|]. split; [congruence|]. exists (l ++ l'). rewrite I3, V3. split; [now rewrite app_assoc|]. intros y Hy. apply in_app_or in Hy. destruct Hy as [Hy|Hy]; [auto|].
      destruct (I4 y Hy) as (t & Ht & Et). rewrite V3 in Ht. apply in_app_or in Ht. destruct Ht as [Ht|Ht]; [eauto|]. destruct (V4 t Ht) as (t' & ? & ?). exists t'. split; [auto|congruence].
Qed.
Lemma asymmetry_values t t' : t_values t = t_values t' -> asymmetry t' -> asymmetry t.
Proof. unfold asymmetry. intros ->. auto. Qed.
Lemma asymmetry_app l l' : Forall asymmetry l -> (forall x, In x l' -> exists t, In t l /\ t_values x = t_values t) -> Forall asymmetry (l ++ l').
Proof.
  intros F H. apply Forall_app. split; [exact F|]. apply Forall_forall. intros x Hx. destruct (H x Hx) as (t & Ht & E). eapply asymmetry_values; [exact E|]. rewrite Forall_forall in F. auto.
Qed.
Lemma eta_ok_spec values anti d : eta_ok values = true -> asymmetry (mkTensor anti values d).
Proof.
  unfold eta_ok, asymmetry. cbn [t_values]. intros H x E. rewrite E in H. apply andb_true_iff in H. unfold Qc_leb in H. rewrite !Qle_bool_iff in H. exact H.
Qed.
Lemma abundance_ok_spec x : abundance_ok x = true -> percentage x.
Proof. unfold abundance_ok, percentage. intros H. apply andb_true_iff in H. unfold Qc_leb in H. rewrite !Qle_bool_iff in H. exact H. Qed.
Lemma index_ok_spec l : index_ok l = true -> exists a b, l = [a; b] /\ a <> b.
Proof. unfold index_ok. destruct l as [|a [|b [|? ?]]]; try discriminate. intros H. exists a, b. split; [reflexivity|]. apply negb_true_iff, Z.eqb_neq in H. exact H. Qed.

(** A quadrupolar tensor is only kept for a spin of 1 or more. *)
Lemma validate_quadrupolar mode i v st st' x : validate mode i Quadrupolar v st = (st', Ok (Some x)) -> exists n, twice_spin i = Ok n /\ (2 <= n)%Z.
Proof.
  unfold validate. destruct v as [a|]; [|discriminate]. destruct (nth_error _ _) as [t|]; [|discriminate]. destruct (Bool.eqb _ _); [|discriminate].
  destruct (take mode st a t) as [st1 kept]. cbv zeta. destruct (twice_spin i) as [n|e]; [|discriminate]. destruct (n <? 2)%Z eqn:L; [discriminate|]. intros _. exists n. split; [reflexivity|lia].
Qed.
Lemma validate_all_quadrupolar mode i rs args : forall slots failed st st' slots' f,
  validate_all mode i rs args slots failed st = (st', Ok (slots', f)) -> (slots Quadrupolar <> None -> exists n, twice_spin i = Ok n /\ (2 <= n)%Z) ->
  slots' Quadrupolar <> None -> exists n, twice_spin i = Ok n /\ (2 <= n)%Z.
Proof.
  induction rs as [|r rs IH]; intros slots failed st st' slots' f E H; cbn [validate_all] in E.
  - injection E as <- <- <-. exact H.
  - destruct (args r) as [v|]; [|eapply IH; eauto]. destruct (validate mode i r v st) as [st1 [x|e]] eqn:V.
    + eapply IH; [exact E|]. unfold set_slot. destruct (role_dec Quadrupolar r) as [<-|N]; [|exact H]. destruct x as [x|]; [|congruence]. intros _. eapply validate_quadrupolar; eauto.
    + destruct e; try discriminate. eapply IH; eauto.
Qed.

(** ** Validity *)
Definition valid_always (st : state) : Prop := Forall two_different (objects st) /\ Forall percentage (abundances st).
Lemma validate_all_failed mode i rs args : forall slots failed st st' slots' f, validate_all mode i rs args slots failed st = (st', Ok (slots', f)) -> failed = true -> f = true.
Proof.
  induction rs as [|r rs IH]; intros slots failed st st' slots' f E H; cbn [validate_all] in E; [congruence|].
  destruct (args r) as [v|]; [|eauto]. destruct (validate mode i r v st) as [st1 [x|e]]; [eauto|]. destruct e; try discriminate. eauto.
Qed.
Lemma valid_always_step mode c st : valid_always st -> valid_always (fst (step mode c st)).
Proof.
  intros (O & A). unfold step. destruct c.
  - destruct (eta_ok values); split; auto.
  - destruct (nth_error _ _); split; auto.
  - destruct (format_isotope_string isotope) as [i|e]; [|split; auto].
    pose proof (validate_all_same mode i (fields_of true) args empty_slots false st) as V.
    destruct (validate_all mode i (fields_of true) args empty_slots false st) as [st' [[slots [|]]|e]]; cbn [fst] in *; destruct V as (V1 & V2 & _); split; cbn; rewrite ?V1, ?V2; auto.
    apply Forall_app. split; [exact O|]. constructor; [|constructor]. intros H. discriminate.
  - pose proof (validate_all_same mode "" (fields_of false) args empty_slots (negb (index_ok index)) st) as V.
    destruct (validate_all mode "" (fields_of false) args empty_slots (negb (index_ok index)) st) as [st' [[slots [|]]|e]] eqn:E; cbn [fst] in *; destruct V as (V1 & V2 & _); split; cbn; rewrite ?V1, ?V2; auto.
    apply Forall_app. split; [exact O|]. constructor; [|constructor]. intros _. cbn. apply index_ok_spec. destruct (index_ok index) eqn:I; [reflexivity|]. pose proof (validate_all_failed _ _ _ _ _ _ _ _ _ _ E eq_refl). discriminate.
  - destruct (nth_error (objects st) site) as [o|] eqn:E; [|split; auto]. destruct (o_site o) eqn:S; [|split; auto]. destruct (format_isotope_string isotope); [|split; auto].
    split; cbn; auto. apply update_Forall; auto. intros H. discriminate.
  - destruct (nth_error (objects st) coupling) as [o|] eqn:E; [|split; auto]. destruct (o_site o) eqn:S; [split; auto|]. destruct (index_ok index) eqn:I; [|split; auto].
    split; cbn; auto. apply update_Forall; auto. intros _. cbn. now apply index_ok_spec.
  - destruct (nth_error (objects st) obj) as [o|] eqn:E; [|split; auto]. destruct (in_dec _ _ _); [|split; auto].
    pose proof (validate_same mode (o_isotope o) field v st) as V. destruct (validate mode (o_isotope o) field v st) as [st' [x|e]]; cbn [fst] in *; destruct V as (V1 & V2 & _); split; cbn; rewrite ?V1, ?V2; auto.
    apply update_Forall; auto. assert (T : two_different o) by (rewrite Forall_forall in O; apply O; eapply nth_error_In; eauto). exact T.
  - destruct (abundance_ok abundance) eqn:B; [|split; auto]. split; cbn; auto. apply Forall_app. split; [exact A|]. constructor; [now apply abundance_ok_spec|constructor].
  - destruct (nth_error _ _); [|split; auto]. destruct (abundance_ok abundance) eqn:B; [|split; auto]. split; cbn; auto. apply update_Forall; auto. now apply abundance_ok_spec.
Qed.
Lemma session_inv mode (P : state -> Prop) (Q : op -> Prop) cs : P start -> (forall c st, Q c -> P st -> P (fst (step mode c st))) -> Forall Q cs -> P (session mode cs).
Proof.
  intros P0 PS F. unfold session. revert F P0. generalize start. induction cs as [|c cs IH]; intros st F P0; [exact P0|]. inversion F; subst. cbn. apply IH; auto.
Qed.
Lemma format_known s i : format_isotope_string s = Ok i -> In i (map fst isotope_data).
Proof. intros H. apply format_ok in H. apply known_in. tauto. Qed.
Lemma known_step mode c st : Forall known_isotope (objects st) -> Forall known_isotope (objects (fst (step mode c st))).
Proof.
  intros O. unfold step. destruct c.
  - destruct (eta_ok values); exact O.
  - destruct (nth_error _ _); exact O.
  - destruct (format_isotope_string isotope) as [i|e] eqn:FI; [|exact O].
    pose proof (validate_all_same mode i (fields_of true) args empty_slots false st) as V.
    destruct (validate_all mode i (fields_of true) args empty_slots false st) as [st' [[slots [|]]|e]]; cbn [fst] in *; destruct V as (V1 & V2 & _); cbn; rewrite ?V1; auto.
    apply Forall_app. split; [exact O|]. constructor; [|constructor]. intros _. cbn. exact (format_known _ _ FI).
  - pose proof (validate_all_same mode "" (fields_of false) args empty_slots (negb (index_ok index)) st) as V.
    destruct (validate_all mode "" (fields_of false) args empty_slots (negb (index_ok index)) st) as [st' [[slots [|]]|e]] eqn:E; cbn [fst] in *; destruct V as (V1 & V2 & _); cbn; rewrite ?V1; auto.
    apply Forall_app. split; [exact O|]. constructor; [|constructor]. intros H. discriminate.
  - destruct (nth_error (objects st) site) as [o|] eqn:E; [|exact O]. destruct (o_site o) eqn:S; [|exact O]. destruct (format_isotope_string isotope) as [f|] eqn:FI; [|exact O].
    cbn. apply update_Forall; auto. intros _. cbn. exact (format_known _ _ FI).
  - destruct (nth_error (objects st) coupling) as [o|] eqn:E; [|exact O]. destruct (o_site o) eqn:S; [exact O|]. destruct (index_ok index) eqn:I; [|exact O].
    cbn. apply update_Forall; auto. intros H. discriminate.
  - destruct (nth_error (objects st) obj) as [o|] eqn:E; [|exact O]. destruct (in_dec _ _ _); [|exact O].
    pose proof (validate_same mode (o_isotope o) field v st) as V. destruct (validate mode (o_isotope o) field v st) as [st' [x|e]]; cbn [fst] in *; destruct V as (V1 & V2 & _); cbn; rewrite ?V1; auto.
    apply update_Forall; auto. assert (T : known_isotope o) by (rewrite Forall_forall in O; apply O; eapply nth_error_In; eauto). exact T.
  - destruct (abundance_ok abundance); exact O.
  - destruct (nth_error _ _); [|exact O]. destruct (abundance_ok abundance); exact O.
Qed.
Lemma known_session mode cs : Forall known_isotope (objects (session mode cs)).
Proof. apply (session_inv mode (fun st => Forall known_isotope (objects st)) (fun _ => True)); [constructor|intros; now apply known_step|apply Forall_forall; auto]. Qed.
Lemma valid_always_main mode cs : valid_always (session mode cs).
Proof. apply (session_inv mode valid_always (fun _ => True)); [split; constructor|intros; now apply valid_always_step|apply Forall_forall; auto]. Qed.

Lemma asymmetry_step mode c st : (forall a v, c <> SetValue a "eta" v) -> Forall asymmetry (tensors st) -> Forall asymmetry (tensors (fst (step mode c st))).
Proof.
  intros N F. unfold step. destruct c.
  - destruct (eta_ok values) eqn:E; [|exact F]. cbn. apply Forall_app. split; [exact F|]. constructor; [|constructor]. now apply eta_ok_spec.
  - destruct (nth_error (tensors st) tensor) as [t|] eqn:E; [|exact F]. cbn. apply update_Forall; [exact F|]. assert (T : asymmetry t) by (rewrite Forall_forall in F; apply F; eapply nth_error_In; eauto).
    intros x. cbn [t_values]. assert (NE : name <> "eta") by (intros ->; apply (N tensor v); reflexivity). destruct v as [y|].
    + rewrite lookup_set. destruct (String.eqb_spec name "eta"); [congruence|]. apply T.
    + unfold dict_pop. intros H. apply T. revert H. unfold dict_lookup. induction (t_values t) as [|[k z] l IH]; cbn [filter find fst negb]; [auto|].
      destruct (String.eqb_spec k name) as [->|NK]; cbn [negb].
      * destruct (String.eqb_spec name "eta"); [congruence|]. exact IH.
      * cbn [find fst]. destruct (String.eqb k "eta"); [auto|exact IH].
  - destruct (format_isotope_string isotope) as [i|e]; [|exact F].
    pose proof (validate_all_same mode i (fields_of true) args empty_slots false st) as V.
    destruct (validate_all mode i (fields_of true) args empty_slots false st) as [st' [[slots [|]]|e]]; cbn [fst] in *; destruct V as (_ & _ & l & V3 & V4); cbn; rewrite V3; now apply asymmetry_app.
  - pose proof (validate_all_same mode "" (fields_of false) args empty_slots (negb (index_ok index)) st) as V.
    destruct (validate_all mode "" (fields_of false) args empty_slots (negb (index_ok index)) st) as [st' [[slots [|]]|e]]; cbn [fst] in *; destruct V as (_ & _ & l & V3 & V4); cbn; rewrite V3; now apply asymmetry_app.
  - destruct (nth_error (objects st) site) as [o|] eqn:E; [|exact F]. destruct (o_site o) eqn:S; [|exact F]. destruct (format_isotope_string isotope); exact F.
  - destruct (nth_error (objects st) coupling) as [o|] eqn:E; [|exact F]. destruct (o_site o) eqn:S; [exact F|]. destruct (index_ok index) eqn:I; exact F.
  - destruct (nth_error (objects st) obj) as [o|] eqn:E; [|exact F]. destruct (in_dec _ _ _); [|exact F].
    pose proof (validate_same mode (o_isotope o) field v st) as V. destruct (validate mode (o_isotope o) field v st) as [st' [x|e]]; cbn [fst] in *; destruct V as (_ & _ & l & V3 & V4); cbn; rewrite V3; now apply asymmetry_app.
  - destruct (abundance_ok abundance); exact F.
  - destruct (nth_error _ _); [|exact F]. destruct (abundance_ok abundance); exact F.
Qed.
Lemma quadrupolar_step mode c st : (forall s i, c <> SetIsotope s i) -> Forall quadrupolar_nucleus (objects st) -> Forall quadrupolar_nucleus (objects (fst (step mode c st))).
Proof.
  intros N F. unfold step. destruct c.
  - destruct (eta_ok values); exact F.
  - destruct (nth_error (tensors st) tensor); exact F.
  - destruct (format_isotope_string isotope) as [i|e]; [|exact F].
    pose proof (validate_all_same mode i (fields_of true) args empty_slots false st) as V.
    destruct (validate_all mode i (fields_of true) args empty_slots false st) as [st' [[slots [|]]|e]] eqn:E; cbn [fst] in *; destruct V as (V1 & _); cbn; rewrite V1; auto.
    apply Forall_app. split; [exact F|]. constructor; [|constructor]. intros _. cbn. eapply validate_all_quadrupolar; [exact E|]. intros H. exfalso. apply H. reflexivity.
  - pose proof (validate_all_same mode "" (fields_of false) args empty_slots (negb (index_ok index)) st) as V.
    destruct (validate_all mode "" (fields_of false) args empty_slots (negb (index_ok index)) st) as [st' [[slots [|]]|e]] eqn:E; cbn [fst] in *; destruct V as (V1 & _); cbn; rewrite V1; auto.
    apply Forall_app. split; [exact F|]. constructor; [|constructor]. intros H. discriminate.
  - exfalso. eapply N. reflexivity.
  - destruct (nth_error (objects st) coupling) as [o|] eqn:E; [|exact F]. destruct (o_site o) eqn:S; [exact F|]. destruct (index_ok index) eqn:I; [|exact F]. cbn. apply update_Forall; auto. intros H. discriminate.
  - destruct (nth_error (objects st) obj) as [o|] eqn:E; [|exact F]. destruct (in_dec _ _ _); [|exact F].
    pose proof (validate_same mode (o_isotope o) field v st) as V. destruct (validate mode (o_isotope o) field v st) as [st' [x|e]] eqn:W; cbn [fst] in *; destruct V as (V1 & _); cbn; rewrite V1; auto.
    apply update_Forall; auto. assert (T : quadrupolar_nucleus o) by (rewrite Forall_forall in F; apply F; eapply nth_error_In; eauto).
    intros S. cbn. unfold set_slot. destruct (role_dec Quadrupolar field) as [<-|NF]; [|apply T; exact S]. destruct x as [x|]; [|congruence]. intros _. eapply validate_quadrupolar; eauto.
  - destruct (abundance_ok abundance); exact F.
  - destruct (nth_error _ _); [|exact F]. destruct (abundance_ok abundance); exact F.
Qed.

(** ** Rejected assignments *)
Definition places_ok (st : state) : Prop := Forall (fun t => (t_units t < List.length (dicts st))%nat) (tensors st).
Lemma unchanged_refl st : unchanged st st.
Proof. repeat split; auto. Qed.
Lemma take_unchanged mode st a t : places_ok st -> unchanged st (fst (take mode st a t)).
Proof.
  intros P. destruct mode; [apply unchanged_refl| |]; cbn; (split; [reflexivity|split; [reflexivity|]]); cbn; intros b u E;
    (split; [rewrite nth_error_app1 by (apply nth_error_Some; congruence); exact E|]); [reflexivity|].
  apply app_nth1. unfold places_ok in P. rewrite Forall_forall in P. apply P. eapply nth_error_In; eauto.
Qed.
Lemma validate_rejected mode i r v st e : places_ok st -> snd (validate mode i r v st) = Err e -> unchanged st (fst (validate mode i r v st)).
Proof.
  intros P. unfold validate. destruct v as [a|]; [|intros _; apply unchanged_refl]. destruct (nth_error (tensors st) a) as [t|]; [|intros _; apply unchanged_refl].
  destruct (Bool.eqb _ _); [|intros _; apply unchanged_refl]. pose proof (take_unchanged mode st a t P) as U. destruct (take mode st a t) as [st1 kept]. cbn [fst] in U. cbv zeta.
  destruct r; try discriminate. destruct (twice_spin i) as [n|]; [|intros _; exact U]. destruct (n <? 2)%Z; [intros _; exact U|discriminate].
Qed.
Lemma places_take mode st a t : places_ok st -> In t (tensors st) -> places_ok (fst (take mode st a t)).
Proof.
  unfold places_ok. intros P I. rewrite Forall_forall in P. destruct mode; cbn; [apply Forall_forall; auto| |]; apply Forall_app; split.
  - apply Forall_forall; auto.
  - constructor; auto.
  - rewrite app_length. cbn. apply Forall_forall. intros x Hx. specialize (P x Hx). cbn in P. lia.
  - constructor; [|constructor]. cbn. rewrite app_length. cbn. lia.
Qed.
Lemma places_validate mode i r v st : places_ok st -> places_ok (fst (validate mode i r v st)).
Proof.
  intros P. unfold validate. destruct v as [a|]; [|exact P]. destruct (nth_error (tensors st) a) as [t|] eqn:E; [|exact P].
  destruct (Bool.eqb _ _); [|exact P]. pose proof (places_take mode st a t P (nth_error_In _ _ E)) as U. destruct (take mode st a t) as [st1 kept]. cbn [fst] in U. cbv zeta.
  assert (C : forall k, places_ok (change_units r k st1)) by (intros k; unfold places_ok, change_units; cbn; rewrite update_length; exact U).
  destruct r; try apply C. destruct (twice_spin i) as [n|]; [|exact U]. destruct (n <? 2)%Z; [exact U|apply C].
Qed.
Lemma places_validate_all mode i rs args : forall slots failed st, places_ok st -> places_ok (fst (validate_all mode i rs args slots failed st)).
Proof.
  induction rs as [|r rs IH]; intros slots failed st P; cbn [validate_all]; [exact P|]. destruct (args r) as [v|]; [|auto].
  pose proof (places_validate mode i r v st P) as V. destruct (validate mode i r v st) as [st1 [x|e]]; cbn [fst] in *; [auto|]. destruct e; auto.
Qed.
Lemma places_step mode c st : places_ok st -> places_ok (fst (step mode c st)).
Proof.
  intros P. unfold step. destruct c.
  - destruct (eta_ok values); [|exact P]. unfold places_ok in *. cbn. rewrite app_length. cbn. apply Forall_app. split; [|constructor; [cbn; lia|constructor]]. rewrite Forall_forall in *. intros x Hx. specialize (P x Hx). cbn in P. lia.
  - destruct (nth_error (tensors st) tensor) as [t|] eqn:E; [|exact P]. unfold places_ok in *. cbn. apply update_Forall; [exact P|]. cbn. rewrite Forall_forall in P. apply P. eapply nth_error_In; eauto.
  - destruct (format_isotope_string isotope) as [i|e]; [|exact P].
    pose proof (places_validate_all mode i (fields_of true) args empty_slots false st P) as V.
    destruct (validate_all mode i (fields_of true) args empty_slots false st) as [st' [[slots [|]]|e]]; exact V.
  - pose proof (places_validate_all mode "" (fields_of false) args empty_slots (negb (index_ok index)) st P) as V.
    destruct (validate_all mode "" (fields_of false) args empty_slots (negb (index_ok index)) st) as [st' [[slots [|]]|e]]; exact V.
  - destruct (nth_error (objects st) site) as [o|]; [|exact P]. destruct (o_site o); [|exact P]. destruct (format_isotope_string isotope); exact P.
  - destruct (nth_error (objects st) coupling) as [o|]; [|exact P]. destruct (o_site o); [exact P|]. destruct (index_ok index); exact P.
  - destruct (nth_error (objects st) obj) as [o|]; [|exact P]. destruct (in_dec _ _ _); [|exact P].
    pose proof (places_validate mode (o_isotope o) field v st P) as V. destruct (validate mode (o_isotope o) field v st) as [st' [x|e]]; exact V.
  - destruct (abundance_ok abundance); exact P.
  - destruct (nth_error _ _); [|exact P]. destruct (abundance_ok abundance); exact P.
Qed.
Lemma places_session mode cs : places_ok (session mode cs).
Proof. apply (session_inv mode places_ok (fun _ => True)); [constructor|intros; now apply places_step|apply Forall_forall; auto]. Qed.
Definition is_construction (c : op) : Prop := match c with NewSite _ _ | NewCoupling _ _ => True | _ => False end.
Lemma rejected_step mode c st e : places_ok st -> ~ is_construction c -> snd (step mode c st) = Err e -> unchanged st (fst (step mode c st)).
Proof.
  intros P NC. unfold step. destruct c; cbn in NC; try tauto.
  - destruct (eta_ok values); [discriminate|]. intros _. apply unchanged_refl.
  - destruct (nth_error _ _); [discriminate|]. intros _. apply unchanged_refl.
  - destruct (nth_error (objects st) site) as [o|]; [|intros _; apply unchanged_refl]. destruct (o_site o); [|intros _; apply unchanged_refl]. destruct (format_isotope_string isotope); [discriminate|]. intros _. apply unchanged_refl.
  - destruct (nth_error (objects st) coupling) as [o|]; [|intros _; apply unchanged_refl]. destruct (o_site o); [intros _; apply unchanged_refl|]. destruct (index_ok index); [discriminate|]. intros _. apply unchanged_refl.
  - destruct (nth_error (objects st) obj) as [o|]; [|intros _; apply unchanged_refl]. destruct (in_dec _ _ _); [|intros _; apply unchanged_refl].
    pose proof (validate_rejected mode (o_isotope o) field v st e P) as V. destruct (validate mode (o_isotope o) field v st) as [st' [x|e']]; cbn [fst snd] in *; [discriminate|]. intros H. apply V. congruence.
  - destruct (abundance_ok abundance); [discriminate|]. intros _. apply unchanged_refl.
  - destruct (nth_error _ _); [|intros _; apply unchanged_refl]. destruct (abundance_ok abundance); [discriminate|]. intros _. apply unchanged_refl.
Qed.

(** ** Units *)
(** The units of a tensor are those it was made with, changed by at most one field. *)
Definition units_of (st : state) (t : tensor) : units := nth (t_units t) (dicts st) [].
Record units_inv (st : state) : Prop := mkInv {
  i_places : places_ok st;
  i_log : forall d r, In (d, r) (log st) -> (d < List.length (dicts st))%nat;
  i_anti : forall t t', In t (tensors st) -> In t' (tensors st) -> t_units t = t_units t' -> t_anti t = t_anti t';
  i_units : forall t, In t (tensors st) -> units_of st t = default_units (t_anti t) \/ exists r, In (t_units t, r) (log st) /\ units_of st t = pop_units r (default_units (t_anti t)) }.
(** A tensor kept in a field. *)
Definition kept_ok (st : state) (r : role) (a : nat) : Prop :=
  exists t, nth_error (tensors st) a = Some t /\ t_anti t = wants_anti r /\ In (t_units t, r) (log st) /\ units_of st t = pop_units r (default_units (t_anti t)).
Lemma pop_idem r anti : pop_units r (pop_units r (default_units anti)) = pop_units r (default_units anti).
Proof. destruct r, anti; reflexivity. Qed.
Lemma log_grows_validate mode i r v st x : In x (log st) -> In x (log (fst (validate mode i r v st))).
Proof.
  intros H. unfold validate. destruct v as [a|]; [|exact H]. destruct (nth_error (tensors st) a) as [t|]; [|exact H]. destruct (Bool.eqb _ _); [|exact H].
  assert (T : In x (log (fst (take mode st a t)))) by (destruct mode; cbn; [exact H|exact H|apply in_or_app; auto]). clear H. rename T into H. destruct (take mode st a t) as [st1 kept]. cbn [fst] in H. cbv zeta.
  assert (C : forall k, In x (log (change_units r k st1))) by (intros k; cbn; auto).
  destruct r; try apply C. destruct (twice_spin i) as [n|]; [|exact H]. destruct (n <? 2)%Z; [exact H|apply C].
Qed.
Lemma log_grows_validate_all mode i rs args x : forall slots failed st, In x (log st) -> In x (log (fst (validate_all mode i rs args slots failed st))).
Proof.
  induction rs as [|r rs IH]; intros slots failed st P; cbn [validate_all]; [exact P|]. destruct (args r) as [v|]; [|auto].
  pose proof (log_grows_validate mode i r v st x P) as V. destruct (validate mode i r v st) as [st1 [y|e]]; cbn [fst] in *; [auto|]. destruct e; auto.
Qed.
Lemma log_grows mode c st x : In x (log st) -> In x (log (fst (step mode c st))).
Proof.
  intros P. unfold step. destruct c.
  - destruct (eta_ok values); exact P.
  - destruct (nth_error (tensors st) tensor); exact P.
  - destruct (format_isotope_string isotope) as [i|e]; [|exact P].
    pose proof (log_grows_validate_all mode i (fields_of true) args x empty_slots false st P) as V.
    destruct (validate_all mode i (fields_of true) args empty_slots false st) as [st' [[slots [|]]|e]]; exact V.
  - pose proof (log_grows_validate_all mode "" (fields_of false) args x empty_slots (negb (index_ok index)) st P) as V.
    destruct (validate_all mode "" (fields_of false) args empty_slots (negb (index_ok index)) st) as [st' [[slots [|]]|e]]; exact V.
  - destruct (nth_error (objects st) site) as [o|]; [|exact P]. destruct (o_site o); [|exact P]. destruct (format_isotope_string isotope); exact P.
  - destruct (nth_error (objects st) coupling) as [o|]; [|exact P]. destruct (o_site o); [exact P|]. destruct (index_ok index); exact P.
  - destruct (nth_error (objects st) obj) as [o|]; [|exact P]. destruct (in_dec _ _ _); [|exact P].
    pose proof (log_grows_validate mode (o_isotope o) field v st x P) as V. destruct (validate mode (o_isotope o) field v st) as [st' [y|e]]; exact V.
  - destruct (abundance_ok abundance); exact P.
  - destruct (nth_error _ _); [|exact P]. destruct (abundance_ok abundance); exact P.
Qed.
Lemma one_field_before st st' : (forall x, In x (log st) -> In x (log st')) -> one_field_each st' -> one_field_each st.
Proof. intros G O d r r' H H'. apply (O d); auto. Qed.

Lemma nth_error_app_some {A} (l l' : list A) a t : nth_error l a = Some t -> nth_error (l ++ l') a = Some t.
Proof. intros E. rewrite nth_error_app1; [exact E|]. apply nth_error_Some. congruence. Qed.
(** Keeping a tensor. *)
Lemma inherited_in old new l d r : In (d, r) (inherited old new l) <-> d = new /\ In (old, r) l.
Proof.
  unfold inherited. rewrite in_map_iff. split.
  - intros ([x y] & [= <- <-] & H). apply filter_In in H. destruct H as (H & E). cbn in E. apply Nat.eqb_eq in E. subst. auto.
  - intros (-> & H). exists (old, r). split; [reflexivity|]. apply filter_In. split; [exact H|]. apply Nat.eqb_refl.
Qed.
Lemma take_inv mode st a t : units_inv st -> nth_error (tensors st) a = Some t ->
  units_inv (fst (take mode st a t)) /\
  (forall r b, kept_ok st r b -> kept_ok (fst (take mode st a t)) r b) /\
  exists t', nth_error (tensors (fst (take mode st a t))) (snd (take mode st a t)) = Some t' /\ t_anti t' = t_anti t.
Proof.
  intros [P L S D] E. pose proof (nth_error_In _ _ E) as I. pose proof (places_take mode st a t P I) as P'.
  destruct mode; cbn [take fst snd] in *.
  - split; [constructor; assumption|]. split; [auto|]. exists t. auto.
  - assert (IN : forall x, In x (tensors st ++ [t]) -> In x (tensors st)) by (intros x Hx; apply in_app_or in Hx; destruct Hx as [|[<-|[]]]; auto).
    split; [constructor; [exact P'|exact L|intros x y Hx Hy; exact (S x y (IN x Hx) (IN y Hy))|intros x Hx; exact (D x (IN x Hx))]|]. split.
    + intros r b (x & Hx & K). exists x. split; [now apply nth_error_app_some|exact K].
    + exists t. cbn. split; [rewrite nth_error_app2, Nat.sub_diag by lia; reflexivity|reflexivity].
  - assert (LT : forall x, In x (tensors st) -> (t_units x < List.length (dicts st))%nat) by (intros x Hx; unfold places_ok in P; rewrite Forall_forall in P; auto).
    set (n := List.length (dicts st)) in *. set (st' := mkState _ _ _ _ _).
    assert (OLD : forall x, In x (tensors st) -> units_of st' x = units_of st x) by (intros x Hx; unfold units_of, st'; cbn; apply app_nth1; fold n; auto).
    assert (NEW : units_of st' (mkTensor (t_anti t) (t_values t) n) = units_of st t) by (unfold units_of, st'; cbn; unfold n; rewrite app_nth2, Nat.sub_diag by lia; reflexivity).
    split; [constructor; [exact P'| | |]|split].
    + unfold st'. cbn. intros d r H. rewrite app_length. cbn. apply in_app_or in H. destruct H as [H|H]; [apply inherited_in in H; destruct H as (-> & _); unfold n; lia|]. specialize (L d r H). unfold n in L. lia.
    + unfold st'. cbn. intros x y Hx Hy. apply in_app_or in Hx, Hy. destruct Hx as [Hx|[<-|[]]], Hy as [Hy|[<-|[]]]; cbn; auto; intros EU; [specialize (LT x Hx)|specialize (LT y Hy)]; lia.
    + intros x Hx. apply in_app_or in Hx. destruct Hx as [Hx|[<-|[]]].
      * rewrite (OLD x Hx). destruct (D x Hx) as [K|(r & K1 & K2)]; [auto|]. right. exists r. split; [apply in_or_app; auto|exact K2].
      * rewrite NEW. cbn [t_anti t_units]. destruct (D t I) as [K|(r & K1 & K2)]; [auto|]. right. exists r. split; [|exact K2]. apply in_or_app. left. apply inherited_in. auto.
    + intros r b (x & Hx & K1 & K2 & K3). exists x. split; [now apply nth_error_app_some|]. split; [exact K1|]. split; [apply in_or_app; auto|]. rewrite (OLD x (nth_error_In _ _ Hx)). exact K3.
    + eexists. split; [unfold st'; cbn; rewrite nth_error_app2, Nat.sub_diag by lia; reflexivity|reflexivity].
Qed.
Lemma change_inv st r a t : units_inv st -> nth_error (tensors st) a = Some t -> t_anti t = wants_anti r -> one_field_each (change_units r (t_units t) st) ->
  units_inv (change_units r (t_units t) st) /\ (forall q b, kept_ok st q b -> kept_ok (change_units r (t_units t) st) q b) /\ kept_ok (change_units r (t_units t) st) r a.
Proof.
  intros [P L S D] E W O. pose proof (nth_error_In _ _ E) as I. set (st' := change_units r (t_units t) st) in *.
  assert (LT : forall x, In x (tensors st) -> (t_units x < List.length (dicts st))%nat) by (intros x Hx; unfold places_ok in P; rewrite Forall_forall in P; auto).
  assert (OLD : forall x, t_units x <> t_units t -> units_of st' x = units_of st x) by (intros x N; unfold units_of, st'; cbn; apply update_other; congruence).
  assert (NEW : forall x, In x (tensors st) -> t_units x = t_units t -> units_of st' x = pop_units r (default_units (t_anti x))).
  { intros x Hx N. unfold units_of. rewrite N. unfold st'. cbn. rewrite update_same by auto. change (nth (t_units t) (dicts st) []) with (units_of st t). rewrite (S x t Hx I N).
    destruct (D t I) as [->|(q & K1 & ->)]; [reflexivity|]. assert (q = r) as -> by (apply (O (t_units t)); [right; exact K1|left; reflexivity]). apply pop_idem. }
  assert (P' : places_ok st') by (unfold places_ok, st'; cbn; rewrite update_length; exact P).
  split; [constructor; [exact P'| | |]|split].
  - unfold st'. cbn. rewrite update_length. intros d q [[= <- <-]|H]; [auto|eauto].
  - exact S.
  - intros x Hx. destruct (Nat.eq_dec (t_units x) (t_units t)) as [EQ|NE].
    + right. exists r. split; [left; congruence|]. auto.
    + rewrite (OLD x NE). destruct (D x Hx) as [K|(q & K1 & K2)]; [auto|]. right. exists q. split; [right; exact K1|exact K2].
  - intros q b (x & Hx & K1 & K2 & K3). exists x. split; [exact Hx|]. split; [exact K1|]. split; [right; exact K2|].
    destruct (Nat.eq_dec (t_units x) (t_units t)) as [EQ|NE]; [|rewrite (OLD x NE); exact K3]. rewrite (NEW x (nth_error_In _ _ Hx) EQ). f_equal. apply (O (t_units t)); [left; reflexivity|right; rewrite <- EQ; exact K2].
  - exists t. split; [exact E|]. split; [exact W|]. split; [left; reflexivity|]. apply NEW; auto.
Qed.
Lemma validate_inv mode i r v st : units_inv st -> one_field_each (fst (validate mode i r v st)) ->
  units_inv (fst (validate mode i r v st)) /\ (forall q b, kept_ok st q b -> kept_ok (fst (validate mode i r v st)) q b) /\
  (forall a, snd (validate mode i r v st) = Ok (Some a) -> kept_ok (fst (validate mode i r v st)) r a).
Proof.
  intros H. assert (K : units_inv st /\ (forall q b, kept_ok st q b -> kept_ok st q b) /\ True) by auto. unfold validate.
  destruct v as [a|]; [|cbn; intros _; destruct (handles_none r); (split; [exact H|split; [auto|intros; discriminate]])].
  destruct (nth_error (tensors st) a) as [t|] eqn:E; [|cbn; intros _; split; [exact H|split; [auto|discriminate]]].
  destruct (Bool.eqb (t_anti t) (wants_anti r)) eqn:B; [|cbn; intros _; split; [exact H|split; [auto|discriminate]]]. apply Bool.eqb_prop in B.
  pose proof (take_inv mode st a t H E) as T. destruct (take mode st a t) as [st1 kept]. cbn [fst snd] in T. destruct T as (T1 & T2 & t' & T3 & T4). cbv zeta.
  rewrite (nth_error_nth _ _ t T3).
  assert (G : one_field_each (change_units r (t_units t') st1) ->
    units_inv (change_units r (t_units t') st1) /\ (forall q b, kept_ok st q b -> kept_ok (change_units r (t_units t') st1) q b) /\ (forall a, Some kept = Some a -> kept_ok (change_units r (t_units t') st1) r a)).
  { intros O. destruct (change_inv st1 r kept t' T1 T3 ltac:(congruence) O) as (C1 & C2 & C3). split; [exact C1|]. split; [auto|]. intros b [= <-]. exact C3. }
  assert (G' : forall e : exn, units_inv st1 /\ (forall q b, kept_ok st q b -> kept_ok st1 q b) /\ (forall a, @Err (option nat) e = Ok (Some a) -> kept_ok st1 r a)) by (intros e; split; [exact T1|split; [auto|discriminate]]).
  destruct r; cbn [fst snd]; try (intros O; destruct (G O) as (G1 & G2 & G3); split; [exact G1|split; [exact G2|intros b [= <-]; apply G3; reflexivity]]).
  destruct (twice_spin i) as [n|e]; cbn [fst snd]; [|intros _; apply G']. destruct (n <? 2)%Z; cbn [fst snd]; [intros _; apply G'|].
  intros O; destruct (G O) as (G1 & G2 & G3); split; [exact G1|split; [exact G2|intros b [= <-]; apply G3; reflexivity]].
Qed.
Lemma validate_all_inv mode i rs args : forall slots failed st, units_inv st -> one_field_each (fst (validate_all mode i rs args slots failed st)) ->
  (forall r a, slots r = Some a -> kept_ok st r a) ->
  units_inv (fst (validate_all mode i rs args slots failed st)) /\ (forall q b, kept_ok st q b -> kept_ok (fst (validate_all mode i rs args slots failed st)) q b) /\
  (forall slots' f, snd (validate_all mode i rs args slots failed st) = Ok (slots', f) -> forall r a, slots' r = Some a -> kept_ok (fst (validate_all mode i rs args slots failed st)) r a).
Proof.
  induction rs as [|r rs IH]; intros slots failed st H O SL; cbn [validate_all] in *.
  - split; [exact H|]. split; [auto|]. intros slots' f [= <- <-]. exact SL.
  - destruct (args r) as [v|]; [|apply IH; auto]. pose proof (validate_inv mode i r v st H) as V. destruct (validate mode i r v st) as [st1 [x|e]]; cbn [fst snd] in *.
    + assert (O1 : one_field_each st1) by (eapply one_field_before; [|exact O]; intros y Hy; now apply log_grows_validate_all). destruct (V O1) as (V1 & V2 & V3).
      destruct (IH (set_slot slots r x) failed st1 V1 O) as (I1 & I2 & I3).
      { intros q a. unfold set_slot. destruct (role_dec q r) as [->|N]; [intros ->; apply V3; reflexivity|auto]. }
      split; [exact I1|]. split; [auto|exact I3].
    + destruct e; cbn [fst snd] in *; try (destruct (V O) as (V1 & V2 & _); split; [exact V1|split; [exact V2|discriminate]]).
      assert (O1 : one_field_each st1) by (eapply one_field_before; [|exact O]; intros y Hy; now apply log_grows_validate_all). destruct (V O1) as (V1 & V2 & V3).
      destruct (IH slots true st1 V1 O) as (I1 & I2 & I3); [auto|]. split; [exact I1|]. split; [auto|exact I3].
Qed.
Definition session_inv_units (st : state) : Prop := units_inv st /\ forall o r a, In o (objects st) -> o_slot o r = Some a -> kept_ok st r a.
Lemma in_update {A} (l : list A) i x y : In y (update l i x) -> y = x \/ In y l.
Proof. revert i. induction l as [|z l IH]; intros [|i] H; cbn in *; auto; destruct H as [->|H]; auto. destruct (IH i H); auto. Qed.
Lemma units_step mode c st : one_field_each (fst (step mode c st)) -> session_inv_units st -> session_inv_units (fst (step mode c st)).
Proof.
  intros O (H & S). unfold step in *. destruct c.
  - destruct (eta_ok values); [|split; auto]. destruct H as [P L A D]. cbn in *.
    assert (LT : forall x, In x (tensors st) -> (t_units x < List.length (dicts st))%nat) by (intros x Hx; unfold places_ok in P; rewrite Forall_forall in P; auto).
    set (st' := mkState _ _ _ _ _) in *.
    assert (OLD : forall x, In x (tensors st) -> units_of st' x = units_of st x) by (intros x Hx; unfold units_of, st'; cbn; apply app_nth1; auto).
    split; [constructor|].
    + unfold places_ok, st'. cbn. rewrite app_length. cbn. apply Forall_app. split; [|constructor; [cbn; lia|constructor]]. apply Forall_forall. intros x Hx. specialize (LT x Hx). lia.
    + unfold st'. cbn. intros d r Hd. rewrite app_length. specialize (L d r Hd). lia.
    + unfold st'. cbn. intros x y Hx Hy. apply in_app_or in Hx, Hy. destruct Hx as [Hx|[<-|[]]], Hy as [Hy|[<-|[]]]; cbn; auto; intros EU; [specialize (LT x Hx)|specialize (LT y Hy)]; lia.
    + intros x Hx. apply in_app_or in Hx. destruct Hx as [Hx|[<-|[]]]; [rewrite (OLD x Hx); apply D; exact Hx|]. left. unfold units_of, st'. cbn. rewrite app_nth2, Nat.sub_diag by lia. reflexivity.
    + intros o r a Ho Ha. destruct (S o r a Ho Ha) as (x & Hx & K1 & K2 & K3). exists x. split; [now apply nth_error_app_some|]. split; [exact K1|]. split; [exact K2|]. rewrite (OLD x (nth_error_In _ _ Hx)). exact K3.
  - destruct (nth_error (tensors st) tensor) as [t|] eqn:E; [|split; auto]. destruct H as [P L A D]. cbn in *. pose proof (nth_error_In _ _ E) as I.
    set (nt := mkTensor _ _ _) in *. set (st' := mkState _ _ _ _ _) in *.
    assert (IN : forall x, In x (tensors st') -> exists y, In y (tensors st) /\ t_units x = t_units y /\ t_anti x = t_anti y).
    { intros x Hx. apply in_update in Hx. destruct Hx as [->|Hx]; [exists t; auto|exists x; auto]. }
    split; [constructor|].
    + unfold places_ok, st'. cbn. apply update_Forall; [exact P|]. unfold places_ok in P. rewrite Forall_forall in P. apply (P t I).
    + exact L.
    + intros x y Hx Hy EU. destruct (IN x Hx) as (x' & Ix & Ux & Ax), (IN y Hy) as (y' & Iy & Uy & Ay). rewrite Ax, Ay. apply A; auto. congruence.
    + intros x Hx. destruct (IN x Hx) as (x' & Ix & Ux & Ax). unfold units_of. rewrite Ux, Ax. exact (D x' Ix).
    + intros o r a Ho Ha. destruct (S o r a Ho Ha) as (x & Hx & K1 & K2 & K3). unfold kept_ok, st'. cbn. destruct (Nat.eq_dec tensor a) as [->|N].
      * rewrite E in Hx. injection Hx as <-. exists nt. rewrite update_nth, Nat.eqb_refl, E. split; [reflexivity|]. split; [exact K1|]. split; [exact K2|exact K3].
      * exists x. rewrite update_nth. apply Nat.eqb_neq in N. rewrite N. auto.
  - destruct (format_isotope_string isotope) as [i|e]; [|split; auto].
    pose proof (validate_all_same mode i (fields_of true) args empty_slots false st) as V. pose proof (validate_all_inv mode i (fields_of true) args empty_slots false st H) as W.
    destruct (validate_all mode i (fields_of true) args empty_slots false st) as [st' [[slots [|]]|e]]; cbn [fst snd] in *; destruct V as (V1 & _); destruct (W O ltac:(discriminate)) as (W1 & W2 & W3); (split; [destruct W1; constructor; auto|]).
    1,3: rewrite V1; eauto. cbn. rewrite V1. intros o r a Ho. apply in_app_or in Ho. destruct Ho as [Ho|[<-|[]]]; intros Ha; [destruct (W2 r a (S o r a Ho Ha)) as (x & K); exists x; exact K|]. destruct (W3 slots false eq_refl r a Ha) as (x & K). exists x. exact K.
  - pose proof (validate_all_same mode "" (fields_of false) args empty_slots (negb (index_ok index)) st) as V. pose proof (validate_all_inv mode "" (fields_of false) args empty_slots (negb (index_ok index)) st H) as W.
    destruct (validate_all mode "" (fields_of false) args empty_slots (negb (index_ok index)) st) as [st' [[slots [|]]|e]]; cbn [fst snd] in *; destruct V as (V1 & _); destruct (W O ltac:(discriminate)) as (W1 & W2 & W3); (split; [destruct W1; constructor; auto|]).
    1,3: rewrite V1; eauto. cbn. rewrite V1. intros o r a Ho. apply in_app_or in Ho. destruct Ho as [Ho|[<-|[]]]; intros Ha; [destruct (W2 r a (S o r a Ho Ha)) as (x & K); exists x; exact K|]. destruct (W3 slots false eq_refl r a Ha) as (x & K). exists x. exact K.
  - destruct (nth_error (objects st) site) as [o|] eqn:E; [|split; auto]. destruct (o_site o); [|split; auto]. destruct (format_isotope_string isotope); [|split; auto].
    split; [destruct H; constructor; auto|]. cbn. intros o' r a' Ho Ha. apply in_update in Ho. destruct Ho as [->|Ho]; [exact (S o r a' (nth_error_In _ _ E) Ha)|exact (S o' r a' Ho Ha)].
  - destruct (nth_error (objects st) coupling) as [o|] eqn:E; [|split; auto]. destruct (o_site o); [split; auto|]. destruct (index_ok index); [|split; auto].
    split; [destruct H; constructor; auto|]. cbn. intros o' r a' Ho Ha. apply in_update in Ho. destruct Ho as [->|Ho]; [exact (S o r a' (nth_error_In _ _ E) Ha)|exact (S o' r a' Ho Ha)].
  - destruct (nth_error (objects st) obj) as [o|] eqn:E; [|split; auto]. destruct (in_dec _ _ _); [|split; auto].
    pose proof (validate_same mode (o_isotope o) field v st) as V. pose proof (validate_inv mode (o_isotope o) field v st H) as W. destruct (validate mode (o_isotope o) field v st) as [st' [x|e]]; cbn [fst snd] in *; destruct V as (V1 & _); destruct (W O) as (W1 & W2 & W3).
    2: { split; [exact W1|]. rewrite V1. eauto. }
    split; [destruct W1; constructor; auto|]. cbn. rewrite V1. intros o' r a' Ho Ha. apply in_update in Ho. destruct Ho as [->|Ho]; [|exact (W2 r a' (S o' r a' Ho Ha))].
    cbn in Ha. unfold set_slot in Ha. destruct (role_dec r field) as [->|N]; [apply (W3 a'); congruence|]. exact (W2 r a' (S o r a' (nth_error_In _ _ E) Ha)).
  - destruct (abundance_ok abundance); [|split; auto]. split; [destruct H; constructor; auto|exact S].
  - destruct (nth_error _ _); [|split; auto]. destruct (abundance_ok abundance); [|split; auto]. split; [destruct H; constructor; auto|exact S].
Qed.
Lemma units_session mode cs : one_field_each (session mode cs) -> session_inv_units (session mode cs).
Proof.
  unfold session. assert (S0 : session_inv_units start) by (split; [constructor; cbn; try (intros; contradiction); constructor|intros o r a []]). revert S0. generalize start.
  induction cs as [|c cs IH]; intros st S0 O; [exact S0|]. cbn in *. apply IH; [|exact O]. apply units_step; [|exact S0].
  eapply one_field_before; [|exact O]. generalize (fst (step mode c st)). clear. induction cs as [|c cs IH]; intros st x Hx; [exact Hx|]. cbn. apply IH. now apply log_grows.
Qed.
