From Coq Require Import ZArith QArith Bool String Qcanon Lia List Sorted Permutation.
From Verif Require Import Base BaseProofs PathwayModel SimProofs PathwayProofs.
Import ListNotations.
Open Scope Qc_scope.

Lemma hbind_run {A B} (m : hm A) (f : A -> hm B) h r h' : m h = (r, h') ->
  hbind m f h = match r with Ok x => f x h' | Err e => (Err e, h') end.
Proof. intros E. unfold hbind. rewrite E. destruct r; auto. Qed.

(** ** The list objects a query refers to *)
Definition reads (h : heap) (a : addr) (l : list Qc) : Prop := nth_error h a = Some l.
Definition entry_reads (h : heap) (kv : nat * list addr) (kl : nat * list (list Qc)) : Prop :=
  fst kv = fst kl /\ Forall2 (reads h) (snd kv) (snd kl).
(** [contents h q v]: in heap [h] the query [q] has the value [v]. *)
Definition contents (h : heap) (q : sym_query addr) (v : sym_query (list Qc)) : Prop :=
  match q, v with None, None => True | Some d, Some dv => Forall2 (entry_reads h) d dv | _, _ => False end.
Record tvalue := { tv_P : sym_query (list Qc); tv_D : sym_query (list Qc) }.
Definition tcontents (h : heap) (q : tquery) (v : tvalue) : Prop := contents h (tq_P q) (tv_P v) /\ contents h (tq_D q) (tv_D v).

Lemma reads_ext h new a l : reads h a l -> reads (h ++ new) a l.
Proof. unfold reads. intros H. rewrite nth_error_app1; auto. apply nth_error_Some. congruence. Qed.
Lemma Forall2_impl' {A B} (R S : A -> B -> Prop) l l' : (forall a b, R a b -> S a b) -> Forall2 R l l' -> Forall2 S l l'.
Proof. intros H. induction 1; auto. Qed.
Lemma Forall2_length {A B} {R : A -> B -> Prop} {l l'} : Forall2 R l l' -> List.length l = List.length l'.
Proof. induction 1; simpl; auto. Qed.
Lemma contents_ext h new q v : contents h q v -> contents (h ++ new) q v.
Proof.
  destruct q, v; simpl; auto. apply Forall2_impl'. intros a b [H1 H2]. split; auto.
  eapply Forall2_impl'; [|exact H2]. intros x y. apply reads_ext.
Qed.
Lemma tcontents_ext h new q v : tcontents h q v -> tcontents (h ++ new) q v.
Proof. intros [? ?]. split; apply contents_ext; auto. Qed.

(** ** Copying *)
Lemma copy_items h0 items vals : Forall2 (reads h0) items vals -> forall ext,
  hmapM (fun a => do x <- hread a; halloc x) items (h0 ++ ext)
  = (Ok (seq (List.length (h0 ++ ext)) (List.length items)), h0 ++ ext ++ vals).
Proof.
  induction 1 as [|a l items vals Ha H IH]; intros ext.
  - simpl. rewrite app_nil_r. auto.
  - cbn [hmapM].
    rewrite (hbind_run _ _ _ (Ok (List.length (h0 ++ ext))) ((h0 ++ ext) ++ [l])).
    2:{ unfold hbind, hread. rewrite (reads_ext h0 ext a l Ha). auto. }
    rewrite <- app_assoc. rewrite (hbind_run _ _ _ _ _ (IH (ext ++ [l]))). unfold ret. cbn [List.length seq].
    f_equal. { f_equal. f_equal. f_equal. rewrite !app_length. simpl. lia. }
    rewrite <- !app_assoc. auto.
Qed.

Lemma copy_dict h0 d dv : Forall2 (entry_reads h0) d dv -> forall ext,
  exists d', hmapM (fun kv => do l <- hmapM (fun a => do x <- hread a; halloc x) (snd kv); ret (fst kv, l)) d (h0 ++ ext)
    = (Ok d', h0 ++ ext ++ concat (map snd dv)) /\
    concat (map snd d') = seq (List.length (h0 ++ ext)) (List.length (concat (map snd dv))) /\
    Forall2 (fun kv kl => fst kv = fst kl /\ List.length (snd kv) = List.length (snd kl)) d' dv.
Proof.
  induction 1 as [|[k l] [k' lv] d dv [Hk Hl] H IH]; intros ext.
  - exists []. simpl. rewrite app_nil_r. repeat split; auto.
  - cbn [fst snd] in Hk, Hl. subst k'. cbn [hmapM].
    rewrite (hbind_run _ _ _ (Ok (k, seq (List.length (h0 ++ ext)) (List.length l))) (h0 ++ ext ++ lv)).
    2:{ cbn [snd fst]. rewrite (hbind_run _ _ _ _ _ (copy_items h0 l lv Hl ext)). auto. }
    destruct (IH (ext ++ lv)) as [d' [E [Hc HF]]].
    rewrite (hbind_run _ _ _ _ _ E). unfold ret.
    pose proof (Forall2_length Hl) as L.
    exists ((k, seq (List.length (h0 ++ ext)) (List.length l)) :: d'). split.
    + cbn [map concat snd]. rewrite <- !app_assoc. auto.
    + cbn [map concat snd]. split.
      * rewrite Hc, (app_length lv), seq_app. rewrite L. f_equal. f_equal. rewrite !app_length. lia.
      * constructor; auto. cbn [fst snd]. rewrite seq_length. auto.
Qed.

Lemma reads_seq h0 vals post : Forall2 (reads (h0 ++ vals ++ post)) (seq (List.length h0) (List.length vals)) vals.
Proof.
  revert h0; induction vals as [|v vals IH]; intros h0; cbn [List.length seq]; constructor.
  - unfold reads. rewrite nth_error_app2 by lia. rewrite Nat.sub_diag. auto.
  - specialize (IH (h0 ++ [v])). rewrite app_length in IH. cbn [List.length] in IH.
    replace (List.length h0 + 1)%nat with (S (List.length h0)) in IH by lia.
    rewrite <- !app_assoc in IH. exact IH.
Qed.

Lemma split_reads h d dv : Forall2 (reads h) (concat (map snd d)) (concat (map snd dv)) ->
  Forall2 (fun (kv : nat * list addr) (kl : nat * list (list Qc)) => fst kv = fst kl /\ List.length (snd kv) = List.length (snd kl)) d dv ->
  Forall2 (entry_reads h) d dv.
Proof.
  intros H F. induction F as [|kv kl d dv [Hk Hl] F IH]; constructor.
  - cbn [map concat] in H. apply Forall2_app_inv_l in H. destruct H as [l1 [l2 [H1 [H2 E]]]].
    assert (l1 = snd kl).
    { apply Forall2_length in H1. rewrite Hl in H1.
      apply (f_equal (firstn (List.length (snd kl)))) in E. rewrite firstn_app, firstn_all, Nat.sub_diag in E.
      simpl in E. rewrite app_nil_r in E. rewrite E. rewrite firstn_app, H1, firstn_all, Nat.sub_diag. simpl. rewrite app_nil_r. auto. }
    subst. split; auto.
  - apply IH. cbn [map concat] in H. apply Forall2_app_inv_l in H. destruct H as [l1 [l2 [H1 [H2 E]]]].
    assert (l2 = concat (map snd dv)).
    { apply Forall2_length in H1. rewrite Hl in H1.
      apply (f_equal (skipn (List.length (snd kl)))) in E. rewrite skipn_app, skipn_all, Nat.sub_diag in E.
      simpl in E. rewrite E. rewrite skipn_app, H1, skipn_all, Nat.sub_diag. auto. }
    subst. auto.
Qed.

(** A freshly copied query: its list objects are pairwise distinct and all newer than [base]. *)
Definition fresh (base : nat) (q : sym_query addr) : Prop :=
  match q with None => True | Some d => NoDup (concat (map snd d)) /\ Forall (fun a => (base <= a)%nat) (concat (map snd d)) end.

Lemma copy_query_run h q v : contents h q v ->
  exists q' new, copy_query q h = (Ok q', h ++ new) /\ contents (h ++ new) q' v /\ fresh (List.length h) q'.
Proof.
  destruct q as [d|], v as [dv|]; simpl; intros H; try tauto.
  - destruct (copy_dict h d dv H []) as [d' [E [Hc HF]]]. rewrite app_nil_r in *. simpl in E.
    exists (Some d'), (concat (map snd dv)). rewrite (hbind_run _ _ _ _ _ E). unfold ret. split; auto. split.
    + simpl. apply split_reads; auto. rewrite Hc.
      pose proof (reads_seq h (concat (map snd dv)) []) as R. rewrite app_nil_r in R. auto.
    + simpl. rewrite Hc. split; [apply seq_NoDup|]. apply Forall_forall. intros a Ha. apply in_seq in Ha. lia.
  - exists None, []. rewrite app_nil_r. unfold ret. simpl. auto.
Qed.

Lemma copy_tquery_run h q v : tcontents h q v ->
  exists q' new, copy_tquery q h = (Ok q', h ++ new) /\ tcontents (h ++ new) q' v /\
    fresh (List.length h) (tq_P q') /\ fresh (List.length h) (tq_D q').
Proof.
  intros [Hp Hd]. unfold copy_tquery.
  destruct (copy_query_run _ _ _ Hp) as [p' [n1 [E1 [C1 F1]]]].
  destruct (copy_query_run (h ++ n1) _ _ (contents_ext _ n1 _ _ Hd)) as [d' [n2 [E2 [C2 F2]]]].
  exists {| tq_P := p'; tq_D := d' |}, (n1 ++ n2).
  rewrite (hbind_run _ _ _ _ _ E1), (hbind_run _ _ _ _ _ E2). unfold ret.
  rewrite app_assoc. split; auto. split; [split; auto; apply contents_ext; auto|]. split; auto.
  cbn [tq_D]. destruct d' as [dd|]; simpl in *; auto. destruct F2 as [N F2]. split; auto.
  rewrite Forall_forall in *. intros a Ha. specialize (F2 a Ha). rewrite app_length in F2. lia.
Qed.

Section Query.
Variable set_perms : list Qc -> list (list Qc).

(** ** The query as a function of the contents *)
Definition pad (n : nat) (item : list Qc) : list Qc := item ++ repeat 0 (n - List.length item).
Fixpoint pure_items (n : nat) (items : list (list Qc)) : pyres (list (list Qc)) :=
  match items with
  | [] => Ok []
  | it :: r => if (n <? List.length it)%nat then Err ValueError else
               let* rest := pure_items n r in Ok (set_perms (pad n it) ++ rest)
  end.
Fixpoint pure_loop (q : sym_query (list Qc)) (isotopes : list string) (i : nat) (channels : list string) : pyres (option (list (list (list Qc)))) :=
  match channels with
  | [] => Ok (Some [])
  | c :: r =>
      if negb (existsb (String.eqb c) isotopes) then Ok None else
      let* d := (match q with None => Err TypeError | Some d => Ok d end) in
      let* items := dict_get d (i + 1) in
      let* temp := pure_items (List.length (iso_indexes isotopes c)) items in
      let* rest := pure_loop q isotopes (i + 1) r in
      Ok (match rest with None => None | Some l => Some (temp :: l) end)
  end.
Definition pure_permutations (q : sym_query (list Qc)) (isotopes channels : list string) : pyres (list (list Qc)) :=
  let* p := pure_loop q isotopes 0 channels in
  match p with None => Ok [] | Some permuted => expand isotopes channels permuted end.

(** [h'] differs from [h] at most at the given addresses. *)
Definition frame (touched : list addr) (h h' : heap) : Prop :=
  List.length h' = List.length h /\ forall a, ~ In a touched -> nth_error h' a = nth_error h a.

Lemma frame_refl t h : frame t h h.
Proof. split; auto. Qed.
Lemma frame_trans t h1 h2 h3 : frame t h1 h2 -> frame t h2 h3 -> frame t h1 h3.
Proof. intros [A B] [C D]. split; [lia|]. intros a Ha. rewrite D, B; auto. Qed.
Lemma frame_weaken t t' h h' : incl t t' -> frame t h h' -> frame t' h h'.
Proof. intros I [A B]. split; auto. Qed.

Lemma channel_items_run n items vals h : Forall2 (reads h) items vals -> NoDup items ->
  exists h', channel_items set_perms n items h = (pure_items n vals, h') /\ frame items h h'.
Proof.
  revert vals h. induction items as [|a items IH]; intros vals h F N; inversion F as [|a' l items' vals' Ha F']; subst.
  - exists h. split; auto. apply frame_refl.
  - inversion N as [|x y Na N']; subst. cbn [channel_items pure_items].
    rewrite (hbind_run _ _ h (Ok l) h). 2:{ unfold hread. rewrite Ha. auto. }
    destruct (n <? List.length l)%nat.
    + exists h. split; auto. apply frame_refl.
    + rewrite (hbind_run _ _ h (Ok tt) (upd_nat h a (pad n l))) by auto.
      assert (F2 : Forall2 (reads (upd_nat h a (pad n l))) items vals').
      { clear -F' Na. induction F' as [|b m items vals Hb F IH]; constructor.
        - unfold reads. rewrite nth_error_upd_other; auto. intros ->. apply Na. simpl; auto.
        - apply IH. intros H. apply Na. simpl; auto. }
      destruct (IH vals' (upd_nat h a (pad n l)) F2 N') as [h' [E Hf]].
      exists h'. rewrite (hbind_run _ _ _ _ _ E). split.
      * destruct (pure_items n vals'); auto.
      * destruct Hf as [L Hf]. split; [rewrite L, upd_nat_length; auto|].
        intros b Hb. rewrite Hf by (intros H; apply Hb; simpl; auto).
        apply nth_error_upd_other. intros ->. apply Hb. simpl; auto.
Qed.

(** What [d] and its value have in common above key [i]. *)
Definition agree (h : heap) (d : list (nat * list addr)) (dv : list (nat * list (list Qc))) (i : nat) : Prop :=
  forall j, (i < j)%nat -> match dict_get d j, dict_get dv j with
    | Ok l, Ok lv => Forall2 (reads h) l lv
    | Err e, Err e' => e = e'
    | _, _ => False end.
Definition separate (d : list (nat * list addr)) : Prop :=
  (forall j l, dict_get d j = Ok l -> NoDup l) /\
  (forall j j' l l' a, j <> j' -> dict_get d j = Ok l -> dict_get d j' = Ok l' -> In a l -> ~ In a l').

Lemma dict_get_in {A} (d : list (nat * A)) j l : dict_get d j = Ok l -> In (j, l) d.
Proof.
  induction d as [|[k v] d IH]; simpl; [discriminate|]. destruct (Nat.eqb_spec j k).
  - intros E. injection E as <-. subst. auto.
  - auto.
Qed.

Lemma NoDup_app_inv {A} (a b : list A) : NoDup (a ++ b) -> NoDup a /\ NoDup b /\ forall x, In x a -> ~ In x b.
Proof.
  induction a as [|x a IH]; simpl; intros H.
  - split; [constructor|]. auto.
  - inversion H as [|y l Hn H']; subst. destruct (IH H') as [A1 [A2 A3]]. rewrite in_app_iff in Hn. split; [|split; auto].
    + constructor; auto.
    + intros y [->|Hy]; auto.
Qed.

Lemma separate_of_NoDup d : NoDup (concat (map snd d)) -> separate d.
Proof.
  intros N. split.
  - intros j l E. apply dict_get_in in E. induction d as [|[k v] d IH]; [destruct E|].
    cbn [map concat snd] in N. apply NoDup_app_inv in N. destruct N as [N1 [N2 _]].
    destruct E as [E|E]; [injection E as <- <-; auto|auto].
  - intros j j' l l' a Hne E E' Ha Ha'. apply dict_get_in in E, E'.
    induction d as [|[k v] d IH]; [destruct E|].
    cbn [map concat snd] in N. apply NoDup_app_inv in N. destruct N as [N1 [N2 N3]].
    assert (Hin : forall k l, In (k, l) d -> forall a, In a l -> In a (concat (map snd d))).
    { intros k0 l0 H0 b Hb. apply in_concat. exists l0. split; auto. apply in_map_iff. exists (k0, l0). auto. }
    destruct E as [E|E], E' as [E'|E'].
    + congruence.
    + injection E as -> ->. apply (N3 a); auto. eapply Hin; eauto.
    + injection E' as -> ->. apply (N3 a); auto. eapply Hin; eauto.
    + auto.
Qed.

Lemma agree_of_entries h d dv i : Forall2 (entry_reads h) d dv -> agree h d dv i.
Proof.
  intros F j _. induction F as [|[k l] [k' lv] d dv [Hk Hl] F IH]; simpl; auto. cbn [fst snd] in *. subst k'.
  destruct (Nat.eqb j k); auto.
Qed.

Lemma channel_loop_run d dv isotopes channels i h : agree h d dv i -> separate d ->
  exists h', channel_loop set_perms (Some d) isotopes i channels h = (pure_loop (Some dv) isotopes i channels, h') /\
    frame (concat (map snd d)) h h'.
Proof.
  intros A S. revert i h A. induction channels as [|c channels IH]; intros i h A.
  - exists h. split; auto. apply frame_refl.
  - cbn [channel_loop pure_loop]. destruct (negb (existsb (String.eqb c) isotopes)).
    + exists h. split; auto. apply frame_refl.
    + rewrite (hbind_run _ _ h (Ok d) h) by auto.
      rewrite (hbind_run _ _ h (dict_get d (i + 1)) h) by auto.
      pose proof (A (i + 1)%nat ltac:(lia)) as Ai. cbn [bind].
      destruct (dict_get d (i + 1)) as [items|e] eqn:Ed, (dict_get dv (i + 1)) as [vals|e'] eqn:Ev; try tauto.
      * cbn [bind]. destruct S as [S1 S2].
        destruct (channel_items_run (List.length (iso_indexes isotopes c)) items vals h Ai (S1 _ _ Ed)) as [h1 [E1 F1]].
        rewrite (hbind_run _ _ _ _ _ E1).
        assert (Hincl : incl items (concat (map snd d))).
        { intros a Ha. apply in_concat. exists items. split; auto. apply in_map_iff. exists ((i + 1)%nat, items).
          split; auto. apply dict_get_in; auto. }
        destruct (pure_items (List.length (iso_indexes isotopes c)) vals) as [temp|e]; cbn [bind].
        -- assert (A1 : agree h1 d dv (i + 1)).
           { intros j Hj. specialize (A j ltac:(lia)). destruct (dict_get d j) as [l|] eqn:Ej, (dict_get dv j) as [lv|]; auto.
             destruct F1 as [_ F1].
             assert (Hd : forall a, In a l -> ~ In a items) by (intros a Ha; apply (S2 j (i + 1)%nat l items a); auto; lia).
             clear -A F1 Hd. induction A as [|a v l lv Ha A IH]; constructor.
             - unfold reads in *. rewrite F1; auto. apply Hd. simpl; auto.
             - apply IH. intros b Hb. apply Hd. simpl; auto. }
           destruct (IH (i + 1)%nat h1 A1) as [h2 [E2 F2]]. exists h2.
           rewrite (hbind_run _ _ _ _ _ E2). split.
           { destruct (pure_loop (Some dv) isotopes (i + 1) channels); auto. }
           eapply frame_trans; eauto. eapply frame_weaken; eauto.
        -- exists h1. split; auto. eapply frame_weaken; eauto.
      * exists h. subst e'. split; auto. apply frame_refl.
Qed.

Lemma query_permutations_run q v isotopes channels h base : contents h q v -> fresh base q ->
  exists h', query_permutations set_perms q isotopes channels h = (pure_permutations v isotopes channels, h') /\
    List.length h' = List.length h /\ (forall a, (a < base)%nat -> nth_error h' a = nth_error h a).
Proof.
  unfold query_permutations, pure_permutations. destruct q as [d|], v as [dv|]; simpl; intros C F; try tauto.
  - destruct F as [N F].
    destruct (channel_loop_run d dv isotopes channels 0 h (agree_of_entries _ _ _ _ C) (separate_of_NoDup _ N)) as [h' [E Fr]].
    exists h'. rewrite (hbind_run _ _ _ _ _ E). split.
    + destruct (pure_loop (Some dv) isotopes 0 channels) as [[l|]|]; auto.
    + destruct Fr as [L Fr]. split; auto. intros a Ha. apply Fr. intros Hi. rewrite Forall_forall in F.
      specialize (F a Hi). lia.
  - assert (E : channel_loop set_perms None isotopes 0 channels h = (pure_loop None isotopes 0 channels, h)).
    { destruct channels as [|c channels]; auto. cbn [channel_loop pure_loop].
      destruct (negb (existsb (String.eqb c) isotopes)); auto. }
    exists h. rewrite (hbind_run _ _ _ _ _ E). split; auto.
    destruct (pure_loop None isotopes 0 channels) as [[l|]|]; auto.
Qed.

(** [h'] is [h] followed by new list objects. *)
Lemma prefix_of (h h' : heap) : (List.length h <= List.length h')%nat -> (forall a, (a < List.length h)%nat -> nth_error h' a = nth_error h a) ->
  exists new, h' = h ++ new.
Proof.
  revert h'; induction h as [|x h IH]; intros h' L H.
  - exists h'. auto.
  - destruct h' as [|y h']; [simpl in L; lia|].
    destruct (IH h') as [new ->]. { simpl in L; lia. }
    { intros a Ha. apply (H (S a)). simpl; lia. }
    specialize (H 0%nat ltac:(simpl; lia)). simpl in H. injection H as ->. exists new. auto.
Qed.

(** ** One event *)
Definition pure_event (channels isotopes : list string) (all : list transition) (v : tvalue) : pyres (list transition) :=
  let* list_of_P := pure_permutations (tv_P v) isotopes channels in
  let* idx := P_symmetry_indexes (List.length isotopes) all list_of_P in
  let sel := take ([], []) all idx in
  match tv_D v with
  | None => Ok sel
  | Some _ =>
      let* list_of_D := pure_permutations (tv_D v) isotopes channels in
      let* idx2 := D_symmetry_indexes (List.length isotopes) sel list_of_D in
      Ok (take ([], []) sel idx2)
  end.

Lemma copy_then_query h q v isotopes channels (sel : tquery -> sym_query addr) (vsel : tvalue -> sym_query (list Qc)) :
  tcontents h q v ->
  (forall h q v, tcontents h q v -> contents h (sel q) (vsel v)) ->
  (forall b q, fresh b (tq_P q) -> fresh b (tq_D q) -> fresh b (sel q)) ->
  exists q' new new', copy_tquery q h = (Ok q', h ++ new) /\
    query_permutations set_perms (sel q') isotopes channels (h ++ new) = (pure_permutations (vsel v) isotopes channels, h ++ new').
Proof.
  intros C Hs Hf. destruct (copy_tquery_run h q v C) as [q' [new [E [C' [F1 F2]]]]].
  destruct (query_permutations_run (sel q') (vsel v) isotopes channels (h ++ new) (List.length h) (Hs _ _ _ C') (Hf _ _ F1 F2)) as [h2 [E2 [L2 H2]]].
  destruct (prefix_of h h2) as [new' ->].
  - rewrite L2, app_length. lia.
  - intros a Ha. rewrite H2 by auto. apply nth_error_app1; auto.
  - eauto.
Qed.

Lemma event_run channels isotopes all q v h : tcontents h q v ->
  exists new, event_transitions set_perms channels isotopes all q h = (pure_event channels isotopes all v, h ++ new).
Proof.
  intros C. unfold event_transitions, pure_event.
  destruct (copy_then_query h q v isotopes channels tq_P tv_P C) as [q1 [n1 [n1' [E1 E1']]]].
  { intros ? ? ? [? ?]; auto. } { auto. }
  rewrite (hbind_run _ _ _ _ _ E1), (hbind_run _ _ _ _ _ E1').
  destruct (pure_permutations (tv_P v) isotopes channels) as [lp|e]; cbn [bind]; eauto.
  rewrite (hbind_run _ _ (h ++ n1') (P_symmetry_indexes (List.length isotopes) all lp) (h ++ n1')) by auto.
  destruct (P_symmetry_indexes (List.length isotopes) all lp) as [idx|e]; cbn [bind]; eauto.
  destruct C as [Cp Cd]. pose proof Cd as Cd'. unfold contents in Cd'.
  destruct (tq_D q) as [dd|] eqn:Eq, (tv_D v) as [dv|] eqn:Ev; try tauto; unfold ret; eauto.
  destruct (copy_then_query (h ++ n1') q v isotopes channels tq_D tv_D) as [q2 [n2 [n2' [E2 E2']]]].
  { apply tcontents_ext. split; auto. rewrite Eq, Ev. auto. } { intros ? ? ? [? ?]; auto. } { auto. }
  rewrite (hbind_run _ _ _ _ _ E2), (hbind_run _ _ _ _ _ E2'). rewrite Ev. rewrite <- app_assoc.
  destruct (pure_permutations (Some dv) isotopes channels) as [ld|e]; cbn [bind]; eauto.
  unfold hbind, lift, ret.
  destruct (D_symmetry_indexes (List.length isotopes) (take ([], []) all idx) ld) as [idx2|e]; cbn [bind]; eauto.
Qed.

Definition pure_segments (channels isotopes : list string) (spins : list nat) (vs : list tvalue) : pyres (list (list transition)) :=
  mapM (pure_event channels isotopes (all_transitions spins)) vs.
Definition pure_pathways (channels isotopes : list string) (spins : list nat) (vs : list tvalue) : pyres (list (list transition)) :=
  let* segs := pure_segments channels isotopes spins vs in pathways_of_segments segs.

Lemma segments_run channels isotopes spins qs vs h : Forall2 (tcontents h) qs vs ->
  exists new, segments set_perms channels isotopes spins qs h = (pure_segments channels isotopes spins vs, h ++ new).
Proof.
  unfold segments, pure_segments. intros F.
  assert (G : forall ext, exists new, hmapM (event_transitions set_perms channels isotopes (all_transitions spins)) qs (h ++ ext)
     = (mapM (pure_event channels isotopes (all_transitions spins)) vs, h ++ new)).
  { induction F as [|q v qs vs C F IH]; intros ext; cbn [hmapM mapM].
    - exists ext. auto.
    - destruct (event_run channels isotopes (all_transitions spins) q v (h ++ ext) (tcontents_ext _ _ _ _ C)) as [n1 E1].
      rewrite (hbind_run _ _ _ _ _ E1), <- app_assoc.
      destruct (pure_event channels isotopes (all_transitions spins) v); cbn [bind]; eauto.
      destruct (IH (ext ++ n1)) as [n2 E2]. exists n2. rewrite (hbind_run _ _ _ _ _ E2).
      destruct (mapM (pure_event channels isotopes (all_transitions spins)) vs); auto. }
  destruct (G []) as [new E]. rewrite app_nil_r in E. eauto.
Qed.

Lemma pathways_run channels isotopes spins qs vs h : Forall2 (tcontents h) qs vs ->
  exists new, get_pathways_np set_perms channels isotopes spins qs h = (pure_pathways channels isotopes spins vs, h ++ new).
Proof.
  intros F. unfold get_pathways_np, pure_pathways.
  destruct (segments_run channels isotopes spins qs vs h F) as [new E]. exists new.
  rewrite (hbind_run _ _ _ _ _ E). destruct (pure_segments channels isotopes spins vs); auto.
Qed.
End Query.
