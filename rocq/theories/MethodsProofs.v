(** Proofs about the transitions selected by the named methods, for single sites. *)
From Coq Require Import ZArith QArith Bool String Qcanon Lia List Sorted Permutation Setoid.
From Verif Require Import Base PathwayModel PathwayProofs QueryProofs SelectProofs MethodsModel.
Import ListNotations.
Open Scope Qc_scope.

Lemma half_this a : (this (half a) == a # 2)%Q.
Proof. apply Qred_correct. Qed.
Lemma of_int_this z : (this (of_int z) == inject_Z z)%Q.
Proof. apply Qred_correct. Qed.
Lemma minus_this x y : (this (x - y) == this x - this y)%Q.
Proof. unfold Qcminus, Qcplus, Qcopp. cbn [this Q2Qc]. rewrite !Qred_correct. unfold Qminus. reflexivity. Qed.
Lemma mult_this x y : (this (x * y) == this x * this y)%Q.
Proof. unfold Qcmult. cbn [this Q2Qc]. rewrite !Qred_correct. reflexivity. Qed.
Lemma qc_iff x y : x = y <-> (this x == this y)%Q.
Proof. split; [intros ->; reflexivity|apply Qc_is_canon]. Qed.
Lemma half_eq a b : half a = half b <-> a = b.
Proof. rewrite qc_iff, !half_this. unfold Qeq. cbn -[Z.mul]. lia. Qed.
Lemma half_minus a b z : half a - half b = of_int z <-> (a - b = 2 * z)%Z.
Proof. rewrite qc_iff, minus_this, !half_this, of_int_this. unfold Qeq, inject_Z. cbn -[Z.mul Z.add Z.sub]. lia. Qed.
Lemma half_squares a b z : half a * half a - half b * half b = of_int z <-> (a * a - b * b = 4 * z)%Z.
Proof. rewrite qc_iff, minus_this, !mult_this, !half_this, of_int_this. unfold Qeq, inject_Z. cbn -[Z.mul Z.add Z.sub]. lia. Qed.
Lemma number_half n k : Qc_of_nat k - spin_of n = half (2 * Z.of_nat k - Z.of_nat n).
Proof.
  rewrite qc_iff, minus_this, half_this. unfold spin_of, Qcdiv. rewrite mult_this. unfold Qc_of_nat. cbn [this Q2Qc]. rewrite !Qred_correct.
  assert (E : (this (/ Q2Qc (inject_Z (Z.of_nat 2))) == 1 # 2)%Q) by reflexivity. rewrite E. unfold Qeq, inject_Z. cbn -[Z.mul Z.add Z.sub]. lia.
Qed.
Lemma spin_half n : spin_of n = half (Z.of_nat n).
Proof.
  rewrite qc_iff, half_this. unfold spin_of, Qcdiv. rewrite mult_this. unfold Qc_of_nat. cbn [this Q2Qc]. rewrite !Qred_correct.
  assert (E : (this (/ Q2Qc (inject_Z (Z.of_nat 2))) == 1 # 2)%Q) by reflexivity. rewrite E. unfold Qeq, inject_Z. cbn -[Z.mul Z.add Z.sub]. lia.
Qed.
(** The states of a site are half a, for a from -2I to 2I in steps of 2. *)
Definition state (n : nat) (a : Z) : Prop := (- Z.of_nat n <= a <= Z.of_nat n)%Z /\ exists k, (a = 2 * k - Z.of_nat n)%Z.
Lemma is_state n x : (exists k, (k <= n)%nat /\ x = Qc_of_nat k - spin_of n) <-> exists a, state n a /\ x = half a.
Proof.
  split.
  - intros [k [Hk ->]]. rewrite number_half. eexists. split; [|reflexivity]. split; [lia|]. exists (Z.of_nat k). lia.
  - intros [a [[Ha [k E]] ->]]. exists (Z.to_nat k). split; [lia|]. rewrite number_half. f_equal. lia.
Qed.

(** ** Sorted lists are determined by their elements *)
Lemma trans_lt_irrefl t : ~ trans_lt t t.
Proof. intros [H|[_ H]]; eapply lex_lt_irrefl; eauto. Qed.
Lemma lex_lt_trans a b c : lex_lt a b -> lex_lt b c -> lex_lt a c.
Proof.
  revert b c. induction a as [|x a IH]; intros [|y b] [|z c] H G; cbn in *; try tauto.
  destruct H as [H|[-> H]], G as [G|[-> G]]; [left; eapply Qclt_trans; eauto|left; auto|left; auto|right; split; auto; eapply IH; eauto].
Qed.
Lemma trans_lt_trans t u v : trans_lt t u -> trans_lt u v -> trans_lt t v.
Proof.
  unfold trans_lt. intros [H|[E H]] [G|[F G]].
  - left. eapply lex_lt_trans; eauto.
  - left. rewrite <- F. auto.
  - left. rewrite E. auto.
  - right. split; [congruence|eapply lex_lt_trans; eauto].
Qed.
Lemma sorted_unique l m : StronglySorted trans_lt l -> StronglySorted trans_lt m -> (forall t, In t l <-> In t m) -> l = m.
Proof.
  intros Sl. revert m. induction Sl as [|x l Sl IH Fl]; intros [|y m] Sm H; auto.
  - exfalso. apply (H y). left; auto.
  - exfalso. apply (H x). left; auto.
  - inversion Sm as [|? ? Sm' Fm]; subst. rewrite Forall_forall in Fl, Fm.
    assert (E : x = y).
    { destruct (proj1 (H x) (or_introl eq_refl)) as [E|Hx]; auto. destruct (proj2 (H y) (or_introl eq_refl)) as [E|Hy]; auto.
      exfalso. apply (trans_lt_irrefl x). eapply trans_lt_trans; eauto. }
    subst y. f_equal. apply IH; auto. intros t. split; intros Ht.
    + destruct (proj1 (H t) (or_intror Ht)) as [<-|]; auto. exfalso. apply (trans_lt_irrefl x). auto.
    + destruct (proj2 (H t) (or_intror Ht)) as [<-|]; auto. exfalso. apply (trans_lt_irrefl x). auto.
Qed.
Lemma sorted_filter f l : StronglySorted trans_lt l -> StronglySorted trans_lt (filter f l).
Proof.
  induction 1 as [|x l S IH F]; cbn; [constructor|]. destruct (f x); auto. constructor; auto. rewrite Forall_forall in *. intros t Ht. apply filter_In in Ht. apply F. tauto.
Qed.

(** ** One site *)
Lemma matches_one c items x : (forall it, In it items -> exists p, it = [p]) -> (matches [c] c items [x] <-> In [x] items).
Proof.
  intros H. unfold matches, other_values, channel_values. cbn. rewrite String.eqb_refl. cbn. split.
  - intros [_ [it [z [Hi [Z P]]]]]. destruct (H it Hi) as [p ->]. cbn in P. apply Permutation_length_1_inv in P. injection P as -> ->. auto.
  - intros Hi. split; [constructor|]. exists [x], []. repeat split; auto.
Qed.
Lemma query_one c q items : (exists d, q = Some d /\ dict_get d 1 = Ok items) -> items <> [] -> (forall it, In it items -> exists p, it = [p]) -> query_ok [c] c q items.
Proof.
  intros D N H. split; auto. split; auto. apply Forall_forall. intros it Hi. destruct (H it Hi) as [p ->]. unfold n_channel_sites. cbn.
  destruct (string_dec c c); [lia|contradiction].
Qed.
Definition singles (zs : list Z) : list (list Qc) := map (fun z => [of_int z]) zs.
Lemma singles_single zs it : In it (singles zs) -> exists p, it = [p].
Proof. intros H. apply in_map_iff in H. destruct H as [z [<- _]]. eauto. Qed.
Lemma in_singles x zs : In [x] (singles zs) <-> exists z, In z zs /\ x = of_int z.
Proof. unfold singles. rewrite in_map_iff. split; intros [z [A B]]; exists z; split; auto; congruence. Qed.
Lemma in_states n t : In t (all_transitions [n]) <-> exists a b, state n a /\ state n b /\ t = ([half a], [half b]).
Proof.
  destruct t as [u v]. destruct (all_transitions_main [n] ltac:(discriminate)) as [H _]. rewrite H.
  destruct (zeeman_main [n] ltac:(discriminate)) as [Z _]. rewrite !Z.
  assert (ONE : forall st, Forall2 is_spin_number [n] st <-> exists a, state n a /\ st = [half a]).
  { intros st. split.
    - intros F. inversion F as [|? ? ? ? S F']; subst. inversion F'; subst. apply is_state in S. destruct S as [a [Sa ->]]. eauto.
    - intros [a [Sa ->]]. constructor; [|constructor]. apply is_state. eauto. }
  rewrite !ONE. split.
  - intros [[a [Sa ->]] [b [Sb ->]]]. exists a, b. auto.
  - intros [a [b [Sa [Sb E]]]]. injection E as -> ->. split; eauto.
Qed.

Section Select.
Variable set_perms : list Qc -> list (list Qc).
Hypothesis Hp : lists_permutations set_perms.
(** A query on one site selects, in order, the transitions half a -> half b with (b - a)/2 among ps and (b^2 - a^2)/4 among ds. *)
Lemma select_one c n q ps ds expected h :
  tcontents h q {| tv_P := channel1 (singles ps); tv_D := option_map (fun l => [(1%nat, singles l)]) ds |} -> ps <> [] -> (forall l, ds = Some l -> l <> []) ->
  StronglySorted trans_lt expected ->
  (forall t, In t expected <-> exists a b, state n a /\ state n b /\ t = ([half a], [half b]) /\ (exists p, In p ps /\ (b - a = 2 * p)%Z) /\
     (forall l, ds = Some l -> exists d, In d l /\ (b * b - a * a = 4 * d)%Z)) ->
  fst (event_transitions set_perms [c] [c] (all_transitions [n]) q h) = Ok expected.
Proof.
  intros C Np Nd S H.
  assert (QD : forall l, ds = Some l -> query_ok [c] c (option_map (fun l => [(1%nat, singles l)]) ds) (singles l)).
  { intros l E. apply query_one; [|specialize (Nd l E); destruct l; [contradiction|discriminate]|apply singles_single]. subst ds. eexists. split; reflexivity. }
  destruct (event_select_heap set_perms Hp c [c] [n] q _ (singles ps) h C eq_refl (or_introl eq_refl)) as [sel [E [[f F] I]]].
  - apply query_one; [eexists; split; reflexivity|destruct ps; [contradiction|discriminate]|apply singles_single].
  - cbn [tv_D]. destruct ds as [l|]; [|exact Coq.Init.Logic.I]. exists (singles l). apply QD. auto.
  - rewrite E. f_equal. apply sorted_unique; auto.
    + rewrite F. apply sorted_filter. apply all_transitions_main. discriminate.
    + intros t. rewrite I, H, in_states. cbn [tv_D]. split.
      * intros [[a [b [Sa [Sb ->]]]] [M D]]. exists a, b. split; auto. split; auto. split; auto. unfold delta_m in M. cbn [fst snd combine map] in M.
        rewrite matches_one in M by apply singles_single. apply in_singles in M. destruct M as [p [Ip Ep]]. apply half_minus in Ep. split; [eauto|].
        intros l ->. cbn [option_map] in D. destruct D as [items [Q M]].
        assert (EI : items = singles l). { destruct Q as [[d [E1 E2]] _]. injection E1 as <-. cbn in E2. congruence. } subst items.
        unfold delta_m2 in M. cbn [fst snd combine map] in M. rewrite matches_one in M by apply singles_single. apply in_singles in M.
        destruct M as [d [Id Ed]]. apply half_squares in Ed. eauto.
      * intros [a [b [Sa [Sb [-> [[p [Ip Ep]] D]]]]]]. split; [eauto 6|]. split.
        { unfold delta_m. cbn [fst snd combine map]. rewrite matches_one by apply singles_single. apply in_singles. exists p. split; auto. apply half_minus. auto. }
        destruct ds as [l|]; [|exact Coq.Init.Logic.I]. cbn [option_map]. exists (singles l). split; [apply (QD l); auto|]. destruct (D l eq_refl) as [d [Id Ed]].
        unfold delta_m2. cbn [fst snd combine map]. rewrite matches_one by apply singles_single. apply in_singles. exists d. split; auto. apply half_squares. auto.
Qed.
End Select.
