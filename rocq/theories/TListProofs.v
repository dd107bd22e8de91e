(** Proofs about transition lists. *)
From Coq Require Import ZArith QArith Qabs Bool String Qcanon Lia List Setoid Lqa.
From Verif Require Import Base BaseProofs PathwayModel MethodsModel MethodsProofs TListModel.
Import ListNotations.
Open Scope Z_scope.

Definition is_transition (x : item) : Prop := exists t, x = ITrans t.
Lemma check_trans x y : check x = Ok y -> is_transition y.
Proof.
  destruct x as [t|d|]; cbn; try discriminate; [intros [= <-]; exists t; auto|]. destruct (make_transition d) as [t|]; cbn; [|discriminate]. intros [= <-]. exists t. auto.
Qed.
Lemma check_id x : is_transition x -> check x = Ok x.
Proof. intros [t ->]. reflexivity. Qed.
Lemma mapM_check data l : mapM check data = Ok l -> Forall is_transition l.
Proof.
  revert l. induction data as [|x data IH]; cbn; intros l; [intros [= <-]; constructor|]. destruct (check x) as [y|] eqn:E; cbn; [|discriminate].
  destruct (mapM check data) as [ys|]; cbn; [|discriminate]. intros [= <-]. constructor; eauto using check_trans.
Qed.
Lemma Forall_firstn {A} (P : A -> Prop) n l : Forall P l -> Forall P (firstn n l).
Proof. rewrite !Forall_forall. intros H x Hx. apply H. rewrite <- (firstn_skipn n l). apply in_or_app. auto. Qed.
Lemma Forall_skipn {A} (P : A -> Prop) n l : Forall P l -> Forall P (skipn n l).
Proof. rewrite !Forall_forall. intros H x Hx. apply H. rewrite <- (firstn_skipn n l). apply in_or_app. auto. Qed.
Lemma upd_Forall {A} (P : A -> Prop) l i v : Forall P l -> P v -> Forall P (upd_nat l i v).
Proof. intros H V. revert i. induction H; intros [|i]; cbn; auto. Qed.
Lemma of_res_inv l r : Forall is_transition l -> (forall l', r = Ok l' -> Forall is_transition l') -> Forall is_transition (snd (of_res l r)).
Proof. intros H G. destruct r; cbn; auto. Qed.
Lemma insert_inv l i x : Forall is_transition l -> is_transition x -> Forall is_transition (py_insert l i x).
Proof. intros H X. unfold py_insert. apply Forall_app. split; auto using Forall_firstn. constructor; auto using Forall_skipn. Qed.
Lemma append_inv l x : Forall is_transition l -> Forall is_transition (snd (append l x)).
Proof. intros H. apply of_res_inv; auto. intros l'. destruct (check x) as [y|] eqn:E; cbn; [|discriminate]. intros [= <-]. apply insert_inv; eauto using check_trans. Qed.
Lemma assign_inv l i x l' : py_assign l i x = Ok l' -> Forall is_transition l -> is_transition x -> Forall is_transition l'.
Proof. unfold py_assign. cbv zeta. intros H F X. destruct (_ <? 0); [discriminate|]. destruct (_ <? _); [|discriminate]. injection H as <-. apply upd_Forall; auto. Qed.
Lemma set_item_inv l i x : Forall is_transition l -> Forall is_transition (snd (set_item l i x)).
Proof. intros H. apply of_res_inv; auto. intros l'. destruct (check x) as [y|] eqn:E; cbn; [|discriminate]. intros A. eapply assign_inv; eauto using check_trans. Qed.
Lemma del_inv l i l' : py_del l i = Ok l' -> Forall is_transition l -> Forall is_transition l'.
Proof. unfold py_del. intros H F. destruct (position _ _); [|discriminate]. injection H as <-. apply Forall_app. split; [apply Forall_firstn|apply (Forall_skipn _ (S n))]; auto. Qed.
Lemma then_inv o k : Forall is_transition (snd o) -> (forall l, Forall is_transition l -> Forall is_transition (snd (k l))) -> Forall is_transition (snd (then_ o k)).
Proof. destruct o as [[[]|e] l]; cbn; auto. Qed.
Lemma extend_inv xs : forall l, Forall is_transition l -> Forall is_transition (snd (extend l xs)).
Proof. induction xs as [|x xs IH]; intros l H; cbn [extend]; auto. apply then_inv; auto using append_inv. Qed.
Lemma reverse_inv n is : forall l, Forall is_transition l -> Forall is_transition (snd (reverse_loop n is l)).
Proof.
  induction is as [|i is IH]; intros l H; cbn [reverse_loop]; auto. destruct (py_index l _) as [x|]; auto. destruct (py_index l _) as [y|]; auto.
  apply then_inv; auto using set_item_inv. intros l' H'. apply then_inv; auto using set_item_inv.
Qed.
Lemma pop_inv l i : Forall is_transition l -> Forall is_transition (snd (pop l i)).
Proof. intros H. apply of_res_inv; auto. intros l'. destruct (py_index l i); cbn; [|discriminate]. intros D. eauto using del_inv. Qed.
Lemma clear_inv f : forall l, Forall is_transition l -> Forall is_transition (snd (clear_loop f l)).
Proof.
  induction f as [|f IH]; intros l H; cbn [clear_loop]; auto. pose proof (pop_inv l (-1) H) as P. destruct (pop l (-1)) as [[[]|e] l']; cbn in *; auto.
Qed.
(** Operations that check their argument; [insert] only with a Transition object. *)
Definition checked (o : op) : Prop := match o with Insert _ x => is_transition x | SetSlice _ _ _ => False | _ => True end.
Lemma step_inv o l : checked o -> Forall is_transition l -> Forall is_transition (snd (step o l)).
Proof.
  destruct o; cbn [checked step]; intros C H; try contradiction.
  - apply append_inv; auto.
  - apply insert_inv; auto.
  - apply set_item_inv; auto.
  - apply of_res_inv; auto. intros l' D. eauto using del_inv.
  - cbn. unfold py_set_slice. cbn. apply Forall_app. split; [apply Forall_firstn|apply Forall_skipn]; auto.
  - apply extend_inv; auto.
  - apply pop_inv; auto.
  - apply reverse_inv; auto.
  - apply clear_inv; auto.
Qed.
Lemma run_inv ops : forall l, Forall checked ops -> Forall is_transition l -> Forall is_transition (run ops l).
Proof. induction ops as [|o ops IH]; intros l C H; cbn; auto. inversion C; subst. apply IH; auto. apply step_inv; auto. Qed.

(** ** What the derived operations do *)
Lemma append_ok l x y : check x = Ok y -> append l x = (Ok tt, l ++ [y]).
Proof.
  intros E. unfold append. rewrite E. cbn [bind of_res]. unfold py_insert, clamp. replace (Z.of_nat (List.length l) <? 0) with false by (symmetry; apply Z.ltb_ge; lia).
  replace (Z.to_nat _) with (List.length l) by lia. rewrite firstn_all, skipn_all. auto.
Qed.
(** The items up to the first that is refused. *)
Fixpoint accepted (xs : list item) : list item := match xs with [] => [] | x :: r => match check x with Ok y => y :: accepted r | Err _ => [] end end.
Lemma extend_spec xs : forall l, extend l xs = (match mapM check xs with Ok _ => Ok tt | Err e => Err e end, l ++ accepted xs).
Proof.
  induction xs as [|x xs IH]; intros l; cbn [extend mapM accepted]; [rewrite app_nil_r; auto|]. destruct (check x) as [y|e] eqn:E.
  - rewrite (append_ok l x y E). cbn [then_ bind]. rewrite IH. rewrite <- app_assoc. cbn [app]. destruct (mapM check xs); auto.
  - unfold append. rewrite E. cbn. rewrite app_nil_r. auto.
Qed.
Lemma pop_last l x : pop (l ++ [x]) (-1) = (Ok tt, l).
Proof.
  unfold pop, py_index, py_del, position. cbv zeta. change (-1 <? 0) with true. cbv iota. rewrite app_length. cbn [List.length].
  replace (Z.of_nat (List.length l + 1)) with (Z.of_nat (List.length l) + 1) by lia. replace (-1 + (Z.of_nat (List.length l) + 1)) with (Z.of_nat (List.length l)) by lia.
  replace (Z.of_nat (List.length l) <? 0) with false by (symmetry; apply Z.ltb_ge; lia). rewrite Nat2Z.id, nth_error_app2, Nat.sub_diag by lia. cbn [nth_error bind].
  replace (0 <=? Z.of_nat (List.length l)) with true by (symmetry; apply Z.leb_le; lia). replace (_ <? _) with true by (symmetry; apply Z.ltb_lt; lia). cbn [andb of_res].
  rewrite firstn_app, Nat.sub_diag, firstn_all, skipn_app, skipn_all2 by lia. replace (S (List.length l) - List.length l)%nat with 1%nat by lia. cbn. rewrite !app_nil_r. auto.
Qed.
Lemma clear_spec f : forall l, (List.length l < f)%nat -> clear_loop f l = (Ok tt, []).
Proof.
  induction f as [|f IH]; intros l H; [lia|]. cbn [clear_loop]. destruct l as [|x l] using rev_ind; [reflexivity|]. rewrite pop_last. apply IH. rewrite app_length in H. cbn in H. lia.
Qed.
Lemma index_at (l : list item) i x : (i < List.length l)%nat -> py_index l (Z.of_nat i) = Ok (nth i l x).
Proof. intros H. unfold py_index. cbv zeta. replace (Z.of_nat i <? 0) with false by (symmetry; apply Z.ltb_ge; lia). cbn. rewrite Nat2Z.id, (nth_error_nth' l x) by auto. replace (Z.of_nat i <? 0) with false by (symmetry; apply Z.ltb_ge; lia). auto. Qed.
Lemma set_at l i y : (i < List.length l)%nat -> is_transition y -> set_item l (Z.of_nat i) y = (Ok tt, upd_nat l i y).
Proof.
  intros H T. unfold set_item. rewrite check_id by auto. cbn [bind]. unfold py_assign. cbv zeta. assert (E : (Z.of_nat i <? 0) = false) by (apply Z.ltb_ge; lia). rewrite E, E.
  replace (_ <? _) with true by (symmetry; apply Z.ltb_lt; lia). rewrite Nat2Z.id. auto.
Qed.
Lemma nth_upd (l : list item) i j v d : (i < List.length l)%nat -> nth j (upd_nat l i v) d = if Nat.eqb j i then v else nth j l d.
Proof.
  revert i j. induction l as [|x l IH]; intros [|i] [|j] H; cbn in *; try lia; auto. apply IH. lia.
Qed.
Lemma reverse_loop_spec n k : forall start l l0, (start + k = n / 2)%nat -> List.length l0 = n -> Forall is_transition l0 -> List.length l = n -> Forall is_transition l ->
  (forall j, (j < n)%nat -> nth j l IOther = if (Nat.ltb j start || Nat.leb (n - start) j)%bool then nth (n - 1 - j) l0 IOther else nth j l0 IOther) ->
  reverse_loop n (seq start k) l = (Ok tt, rev l0).
Proof.
  pose proof (Nat.div_mod n 2 ltac:(lia)) as DM. pose proof (Nat.mod_upper_bound n 2 ltac:(lia)) as MB.
  induction k as [|k IH]; intros start l l0 E L0 T0 L T H; cbn [seq reverse_loop].
  - f_equal. apply (nth_ext _ _ IOther IOther); [rewrite rev_length; lia|]. intros j Hj. rewrite L in Hj. rewrite rev_nth by lia. rewrite H by auto. rewrite L0.
    replace (n - S j)%nat with (n - 1 - j)%nat by lia.
    destruct (Nat.ltb_spec j start); [auto|]. destruct (Nat.leb_spec (n - start) j); [auto|]. cbn [orb]. f_equal. lia.
  - assert (B : (start < n / 2)%nat) by lia.
    rewrite (index_at l (n - start - 1) IOther), (index_at l start IOther) by lia.
    assert (TR : forall j, (j < n)%nat -> is_transition (nth j l IOther)) by (intros j Hj; rewrite Forall_forall in T; apply T; apply nth_In; lia).
    rewrite set_at by (auto; try lia; apply TR; lia). cbn [then_]. rewrite set_at by (try (rewrite upd_nat_length); auto; try lia; apply TR; lia). cbn [then_].
    apply IH; try lia; auto.
    + rewrite !upd_nat_length. auto.
    + apply upd_Forall; [apply upd_Forall; auto|]; apply TR; lia.
    + intros j Hj. rewrite nth_upd by (rewrite upd_nat_length; lia). rewrite nth_upd by lia.
      destruct (Nat.eqb_spec j (n - start - 1)) as [->|N1].
      * rewrite H by lia. replace (Nat.ltb start start) with false by (symmetry; apply Nat.ltb_ge; lia). replace (Nat.leb (n - start) start) with false by (symmetry; apply Nat.leb_gt; lia).
        cbn [orb]. replace (Nat.leb (n - S start) (n - start - 1)) with true by (symmetry; apply Nat.leb_le; lia). rewrite orb_true_r. f_equal. lia.
      * destruct (Nat.eqb_spec j start) as [->|N2].
        -- rewrite H by lia. replace (Nat.ltb (n - start - 1) start) with false by (symmetry; apply Nat.ltb_ge; lia).
           replace (Nat.leb (n - start) (n - start - 1)) with false by (symmetry; apply Nat.leb_gt; lia). cbn [orb].
           replace (Nat.ltb start (S start)) with true by (symmetry; apply Nat.ltb_lt; lia). cbn [orb]. f_equal. lia.
        -- rewrite H by auto. destruct (Nat.ltb_spec j start), (Nat.ltb_spec j (S start)), (Nat.leb_spec (n - start) j), (Nat.leb_spec (n - S start) j); cbn [orb]; auto; lia.
Qed.
Lemma reverse_spec l : Forall is_transition l -> step Reverse l = (Ok tt, rev l).
Proof.
  intros T. cbn [step]. apply reverse_loop_spec; auto. intros j Hj. cbn [Nat.ltb Nat.leb]. replace (Nat.leb (List.length l - 0) j) with false by (symmetry; apply Nat.leb_gt; lia). auto.
Qed.

(** ** Filters *)
Open Scope Qc_scope.
(** The tolerance of numpy. *)
Definition near (a b : Qc) : Prop := (Qabs (this a - this b) <= (1 # 100000000) + (1 # 100000) * Qabs (this b))%Q.
Lemma plus_this x y : (this (x + y) == this x + this y)%Q.
Proof. unfold Qcplus. cbn [this Q2Qc]. rewrite Qred_correct. reflexivity. Qed.
Lemma qabs_this x : (this (qabs x) == Qabs (this x))%Q.
Proof. unfold qabs. cbn [this Q2Qc]. rewrite Qred_correct. reflexivity. Qed.
Lemma close_near a b : close a b = true <-> near a b.
Proof.
  unfold close, near. assert (E : (this (qabs (a - b)) == Qabs (this a - this b))%Q) by (rewrite qabs_this, minus_this; reflexivity).
  assert (F : (this (Q2Qc (1 # 100000000) + Q2Qc (1 # 100000) * qabs b)%Qc == (1 # 100000000) + (1 # 100000) * Qabs (this b))%Q).
  { rewrite plus_this, mult_this, qabs_this. reflexivity. }
  destruct (Qclt_le_dec _ _) as [H|H]; unfold Qclt, Qcle in H; rewrite E, F in H; split; auto; intros G; try discriminate.
  exfalso. apply (Qle_not_lt _ _ G). auto.
Qed.
Lemma combine_forallb {A B} (f : A -> B -> bool) a b : List.length a = List.length b ->
  (forallb (fun x => x) (map (fun p => f (fst p) (snd p)) (combine a b)) = true <-> Forall2 (fun x y => f x y = true) a b).
Proof.
  revert b. induction a as [|x a IH]; intros [|y b] L; cbn in *; try discriminate; [split; constructor|]. rewrite andb_true_iff, IH by lia. split.
  - intros [H G]. constructor; auto.
  - intros H. inversion H; subst. auto.
Qed.
Lemma allclose_spec a b : List.length a = List.length b -> exists r, allclose a b = Ok r /\ (r = true <-> Forall2 near a b).
Proof.
  intros L. unfold allclose, broadcast. rewrite L, Nat.eqb_refl. cbn [bind]. eexists. split; [reflexivity|]. rewrite combine_forallb by auto.
  split; intros H; induction H; constructor; auto; apply close_near; auto.
Qed.
Lemma filterM_spec {A} (f : A -> pyres bool) l : (forall x, In x l -> exists b, f x = Ok b) -> exists g, filterM f l = Ok (filter g l) /\ forall x, In x l -> f x = Ok (g x).
Proof.
  intros H. exists (fun x => match f x with Ok b => b | Err _ => false end). split.
  - induction l as [|x l IH]; cbn; auto. destruct (H x (or_introl eq_refl)) as [b E]. rewrite E. cbn [bind]. rewrite IH by (intros; apply H; right; auto). cbn [bind]. destruct b; auto.
  - intros x Hx. destruct (H x Hx) as [b ->]. auto.
Qed.
Lemma filter_filter {A} (f g : A -> bool) l : filter g (filter f l) = filter (fun x => f x && g x)%bool l.
Proof. induction l as [|x l IH]; cbn; auto. destruct (f x) eqn:E; cbn; [|auto]. destruct (g x); rewrite IH; auto. Qed.
