From Coq Require Import ZArith Lia Bool String Qcanon List Permutation.
From Verif Require Import Base BaseProofs ChunksModel ChunksProofs SimModel.
Import ListNotations.
Open Scope Qc_scope.

(** ** Vectors *)
Lemma vzero_length n : List.length (vzero n) = n.
Proof. apply repeat_length. Qed.
Lemma vadd_length a b : List.length (vadd a b) = Nat.min (List.length a) (List.length b).
Proof. revert b; induction a; intros [|]; simpl; auto. Qed.
Lemma vadd_comm a b : vadd a b = vadd b a.
Proof. revert b; induction a; intros [|]; simpl; auto. rewrite IHa. f_equal. ring. Qed.
Lemma vadd_assoc a b c : vadd a (vadd b c) = vadd (vadd a b) c.
Proof. revert b c; induction a; intros [|] [|]; simpl; auto. rewrite IHa. f_equal. ring. Qed.
Lemma vadd_0_r a : vadd a (vzero (List.length a)) = a.
Proof. induction a; simpl; auto. unfold vzero in *. rewrite IHa. f_equal. ring. Qed.
Lemma vadd_zero n a : List.length a = n -> vadd a (vzero n) = a.
Proof. intros <-. apply vadd_0_r. Qed.
Lemma vadd_zero_l n a : List.length a = n -> vadd (vzero n) a = a.
Proof. rewrite vadd_comm. apply vadd_zero. Qed.
Lemma vadd_len n a b : List.length a = n -> List.length b = n -> List.length (vadd a b) = n.
Proof. intros. rewrite vadd_length. lia. Qed.

Lemma fold_vadd n l a : Forall (fun v => List.length v = n) l -> List.length a = n ->
  fold_left vadd l a = vadd a (vsum n l) /\ List.length (fold_left vadd l a) = n.
Proof.
  unfold vsum. revert a. induction l as [|x l IH]; intros a Hl Ha; simpl.
  - rewrite vadd_zero; auto.
  - inversion Hl as [|x' l' Lx Hl']. destruct (IH (vadd a x)) as [E L]; auto.
    { apply vadd_len; auto. }
    destruct (IH (vadd (vzero n) x)) as [E' _]; auto.
    { apply vadd_len; auto. apply vzero_length. }
    split; auto. rewrite E, E'. rewrite (vadd_zero_l n x) by auto.
    rewrite vadd_assoc. auto.
Qed.

Lemma vsum_length n l : Forall (fun v => List.length v = n) l -> List.length (vsum n l) = n.
Proof. intros. apply (fold_vadd n l (vzero n)); auto. apply vzero_length. Qed.

Lemma vsum_cons n x l : Forall (fun v => List.length v = n) (x :: l) -> vsum n (x :: l) = vadd x (vsum n l).
Proof.
  intros H. inversion H; subst. unfold vsum at 1. simpl.
  rewrite (vadd_zero_l _ x) by auto. apply fold_vadd; auto.
Qed.

Lemma vsum_app n a b : Forall (fun v => List.length v = n) (a ++ b) -> vsum n (a ++ b) = vadd (vsum n a) (vsum n b).
Proof.
  induction a as [|x a IH]; intros H.
  - simpl. unfold vsum at 2. simpl. rewrite vadd_zero_l; auto. apply vsum_length; auto.
  - simpl app in *. rewrite vsum_cons by auto. inversion H; subst.
    rewrite IH by auto. rewrite vsum_cons. { apply vadd_assoc. }
    constructor; auto. apply Forall_app in H3. tauto.
Qed.

Lemma vsum_perm n a b : Permutation a b -> Forall (fun v => List.length v = n) a -> vsum n a = vsum n b.
Proof.
  induction 1; intros F; auto.
  - rewrite !vsum_cons; auto. { inversion F; subst. f_equal. auto. }
    inversion F; subst. constructor; auto. eapply Permutation_Forall; eauto.
  - assert (F1 : Forall (fun v => List.length v = n) (y :: l)) by (inversion F; subst; inversion H2; subst; constructor; auto).
    assert (F2 : Forall (fun v => List.length v = n) (x :: l)) by (inversion F; subst; inversion H2; subst; constructor; auto).
    assert (F3 : Forall (fun v => List.length v = n) (x :: y :: l)) by (inversion F; subst; inversion H2; subst; repeat constructor; auto).
    rewrite (vsum_cons n x (y :: l)) by auto.
    rewrite (vsum_cons n y (x :: l)) by auto.
    rewrite !vsum_cons by auto.
    rewrite !vadd_assoc, (vadd_comm x y). auto.
  - rewrite IHPermutation1 by auto. apply IHPermutation2. eapply Permutation_Forall; eauto.
Qed.

Lemma vsum_concat n (ls : list (list (list Qc))) :
  Forall (Forall (fun v => List.length v = n)) ls ->
  vsum n (map (vsum n) ls) = vsum n (concat ls).
Proof.
  induction ls as [|l ls IH]; intros H; simpl; auto.
  inversion H; subst.
  assert (Fc : Forall (fun v => List.length v = n) (concat ls)).
  { clear -H3. induction ls; simpl; auto. inversion H3; subst. apply Forall_app; auto. }
  assert (Fm : Forall (fun v => List.length v = n) (map (vsum n) ls)).
  { apply Forall_forall. intros v Hv. apply in_map_iff in Hv. destruct Hv as [x [<- Hx]].
    apply vsum_length. rewrite Forall_forall in H3. auto. }
  rewrite vsum_cons, IH, vsum_app; auto.
  - apply Forall_app; auto.
  - constructor; auto. apply vsum_length; auto.
Qed.

(** ** Monadic map *)
Lemma mapM_app {X Y} (f : X -> pyres Y) a b :
  mapM f (a ++ b) = let* x := mapM f a in let* y := mapM f b in Ok (x ++ y).
Proof.
  induction a as [|x a IH]; simpl.
  - destruct (mapM f b); auto.
  - destruct (f x); simpl; auto. rewrite IH. destruct (mapM f a); simpl; auto. destruct (mapM f b); auto.
Qed.
Lemma mapM_ext_in {X Y} (f g : X -> pyres Y) l : (forall x, In x l -> f x = g x) -> mapM f l = mapM g l.
Proof.
  induction l as [|x l IH]; simpl; intros H; auto. rewrite H by auto.
  destruct (g x); simpl; auto. rewrite IH; auto.
Qed.
Lemma bind_assoc {A B C} (x : pyres A) (f : A -> pyres B) (g : B -> pyres C) :
  bind (bind x f) g = bind x (fun a => bind (f a) g).
Proof. destruct x; auto. Qed.
Lemma mapM_concat {X Y} (f : X -> pyres Y) ls :
  mapM f (concat ls) = let* r := mapM (mapM f) ls in Ok (concat r).
Proof.
  induction ls as [|l ls IH]; simpl; auto.
  rewrite mapM_app, IH. destruct (mapM f l); simpl; auto. destruct (mapM (mapM f) ls); simpl; auto.
Qed.
Lemma mapM_Forall {X Y} (f : X -> pyres Y) (Q : Y -> Prop) l r :
  (forall x y, f x = Ok y -> Q y) -> mapM f l = Ok r -> Forall Q r.
Proof.
  intros H. revert r. induction l as [|x l IH]; simpl; intros r E.
  - injection E as <-. auto.
  - destruct (f x) eqn:Ex; simpl in E; try discriminate.
    destruct (mapM f l) eqn:El; simpl in E; try discriminate.
    injection E as <-. constructor; eauto.
Qed.
Lemma mapM_perm {X Y} (f : X -> pyres Y) a b r :
  Permutation a b -> mapM f a = Ok r -> exists r', mapM f b = Ok r' /\ Permutation r r'.
Proof.
  intros HP. revert r. induction HP; intros r E.
  - exists r. split; auto.
  - simpl in *. destruct (f x); simpl in *; try discriminate.
    destruct (mapM f l); simpl in *; try discriminate. injection E as <-.
    destruct (IHHP _ eq_refl) as [r' [-> Hp]]. simpl. eexists; split; eauto.
  - simpl in *. destruct (f y); simpl in *; try discriminate.
    destruct (f x); simpl in *; try discriminate.
    destruct (mapM f l); simpl in *; try discriminate. injection E as <-.
    eexists; split; eauto. apply perm_swap.
  - destruct (IHHP1 _ E) as [r1 [E1 P1]]. destruct (IHHP2 _ E1) as [r2 [E2 P2]].
    exists r2. split; auto. eapply Permutation_trans; eauto.
Qed.

Section Sim.
Variables (P D : Type).
Notation spin_sys := (spin_sys P D).
Notation meth := (meth P D).

(** ** Specification notions *)
(** Two systems that the pathway cache must not confuse. *)
Definition same_paths (s t : spin_sys) : Prop := ss_isotopes s = ss_isotopes t /\ ss_pathways s = ss_pathways t.

(** Whenever two consecutive simulated systems have equally many sites they have the same pathways. *)
Definition cache_safe (m : meth) (l : list spin_sys) : Prop :=
  forall l1 s t l2, filter (has_channel m) l = l1 ++ s :: t :: l2 ->
    List.length (ss_isotopes s) = List.length (ss_isotopes t) -> same_paths s t.

(** The same for any two systems of the list. *)
Definition cache_safe_all (m : meth) (l : list spin_sys) : Prop :=
  forall s t, In s l -> In t l -> has_channel m s = true -> has_channel m t = true ->
    List.length (ss_isotopes s) = List.length (ss_isotopes t) -> same_paths s t.

(** The method has at least one point and the reversal maps bins to bins. *)
Definition wf_meth (m : meth) : Prop := (0 < npts m)%nat /\ forall k, (k < npts m)%nat -> (flip m k < npts m)%nat.

Lemma cache_safe_all_safe (m : meth) l : cache_safe_all m l -> cache_safe m l.
Proof.
  intros H l1 s t l2 E L.
  assert (In s (filter (has_channel m) l)) by (rewrite E; apply in_or_app; simpl; auto).
  assert (In t (filter (has_channel m) l)) by (rewrite E; apply in_or_app; simpl; auto).
  apply filter_In in H0, H1. apply H; tauto.
Qed.

Fixpoint adj (m : meth) (prev : option spin_sys) (l : list spin_sys) : Prop :=
  match l with
  | [] => True
  | s :: r => if has_channel m s
              then (match prev with None => True | Some t =>
                     List.length (ss_isotopes t) = List.length (ss_isotopes s) -> same_paths t s end)
                   /\ adj m (Some s) r
              else adj m prev r
  end.

Lemma cache_safe_adj_gen (m : meth) l prev :
  (forall l1 s t l2, (match prev with None => [] | Some p => [p] end) ++ filter (has_channel m) l = l1 ++ s :: t :: l2 ->
    List.length (ss_isotopes s) = List.length (ss_isotopes t) -> same_paths s t) -> adj m prev l.
Proof.
  revert prev. induction l as [|s l IH]; intros prev H; simpl; auto.
  simpl in H. destruct (has_channel m s) eqn:E.
  - split.
    + destruct prev as [p|]; auto. intros L. apply (H [] p s (filter (has_channel m) l)); auto.
    + apply IH. intros l1 a b l2 Ef L. destruct prev as [p|].
      * apply (H (p :: l1) a b l2); auto. simpl in *. rewrite Ef. auto.
      * apply (H l1 a b l2); auto.
  - apply IH. auto.
Qed.
Lemma cache_safe_adj (m : meth) l : cache_safe m l -> adj m None l.
Proof. intros H. apply cache_safe_adj_gen. simpl. auto. Qed.

Lemma adj_weaken (m : meth) l p : adj m p l -> adj m None l.
Proof. revert p; induction l; intros p; simpl; auto. destruct (has_channel m a); [tauto|eauto]. Qed.
Lemma adj_app_l (m : meth) a b p : adj m p (a ++ b) -> adj m p a.
Proof. revert p; induction a as [|s a IH]; intros p; simpl; auto. destruct (has_channel m s); [|eauto]. intros [? ?]; eauto. Qed.
Lemma adj_app_r (m : meth) a b p : adj m p (a ++ b) -> adj m None b.
Proof.
  revert p; induction a as [|s a IH]; intros p; simpl.
  - apply adj_weaken.
  - destruct (has_channel m s); [intros [_ H]|intros H]; eauto.
Qed.
Lemma adj_concat (m : meth) ls p : adj m p (concat ls) -> Forall (adj m None) ls.
Proof.
  revert p; induction ls as [|l ls IH]; intros p H; auto. simpl in H. constructor.
  - eapply adj_weaken, adj_app_l; eauto.
  - eapply IH, adj_app_r; eauto.
Qed.

Definition cache_inv (m : meth) (prev : option spin_sys) (c : cache P) : Prop :=
  match prev with
  | None => c = cache0
  | Some t => has_channel m t = true /\ p_nsites c = List.length (ss_isotopes t) /\
              p_isotopes c = Some (ss_isotopes t) /\ paths_of m t = Ok (p_paths c)
  end.

Lemma isotopes_eqb_true a b : isotopes_eqb a b = true -> a = b.
Proof. unfold isotopes_eqb. destruct (list_eq_dec _ _ _); auto; discriminate. Qed.

Lemma has_channel_nonempty m (s : spin_sys) : has_channel m s = true -> List.length (ss_isotopes s) <> 0%nat.
Proof. unfold has_channel. destruct (ss_isotopes s); simpl; congruence. Qed.

Definition mkcache (s : spin_sys) (w : list P) : cache P :=
  {| p_nsites := List.length (ss_isotopes s); p_isotopes := Some (ss_isotopes s); p_paths := w |}.

Lemma update_cache_spec (m : meth) prev c s :
  cache_inv m prev c -> has_channel m s = true ->
  (match prev with None => True | Some t => List.length (ss_isotopes t) = List.length (ss_isotopes s) -> same_paths t s end) ->
  update_cache m s c = let* w := paths_of m s in Ok (mkcache s w).
Proof.
  intros Hi Hs Hc. unfold update_cache.
  destruct (Nat.eqb_spec (List.length (ss_isotopes s)) (p_nsites c)) as [E|E]; simpl.
  - destruct prev as [t|]; simpl in Hi.
    + destruct Hi as [Ht [Hn [Hiso Hp]]].
      destruct Hc as [Hi2 Hp2]; [congruence|].
      assert (Hps : paths_of m s = Ok (p_paths c)).
      { rewrite <- Hp. unfold paths_of. rewrite Hi2, Hp2. auto. }
      rewrite Hps. simpl. f_equal. unfold mkcache. destruct c; simpl in *. subst. rewrite <- Hi2. auto.
    + subst c. simpl in E. apply has_channel_nonempty in Hs. congruence.
  - destruct prev as [t|]; simpl in Hi.
    + destruct Hi as [Ht [Hn [Hiso Hp]]]. rewrite Hiso.
      destruct (isotopes_eqb (ss_isotopes s) (ss_isotopes t)) eqn:Eq; simpl.
      * apply isotopes_eqb_true in Eq. rewrite Eq in E. congruence.
      * reflexivity.
    + subst c. simpl. reflexivity.
Qed.

(** Contribution of one system to the sum. *)
Definition contrib (m : meth) (s : spin_sys) : pyres (list Qc) :=
  if has_channel m s then let* w := paths_of m s in Ok (system_amp m s w) else Ok (vzero (npts m)).

Lemma system_amp_length (m : meth) s w : List.length (system_amp m s w) = npts m.
Proof.
  unfold system_amp. rewrite map_length.
  assert (forall a, List.length a = npts m -> List.length (fold_left (fun amp p =>
     vadd amp (map (core m (ss_isotopes s) (ss_data s) p) (seq 0 (npts m)))) w a) = npts m).
  { induction w; simpl; auto. intros a0 Ha. apply IHw. apply vadd_len; auto. rewrite map_length, seq_length; auto. }
  apply H, vzero_length.
Qed.

Lemma contrib_length (m : meth) s v : contrib m s = Ok v -> List.length v = npts m.
Proof.
  unfold contrib. destruct (has_channel m s).
  - destruct (paths_of m s); simpl; try discriminate. intros E; injection E as <-. apply system_amp_length.
  - intros E; injection E as <-. apply vzero_length.
Qed.

Lemma contribs_length (m : meth) l vs : mapM (contrib m) l = Ok vs -> Forall (fun v => List.length v = npts m) vs.
Proof. apply mapM_Forall. intros; eapply contrib_length; eauto. Qed.

Lemma for_each_sum (m : meth) l prev c a :
  cache_inv m prev c -> adj m prev l -> List.length a = npts m ->
  (let* st := for_each l (step_sum m) (c, a) in Ok (snd st)) =
  (let* vs := mapM (contrib m) l in Ok (vadd a (vsum (npts m) vs))).
Proof.
  revert prev c a. induction l as [|s l IH]; intros prev c a Hc Ha La.
  - simpl. unfold vsum. simpl. rewrite vadd_zero; auto.
  - cbn [for_each mapM]. unfold step_sum at 1, contrib at 1. simpl in Ha.
    destruct (has_channel m s) eqn:E; cbn [negb].
    + destruct Ha as [Hp Ha].
      rewrite (update_cache_spec _ _ _ _ Hc E Hp).
      destruct (paths_of m s) as [w|e] eqn:Ew; cbn [bind]; auto.
      cbn [p_paths mkcache]. rewrite (IH (Some s)); auto.
      * destruct (mapM (contrib m) l) as [vs|] eqn:Em; cbn [bind]; auto.
        f_equal. rewrite vsum_cons.
        { rewrite vadd_assoc. auto. }
        constructor; [apply system_amp_length|eapply contribs_length; eauto].
      * simpl. auto.
      * apply vadd_len; auto. apply system_amp_length.
    + cbn [bind]. rewrite (IH prev); auto.
      destruct (mapM (contrib m) l) as [vs|] eqn:Em; cbn [bind]; auto.
      f_equal. assert (F : Forall (fun v => List.length v = npts m) vs) by (eapply contribs_length; eauto).
      rewrite vsum_cons by (constructor; auto; apply vzero_length).
      rewrite (vadd_zero_l (npts m)) by (apply vsum_length; auto). auto.
Qed.

(** Reversal. *)
Definition rev_vec (m : meth) (a : list Qc) : list Qc := map (fun k => nth (flip m k) a 0) (seq 0 (npts m)).

Lemma reverse_arr_ok (m : meth) a : wf_meth m -> List.length a = npts m -> reverse_arr m a = Ok (rev_vec m a).
Proof.
  intros [Hn Hf] L. unfold reverse_arr. destruct a as [|x a]; [simpl in L; lia|].
  rewrite L. rewrite (mapM_ok _ (fun k => nth (flip m k) (x :: a) 0)); auto.
  intros k Hk. apply in_seq in Hk. specialize (Hf k ltac:(lia)).
  unfold py_index. destruct (Z.ltb_spec (Z.of_nat (flip m k)) 0); [lia|].
  destruct (Z.ltb_spec (Z.of_nat (flip m k)) 0); [lia|].
  rewrite Nat2Z.id. rewrite (nth_error_nth' _ 0) by lia. auto.
Qed.

Lemma rev_vec_length (m : meth) a : List.length (rev_vec m a) = npts m.
Proof. unfold rev_vec. rewrite map_length, seq_length. auto. Qed.

Lemma nth_vadd a b i : (i < List.length a)%nat -> List.length a = List.length b ->
  nth i (vadd a b) 0 = nth i a 0 + nth i b 0.
Proof.
  revert b i; induction a as [|x a IH]; intros [|y b] [|i] H L; simpl in *; try lia; auto.
  apply IH; lia.
Qed.

Lemma map_vadd {X} (f g : X -> Qc) l : vadd (map f l) (map g l) = map (fun x => f x + g x) l.
Proof. induction l; simpl; auto. f_equal; auto. Qed.

Lemma rev_vec_vadd (m : meth) a b : wf_meth m -> List.length a = npts m -> List.length b = npts m ->
  rev_vec m (vadd a b) = vadd (rev_vec m a) (rev_vec m b).
Proof.
  intros [Hn Hf] La Lb. unfold rev_vec. rewrite map_vadd. apply map_ext_in. intros k Hk.
  apply in_seq in Hk. specialize (Hf k ltac:(lia)). apply nth_vadd; lia.
Qed.

Lemma nth_vzero n k : nth k (vzero n) 0 = 0.
Proof. unfold vzero. revert k; induction n; intros [|k]; simpl; auto. Qed.

Lemma rev_vec_zero (m : meth) : rev_vec m (vzero (npts m)) = vzero (npts m).
Proof.
  unfold rev_vec. unfold vzero at 2. transitivity (map (fun _ : nat => 0) (seq 0 (npts m))).
  - apply map_ext. intros. apply nth_vzero.
  - generalize 0%nat. induction (npts m); simpl; intros; auto. f_equal; auto.
Qed.

Lemma rev_vec_sum (m : meth) vs : wf_meth m -> Forall (fun v => List.length v = npts m) vs ->
  rev_vec m (vsum (npts m) vs) = vsum (npts m) (map (rev_vec m) vs).
Proof.
  intros W F. induction F as [|v vs Lv F IH].
  - unfold vsum. simpl. apply rev_vec_zero.
  - simpl map. rewrite !vsum_cons; auto.
    + rewrite rev_vec_vadd, IH; auto. apply vsum_length; auto.
    + constructor. { apply rev_vec_length. }
      apply Forall_forall. intros x Hx. apply in_map_iff in Hx. destruct Hx as [y [<- _]]. apply rev_vec_length.
Qed.

Definition orient (m : meth) (a : list Qc) : list Qc := if gamma_negative m then rev_vec m a else a.

Lemma orient_length (m : meth) a : List.length a = npts m -> List.length (orient m a) = npts m.
Proof. unfold orient. destruct (gamma_negative m); auto. intros; apply rev_vec_length. Qed.

Lemma orient_sum (m : meth) vs : wf_meth m -> Forall (fun v => List.length v = npts m) vs ->
  orient m (vsum (npts m) vs) = vsum (npts m) (map (orient m) vs).
Proof.
  intros. unfold orient. destruct (gamma_negative m).
  - apply rev_vec_sum; auto.
  - rewrite map_id. auto.
Qed.

(** Characterisation of one_d_spectrum for cache-safe inputs. *)
Lemma one_d_sum_adj (m : meth) l : wf_meth m -> adj m None l ->
  one_d_sum m l = let* vs := mapM (contrib m) l in Ok (orient m (vsum (npts m) vs)).
Proof.
  intros W A. unfold one_d_sum, orient.
  pose proof (for_each_sum m l None cache0 (vzero (npts m)) eq_refl A (vzero_length _)) as H.
  destruct (for_each l (step_sum m) (cache0, vzero (npts m))) as [st|e]; cbn [bind] in H |- *.
  - destruct (mapM (contrib m) l) as [vs|e'] eqn:Em; cbn [bind] in *; [|discriminate].
    injection H as H. pose proof (contribs_length _ _ _ Em) as F.
    rewrite vadd_zero_l in H by (apply vsum_length; auto). rewrite H.
    destruct (gamma_negative m); auto. apply reverse_arr_ok; auto. apply vsum_length; auto.
  - destruct (mapM (contrib m) l) as [vs|e']; cbn [bind] in *; [discriminate|congruence].
Qed.

Lemma one_d_sum_single (m : meth) s : wf_meth m ->
  one_d_sum m [s] = let* v := contrib m s in Ok (orient m v).
Proof.
  intros W. rewrite one_d_sum_adj; auto.
  - simpl. destruct (contrib m s) as [v|] eqn:E; simpl; auto.
    f_equal. f_equal. pose proof (contrib_length _ _ _ E). rewrite vsum_cons by auto.
    unfold vsum. simpl. apply vadd_zero; auto.
  - simpl. destruct (has_channel m s); auto.
Qed.

(** ** The spectrum of one system *)
Definition qcsum (l : list Qc) : Qc := fold_right Qcplus 0 l.
Lemma nth_vadd_n a b k n : List.length a = n -> List.length b = n -> nth k (vadd a b) 0 = nth k a 0 + nth k b 0.
Proof.
  revert b k n; induction a as [|x a IH]; intros [|y b] k n La Lb; simpl in *; subst; try discriminate; [destruct k; ring|].
  destruct k; auto. apply (IH b k (List.length a)); auto.
Qed.
Lemma nth_map_seq (f : nat -> Qc) n k : (k < n)%nat -> nth k (map f (seq 0 n)) 0 = f k.
Proof.
  intros H. rewrite nth_indep with (d' := f 0%nat) by (rewrite map_length, seq_length; auto). rewrite map_nth, seq_nth by auto. auto.
Qed.
Lemma system_amp_nth (m : meth) s w k : (k < npts m)%nat ->
  nth k (system_amp m s w) 0 = qcsum (map (fun p => core m (ss_isotopes s) (ss_data s) p k) w) * ss_abundance s / norm m.
Proof.
  intros Hk. unfold system_amp.
  rewrite nth_indep with (d' := (fun x => x * ss_abundance s / norm m) 0).
  2:{ pose proof (system_amp_length m s w) as L. unfold system_amp in L. rewrite L. auto. }
  rewrite (map_nth (fun x => x * ss_abundance s / norm m)). cbv beta. f_equal. f_equal.
  assert (G : forall a, List.length a = npts m -> nth k (fold_left (fun amp p => vadd amp (map (core m (ss_isotopes s) (ss_data s) p) (seq 0 (npts m)))) w a) 0
    = nth k a 0 + qcsum (map (fun p => core m (ss_isotopes s) (ss_data s) p k) w)).
  { induction w as [|p w IH]; intros a La; simpl; [ring|]. rewrite IH.
    - rewrite (nth_vadd_n _ _ _ (npts m)); [|exact La|rewrite map_length, seq_length; reflexivity].
      rewrite nth_map_seq by auto. ring.
    - apply vadd_len; auto. rewrite map_length, seq_length. auto. }
  rewrite G by apply vzero_length. rewrite nth_vzero. ring.
Qed.
Lemma list_as_map (l : list Qc) n : List.length l = n -> l = map (fun k => nth k l 0) (seq 0 n).
Proof.
  intros <-. induction l as [|x l IH]; auto. cbn [List.length seq map]. f_equal. rewrite <- seq_shift, map_map. exact IH.
Qed.
Theorem one_system_formula (m : meth) s w : wf_meth m -> In (channel m) (ss_isotopes s) ->
  match ss_pathways s with Some u => Ok u | None => get_pathways m (ss_isotopes s) end = Ok w ->
  one_d_sum m [s] =
    if (0 <? List.length w)%nat then
      Ok (map (fun k => qcsum (map (fun p => core m (ss_isotopes s) (ss_data s) p (if gamma_negative m then flip m k else k)) w)
                        * ss_abundance s / norm m) (seq 0 (npts m)))
    else Err ValueError.
Proof.
  intros W HC HP. rewrite one_d_sum_single by auto. unfold contrib.
  assert (H : has_channel m s = true) by (apply existsb_exists; exists (channel m); split; auto; apply String.eqb_refl).
  rewrite H. unfold paths_of. replace (match ss_pathways s with None => get_pathways m (ss_isotopes s) | Some u => Ok u end) with (Ok w) by (rewrite <- HP; destruct (ss_pathways s); auto).
  cbn [bind]. destruct w as [|p w]; [reflexivity|]. cbn [bind List.length]. change (0 <? S (List.length w))%nat with true. cbv iota. f_equal.
  unfold orient. destruct (gamma_negative m).
  - unfold rev_vec. apply map_ext_in. intros k Hk. apply in_seq in Hk. apply system_amp_nth. apply W. lia.
  - rewrite (list_as_map (system_amp m s (p :: w)) (npts m)) by apply system_amp_length. apply map_ext_in. intros k Hk. apply in_seq in Hk. apply system_amp_nth. lia.
Qed.

Lemma one_d_sum_additive_adj (m : meth) l : wf_meth m -> adj m None l ->
  one_d_sum m l = let* vs := mapM (fun s => one_d_sum m [s]) l in Ok (vsum (npts m) vs).
Proof.
  intros W A. rewrite one_d_sum_adj by auto.
  assert (E : mapM (fun s => one_d_sum m [s]) l = let* vs := mapM (contrib m) l in Ok (map (orient m) vs)).
  { clear A. induction l as [|s l IH]; cbn [mapM bind]; auto.
    rewrite one_d_sum_single by auto. rewrite IH.
    destruct (contrib m s); cbn [bind]; auto. destruct (mapM (contrib m) l); cbn [bind]; auto. }
  rewrite E. destruct (mapM (contrib m) l) as [vs|] eqn:Em; cbn [bind]; auto.
  f_equal. apply orient_sum; auto. eapply contribs_length; eauto.
Qed.

Lemma one_d_sum_additive (m : meth) l : wf_meth m -> cache_safe m l ->
  one_d_sum m l = let* vs := mapM (fun s => one_d_sum m [s]) l in Ok (vsum (npts m) vs).
Proof. intros. apply one_d_sum_additive_adj; auto. apply cache_safe_adj; auto. Qed.

Lemma one_d_sum_length (m : meth) l v : wf_meth m -> cache_safe m l -> one_d_sum m l = Ok v -> List.length v = npts m.
Proof.
  intros W S. rewrite one_d_sum_adj by (auto using cache_safe_adj).
  destruct (mapM (contrib m) l) as [vs|] eqn:Em; cbn [bind]; intros E; [|discriminate].
  injection E as <-. apply orient_length, vsum_length. eapply contribs_length; eauto.
Qed.

(** n_jobs independence. *)
Lemma run_sum_cover cpu (m : meth) l nj chunks : wf_meth m -> cache_safe m l ->
  get_chunks cpu l nj = Ok chunks -> chunks <> [] -> concat chunks = l ->
  run_sum cpu m l nj = one_d_sum m l.
Proof.
  intros W S G Hne Hc. unfold run_sum. rewrite G. cbn [bind].
  apply cache_safe_adj in S.
  assert (A : Forall (adj m None) chunks) by (eapply adj_concat; rewrite Hc; eauto).
  rewrite (one_d_sum_adj m l) by auto. rewrite <- Hc, mapM_concat.
  assert (E : mapM (one_d_sum m) chunks =
     let* r := mapM (mapM (contrib m)) chunks in Ok (map (fun vs => orient m (vsum (npts m) vs)) r)).
  { clear -A W. induction A as [|c chunks A1 A IH]; cbn [mapM bind]; auto.
    rewrite one_d_sum_adj, IH by auto.
    destruct (mapM (contrib m) c); cbn [bind]; auto. destruct (mapM (mapM (contrib m)) chunks); cbn [bind]; auto. }
  rewrite E. destruct (mapM (mapM (contrib m)) chunks) as [r|] eqn:Er; cbn [bind]; auto.
  assert (F : Forall (Forall (fun v => List.length v = npts m)) r).
  { eapply mapM_Forall; eauto. intros x y. apply contribs_length. }
  pose proof (mapM_length _ _ _ Er) as L.
  destruct r as [|r0 r]; [destruct chunks; simpl in L; congruence|].
  cbn [map]. f_equal. change (orient m (vsum (npts m) r0) :: map (fun vs => orient m (vsum (npts m) vs)) r)
    with (map (fun vs => orient m (vsum (npts m) vs)) (r0 :: r)).
  rewrite <- (map_map (vsum (npts m)) (orient m)).
  rewrite <- orient_sum; auto.
  - rewrite vsum_concat; auto.
  - apply Forall_forall. intros v Hv. apply in_map_iff in Hv. destruct Hv as [x [<- Hx]].
    apply vsum_length. rewrite Forall_forall in F. auto.
Qed.

Lemma run_sum_any_jobs cpu (m : meth) l n : wf_meth m -> cache_safe m l -> (1 <= n)%nat ->
  run_sum cpu m l (Z.of_nat n) = one_d_sum m l.
Proof.
  intros W S Hn. destruct (get_chunks_partition cpu l n Hn) as [ch [G [Hc [Hl _]]]].
  eapply run_sum_cover; eauto. intros ->. simpl in Hl. lia.
Qed.

Lemma run_sum_jobs_indep cpu (m : meth) l n1 n2 : wf_meth m -> cache_safe m l -> (1 <= n1)%nat -> (1 <= n2)%nat ->
  run_sum cpu m l (Z.of_nat n1) = run_sum cpu m l (Z.of_nat n2).
Proof. intros. rewrite !run_sum_any_jobs; auto. Qed.

(** n_jobs = 1 is a single call on the whole list. *)
Lemma run_sum_one cpu (m : meth) l v : wf_meth m -> one_d_sum m l = Ok v -> List.length v = npts m -> run_sum cpu m l 1 = Ok v.
Proof.
  intros W E L. unfold run_sum. change 1%Z with (Z.of_nat 1).
  rewrite (get_chunks_pos cpu l 1) by lia. cbn [bind seq map mapM].
  rewrite Nat.div_1_r, Nat.mod_1_r. unfold nb.
  replace (1 * List.length l + Nat.min 1 0)%nat with (List.length l) by lia.
  replace (0 * List.length l + Nat.min 0 0)%nat with 0%nat by lia.
  rewrite Nat.sub_0_r. simpl skipn. rewrite firstn_all, E. cbn [bind].
  unfold vsum. simpl. rewrite vadd_zero_l; auto.
Qed.

(** Order independence. *)
Lemma one_d_sum_perm (m : meth) l l' v : wf_meth m -> cache_safe_all m l -> Permutation l l' ->
  one_d_sum m l = Ok v -> one_d_sum m l' = Ok v.
Proof.
  intros W S HP E.
  assert (S' : cache_safe_all m l').
  { intros s t Hs Ht. apply Permutation_sym in HP. apply S; eapply Permutation_in; eauto. }
  apply cache_safe_all_safe, cache_safe_adj in S, S'.
  rewrite one_d_sum_adj in E |- * by auto.
  destruct (mapM (contrib m) l) as [vs|] eqn:Em; cbn [bind] in E; [|discriminate].
  injection E as <-. destruct (mapM_perm _ _ _ _ HP Em) as [vs' [-> HP']]. cbn [bind].
  f_equal. f_equal. symmetry. apply vsum_perm; auto. eapply contribs_length; eauto.
Qed.

(** Inert systems. *)
Lemma for_each_filter (m : meth) l st :
  for_each l (step_sum m) st = for_each (filter (has_channel m) l) (step_sum m) st.
Proof.
  revert st. induction l as [|s l IH]; intros st; auto.
  cbn [filter]. destruct (has_channel m s) eqn:E.
  - cbn [for_each]. destruct (step_sum m s st); cbn [bind]; auto.
  - cbn [for_each]. replace (step_sum m s st) with (Ok st); [cbn [bind]; auto|].
    unfold step_sum. destruct st. rewrite E. auto.
Qed.
Lemma one_d_sum_inert (m : meth) l l' : filter (has_channel m) l = filter (has_channel m) l' -> one_d_sum m l = one_d_sum m l'.
Proof. intros E. unfold one_d_sum. rewrite (for_each_filter m l), (for_each_filter m l'), E. auto. Qed.

(** Abundance scaling. *)
Definition scale_abundance (c : Qc) (s : spin_sys) : spin_sys :=
  {| ss_isotopes := ss_isotopes s; ss_abundance := c * ss_abundance s; ss_pathways := ss_pathways s; ss_data := ss_data s |}.

Lemma system_amp_scale (m : meth) c s w : system_amp m (scale_abundance c s) w = map (fun x => c * x) (system_amp m s w).
Proof.
  unfold system_amp. rewrite map_map. simpl. apply map_ext. intros. unfold Qcdiv. ring.
Qed.
Lemma map_scale_vadd c a b : map (fun x => c * x) (vadd a b) = vadd (map (fun x => c * x) a) (map (fun x => c * x) b).
Proof. revert b; induction a; intros [|]; simpl; auto. rewrite IHa. f_equal. ring. Qed.

Lemma for_each_scale (m : meth) c l ca a :
  for_each (map (scale_abundance c) l) (step_sum m) (ca, map (fun x => c * x) a) =
  let* st := for_each l (step_sum m) (ca, a) in Ok (fst st, map (fun x => c * x) (snd st)).
Proof.
  revert ca a. induction l as [|s l IH]; intros ca a; cbn [map for_each]; auto.
  unfold step_sum at 1 3. change (has_channel m (scale_abundance c s)) with (has_channel m s).
  destruct (has_channel m s); cbn [negb bind].
  - change (update_cache m (scale_abundance c s) ca) with (update_cache m s ca).
    destruct (update_cache m s ca) as [c'|]; cbn [bind]; auto.
    rewrite system_amp_scale, <- map_scale_vadd. apply IH.
  - apply IH.
Qed.

Lemma map_scale_zero c n : map (fun x => c * x) (vzero n) = vzero n.
Proof. unfold vzero. induction n; simpl; auto. rewrite IHn. f_equal. ring. Qed.

Lemma py_index_map {A B} (f : A -> B) l i : py_index (map f l) i = let* x := py_index l i in Ok (f x).
Proof.
  unfold py_index. rewrite map_length.
  destruct ((if (i <? 0)%Z then (i + Z.of_nat (List.length l))%Z else i) <? 0)%Z; auto.
  rewrite nth_error_map. destruct (nth_error l _); auto.
Qed.
Lemma mapM_map_result {X Y Z} (f : X -> pyres Y) (g : Y -> Z) l :
  mapM (fun x => let* y := f x in Ok (g y)) l = let* r := mapM f l in Ok (map g r).
Proof.
  induction l; cbn [mapM bind]; auto. destruct (f a); cbn [bind]; auto. rewrite IHl. destruct (mapM f l); cbn [bind]; auto.
Qed.

Lemma reverse_arr_map (m : meth) f a : reverse_arr m (map f a) = let* r := reverse_arr m a in Ok (map f r).
Proof.
  unfold reverse_arr. destruct a as [|x a]; auto. cbn [map].
  change (f x :: map f a) with (map f (x :: a)). rewrite map_length.
  rewrite <- mapM_map_result. apply mapM_ext_in. intros. apply py_index_map.
Qed.

Lemma one_d_sum_scale (m : meth) c l :
  one_d_sum m (map (scale_abundance c) l) = let* v := one_d_sum m l in Ok (map (fun x => c * x) v).
Proof.
  unfold one_d_sum. rewrite <- (map_scale_zero c (npts m)) at 1. rewrite for_each_scale.
  destruct (for_each l (step_sum m) (cache0, vzero (npts m))) as [[ca a]|]; cbn [bind snd]; auto.
  destruct (gamma_negative m); cbn [bind]; auto. apply reverse_arr_map.
Qed.

Lemma one_d_sum_zero_abundance (m : meth) s v : wf_meth m -> ss_abundance s = 0 -> one_d_sum m [s] = Ok v -> v = vzero (npts m).
Proof.
  intros W H. rewrite one_d_sum_single by auto. unfold contrib.
  assert (O : orient m (vzero (npts m)) = vzero (npts m)).
  { unfold orient. destruct (gamma_negative m); auto. apply rev_vec_zero. }
  destruct (has_channel m s).
  - destruct (paths_of m s); cbn [bind]; intros E; [|discriminate].
    assert (Z : system_amp m s a = vzero (npts m)).
    { rewrite <- (map_scale_zero 0 (npts m)).
      assert (L := system_amp_length m s a).
      unfold system_amp in *. rewrite map_length in L. revert L.
      generalize (fold_left (fun amp p => vadd amp (map (core m (ss_isotopes s) (ss_data s) p) (seq 0 (npts m)))) a (vzero (npts m))).
      intros l0 <-. rewrite H. unfold vzero. clear. induction l0; simpl; auto. rewrite <- IHl0. f_equal. unfold Qcdiv. ring. }
    rewrite Z in E. congruence.
  - cbn [bind]. intros E. congruence.
Qed.

(** Decomposition. *)
Definition entry (m : meth) (s : spin_sys) : pyres (list Qc) :=
  if has_channel m s then let* w := paths_of m s in Ok (system_amp m s w) else Ok [].

Lemma for_each_dec (m : meth) l prev c ai :
  cache_inv m prev c -> adj m prev l ->
  (let* st := for_each l (step_dec m) (c, ai) in Ok (snd st)) =
  (let* vs := mapM (entry m) l in Ok (ai ++ vs)).
Proof.
  revert prev c ai. induction l as [|s l IH]; intros prev c ai Hc Ha.
  - simpl. rewrite app_nil_r. auto.
  - cbn [for_each mapM]. unfold step_dec at 1, entry at 1. simpl in Ha.
    destruct (has_channel m s) eqn:E; cbn [negb].
    + destruct Ha as [Hp Ha].
      rewrite (update_cache_spec _ _ _ _ Hc E Hp).
      destruct (paths_of m s) as [w|e] eqn:Ew; cbn [bind]; auto.
      cbn [p_paths mkcache]. rewrite (IH (Some s)); auto.
      * destruct (mapM (entry m) l) as [vs|] eqn:Em; cbn [bind]; auto.
        rewrite <- app_assoc. auto.
      * simpl. auto.
    + cbn [bind]. rewrite (IH prev); auto.
      destruct (mapM (entry m) l) as [vs|] eqn:Em; cbn [bind]; auto.
      rewrite <- app_assoc. auto.
Qed.

(** What one entry of a decomposed spectrum should be: the spectrum of that system alone, or nothing. *)
Definition dec_entry_spec (m : meth) (s : spin_sys) : pyres (list Qc) :=
  if has_channel m s then one_d_sum m [s] else Ok [].

Lemma one_d_dec_adj (m : meth) l : wf_meth m -> adj m None l -> l <> [] ->
  (gamma_negative m = true -> forall s, In s l -> has_channel m s = true) ->
  one_d_dec m l = let* es := mapM (dec_entry_spec m) l in Ok (Lst es).
Proof.
  intros W A Hne Hg. unfold one_d_dec.
  pose proof (for_each_dec m l None cache0 [] eq_refl A) as H.
  assert (Eg : gamma_negative m = true -> mapM (dec_entry_spec m) l =
     let* ai := mapM (entry m) l in mapM (reverse_arr m) ai).
  { intros G. specialize (Hg G). clear -W G Hg. induction l as [|s l IH]; cbn [mapM bind]; auto.
    unfold dec_entry_spec at 1, entry at 1. rewrite (Hg s) by (simpl; auto).
    rewrite one_d_sum_single by auto. unfold contrib. rewrite (Hg s) by (simpl; auto).
    rewrite IH by (intros; apply Hg; simpl; auto).
    destruct (paths_of m s); cbn [bind]; auto.
    destruct (mapM (entry m) l); cbn [bind mapM]; auto.
    - rewrite reverse_arr_ok by (auto using system_amp_length). cbn [bind]. unfold orient. rewrite G. auto. }
  assert (En : gamma_negative m = false -> mapM (dec_entry_spec m) l = mapM (entry m) l).
  { intros G. apply mapM_ext_in. intros s _. unfold dec_entry_spec, entry.
    destruct (has_channel m s) eqn:E; auto. rewrite one_d_sum_single by auto. unfold contrib. rewrite E.
    destruct (paths_of m s); cbn [bind]; auto. unfold orient. rewrite G. auto. }
  destruct (for_each l (step_dec m) (cache0, [])) as [st|e]; cbn [bind] in H |- *.
  - destruct (mapM (entry m) l) as [vs|e'] eqn:Em; cbn [bind] in *; [|discriminate].
    injection H as H. simpl in H. rewrite H.
    pose proof (mapM_length _ _ _ Em) as L.
    destruct vs as [|v vs]; [destruct l; simpl in L; congruence|].
    destruct (gamma_negative m); [rewrite Eg|rewrite En]; auto.
  - destruct (mapM (entry m) l) as [vs|e'] eqn:Em; cbn [bind] in *; [discriminate|].
    injection H as H. subst e'. destruct (gamma_negative m); [rewrite Eg|rewrite En]; auto.
Qed.


Lemma one_d_dec_nil (m : meth) : wf_meth m -> one_d_dec m [] = Ok (Arr (vzero (npts m))).
Proof.
  intros W. unfold one_d_dec. cbn [for_each bind snd].
  destruct (gamma_negative m); auto. rewrite reverse_arr_ok, rev_vec_zero by (auto using vzero_length). auto.
Qed.

Definition mk_result (m : meth) (es : list (list Qc)) : amp_result :=
  match es with [] => Arr (vzero (npts m)) | _ => Lst es end.

Lemma one_d_dec_chunk (m : meth) l : wf_meth m -> adj m None l ->
  (gamma_negative m = true -> forall s, In s l -> has_channel m s = true) ->
  one_d_dec m l = let* es := mapM (dec_entry_spec m) l in Ok (mk_result m es).
Proof.
  intros W A G. destruct l as [|s l].
  - cbn [mapM bind mk_result]. apply one_d_dec_nil; auto.
  - rewrite one_d_dec_adj by (auto; discriminate).
    destruct (mapM (dec_entry_spec m) (s :: l)) as [es|] eqn:E; cbn [bind]; auto.
    apply mapM_length in E. destruct es; [discriminate|auto].
Qed.

Definition entries (a : amp_result) : list (list Qc) := match a with Lst l => l | Arr _ => [] end.

Lemma iadd_all n amps acc :
  Forall (fun a => exists l, a = Lst l) amps \/
  (Forall (fun e => List.length e = n) acc /\
   Forall (fun a => match a with Lst l => Forall (fun e => List.length e = n) l | Arr v => v = vzero n end) amps) ->
  for_each amps (fun item acc => iadd n acc item) acc = Ok (acc ++ flat_map entries amps).
Proof.
  revert acc. induction amps as [|a amps IH]; intros acc H.
  - simpl. rewrite app_nil_r. auto.
  - cbn [for_each flat_map]. destruct H as [H|[H1 H2]].
    + inversion H as [|a' amps' [l ->] H']; subst. cbn [iadd bind entries]. rewrite IH by auto.
      rewrite app_assoc. auto.
    + inversion H2 as [|a' amps' Ha H']; subst. destruct a as [v|l]; cbn [iadd entries].
      * subst v. replace (forallb (fun e => List.length e =? n)%nat acc) with true.
        { cbn [bind]. rewrite IH.
          - simpl. f_equal. f_equal. rewrite <- (map_id acc) at 2. apply map_ext_in.
            intros e He. rewrite Forall_forall in H1. apply vadd_zero; auto.
          - right. split; auto. apply Forall_forall. intros e He. apply in_map_iff in He.
            destruct He as [x [<- Hx]]. rewrite Forall_forall in H1. apply vadd_len; auto. apply vzero_length. }
        symmetry. apply forallb_forall. intros e He. rewrite Forall_forall in H1.
        apply Nat.eqb_eq. auto.
      * cbn [bind]. rewrite IH. { rewrite app_assoc. auto. }
        right. split; auto. apply Forall_app; auto.
Qed.

Lemma flat_map_entries (m : meth) r : flat_map entries (map (mk_result m) r) = concat r.
Proof. induction r as [|es r IH]; simpl; auto. rewrite IH. destruct es; auto. Qed.

Lemma dec_entry_length (m : meth) s e : wf_meth m -> has_channel m s = true -> dec_entry_spec m s = Ok e -> List.length e = npts m.
Proof.
  intros W H. unfold dec_entry_spec. rewrite H, one_d_sum_single by auto.
  destruct (contrib m s) eqn:E; cbn [bind]; intros E'; [|discriminate]. injection E' as <-.
  apply orient_length. eapply contrib_length; eauto.
Qed.

Lemma mapM_Forall2 {X Y} (f : X -> pyres Y) l r : mapM f l = Ok r -> Forall2 (fun x y => f x = Ok y) l r.
Proof.
  revert r; induction l as [|x l IH]; intros r E; cbn [mapM] in E.
  - injection E as <-. constructor.
  - destruct (f x) eqn:Ex; cbn [bind] in E; [|discriminate].
    destruct (mapM f l) eqn:El; cbn [bind] in E; [|discriminate].
    injection E as <-. constructor; auto.
Qed.

Lemma run_dec_cover cpu (m : meth) l nj chunks : wf_meth m -> cache_safe m l ->
  get_chunks cpu l nj = Ok chunks -> concat chunks = l ->
  match chunks with [] => False | [] :: _ => False | _ => True end ->
  (gamma_negative m = true -> forall s, In s l -> has_channel m s = true) ->
  (Forall (fun c => c <> []) chunks \/ forall s, In s l -> has_channel m s = true) ->
  run_dec cpu m l nj = mapM (dec_entry_spec m) l.
Proof.
  intros W S G Hc Hne Hg Hall. unfold run_dec. rewrite G. cbn [bind].
  apply cache_safe_adj in S.
  assert (A : Forall (adj m None) chunks) by (eapply adj_concat; rewrite Hc; eauto).
  assert (Hgc : gamma_negative m = true -> forall c s, In c chunks -> In s c -> has_channel m s = true).
  { intros g c s Hi Hs. apply Hg; auto. rewrite <- Hc. apply in_concat. eauto. }
  assert (E : mapM (one_d_dec m) chunks =
     let* r := mapM (mapM (dec_entry_spec m)) chunks in Ok (map (mk_result m) r)).
  { rewrite <- mapM_map_result. apply mapM_ext_in. intros c Hi. apply one_d_dec_chunk; auto.
    - rewrite Forall_forall in A. auto.
    - intros; eapply Hgc; eauto. }
  rewrite E. rewrite <- Hc, mapM_concat.
  destruct (mapM (mapM (dec_entry_spec m)) chunks) as [r|] eqn:Er; cbn [bind]; auto.
  pose proof (mapM_Forall2 _ _ _ Er) as F2.
  destruct chunks as [|c chunks]; [tauto|]. destruct c as [|s c]; [tauto|].
  destruct r as [|es r]; [inversion F2|]. inversion F2 as [|x1 x2 x3 x4 Ec F2']; subst x1 x3 x2 x4.
  destruct es as [|e es]; [apply mapM_length in Ec; discriminate|].
  assert (H : for_each (map (mk_result m) ((e :: es) :: r)) (fun item acc => iadd (npts m) acc item) []
            = Ok (concat ((e :: es) :: r))).
  { rewrite iadd_all. { rewrite flat_map_entries. auto. }
    destruct Hall as [Hall|Hall].
    - left. apply Forall_forall. intros a Ha. apply in_map_iff in Ha. destruct Ha as [x [<- Hx]].
      assert (x <> []).
      { clear -F2 Hall Hx. revert Hx. induction F2 as [|c0 x0 cs xs H F2 IH]; simpl; [tauto|].
        inversion Hall; subst. intros [->|Hx]; auto.
        apply mapM_length in H. destruct c0; [tauto|]. destruct x; simpl in *; congruence. }
      destruct x; [tauto|]. simpl. eauto.
    - right. split; auto. apply Forall_forall. intros a Ha. apply in_map_iff in Ha. destruct Ha as [x [<- Hx]].
      destruct x as [|y x]; simpl; auto.
      assert (HF : exists c0, In c0 ((s :: c) :: chunks) /\ mapM (dec_entry_spec m) c0 = Ok (y :: x)).
      { clear -F2 Hx. induction F2 as [|c0 x0 cs xs H F2 IH]; simpl in *; [tauto|].
        destruct Hx as [->|Hx]; eauto. destruct (IH Hx) as [c1 [H1 H2]]; eauto. }
      destruct HF as [c0 [Hi Hm]].
      assert (Hl0 : forall s, In s c0 -> has_channel m s = true).
      { intros s0 Hs. apply Hall. rewrite <- Hc. apply in_concat. eauto. }
      apply mapM_Forall2 in Hm. clear -Hm Hl0 W.
      induction Hm as [|s0 e0 c1 es H Hm IH]; constructor.
      + eapply dec_entry_length; eauto. apply Hl0; simpl; auto.
      + apply IH. intros; apply Hl0; simpl; auto. }
  cbn [map mk_result] in *. exact H.
Qed.

Lemma run_dec_any_jobs cpu (m : meth) l n : wf_meth m -> cache_safe m l -> l <> [] -> (1 <= n)%nat ->
  (gamma_negative m = true -> forall s, In s l -> has_channel m s = true) ->
  ((n <= List.length l)%nat \/ forall s, In s l -> has_channel m s = true) ->
  run_dec cpu m l (Z.of_nat n) = mapM (dec_entry_spec m) l.
Proof.
  intros W S Hl Hn Hg Hall.
  destruct (get_chunks_partition cpu l n Hn) as [ch [G [Hc [Hlen Hmono]]]].
  assert (Hfirst : match ch with [] => False | [] :: _ => False | _ => True end).
  { destruct ch as [|c ch]; [simpl in Hlen; lia|]. destruct c as [|s c]; auto.
    apply Hl. rewrite <- Hc. simpl.
    assert (HF : Forall (fun c => c = []) ch).
    { apply Forall_forall. intros c Hi. apply In_nth_error in Hi. destruct Hi as [j Hj].
      specialize (Hmono 0%nat (Datatypes.S j) [] c eq_refl Hj ltac:(lia)). destruct c; auto. simpl in Hmono. lia. }
    clear -HF. induction HF; simpl; auto. rewrite H. auto. }
  eapply run_dec_cover; eauto.
  destruct Hall as [Hall|Hall]; [left|right; auto].
  apply Forall_forall. intros c Hi ->.
  apply In_nth_error in Hi. destruct Hi as [j Hj].
  assert (Hle : forall i ci, nth_error ch i = Some ci -> (List.length ci <= 1)%nat /\ ((j <= i)%nat -> List.length ci = 0%nat)).
  { intros i ci Hi. split.
    - destruct (le_ge_dec i j).
      + specialize (Hmono i j ci [] Hi Hj ltac:(lia)). simpl in Hmono. lia.
      + specialize (Hmono j i [] ci Hj Hi ltac:(lia)). simpl in Hmono. lia.
    - intros. specialize (Hmono j i [] ci Hj Hi ltac:(lia)). simpl in Hmono. lia. }
  assert (Hj' : (j < List.length ch)%nat) by (apply nth_error_Some; congruence).
  assert (Hcount : forall (ls : list (list spin_sys)) k, (k < List.length ls)%nat ->
     (forall i ci, nth_error ls i = Some ci -> (List.length ci <= 1)%nat /\ ((k <= i)%nat -> List.length ci = 0%nat)) ->
     (List.length (concat ls) < List.length ls)%nat).
  { clear. induction ls as [|c ls IH]; intros k Hk H; simpl in *; [lia|].
    rewrite app_length. destruct k as [|k].
    - destruct (H 0%nat c eq_refl) as [_ H0]. rewrite H0 by lia.
      assert (List.length (concat ls) = 0)%nat.
      { assert (HF : Forall (fun c => List.length c = 0%nat) ls).
        { apply Forall_forall. intros x Hx. apply In_nth_error in Hx. destruct Hx as [j Hj].
          apply (H (Datatypes.S j) x Hj). lia. }
        clear -HF. induction HF as [|x ls Hx HF IH]; simpl; auto. rewrite app_length. lia. }
      lia.
    - destruct (H 0%nat c eq_refl) as [H0 _].
      specialize (IH k ltac:(lia)). assert (List.length (concat ls) < List.length ls)%nat; [|lia].
      apply IH. intros i ci Hi. destruct (H (Datatypes.S i) ci Hi) as [H1 H2]. split; auto. intros; apply H2; lia. }
  specialize (Hcount ch j Hj' Hle). rewrite Hc in Hcount. lia.
Qed.

(** The non-empty entries add up to the summed spectrum. *)
Definition nonempty (e : list Qc) : bool := match e with [] => false | _ => true end.

Lemma dec_sum (m : meth) l es : wf_meth m -> cache_safe m l -> mapM (dec_entry_spec m) l = Ok es ->
  one_d_sum m l = Ok (vsum (npts m) (filter nonempty es)).
Proof.
  intros W S E. rewrite one_d_sum_additive by auto.
  apply mapM_Forall2 in E. clear S.
  assert (H : exists vs, mapM (fun s => one_d_sum m [s]) l = Ok vs /\ Forall (fun v => List.length v = npts m) vs /\
     Forall (fun v => List.length v = npts m) (filter nonempty es) /\
     vsum (npts m) vs = vsum (npts m) (filter nonempty es)).
  { induction E as [|s e l es He E IH].
    - exists []. split; [auto|]. split; [auto|]. split; simpl; auto.
    - destruct IH as [vs [Hvs [F1 [F2 Hs]]]]. cbn [mapM filter]. unfold dec_entry_spec in He.
      destruct (has_channel m s) eqn:Hch.
      + rewrite He, Hvs. cbn [bind]. exists (e :: vs).
        assert (L : List.length e = npts m).
        { eapply dec_entry_length; eauto. unfold dec_entry_spec. rewrite Hch. auto. }
        assert (Hn : nonempty e = true).
        { destruct e; auto. simpl in L. destruct W. lia. }
        rewrite Hn. repeat split; auto. rewrite !vsum_cons by auto. rewrite Hs. auto.
      + injection He as <-. rewrite one_d_sum_single, Hvs by auto. unfold contrib. rewrite Hch. cbn [bind nonempty].
        assert (Hz : orient m (vzero (npts m)) = vzero (npts m)).
        { unfold orient. destruct (gamma_negative m); auto. apply rev_vec_zero. }
        rewrite Hz. exists (vzero (npts m) :: vs). pose proof (vzero_length (npts m)).
        repeat split; auto. rewrite vsum_cons by auto.
        rewrite vadd_zero_l; auto. apply vsum_length; auto. }
  destruct H as [vs [-> [_ [_ H]]]]. cbn [bind]. rewrite H. auto.
Qed.

(** A system of zero abundance can be dropped from a cache-safe list. *)
Lemma one_d_sum_drop_zero (m : meth) l1 s l2 v : wf_meth m -> cache_safe_all m (l1 ++ s :: l2) -> ss_abundance s = 0 ->
  one_d_sum m (l1 ++ s :: l2) = Ok v -> one_d_sum m (l1 ++ l2) = Ok v.
Proof.
  intros W S Hz E.
  assert (S' : cache_safe_all m (l1 ++ l2)).
  { intros a b Ha Hb. apply S; rewrite in_app_iff in *; simpl; tauto. }
  apply cache_safe_all_safe in S, S'.
  rewrite one_d_sum_additive in E |- * by auto.
  rewrite mapM_app in E |- *. cbn [mapM] in E.
  destruct (mapM (fun s => one_d_sum m [s]) l1) as [a|] eqn:Ea; cbn [bind] in *; [|discriminate].
  destruct (one_d_sum m [s]) as [z|] eqn:Es; cbn [bind] in *; [|discriminate].
  destruct (mapM (fun s => one_d_sum m [s]) l2) as [b|] eqn:Eb; cbn [bind] in *; [|discriminate].
  injection E as <-. f_equal.
  assert (HL : forall l r, mapM (fun s => one_d_sum m [s]) l = Ok r -> Forall (fun v => List.length v = npts m) r).
  { intros l r. apply mapM_Forall. intros x y. rewrite one_d_sum_single by auto.
    destruct (contrib m x) eqn:Ex; cbn [bind]; intros Ey; [|discriminate]. injection Ey as <-.
    apply orient_length. eapply contrib_length; eauto. }
  pose proof (one_d_sum_zero_abundance _ _ _ W Hz Es) as ->.
  pose proof (vzero_length (npts m)).
  assert (Forall (fun v => List.length v = npts m) b) by eauto.
  rewrite !vsum_app; [|apply Forall_app; eauto|apply Forall_app; eauto].
  rewrite vsum_cons by auto. rewrite (vadd_zero_l (npts m) (vsum _ b)); auto. apply vsum_length; auto.
Qed.

Lemma run_dec_empty cpu (m : meth) : wf_meth m -> exists e, run_dec cpu m [] 1 = Ok [e].
Proof.
  intros W. unfold run_dec. change 1%Z with (Z.of_nat 1). rewrite (get_chunks_pos cpu (@nil spin_sys) 1) by lia.
  cbn [bind seq map mapM]. rewrite skipn_nil, firstn_nil.
  rewrite one_d_dec_nil by auto. cbn [bind mapM]. eauto.
Qed.

End Sim.
Arguments same_paths {P D}. Arguments cache_safe {P D}. Arguments cache_safe_all {P D}. Arguments wf_meth {P D}.
Arguments scale_abundance {P D}. Arguments dec_entry_spec {P D}.
Arguments nonempty : clear implicits.

(** ** run over the methods *)
Section Run.
Variables (I S : Type) (simulate : I -> pyres S) (origin : I -> Qc).
Notation method_obj := (method_obj I S).

(** Python index [i] designates position [k] of a list of length [n]. *)
Definition denotes (n : nat) (i : Z) (k : nat) : Prop :=
  (k < n)%nat /\ (i = Z.of_nat k \/ i = Z.of_nat k - Z.of_nat n)%Z.

Lemma py_index_denotes {A} (l : list A) i x : py_index l i = Ok x ->
  exists k, denotes (List.length l) i k /\ nth_error l k = Some x.
Proof.
  unfold py_index. destruct (Z.ltb_spec i 0).
  - destruct (Z.ltb_spec (i + Z.of_nat (List.length l)) 0); [discriminate|].
    destruct (nth_error l _) eqn:E; [|discriminate]. intros E'; injection E' as <-.
    eexists; split; eauto. assert (Z.to_nat (i + Z.of_nat (List.length l)) < List.length l)%nat by lia.
    split; auto. lia.
  - destruct (Z.ltb_spec i 0); [lia|].
    destruct (nth_error l _) eqn:E; [|discriminate]. intros E'; injection E' as <-.
    eexists; split; eauto. assert (Z.to_nat i < List.length l)%nat by (apply nth_error_Some; congruence).
    split; auto. lia.
Qed.

Lemma denotes_fun n i k k' : denotes n i k -> denotes n i k' -> k = k'.
Proof. unfold denotes. lia. Qed.

Lemma py_index_of_denotes {A} (l : list A) i k x : denotes (List.length l) i k -> nth_error l k = Some x -> py_index l i = Ok x.
Proof.
  intros [Hk Hi] Hx. unfold py_index. destruct Hi as [->| ->].
  - destruct (Z.ltb_spec (Z.of_nat k) 0); [lia|]. destruct (Z.ltb_spec (Z.of_nat k) 0); [lia|].
    rewrite Nat2Z.id, Hx. auto.
  - destruct (Z.ltb_spec (Z.of_nat k - Z.of_nat (List.length l)) 0); [|lia].
    destruct (Z.ltb_spec (Z.of_nat k - Z.of_nat (List.length l) + Z.of_nat (List.length l)) 0); [lia|].
    replace (Z.of_nat k - Z.of_nat (List.length l) + Z.of_nat (List.length l))%Z with (Z.of_nat k) by lia.
    rewrite Nat2Z.id, Hx. auto.
Qed.

Lemma py_assign_of_denotes {A} (l : list A) i k x : denotes (List.length l) i k -> py_assign l i x = Ok (upd_nat l k x).
Proof.
  intros [Hk Hi]. unfold py_assign. destruct Hi as [->| ->].
  - destruct (Z.ltb_spec (Z.of_nat k) 0); [lia|].
    replace ((Z.of_nat k <? 0)%Z) with false by lia.
    destruct (Z.ltb_spec (Z.of_nat k) (Z.of_nat (List.length l))); [|lia].
    rewrite Nat2Z.id. auto.
  - destruct (Z.ltb_spec (Z.of_nat k - Z.of_nat (List.length l)) 0); [|lia].
    replace (Z.of_nat k - Z.of_nat (List.length l) + Z.of_nat (List.length l))%Z with (Z.of_nat k) by lia.
    replace ((Z.of_nat k <? 0)%Z) with false by lia.
    destruct (Z.ltb_spec (Z.of_nat k) (Z.of_nat (List.length l))); [|lia].
    rewrite Nat2Z.id. auto.
Qed.

Definition done (m : method_obj) (s : S) : method_obj :=
  {| m_input := m_input m; m_origin := origin (m_input m); m_simulation := Some s |}.

Lemma run_one_spec ms i ms' : run_one simulate origin ms i = Ok ms' ->
  exists k m s, denotes (List.length ms) i k /\ nth_error ms k = Some m /\ simulate (m_input m) = Ok s /\
    ms' = upd_nat ms k (done m s).
Proof.
  unfold run_one. destruct (py_index ms i) as [m|] eqn:E; cbn [bind]; [|discriminate].
  destruct (simulate (m_input m)) as [s|] eqn:Es; cbn [bind]; [|discriminate].
  apply py_index_denotes in E. destruct E as [k [Hd Hk]].
  rewrite (py_assign_of_denotes _ _ k) by auto. intros E; injection E as <-. exists k, m, s. auto.
Qed.

Lemma run_methods_spec ms idx ms' : for_each idx (fun i ms => run_one simulate origin ms i) ms = Ok ms' ->
  List.length ms' = List.length ms /\
  forall k m, nth_error ms k = Some m ->
    ((exists i, In i idx /\ denotes (List.length ms) i k) ->
       exists s, simulate (m_input m) = Ok s /\ nth_error ms' k = Some (done m s)) /\
    (~ (exists i, In i idx /\ denotes (List.length ms) i k) -> nth_error ms' k = Some m).
Proof.
  revert ms. induction idx as [|i idx IH]; intros ms; cbn [for_each].
  - intros E; injection E as <-. split; auto. intros k m Hk. split; auto. intros [i [[] _]].
  - destruct (run_one simulate origin ms i) as [ms1|] eqn:E1; cbn [bind]; [|discriminate].
    intros E. apply run_one_spec in E1. destruct E1 as [k0 [m0 [s0 [Hd [Hk0 [Hs ->]]]]]].
    apply IH in E. destruct E as [L H]. rewrite upd_nat_length in *. split; auto.
    intros k m Hk. destruct (Nat.eq_dec k k0) as [->|Hne].
    + rewrite Hk0 in Hk. injection Hk as <-.
      assert (Hlt : (k0 < List.length ms)%nat) by (apply nth_error_Some; congruence).
      specialize (H k0 (done m0 s0) (nth_error_upd_same _ _ _ Hlt)). destruct H as [H1 H2].
      split.
      * intros _. destruct (In_dec Z.eq_dec (Z.of_nat k0) idx) as [Hi|Hi].
        { destruct H1 as [s [Hs' Hn]]. { exists (Z.of_nat k0). split; [auto|]. split; auto. }
          simpl in Hs'. exists s. split; auto. }
        destruct (In_dec Z.eq_dec (Z.of_nat k0 - Z.of_nat (List.length ms))%Z idx) as [Hi'|Hi'].
        { destruct H1 as [s [Hs' Hn]]. { eexists. split; [exact Hi'|]. split; auto. }
          simpl in Hs'. exists s. split; auto. }
        exists s0. split; auto. apply H2. intros [j [Hj [_ [->| ->]]]]; auto.
      * intros Hn. exfalso. apply Hn. exists i. simpl; auto.
    + assert (Hk' : nth_error (upd_nat ms k0 (done m0 s0)) k = Some m) by (rewrite nth_error_upd_other; auto).
      specialize (H k m Hk'). destruct H as [H1 H2]. split.
      * intros [j [[->|Hj] Hdj]]. { exfalso. apply Hne. eapply denotes_fun; eauto. }
        apply H1. eauto.
      * intros Hn. apply H2. intros [j [Hj Hdj]]. apply Hn. exists j. simpl; auto.
Qed.

Lemma upd_nat_id {A} (l : list A) k x : nth_error l k = Some x -> upd_nat l k x = l.
Proof. revert k; induction l; intros [|k]; simpl; try discriminate; intros E; [congruence|]. f_equal. auto. Qed.

Lemma run_methods_stable idx ms :
  (forall i, In i idx -> exists k m s, denotes (List.length ms) i k /\ nth_error ms k = Some m /\
      simulate (m_input m) = Ok s /\ m = done m s) ->
  for_each idx (fun i ms => run_one simulate origin ms i) ms = Ok ms.
Proof.
  induction idx as [|i idx IH]; intros H; cbn [for_each]; auto.
  destruct (H i (or_introl eq_refl)) as [k [m [s [Hd [Hk [Hs Hm]]]]]].
  unfold run_one. rewrite (py_index_of_denotes ms i k m) by auto. cbn [bind]. rewrite Hs. cbn [bind].
  rewrite (py_assign_of_denotes _ _ k) by auto. cbn [bind].
  fold (done m s). rewrite <- Hm, upd_nat_id by auto. apply IH. intros; apply H; simpl; auto.
Qed.

Lemma run_methods_idem ms idx ms' : run_methods simulate origin ms idx = Ok ms' -> run_methods simulate origin ms' idx = Ok ms'.
Proof.
  unfold run_methods. set (ix := match idx with None => _ | Some l => l end). intros E.
  pose proof (run_methods_spec _ _ _ E) as [L H].
  replace (match idx with None => map Z.of_nat (seq 0 (List.length ms')) | Some l => l end) with ix
    by (unfold ix; rewrite L; auto).
  assert (Hd : forall i, In i ix -> exists k, denotes (List.length ms) i k).
  { clearbody ix. clear -E. revert ms E. induction ix as [|j ix IH]; intros ms E i Hi; [destruct Hi|].
    cbn [for_each] in E. destruct (run_one simulate origin ms j) as [ms1|] eqn:E1; cbn [bind] in E; [|discriminate].
    apply run_one_spec in E1. destruct E1 as [k0 [m0 [s0 [Hd [Hk0 [Hs ->]]]]]].
    destruct Hi as [->|Hi]; eauto. specialize (IH _ E i Hi). rewrite upd_nat_length in IH. auto. }
  apply run_methods_stable. intros i Hi. destruct (Hd i Hi) as [k Hk]. rewrite L.
  destruct (nth_error ms k) as [m|] eqn:Hm.
  - destruct (H k m Hm) as [H1 _]. destruct H1 as [s [Hs Hn]]; [eauto|].
    exists k, (done m s), s. auto.
  - apply nth_error_None in Hm. destruct Hk. lia.
Qed.
Lemma run_methods_all ms ms' : run_methods simulate origin ms None = Ok ms' ->
  List.length ms' = List.length ms /\
  forall k m, nth_error ms k = Some m -> exists s, simulate (m_input m) = Ok s /\ nth_error ms' k = Some (done m s).
Proof.
  intros E. destruct (run_methods_spec _ _ _ E) as [L H]. split; auto. intros k m Hk.
  apply (H k m Hk). exists (Z.of_nat k).
  assert (Hlt : (k < List.length ms)%nat) by (apply nth_error_Some; congruence). split; [|split; auto].
  apply in_map, in_seq. lia.
Qed.
End Run.
Arguments done {I S}.
