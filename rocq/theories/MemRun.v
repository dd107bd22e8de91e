(** Proofs for C89 and C90: programs that write into arrays, up to what is computed. *)
From Coq Require Import List Arith Bool Lia.
From Verif Require Import MemModel MemSpec MemProofs MemPlan.
Import ListNotations.
Unset Implicit Arguments.

Section Run.
Variables (T V : Type) (N : numerics T V).
Notation heap := (heap T V).
Notation M := (M T V).
Notation step := (step T V).

(** The program is defined on this heap and its result is as wanted. *)
Definition ok {A} (m : M A) (h : heap) (Q : A -> heap -> Prop) : Prop := exists x h', m h = Some (x, h') /\ Q x h'.

Lemma ok_ret : forall A (x : A) h (Q : A -> heap -> Prop), Q x h -> ok (ret x) h Q.
Proof. intros A x h Q H. exists x, h. split; [reflexivity | exact H]. Qed.
Lemma ok_bind : forall A B (m : M A) (k : A -> M B) h Q, ok m h (fun x h' => ok (k x) h' Q) -> ok (bind m k) h Q.
Proof. intros A B m k h Q (x & h' & E & y & h'' & E' & H). exists y, h''. split; [|exact H]. unfold bind. now rewrite E. Qed.
Lemma ok_weaken : forall A (m : M A) h (Q Q' : A -> heap -> Prop), ok m h Q -> (forall x h', Q x h' -> Q' x h') -> ok m h Q'.
Proof. intros A m h Q Q' (x & h' & E & H) I. exists x, h'. auto. Qed.
Lemma ok_known : forall A (o : option A) x h (Q : A -> heap -> Prop), o = Some x -> Q x h -> ok (known o) h Q.
Proof. intros A o x h Q -> H. apply ok_ret, H. Qed.

(** Only blocks in [W] change, and an array there keeps its length and what was written in it. *)
Definition grows (h h' : heap) (a : ptr) : Prop :=
  forall l, mem h a = Some (Arr T l) -> exists l', mem h' a = Some (Arr T l') /\ length l' = length l /\ forall i, nth i l None <> None -> nth i l' None <> None.
Definition evo (W : ptr -> Prop) (h h' : heap) (k : nat) : Prop := step h h' W k /\ forall a, a < next h -> grows h h' a.

(** An array of [n] numbers of which those from [lo] to [hi] are written. *)
Definition K (h : heap) (p : ptr) (n lo hi : nat) : Prop :=
  exists l, mem h p = Some (Arr T l) /\ length l = n /\ forall i, lo <= i < hi -> i < n -> nth i l None <> None.

Section W.
Variable W : ptr -> Prop.
Notation evo := (evo W).

Lemma evo_refl : forall h, sane h -> evo h h 0.
Proof. intros h Sn. split; [now apply step_refl|]. intros a _ l E. exists l. auto. Qed.
Lemma evo_trans : forall h h1 h2 k1 k2 k, evo h h1 k1 -> evo h1 h2 k2 -> k = k1 + k2 -> evo h h2 k.
Proof.
  intros h h1 h2 k1 k2 k (S1 & G1) (S2 & G2) ->. split; [eapply step_trans; [exact S1 | exact S2 | auto | auto | reflexivity]|].
  intros a Ha l E. destruct (G1 a Ha l E) as (l1 & E1 & L1 & I1). destruct S1 as (_ & Le & _).
  destruct (G2 a ltac:(lia) l1 E1) as (l2 & E2 & L2 & I2). exists l2. split; [exact E2|]. split; [congruence|]. auto.
Qed.
Lemma evo_sane : forall h h' k, evo h h' k -> sane h'.
Proof. intros h h' k ((S & _) & _). exact S. Qed.
Lemma evo_next : forall h h' k, evo h h' k -> next h <= next h'.
Proof. intros h h' k ((_ & L & _) & _). exact L. Qed.
Lemma K_lt : forall h p n lo hi, sane h -> K h p n lo hi -> p < next h /\ 0 < p.
Proof. intros h p n lo hi Sn (l & E & _). apply (sane_lt _ _ h p _ Sn E). Qed.
Lemma K_evo : forall h h' k p n lo hi, sane h -> evo h h' k -> K h p n lo hi -> K h' p n lo hi.
Proof.
  intros h h' k p n lo hi Sn (_ & G) (l & E & L & I). destruct (G p (proj1 (sane_lt _ _ h p _ Sn E)) l E) as (l' & E' & L' & I').
  exists l'. split; [exact E'|]. split; [congruence|]. auto.
Qed.
Lemma mem_evo : forall h h' k p b, sane h -> evo h h' k -> ~ W p -> mem h p = Some b -> mem h' p = Some b.
Proof. intros h h' k p b Sn (S & _) NW E. apply (step_mem _ _ _ _ _ _ _ _ S Sn E NW). Qed.
Lemma K_sub : forall h p n lo hi lo' hi', K h p n lo hi -> lo <= lo' -> hi' <= hi -> K h p n lo' hi'.
Proof. intros h p n lo hi lo' hi' (l & E & L & I) A B. exists l. split; [exact E|]. split; [exact L|]. intros i Hi. apply I. lia. Qed.
Lemma K_join : forall h p n lo mid hi, K h p n lo mid -> K h p n mid hi -> K h p n lo hi.
Proof.
  intros h p n lo mid hi (l & E & L & I) (l' & E' & L' & I'). exists l. split; [exact E|]. split; [exact L|]. assert (l' = l) by congruence. subst l'.
  intros i Hi Hn. destruct (le_lt_dec mid i); [apply I'; lia | apply I; lia].
Qed.

(** ** Primitive steps *)
Lemma ok_malloc : forall n h, sane h ->
  ok (malloc n) h (fun p h' => evo h h' 1 /\ K h' p n 0 0 /\ p = next h /\ next h' = S (next h)).
Proof.
  intros n h Sn. exists (next h), (alloc_h h (Arr T (repeat None n))). split; [reflexivity|]. split; [|split; [|split; reflexivity]].
  - split; [now apply step_alloc|]. intros a Ha l E. exists l. split; [|auto]. cbn. rewrite upd_other by lia. exact E.
  - exists (repeat None n). split; [cbn; apply upd_same|]. split; [apply repeat_length|]. intros i Hi. lia.
Qed.
Lemma nth_skip : forall A (d : A) n l i, nth i (skipn n l) d = nth (n + i) l d.
Proof. intros A d. induction n as [|n IH]; intros [|x l] i; cbn; auto. destruct i; reflexivity. Qed.
Lemma nth_first : forall A (d : A) n l i, i < n -> nth i (firstn n l) d = nth i l d.
Proof. intros A d. induction n as [|n IH]; intros [|x l] [|i] H; cbn; auto; try lia. apply IH. lia. Qed.
Lemma nth_splice : forall off (vs : list V) l i, off + length vs <= length l ->
  (off <= i < off + length vs -> nth i (splice off vs l) None <> None) /\
  (nth i l None <> None -> nth i (splice off vs l) None <> None).
Proof.
  intros off vs l i H.
  assert (A : off <= i < off + length vs -> nth i (splice off vs l) None <> None).
  { intros Hi. unfold splice. rewrite app_nth2; rewrite firstn_length, Nat.min_l by lia; [|lia]. rewrite app_nth1 by (rewrite map_length; lia).
    destruct vs as [|v0 vs0]; [cbn in Hi; lia|]. rewrite (nth_indep _ None (Some v0)) by (rewrite map_length; lia).
    rewrite (map_nth (@Some V)). discriminate. }
  split; [exact A|]. intros Hn. destruct (le_lt_dec off i) as [L1|L1]; [destruct (le_lt_dec (off + length vs) i) as [L2|L2]|].
  - unfold splice. rewrite app_nth2; rewrite firstn_length, Nat.min_l by lia; [|lia]. rewrite app_nth2; rewrite map_length; [|lia].
    rewrite nth_skip. replace (off + length vs + (i - off - length vs)) with i by lia. exact Hn.
  - apply A. lia.
  - unfold splice. rewrite app_nth1 by (rewrite firstn_length; lia). rewrite nth_first by exact L1. exact Hn.
Qed.
Lemma ok_store : forall p off vs h n lo hi, sane h -> K h p n lo hi -> off + length vs <= n -> W p ->
  ok (store p off vs) h (fun _ h' => evo h h' 0 /\ K h' p n off (off + length vs) /\ next h' = next h).
Proof.
  intros p off vs h n lo hi Sn (l & E & L & I) H Wp. subst n. exists tt, (set_h h p (Arr T (splice off vs l))).
  split; [apply store_eq; assumption|]. split; [|split; [|reflexivity]].
  - split; [eapply step_weaken; [apply (step_set _ _ h p _ _ Sn E)|]; intros a _ <-; exact Wp|].
    intros a Ha l' E'. cbn. destruct (Nat.eq_dec a p) as [->|Ne].
    + rewrite upd_same. assert (l' = l) by congruence. subst l'. eexists. split; [reflexivity|]. split; [now apply length_splice|].
      intros i Hi. now apply nth_splice.
    + rewrite upd_other by exact Ne. exists l'. auto.
  - exists (splice off vs l). split; [cbn; apply upd_same|]. split; [rewrite length_splice by exact H; reflexivity|]. intros i Hi _. exact (proj1 (nth_splice off vs l i H) Hi).
Qed.
Lemma values_some : forall l : list (option V), (forall i, i < length l -> nth i l None <> None) -> exists vs, values l = Some vs /\ length vs = length l.
Proof.
  induction l as [|[v|] l IH]; intros H; [exists []; auto | | exfalso; apply (H 0); cbn; [lia | reflexivity]].
  destruct IH as (vs & E & L); [intros i Hi; apply (H (S i)); cbn; lia|]. exists (v :: vs). cbn. rewrite E. split; [reflexivity | lia].
Qed.
Lemma ok_read : forall p off m h n lo hi, K h p n lo hi -> lo <= off -> off + m <= hi -> off + m <= n ->
  ok (read p off m) h (fun vs h' => h' = h /\ length vs = m).
Proof.
  intros p off m h n lo hi (l & E & L & I) A B C. subst n.
  destruct (values_some (firstn m (skipn off l))) as (vs & Ev & Lv).
  - rewrite firstn_length, skipn_length. intros i Hi. specialize (I (off + i) ltac:(lia) ltac:(lia)).
    rewrite nth_first by lia. rewrite nth_skip. exact I.
  - exists vs, h. split; [eapply read_eq; [exact E | exact C | exact Ev]|]. split; [reflexivity|]. rewrite firstn_length, skipn_length in Lv. lia.
Qed.
(** A block allocated since [h0] is released. *)
Lemma ok_free : forall p h0 h k n lo hi, sane h0 -> evo h0 h (S k) -> K h p n lo hi -> next h0 <= p ->
  ok (free p) h (fun _ h' => evo h0 h' k /\ next h' = next h /\ forall a, a <> p -> mem h' a = mem h a).
Proof.
  intros p h0 h k n lo hi Sn0 (S0 & G0) (l & E & _) Le.
  pose proof (sane_lt _ _ h p _ (proj1 S0) E) as (Lp & Lp0).
  exists tt, (free_h h p). split.
  - unfold free. destruct (Nat.eqb_spec p NULL) as [Ep|_]; [unfold NULL in Ep; lia|]. now rewrite E.
  - assert (Fr : forall a, a <> p -> mem (free_h h p) a = mem h a) by (intros a Ne; cbn; now rewrite upd_other).
    pose proof (live_free _ _ h p _ (proj1 S0) E) as LF. destruct S0 as ((Sa & Sb & Sc) & Sd & Se & Sf).
    split; [|split; [reflexivity | exact Fr]]. split.
    + split; [split; [exact Sa|split]|split; [exact Sd|split]].
      * rewrite Fr by lia. exact Sb.
      * intros a Ha. cbn in Ha. rewrite Fr by lia. now apply Sc.
      * lia.
      * intros a Ha NW. rewrite Fr by lia. now apply Sf.
    + intros a Ha l' E'. destruct (G0 a Ha l' E') as (l2 & E2 & R2). exists l2. rewrite Fr by lia. auto.
Qed.
Lemma K_free : forall h h' p q n lo hi, (forall a, a <> p -> mem h' a = mem h a) -> q <> p -> K h q n lo hi -> K h' q n lo hi.
Proof. intros h h' p q n lo hi Fr Ne (l & E & R). exists l. rewrite Fr by exact Ne. auto. Qed.
Lemma ok_load_plan : forall q p h (Q : plan_s T -> heap -> Prop), mem h q = Some (Plan V p) -> Q p h -> ok (load_plan q) h Q.
Proof. intros q p h Q E H. exists p, h. split; [|exact H]. unfold load_plan, load, bind. now rewrite E. Qed.
Lemma ok_load_scheme : forall q s h (Q : scheme_s -> heap -> Prop), mem h q = Some (Scheme T V s) -> Q s h -> ok (load_scheme q) h Q.
Proof. intros q p h Q E H. exists p, h. split; [|exact H]. unfold load_scheme, load, bind. now rewrite E. Qed.
Lemma ok_load_fftw : forall q s h (Q : fftw_s -> heap -> Prop), mem h q = Some (Fftw T V s) -> Q s h -> ok (load_fftw q) h Q.
Proof. intros q p h Q E H. exists p, h. split; [|exact H]. unfold load_fftw, load, bind. now rewrite E. Qed.
Lemma ok_load_events : forall q s h (Q : list event_s -> heap -> Prop), mem h q = Some (Events T V s) -> Q s h -> ok (load_events q) h Q.
Proof. intros q p h Q E H. exists p, h. split; [|exact H]. unfold load_events, load, bind. now rewrite E. Qed.
Lemma ok_load_dims : forall q s h (Q : list dim_s -> heap -> Prop), mem h q = Some (Dims T V s) -> Q s h -> ok (load_dims q) h Q.
Proof. intros q p h Q E H. exists p, h. split; [|exact H]. unfold load_dims, load, bind. now rewrite E. Qed.
Lemma ok_iter : forall A (f : A -> M unit) (I : heap -> Prop) l h, I h -> (forall x h, In x l -> I h -> ok (f x) h (fun _ h' => I h')) ->
  ok (iter l f) h (fun _ h' => I h').
Proof.
  intros A f I l. induction l as [|x l IH]; intros h Ih St; [now apply ok_ret|]. cbn [iter]. apply ok_bind.
  eapply ok_weaken; [apply St; [now left | exact Ih]|]. intros u h' Ih'. apply IH; [exact Ih'|]. intros y h2 Iy. apply St. now right.
Qed.
End W.
End Run.
