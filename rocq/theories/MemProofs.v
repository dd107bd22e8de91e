(** Proofs for C89 and C90: the heap primitives, and the creation of plans, events and dimensions. *)
From Coq Require Import List Arith Bool Lia.
From Verif Require Import MemModel MemSpec.
Import ListNotations.
Unset Implicit Arguments.

Section Prims.
Variables (T V : Type) (N : numerics T V).
Notation heap := (heap T V).
Notation block := (block T V).
Notation zero := (n_zero N).
Notation mul := (n_mul N).

Definition full (vs : list V) : block := Arr T (map (@Some V) vs).

Lemma bind_some : forall A B (m : M T V A) (k : A -> M T V B) h x h', m h = Some (x, h') -> bind m k h = k x h'.
Proof. intros A B m k h x h' E. unfold bind. now rewrite E. Qed.
Lemma bind_none : forall A B (m : M T V A) (k : A -> M T V B) h, m h = None -> bind m k h = None.
Proof. intros A B m k h E. unfold bind. now rewrite E. Qed.

Lemma upd_same : forall (f : ptr -> option block) p b, upd f p b p = b.
Proof. intros f p b. unfold upd. now rewrite Nat.eqb_refl. Qed.
Lemma upd_other : forall (f : ptr -> option block) p b q, q <> p -> upd f p b q = f q.
Proof. intros f p b q E. unfold upd. now rewrite (proj2 (Nat.eqb_neq q p) E). Qed.

(** ** Counting *)
Lemma live_ext : forall h h' : heap, next h' = next h -> (forall a, a < next h -> allocated h' a = allocated h a) -> live h' = live h.
Proof.
  intros h h' En Ea. unfold live. rewrite En. f_equal. apply filter_ext_in. intros a Ha. apply Ea. apply in_seq in Ha. lia.
Qed.
Lemma live_alloc : forall (h : heap) b, sane h -> live (alloc_h h b) = live h + 1.
Proof.
  intros h b S. unfold live. cbn [next alloc_h]. rewrite seq_S, filter_app, app_length. cbn [filter Nat.add].
  replace (allocated (alloc_h h b) (next h)) with true by (unfold allocated; cbn; now rewrite upd_same). cbn.
  f_equal. f_equal. apply filter_ext_in. intros a Ha. apply in_seq in Ha. unfold allocated. cbn. rewrite upd_other by lia. reflexivity.
Qed.
Lemma filter_length_one : forall (f g : nat -> bool) p l, NoDup l -> In p l -> f p = true -> g p = false -> (forall a, a <> p -> g a = f a) ->
  length (filter f l) = length (filter g l) + 1.
Proof.
  intros f g p l. induction l as [|x l IH]; intros ND I Fp Gp E; [destruct I|]. inversion ND as [|? ? Nx NDl]; subst. cbn.
  destruct (Nat.eq_dec x p) as [->|Ne].
  - rewrite Fp, Gp. cbn. assert (H : filter f l = filter g l).
    { apply filter_ext_in. intros a Ha. symmetry. apply E. intros ->. contradiction. }
    rewrite H. lia.
  - destruct I as [->|I]; [contradiction|]. rewrite (E x Ne). specialize (IH NDl I Fp Gp E). destruct (f x); cbn; lia.
Qed.
Lemma live_free : forall (h : heap) p b, sane h -> mem h p = Some b -> live h = live (free_h h p) + 1.
Proof.
  intros h p b (Sn & S0 & Sa) E. unfold live. cbn [next free_h]. apply filter_length_one with (p := p).
  - apply seq_NoDup.
  - apply in_seq. destruct (le_lt_dec (next h) p) as [L|L]; [rewrite Sa in E by exact L; discriminate|lia].
  - unfold allocated. now rewrite E.
  - unfold allocated. cbn. now rewrite upd_same.
  - intros a Ha. unfold allocated. cbn. now rewrite upd_other.
Qed.

(** ** What a program may have changed: at most the old blocks in [W], with [k] blocks more than before. *)
Definition step (h h' : heap) (W : ptr -> Prop) (k : nat) : Prop :=
  sane h' /\ next h <= next h' /\ live h' = live h + k /\ forall a, a < next h -> ~ W a -> mem h' a = mem h a.
Definition nothing : ptr -> Prop := fun _ => False.

Lemma sane_lt : forall (h : heap) p b, sane h -> mem h p = Some b -> p < next h /\ 0 < p.
Proof.
  intros h p b (Sn & S0 & Sa) E. split.
  - destruct (le_lt_dec (next h) p) as [L|L]; [rewrite Sa in E by exact L; discriminate|exact L].
  - destruct p; [rewrite S0 in E; discriminate|lia].
Qed.
Lemma step_refl : forall h W, sane h -> step h h W 0.
Proof. intros h W S. split; [exact S|]. split; [lia|]. split; [lia|]. auto. Qed.
Lemma step_trans : forall h h1 h2 (W W1 W2 : ptr -> Prop) k1 k2 k, step h h1 W1 k1 -> step h1 h2 W2 k2 ->
  (forall a, a < next h -> W1 a -> W a) -> (forall a, a < next h -> W2 a -> W a) -> k = k1 + k2 -> step h h2 W k.
Proof.
  intros h h1 h2 W W1 W2 k1 k2 k (S1 & L1 & C1 & M1) (S2 & L2 & C2 & M2) I1 I2 ->. split; [exact S2|]. split; [lia|]. split; [lia|].
  intros a Ha NW. rewrite M2; [apply M1; auto | lia | auto].
Qed.
Lemma step_weaken : forall h h' (W W' : ptr -> Prop) k, step h h' W k -> (forall a, a < next h -> W a -> W' a) -> step h h' W' k.
Proof. intros h h' W W' k (S & L & C & Ms) I. split; [exact S|]. split; [lia|]. split; [lia|]. intros a Ha NW. apply Ms; auto. Qed.
Lemma step_alloc : forall h b W, sane h -> step h (alloc_h h b) W 1.
Proof.
  intros h b W S. pose proof (live_alloc h b S) as L. destruct S as (Sn & S0 & Sa).
  split; [split; [|split]|split; [|split]]; cbn [next mem alloc_h]; try lia.
  - rewrite upd_other by lia. exact S0.
  - intros a Ha. rewrite upd_other by lia. apply Sa. lia.
  - intros a Ha _. rewrite upd_other by lia. reflexivity.
Qed.
Lemma step_set : forall (h : heap) p b b', sane h -> mem h p = Some b -> step h (set_h h p b') (eq p) 0.
Proof.
  intros h p b b' S E. destruct (sane_lt h p b S E) as [Lp L0]. destruct S as (Sn & S0 & Sa).
  split; [split; [|split]|split; [|split]]; cbn [next mem set_h]; try lia.
  - rewrite upd_other by lia. exact S0.
  - intros a Ha. rewrite upd_other by lia. apply Sa. lia.
  - rewrite Nat.add_0_r. apply live_ext; [reflexivity|]. intros a Ha. unfold allocated. cbn. destruct (Nat.eq_dec a p) as [->|Ne].
    + rewrite upd_same, E. reflexivity.
    + now rewrite upd_other.
  - intros a Ha NW. rewrite upd_other; [reflexivity|]. intros ->. now apply NW.
Qed.

(** ** Arrays *)
Lemma length_splice : forall off (vs : list V) l, off + length vs <= length l -> length (splice off vs l) = length l.
Proof. intros off vs l H. unfold splice. rewrite !app_length, firstn_length, map_length, skipn_length. lia. Qed.
Lemma store_eq : forall (h : heap) p l off vs, mem h p = Some (Arr T l) -> off + length vs <= length l ->
  store p off vs h = Some (tt, set_h h p (Arr T (splice off vs l))).
Proof.
  intros h p l off vs E H. unfold store, load_arr, load, bind. rewrite E. unfold ret. rewrite (proj2 (Nat.leb_le _ _) H). unfold put.
  now rewrite E.
Qed.
Lemma read_eq : forall (h : heap) p l off n vs, mem h p = Some (Arr T l) -> off + n <= length l -> values (firstn n (skipn off l)) = Some vs ->
  read p off n h = Some (vs, h).
Proof.
  intros h p l off n vs E H Ev. unfold read, load_arr, load, bind. rewrite E. unfold ret. rewrite (proj2 (Nat.leb_le _ _) H). unfold known.
  now rewrite Ev.
Qed.
Lemma values_full : forall vs : list V, values (map (@Some V) vs) = Some vs.
Proof. induction vs as [|v vs IH]; [reflexivity|]. cbn. now rewrite IH. Qed.
Lemma splice_all : forall (vs : list V) l, length l = length vs -> splice 0 vs l = map (@Some V) vs.
Proof. intros vs l H. unfold splice. cbn. rewrite skipn_all2 by lia. apply app_nil_r. Qed.
Lemma store_all : forall (h : heap) p l vs, mem h p = Some (Arr T l) -> length l = length vs ->
  store p 0 vs h = Some (tt, set_h h p (full vs)).
Proof. intros h p l vs E H. rewrite (store_eq h p l 0 vs E) by lia. now rewrite splice_all. Qed.
Lemma read_full : forall (h : heap) p vs off n, mem h p = Some (full vs) -> off + n <= length vs ->
  read p off n h = Some (firstn n (skipn off vs), h).
Proof.
  intros h p vs off n E H. apply read_eq with (l := map (@Some V) vs); [exact E | rewrite map_length; exact H |].
  rewrite skipn_map, firstn_map. apply values_full.
Qed.
Lemma splice_full : forall off (ws vs : list V),
  splice off ws (map (@Some V) vs) = map (@Some V) (firstn off vs ++ ws ++ skipn (off + length ws) vs).
Proof. intros off ws vs. unfold splice. now rewrite firstn_map, skipn_map, !map_app. Qed.
Lemma scale_full : forall (h : heap) p vs off n v, mem h p = Some (full vs) -> off + n <= length vs ->
  scale N p off n v h = Some (tt, set_h h p (full (firstn off vs ++ map (mul v) (firstn n (skipn off vs)) ++ skipn (off + n) vs))).
Proof.
  intros h p vs off n v E H. unfold scale. rewrite (bind_some _ _ _ _ _ _ _ (read_full h p vs off n E H)).
  assert (Hl : length (map (mul v) (firstn n (skipn off vs))) = n) by (rewrite map_length, firstn_length, skipn_length; lia).
  rewrite (store_eq h p _ off _ E) by (rewrite Hl, map_length; lia). rewrite splice_full, Hl. reflexivity.
Qed.
Lemma length_tab : forall n (f : nat -> V), length (tab n f) = n.
Proof. intros n f. unfold tab. now rewrite map_length, seq_length. Qed.
Lemma nth_tab : forall n (f : nat -> V) i d, i < n -> nth i (tab n f) d = f i.
Proof. intros n f i d H. unfold tab. rewrite (nth_indep _ d (f 0)) by (rewrite map_length, seq_length; lia). rewrite map_nth, seq_nth by lia. reflexivity. Qed.
Lemma tab_ext : forall n (f g : nat -> V), (forall i, i < n -> f i = g i) -> tab n f = tab n g.
Proof. intros n f g H. unfold tab. apply map_ext_in. intros i Hi. apply H. apply in_seq in Hi. lia. Qed.
Lemma nth_ext_tab : forall (l : list V) n f, length l = n -> (forall i, i < n -> nth i l zero = f i) -> l = tab n f.
Proof.
  intros l n f Hl H. apply (nth_ext l (tab n f) zero zero); [now rewrite length_tab|]. intros i Hi. rewrite nth_tab by lia. apply H. lia.
Qed.

(** The rows [0 .. r-1] of a table of rows of [n] numbers are multiplied by the first [r] numbers of another table. *)
Lemma iter_scale : forall r n (cs vs : list V) dd pp (m : nat) (h : heap), sane h -> dd <> pp -> mem h dd = Some (full cs) ->
  m + r <= length cs -> length vs = (m + r) * n ->
  mem h pp = Some (full (tab ((m + r) * n) (fun j => if j <? m * n then mul (nth (j / n) cs zero) (nth j vs zero) else nth j vs zero))) ->
  exists h', iter (seq m r) (fun i => bind (read dd i 1) (fun v => scale N pp (i * n) n (hd zero v))) h = Some (tt, h') /\
             step h h' (eq pp) 0 /\ next h' = next h /\
             mem h' pp = Some (full (tab ((m + r) * n) (fun j => mul (nth (j / n) cs zero) (nth j vs zero)))).
Proof.
  induction r as [|r IH]; intros n cs vs dd pp m h Sn Ne Ed Hc Hv Ep.
  - exists h. split; [reflexivity|]. split; [now apply step_refl|]. split; [reflexivity|]. rewrite Ep. do 2 f_equal. apply tab_ext. intros i Hi.
    rewrite Nat.add_0_r in Hi. now rewrite (proj2 (Nat.ltb_lt _ _) Hi).
  - cbn [seq iter]. set (cur := tab _ _) in Ep.
    assert (Hcur : length cur = (m + S r) * n) by (unfold cur; apply length_tab).
    erewrite bind_some; [|erewrite bind_some; [|apply (read_full h dd cs m 1 Ed); lia]; apply (scale_full h pp _ (m * n) n _ Ep); rewrite Hcur; nia].
    set (cur' := firstn _ _ ++ _ ++ _). set (h1 := set_h h pp (full cur')).
    pose proof (step_set h pp _ (full cur') Sn Ep) as St. fold h1 in St.
    assert (Ev : hd zero (firstn 1 (skipn m cs)) = nth m cs zero).
    { clear - Hc. revert m Hc. induction cs as [|c cs IHc]; intros [|m] Hc; cbn in *; try reflexivity; try lia. apply IHc. lia. }
    assert (Ecur' : cur' = tab ((S m + r) * n) (fun j => if j <? S m * n then mul (nth (j / n) cs zero) (nth j vs zero) else nth j vs zero)).
    { apply nth_ext_tab.
      - unfold cur'. rewrite !app_length, map_length, !firstn_length, !skipn_length. nia.
      - intros i Hi. assert (Hf : length (firstn (m * n) cur) = m * n) by (rewrite firstn_length; nia).
        assert (Hm : length (map (mul (nth m cs zero)) (firstn n (skipn (m * n) cur))) = n) by (rewrite map_length, firstn_length, skipn_length; nia).
        unfold cur'. rewrite Ev.
        destruct (Nat.ltb_spec i (m * n)) as [L1|L1].
        + rewrite app_nth1 by lia. rewrite (proj2 (Nat.ltb_lt i (S m * n))) by (cbn; lia).
          rewrite <- (firstn_skipn (m * n) cur) in Hcur. 
          assert (Hn : nth i (firstn (m * n) cur) zero = nth i cur zero).
          { rewrite <- (firstn_skipn (m * n) cur) at 2. rewrite app_nth1 by lia. reflexivity. }
          rewrite Hn. unfold cur. rewrite nth_tab by nia. now rewrite (proj2 (Nat.ltb_lt i (m * n)) L1).
        + rewrite app_nth2 by lia. rewrite Hf. destruct (Nat.ltb_spec i (S m * n)) as [L2|L2].
          * assert (Hi2 : i - m * n < n) by (cbn in L2; lia).
            rewrite app_nth1 by lia.
            rewrite (nth_indep _ zero (mul (nth m cs zero) zero)) by lia.
            rewrite map_nth.
            assert (Hn : nth (i - m * n) (firstn n (skipn (m * n) cur)) zero = nth i cur zero).
            { transitivity (nth (i - m * n) (skipn (m * n) cur) zero).
              - rewrite <- (firstn_skipn n (skipn (m * n) cur)) at 2. rewrite app_nth1; [reflexivity|]. rewrite firstn_length, skipn_length. nia.
              - transitivity (nth i (firstn (m * n) cur ++ skipn (m * n) cur) zero); [|now rewrite firstn_skipn].
                rewrite app_nth2 by lia. now rewrite Hf. }
            rewrite Hn. unfold cur. rewrite nth_tab by nia. rewrite (proj2 (Nat.ltb_ge i (m * n)) L1).
            replace (i / n) with m; [reflexivity|]. apply (Nat.div_unique i n m (i - m * n)); nia.
          * cbn in L2. rewrite app_nth2 by lia. rewrite Hm.
            assert (Hn : nth (i - m * n - n) (skipn (m * n + n) cur) zero = nth i cur zero).
            { transitivity (nth i (firstn (m * n + n) cur ++ skipn (m * n + n) cur) zero); [|now rewrite firstn_skipn].
              rewrite app_nth2 by (rewrite firstn_length; nia). rewrite firstn_length, Nat.min_l by nia. f_equal. lia. }
            rewrite Hn. unfold cur. rewrite nth_tab by nia. now rewrite (proj2 (Nat.ltb_ge i (m * n)) L1). }
    destruct (IH n cs vs dd pp (S m) h1) as (h' & Er & St' & Nx & Em).
    + apply St.
    + exact Ne.
    + unfold h1. cbn. rewrite upd_other by exact Ne. exact Ed.
    + lia.
    + rewrite Hv. nia.
    + unfold h1. cbn [mem set_h]. rewrite upd_same. now rewrite Ecur'.
    + exists h'. split; [exact Er|]. split; [|split].
      * eapply step_trans; [exact St | exact St' | auto | auto | reflexivity].
      * rewrite Nx. reflexivity.
      * replace (m + S r) with (S m + r) by lia. exact Em.
Qed.
End Prims.
