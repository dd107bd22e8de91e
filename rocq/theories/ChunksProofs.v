From Coq Require Import List ZArith Lia Bool.
From Verif Require Import Base BaseProofs ChunksModel.
Import ListNotations.
Open Scope Z_scope.

(** State after the first [k] increments. *)
Lemma loop1 N q k : (k <= N)%nat ->
  for_each (zrange 0 (Z.of_nat k))
    (fun i c => let* v := py_index c (i + 1) in py_assign c (i + 1) (v + 1))
    (0 :: repeat q N)
  = Ok (tab (S N) (fun j => match j with O => 0 | S i => q + (if (i <? k)%nat then 1 else 0) end)).
Proof.
  rewrite zrange_0. induction k as [|k IH]; intros Hk.
  - simpl. f_equal. rewrite tab_S. f_equal.
    transitivity (tab N (fun _ => q)).
    + clear. induction N; simpl; auto. rewrite tab_S, <- IHN. auto.
    + apply tab_ext. intros. simpl. lia.
  - rewrite seq_S, map_app, for_each_app, IH by lia.
    cbn [bind map for_each Nat.add].
    rewrite (py_index_tab _ _ _ (S k)) by lia. cbn [bind].
    rewrite (py_assign_tab _ _ _ (S k)) by lia. cbn [bind].
    f_equal. apply tab_ext. intros [|i] Hi; simpl; auto.
    destruct (Nat.eqb_spec i k) as [->|Hne]; simpl.
    + rewrite Nat.ltb_irrefl. replace (k <? S k)%nat with true by (symmetry; apply Nat.ltb_lt; lia). lia.
    + destruct (Nat.ltb_spec i k), (Nat.ltb_spec i (S k)); lia.
Qed.

Definition bound (q : Z) (r : nat) (j : nat) : Z := Z.of_nat j * q + Z.of_nat (Nat.min j r).

Lemma loop2 N q r k : (k <= N)%nat ->
  for_each (map (fun i => Z.of_nat (S i)) (seq 0 k))
    (fun i c => let* v := py_index c i in
                let* w := py_index c (i - 1) in py_assign c i (v + w))
    (tab (S N) (fun j => match j with O => 0 | S i => q + (if (i <? r)%nat then 1 else 0) end))
  = Ok (tab (S N) (fun j => if (j <=? k)%nat then bound q r j
        else match j with O => 0 | S i => q + (if (i <? r)%nat then 1 else 0) end)).
Proof.
  induction k as [|k IH]; intros Hk.
  - cbn [seq map for_each]. f_equal. apply tab_ext. intros [|i] Hi; simpl; auto.
  - rewrite seq_S, map_app, for_each_app, IH by lia.
    cbn [bind map for_each Nat.add].
    rewrite (py_index_tab _ _ _ (S k)) by lia. cbn [bind].
    rewrite (py_index_tab _ _ _ k) by lia. cbn [bind].
    rewrite (py_assign_tab _ _ _ (S k)) by lia. cbn [bind].
    f_equal. apply tab_ext. intros j Hj.
    destruct (Nat.eqb_spec j (S k)) as [->|Hne].
    + destruct (Nat.leb_spec (S k) k); [lia|].
      destruct (Nat.leb_spec k k); [|lia].
      destruct (Nat.leb_spec (S k) (S k)); [|lia].
      unfold bound. destruct (Nat.ltb_spec k r); lia.
    + destruct (Nat.leb_spec j k), (Nat.leb_spec j (S k)); try lia.
Qed.

Lemma chunk_bounds_ok N q r : (r <= N)%nat ->
  chunk_bounds (Z.of_nat N) q (Z.of_nat r) = Ok (tab (S N) (bound q r)).
Proof.
  intros Hr. unfold chunk_bounds. rewrite Nat2Z.id, loop1 by auto. cbn [bind].
  rewrite zrange_1, loop2 by auto. f_equal. apply tab_ext. intros j Hj.
  destruct (Nat.leb_spec j N); [auto|lia].
Qed.

Definition nb (q r : nat) (j : nat) : nat := (j * q + Nat.min j r)%nat.

Lemma get_chunks_pos {A} cpu (items : list A) N : (1 <= N)%nat ->
  let q := (length items / N)%nat in let r := (length items mod N)%nat in
  get_chunks cpu items (Z.of_nat N) =
  Ok (map (fun i => firstn (nb q r (S i) - nb q r i) (skipn (nb q r i) items)) (seq 0 N)).
Proof.
  intros HN q r. unfold get_chunks.
  destruct (Z.of_nat N <? 0) eqn:E; [apply Z.ltb_lt in E; lia|].
  destruct (Z.of_nat N =? 0) eqn:E0; [apply Z.eqb_eq in E0; lia|].
  rewrite <- Nat2Z.inj_div, <- Nat2Z.inj_mod. fold q. fold r.
  assert (Hr : (r < N)%nat) by (apply Nat.mod_upper_bound; lia).
  assert (Hlen : length items = (N * q + r)%nat) by (apply Nat.div_mod; lia).
  rewrite chunk_bounds_ok by lia. cbn [bind].
  rewrite zrange_0.
  erewrite (mapM_ok _ (fun z => let i := Z.to_nat z in
     firstn (nb q r (S i) - nb q r i) (skipn (nb q r i) items))).
  - rewrite map_map. f_equal. apply map_ext. intros i. rewrite Nat2Z.id. auto.
  - intros z Hz. apply in_map_iff in Hz. destruct Hz as [i [<- Hi]]. apply in_seq in Hi.
    rewrite Nat2Z.id.
    rewrite (py_index_tab _ _ _ i) by lia. cbn [bind].
    rewrite (py_index_tab _ _ _ (S i)) by lia. cbn [bind].
    assert (Hb : forall j, bound (Z.of_nat q) r j = Z.of_nat (nb q r j)) by (intros; unfold bound, nb; lia).
    rewrite !Hb.
    assert (Hm : forall j, (j <= N)%nat -> (nb q r j <= length items)%nat).
    { intros j Hj. unfold nb. rewrite Hlen. nia. }
    rewrite py_slice_nonneg.
    + rewrite !Nat2Z.id. auto.
    + specialize (Hm i ltac:(lia)). lia.
    + specialize (Hm (S i) ltac:(lia)). lia.
Qed.

Lemma concat_slices {A} (f : nat -> nat) (l : list A) n :
  (forall i, (f i <= f (S i))%nat) -> f 0%nat = 0%nat ->
  concat (map (fun i => firstn (f (S i) - f i) (skipn (f i) l)) (seq 0 n)) = firstn (f n) l.
Proof.
  intros Hm H0. induction n as [|n IH].
  - simpl. rewrite H0. auto.
  - rewrite seq_S, map_app, concat_app, IH. cbn [map concat Nat.add].
    rewrite app_nil_r.
    rewrite <- (firstn_skipn (f n) (firstn (f (S n)) l)).
    rewrite firstn_firstn, Nat.min_l by apply Hm. f_equal.
    rewrite firstn_skipn_comm. f_equal. f_equal. specialize (Hm n). lia.
Qed.

Lemma get_chunks_partition {A} cpu (items : list A) N : (1 <= N)%nat ->
  exists chunks, get_chunks cpu items (Z.of_nat N) = Ok chunks /\
    concat chunks = items /\ length chunks = N /\
    (forall i j ci cj, nth_error chunks i = Some ci -> nth_error chunks j = Some cj -> (i <= j)%nat ->
       (length cj <= length ci <= length cj + 1)%nat).
Proof.
  intros HN. eexists. split; [apply get_chunks_pos; auto|].
  set (q := (length items / N)%nat). set (r := (length items mod N)%nat).
  assert (Hr : (r < N)%nat) by (apply Nat.mod_upper_bound; lia).
  assert (Hlen : length items = (N * q + r)%nat) by (apply Nat.div_mod; lia).
  split; [|split].
  - rewrite concat_slices.
    + rewrite firstn_all2; auto. rewrite Hlen. unfold nb. nia.
    + intros. unfold nb. nia.
    + unfold nb. lia.
  - rewrite map_length, seq_length. auto.
  - assert (Hl : forall i ci, nth_error
      (map (fun i => firstn (nb q r (S i) - nb q r i) (skipn (nb q r i) items)) (seq 0 N)) i = Some ci ->
      (i < N)%nat /\ length ci = (q + if (i <? r) then 1 else 0)%nat).
    { intros i ci H. assert (Hi : (i < N)%nat).
      {
        assert (nth_error (map (fun i => firstn (nb q r (S i) - nb q r i) (skipn (nb q r i) items)) (seq 0 N)) i <> None) by congruence.
        apply nth_error_Some in H0. rewrite map_length, seq_length in H0. auto. }
      split; auto. fold (tab N (fun i => firstn (nb q r (S i) - nb q r i) (skipn (nb q r i) items))) in H.
      rewrite tab_nth_error in H by auto. injection H as <-.
      rewrite firstn_length, skipn_length, Hlen. unfold nb.
      destruct (Nat.ltb_spec i r); nia. }
    intros i j ci cj Hi Hj Hij.
    apply Hl in Hi. apply Hl in Hj. destruct Hi as [Hi ->], Hj as [Hj ->].
    destruct (Nat.ltb_spec i r), (Nat.ltb_spec j r); lia.
Qed.

Lemma get_chunks_neg {A} (items : list A) cpu k : 1 <= k <= cpu ->
  get_chunks cpu items (- k) = get_chunks cpu items (cpu + 1 - k).
Proof.
  intros H. unfold get_chunks.
  destruct (Z.ltb_spec (- k) 0); [|lia].
  destruct (Z.ltb_spec (cpu + 1 - k) 0); [lia|].
  replace (- k + (cpu + 1)) with (cpu + 1 - k) by lia. auto.
Qed.

Lemma get_chunks_zero {A} (items : list A) cpu : get_chunks cpu items 0 = Err ZeroDivisionError.
Proof. reflexivity. Qed.

Lemma get_chunks_zero' {A} (items : list A) cpu : 0 <= cpu -> get_chunks cpu items (- (cpu + 1)) = Err ZeroDivisionError.
Proof.
  intros. unfold get_chunks. destruct (Z.ltb_spec (-(cpu+1)) 0); [|lia].
  replace (- (cpu + 1) + (cpu + 1)) with 0 by lia. reflexivity.
Qed.

Lemma get_chunks_too_negative {A} (items : list A) cpu n :
  0 <= cpu -> n < - (cpu + 1) -> get_chunks cpu items n = Ok [].
Proof.
  intros Hc Hn. unfold get_chunks. destruct (Z.ltb_spec n 0); [|lia].
  set (m := n + (cpu + 1)). assert (Hm : m < 0) by (unfold m; lia).
  destruct (Z.eqb_spec m 0); [lia|].
  assert (Hl : Z.of_nat (length items) mod m <= 0).
  { destruct (Z.mod_neg_bound (Z.of_nat (length items)) m Hm). lia. }
  unfold chunk_bounds, zrange.
  replace (Z.to_nat m) with 0%nat by lia.
  replace (Z.to_nat (Z.of_nat (length items) mod m - 0)) with 0%nat by lia.
  replace (Z.to_nat (m + 1 - 1)) with 0%nat by lia.
  replace (Z.to_nat (m - 0)) with 0%nat by lia.
  reflexivity.
Qed.

Lemma get_chunks_neg_cover {A} (items : list A) cpu k : 1 <= k <= cpu ->
  exists chunks, get_chunks cpu items (- k) = Ok chunks /\ concat chunks = items /\
                 Z.of_nat (length chunks) = cpu + 1 - k.
Proof.
  intros H. rewrite get_chunks_neg by auto.
  replace (cpu + 1 - k) with (Z.of_nat (Z.to_nat (cpu + 1 - k))) by lia.
  destruct (get_chunks_partition cpu items (Z.to_nat (cpu + 1 - k)) ltac:(lia)) as [c [H1 [H2 [H3 _]]]].
  exists c. rewrite H1. repeat split; auto; lia.
Qed.
