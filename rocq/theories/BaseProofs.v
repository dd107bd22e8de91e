(** Lemmas about the Python helpers of Base.v. *)
From Coq Require Import List ZArith QArith Lia Bool.
From Verif Require Import Base.
Import ListNotations.

Lemma for_each_app {X S} (l1 l2 : list X) (b : X -> S -> pyres S) s :
  for_each (l1 ++ l2) b s = bind (for_each l1 b s) (for_each l2 b).
Proof.
  revert s; induction l1 as [|x r IH]; intros s; simpl; auto.
  destruct (b x s); simpl; auto.
Qed.

Lemma for_each_pure {X S} (l : list X) (f : X -> S -> S) s :
  for_each l (fun x s => Ok (f x s)) s = Ok (fold_left (fun s x => f x s) l s).
Proof. revert s; induction l; intros; simpl; auto. Qed.

Lemma mapM_ok {X Y} (f : X -> pyres Y) (g : X -> Y) l :
  (forall x, In x l -> f x = Ok (g x)) -> mapM f l = Ok (map g l).
Proof.
  induction l as [|x r IH]; intros H; simpl; auto.
  rewrite (H x) by (simpl; auto). simpl. rewrite IH; auto.
  intros; apply H; simpl; auto.
Qed.

Lemma mapM_length {X Y} (f : X -> pyres Y) l r : mapM f l = Ok r -> length r = length l.
Proof.
  revert r; induction l as [|x l IH]; simpl; intros r H.
  - injection H as <-. auto.
  - destruct (f x); simpl in H; try discriminate.
    destruct (mapM f l); simpl in H; try discriminate.
    injection H as <-. simpl. f_equal. auto.
Qed.

(** Lists given by a function on indexes. *)
Definition tab {A} (n : nat) (f : nat -> A) : list A := map f (seq 0 n).

Lemma tab_length {A} n (f : nat -> A) : length (tab n f) = n.
Proof. unfold tab. rewrite map_length, seq_length. auto. Qed.

Lemma tab_ext {A} n (f g : nat -> A) : (forall i, (i < n)%nat -> f i = g i) -> tab n f = tab n g.
Proof.
  intros H. unfold tab. apply map_ext_in. intros a Ha. apply in_seq in Ha. apply H. lia.
Qed.

Lemma tab_nth_error {A} n (f : nat -> A) i : (i < n)%nat -> nth_error (tab n f) i = Some (f i).
Proof.
  intros H. unfold tab. rewrite nth_error_map.
  assert (E : nth_error (seq 0 n) i = Some i).
  { rewrite (nth_error_nth' _ 0%nat) by (rewrite seq_length; auto).
    rewrite seq_nth; auto. }
  rewrite E. auto.
Qed.

Lemma map_seq_shift {A} (f : nat -> A) a n : map f (seq a n) = map (fun i => f (a + i)%nat) (seq 0 n).
Proof.
  revert f a; induction n as [|n IH]; intros f a; cbn [seq map]; auto.
  f_equal. { f_equal; lia. }
  rewrite IH, (IH (fun i => f (a + i)%nat) 1%nat).
  apply map_ext. intros i. f_equal. lia.
Qed.

Lemma tab_S {A} n (f : nat -> A) : tab (S n) f = f 0%nat :: tab n (fun i => f (S i)).
Proof. unfold tab. cbn [seq map]. f_equal. rewrite map_seq_shift. apply map_ext; auto. Qed.

Lemma tab_snoc {A} n (f : nat -> A) : tab (S n) f = tab n f ++ [f n].
Proof.
  unfold tab. rewrite seq_S, map_app. simpl. auto.
Qed.

Lemma upd_nat_length {A} (l : list A) i v : length (upd_nat l i v) = length l.
Proof. revert i; induction l; intros [|i]; simpl; auto. Qed.

Lemma upd_nat_tab {A} n (f : nat -> A) i v :
  (i < n)%nat -> upd_nat (tab n f) i v = tab n (fun j => if Nat.eqb j i then v else f j).
Proof.
  revert f i; induction n as [|n IH]; intros f i H; [lia|].
  rewrite !tab_S. destruct i as [|i]; simpl.
  - f_equal.
  - f_equal. rewrite IH by lia. apply tab_ext. intros; auto.
Qed.

Lemma nth_error_upd_same {A} (l : list A) i v : (i < length l)%nat -> nth_error (upd_nat l i v) i = Some v.
Proof. revert i; induction l; intros [|i] H; simpl in *; try lia; auto. apply IHl; lia. Qed.

Lemma nth_error_upd_other {A} (l : list A) i j v : i <> j -> nth_error (upd_nat l i v) j = nth_error l j.
Proof. revert i j; induction l; intros [|i] [|j] H; simpl; auto; try congruence. Qed.

Lemma py_index_tab {A} n (f : nat -> A) z i :
  z = Z.of_nat i -> (i < n)%nat -> py_index (tab n f) z = Ok (f i).
Proof.
  intros -> H. unfold py_index.
  destruct (Z.of_nat i <? 0)%Z eqn:E; [apply Z.ltb_lt in E; lia|].
  rewrite E. rewrite Nat2Z.id, tab_nth_error; auto.
Qed.

Lemma py_assign_tab {A} n (f : nat -> A) z i v :
  z = Z.of_nat i -> (i < n)%nat ->
  py_assign (tab n f) z v = Ok (tab n (fun j => if Nat.eqb j i then v else f j)).
Proof.
  intros -> H. unfold py_assign. rewrite tab_length.
  destruct (Z.of_nat i <? 0)%Z eqn:E; [apply Z.ltb_lt in E; lia|].
  rewrite E. destruct (Z.of_nat i <? Z.of_nat n)%Z eqn:E2; [|apply Z.ltb_ge in E2; lia].
  rewrite Nat2Z.id, upd_nat_tab; auto.
Qed.

Lemma zrange_0 n : zrange 0 (Z.of_nat n) = map Z.of_nat (seq 0 n).
Proof. unfold zrange. rewrite Z.sub_0_r, Nat2Z.id. apply map_ext. intros; lia. Qed.

Lemma zrange_1 n : zrange 1 (Z.of_nat n + 1) = map (fun i => Z.of_nat (S i)) (seq 0 n).
Proof.
  unfold zrange. replace (Z.of_nat n + 1 - 1)%Z with (Z.of_nat n) by lia.
  rewrite Nat2Z.id. apply map_ext. intros; lia.
Qed.

Lemma py_slice_nonneg {A} (l : list A) a b :
  (0 <= a <= Z.of_nat (length l))%Z -> (0 <= b <= Z.of_nat (length l))%Z ->
  py_slice l a b = firstn (Z.to_nat b - Z.to_nat a) (skipn (Z.to_nat a) l).
Proof.
  intros Ha Hb. unfold py_slice.
  destruct (a <? 0)%Z eqn:E1; [apply Z.ltb_lt in E1; lia|].
  destruct (b <? 0)%Z eqn:E2; [apply Z.ltb_lt in E2; lia|].
  rewrite !Z.min_r, !Z.max_r by lia. f_equal. lia.
Qed.

Lemma sumQ_app l1 l2 : sumQ (l1 ++ l2) == sumQ l1 + sumQ l2.
Proof. induction l1; simpl; [ring|rewrite IHl1; ring]. Qed.
