From Coq Require Import Reals List ZArith Lra Lia Psatz.
From Coquelicot Require Import Complex.
From Verif Require Import DftModel DftSpec DftProofs WignerModel WignerSpec WignerOrtho.
Import ListNotations.
Open Scope R_scope.

(** ** Sums of squares under an almost orthogonal matrix *)
Lemma rsum_plus n f g : rsum n (fun i => f i + g i) = rsum n f + rsum n g.
Proof. induction n; cbn; [ring|]. rewrite IHn. ring. Qed.
Lemma rsum_zero n : rsum n (fun _ => 0) = 0. Proof. induction n; cbn; [auto|]. rewrite IHn. ring. Qed.
Lemma rsum_swap n m (f : nat -> nat -> R) : rsum n (fun i => rsum m (fun j => f i j)) = rsum m (fun j => rsum n (fun i => f i j)).
Proof. induction n; cbn; [rewrite rsum_zero; auto|]. rewrite IHn, <- rsum_plus. auto. Qed.
Lemma rsum_scal_r n f c : rsum n (fun i => f i * c) = rsum n f * c.
Proof. rewrite Rmult_comm, <- rsum_scal. apply rsum_ext. intros. ring. Qed.
Lemma rsum_delta n i f : (i < n)%nat -> rsum n (fun j => (if Nat.eqb i j then 1 else 0) * f j) = f i.
Proof.
  induction n; intros H; [lia|]. cbn. destruct (Nat.eq_dec i n) as [->|Ne].
  - rewrite Nat.eqb_refl. rewrite (rsum_ext n _ (fun _ => 0)), rsum_zero; [ring|]. intros j Hj. destruct (Nat.eqb_spec n j); [lia|ring].
  - rewrite IHn by lia. destruct (Nat.eqb_spec i n); [lia|ring].
Qed.
Lemma rsum_abs n f : Rabs (rsum n f) <= rsum n (fun i => Rabs (f i)).
Proof. induction n; cbn; [rewrite Rabs_R0; lra|]. eapply Rle_trans; [apply Rabs_triang|]. lra. Qed.
Lemma rsum_nonneg n f : (forall i, (i < n)%nat -> 0 <= f i) -> 0 <= rsum n f.
Proof. intros H. induction n; cbn; [lra|]. pose proof (H n ltac:(lia)). pose proof (IHn ltac:(intros; apply H; lia)). lra. Qed.
(** (sum |x|)^2 <= n sum x^2 *)
Lemma cauchy n (x : nat -> R) : rsum n x * rsum n x <= INR n * rsum n (fun i => x i * x i).
Proof.
  induction n; [cbn; lra|]. rewrite S_INR. cbn [rsum].
  set (A := rsum n x) in *. set (B := rsum n (fun i => x i * x i)) in *. pose proof (pos_INR n) as N.
  assert (2 * A * x n <= INR n * (x n * x n) + B).
  { destruct (Req_dec (INR n) 0) as [E|E].
    - assert (n = O) by (apply INR_eq; auto). subst n. unfold A, B. cbn. lra.
    - assert (0 <= (INR n * x n - A) * (INR n * x n - A)) by apply Rle_0_sqr.
      assert (INR n * (2 * A * x n) <= INR n * (INR n * (x n * x n) + B)) by lra. apply Rmult_le_reg_l with (INR n); lra. }
  lra.
Qed.

Lemma gram n (w : nat -> nat -> R) (x : nat -> R) :
  rsum n (fun m => rsum n (fun i => w m i * x i) * rsum n (fun i => w m i * x i))
  = rsum n (fun i => rsum n (fun j => rsum n (fun m => w m i * w m j) * x j) * x i).
Proof.
  rewrite (rsum_ext n _ (fun m => rsum n (fun i => rsum n (fun j => w m i * w m j * x j * x i)))).
  - rewrite rsum_swap. apply rsum_ext. intros i _. rewrite rsum_swap, <- rsum_scal_r. apply rsum_ext. intros j _.
    rewrite <- !rsum_scal_r. apply rsum_ext. intros m _. ring.
  - intros m _. rewrite <- rsum_scal_r. apply rsum_ext. intros i _. rewrite (Rmult_comm (w m i * x i)), <- rsum_scal_r.
    apply rsum_ext. intros j _. ring.
Qed.

Lemma gram_close n (w : nat -> nat -> R) (x : nat -> R) f : 0 <= f ->
  (forall i j, (i < n)%nat -> (j < n)%nat -> Rabs (rsum n (fun m => w m i * w m j) - (if Nat.eqb i j then 1 else 0)) <= f) ->
  Rabs (rsum n (fun m => rsum n (fun i => w m i * x i) * rsum n (fun i => w m i * x i)) - rsum n (fun i => x i * x i))
  <= INR n * f * rsum n (fun i => x i * x i).
Proof.
  intros F H. rewrite gram.
  assert (E : rsum n (fun i => rsum n (fun j => rsum n (fun m => w m i * w m j) * x j) * x i) - rsum n (fun i => x i * x i)
    = rsum n (fun i => rsum n (fun j => (rsum n (fun m => w m i * w m j) - (if Nat.eqb i j then 1 else 0)) * x j) * x i)).
  { assert (E1 : rsum n (fun i => x i * x i) = rsum n (fun i => rsum n (fun j => (if Nat.eqb i j then 1 else 0) * x j) * x i)).
    { apply rsum_ext. intros i Hi. rewrite rsum_delta; auto. }
    rewrite E1. rewrite (rsum_ext n (fun i => rsum n (fun j => (rsum n (fun m => w m i * w m j) - (if Nat.eqb i j then 1 else 0)) * x j) * x i)
      (fun i => rsum n (fun j => rsum n (fun m => w m i * w m j) * x j) * x i + -1 * (rsum n (fun j => (if Nat.eqb i j then 1 else 0) * x j) * x i))).
    - rewrite rsum_plus, rsum_scal. ring.
    - intros i _. rewrite (rsum_ext n _ (fun j => rsum n (fun m => w m i * w m j) * x j + -1 * ((if Nat.eqb i j then 1 else 0) * x j))) by (intros; ring).
      rewrite rsum_plus, rsum_scal. ring. }
  rewrite E. eapply Rle_trans; [apply rsum_abs|].
  apply Rle_trans with (rsum n (fun i => f * rsum n (fun j => Rabs (x j)) * Rabs (x i))).
  - apply rsum_le. intros i Hi. rewrite Rabs_mult. apply Rmult_le_compat_r; [apply Rabs_pos|]. eapply Rle_trans; [apply rsum_abs|].
    rewrite <- rsum_scal. apply rsum_le. intros j Hj. rewrite Rabs_mult. apply Rmult_le_compat_r; [apply Rabs_pos|]. apply H; auto.
  - rewrite rsum_scal. rewrite Rmult_assoc, (Rmult_comm (INR n)), Rmult_assoc. apply Rmult_le_compat_l; auto.
    rewrite (rsum_ext n (fun i => x i * x i) (fun i => Rabs (x i) * Rabs (x i))); [apply cauchy|].
    intros i _. rewrite <- Rabs_mult. rewrite Rabs_right; auto. apply Rle_ge, Rle_0_sqr.
Qed.

(** ** Norms of lists *)
Lemma norm2_seq n (f : nat -> C) a : norm2 (map f (seq a n)) = rsum n (fun i => abs2 (f (a + i)%nat)).
Proof.
  revert a. induction n; intros a; [reflexivity|]. 
  assert (S1 : forall g, rsum (S n) g = g 0%nat + rsum n (fun i => g (S i))).
  { intros g. clear. induction n; [cbn; ring|]. cbn [rsum] in *. rewrite IHn. ring. }
  rewrite S1. cbn [seq map norm2 fold_right]. fold (norm2 (map f (seq (S a) n))). rewrite IHn. unfold abs2 at 2. rewrite Nat.add_0_r.
  f_equal. apply rsum_ext. intros i _. rewrite Nat.add_succ_comm. auto.
Qed.
Lemma seq_nth_id (v : list C) : map (fun i => nth i v (RtoC 0)) (seq 0 (length v)) = v.
Proof.
  induction v as [|x v IH]; [reflexivity|]. cbn [length seq map nth]. f_equal. rewrite <- seq_shift, map_map. exact IH.
Qed.
Lemma norm2_list v : norm2 v = rsum (length v) (fun i => abs2 (nth i v (RtoC 0))).
Proof. rewrite <- (seq_nth_id v) at 1. rewrite norm2_seq. reflexivity. Qed.

Lemma abs2_mult a b : abs2 (a * b)%C = abs2 a * abs2 b.
Proof. unfold abs2. cbn. ring. Qed.
Lemma abs2_Cconj a : abs2 (Cconj a) = abs2 a.
Proof. unfold abs2. cbn. ring. Qed.
Lemma abs2_cpow e n : abs2 e = 1 -> abs2 (cpow e n) = 1.
Proof. intros H. induction n; cbn [cpow]; [unfold abs2; cbn; ring|]. rewrite abs2_mult, H, IHn. ring. Qed.

Lemma scale_norm l e v : abs2 e = 1 -> length v = (2 * l + 1)%nat -> norm2 (scale_phases l e v) = norm2 v.
Proof.
  intros E L. unfold scale_phases. rewrite norm2_seq, norm2_list, L. apply rsum_ext. intros i _. cbn [Nat.add].
  destruct (i <? l)%nat; [rewrite abs2_mult, abs2_cpow by auto; ring|].
  destruct (l <? i)%nat; [rewrite abs2_mult, abs2_Cconj, abs2_cpow by auto; ring|auto].
Qed.
Lemma scale_length l e v : length (scale_phases l e v) = (2 * l + 1)%nat.
Proof. unfold scale_phases. rewrite map_length, seq_length. auto. Qed.
Lemma mat_vec_length r n w v : length (mat_vec r n w v) = r.
Proof. unfold mat_vec. rewrite map_length, seq_length. auto. Qed.

Lemma csum_re n (w : nat -> R) (v : nat -> C) :
  csum n (fun i => RtoC (w i) * v i)%C = (rsum n (fun i => w i * fst (v i)), rsum n (fun i => w i * snd (v i))).
Proof. induction n; [reflexivity|]. cbn [csum rsum]. rewrite IHn. apply C_ext; cbn; ring. Qed.

Lemma mat_vec_norm n w v f : 0 <= f -> length v = n ->
  (forall i j, (i < n)%nat -> (j < n)%nat -> Rabs (rsum n (fun m => nth (m * n + i) w 0 * nth (m * n + j) w 0) - (if Nat.eqb i j then 1 else 0)) <= f) ->
  Rabs (norm2 (mat_vec n n w v) - norm2 v) <= INR n * f * norm2 v.
Proof.
  intros F L H. unfold mat_vec. rewrite norm2_seq, norm2_list, L. cbn [Nat.add].
  pose proof (gram_close n (fun m i => nth (m * n + i) w 0) (fun i => fst (nth i v (RtoC 0))) f F H) as A.
  pose proof (gram_close n (fun m i => nth (m * n + i) w 0) (fun i => snd (nth i v (RtoC 0))) f F H) as B.
  rewrite (rsum_ext n _ (fun m => rsum n (fun i => nth (m * n + i) w 0 * fst (nth i v (RtoC 0))) * rsum n (fun i => nth (m * n + i) w 0 * fst (nth i v (RtoC 0)))
    + rsum n (fun i => nth (m * n + i) w 0 * snd (nth i v (RtoC 0))) * rsum n (fun i => nth (m * n + i) w 0 * snd (nth i v (RtoC 0))))).
  2:{ intros m _. rewrite (csum_re n (fun i => nth (m * n + i) w 0) (fun i => nth i v (RtoC 0))). reflexivity. }
  unfold abs2. rewrite !rsum_plus. cbv beta in A, B.
  match goal with |- Rabs (?a + ?b - (?c + ?d)) <= _ => set (a' := a) in *; set (b' := b) in *; set (c' := c) in *; set (d' := d) in * end.
  clearbody a' b' c' d'. replace (a' + b' - (c' + d')) with ((a' - c') + (b' - d')) by ring. eapply Rle_trans; [apply Rabs_triang|]. lra.
Qed.

(** ** Entries *)
Lemma d2_entry k c s i j : nth (i * 5 + j) (wigner_d k false 2 (c, s)) 0 = ent2 k c s i j. Proof. reflexivity. Qed.
Lemma d4_entry k c s i j : nth (i * 9 + j) (wigner_d k false 4 (c, s)) 0 = ent4 k c s i j. Proof. reflexivity. Qed.

Lemma sqr_bound c s : s * s = 1 - c * c -> Rabs c <= 1 /\ Rabs s <= 1.
Proof. intros H. split; apply Rabs_le; nra. Qed.

