(** The walk over the triangles of an octahedron face equals the row-by-row triangulation of the grid. *)
From Coq Require Import ZArith QArith Qabs Bool List Lia Lqa Setoid Permutation.
From Verif Require Import InterpModel InterpSpec InterpProofs.
Import ListNotations.


(** ** Triangular numbers *)
Fixpoint T (n : nat) : nat := match n with O => 0%nat | S m => (S m + T m)%nat end.
Lemma T_twice n : (2 * T n = n * (n + 1))%nat.
Proof. induction n; cbn [T]; lia. Qed.
Lemma n_pts_T nt : n_pts nt = T (nt + 1).
Proof.
  unfold n_pts. pose proof (T_twice (nt + 1)) as H. replace (nt + 1 + 1)%nat with (nt + 2)%nat in H by lia. rewrite <- H.
  rewrite Nat.mul_comm, Nat.div_mul by lia. auto.
Qed.
Lemma row_start_T nt r : (r <= nt + 1)%nat -> (row_start nt r + T (nt + 1 - r) = T (nt + 1))%nat.
Proof.
  induction r as [|r IH]; intros H; cbn [row_start].
  - rewrite Nat.sub_0_r. auto.
  - specialize (IH ltac:(lia)). replace (nt + 1 - r)%nat with (S (nt + 1 - S r)) in * by lia. cbn [T] in IH. lia.
Qed.
Lemma row_start_mono nt r s : (r <= s)%nat -> (row_start nt r <= row_start nt s)%nat.
Proof. induction 1; cbn [row_start]; lia. Qed.

(** ** The walk *)
Lemma walk_end fuel nt i j li : (Z.of_nat (n_pts nt) - 1 <= Z.of_nat i)%Z -> walk fuel nt (i, j, li) = Some [].
Proof. intros H. destruct fuel; cbn [walk]; destruct (Z.ltb_spec (Z.of_nat i) (Z.of_nat (n_pts nt) - 1)); auto; lia. Qed.

Definition row_from (nt r c n : nat) : list tri :=
  flat_map (fun c => if (c + 1 <? nt - r)%nat then [up nt r c; down nt r c] else [up nt r c]) (seq c n).

Lemma tri_eq (a b c a' b' c' : nat) : a = a' -> b = b' -> c = c' -> (a, b, c) = (a', b', c').
Proof. congruence. Qed.
Lemma walk_row nt r d : forall c fuel, (r < nt)%nat -> (c + S d = nt - r)%nat ->
  walk (S d + fuel) nt ((row_start nt r + c)%nat, (row_start nt (r + 1) - (nt + 1) + c)%nat, (Z.of_nat (row_start nt r) + Z.of_nat nt - Z.of_nat r - 1)%Z) =
  match walk fuel nt (row_start nt (r + 1), (row_start nt (r + 2) - (nt + 1))%nat, (Z.of_nat (row_start nt (r + 1)) + Z.of_nat nt - Z.of_nat (r + 1) - 1)%Z) with
  | Some l => Some (row_from nt r c (S d) ++ l) | None => None end.
Proof.
  assert (N : forall c, (r < nt)%nat -> (c < nt - r)%nat -> (Z.of_nat (row_start nt r + c) <? Z.of_nat (n_pts nt) - 1)%Z = true).
  { intros c Hr Hc. apply Z.ltb_lt. rewrite n_pts_T. pose proof (row_start_T nt r ltac:(lia)) as H.
    replace (nt + 1 - r)%nat with (S (nt - r)) in H by lia. cbn [T] in H. lia. }
  assert (R1 : (r < nt)%nat -> (nt + 1 <= row_start nt (r + 1))%nat).
  { intros _. pose proof (row_start_mono nt 1 (r + 1) ltac:(lia)). cbn [row_start] in H. lia. }
  induction d as [|d IH]; intros c fuel Hr Hc.
  - change (1 + fuel)%nat with (S fuel). cbn [walk]. rewrite N by lia. unfold walk_step.
    destruct (Z.ltb_spec (Z.of_nat (row_start nt r + c)) (Z.of_nat (row_start nt r) + Z.of_nat nt - Z.of_nat r - 1)); [lia|].
    specialize (R1 Hr).
    replace (row_start nt r + c + 2)%nat with (row_start nt (r + 1)) by (rewrite Nat.add_1_r; cbn [row_start]; lia).
    replace (row_start nt (r + 1) - (nt + 1) + c + 1)%nat with (row_start nt (r + 2) - (nt + 1))%nat
      by (replace (r + 2)%nat with (S (r + 1)) by lia; cbn [row_start]; lia).
    replace (Z.of_nat (row_start nt (r + 1) - (nt + 1) + c + nt)) with (Z.of_nat (row_start nt (r + 1)) + Z.of_nat nt - Z.of_nat (r + 1) - 1)%Z by lia.
    destruct (walk fuel nt _) as [l|]; auto. f_equal.
    unfold row_from. cbn [seq flat_map]. destruct (Nat.ltb_spec (c + 1) (nt - r)); [lia|].
    cbn [app]. unfold up, point. apply f_equal2; auto. apply tri_eq; lia.
  - change (S (S d) + fuel)%nat with (S (S d + fuel)). cbn [walk]. rewrite N by lia. unfold walk_step.
    destruct (Z.ltb_spec (Z.of_nat (row_start nt r + c)) (Z.of_nat (row_start nt r) + Z.of_nat nt - Z.of_nat r - 1)); [|lia].
    replace (row_start nt r + c + 1)%nat with (row_start nt r + (c + 1))%nat by lia.
    replace (row_start nt (r + 1) - (nt + 1) + c + 1)%nat with (row_start nt (r + 1) - (nt + 1) + (c + 1))%nat by lia.
    rewrite IH by lia. destruct (walk fuel nt _) as [l|]; auto. f_equal.
    unfold row_from. cbn [seq flat_map]. destruct (Nat.ltb_spec (c + 1) (nt - r)); [|lia]. rewrite <- app_assoc.
    specialize (R1 Hr). cbn [app]. apply f_equal2; [apply tri_eq; unfold point; lia|]. apply f_equal2; [apply tri_eq; unfold point; lia|]. replace (c + 1)%nat with (S c) by lia. rewrite app_assoc. auto.
Qed.

Lemma walk_rows nt k : forall r fuel, (r + k = nt)%nat ->
  walk (T k + fuel) nt (row_start nt r, (row_start nt (r + 1) - (nt + 1))%nat, (Z.of_nat (row_start nt r) + Z.of_nat nt - Z.of_nat r - 1)%Z) =
  Some (flat_map (row_tris nt) (seq r k)).
Proof.
  induction k as [|k IH]; intros r fuel H.
  - replace r with nt by lia. apply walk_end. rewrite n_pts_T. pose proof (row_start_T nt nt ltac:(lia)) as E.
    replace (nt + 1 - nt)%nat with 1%nat in E by lia. cbn [T] in E. lia.
  - cbn [T]. replace (S k + T k + fuel)%nat with (S k + (T k + fuel))%nat by lia.
    pose proof (walk_row nt r k 0 (T k + fuel)%nat ltac:(lia) ltac:(lia)) as W.
    rewrite !Nat.add_0_r in W. rewrite W. replace (r + 2)%nat with (r + 1 + 1)%nat by lia.
    rewrite IH by lia. cbn [seq flat_map]. rewrite Nat.add_1_r. f_equal. f_equal. unfold row_from, row_tris.
    replace (nt - r)%nat with (S k) by lia. auto.
Qed.

Lemma T_mono n : (T n <= T (n + 1))%nat.
Proof. rewrite Nat.add_1_r. cbn [T]. lia. Qed.

Theorem triangles_grid nt : triangles nt = Some (grid_tris nt).
Proof.
  unfold triangles, grid_tris. pose proof (walk_rows nt nt 0 (n_pts nt - T nt) ltac:(lia)) as W.
  replace (T nt + (n_pts nt - T nt))%nat with (n_pts nt) in W by (rewrite n_pts_T; pose proof (T_mono nt); lia).
  cbn [row_start Nat.add] in W. rewrite <- W. f_equal. f_equal; [|lia]. f_equal. lia.
Qed.

(** ** The grid triangulation *)
Lemma row_tris_count nt r : (r < nt)%nat -> List.length (row_tris nt r) = (2 * (nt - r) - 1)%nat.
Proof.
  intros H. unfold row_tris. assert (G : forall n c, (c + n = nt - r)%nat -> (0 < n)%nat ->
    List.length (flat_map (fun c => if (c + 1 <? nt - r)%nat then [up nt r c; down nt r c] else [up nt r c]) (seq c n)) = (2 * n - 1)%nat).
  { induction n as [|n IH]; intros c Hc Hn; [lia|]. cbn [seq flat_map]. rewrite app_length.
    destruct (Nat.ltb_spec (c + 1) (nt - r)).
    - rewrite IH by lia. simpl. lia.
    - replace n with 0%nat by lia. simpl. lia. }
  apply G; lia.
Qed.
Theorem grid_count nt : List.length (grid_tris nt) = (nt * nt)%nat.
Proof.
  unfold grid_tris. assert (G : forall k r, (r + k = nt)%nat -> List.length (flat_map (row_tris nt) (seq r k)) = (k * k)%nat).
  { induction k as [|k IH]; intros r H; auto. cbn [seq flat_map]. rewrite app_length, row_tris_count by lia.
    rewrite IH by lia. replace (nt - r)%nat with (S k) by lia. lia. }
  apply G. lia.
Qed.

Theorem grid_in nt t : In t (grid_tris nt) <->
  exists r c, (r < nt)%nat /\ ((c < nt - r)%nat /\ t = up nt r c \/ (c + 1 < nt - r)%nat /\ t = down nt r c).
Proof.
  unfold grid_tris. rewrite in_flat_map. split.
  - intros [r [Hr H]]. apply in_seq in Hr. apply in_flat_map in H. destruct H as [c [Hc H]]. apply in_seq in Hc.
    exists r, c. split; [lia|]. destruct (Nat.ltb_spec (c + 1) (nt - r)).
    + destruct H as [<-|[<-|[]]]; [left|right]; split; auto; lia.
    + destruct H as [<-|[]]. left. split; auto; lia.
  - intros [r [c [Hr [[Hc ->]|[Hc ->]]]]]; exists r; (split; [apply in_seq; lia|]); apply in_flat_map; exists c;
      (split; [apply in_seq; lia|]); destruct (Nat.ltb_spec (c + 1) (nt - r)); simpl; auto; lia.
Qed.

(** Points of the grid are numbered 0..n_pts-1, each once. *)
Lemma point_bound nt r c : (r <= nt)%nat -> (c <= nt - r)%nat -> (point nt r c < n_pts nt)%nat.
Proof.
  intros Hr Hc. unfold point. rewrite n_pts_T. pose proof (row_start_T nt r ltac:(lia)) as H.
  replace (nt + 1 - r)%nat with (S (nt - r)) in H by lia. cbn [T] in H. lia.
Qed.
Lemma point_inj nt r c r' c' : (r <= nt)%nat -> (c <= nt - r)%nat -> (r' <= nt)%nat -> (c' <= nt - r')%nat ->
  point nt r c = point nt r' c' -> r = r' /\ c = c'.
Proof.
  unfold point. intros Hr Hc Hr' Hc' E.
  assert (A : forall r c r' c', (r <= nt)%nat -> (c <= nt - r)%nat -> (r < r')%nat -> (row_start nt r + c < row_start nt r' + c')%nat).
  { clear. intros r c r' c' Hr Hc L. pose proof (row_start_mono nt (r + 1) r' ltac:(lia)) as M. rewrite Nat.add_1_r in M. cbn [row_start] in M. lia. }
  destruct (Nat.lt_trichotomy r r') as [L|[L|L]].
  - specialize (A r c r' c' Hr Hc L). lia.
  - subst. split; auto. lia.
  - specialize (A r' c' r c Hr' Hc' L). lia.
Qed.
Lemma point_onto nt k : (k < n_pts nt)%nat -> exists r c, (r <= nt)%nat /\ (c <= nt - r)%nat /\ point nt r c = k.
Proof.
  rewrite n_pts_T. intros H.
  assert (G : forall n r, (r + n = nt + 1)%nat -> (row_start nt r <= k)%nat -> exists r c, (r <= nt)%nat /\ (c <= nt - r)%nat /\ point nt r c = k).
  { induction n as [|n IH]; intros r Hr Hk.
    - pose proof (row_start_T nt r ltac:(lia)) as E. replace (nt + 1 - r)%nat with 0%nat in E by lia. cbn [T] in E. lia.
    - destruct (Nat.le_gt_cases (row_start nt (S r)) k) as [L|L].
      + apply (IH (S r)); auto; lia.
      + exists r, (k - row_start nt r)%nat. cbn [row_start] in L. unfold point. repeat split; lia. }
  apply (G (nt + 1)%nat 0%nat); cbn [row_start]; lia.
Qed.

Theorem grid_NoDup nt : NoDup (grid_tris nt).
Proof.
  assert (Uinj : forall r c r' c', (r < nt)%nat -> (c < nt - r)%nat -> (r' < nt)%nat -> (c' < nt - r')%nat -> up nt r c = up nt r' c' -> r = r' /\ c = c').
  { intros r c r' c' H1 H2 H3 H4 E. injection E as E _ _. apply (point_inj nt); auto; lia. }
  assert (Dinj : forall r c r' c', (r < nt)%nat -> (c + 1 < nt - r)%nat -> (r' < nt)%nat -> (c' + 1 < nt - r')%nat -> down nt r c = down nt r' c' -> r = r' /\ c = c').
  { intros r c r' c' H1 H2 H3 H4 E. injection E as E _ _. apply (point_inj nt) in E; lia. }
  assert (UD : forall r c r' c', (r < nt)%nat -> (c < nt - r)%nat -> (r' < nt)%nat -> (c' + 1 < nt - r')%nat -> up nt r c <> down nt r' c').
  { intros r c r' c' H1 H2 H3 H4 E. injection E as E1 E2 _. apply (point_inj nt) in E1; try lia. apply (point_inj nt) in E2; try lia. }
  unfold grid_tris.
  assert (R : forall n s, (s + n <= nt)%nat -> NoDup (flat_map (row_tris nt) (seq s n))); [|apply R; lia].
  assert (NDapp : forall (a b : list tri), NoDup a -> NoDup b -> (forall x, In x a -> ~ In x b) -> NoDup (a ++ b)).
  { clear. induction 1 as [|x a Hx N IH]; simpl; auto. intros Hb H. constructor.
    - rewrite in_app_iff. intros [?|?]; [auto|]. apply (H x); simpl; auto.
    - apply IH; [auto|]. intros y Hy. apply H; simpl; auto. }
  induction n as [|n IH]; intros s Hs; [constructor|]. cbn [seq flat_map]. apply NDapp.
  - unfold row_tris. assert (C : forall m c, (c + m <= nt - s)%nat -> NoDup (flat_map (fun c => if (c + 1 <? nt - s)%nat then [up nt s c; down nt s c] else [up nt s c]) (seq c m))); [|apply C; lia].
    induction m as [|m IHm]; intros c Hc; [constructor|]. cbn [seq flat_map]. apply NDapp; [|apply IHm; lia|].
    + destruct (Nat.ltb_spec (c + 1) (nt - s)); repeat constructor; simpl; auto. intros [E|[]]. symmetry in E. revert E. apply UD; lia.
    + intros x Hx H. apply in_flat_map in H. destruct H as [c' [Hc' H]]. apply in_seq in Hc'.
      destruct (Nat.ltb_spec (c + 1) (nt - s)); destruct (Nat.ltb_spec (c' + 1) (nt - s)); simpl in Hx, H;
      repeat match goal with H : _ \/ _ |- _ => destruct H as [H|H] end; try tauto; subst x;
      first [ apply Uinj in H; lia | apply Dinj in H; lia | revert H; apply UD; lia | symmetry in H; revert H; apply UD; lia ].
  - apply IH. lia.
  - intros x Hx H. apply in_flat_map in Hx. destruct Hx as [c [Hc Hx]]. apply in_seq in Hc.
    apply in_flat_map in H. destruct H as [r [Hr H]]. apply in_seq in Hr. apply in_flat_map in H. destruct H as [c' [Hc' H]]. apply in_seq in Hc'.
    destruct (Nat.ltb_spec (c + 1) (nt - s)); destruct (Nat.ltb_spec (c' + 1) (nt - r)); simpl in Hx, H;
      repeat match goal with H : _ \/ _ |- _ => destruct H as [H|H] end; try tauto; subst x;
      first [ apply Uinj in H; lia | apply Dinj in H; lia | revert H; apply UD; lia | symmetry in H; revert H; apply UD; lia ].
Qed.
