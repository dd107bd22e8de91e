(** Proofs about the powder averaging scheme. *)
From Coq Require Import ZArith QArith Qabs Bool List Lia Lqa Qfield Setoid Morphisms.
From Verif Require Import InterpModel InterpSpec InterpProofs WalkProofs DeltaProofs PowderModel.
Import ListNotations.
Open Scope Q_scope.

(** ** Indexing the face *)
Definition cs (p : nat * nat * nat) : Q * Q * Q := let '(x, y, z) := p in (sq x / r2 p, sq y / r2 p, sq z / r2 p).
Definition face_row (nt j : nat) : list (nat * nat * nat) := map (fun i => ((nt - i - j)%nat, i, j)) (seq 0 (nt - j + 1)).
Lemma rows_length nt n s : (s + n <= nt)%nat -> List.length (flat_map (face_row nt) (seq s n)) = (row_start nt (s + n) - row_start nt s)%nat.
Proof.
  revert s. induction n as [|n IH]; intros s H; cbn [seq flat_map].
  - rewrite Nat.add_0_r. simpl. lia.
  - rewrite app_length, IH by lia. unfold face_row. rewrite map_length, seq_length.
    replace (s + S n)%nat with (S s + n)%nat by lia.
    pose proof (row_start_mono nt (S s) (S s + n) ltac:(lia)). cbn [row_start] in *. lia.
Qed.
Lemma face_length nt : List.length (face nt) = row_start nt nt.
Proof. unfold face. change (fun j => map _ _) with (face_row nt). rewrite rows_length by lia. cbn [row_start]. rewrite Nat.add_0_l. lia. Qed.
Lemma cosine_length nt : List.length (cosine_squares nt) = n_pts nt.
Proof.
  unfold cosine_squares. rewrite app_length, map_length, face_length, n_pts_T. pose proof (row_start_T nt nt ltac:(lia)) as E.
  replace (nt + 1 - nt)%nat with 1%nat in E by lia. cbn [T] in E. simpl. lia.
Qed.
Lemma amplitudes_length nt : List.length (amplitudes nt) = n_pts nt.
Proof.
  unfold amplitudes. rewrite app_length, map_length, face_length, n_pts_T. pose proof (row_start_T nt nt ltac:(lia)) as E.
  replace (nt + 1 - nt)%nat with 1%nat in E by lia. cbn [T] in E. simpl. lia.
Qed.
Lemma face_nth nt r c d : (r < nt)%nat -> (c <= nt - r)%nat -> nth (point nt r c) (face nt) d = ((nt - c - r)%nat, c, r).
Proof.
  intros Hr Hc. unfold face. change (fun j => map _ _) with (face_row nt).
  replace nt with (r + S (nt - S r))%nat at 3 by lia. rewrite seq_app, flat_map_app. cbn [seq flat_map Nat.add].
  unfold point. rewrite app_nth2; rewrite rows_length by lia; cbn [row_start]; rewrite Nat.add_0_l; [|lia].
  rewrite app_nth1; [|unfold face_row; rewrite map_length, seq_length; lia].
  unfold face_row. replace (row_start nt r + c - (row_start nt r - 0))%nat with c by lia.
  rewrite nth_indep with (d' := ((nt - 0 - r)%nat, 0%nat, r)) by (rewrite map_length, seq_length; lia).
  rewrite (map_nth (fun i => ((nt - i - r)%nat, i, r))). rewrite seq_nth by lia. auto.
Qed.
Lemma face_sum nt p : In p (face nt) -> let '(x, y, z) := p in (x + y + z = nt)%nat /\ (z < nt)%nat.
Proof.
  unfold face. rewrite in_flat_map. intros [j [Hj H]]. apply in_seq in Hj. apply in_map_iff in H. destruct H as [i [<- Hi]]. apply in_seq in Hi. lia.
Qed.

Lemma r2_pos x y z : (0 < x + y + z)%nat -> 0 < r2 (x, y, z).
Proof.
  intros H. unfold r2, sq. unfold Qlt, Qplus, Qmult, inject_Z; simpl.
  assert ((0 < x)%nat \/ (0 < y)%nat \/ (0 < z)%nat) by lia.
  assert (forall n, (0 <= Z.of_nat n * Z.of_nat n)%Z) by (intros; nia).
  assert (forall n, (0 < n)%nat -> (0 < Z.of_nat n * Z.of_nat n)%Z) by (intros; nia).
  pose proof (H1 x). pose proof (H1 y). pose proof (H1 z).
  destruct H0 as [G|[G|G]]; apply H2 in G; lia.
Qed.
Lemma sq_nonneg n : 0 <= sq n.
Proof. unfold sq, Qle, Qmult, inject_Z; simpl. nia. Qed.
Lemma div_nonneg a b : 0 <= a -> 0 < b -> 0 <= a / b.
Proof. intros. apply Qle_shift_div_l; auto. lra. Qed.

Lemma cosine_unit nt p : (1 <= nt)%nat -> In p (cosine_squares nt) ->
  let '(x, y, z) := p in 0 <= x /\ 0 <= y /\ 0 <= z /\ x + y + z == 1.
Proof.
  intros Hn H. unfold cosine_squares in H. apply in_app_iff in H. destruct H as [H|[<-|[]]].
  - apply in_map_iff in H. destruct H as [[[x y] z] [<- H]]. apply face_sum in H.
    assert (P : 0 < r2 (x, y, z)) by (apply r2_pos; lia).
    pose proof (sq_nonneg x). pose proof (sq_nonneg y). pose proof (sq_nonneg z).
    repeat split; try (apply div_nonneg; auto).
    setoid_replace (sq x / r2 (x, y, z) + sq y / r2 (x, y, z) + sq z / r2 (x, y, z)) with (r2 (x, y, z) / r2 (x, y, z)).
    + apply Qmult_inv_r. lra.
    + unfold r2 at 4. field. lra.
  - repeat split; lra.
Qed.

Lemma eq3_refl a : eq3 a a. Proof. repeat split; reflexivity. Qed.
Lemma eq3_trans a b c : eq3 a b -> eq3 b c -> eq3 a c.
Proof. intros [A [B C]] [A' [B' C']]. repeat split; etransitivity; eauto. Qed.
Lemma eq3_sym a b : eq3 a b -> eq3 b a.
Proof. intros [A [B C]]. repeat split; symmetry; auto. Qed.

(** Entry [point nt r c] is the orientation of the grid point (nt-c-r, c, r), the pole included. *)
Lemma cosine_nth nt r c d : (1 <= nt)%nat -> (r <= nt)%nat -> (c <= nt - r)%nat ->
  eq3 (nth (point nt r c) (cosine_squares nt) d) (cs ((nt - c - r)%nat, c, r)).
Proof.
  intros Hn Hr Hc. unfold cosine_squares.
  destruct (Nat.eq_dec r nt) as [->|NE].
  - replace c with 0%nat by lia. unfold point. rewrite Nat.add_0_r. rewrite app_nth2; rewrite map_length, face_length; [|lia].
    rewrite Nat.sub_diag. cbn [nth]. unfold eq3, cs. cbn [fst snd]. replace (nt - 0 - nt)%nat with 0%nat by lia.
    pose proof (r2_pos 0 0 nt ltac:(lia)) as P. assert (S0 : sq 0 == 0) by reflexivity.
    assert (R : r2 (0%nat, 0%nat, nt) == sq nt) by (unfold r2; rewrite S0; ring). repeat split.
    + rewrite R in *. field. lra.
  - change (fun p => let '(x, y, z) := p in (sq x / r2 p, sq y / r2 p, sq z / r2 p)) with cs.
    rewrite app_nth1.
    + rewrite nth_indep with (d' := cs (0%nat, 0%nat, 0%nat)).
      * rewrite map_nth, face_nth by lia. apply eq3_refl.
      * rewrite map_length, face_length. unfold point. pose proof (row_start_mono nt (S r) nt ltac:(lia)). cbn [row_start] in *. lia.
    + rewrite map_length, face_length. unfold point. pose proof (row_start_mono nt (S r) nt ltac:(lia)). cbn [row_start] in *. lia.
Qed.

Lemma sum_sq_pos x y z : (0 < x + y + z)%nat -> (0 < Z.of_nat x * Z.of_nat x + Z.of_nat y * Z.of_nat y + Z.of_nat z * Z.of_nat z)%Z.
Proof.
  intros H. assert (N : forall n, (0 <= Z.of_nat n * Z.of_nat n)%Z) by (intros; nia).
  assert (P : forall n, (0 < n)%nat -> (0 < Z.of_nat n * Z.of_nat n)%Z) by (intros; nia).
  pose proof (N x). pose proof (N y). pose proof (N z). assert (0 < x \/ 0 < y \/ 0 < z)%nat as [G|[G|G]] by lia; apply P in G; lia.
Qed.
Lemma square_eq (a b : Z) : (0 <= a)%Z -> (0 <= b)%Z -> (a * a = b * b)%Z -> a = b.
Proof. intros. destruct (Z.lt_trichotomy a b) as [?|[?|?]]; nia. Qed.
Lemma cs_inj x y z x' y' z' : (0 < x + y + z)%nat -> (x + y + z = x' + y' + z')%nat -> eq3 (cs (x, y, z)) (cs (x', y', z')) ->
  x = x' /\ y = y' /\ z = z'.
Proof.
  intros H0 HS [Ex [Ey Ez]]. unfold cs in *. cbn [fst snd] in *.
  pose proof (r2_pos x y z H0) as P. pose proof (r2_pos x' y' z' ltac:(lia)) as P'.
  assert (M : forall a b, sq a / r2 (x, y, z) == sq b / r2 (x', y', z') -> sq a * r2 (x', y', z') == sq b * r2 (x, y, z)).
  { intros a b E. setoid_replace (sq a) with (sq a / r2 (x, y, z) * r2 (x, y, z)) by (field; lra). rewrite E. field. lra. }
  apply M in Ex, Ey, Ez. clear M.
  assert (Z1 : forall a b, sq a * r2 (x', y', z') == sq b * r2 (x, y, z) ->
    (Z.of_nat a * Z.of_nat a * (Z.of_nat x' * Z.of_nat x' + Z.of_nat y' * Z.of_nat y' + Z.of_nat z' * Z.of_nat z') =
     Z.of_nat b * Z.of_nat b * (Z.of_nat x * Z.of_nat x + Z.of_nat y * Z.of_nat y + Z.of_nat z * Z.of_nat z))%Z).
  { intros a b E. unfold sq, r2 in E. unfold sq in E. rewrite <- !inject_Z_mult, <- !inject_Z_plus, <- !inject_Z_mult in E.
    apply (proj1 (inject_Z_injective _ _)) in E. exact E. }
  apply Z1 in Ex, Ey, Ez. clear Z1 P P'.
  set (R' := (Z.of_nat x' * Z.of_nat x' + Z.of_nat y' * Z.of_nat y' + Z.of_nat z' * Z.of_nat z')%Z) in *.
  set (R := (Z.of_nat x * Z.of_nat x + Z.of_nat y * Z.of_nat y + Z.of_nat z * Z.of_nat z)%Z) in *.
  assert (PR : (0 < R)%Z) by (apply sum_sq_pos; lia).
  assert (PR' : (0 < R')%Z) by (apply sum_sq_pos; lia).
  assert (C : forall a b a' b', (Z.of_nat a * Z.of_nat a * R' = Z.of_nat a' * Z.of_nat a' * R)%Z -> (Z.of_nat b * Z.of_nat b * R' = Z.of_nat b' * Z.of_nat b' * R)%Z ->
    (Z.of_nat a * Z.of_nat b' = Z.of_nat a' * Z.of_nat b)%Z).
  { intros a b a' b' Ea Eb.
    assert (S : ((Z.of_nat a * Z.of_nat b') * (Z.of_nat a * Z.of_nat b') = (Z.of_nat a' * Z.of_nat b) * (Z.of_nat a' * Z.of_nat b))%Z).
    { apply (Z.mul_reg_r _ _ (R * R')%Z); [apply Z.neq_mul_0; lia|].
      transitivity ((Z.of_nat a * Z.of_nat a * R') * (Z.of_nat b' * Z.of_nat b' * R))%Z; [ring|].
      rewrite Ea, <- Eb. ring. }
    apply square_eq; auto; apply Z.mul_nonneg_nonneg; lia. }
  pose proof (C x y x' y' Ex Ey) as Cxy. pose proof (C x z x' z' Ex Ez) as Cxz. pose proof (C y z y' z' Ey Ez) as Cyz.
  set (n := (Z.of_nat x + Z.of_nat y + Z.of_nat z)%Z).
  assert (N : n = (Z.of_nat x' + Z.of_nat y' + Z.of_nat z')%Z) by (unfold n; lia). assert (N0 : (0 < n)%Z) by (unfold n; lia).
  assert (X : (Z.of_nat x * n = Z.of_nat x' * n)%Z) by (rewrite N at 1; unfold n; rewrite !Z.mul_add_distr_l; lia).
  assert (Y : (Z.of_nat y * n = Z.of_nat y' * n)%Z) by (rewrite N at 1; unfold n; rewrite !Z.mul_add_distr_l; lia).
  apply Z.mul_reg_r in X; [|lia]. apply Z.mul_reg_r in Y; [|lia]. lia.
Qed.

Lemma cosine_distinct nt i j d : (1 <= nt)%nat -> (i < n_pts nt)%nat -> (j < n_pts nt)%nat ->
  eq3 (nth i (cosine_squares nt) d) (nth j (cosine_squares nt) d) -> i = j.
Proof.
  intros Hn Hi Hj E. destruct (point_onto nt i Hi) as [r [c [Hr [Hc <-]]]]. destruct (point_onto nt j Hj) as [r' [c' [Hr' [Hc' <-]]]].
  assert (E' : eq3 (cs ((nt - c - r)%nat, c, r)) (cs ((nt - c' - r')%nat, c', r'))).
  { eapply eq3_trans; [apply eq3_sym, cosine_nth; auto|]. eapply eq3_trans; [apply E|]. apply cosine_nth; auto. }
  apply cs_inj in E'; try lia. destruct E' as [_ [-> ->]]. auto.
Qed.

(** ** Orientation count *)
Lemma trunc_Z z : trunc (zq z) = z.
Proof. unfold trunc, zq. simpl. apply Z.quot_1_r. Qed.
Lemma orientations_count n v : get_orientations_count n v = Z.of_nat (total_orientations n v).
Proof.
  assert (H : (2 * octant_orientations n = (n + 1) * (n + 2))%nat).
  { unfold octant_orientations. change ((n + 1) * (n + 2) / 2)%nat with (n_pts n). rewrite n_pts_T, T_twice. lia. }
  unfold get_orientations_count. set (vol := match v with Octant => 1%Z | Hemisphere => 4%Z end).
  assert (E : inject_Z (vol * (Z.of_nat n + 1) * (Z.of_nat n + 2)) / 2 == zq (Z.of_nat (total_orientations n v))).
  { replace (vol * (Z.of_nat n + 1) * (Z.of_nat n + 2))%Z with (Z.of_nat (total_orientations n v) * 2)%Z.
    - rewrite inject_Z_mult. unfold zq. change (inject_Z 2) with (2 # 1). field.
    - unfold vol, total_orientations. destruct v; lia. }
  rewrite E. apply trunc_Z.
Qed.

(** ** Totals *)
Lemma opt_concat_some {A} (l : list (option (list A))) w : opt_concat l = Some w ->
  exists ls, l = map Some ls /\ w = concat ls.
Proof.
  revert w. induction l as [|x l IH]; intros w H; simpl in H.
  - injection H as <-. exists []. auto.
  - destruct x as [a|]; [|discriminate]. destruct (opt_concat l) as [b|]; [|discriminate]. injection H as <-.
    destruct (IH b eq_refl) as [ls [-> ->]]. exists (a :: ls). auto.
Qed.
Lemma total_concat ls points : total (concat ls) points == qsum (map (fun w => total w points) ls).
Proof.
  induction ls as [|w ls IH]; simpl.
  - unfold total. simpl. apply qsum_zero. reflexivity.
  - rewrite total_app, IH. reflexivity.
Qed.
Lemma total_opt_concat l w points (f : option writes -> Q) :
  opt_concat l = Some w -> (forall o, In o l -> forall v, o = Some v -> total v points == f o) -> total w points == qsum (map f l).
Proof.
  intros H Hf. destruct (opt_concat_some _ _ H) as [ls [-> ->]]. rewrite total_concat, map_map. apply qsum_ext.
  intros v Hv. apply (Hf (Some v)); auto. apply in_map. auto.
Qed.


Lemma opt_concat_app {A} (a b : list (option (list A))) w : opt_concat (a ++ b) = Some w ->
  exists x y, opt_concat a = Some x /\ opt_concat b = Some y /\ w = x ++ y.
Proof.
  revert w. induction a as [|o a IH]; intros w H; simpl in *; [exists [], w; auto|].
  destruct o as [u|]; [|discriminate]. destruct (opt_concat (a ++ b)) as [v|]; [|discriminate]. injection H as <-.
  destruct (IH v eq_refl) as [x [y [-> [-> ->]]]]. exists (u ++ x), y. rewrite app_assoc. auto.
Qed.

Definition pattern_tri (nt n_oct nsb : nat) (amps : nat -> Q) : Q :=
  qsum (map (fun i => qsum (map (fun j => qsum (map (tri_amp (fun p => amps (i * (n_oct * n_pts nt) + j * n_pts nt + p)%nat)) (grid_tris nt))) (seq 0 n_oct))) (seq 0 nsb)).
Lemma averaging_total nt n_oct nsb offset_0 vr freq norm sb count w :
  averaging_1d nt n_oct nsb offset_0 vr freq norm sb count = Some w ->
  (forall i, (i < nsb)%nat -> in_window ((if is_delta nt (n_pts nt) freq then offset_0 + freq 0%nat else offset_0) + vr i) count = true) ->
  (if is_delta nt (n_pts nt) freq
   then forall i, (i < nsb)%nat -> interior (offset_0 + freq 0%nat + vr i) count
   else forall i p, (i < nsb)%nat -> (p < n_oct * n_pts nt)%nat -> 0 <= freq p + (offset_0 + vr i) /\ freq p + (offset_0 + vr i) < zq count) ->
  total w count == pattern_tri nt n_oct nsb (amps_1d nsb (n_pts nt) norm sb).
Proof.
  unfold averaging_1d, pattern_tri. set (amps := amps_1d nsb (n_pts nt) norm sb). intros H HW HF.
  assert (G : forall l w, (forall i, In i l -> (i < nsb)%nat) ->
    opt_concat (flat_map (fun i =>
      if in_window ((if is_delta nt (n_pts nt) freq then offset_0 + freq 0%nat else offset_0) + vr i) count
      then map (fun j => if is_delta nt (n_pts nt) freq
         then octahedron_delta nt ((if is_delta nt (n_pts nt) freq then offset_0 + freq 0%nat else offset_0) + vr i) (fun p => amps (i * (n_oct * n_pts nt) + j * n_pts nt + p)%nat) count
         else octahedron_interpolation nt (fun p => freq (j * n_pts nt + p)%nat + ((if is_delta nt (n_pts nt) freq then offset_0 + freq 0%nat else offset_0) + vr i)) (fun p => amps (i * (n_oct * n_pts nt) + j * n_pts nt + p)%nat) count)
         (seq 0 n_oct) else []) l) = Some w ->
    total w count == qsum (map (fun i => qsum (map (fun j => qsum (map (tri_amp (fun p => amps (i * (n_oct * n_pts nt) + j * n_pts nt + p)%nat)) (grid_tris nt))) (seq 0 n_oct))) l)).
  2:{ apply (G (seq 0 nsb)); auto. intros i Hi. apply in_seq in Hi. lia. }
  clear H w. induction l as [|i l IH]; intros w Hl E.
  { simpl in E. injection E as <-. simpl. unfold total. simpl. apply qsum_zero. reflexivity. }
  cbn [flat_map] in E. apply opt_concat_app in E. destruct E as [x [y [Ex [Ey ->]]]].
  rewrite total_app. rewrite (IH y); auto; [|intros; apply Hl; simpl; auto]. cbn [map]. unfold qsum at 4. cbn [fold_right].
  apply Qplus_comp; [|reflexivity].
  assert (Hi : (i < nsb)%nat) by (apply Hl; simpl; auto). rewrite HW in Ex by auto. clear IH Ey y HW.
  assert (S : forall js x, (forall j, In j js -> (j < n_oct)%nat) ->
    opt_concat (map (fun j => if is_delta nt (n_pts nt) freq
         then octahedron_delta nt ((if is_delta nt (n_pts nt) freq then offset_0 + freq 0%nat else offset_0) + vr i) (fun p => amps (i * (n_oct * n_pts nt) + j * n_pts nt + p)%nat) count
         else octahedron_interpolation nt (fun p => freq (j * n_pts nt + p)%nat + ((if is_delta nt (n_pts nt) freq then offset_0 + freq 0%nat else offset_0) + vr i)) (fun p => amps (i * (n_oct * n_pts nt) + j * n_pts nt + p)%nat) count) js) = Some x ->
    total x count == qsum (map (fun j => qsum (map (tri_amp (fun p => amps (i * (n_oct * n_pts nt) + j * n_pts nt + p)%nat)) (grid_tris nt))) js)).
  2:{ apply (S (seq 0 n_oct)); auto. intros j Hj. apply in_seq in Hj. lia. }
  clear Ex x. induction js as [|j js IHj]; intros x Hjs Ex.
  { simpl in Ex. injection Ex as <-. unfold total. simpl. apply qsum_zero. reflexivity. }
  change (map ?f (j :: js)) with ([f j] ++ map f js) in Ex at 1. apply opt_concat_app in Ex. destruct Ex as [u [v [Eu [Ev ->]]]].
  rewrite total_app, (IHj v); auto; [|intros; apply Hjs; simpl; auto]. cbn [map]. unfold qsum at 3. cbn [fold_right].
  apply Qplus_comp; [|reflexivity]. assert (Hj : (j < n_oct)%nat) by (apply Hjs; simpl; auto).
  cbn [opt_concat] in Eu. destruct (is_delta nt (n_pts nt) freq).
  - destruct (octahedron_delta _ _ _ _) as [z|] eqn:Z; [|discriminate]. injection Eu as <-. rewrite app_nil_r.
    destruct (HF i Hi). apply (octahedron_delta_total nt _ _ _ _ Z); auto.
  - destruct (octahedron_interpolation _ _ _ _) as [z|] eqn:Z; [|discriminate]. injection Eu as <-. rewrite app_nil_r.
    apply (octahedron_interpolation_total nt _ _ _ _ Z). intros p Hp. apply HF; auto. nia.
Qed.

(** With one sideband and the plan's weights, the pattern amplitude is the triangle sum of the scheme's weights,
    whatever the number of octants. *)
Lemma tri_amp_ext f g t nt : In t (grid_tris nt) -> (forall p, (p < n_pts nt)%nat -> f p == g p) -> tri_amp f t == tri_amp g t.
Proof.
  intros Ht H. apply grid_in in Ht. destruct Ht as [r [c [Hr [[Hc ->]|[Hc ->]]]]]; unfold up, down, tri_amp; rewrite !H; try reflexivity; apply point_bound; lia.
Qed.
Lemma qsum_const {A} (l : list A) q : qsum (map (fun _ => q) l) == inject_Z (Z.of_nat (List.length l)) * q.
Proof.
  induction l as [|x l IH]; [simpl; ring|]. cbn [map qsum fold_right List.length]. fold (qsum (map (fun _ : A => q) l)). rewrite IH.
  rewrite Nat2Z.inj_succ. unfold Z.succ. rewrite inject_Z_plus. ring.
Qed.
Lemma pattern_static nt n_oct w sb : (1 <= n_oct)%nat ->
  pattern_tri nt n_oct 1 (amps_1d 1 (n_pts nt) (norm_amplitudes 1 n_oct w) sb) == qsum (map (tri_amp w) (grid_tris nt)).
Proof.
  intros H. unfold pattern_tri. cbn [seq map]. unfold qsum at 1. cbn [fold_right].
  assert (NP : (0 < n_pts nt)%nat) by (pose proof (point_bound nt 0 0 ltac:(lia) ltac:(lia)); lia).
  rewrite (qsum_ext _ (fun _ => (1 / inject_Z (Z.of_nat n_oct)) * qsum (map (tri_amp w) (grid_tris nt)))).
  - rewrite qsum_const, seq_length. field.
    intros E. change 0 with (inject_Z 0) in E. apply (proj1 (inject_Z_injective _ _)) in E. lia.
  - intros j _. rewrite <- qsum_scale. apply qsum_ext. intros t Ht.
    transitivity (tri_amp (fun p => 1 / inject_Z (Z.of_nat n_oct) * w p) t).
    + apply (tri_amp_ext _ _ t nt Ht). intros p Hp. unfold amps_1d, norm_amplitudes.
      replace ((0 * (n_oct * n_pts nt) + j * n_pts nt + p) mod n_pts nt)%nat with p.
      * replace (1 * 1 * n_oct)%nat with n_oct by lia. ring.
      * rewrite Nat.mul_0_l, Nat.add_0_l, Nat.add_comm, Nat.mod_add by lia. rewrite Nat.mod_small; auto.
    + destruct t as [[a b] c]. unfold tri_amp. ring.
Qed.

(** ** The window at the level of sidebands *)
Lemma deposit_concat ls k : deposit (concat ls) k == qsum (map (fun w => deposit w k) ls).
Proof. induction ls as [|w ls IH]; simpl; [reflexivity|]. rewrite deposit_app, IH. reflexivity. Qed.
Lemma octahedron_window nt freq amp n n' k w w' : (0 <= k < n)%Z -> (k < n')%Z ->
  octahedron_interpolation nt freq amp n = Some w -> octahedron_interpolation nt freq amp n' = Some w' -> deposit w k == deposit w' k.
Proof.
  intros H H'. unfold octahedron_interpolation. destruct (triangles nt) as [ts|]; [|discriminate]. intros E E'. injection E as <-. injection E' as <-.
  induction ts as [|[[a b] c] ts IH]; [reflexivity|]. cbn [flat_map]. rewrite !deposit_app, IH. rewrite (triangle_right_end _ _ _ _ n n'); auto. reflexivity.
Qed.
Lemma averaging_window nt n_oct nsb offset_0 vr freq norm sb n n' k w w' : (0 <= k < n)%Z -> (n <= n')%Z ->
  is_delta nt (n_pts nt) freq = false ->
  (forall i, (i < nsb)%nat -> in_window (offset_0 + vr i) n = true) ->
  averaging_1d nt n_oct nsb offset_0 vr freq norm sb n = Some w ->
  averaging_1d nt n_oct nsb offset_0 vr freq norm sb n' = Some w' -> deposit w k == deposit w' k.
Proof.
  intros Hk Hn HD HW. unfold averaging_1d. rewrite HD. cbn zeta. set (amps := amps_1d nsb (n_pts nt) norm sb).
  assert (L : forall i, In i (seq 0 nsb) -> (i < nsb)%nat) by (intros i Hi; apply in_seq in Hi; lia).
  revert w w' L. induction (seq 0 nsb) as [|i l IH]; intros w w' L E E'.
  { simpl in E, E'. injection E as <-. injection E' as <-. reflexivity. }
  cbn [flat_map] in E, E'. apply opt_concat_app in E. destruct E as [x [y [Ex [Ey ->]]]].
  apply opt_concat_app in E'. destruct E' as [x' [y' [Ex' [Ey' ->]]]]. rewrite !deposit_app.
  apply Qplus_comp; [|apply (IH y y'); auto; intros; apply L; simpl; auto]. clear IH Ey Ey' y y'.
  assert (Hi : (i < nsb)%nat) by (apply L; simpl; auto).
  assert (W' : in_window (offset_0 + vr i) n' = true).
  { specialize (HW i Hi). unfold in_window in *. apply andb_true_iff in HW. destruct HW as [A B]. rewrite A. apply Z.leb_le in B. cbn [andb]. apply Z.leb_le. lia. }
  rewrite HW in Ex by auto. rewrite W' in Ex'. revert x x' Ex Ex'.
  induction (seq 0 n_oct) as [|j js IHj]; intros x x' Ex Ex'.
  { simpl in Ex, Ex'. injection Ex as <-. injection Ex' as <-. reflexivity. }
  change (map ?f (j :: js)) with ([f j] ++ map f js) in Ex, Ex' at 1.
  apply opt_concat_app in Ex. destruct Ex as [u [v [Eu [Ev ->]]]]. apply opt_concat_app in Ex'. destruct Ex' as [u' [v' [Eu' [Ev' ->]]]].
  rewrite !deposit_app. apply Qplus_comp; [|apply (IHj v v'); auto].
  cbn [opt_concat] in Eu, Eu'.
  destruct (octahedron_interpolation nt _ _ n) as [z|] eqn:Z; [|discriminate]. destruct (octahedron_interpolation nt _ _ n') as [z'|] eqn:Z'; [|discriminate].
  injection Eu as <-. injection Eu' as <-. rewrite !app_nil_r. eapply octahedron_window with (n := n) (n' := n'); [exact Hk|lia|exact Z|exact Z'].
Qed.

Lemma vertex_sums w l : qsum (map (tri_amp w) l) == qsum (map (vertex_sum w) l).
Proof. induction l as [|[[a b] c] l IH]; [reflexivity|]. cbn [map qsum fold_right]. unfold qsum in *. cbn. rewrite IH. ring. Qed.
Lemma pattern_eq nt n_oct nsb amps amps' : (forall k, amps k == amps' k) -> pattern_tri nt n_oct nsb amps == pattern_amplitude nt n_oct nsb amps'.
Proof.
  intros H. unfold pattern_tri, pattern_amplitude. apply qsum_ext. intros i _. apply qsum_ext. intros j _. rewrite vertex_sums.
  apply qsum_ext. intros [[a b] c] _. unfold vertex_sum. rewrite !H. reflexivity.
Qed.
