(** Proofs about the powder average: the symmetry of the grid. *)
From Coq Require Import Reals QArith Qreals List ZArith Lra Lia Bool Psatz.
From Verif Require Import InterpModel InterpSpec PowderModel InterpProofs WalkProofs PowderProofs DftModel DftProofs WignerNorm WignerProofs FreqSpec PhysSpec AverageSpec.
Import ListNotations.
Open Scope R_scope.

(** ** Sums over triples *)
(** Over the triples of naturals with sum N - 1. *)
Definition tri3 (N : nat) (F : nat -> nat -> nat -> R) : R := rsum N (fun r => rsum (N - r) (fun c => F (N - 1 - r - c)%nat c r)).
Lemma tri3_ext N F G : (forall x y z, (x + y + z + 1 = N)%nat -> F x y z = G x y z) -> tri3 N F = tri3 N G.
Proof. intros H. apply rsum_ext. intros r Hr. apply rsum_ext. intros c Hc. apply H. lia. Qed.
Lemma tri3_xy N F : tri3 N F = tri3 N (fun x y z => F y x z).
Proof.
  apply rsum_ext. intros r Hr. rewrite rsum_rev. apply rsum_ext. intros c Hc. f_equal; lia.
Qed.
Lemma rsum_wide N k f : (k <= N)%nat -> rsum k f = rsum N (fun c => if Nat.ltb c k then f c else 0).
Proof.
  intros H. induction N as [|N IH]; cbn [rsum].
  - replace k with O by lia. reflexivity.
  - destruct (Nat.eq_dec k (S N)) as [->|NE].
    + cbn [rsum]. destruct (Nat.ltb_spec N (S N)); [|lia]. f_equal. apply rsum_ext. intros c Hc. destruct (Nat.ltb_spec c (S N)); [reflexivity|lia].
    + rewrite IH by lia. destruct (Nat.ltb_spec N k); [lia|]. ring.
Qed.
Lemma tri3_yz N F : tri3 N F = tri3 N (fun x y z => F x z y).
Proof.
  unfold tri3. rewrite (rsum_ext N _ (fun r => rsum N (fun c => if Nat.ltb c (N - r) then F (N - 1 - r - c)%nat c r else 0))) by (intros; apply rsum_wide; lia).
  rewrite rsum_swap. apply rsum_ext. intros r Hr. rewrite (rsum_wide N (N - r)) by lia. apply rsum_ext. intros c Hc.
  destruct (Nat.ltb_spec r (N - c)), (Nat.ltb_spec c (N - r)); try lia; auto. f_equal. lia.
Qed.
Lemma tri3_plus N F G : tri3 N (fun x y z => F x y z + G x y z) = tri3 N F + tri3 N G.
Proof. unfold tri3. rewrite <- rsum_plus. apply rsum_ext. intros. apply rsum_plus. Qed.
Lemma tri3_scal N q F : tri3 N (fun x y z => q * F x y z) = q * tri3 N F.
Proof. unfold tri3. rewrite <- rsum_scal. apply rsum_ext. intros. apply rsum_scal. Qed.
Lemma tri3_nonneg N F : (forall x y z, (x + y + z + 1 = N)%nat -> 0 <= F x y z) -> 0 <= tri3 N F.
Proof. intros H. apply rsum_nonneg. intros r Hr. apply rsum_nonneg. intros c Hc. apply H. lia. Qed.
Lemma tri3_abs N F : Rabs (tri3 N F) <= tri3 N (fun x y z => Rabs (F x y z)).
Proof. eapply Rle_trans; [apply rsum_abs|]. apply rsum_le. intros. apply rsum_abs. Qed.
Lemma tri3_le N F G : (forall x y z, (x + y + z + 1 = N)%nat -> F x y z <= G x y z) -> tri3 N F <= tri3 N G.
Proof. intros H. apply rsum_le. intros r Hr. apply rsum_le. intros c Hc. apply H. lia. Qed.

(** ** The triangles as triples *)
(** The number of the grid point (x, y, z). *)
Definition at3 (nt x y z : nat) : nat := point nt z y.
Definition up3 (nt a b c : nat) : tri := (at3 nt (S a) b c, at3 nt a (S b) c, at3 nt a b (S c)).
Definition down3 (nt a b c : nat) : tri := (at3 nt (S a) (S b) c, at3 nt (S a) b (S c), at3 nt a (S b) (S c)).
Lemma fold_app (l r : list R) : fold_right Rplus 0 (l ++ r) = fold_right Rplus 0 l + fold_right Rplus 0 r.
Proof. induction l as [|x l IH]; cbn; [ring|]. rewrite IH. ring. Qed.
Lemma fold_seq g n s : fold_right Rplus 0 (map g (seq s n)) = rsum n (fun i => g (s + i)%nat).
Proof.
  revert s. induction n as [|n IH]; intros s; [reflexivity|]. rewrite seq_S, map_app, fold_app, IH. cbn. rewrite Rplus_0_r. reflexivity.
Qed.
Lemma fold_flat {A} (g : tri -> R) (h : A -> list tri) l : fold_right Rplus 0 (map g (flat_map h l)) = fold_right Rplus 0 (map (fun x => fold_right Rplus 0 (map g (h x))) l).
Proof. induction l as [|x l IH]; [reflexivity|]. cbn [flat_map map fold_right]. rewrite map_app, fold_app, IH. reflexivity. Qed.
Lemma row_sum g nt r : fold_right Rplus 0 (map g (row_tris nt r)) = rsum (nt - r) (fun c => g (up nt r c)) + rsum (nt - 1 - r) (fun c => g (down nt r c)).
Proof.
  unfold row_tris. rewrite fold_flat, fold_seq. rewrite (rsum_wide (nt - r) (nt - 1 - r)) by lia. rewrite <- rsum_plus. apply rsum_ext. intros c Hc. cbn [Nat.add].
  destruct (Nat.ltb_spec (c + 1) (nt - r)), (Nat.ltb_spec c (nt - 1 - r)); try lia; cbn [map fold_right]; ring.
Qed.
Lemma triangles_sum nt g : over_triangles nt g = tri3 nt (fun a b c => g (up3 nt a b c)) + tri3 (nt - 1) (fun a b c => g (down3 nt a b c)).
Proof.
  unfold over_triangles, grid_tris. rewrite fold_flat, fold_seq. cbn [Nat.add]. rewrite (rsum_ext nt _ (fun r => rsum (nt - r) (fun c => g (up nt r c)) + rsum (nt - 1 - r) (fun c => g (down nt r c)))) by (intros; apply row_sum).
  rewrite rsum_plus. f_equal.
  - apply rsum_ext. intros r Hr. apply rsum_ext. intros c Hc. unfold up3, up, at3. rewrite !Nat.add_1_r. reflexivity.
  - unfold tri3. destruct nt as [|n]; [reflexivity|]. cbn [rsum]. replace (S n - 1 - n)%nat with O by lia. cbn [rsum]. rewrite Rplus_0_r. replace (S n - 1)%nat with n by lia.
    apply rsum_ext. intros r Hr. apply rsum_ext. intros c Hc. unfold down3, down, at3. rewrite !Nat.add_1_r. reflexivity.
Qed.

(** ** Weights and cosines at the grid points *)
Definition N2 (x y z : nat) : R := INR x * INR x + INR y * INR y + INR z * INR z.
Definition W3 (nt x y z : nat) : R := INR nt / (N2 x y z * sqrt (N2 x y z)).
Lemma N2_pos x y z : (1 <= x + y + z)%nat -> 0 < N2 x y z.
Proof.
  intros H. unfold N2. pose proof (pos_INR x). pose proof (pos_INR y). pose proof (pos_INR z).
  assert (1 <= INR x + INR y + INR z) by (rewrite <- !plus_INR; apply (le_INR 1); auto). pose proof (pow2_ge_0 (INR x - INR y)). pose proof (pow2_ge_0 (INR x - INR z)). pose proof (pow2_ge_0 (INR y - INR z)). nra.
Qed.
Lemma amplitude_at nt x y z : (1 <= nt)%nat -> (x + y + z = nt)%nat -> nth (at3 nt x y z) (amplitudes nt) 0 = W3 nt x y z.
Proof.
  intros N E. unfold amplitudes, at3. destruct (Nat.eq_dec z nt) as [->|NZ].
  - assert (x = 0 /\ y = 0)%nat as [-> ->] by lia. unfold point. rewrite Nat.add_0_r.
    rewrite app_nth2 by (rewrite map_length, face_length; lia). rewrite map_length, face_length, Nat.sub_diag. cbn [nth]. unfold W3, N2. cbn [INR].
    assert (P : 0 < INR nt) by (apply lt_0_INR; lia). replace (0 * 0 + 0 * 0 + INR nt * INR nt) with (INR nt * INR nt) by ring. rewrite sqrt_square by lra. field. lra.
  - assert (L : (point nt z y < length (face nt))%nat).
    { rewrite face_length. unfold point. pose proof (row_start_mono nt (S z) nt ltac:(lia)) as M. cbn [row_start] in M. lia. }
    rewrite app_nth1 by (rewrite map_length; exact L). set (h := fun p : nat * nat * nat => INR nt / (rr2 p * sqrt (rr2 p))).
    rewrite (nth_indep _ 0 (h (0, 0, 0)%nat)) by (rewrite map_length; exact L). rewrite map_nth, face_nth by lia. replace (nt - y - z)%nat with x by lia. reflexivity.
Qed.
Lemma Q2R_sq n : Q2R (sq n) = INR n * INR n.
Proof. unfold sq. rewrite Q2R_mult. unfold Q2R, inject_Z. cbn. rewrite <- INR_IZR_INZ. field. Qed.
Lemma cosine_at nt x y z i : (1 <= nt)%nat -> (x + y + z = nt)%nat -> cosine nt (at3 nt x y z) i = INR (match i with X => x | Y => y | Z => z end) / sqrt (N2 x y z).
Proof.
  intros N E. unfold cosine, at3. pose proof (cosine_nth nt z y (0, 0, 0)%Q N ltac:(lia) ltac:(lia)) as H. cbv zeta in H. replace (nt - y - z)%nat with x in H by lia.
  destruct (nth (point nt z y) (cosine_squares nt) (0, 0, 0)%Q) as [[x2 y2] z2]. destruct H as (H1 & H2 & H3). unfold cs, r2 in H1, H2, H3. cbn [fst snd] in H1, H2, H3. apply Qeq_eqR in H1, H2, H3.
  pose proof (N2_pos x y z ltac:(lia)) as P. assert (R2 : Q2R (sq x + sq y + sq z) = N2 x y z) by (rewrite !Q2R_plus, !Q2R_sq; reflexivity).
  assert (NZ : ~ (sq x + sq y + sq z == 0)%Q) by (intros Z0; apply Qeq_eqR in Z0; rewrite R2 in Z0; replace (Q2R 0) with 0 in Z0 by (unfold Q2R; cbn; field); lra).
  rewrite Q2R_div, R2, Q2R_sq in H1, H2, H3 by exact NZ.
  destruct i; [rewrite H1|rewrite H2|rewrite H3]; rewrite sqrt_div_alt by exact P; rewrite sqrt_square by apply pos_INR; reflexivity.
Qed.

(** ** The symmetric sum *)
Definition Up (nt : nat) (psi : nat -> nat -> nat -> R) (a b c : nat) : R :=
  (W3 nt (S a) b c + W3 nt a (S b) c + W3 nt a b (S c)) * ((psi (S a) b c + psi a (S b) c + psi a b (S c)) / 3).
Definition Down (nt : nat) (psi : nat -> nat -> nat -> R) (a b c : nat) : R :=
  (W3 nt (S a) (S b) c + W3 nt (S a) b (S c) + W3 nt a (S b) (S c)) * ((psi (S a) (S b) c + psi (S a) b (S c) + psi a (S b) (S c)) / 3).
Definition S3 (nt : nat) (psi : nat -> nat -> nat -> R) : R := tri3 nt (Up nt psi) + tri3 (nt - 1) (Down nt psi).
Lemma sum_at nt f psi : (1 <= nt)%nat -> (forall x y z, (x + y + z = nt)%nat -> f (at3 nt x y z) = psi x y z) ->
  over_triangles nt (fun t => weight_of nt t * mean_of f t) = S3 nt psi.
Proof.
  intros N H. rewrite triangles_sum. unfold S3. f_equal; apply tri3_ext; intros x y z E; unfold up3, down3, weight_of, mean_of, Up, Down; rewrite !amplitude_at, !H by lia; reflexivity.
Qed.
Lemma S3_ext nt f g : (1 <= nt)%nat -> (forall x y z, (x + y + z = nt)%nat -> f x y z = g x y z) -> S3 nt f = S3 nt g.
Proof. intros N H. unfold S3. f_equal; apply tri3_ext; intros x y z E; unfold Up, Down; rewrite !H by lia; reflexivity. Qed.
Lemma S3_plus nt f g : S3 nt (fun x y z => f x y z + g x y z) = S3 nt f + S3 nt g.
Proof.
  unfold S3. rewrite (tri3_ext nt (Up nt (fun x y z => f x y z + g x y z)) (fun a b c => Up nt f a b c + Up nt g a b c)) by (intros; unfold Up; field).
  rewrite (tri3_ext (nt - 1) (Down nt (fun x y z => f x y z + g x y z)) (fun a b c => Down nt f a b c + Down nt g a b c)) by (intros; unfold Down; field).
  rewrite !tri3_plus. ring.
Qed.
Lemma S3_scal nt q f : S3 nt (fun x y z => q * f x y z) = q * S3 nt f.
Proof.
  unfold S3. rewrite (tri3_ext nt (Up nt (fun x y z => q * f x y z)) (fun a b c => q * Up nt f a b c)) by (intros; unfold Up; field).
  rewrite (tri3_ext (nt - 1) (Down nt (fun x y z => q * f x y z)) (fun a b c => q * Down nt f a b c)) by (intros; unfold Down; field).
  rewrite !tri3_scal. ring.
Qed.
Lemma W3_xy nt x y z : W3 nt x y z = W3 nt y x z.
Proof. unfold W3. replace (N2 x y z) with (N2 y x z) by (unfold N2; ring). reflexivity. Qed.
Lemma W3_yz nt x y z : W3 nt x y z = W3 nt x z y.
Proof. unfold W3. replace (N2 x y z) with (N2 x z y) by (unfold N2; ring). reflexivity. Qed.
Lemma S3_xy nt psi : S3 nt psi = S3 nt (fun x y z => psi y x z).
Proof.
  unfold S3. rewrite (tri3_xy nt), (tri3_xy (nt - 1)). f_equal; apply tri3_ext; intros x y z _; unfold Up, Down.
  - rewrite (W3_xy nt (S y) x z), (W3_xy nt y (S x) z), (W3_xy nt y x (S z)). field.
  - rewrite (W3_xy nt (S y) (S x) z), (W3_xy nt (S y) x (S z)), (W3_xy nt y (S x) (S z)). field.
Qed.
Lemma S3_yz nt psi : S3 nt psi = S3 nt (fun x y z => psi x z y).
Proof.
  unfold S3. rewrite (tri3_yz nt), (tri3_yz (nt - 1)). f_equal; apply tri3_ext; intros x y z _; unfold Up, Down.
  - rewrite (W3_yz nt (S x) z y), (W3_yz nt x (S z) y), (W3_yz nt x z (S y)). field.
  - rewrite (W3_yz nt (S x) (S z) y), (W3_yz nt (S x) z (S y)), (W3_yz nt x (S z) (S y)). field.
Qed.
(** The squares of the cosines have the same sum, a third of the total. *)
Definition c2 (i : axis) (x y z : nat) : R := INR (match i with X => x | Y => y | Z => z end) * INR (match i with X => x | Y => y | Z => z end) / N2 x y z.
Lemma squares_third nt i : (1 <= nt)%nat -> S3 nt (c2 i) = S3 nt (fun _ _ _ => 1) / 3.
Proof.
  intros N. assert (XY : S3 nt (c2 X) = S3 nt (c2 Y)).
  { rewrite S3_xy. apply S3_ext; auto. intros x y z _. unfold c2. replace (N2 y x z) with (N2 x y z) by (unfold N2; ring). reflexivity. }
  assert (YZ : S3 nt (c2 Y) = S3 nt (c2 Z)).
  { rewrite S3_yz. apply S3_ext; auto. intros x y z _. unfold c2. replace (N2 x z y) with (N2 x y z) by (unfold N2; ring). reflexivity. }
  assert (T : S3 nt (fun _ _ _ => 1) = S3 nt (c2 X) + S3 nt (c2 Y) + S3 nt (c2 Z)).
  { rewrite <- !S3_plus. apply S3_ext; auto. intros x y z E. unfold c2. pose proof (N2_pos x y z ltac:(lia)). unfold N2 in *. field. lra. }
  destruct i; lra.
Qed.
Lemma point_triple nt p : (1 <= nt)%nat -> (p < n_pts nt)%nat -> exists x y z, (x + y + z = nt)%nat /\ p = at3 nt x y z.
Proof. intros N H. destruct (point_onto nt p H) as (r & c & R & C & E). exists (nt - r - c)%nat, c, r. split; [lia|]. unfold at3. auto. Qed.
Lemma at3_bound nt x y z : (x + y + z = nt)%nat -> (at3 nt x y z < n_pts nt)%nat.
Proof. intros H. apply point_bound; lia. Qed.

(** ** Directions of the octants *)
Lemma towards_at nt alpha beta j p : (p < n_pts nt)%nat -> towards nt alpha beta (j * n_pts nt + p) = direction (alpha p - INR j * (PI / 2)) (beta p).
Proof.
  intros H. unfold towards, orientation. assert (D : ((j * n_pts nt + p) / n_pts nt = j)%nat) by (rewrite Nat.div_add_l by lia; rewrite Nat.div_small by lia; lia).
  assert (M : ((j * n_pts nt + p) mod n_pts nt = p)%nat) by (rewrite Nat.add_comm, Nat.mod_add by lia; apply Nat.mod_small; lia). rewrite D, M. reflexivity.
Qed.
Lemma quarter a : (cos (a - INR 0 * (PI / 2)) = cos a /\ sin (a - INR 0 * (PI / 2)) = sin a) /\ (cos (a - INR 1 * (PI / 2)) = sin a /\ sin (a - INR 1 * (PI / 2)) = - cos a) /\
  (cos (a - INR 2 * (PI / 2)) = - cos a /\ sin (a - INR 2 * (PI / 2)) = - sin a) /\ (cos (a - INR 3 * (PI / 2)) = - sin a /\ sin (a - INR 3 * (PI / 2)) = cos a).
Proof.
  assert (C3 : cos (3 * (PI / 2)) = 0 /\ sin (3 * (PI / 2)) = -1) by (rewrite cos_3PI2, sin_3PI2; auto).
  cbn [INR]. replace (1 + 1 + 1) with 3 by ring. replace (1 * (PI / 2)) with (PI / 2) by ring. replace ((1 + 1) * (PI / 2)) with PI by field. replace (0 * (PI / 2)) with 0 by ring.
  destruct C3 as [C3 S3']. replace (3 * (PI / 2)) with (3 * PI / 2) in * by field.
  rewrite !cos_minus, !sin_minus, cos_0, sin_0, cos_PI2, sin_PI2, cos_PI, sin_PI. 
  repeat split; ring [C3 S3'] || (rewrite ?C3, ?S3'; ring).
Qed.
Lemma four_octants T a b : let u := direction a b in
  rsum 4 (fun j => element T (direction (a - INR j * (PI / 2)) b)) = 2 * (T X X + T Y Y) * (u X * u X) + 2 * (T X X + T Y Y) * (u Y * u Y) + 4 * T Z Z * (u Z * u Z).
Proof.
  intros u. destruct (quarter a) as ((A1 & B1) & (A2 & B2) & (A3 & B3) & (A4 & B4)). cbn [rsum]. unfold element, asum, direction. rewrite A1, A2, A3, A4, B1, B2, B3, B4. unfold u, direction. ring.
Qed.
Lemma direction_squares nt alpha beta x y z i : (1 <= nt)%nat -> polar_angles nt alpha beta -> (x + y + z = nt)%nat ->
  direction (alpha (at3 nt x y z)) (beta (at3 nt x y z)) i * direction (alpha (at3 nt x y z)) (beta (at3 nt x y z)) i = c2 i x y z.
Proof.
  intros N P E. rewrite P by (apply at3_bound; auto). rewrite cosine_at by auto. unfold c2. pose proof (N2_pos x y z ltac:(lia)) as Q. pose proof (sqrt_lt_R0 _ Q). rewrite <- (sqrt_sqrt (N2 x y z)) at 3 by lra. field. lra.
Qed.
Lemma octant_sum nt f psi j : (1 <= nt)%nat -> (forall x y z, (x + y + z = nt)%nat -> f (j * n_pts nt + at3 nt x y z)%nat = psi x y z) ->
  over_triangles nt (fun t => weight_of nt t * mean_of (fun p => f (j * n_pts nt + p)%nat) t) = S3 nt psi.
Proof. intros N H. exact (sum_at nt (fun p => f (j * n_pts nt + p)%nat) psi N H). Qed.
Lemma S3_rsum nt k (psi : nat -> nat -> nat -> nat -> R) : rsum k (fun j => S3 nt (psi j)) = S3 nt (fun x y z => rsum k (fun j => psi j x y z)).
Proof.
  induction k as [|k IH]; cbn [rsum]; [|rewrite IH, <- S3_plus; reflexivity].
  assert (E : S3 nt (fun _ _ _ => 0) = 0 * S3 nt (fun _ _ _ => 0)) by (rewrite <- S3_scal; unfold S3; f_equal; apply tri3_ext; intros; unfold Up, Down; field). rewrite E. ring.
Qed.
Lemma powder_S3 nt k f psi : (1 <= nt)%nat -> (forall j x y z, (j < k)%nat -> (x + y + z = nt)%nat -> f (j * n_pts nt + at3 nt x y z)%nat = psi j x y z) ->
  powder_sum nt k f = S3 nt (fun x y z => rsum k (fun j => psi j x y z)).
Proof. intros N H. unfold powder_sum. rewrite <- S3_rsum. apply rsum_ext. intros j J. apply octant_sum; auto. Qed.
Lemma powder_one nt k : (1 <= nt)%nat -> powder_sum nt k (fun _ => 1) = INR k * S3 nt (fun _ _ _ => 1).
Proof.
  intros N. rewrite (powder_S3 nt k _ (fun _ _ _ _ => 1) N) by auto. rewrite <- S3_scal. apply S3_ext; auto. intros. apply rsum_const.
Qed.
Theorem hemisphere nt alpha beta T : (1 <= nt)%nat -> polar_angles nt alpha beta ->
  powder_sum nt 4 (fun o => element T (towards nt alpha beta o)) = trace T / 3 * powder_sum nt 4 (fun _ => 1).
Proof.
  intros N P. rewrite powder_one by auto.
  rewrite (powder_S3 nt 4 _ (fun j x y z => element T (direction (alpha (at3 nt x y z) - INR j * (PI / 2)) (beta (at3 nt x y z)))) N) by (intros; rewrite towards_at by (apply at3_bound; auto); reflexivity).
  rewrite (S3_ext nt _ (fun x y z => 2 * (T X X + T Y Y) * c2 X x y z + 2 * (T X X + T Y Y) * c2 Y x y z + 4 * T Z Z * c2 Z x y z) N) by (intros; rewrite four_octants, !(direction_squares nt) by auto; reflexivity).
  rewrite !S3_plus, !S3_scal, !squares_third by auto. unfold trace, asum. change (INR 4) with (1 + 1 + 1 + 1). field.
Qed.
Theorem octant_diagonal nt alpha beta T : (1 <= nt)%nat -> polar_angles nt alpha beta -> diagonal T ->
  powder_sum nt 1 (fun o => element T (towards nt alpha beta o)) = trace T / 3 * powder_sum nt 1 (fun _ => 1).
Proof.
  intros N P D. rewrite powder_one by auto.
  rewrite (powder_S3 nt 1 _ (fun j x y z => T X X * c2 X x y z + T Y Y * c2 Y x y z + T Z Z * c2 Z x y z) N).
  - rewrite (S3_ext nt _ (fun x y z => T X X * c2 X x y z + T Y Y * c2 Y x y z + T Z Z * c2 Z x y z) N) by (intros; cbn [rsum]; ring).
    rewrite !S3_plus, !S3_scal, !squares_third by auto. unfold trace, asum. change (INR 1) with 1. field.
  - intros j x y z J E. rewrite towards_at by (apply at3_bound; auto). replace j with O by lia. cbn [INR]. rewrite Rmult_0_l, Rminus_0_r.
    rewrite <- !(direction_squares nt alpha beta x y z) by auto. unfold element, asum.
    rewrite (D X Y), (D X Z), (D Y X), (D Y Z), (D Z X), (D Z Y) by discriminate. ring.
Qed.
(** The total is positive. *)
Lemma W3_pos nt x y z : (1 <= nt)%nat -> (x + y + z = nt)%nat -> 0 < W3 nt x y z.
Proof.
  intros N E. unfold W3. pose proof (N2_pos x y z ltac:(lia)) as P. pose proof (sqrt_lt_R0 _ P). apply Rdiv_lt_0_compat; [apply lt_0_INR; lia|]. apply Rmult_lt_0_compat; auto.
Qed.
Lemma tri3_first N F : (1 <= N)%nat -> (forall x y z, (x + y + z + 1 = N)%nat -> 0 <= F x y z) -> F (N - 1)%nat 0%nat 0%nat <= tri3 N F.
Proof.
  intros HN H. assert (G : forall n f k, (k < n)%nat -> (forall j, (j < n)%nat -> 0 <= f j) -> f k <= rsum n f).
  { clear. induction n as [|n IH]; intros f k K P; [lia|]. cbn [rsum]. destruct (Nat.eq_dec k n) as [->|NE]; [pose proof (rsum_nonneg n f (fun j Hj => P j ltac:(lia))); lra|]. pose proof (IH f k ltac:(lia) (fun j Hj => P j ltac:(lia))). pose proof (P n ltac:(lia)). lra. }
  eapply Rle_trans; [|apply (G N _ O); [lia|]].
  - cbn beta. eapply Rle_trans; [|apply (G (N - 0)%nat _ O); [lia|]]; [cbn beta; replace (N - 1 - 0 - 0)%nat with (N - 1)%nat by lia; lra|]. intros j J. apply H. lia.
  - intros j J. apply rsum_nonneg. intros c C. apply H. lia.
Qed.
Lemma S3_one_pos nt : (1 <= nt)%nat -> 0 < S3 nt (fun _ _ _ => 1).
Proof.
  intros N. unfold S3. assert (U : forall x y z, (x + y + z + 1 = nt)%nat -> 0 < Up nt (fun _ _ _ => 1) x y z).
  { intros x y z E. unfold Up. pose proof (W3_pos nt (S x) y z N ltac:(lia)). pose proof (W3_pos nt x (S y) z N ltac:(lia)). pose proof (W3_pos nt x y (S z) N ltac:(lia)). lra. }
  assert (D : 0 <= tri3 (nt - 1) (Down nt (fun _ _ _ => 1))).
  { apply tri3_nonneg. intros x y z E. unfold Down. pose proof (W3_pos nt (S x) (S y) z N ltac:(lia)). pose proof (W3_pos nt (S x) y (S z) N ltac:(lia)). pose proof (W3_pos nt x (S y) (S z) N ltac:(lia)). lra. }
  pose proof (tri3_first nt (Up nt (fun _ _ _ => 1)) N (fun x y z E => Rlt_le _ _ (U x y z E))). pose proof (U (nt - 1) 0 0 ltac:(lia))%nat. lra.
Qed.
(** Off the diagonal one octant does not average: the product of two cosines is nowhere negative. *)
Lemma octant_xy nt alpha beta T : (2 <= nt)%nat -> polar_angles nt alpha beta -> (forall i j, T i j = match i, j with X, Y | Y, X => 1 | _, _ => 0 end) ->
  0 < powder_sum nt 1 (fun o => element T (towards nt alpha beta o)).
Proof.
  intros N P HT. set (psi := fun x y z : nat => 2 * (INR x * INR y / N2 x y z)).
  assert (PS : forall x y z, (x + y + z = nt)%nat -> 0 <= psi x y z).
  { intros x y z E. unfold psi. pose proof (N2_pos x y z ltac:(lia)). pose proof (pos_INR x). pose proof (pos_INR y). assert (0 <= INR x * INR y / N2 x y z) by (apply Rle_mult_inv_pos; auto; apply Rmult_le_pos; auto). lra. }
  rewrite (powder_S3 nt 1 _ (fun _ => psi) ltac:(lia)).
  2:{ intros j x y z J E. rewrite towards_at by (apply at3_bound; auto). replace j with O by lia. cbn [INR]. rewrite Rmult_0_l, Rminus_0_r.
      assert (EL : forall u, element T u = 2 * (u X * u Y)) by (intros u; unfold element, asum; rewrite !HT; ring). rewrite EL, !P, !cosine_at by (try lia; apply at3_bound; auto).
      unfold psi. pose proof (N2_pos x y z ltac:(lia)) as Q. pose proof (sqrt_lt_R0 _ Q). rewrite <- (sqrt_sqrt (N2 x y z)) at 3 by lra. field. lra. }
  rewrite (S3_ext nt _ psi ltac:(lia)) by (intros; cbn [rsum]; ring). unfold S3.
  assert (U : forall x y z, (x + y + z + 1 = nt)%nat -> 0 <= Up nt psi x y z).
  { intros x y z E. unfold Up. pose proof (W3_pos nt (S x) y z ltac:(lia) ltac:(lia)). pose proof (W3_pos nt x (S y) z ltac:(lia) ltac:(lia)). pose proof (W3_pos nt x y (S z) ltac:(lia) ltac:(lia)).
    pose proof (PS (S x) y z ltac:(lia)). pose proof (PS x (S y) z ltac:(lia)). pose proof (PS x y (S z) ltac:(lia)). apply Rmult_le_pos; lra. }
  assert (D : 0 <= tri3 (nt - 1) (Down nt psi)).
  { apply tri3_nonneg. intros x y z E. unfold Down. pose proof (W3_pos nt (S x) (S y) z ltac:(lia) ltac:(lia)). pose proof (W3_pos nt (S x) y (S z) ltac:(lia) ltac:(lia)). pose proof (W3_pos nt x (S y) (S z) ltac:(lia) ltac:(lia)).
    pose proof (PS (S x) (S y) z ltac:(lia)). pose proof (PS (S x) y (S z) ltac:(lia)). pose proof (PS x (S y) (S z) ltac:(lia)). apply Rmult_le_pos; lra. }
  pose proof (tri3_first nt (Up nt psi) ltac:(lia) U) as F. assert (0 < Up nt psi (nt - 1)%nat 0%nat 0%nat); [|lra].
  unfold Up. pose proof (W3_pos nt (S (nt - 1)) 0 0 ltac:(lia) ltac:(lia)). pose proof (W3_pos nt (nt - 1) 1 0 ltac:(lia) ltac:(lia)). pose proof (W3_pos nt (nt - 1) 0 1 ltac:(lia) ltac:(lia)).
  pose proof (PS (S (nt - 1)) 0 0 ltac:(lia))%nat. pose proof (PS (nt - 1) 0 1 ltac:(lia))%nat.
  assert (0 < psi (nt - 1)%nat 1%nat 0%nat). { unfold psi. pose proof (N2_pos (nt - 1) 1 0 ltac:(lia)). assert (0 < INR (nt - 1)) by (apply lt_0_INR; lia). change (INR 1) with 1. assert (0 < INR (nt - 1) * 1 / N2 (nt - 1) 1 0) by (apply Rdiv_lt_0_compat; lra). lra. }
  apply Rmult_lt_0_compat; lra.
Qed.
