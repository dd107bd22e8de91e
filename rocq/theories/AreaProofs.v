(** Proofs about the area of a triangle inside a rectangle. *)
From Coq Require Import Reals Lra Lia Psatz.
From Coquelicot Require Import Coquelicot.
From Verif Require Import TentReal AreaSpec.
Open Scope R_scope.

(** ** The area is well defined *)
Lemma slice_unique A B C y1 y2 x l l' : slice_length A B C y1 y2 x l -> slice_length A B C y1 y2 x l' -> l = l'.
Proof.
  intros [[E N]|[lo [hi [H [E S]]]]] [[E' N']|[lo' [hi' [H' [E' S']]]]]; subst.
  - reflexivity.
  - exfalso. apply (N lo'). apply S'. lra.
  - exfalso. apply (N' lo). apply S. lra.
  - assert (A1 := proj1 (S' lo) (proj2 (S lo) ltac:(lra))). assert (A2 := proj1 (S' hi) (proj2 (S hi) ltac:(lra))).
    assert (A3 := proj1 (S lo') (proj2 (S' lo') ltac:(lra))). assert (A4 := proj1 (S hi') (proj2 (S' hi') ltac:(lra))). lra.
Qed.
Lemma area_unique A B C x1 x2 y1 y2 a a' : area_within A B C x1 x2 y1 y2 a -> area_within A B C x1 x2 y1 y2 a' -> a = a'.
Proof.
  intros [len [S I]] [len' [S' I']].
  assert (E : is_RInt len' x1 x2 a).
  { apply (is_RInt_ext len); [|exact I]. intros x _. apply (slice_unique A B C y1 y2 x); auto. }
  rewrite <- (is_RInt_unique (V := R_CompleteNormedModule) _ _ _ _ E). symmetry. rewrite <- (is_RInt_unique (V := R_CompleteNormedModule) _ _ _ _ I'). reflexivity.
Qed.

(** The order of the vertices does not matter. *)
Lemma in_triangle_swap12 A B C x y : in_triangle A B C x y -> in_triangle B A C x y.
Proof. intros [a [b [c [H0 [H1 [H2 [H3 [H4 H5]]]]]]]]. exists b, a, c. repeat split; lra. Qed.
Lemma in_triangle_swap23 A B C x y : in_triangle A B C x y -> in_triangle A C B x y.
Proof. intros [a [b [c [H0 [H1 [H2 [H3 [H4 H5]]]]]]]]. exists a, c, b. repeat split; lra. Qed.
Lemma area_iff A B C A' B' C' x1 x2 y1 y2 a : (forall x y, in_triangle A B C x y <-> in_triangle A' B' C' x y) ->
  area_within A B C x1 x2 y1 y2 a -> area_within A' B' C' x1 x2 y1 y2 a.
Proof.
  intros E [len [S I]]. exists len. split; auto. intros x. destruct (S x) as [[F N]|[lo [hi [H [F T]]]]].
  - left. split; auto. intros y Hy. apply (N y). rewrite E. exact Hy.
  - right. exists lo, hi. split; [auto|]. split; [auto|]. intros y. rewrite <- E. apply T.
Qed.
Lemma area_swap12 A B C x1 x2 y1 y2 a : area_within A B C x1 x2 y1 y2 a -> area_within B A C x1 x2 y1 y2 a.
Proof. apply area_iff. intros; split; apply in_triangle_swap12. Qed.
Lemma area_swap23 A B C x1 x2 y1 y2 a : area_within A B C x1 x2 y1 y2 a -> area_within A C B x1 x2 y1 y2 a.
Proof. apply area_iff. intros; split; apply in_triangle_swap23. Qed.
Lemma triangle_area_swap12 A B C : triangle_area A B C = triangle_area B A C.
Proof. unfold triangle_area. f_equal. rewrite <- Rabs_Ropp. f_equal. ring. Qed.
Lemma triangle_area_swap23 A B C : triangle_area A B C = triangle_area A C B.
Proof. unfold triangle_area. f_equal. rewrite <- Rabs_Ropp. f_equal. ring. Qed.

(** ** The length of the common part of two intervals *)
Definition clip (lo hi c d : R) : R := (pos (d - lo) - pos (d - hi)) - (pos (c - lo) - pos (c - hi)).
Lemma clip_spec (P : R -> Prop) lo hi c d : lo <= hi -> c <= d -> (forall y, P y <-> lo <= y <= hi) ->
  (clip lo hi c d = 0 /\ forall y, ~ (P y /\ c <= y <= d)) \/
  (exists l h, l <= h /\ clip lo hi c d = h - l /\ forall y, (P y /\ c <= y <= d) <-> l <= y <= h).
Proof.
  intros H1 H2 HP. unfold clip, pos.
  destruct (Rlt_dec d lo); [left|destruct (Rlt_dec hi c); [left|right]].
  - split; [repeat rewrite Rmax_left by lra; lra|]. intros y [A B]. apply HP in A. lra.
  - split; [repeat rewrite Rmax_right by lra; lra|]. intros y [A B]. apply HP in A. lra.
  - exists (Rmax lo c), (Rmin hi d). unfold Rmax, Rmin. repeat destruct (Rle_dec _ _); (split; [lra|]); (split; [lra|]);
      intros y; rewrite HP; lra.
Qed.

(** ** The slices of a triangle with vertices in order *)
Section Sorted.
Variables (x0 y0 x1 y1 x2 y2 : R).
Hypothesis H01 : x0 <= x1.
Hypothesis H12 : x1 <= x2.
Hypothesis H02 : x0 < x2.
(** The long edge, and the height of the middle vertex above it. *)
Definition edge (x : R) : R := y0 + (y2 - y0) / (x2 - x0) * (x - x0).
Definition height : R := y1 - edge x1.
(** The fraction of that height reached at x. *)
Definition reach (x : R) : R :=
  if Rlt_dec x1 x2 then (if Rle_dec x1 x then (x2 - x) / (x2 - x1) else (x - x0) / (x1 - x0)) else (x - x0) / (x1 - x0).

Lemma edge_0 : edge x0 = y0. Proof. unfold edge. field. lra. Qed.
Lemma edge_2 : edge x2 = y2. Proof. unfold edge. field. lra. Qed.

Lemma in_sorted x y : in_triangle (x0, y0) (x1, y1) (x2, y2) x y <->
  exists b, 0 <= b /\ b * (x1 - x0) <= x - x0 /\ b * (x2 - x1) <= x2 - x /\ y = edge x + b * height.
Proof.
  unfold in_triangle. cbn [fst snd]. split.
  - intros [a [b [c [A [B [C [S [X Y]]]]]]]]. exists b. assert (a = 1 - b - c) by lra. subst a. split; auto.
    assert (0 <= c * (x2 - x0)) by (apply Rmult_le_pos; lra). assert (0 <= (1 - b - c) * (x2 - x0)) by (apply Rmult_le_pos; lra).
    split; [nra|]. split; [nra|]. unfold height, edge. rewrite Y, X. field. lra.
  - intros [b [B [C1 [C2 Y]]]]. set (c := (x - x0 - b * (x1 - x0)) / (x2 - x0)).
    assert (I : 0 < / (x2 - x0)) by (apply Rinv_0_lt_compat; lra).
    exists (1 - b - c), b, c. repeat split.
    + replace (1 - b - c) with ((x2 - x - b * (x2 - x1)) / (x2 - x0)) by (unfold c; field; lra).
      unfold Rdiv. apply Rmult_le_pos; lra.
    + exact B.
    + unfold c, Rdiv. apply Rmult_le_pos; lra.
    + ring.
    + unfold c. field. lra.
    + rewrite Y. unfold height, edge, c. field. lra.
Qed.

Lemma reach_spec x b : x0 <= x -> x <= x2 ->
  (0 <= b /\ b * (x1 - x0) <= x - x0 /\ b * (x2 - x1) <= x2 - x) <-> (0 <= b <= reach x).
Proof.
  intros A B.
  assert (L : forall n d, 0 < d -> b * d <= n <-> b <= n / d).
  { intros n d D. split; intros H.
    - apply (Rmult_le_reg_r d); auto. unfold Rdiv. rewrite Rmult_assoc, Rinv_l by lra. lra.
    - apply (Rmult_le_compat_r d) in H; [|lra]. unfold Rdiv in H. rewrite Rmult_assoc, Rinv_l in H by lra. lra. }
  assert (Lt : forall n d, 0 < d -> n <= d -> n / d <= 1).
  { intros n d D N. apply (Rmult_le_reg_r d); auto. unfold Rdiv. rewrite Rmult_assoc, Rinv_l by lra. lra. }
  unfold reach. destruct (Rlt_dec x1 x2) as [D|D]; [destruct (Rle_dec x1 x) as [E|E]|].
  - rewrite <- L by lra. split; [tauto|]. intros [P Q]. split; auto. split; auto.
    assert (b <= 1) by (apply Rle_trans with ((x2 - x) / (x2 - x1)); [apply L; lra|apply Lt; lra]). nra.
  - rewrite <- L by lra. split; [tauto|]. intros [P Q]. split; auto. split; auto.
    assert (b <= 1) by (apply Rle_trans with ((x - x0) / (x1 - x0)); [apply L; lra|apply Lt; lra]). nra.
  - rewrite <- L by lra. split; [tauto|]. intros [P Q]. split; auto. split; auto.
    assert (b <= 1) by (apply Rle_trans with ((x - x0) / (x1 - x0)); [apply L; lra|apply Lt; lra]). nra.
Qed.
Lemma reach_nonneg x : x0 <= x -> x <= x2 -> 0 <= reach x.
Proof.
  intros A B. unfold reach.
  destruct (Rlt_dec x1 x2) as [D|D]; [destruct (Rle_dec x1 x) as [E|E]|]; apply Rdiv_le_0_compat; lra.
Qed.

(** The slice between the heights c and d, for a triangle that is not flat. *)
Definition slice (c d x : R) : R :=
  if Rle_dec x0 x then if Rle_dec x x2 then
    (if Rle_dec 0 height then clip (edge x) (edge x + reach x * height) c d else clip (edge x + reach x * height) (edge x) c d)
  else 0 else 0.

Lemma slice_correct c d x : c <= d -> slice_length (x0, y0) (x1, y1) (x2, y2) c d x (slice c d x).
Proof.
  intros H. unfold slice, slice_length.
  destruct (Rle_dec x0 x) as [A|A]; [destruct (Rle_dec x x2) as [B|B]|].
  - pose proof (reach_nonneg x A B) as R0.
    destruct (Rle_dec 0 height) as [Hh|Hh].
    + apply clip_spec; [nra|auto|]. intros y. rewrite in_sorted. split.
      * intros [b [P [Q1 [Q2 E]]]]. pose proof (proj1 (reach_spec x b A B) ltac:(tauto)) as [_ U]. subst y. nra.
      * intros [P Q]. destruct (Req_EM_T height 0) as [Z|Z].
        { exists 0. rewrite !Rmult_0_l. repeat split; try lra. rewrite Z in *. lra. }
        exists ((y - edge x) / height).
        pose proof (proj2 (reach_spec x ((y - edge x) / height) A B)) as S.
        assert (U : 0 <= (y - edge x) / height <= reach x).
        { split; [apply Rdiv_le_0_compat; lra|]. apply (Rmult_le_reg_r height); [lra|]. unfold Rdiv. rewrite Rmult_assoc, Rinv_l by lra. lra. }
        specialize (S U). repeat split; try tauto. field. auto.
    + apply clip_spec; [nra|auto|]. intros y. rewrite in_sorted. split.
      * intros [b [P [Q1 [Q2 E]]]]. pose proof (proj1 (reach_spec x b A B) ltac:(tauto)) as [_ U]. subst y. nra.
      * intros [P Q]. exists ((y - edge x) / height).
        pose proof (proj2 (reach_spec x ((y - edge x) / height) A B)) as S.
        assert (U : 0 <= (y - edge x) / height <= reach x).
        { replace ((y - edge x) / height) with ((edge x - y) / (- height)) by (field; lra).
          split; [apply Rdiv_le_0_compat; lra|]. apply (Rmult_le_reg_r (- height)); [lra|]. unfold Rdiv. rewrite Rmult_assoc, Rinv_l by lra. lra. }
        specialize (S U). repeat split; try tauto. field. lra.
  - left. split; auto. intros y [I _]. apply in_sorted in I. destruct I as [b [P [Q1 [Q2 _]]]]. nra.
  - left. split; auto. intros y [I _]. apply in_sorted in I. destruct I as [b [P [Q1 [Q2 _]]]]. nra.
Qed.

(** ** The integral of the slices over a part of the triangle *)
(** The sign of the height, the two broken lines, and the integral of the clipped slice between two affine lines. *)
Definition sgn : R := if Rle_dec 0 height then 1 else -1.
Definition rise (x : R) : R := edge x + (x - x0) / (x1 - x0) * height.
Definition fall (x : R) : R := edge x + (x2 - x) / (x2 - x1) * height.
Definition strip (La Lb Ma Mb a b e : R) : R := (b - a) * sgn * (mean_pos (e - La) (e - Lb) - mean_pos (e - Ma) (e - Mb)).

Lemma clip_sgn c d l m : (if Rle_dec 0 height then clip l m c d else clip m l c d) = sgn * ((pos (d - l) - pos (d - m)) - (pos (c - l) - pos (c - m))).
Proof. unfold clip, sgn. destruct (Rle_dec 0 height); ring. Qed.

Lemma affine_integral a b g k e : a <= b -> is_RInt (fun x => pos (e - (g + k * (x - a)))) a b ((b - a) * mean_pos (e - g) (e - (g + k * (b - a)))).
Proof.
  intros H. destruct (Req_EM_T a b) as [E|E].
  - subst b. replace ((a - a) * _) with 0 by ring. apply (is_RInt_point (V := R_NormedModule)).
  - apply (is_RInt_ext (fun x => pos ((e - g) + (- k) * (x - a)))); [intros; f_equal; ring|].
    replace (e - (g + k * (b - a))) with (e - g + - k * (b - a)) by ring. apply pos_affine_integral. lra.
Qed.

Lemma strip_integral c d a b la kl ma km : a <= b ->
  (forall x, a < x < b -> slice c d x =
     sgn * ((pos (d - (la + kl * (x - a))) - pos (d - (ma + km * (x - a)))) - (pos (c - (la + kl * (x - a))) - pos (c - (ma + km * (x - a)))))) ->
  is_RInt (slice c d) a b
    (strip la (la + kl * (b - a)) ma (ma + km * (b - a)) a b d - strip la (la + kl * (b - a)) ma (ma + km * (b - a)) a b c).
Proof.
  intros H E.
  apply (is_RInt_ext (fun x => scal sgn (minus (minus (pos (d - (la + kl * (x - a)))) (pos (d - (ma + km * (x - a)))))
                                               (minus (pos (c - (la + kl * (x - a)))) (pos (c - (ma + km * (x - a)))))))).
  { intros x Hx. rewrite Rmin_left, Rmax_right in Hx by auto. rewrite E by auto. unfold scal, minus, plus, opp. cbn. unfold mult. cbn. ring. }
  replace (_ - _) with (scal sgn (minus (minus ((b - a) * mean_pos (d - la) (d - (la + kl * (b - a)))) ((b - a) * mean_pos (d - ma) (d - (ma + km * (b - a)))))
                                        (minus ((b - a) * mean_pos (c - la) (c - (la + kl * (b - a)))) ((b - a) * mean_pos (c - ma) (c - (ma + km * (b - a)))))))
    by (unfold strip, scal, minus, plus, opp; cbn; unfold mult; cbn; ring).
  apply (is_RInt_scal (V := R_NormedModule)). apply (is_RInt_minus (V := R_NormedModule)); apply (is_RInt_minus (V := R_NormedModule)); apply affine_integral; auto.
Qed.

Lemma rise_integral c d a b : x0 <= a -> a <= b -> b <= x1 ->
  is_RInt (slice c d) a b (strip (edge a) (edge b) (rise a) (rise b) a b d - strip (edge a) (edge b) (rise a) (rise b) a b c).
Proof.
  intros A AB B. destruct (Req_EM_T a b) as [E|E].
  { subst b. unfold strip. replace (_ - _) with 0 by ring. apply (is_RInt_point (V := R_NormedModule)). }
  set (kl := (y2 - y0) / (x2 - x0)).
  assert (Eb : edge b = edge a + kl * (b - a)) by (unfold edge, kl; ring).
  assert (Mb : rise b = rise a + (kl + height / (x1 - x0)) * (b - a)) by (unfold rise; rewrite Eb; field; lra).
  rewrite Eb, Mb. apply strip_integral; auto. intros x Hx. unfold slice.
  destruct (Rle_dec x0 x); [|lra]. destruct (Rle_dec x x2); [|lra].
  assert (Rx : reach x = (x - x0) / (x1 - x0)).
  { unfold reach. destruct (Rlt_dec x1 x2); [destruct (Rle_dec x1 x); [lra|reflexivity]|reflexivity]. }
  rewrite clip_sgn, Rx.
  replace (edge a + kl * (x - a)) with (edge x) by (unfold edge, kl; ring).
  replace (rise a + (kl + height / (x1 - x0)) * (x - a)) with (edge x + (x - x0) / (x1 - x0) * height); [reflexivity|].
  unfold rise. replace (edge x) with (edge a + kl * (x - a)) by (unfold edge, kl; ring). field. lra.
Qed.
Lemma fall_integral c d a b : x1 <= a -> a <= b -> b <= x2 ->
  is_RInt (slice c d) a b (strip (edge a) (edge b) (fall a) (fall b) a b d - strip (edge a) (edge b) (fall a) (fall b) a b c).
Proof.
  intros A AB B. destruct (Req_EM_T a b) as [E|E].
  { subst b. unfold strip. replace (_ - _) with 0 by ring. apply (is_RInt_point (V := R_NormedModule)). }
  set (kl := (y2 - y0) / (x2 - x0)).
  assert (Eb : edge b = edge a + kl * (b - a)) by (unfold edge, kl; ring).
  assert (Mb : fall b = fall a + (kl - height / (x2 - x1)) * (b - a)) by (unfold fall; rewrite Eb; field; lra).
  rewrite Eb, Mb. apply strip_integral; auto. intros x Hx. unfold slice.
  destruct (Rle_dec x0 x); [|lra]. destruct (Rle_dec x x2); [|lra].
  assert (Rx : reach x = (x2 - x) / (x2 - x1)).
  { unfold reach. destruct (Rlt_dec x1 x2); [destruct (Rle_dec x1 x); [reflexivity|lra]|lra]. }
  rewrite clip_sgn, Rx.
  replace (edge a + kl * (x - a)) with (edge x) by (unfold edge, kl; ring).
  replace (fall a + (kl - height / (x2 - x1)) * (x - a)) with (edge x + (x2 - x) / (x2 - x1) * height); [reflexivity|].
  unfold fall. replace (edge x) with (edge a + kl * (x - a)) by (unfold edge, kl; ring). field. lra.
Qed.
Lemma outside_integral c d a b : a <= b -> b <= x0 \/ x2 <= a \/ a = b -> is_RInt (slice c d) a b 0.
Proof.
  intros H O. apply (is_RInt_ext (fun _ => 0)).
  - intros x Hx. rewrite Rmin_left, Rmax_right in Hx by auto. unfold slice.
    destruct (Rle_dec x0 x); [|reflexivity]. destruct (Rle_dec x x2); [|reflexivity]. lra.
  - assert (I : is_RInt (fun _ : R => 0) a b ((b - a) * 0)) by exact (is_RInt_const (V := R_NormedModule) a b 0).
    rewrite Rmult_0_r in I. exact I.
Qed.

(** The integral over any interval: the part of it before the middle vertex and the part after. *)
Definition clampR (lo hi x : R) : R := Rmax lo (Rmin hi x).
Definition rise_strip (u v e : R) : R :=
  strip (edge (clampR x0 x1 u)) (edge (clampR x0 x1 v)) (rise (clampR x0 x1 u)) (rise (clampR x0 x1 v)) (clampR x0 x1 u) (clampR x0 x1 v) e.
Definition fall_strip (u v e : R) : R :=
  strip (edge (clampR x1 x2 u)) (edge (clampR x1 x2 v)) (fall (clampR x1 x2 u)) (fall (clampR x1 x2 v)) (clampR x1 x2 u) (clampR x1 x2 v) e.

Lemma clamp_mono lo hi u v : lo <= hi -> u <= v -> clampR lo hi u <= clampR lo hi v.
Proof. intros H1 H2. unfold clampR, Rmax, Rmin. repeat destruct (Rle_dec _ _); lra. Qed.
Lemma clamp_range lo hi u : lo <= hi -> lo <= clampR lo hi u <= hi.
Proof. intros H1. unfold clampR, Rmax, Rmin. repeat destruct (Rle_dec _ _); lra. Qed.

Lemma strip_empty La Lb Ma Mb a e : strip La Lb Ma Mb a a e = 0.
Proof. unfold strip. ring. Qed.

Lemma interval_integral c d u v : u <= v ->
  is_RInt (slice c d) u v ((rise_strip u v d - rise_strip u v c) + (fall_strip u v d - fall_strip u v c)).
Proof.
  intros H.
  set (p1 := Rmax u (Rmin v x0)). set (p2 := Rmax u (Rmin v x1)). set (p3 := Rmax u (Rmin v x2)).
  assert (I1 : is_RInt (slice c d) u p1 0).
  { apply outside_integral; unfold p1, Rmax, Rmin; repeat destruct (Rle_dec _ _); lra. }
  assert (I2 : is_RInt (slice c d) p1 p2 (rise_strip u v d - rise_strip u v c)).
  { destruct (Rle_dec u x1) as [A|A]; [destruct (Rle_dec x0 v) as [B|B]|].
    - assert (E1 : p1 = clampR x0 x1 u) by (unfold p1, clampR, Rmax, Rmin; repeat destruct (Rle_dec _ _); lra).
      assert (E2 : p2 = clampR x0 x1 v) by (unfold p2, clampR, Rmax, Rmin; repeat destruct (Rle_dec _ _); lra).
      rewrite E1, E2. apply rise_integral; try apply clamp_mono; try apply clamp_range; lra.
    - assert (E : p1 = p2) by (unfold p1, p2, Rmax, Rmin; repeat destruct (Rle_dec _ _); lra). rewrite E.
      assert (E' : clampR x0 x1 u = clampR x0 x1 v) by (unfold clampR, Rmax, Rmin; repeat destruct (Rle_dec _ _); lra).
      unfold rise_strip. rewrite E', !strip_empty. replace (0 - 0) with 0 by ring. apply (is_RInt_point (V := R_NormedModule)).
    - assert (E : p1 = p2) by (unfold p1, p2, Rmax, Rmin; repeat destruct (Rle_dec _ _); lra). rewrite E.
      assert (E' : clampR x0 x1 u = clampR x0 x1 v) by (unfold clampR, Rmax, Rmin; repeat destruct (Rle_dec _ _); lra).
      unfold rise_strip. rewrite E', !strip_empty. replace (0 - 0) with 0 by ring. apply (is_RInt_point (V := R_NormedModule)). }
  assert (I3 : is_RInt (slice c d) p2 p3 (fall_strip u v d - fall_strip u v c)).
  { destruct (Rle_dec u x2) as [A|A]; [destruct (Rle_dec x1 v) as [B|B]|].
    - assert (E1 : p2 = clampR x1 x2 u) by (unfold p2, clampR, Rmax, Rmin; repeat destruct (Rle_dec _ _); lra).
      assert (E2 : p3 = clampR x1 x2 v) by (unfold p3, clampR, Rmax, Rmin; repeat destruct (Rle_dec _ _); lra).
      rewrite E1, E2. apply fall_integral; try apply clamp_mono; try apply clamp_range; lra.
    - assert (E : p2 = p3) by (unfold p2, p3, Rmax, Rmin; repeat destruct (Rle_dec _ _); lra). rewrite E.
      assert (E' : clampR x1 x2 u = clampR x1 x2 v) by (unfold clampR, Rmax, Rmin; repeat destruct (Rle_dec _ _); lra).
      unfold fall_strip. rewrite E', !strip_empty. replace (0 - 0) with 0 by ring. apply (is_RInt_point (V := R_NormedModule)).
    - assert (E : p2 = p3) by (unfold p2, p3, Rmax, Rmin; repeat destruct (Rle_dec _ _); lra). rewrite E.
      assert (E' : clampR x1 x2 u = clampR x1 x2 v) by (unfold clampR, Rmax, Rmin; repeat destruct (Rle_dec _ _); lra).
      unfold fall_strip. rewrite E', !strip_empty. replace (0 - 0) with 0 by ring. apply (is_RInt_point (V := R_NormedModule)). }
  assert (I4 : is_RInt (slice c d) p3 v 0).
  { apply outside_integral; unfold p3, Rmax, Rmin; repeat destruct (Rle_dec _ _); lra. }
  replace (_ + _) with (plus (plus (plus 0 (rise_strip u v d - rise_strip u v c)) (fall_strip u v d - fall_strip u v c)) 0)
    by (unfold plus; cbn; ring).
  eapply (is_RInt_Chasles (V := R_NormedModule)); [|exact I4]. eapply (is_RInt_Chasles (V := R_NormedModule)); [|exact I3].
  eapply (is_RInt_Chasles (V := R_NormedModule)); [exact I1|exact I2].
Qed.

Theorem sorted_area u v c d : u <= v -> c <= d ->
  area_within (x0, y0) (x1, y1) (x2, y2) u v c d ((rise_strip u v d - rise_strip u v c) + (fall_strip u v d - fall_strip u v c)).
Proof. intros H1 H2. exists (slice c d). split; [intros; apply slice_correct; auto|apply interval_integral; auto]. Qed.

Lemma sorted_triangle_area : triangle_area (x0, y0) (x1, y1) (x2, y2) = (x2 - x0) * (sgn * height) / 2.
Proof.
  unfold triangle_area. cbn [fst snd]. f_equal.
  assert (E : (x1 - x0) * (y2 - y0) - (x2 - x0) * (y1 - y0) = - (x2 - x0) * height) by (unfold height, edge; field; lra).
  rewrite E. unfold sgn. destruct (Rle_dec 0 height).
  - rewrite Rabs_left1; [ring|nra].
  - rewrite Rabs_pos_eq; [ring|nra].
Qed.
End Sorted.
