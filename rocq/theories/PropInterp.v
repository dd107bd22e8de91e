(** C15-C21: one dimensional powder interpolation. *)
From Coq Require Import ZArith QArith Qabs Bool List Lia Lqa Permutation.
From Verif Require Import InterpModel InterpSpec InterpProofs WalkProofs DeltaProofs.
Import ListNotations.
Open Scope Q_scope.

(** C15.  [total w n]: the sum over the bins 0..n-1 of what the additions w put there. *)
Theorem C15_triangle_conserved :
  forall (a b c amp : Q) (points : Z),
  0 <= a -> 0 <= b -> 0 <= c -> a < zq points -> b < zq points -> c < zq points ->
  total (triangle a b c amp points) points == amp.
Proof. exact triangle_total. Qed.
Print Assumptions C15_triangle_conserved.

Example C15_example : total (triangle (17#5) (1#3) (29#7) 2 6) 6 == 2.
Proof. apply C15_triangle_conserved; vm_compute; congruence. Qed.

(** C16.  [tent_cdf x y z]: the fraction of the unit tent left of a position. [exact_bin x k]: k >= 1, or k = 0 and x >= 0. *)
Theorem C16_exact_bins :
  forall (a b c x y z amp : Q) (points k : Z),
  Permutation [a; b; c] [x; y; z] -> x <= y -> y <= z -> x < z -> exact_bin x k -> (k < points)%Z ->
  deposit (triangle a b c amp points) k == amp * (tent_cdf x y z (zq k + 1) - tent_cdf x y z (zq k)).
Proof. exact triangle_exact_sorted. Qed.
Print Assumptions C16_exact_bins.

(** C16, three equal frequencies: a point mass. *)
Theorem C16_point_mass :
  forall (a b c amp : Q) (points p : Z), trunc a = p -> trunc b = p -> trunc c = p ->
  triangle a b c amp points = if (points <=? p)%Z || (p <? 0)%Z then [] else [(p, amp)].
Proof. exact triangle_same_bin. Qed.
Print Assumptions C16_point_mass.

(** C16, meaning of [tent_cdf]: 0 before the tent, 1 after it, and between two positions on one slope the area of
    the trapezium under the tent. *)
Theorem C16_tent_cdf :
  forall f0 f1 f2 : Q, f0 <= f1 -> f1 <= f2 -> f0 < f2 ->
  (forall x, x <= f0 -> tent_cdf f0 f1 f2 x == 0) /\ (forall x, f2 <= x -> tent_cdf f0 f1 f2 x == 1) /\
  (forall x y, f0 < f1 -> f0 <= x -> x <= y -> y <= f1 ->
     tent_cdf f0 f1 f2 y - tent_cdf f0 f1 f2 x == (y - x) * (tent_up f0 f1 f2 x + tent_up f0 f1 f2 y) / 2) /\
  (forall x y, f1 < f2 -> f1 <= x -> x <= y -> y <= f2 ->
     tent_cdf f0 f1 f2 y - tent_cdf f0 f1 f2 x == (y - x) * (tent_down f0 f1 f2 x + tent_down f0 f1 f2 y) / 2).
Proof.
  intros f0 f1 f2 H0 H1 H2. split; [|split; [|split]].
  - intros; apply tent_low; lra.
  - intros; apply tent_high; lra.
  - intros; apply tent_up_area; lra.
  - intros; apply tent_down_area; lra.
Qed.
Print Assumptions C16_tent_cdf.

Example C16_example : deposit (triangle 4 0 1 (12#1) 6) 1 == 5 /\ tent_cdf 0 1 4 2 - tent_cdf 0 1 4 1 == 5 # 12.
Proof. split; vm_compute; reflexivity. Qed.

(** C17. *)
Theorem C17_vertex_order :
  forall (a b c a' b' c' amp : Q) (points k : Z), Permutation [a; b; c] [a'; b'; c'] ->
  deposit (triangle a b c amp points) k == deposit (triangle a' b' c' amp points) k.
Proof. exact triangle_perm. Qed.
Print Assumptions C17_vertex_order.

Example C17_example : deposit (triangle (-3) (7#2) (1#2) 1 3) 1 == deposit (triangle (7#2) (1#2) (-3) 1 3) 1 /\
  ~ deposit (triangle (-3) (7#2) (1#2) 1 3) 1 == 0.
Proof. split; [apply C17_vertex_order|vm_compute; discriminate]. apply (Permutation_cons_append [7#2; 1#2] (-3)). Qed.

(** C18.  Every addition is inside the array or adds zero one past its end. *)
Theorem C18_writes_inside_partial :
  forall (a b c amp : Q) (points : Z), (0 <= points)%Z ->
  Forall (safe_write points) (triangle a b c amp points) /\
  Forall (safe_write points) (triangle_interpolation a b c amp points) /\
  (forall f w, In w (delta_fn f points amp) -> (0 <= fst w < points)%Z).
Proof.
  intros. split; [apply triangle_safe; auto|]. split; [apply triangle_interpolation_safe; auto|].
  intros f w. apply delta_safe.
Qed.
Print Assumptions C18_writes_inside_partial.

(** C18 fails: element [points] is read and written back (adding zero). *)
Theorem C18_writes_inside_refuted : exists a b c amp points w,
  (0 < points)%Z /\ In w (triangle a b c amp points) /\ ~ (0 <= fst w < points)%Z.
Proof. exists (1#2), (7#2), 10, 1, 3%Z, (3%Z, 0). split; [lia|]. split; [vm_compute; tauto|cbn; lia]. Qed.
Print Assumptions C18_writes_inside_refuted.

(** C19, right end: moving the right end of the window changes no bin inside both windows. *)
Theorem C19_right_end :
  forall (a b c amp : Q) (n n' k : Z), (0 <= k < n)%Z -> (k < n')%Z ->
  deposit (triangle a b c amp n) k == deposit (triangle a b c amp n') k.
Proof. exact triangle_right_end. Qed.
Print Assumptions C19_right_end.

(** C19, left end: shifting the window by s bins changes no common bin except the first one of either window. *)
Theorem C19_left_end_partial :
  forall (a b c amp : Q) (n n' s k : Z), (0 < k < n')%Z -> (0 < k + s < n)%Z ->
  deposit (triangle (a - zq s) (b - zq s) (c - zq s) amp n') k == deposit (triangle a b c amp n) (k + s).
Proof. exact triangle_left_end. Qed.
Print Assumptions C19_left_end_partial.

Example C19_example : deposit (triangle (-3) (7#2) (1#2) 1 3) 2 == deposit (triangle (-3) (7#2) (1#2) 1 9) 2 /\
  deposit (triangle (-3 - zq (-4)) ((7#2) - zq (-4)) ((1#2) - zq (-4)) 1 9) 6 == deposit (triangle (-3) (7#2) (1#2) 1 3) 2 /\
  ~ deposit (triangle (-3) (7#2) (1#2) 1 3) 2 == 0.
Proof. split; [|split; [|vm_compute; discriminate]]; vm_compute; reflexivity. Qed.

(** C19 fails at the left end: the first bin also collects the signal between -1 and 0, and loses the rising part
    of a triangle whose apex is in it; a delta peak just outside the right end loses the half inside the window. *)
Theorem C19_left_end_refuted :
  (exists a b c amp n s, ~ deposit (triangle (a - zq s) (b - zq s) (c - zq s) amp n) 0 == deposit (triangle a b c amp (n + s)) s /\
     a - zq s < 0 /\ b - zq s < 0 /\ c - zq s < 0) /\
  (exists a b c amp n s, ~ deposit (triangle (a - zq s) (b - zq s) (c - zq s) amp n) 0 == deposit (triangle a b c amp (n + s)) s /\
     0 <= b - zq s) /\
  (exists f amp n n' k, (0 <= k < n)%Z /\ (n < n')%Z /\ ~ deposit (delta_fn f n amp) k == deposit (delta_fn f n' amp) k).
Proof.
  split; [|split].
  - exists (19#2), (48#5), (97#10), 1, 5%Z, 10%Z. repeat split; vm_compute; congruence.
  - exists 5, (21#2), 13, 1, 5%Z, 10%Z. split; vm_compute; congruence.
  - exists (21#5), 1, 4%Z, 8%Z, 3%Z. split; [lia|]. split; [lia|]. vm_compute. congruence.
Qed.
Print Assumptions C19_left_end_refuted.

(** C20.  [hat d] = max(0, 1-|d|); [centre k] = k + 1/2.  Each bin gets amp * hat(distance to its centre), up to TOL*amp
    and exactly when f is not within TOL of a bin centre. *)
Theorem C20_delta_weights :
  forall (f amp : Q) (points k : Z), 0 <= f -> f < zq points -> (0 <= k < points)%Z ->
  Qabs (deposit (delta_fn f points amp) k - amp * hat (f - centre k)) <= Qabs amp * TOL /\
  (TOL <= Qabs (f - zq (trunc f) - half) -> deposit (delta_fn f points amp) k == amp * hat (f - centre k)).
Proof. intros f amp points k. exact (delta_hat f points amp k). Qed.
Print Assumptions C20_delta_weights.

(** C20.  Non-negative, at most two adjacent bins; area conserved and centroid at f (up to TOL) at least half a bin
    away from the ends. *)
Theorem C20_delta_conserved_partial :
  forall (f amp : Q) (points : Z), 0 <= f -> f < zq points -> 0 <= amp ->
  (forall k, 0 <= deposit (delta_fn f points amp) k) /\
  (forall k, ~ deposit (delta_fn f points amp) k == 0 -> Qabs (f - centre k) < 1) /\
  (interior f points ->
     total (delta_fn f points amp) points == amp /\
     Qabs (moment centre (delta_fn f points amp) points - amp * f) <= amp * TOL).
Proof.
  intros f amp points H0 H1 Ha. split; [|split].
  - intros k. apply delta_nonneg; auto.
  - intros k. apply delta_support; auto.
  - intros [I1 I2]. destruct (delta_conserved f points amp I1 I2) as [A [B _]]. split; auto. rewrite <- (Qabs_pos amp) at 3 by auto. auto.
Qed.
Print Assumptions C20_delta_conserved_partial.

Example C20_example : delta_fn (16#5) 6 (10#1) = [(2%Z, 30 # 10); (3%Z, 70 # 10)] /\ interior (16#5) 6.
Proof. split; [vm_compute; reflexivity|split; vm_compute; congruence]. Qed.

(** C20 fails in the outer half bins, where area is lost, and for f in (-1,-1/2), where the first bin gets a negative weight. *)
Theorem C20_delta_refuted :
  (exists f amp points, 0 <= f /\ f < zq points /\ 0 < amp /\ total (delta_fn f points amp) points < amp) /\
  (exists f amp points k, 0 < amp /\ f < 0 /\ (0 <= k < points)%Z /\ deposit (delta_fn f points amp) k < 0).
Proof.
  split.
  - exists (1#4), 1, 4%Z. repeat split; vm_compute; congruence.
  - exists (-3#4), 1, 4%Z, 0%Z. repeat split; vm_compute; congruence.
Qed.
Print Assumptions C20_delta_refuted.

(** C21.  [point nt r c]: number of point c of row r of the triangular grid; [up], [down]: the two kinds of unit triangles. *)
Theorem C21_triangulation :
  forall nt : nat,
  triangles nt = Some (grid_tris nt) /\ List.length (grid_tris nt) = (nt * nt)%nat /\ NoDup (grid_tris nt) /\
  (forall t, In t (grid_tris nt) <->
     exists r c, (r < nt)%nat /\ ((c < nt - r)%nat /\ t = up nt r c \/ (c + 1 < nt - r)%nat /\ t = down nt r c)) /\
  (forall r c, (r <= nt)%nat -> (c <= nt - r)%nat -> (point nt r c < n_pts nt)%nat) /\
  (forall r c r' c', (r <= nt)%nat -> (c <= nt - r)%nat -> (r' <= nt)%nat -> (c' <= nt - r')%nat ->
     point nt r c = point nt r' c' -> r = r' /\ c = c') /\
  (forall k, (k < n_pts nt)%nat -> exists r c, (r <= nt)%nat /\ (c <= nt - r)%nat /\ point nt r c = k).
Proof.
  intros nt. split; [apply triangles_grid|]. split; [apply grid_count|]. split; [apply grid_NoDup|]. split; [apply grid_in|].
  split; [apply point_bound|]. split; [apply point_inj|apply point_onto].
Qed.
Print Assumptions C21_triangulation.

Example C21_example : triangles 2 = Some [(0, 1, 3); (1, 3, 4); (1, 2, 4); (3, 4, 5)]%nat.
Proof. vm_compute. reflexivity. Qed.
