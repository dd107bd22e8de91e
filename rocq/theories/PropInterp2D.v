(** C85-C88: the two dimensional interpolation and averaging. *)
From Coq Require Import ZArith QArith Qabs Bool List Permutation Reals Qreals Lia Lra Lqa.
From Verif Require Import InterpModel InterpSpec InterpProofs DeltaProofs WalkProofs PowderModel PowderProofs AxisModel.
From Verif Require Import Interp2DModel Interp2DSpec Interp2DProofs TwoDModel TwoDProofs TentReal AreaSpec AreaProofs Interp2DExact.
Import ListNotations.
Open Scope Q_scope.

(** C85.  [total2D w m0 m1]: the sum of a spectrum with m0 rows and m1 columns after the additions w; [interior x m]: x lies at
    least half a bin inside a window of m bins.  A triangle inside the window adds exactly its amplitude to the spectrum; a face
    of the octahedron adds the sum of the amplitudes of its triangles. *)
Theorem C85_amplitude_conserved :
  (forall (x1 x2 x3 y1 y2 y3 amp : Q) (m0 m1 : Z) (w : writes),
   interior x1 m0 -> interior x2 m0 -> interior x3 m0 -> interior y1 m1 -> interior y2 m1 -> interior y3 m1 ->
   triangle_interpolation2D x1 x2 x3 y1 y2 y3 amp m0 m1 = Some w -> total2D w m0 m1 == amp) /\
  (forall (nt : nat) (f1 f2 amp : nat -> Q) (m0 m1 : Z) (w : writes),
   (forall k, (k < n_pts nt)%nat -> interior (f1 k) m0 /\ interior (f2 k) m1) ->
   octahedron_interpolation2D nt f1 f2 amp m0 m1 = Some w ->
   total2D w m0 m1 == qsum (map (vertex_sum amp) (grid_tris nt))).
Proof. split; [exact total2D_conserved|exact face_total]. Qed.
Print Assumptions C85_amplitude_conserved.

(** C85, projection.  Summed over the columns, the two dimensional spectrum of a triangle is its one dimensional spectrum along
    the first dimension (C15-C19), in every row, also when the triangle sticks out of the window along the first dimension. *)
Theorem C85_projection :
  (forall (x1 x2 x3 y1 y2 y3 amp : Q) (m0 m1 : Z) (w : writes) (p : Z),
   (0 <= m0)%Z -> interior y1 m1 -> interior y2 m1 -> interior y3 m1 ->
   triangle_interpolation2D x1 x2 x3 y1 y2 y3 amp m0 m1 = Some w ->
   row_total w m1 p == deposit (triangle_interpolation x1 x2 x3 amp m0) p) /\
  (forall (nt : nat) (f1 f2 amp : nat -> Q) (m0 m1 : Z) (w : writes) (p : Z),
   (0 <= m0)%Z -> (forall k, (k < n_pts nt)%nat -> interior (f2 k) m1) ->
   octahedron_interpolation2D nt f1 f2 amp m0 m1 = Some w ->
   row_total w m1 p == qsum (map (fun t => let '(a, b, c) := t in
     deposit (triangle_interpolation (f1 a) (f1 b) (f1 c) (tri_amp amp t) m0) p) (grid_tris nt))).
Proof.
  split; [exact projection|]. intros nt f1 f2 amp m0 m1 w p H0 HF H. rewrite (face_rows nt f1 f2 amp m0 m1 w p H0 HF H). clear.
  induction (grid_tris nt) as [|[[a b] c] l IH]; [reflexivity|]. cbn [flat_map map qsum fold_right]. rewrite deposit_app, IH. reflexivity.
Qed.
Print Assumptions C85_projection.

Example C85_example : exists w,
  triangle_interpolation2D (1 # 2) (5 # 2) (13 # 3) (9 # 2) (3 # 5) (7 # 2) 10 5 6 = Some w /\
  total2D w 5 6 == 10 /\ row_total w 6 1 == deposit (triangle_interpolation (1 # 2) (5 # 2) (13 # 3) 10 5) 1 /\ ~ row_total w 6 1 == 0.
Proof.
  destruct (triangle_interpolation2D (1 # 2) (5 # 2) (13 # 3) (9 # 2) (3 # 5) (7 # 2) 10 5 6) as [w|] eqn:E.
  2: { exfalso. apply (f_equal (fun o => match o with Some _ => true | None => false end)) in E. vm_compute in E. discriminate E. }
  assert (R : row_total w 6 1 == deposit (triangle_interpolation (1 # 2) (5 # 2) (13 # 3) 10 5) 1).
  { refine (proj1 C85_projection _ _ _ _ _ _ _ _ _ _ _ _ _ _ _ E); [lia|split; vm_compute; discriminate ..]. }
  exists w. split; [reflexivity|]. split; [|split; [exact R|]].
  - refine (proj1 C85_amplitude_conserved _ _ _ _ _ _ _ _ _ _ _ _ _ _ _ _ E); split; vm_compute; discriminate.
  - intros Z. rewrite R in Z. vm_compute in Z. discriminate Z.
Qed.

(** C86.  Every addition is inside the array of m0 * m1 elements, or adds zero one past its end, for every triangle for which
    the code is defined. *)
Theorem C86_additions_inside_partial :
  (forall (x1 x2 x3 y1 y2 y3 amp : Q) (m0 m1 : Z) (w : writes), (0 < m0)%Z -> (0 <= m1)%Z ->
   triangle_interpolation2D x1 x2 x3 y1 y2 y3 amp m0 m1 = Some w -> Forall (safe_write (m0 * m1)) w) /\
  (forall (nt : nat) (f1 f2 amp : nat -> Q) (m0 m1 : Z) (w : writes), (0 < m0)%Z -> (0 <= m1)%Z ->
   octahedron_interpolation2D nt f1 f2 amp m0 m1 = Some w -> Forall (safe_write (m0 * m1)) w).
Proof. split; [exact writes2D_safe|exact face_safe]. Qed.
Print Assumptions C86_additions_inside_partial.

(** C86.  The triangles for which the code reads a variable that was never set, exactly: not thin, the smallest x at or below -1,
    the largest above, and either the middle one in (-1, 1), or the middle one at or below -1 and the largest below 1.  In particular
    a triangle inside the window is never such a triangle. *)
Theorem C86_unset_variable :
  forall (x1 x2 x3 y1 y2 y3 amp : Q) (m0 m1 : Z), (0 < m0)%Z ->
  (triangle_interpolation2D x1 x2 x3 y1 y2 y3 amp m0 m1 = None <->
   ~ (Qabs (x1 - x2) < 1 # 1000000 /\ Qabs (x1 - x3) < 1 # 1000000) /\
   exists a b c, Permutation [x1; x2; x3] [a; b; c] /\ a <= b /\ b <= c /\ a <= -(1) /\ -(1) < c /\
     ((-(1) < b /\ b < 1) \/ (b <= -(1) /\ c < 1))) /\
  (0 <= x1 -> 0 <= x2 -> 0 <= x3 -> exists w, triangle_interpolation2D x1 x2 x3 y1 y2 y3 amp m0 m1 = Some w).
Proof.
  intros x1 x2 x3 y1 y2 y3 amp m0 m1 Hm. split; [exact (unset_read x1 x2 x3 y1 y2 y3 amp m0 m1 Hm)|]. intros H1 H2 H3.
  pose proof (unset_read x1 x2 x3 y1 y2 y3 amp m0 m1 Hm) as N. destruct (triangle_interpolation2D _ _ _ _ _ _ _ _ _) as [w|]; [eauto|].
  exfalso. destruct (proj1 N eq_refl) as [_ [a [b [c [P [_ [_ [A _]]]]]]]].
  assert (I : In a [x1; x2; x3]) by (apply (Permutation_in _ (Permutation_sym P)); cbn; auto).
  destruct I as [<-|[<-|[<-|[]]]]; Lqa.lra.
Qed.
Print Assumptions C86_unset_variable.

(** C86 fails: a triangle that straddles the lower edge of the window along the first dimension reads a variable that was never
    set, and its spectrum is undefined. *)
Theorem C86_defined_refuted : exists x1 x2 x3 y1 y2 y3 amp m0 m1, (0 < m0)%Z /\ (0 < m1)%Z /\
  triangle_interpolation2D x1 x2 x3 y1 y2 y3 amp m0 m1 = None.
Proof. exists (-(3) # 2), (1 # 3), (5 # 2), 1, 2, 3, 1, 4%Z, 5%Z. repeat split; try lia. Qed.
Print Assumptions C86_defined_refuted.
Example C86_example : exists w, triangle_interpolation2D (-(3) # 2) (3 # 2) (11 # 2) 1 7 3 1 4 5 = Some w /\ (6 <= length w)%nat.
Proof. eexists. split; [vm_compute; reflexivity|vm_compute; repeat constructor]. Qed.

(** C87.  [share_close amp A B C k q v]: v is the share of the amplitude amp of the triangle ABC that corresponds to the part of
    the triangle in the cell k <= x <= k+1, q <= y <= q+1, up to 8 millionths of the amplitude per unit of area of the triangle.
    True for every cell inside the window when: the triangle is not thin along x; for row 0 (which also collects what lies in -1 < x < 0),
    all x >= 0 or some x <= -1; for rows above 0, at most one vertex lies at or below x = -1; for column 0 (which also collects
    what lies in -1 < y < 0), all y >= 0.  The rest of the claim is refuted below. *)
Theorem C87_cell_area_partial :
  forall (x1 x2 x3 y1 y2 y3 amp : Q) (m0 m1 : Z) (w : writes) (k q : Z), (0 <= k < m0)%Z -> (0 <= q < m1)%Z ->
  triangle_interpolation2D x1 x2 x3 y1 y2 y3 amp m0 m1 = Some w ->
  triangle_area (Q2R x1, Q2R y1) (Q2R x2, Q2R y2) (Q2R x3, Q2R y3) <> 0%R ->
  ~ (Qabs (x1 - x2) < 1 # 1000000 /\ Qabs (x1 - x3) < 1 # 1000000) ->
  (1 <= k)%Z \/ (0 <= x1 /\ 0 <= x2 /\ 0 <= x3) \/ (x1 <= -(1) \/ x2 <= -(1) \/ x3 <= -(1)) ->
  ((-(1) < x1 /\ -(1) < x2) \/ (-(1) < x1 /\ -(1) < x3) \/ (-(1) < x2 /\ -(1) < x3)) \/ k = 0%Z ->
  (1 <= q)%Z \/ (0 <= y1 /\ 0 <= y2 /\ 0 <= y3) ->
  share_close (Q2R amp) (Q2R x1, Q2R y1) (Q2R x2, Q2R y2) (Q2R x3, Q2R y3) k q (Q2R (cell w m1 k q)).
Proof. exact cell_share. Qed.
Print Assumptions C87_cell_area_partial.

(** A triangle across several rows and columns, partly outside the window; the cell of row 1 and column 2 is strictly between
    empty and the whole triangle. *)
Example C87_example : exists w,
  triangle_interpolation2D (-(3) # 2) (3 # 2) (11 # 2) 1 7 3 1 4 5 = Some w /\ 0 < cell w 5 1 2 /\ cell w 5 1 2 < 1.
Proof. eexists. split; [vm_compute; reflexivity|]. split; vm_compute; reflexivity. Qed.

(** C87 fails when two vertices lie at or below x = -1: the rows above row 0 are split with the wrong ratio. *)
Lemma witness_area : area_within (Q2R (-(2)), Q2R 0) (Q2R (-(1)), Q2R 4) (Q2R 3, Q2R 0) (IZR 1) (IZR 1 + 1) (IZR 0) (IZR 0 + 1) 1%R.
Proof.
  assert (E : Q2R (-(2)) = (-2)%R /\ Q2R (-(1)) = (-1)%R /\ Q2R 0 = 0%R /\ Q2R 3 = 3%R /\ Q2R 4 = 4%R) by (unfold Q2R; cbn; repeat split; Lra.lra).
  destruct E as [-> [-> [-> [-> ->]]]].
  assert (A := sorted_area (-2) 0 (-1) 4 3 0 ltac:(Lra.lra) ltac:(Lra.lra) ltac:(Lra.lra) 1 (1 + 1) 0 (0 + 1) ltac:(Lra.lra) ltac:(Lra.lra)).
  match type of A with area_within _ _ _ _ _ _ _ ?v => replace v with 1%R in A; [exact A|] end.
  unfold rise_strip, fall_strip, clampR.
  replace (Rmax (-2) (Rmin (-1) 1)) with (-1)%R by (unfold Rmin, Rmax; repeat destruct (Rle_dec _ _); Lra.lra).
  replace (Rmax (-2) (Rmin (-1) (1 + 1))) with (-1)%R by (unfold Rmin, Rmax; repeat destruct (Rle_dec _ _); Lra.lra).
  replace (Rmax (-1) (Rmin 3 1)) with 1%R by (unfold Rmin, Rmax; repeat destruct (Rle_dec _ _); Lra.lra).
  replace (Rmax (-1) (Rmin 3 (1 + 1))) with 2%R by (unfold Rmin, Rmax; repeat destruct (Rle_dec _ _); Lra.lra).
  rewrite !strip_empty. unfold strip.
  replace (sgn (-2) 0 (-1) 4 3 0) with 1%R by (unfold sgn, height, edge; destruct (Rle_dec _ _) as [|N]; [reflexivity|exfalso; apply N; Lra.lra]).
  assert (E1 : edge (-2) 0 3 0 1 = 0%R) by (unfold edge; Lra.lra).
  assert (E2 : edge (-2) 0 3 0 2 = 0%R) by (unfold edge; Lra.lra).
  assert (F1 : fall (-2) 0 (-1) 4 3 0 1 = 2%R) by (unfold fall, height, edge; field).
  assert (F2 : fall (-2) 0 (-1) 4 3 0 2 = 1%R) by (unfold fall, height, edge; field).
  rewrite E1, E2, F1, F2. rewrite (mean_pos_high (0 + 1 - 0)), (mean_pos_low (0 + 1 - 2)), (mean_pos_low (0 - 0)), (mean_pos_low (0 - 2)) by Lra.lra. Lra.lra.
Qed.
Theorem C87_clipped_refuted : exists x1 x2 x3 y1 y2 y3 amp m0 m1 w k q,
  (1 <= k < m0)%Z /\ (0 <= q < m1)%Z /\ 0 <= y1 /\ 0 <= y2 /\ 0 <= y3 /\
  triangle_interpolation2D x1 x2 x3 y1 y2 y3 amp m0 m1 = Some w /\
  triangle_area (Q2R x1, Q2R y1) (Q2R x2, Q2R y2) (Q2R x3, Q2R y3) <> 0%R /\
  ~ share_close (Q2R amp) (Q2R x1, Q2R y1) (Q2R x2, Q2R y2) (Q2R x3, Q2R y3) k q (Q2R (cell w m1 k q)).
Proof.
  exists (-(2)), (-(1)), 3, 0, 4, 0, 10, 5%Z, 6%Z. eexists. exists 1%Z, 0%Z.
  split; [lia|]. split; [lia|]. do 3 (split; [Lqa.lra|]). split; [vm_compute; reflexivity|].
  assert (A : triangle_area (Q2R (-(2)), Q2R 0) (Q2R (-(1)), Q2R 4) (Q2R 3, Q2R 0) = 10%R).
  { unfold triangle_area, Q2R. cbn. rewrite Rabs_left; Lra.lra. }
  split; [rewrite A; Lra.lra|]. intros [part [H1 H2]]. rewrite A in H2. rewrite (area_unique _ _ _ _ _ _ _ _ _ H1 witness_area) in H2.
  match type of H2 with (Rabs (Q2R ?c - _) <= _)%R => assert (C : Q2R c = (9 / 10)%R) by (transitivity (Q2R (9 # 10)); [apply Qeq_eqR; vm_compute; reflexivity|unfold Q2R; cbn; Lra.lra]); rewrite C in H2; clear C end.
  assert (T : Q2R 10 = 10%R) by (unfold Q2R; cbn; Lra.lra). rewrite T in H2.
  rewrite (Rabs_pos_eq 10) in H2 by Lra.lra. rewrite Rabs_left in H2 by Lra.lra. Lra.lra.
Qed.
Print Assumptions C87_clipped_refuted.

(** C88.  The additions of a whole site: every pair of sidebands and every octant.  [calls]: the interpolations made;
    [c_f0 c p], [c_f1 c p]: the position of orientation p (C27).  When every sideband's centre is inside its window and
    every position is at least half a bin inside, the spectrum adds up to the sum over pairs of sidebands, octants and triangles of the
    products of the sideband amplitudes of all events and the weights of the orientations. *)
Theorem C88_pattern_total_partial :
  forall (nt n_oct nsb : nat) (a : Q * Q * Q * Q) (gamma : Q) (d0 d1 : sdim) (R0 R1 : Q) (vrA vrB freq0 freq1 : nat -> Q)
    (ev0 ev1 : list (nat -> Q)) (weight : nat -> Q) (w : writes),
  spectrum_2d nt n_oct nsb a gamma d0 d1 R0 R1 vrA vrB freq0 freq1 ev0 ev1 weight = Some w ->
  let calls := averaging_2d a gamma d0 d1 (n_pts nt) n_oct nsb R0 R1 vrA vrB freq0 freq1 (event_product ev0) (event_product ev1) weight in
  (forall i k, (i < nsb)%nat -> (k < nsb)%nat ->
     let '(centre0, centre1) := affine_offsets a (R0 + vrA i * inverse_increment d0) (R1 + vrB k * inverse_increment d1)
                                  (normalize_offset gamma d0) (normalize_offset gamma d1) in
     in_range centre0 (sd_count d0) = true /\ in_range centre1 (sd_count d1) = true) ->
  (forall l c p, In (l, c) calls -> (p < n_pts nt)%nat -> interior (c_f0 c p) (sd_count d0) /\ interior (c_f1 c p) (sd_count d1)) ->
  total2D w (sd_count d0) (sd_count d1) == pattern2D_amplitude nt n_oct nsb (product ev0) (product ev1) weight.
Proof.
  intros nt n_oct nsb a gamma d0 d1 R0 R1 vrA vrB freq0 freq1 ev0 ev1 weight w H calls HW HI.
  rewrite (spectrum_total _ _ _ _ _ _ _ _ _ _ _ _ _ _ _ _ _ H HI).
  rewrite (all_calls _ _ _ _ _ _ _ _ _ _ _ _ _ _ _ _ (fun f => qsum (map (vertex_sum f) (grid_tris nt)))).
  - unfold pattern2D_amplitude. apply qsum_ext. intros i _. apply qsum_ext. intros k _. apply qsum_ext. intros j _.
    apply qsum_ext. intros t _. apply vertex_sum_ext. intros p. unfold call_amps. rewrite !event_product_eq. ring.
  - intros g h E. apply qsum_ext. intros t _. apply vertex_sum_ext. exact E.
  - exact HW.
Qed.
Print Assumptions C88_pattern_total_partial.

(** C88, safety: the additions of a whole site stay inside the array of count0 * count1 elements (up to zero added one past the end). *)
Theorem C88_additions_inside :
  forall (nt n_oct nsb : nat) (a : Q * Q * Q * Q) (gamma : Q) (d0 d1 : sdim) (R0 R1 : Q) (vrA vrB freq0 freq1 : nat -> Q)
    (ev0 ev1 : list (nat -> Q)) (weight : nat -> Q) (w : writes), (0 < sd_count d0)%Z -> (0 <= sd_count d1)%Z ->
  spectrum_2d nt n_oct nsb a gamma d0 d1 R0 R1 vrA vrB freq0 freq1 ev0 ev1 weight = Some w ->
  Forall (safe_write (sd_count d0 * sd_count d1)) w.
Proof.
  intros nt n_oct nsb a gamma d0 d1 R0 R1 vrA vrB freq0 freq1 ev0 ev1 weight w H0 H1 H.
  exact (spectrum_safe _ _ _ _ _ _ _ _ _ _ _ _ _ _ _ _ _ H H0 H1).
Qed.
Print Assumptions C88_additions_inside.

Definition dim9 : sdim := {| sd_count := 9; sd_width := 90; sd_ref := 0; sd_origin := None |}.
Definition dim8 : sdim := {| sd_count := 8; sd_width := 40; sd_ref := 0; sd_origin := None |}.
Definition wave (p : nat) : Q := inject_Z (Z.of_nat (p mod 5)) / 3 - (2 # 3).
Definition slope (p : nat) : Q := inject_Z (Z.of_nat (p mod 3)) / 2 - (1 # 2).
(** Two sidebands, two octants, two events along the first dimension, a shear. *)
Definition ramp (k : nat) : Q := inject_Z (Z.of_nat k).
Definition inside_b (x : Q) (m : Z) : bool := Qle_bool half x && Qle_bool x (zq m - half).
Example C88_example : exists w,
  spectrum_2d 1 2 2 (1, 1 # 2, 0, 1) 1 dim9 dim8 0 0 (fun i => inject_Z (Z.of_nat i) * 10) (fun i => inject_Z (Z.of_nat i) * 5) wave slope
    [ramp; (fun _ => 2)] [(fun _ => 3)] ramp = Some w /\ total2D w 9 8 == pattern2D_amplitude 1 2 2 (product [ramp; (fun _ => 2)]) (product [(fun _ => 3)]) ramp /\ 0 < pattern2D_amplitude 1 2 2 (product [ramp; (fun _ => 2)]) (product [(fun _ => 3)]) ramp.
Proof.
  destruct (spectrum_2d 1 2 2 (1, 1 # 2, 0, 1) 1 dim9 dim8 0 0 (fun i => inject_Z (Z.of_nat i) * 10) (fun i => inject_Z (Z.of_nat i) * 5) wave slope
    [ramp; (fun _ => 2)] [(fun _ => 3)] ramp) as [w|] eqn:E.
  2: { exfalso. apply (f_equal (fun o => match o with Some _ => true | None => false end)) in E. vm_compute in E. discriminate E. }
  exists w. split; [reflexivity|]. split; [|vm_compute; reflexivity].
  refine (C88_pattern_total_partial _ _ _ _ _ dim9 dim8 _ _ _ _ _ _ _ _ _ _ E _ _).
  - intros i k Hi Hk. destruct i as [|[|]]; [| |lia]; (destruct k as [|[|]]; [| |lia]); vm_compute; split; reflexivity.
  - intros l c p HI Hp.
    match type of HI with In _ ?calls =>
      assert (A : forallb (fun lc => forallb (fun p => inside_b (c_f0 (snd lc) p) 9 && inside_b (c_f1 (snd lc) p) 8) (seq 0 3)) calls = true) by (vm_compute; reflexivity) end.
    rewrite forallb_forall in A. specialize (A _ HI). cbn [snd] in A. rewrite forallb_forall in A.
    assert (Hs : In p (seq 0 3)) by (apply in_seq; change (n_pts 1) with 3%nat in Hp; lia).
    specialize (A _ Hs). unfold inside_b in A. rewrite !andb_true_iff, !Qle_bool_iff in A. unfold interior. change (sd_count dim9) with 9%Z. change (sd_count dim8) with 8%Z.
    destruct A as ((A1 & A2) & A3 & A4). unfold half, zq in *; repeat split; Lqa.lra.
Qed.

(** C88 fails when a sideband's centre is outside the window: its whole pattern is dropped, also what lies inside. *)
Theorem C88_centre_refuted : exists nt n_oct nsb a gamma d0 d1 R0 R1 vrA vrB freq0 freq1 ev0 ev1 weight w,
  spectrum_2d nt n_oct nsb a gamma d0 d1 R0 R1 vrA vrB freq0 freq1 ev0 ev1 weight = Some w /\
  (forall i k p, (i < nsb)%nat -> (k < nsb)%nat -> (p < n_oct * n_pts nt)%nat ->
     let '(centre0, centre1) := affine_offsets a (R0 + vrA i * inverse_increment d0) (R1 + vrB k * inverse_increment d1)
                                  (normalize_offset gamma d0) (normalize_offset gamma d1) in
     let '(f0, f1) := affine_local a (freq0 p) (freq1 p) in
     interior (f0 + centre0) (sd_count d0) /\ interior (f1 + centre1) (sd_count d1)) /\
  ~ total2D w (sd_count d0) (sd_count d1) == pattern2D_amplitude nt n_oct nsb (product ev0) (product ev1) weight.
Proof.
  exists 1%nat, 1%nat, 1%nat, (1, 0, 0, 1), 1, dim9, dim8, 7, 0, (fun _ => 0), (fun _ => 0), (fun _ => -(5)), (fun _ => 0), [], [], (fun _ => 1), [].
  split; [vm_compute; reflexivity|]. split; [|vm_compute; discriminate].
  intros i k p _ _ _. vm_compute. repeat split; discriminate.
Qed.
Print Assumptions C88_centre_refuted.

(** C88, what is read: for one octant every amplitude read is an element of the arrays. *)
Theorem C88_reads_inside_partial :
  forall (nt nsb i r : nat), (i < nsb)%nat -> In r (amplitude_reads nt 1 i 0) -> (r < amplitude_size nt 1 nsb)%nat.
Proof.
  intros nt nsb i r Hi Hr. unfold amplitude_reads in Hr. apply in_map_iff in Hr. destruct Hr as [p [<- Hp]]. apply in_seq in Hp.
  unfold amplitude_size. rewrite !Nat.mul_1_l in *. nia.
Qed.
Print Assumptions C88_reads_inside_partial.
(** With more octants the code reads past the end of the arrays of sideband amplitudes, whatever the density and the number of
    sidebands. *)
Theorem C88_reads_refuted :
  forall (nt n_oct nsb : nat), (2 <= n_oct)%nat -> (1 <= nsb)%nat ->
  exists i j r, (i < nsb)%nat /\ (j < n_oct)%nat /\ In r (amplitude_reads nt n_oct i j) /\ (amplitude_size nt n_oct nsb <= r)%nat.
Proof.
  intros nt n_oct nsb H2 H1. exists (nsb - 1)%nat, 1%nat, ((nsb - 1) * (n_oct * n_pts nt) + 1 * n_pts nt + (n_oct * n_pts nt - 1))%nat.
  assert (N : (0 < n_pts nt)%nat) by (rewrite n_pts_T; pose proof (T_twice (nt + 1)); nia).
  split; [lia|]. split; [lia|]. split.
  - unfold amplitude_reads. apply in_map_iff. exists (n_oct * n_pts nt - 1)%nat. split; [reflexivity|]. apply in_seq. nia.
  - unfold amplitude_size. nia.
Qed.
Print Assumptions C88_reads_refuted.
