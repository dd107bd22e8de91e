(** C22-C24, C60-C62: the powder averaging scheme. *)
From Coq Require Import ZArith QArith Qabs Bool List Reals Lia Lqa Lra.
From Verif Require Import InterpModel InterpSpec PowderModel InterpProofs WalkProofs DeltaProofs PowderProofs PowderRProofs.
Import ListNotations.
Open Scope Q_scope.

(** C22.  [grid_tris nt]: the triangles of the face (C21); [vertex_sum w t]: sum of the weights of the vertices of t.
    With infinite spinning or a static sample (one sideband), every frequency inside the window and the plan's weights, the
    spectrum adds up to the triangle sum of the scheme's weights w, whatever the frequencies and the number of octants. *)
Theorem C22_pattern_total_partial :
  forall (nt n_oct : nat) (offset_0 : Q) (vr freq w sb : nat -> Q) (count : Z) (out : writes),
  (1 <= n_oct)%nat ->
  averaging_1d nt n_oct 1 offset_0 vr freq (norm_amplitudes 1 n_oct w) sb count = Some out ->
  let delta := is_delta nt (n_pts nt) freq in
  let centre0 := (if delta then offset_0 + freq 0%nat else offset_0) + vr 0%nat in
  in_window centre0 count = true ->
  (if delta then interior centre0 count
   else forall p, (p < n_oct * n_pts nt)%nat -> 0 <= freq p + (offset_0 + vr 0%nat) /\ freq p + (offset_0 + vr 0%nat) < zq count) ->
  total out count == qsum (map (vertex_sum w) (grid_tris nt)).
Proof.
  intros nt n_oct offset_0 vr freq w sb count out H1 E delta centre0 HW HF.
  rewrite <- vertex_sums, <- (pattern_static nt n_oct w sb H1). apply (averaging_total _ _ _ _ _ _ _ _ _ _ E).
  - intros i Hi. replace i with 0%nat by lia. exact HW.
  - unfold centre0, delta in HF. destruct (is_delta nt (n_pts nt) freq).
    + intros i Hi. replace i with 0%nat by lia. exact HF.
    + intros i p Hi Hp. replace i with 0%nat by lia. apply HF; auto.
Qed.
Print Assumptions C22_pattern_total_partial.

(** C22, any number of sidebands: the sum over sidebands, octants and triangles of the amplitudes; with more than one sideband
    these are the plan's weight of the orientation times the intensity sb of the sideband. *)
Theorem C22_sidebands_total_partial :
  forall (nt n_oct nsb : nat) (offset_0 : Q) (vr freq norm sb : nat -> Q) (count : Z) (out : writes),
  averaging_1d nt n_oct nsb offset_0 vr freq norm sb count = Some out ->
  (forall i, (i < nsb)%nat -> in_window ((if is_delta nt (n_pts nt) freq then offset_0 + freq 0%nat else offset_0) + vr i) count = true) ->
  (if is_delta nt (n_pts nt) freq
   then forall i, (i < nsb)%nat -> interior (offset_0 + freq 0%nat + vr i) count
   else forall i p, (i < nsb)%nat -> (p < n_oct * n_pts nt)%nat ->
        0 <= freq p + (offset_0 + vr i) /\ freq p + (offset_0 + vr i) < zq count) ->
  total out count == pattern_amplitude nt n_oct nsb
    (fun k => if Nat.eqb nsb 1 then norm (k mod n_pts nt)%nat else norm (k mod n_pts nt)%nat * sb k).
Proof.
  intros nt n_oct nsb offset_0 vr freq norm sb count out H1 H2 H3. rewrite (averaging_total _ _ _ _ _ _ _ _ _ _ H1 H2 H3).
  apply pattern_eq. intros k. unfold amps_1d. destruct nsb as [|[|n]]; cbn [Nat.eqb]; ring.
Qed.
Print Assumptions C22_sidebands_total_partial.

Example C22_example : exists out,
  averaging_1d 1 4 1 5 (fun _ => 0) (fun p => inject_Z (Z.of_nat (p mod 5)) - 2) (norm_amplitudes 1 4 (fun _ => 1)) (fun _ => 0) 10 = Some out /\
  is_delta 1 (n_pts 1) (fun p => inject_Z (Z.of_nat (p mod 5)) - 2) = false /\ total out 10 == 3.
Proof. eexists. split; [vm_compute; reflexivity|]. split; vm_compute; reflexivity. Qed.

(** C22 fails: the weights are not normalised to one, and their triangle sum depends on the density. *)
Theorem C22_normalised_refuted :
  get_total_amplitude 1 (fun i => nth i (amplitudes 1) 0%R) = Some 3%R /\
  exists t, get_total_amplitude 2 (fun i => nth i (amplitudes 2) 0%R) = Some t /\ (t > 3)%R.
Proof. split; [exact total_1|]. eexists. split; [exact total_2|]. exact total_2_not_3. Qed.
Print Assumptions C22_normalised_refuted.

(** C23. *)
Theorem C23_orientations :
  forall nt : nat, (1 <= nt)%nat ->
  (2 * List.length (cosine_squares nt) = (nt + 1) * (nt + 2))%nat /\ List.length (amplitudes nt) = List.length (cosine_squares nt) /\
  (forall x y z, In (x, y, z) (cosine_squares nt) -> 0 <= x /\ 0 <= y /\ 0 <= z /\ x + y + z == 1) /\
  (forall i j d, (i < List.length (cosine_squares nt))%nat -> (j < List.length (cosine_squares nt))%nat ->
     eq3 (nth i (cosine_squares nt) d) (nth j (cosine_squares nt) d) -> i = j).
Proof.
  intros nt H. rewrite cosine_length, amplitudes_length. split; [|split; [auto|split]].
  - rewrite n_pts_T, T_twice. lia.
  - intros x y z. exact (cosine_unit nt (x, y, z) H).
  - intros i j d. apply cosine_distinct; auto.
Qed.
Print Assumptions C23_orientations.

(** C23.  The orientation with number [point nt r c] is the direction of the grid point (nt-c-r, c, r): neighbours on the
    grid are neighbouring orientations. *)
Theorem C23_grid :
  forall (nt r c : nat) d, (1 <= nt)%nat -> (r <= nt)%nat -> (c <= nt - r)%nat ->
  let x := sq (nt - c - r) in let y := sq c in let z := sq r in
  eq3 (nth (point nt r c) (cosine_squares nt) d) (x / (x + y + z), y / (x + y + z), z / (x + y + z)).
Proof. intros nt r c d. exact (cosine_nth nt r c d). Qed.
Print Assumptions C23_grid.

Example C23_example : cosine_squares 1 = [(1 # 1, 0 # 1, 0 # 1); (0 # 1, 1 # 1, 0 # 1); (0, 0, 1)].
Proof. vm_compute. reflexivity. Qed.

(** C24. *)
Theorem C24_orientations_count :
  forall (n : nat) (v : volume), get_orientations_count n v = Z.of_nat (total_orientations n v).
Proof. exact orientations_count. Qed.
Print Assumptions C24_orientations_count.
(** The plan and the scheme agree: every octant the plan counts has the orientations of one octant, and the scheme's total is theirs. *)
Theorem C24_octants : forall (n : nat) (v : volume), total_orientations n v = (n_octants v * octant_orientations n)%nat.
Proof. intros n []; unfold total_orientations, n_octants; lia. Qed.
Print Assumptions C24_octants.

Example C24_example : get_orientations_count 20 Hemisphere = 924%Z.
Proof. vm_compute. reflexivity. Qed.

Open Scope R_scope.
(** C60.  Away from the pole, exp(I alpha) and exp(I beta) are unit phases and give back the direction cosines. *)
Theorem C60_phases_partial :
  forall x y z : R, 0 <= x -> 0 <= y -> 0 <= z -> x + y + z = 1 -> 0 < x + y ->
  let '(cb, sb) := exp_I_beta (x, y, z) in let '(ca, sa) := exp_I_alpha false (x, y, z) in
  cb * cb + sb * sb = 1 /\ ca * ca + sa * sa = 1 /\
  sb * ca = sqrt x /\ sb * sa = sqrt y /\ cb = sqrt z.
Proof.
  intros x y z Hx Hy Hz H1 Hxy. pose proof (exp_beta_unit x y z Hx Hy Hz H1) as B. pose proof (exp_alpha_unit x y z Hx Hy Hxy) as A.
  pose proof (exp_direction x y z Hx Hy Hz Hxy) as D.
  destruct (exp_I_beta (x, y, z)) as [cb sb]. destruct (exp_I_alpha false (x, y, z)) as [ca sa].
  destruct A as [A _]. destruct B as [B _]. tauto.
Qed.
Print Assumptions C60_phases_partial.
Example C60_example : 0 <= 1/2 /\ 0 <= 1/4 /\ 0 <= 1/4 /\ 1/2 + 1/4 + 1/4 = 1 /\ 0 < 1/2 + 1/4.
Proof. lra. Qed.

(** C60 fails at the pole: exp(I alpha) is zero. *)
Theorem C60_pole_refuted : let '(ca, sa) := exp_I_alpha true (0, 0, 1) in ca * ca + sa * sa <> 1.
Proof. cbn. lra. Qed.
Print Assumptions C60_pole_refuted.
Close Scope R_scope.

(** C61.  A wider window leaves the bins of the narrower one unchanged, when every sideband centre is inside the narrower one
    and the pattern is not taken for a delta. *)
Theorem C61_sideband_window_partial :
  forall (nt n_oct nsb : nat) (offset_0 : Q) (vr freq norm sb : nat -> Q) (n n' k : Z) (w w' : writes),
  (0 <= k < n)%Z -> (n <= n')%Z -> is_delta nt (n_pts nt) freq = false ->
  (forall i, (i < nsb)%nat -> in_window (offset_0 + vr i) n = true) ->
  averaging_1d nt n_oct nsb offset_0 vr freq norm sb n = Some w ->
  averaging_1d nt n_oct nsb offset_0 vr freq norm sb n' = Some w' -> deposit w k == deposit w' k.
Proof. exact averaging_window. Qed.
Print Assumptions C61_sideband_window_partial.

Example C61_example : exists w w',
  averaging_1d 1 1 1 2 (fun _ => 0) (fun p => inject_Z (Z.of_nat p)) (fun _ => 1) (fun _ => 0) 4 = Some w /\
  averaging_1d 1 1 1 2 (fun _ => 0) (fun p => inject_Z (Z.of_nat p)) (fun _ => 1) (fun _ => 0) 8 = Some w' /\
  is_delta 1 (n_pts 1) (fun p => inject_Z (Z.of_nat p)) = false /\ deposit w 2 == 3 # 2.
Proof. eexists; eexists. split; [vm_compute; reflexivity|]. split; [vm_compute; reflexivity|]. split; vm_compute; reflexivity. Qed.

(** C61 fails when a sideband centre is outside the window: its part inside the window is dropped. *)
Theorem C61_sideband_window_refuted :
  exists nt n_oct nsb offset_0 vr freq norm sb n n' k w w',
  (0 <= k < n)%Z /\ (n <= n')%Z /\ is_delta nt (n_pts nt) freq = false /\
  averaging_1d nt n_oct nsb offset_0 vr freq norm sb n = Some w /\
  averaging_1d nt n_oct nsb offset_0 vr freq norm sb n' = Some w' /\ deposit w k == 0 /\ 0 < deposit w' k.
Proof.
  exists 1%nat, 1%nat, 1%nat, 6, (fun _ => 0), (fun p => inject_Z (Z.of_nat p) * (- 2)), (fun _ => 1), (fun _ => 0), 4%Z, 8%Z, 3%Z.
  eexists; eexists. split; [lia|]. split; [lia|]. split; [vm_compute; reflexivity|]. split; [vm_compute; reflexivity|].
  split; [vm_compute; reflexivity|]. split; vm_compute; reflexivity.
Qed.
Print Assumptions C61_sideband_window_refuted.

(** C62.  The delta shortcut is not taken when two of the three corners of the first octant differ by TOL or more. *)
Theorem C62_delta_shortcut_partial :
  forall (nt : nat) (freq : nat -> Q),
  TOL <= Qabs (freq 0%nat - freq nt) \/ TOL <= Qabs (freq 0%nat - freq (n_pts nt - 1)%nat) ->
  is_delta nt (n_pts nt) freq = false.
Proof.
  intros nt freq H. unfold is_delta. apply andb_false_iff. destruct H as [H|H]; [left|right];
  (destruct (Qltb_spec (Qabs (freq 0%nat - freq nt)) TOL) as [A|A]; destruct (Qltb_spec (Qabs (freq 0%nat - freq (n_pts nt - 1)%nat)) TOL) as [B|B];
   auto; exfalso; apply Qle_not_lt in H; contradiction).
Qed.
Print Assumptions C62_delta_shortcut_partial.
Example C62_example : TOL <= Qabs (inject_Z 0 - inject_Z 2).
Proof. vm_compute. congruence. Qed.

(** C62 fails: the pattern 2*(xy+yz+zx) (an axially symmetric tensor along (1,1,1)) has equal values at the three
    corners, and is collapsed to a single peak although it spreads over several bins. *)
Theorem C62_delta_shortcut_refuted :
  exists (nt : nat) (freq : nat -> Q) out, (forall i, (i < n_pts nt)%nat -> freq i == nth i [0; 4; 0; 4; 4; 0] 0) /\ nt = 2%nat /\
  averaging_1d nt 1 1 (1 + half) (fun _ => 0) freq (fun _ => 1) (fun _ => 0) 8 = Some out /\
  deposit out 1 == total out 8 /\
  exists out', octahedron_interpolation nt (fun p => freq p + (1 + half)) (fun _ => 1) 8 = Some out' /\ 0 < deposit out' 4.
Proof.
  exists 2%nat, (fun i => nth i [0; 4; 0; 4; 4; 0] 0). eexists. split; [intros; reflexivity|]. split; [auto|].
  split; [vm_compute; reflexivity|]. split; [vm_compute; reflexivity|]. eexists. split; vm_compute; reflexivity.
Qed.
Print Assumptions C62_delta_shortcut_refuted.
