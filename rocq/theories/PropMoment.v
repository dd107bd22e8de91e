(** C112: the centre of gravity of a powder pattern. *)
From Coq Require Import ZArith QArith Qabs Bool List Lia Lqa.
From Verif Require Import InterpModel InterpSpec PowderModel InterpProofs WalkProofs DeltaProofs PowderProofs PowderMoment.
Import ListNotations.
Open Scope Q_scope.

(** Positions are counted in bins from the left end of the spectrum; [moment centre out count] is the sum over the bins of centre
    times content; [over_pattern]: the sum over sidebands, octants and triangles of the face (C21); [triangle_mean]: the mean over
    the three vertices. *)

(** One triangle with its vertices inside the spectrum: the content is centred, to half a bin, on the mean of its three frequencies. *)
Theorem C112_triangle :
  forall (a b c amp : Q) (points : Z), 0 <= a -> 0 <= b -> 0 <= c -> a < zq points -> b < zq points -> c < zq points ->
  Qabs (moment centre (triangle a b c amp points) points - amp * ((a + b + c) / 3)) <= Qabs amp * (1 # 2).
Proof. exact triangle_moment. Qed.
Print Assumptions C112_triangle.
Example C112_triangle_example : moment centre (triangle 1 (5 # 2) 4 3 6) 6 == 3 * ((1 + (5 # 2) + 4) / 3).
Proof. vm_compute. reflexivity. Qed.

(** The pattern of one spin system and event, any sidebands, weights of either sign, not taken for a delta. *)
Theorem C112_pattern_partial :
  forall (nt n_oct nsb : nat) (offset_0 : Q) (vr freq norm sb : nat -> Q) (count : Z) (out : writes),
  averaging_1d nt n_oct nsb offset_0 vr freq norm sb count = Some out ->
  is_delta nt (n_pts nt) freq = false ->
  (forall i, (i < nsb)%nat -> in_window (offset_0 + vr i) count = true) ->
  (forall i p, (i < nsb)%nat -> (p < n_oct * n_pts nt)%nat -> 0 <= freq p + (offset_0 + vr i) /\ freq p + (offset_0 + vr i) < zq count) ->
  let weight i j := vertex_sum (fun p => let k := (i * (n_oct * n_pts nt) + j * n_pts nt + p)%nat in if Nat.eqb nsb 1 then norm (k mod n_pts nt)%nat else norm (k mod n_pts nt)%nat * sb k) in
  let position i j := triangle_mean (fun p => offset_0 + vr i + freq (j * n_pts nt + p)%nat) in
  Qabs (moment centre out count - over_pattern nt n_oct nsb (fun i j t => weight i j t * position i j t)) <=
  (1 # 2) * over_pattern nt n_oct nsb (fun i j t => Qabs (weight i j t)).
Proof.
  intros nt n_oct nsb o vr freq norm sb count out H D HW HF weight position.
  pose proof (averaging_moment nt n_oct nsb o vr freq norm sb count out H) as M. cbn zeta in M. rewrite D in M. specialize (M HW HF).
  assert (W : forall i j t, vertex_sum (fun p => amps_1d nsb (n_pts nt) norm sb (i * (n_oct * n_pts nt) + j * n_pts nt + p)%nat) t == weight i j t).
  { intros i j [[a b] c]. unfold weight, vertex_sum, amps_1d. cbn zeta. destruct nsb as [|[|n]]; cbn [Nat.eqb]; reflexivity. }
  assert (P : forall i j t, triangle_mean (fun p => freq (j * n_pts nt + p)%nat + (o + vr i)) t == position i j t).
  { intros i j [[a b] c]. unfold position, triangle_mean. field. }
  assert (C : forall g g', (forall i j t, g i j t == g' i j t) -> over_pattern nt n_oct nsb g == over_pattern nt n_oct nsb g').
  { intros g g' E. unfold over_pattern. apply qsum_ext; intros i _. apply qsum_ext; intros j _. apply qsum_ext; intros t _. apply E. }
  match type of M with Qabs (_ - ?x) <= ?y => assert (E1 : x == over_pattern nt n_oct nsb (fun i j t => weight i j t * position i j t)); [apply C; intros i j t; rewrite W, P; reflexivity|];
    assert (E2 : y == over_pattern nt n_oct nsb (fun i j t => (1 # 2) * Qabs (weight i j t))); [apply C; intros i j t; rewrite W; reflexivity|] end.
  rewrite E1, E2 in M.
  eapply Qle_trans; [exact M|]. unfold over_pattern. rewrite <- qsum_scale. apply Qle_lteq. right. apply qsum_ext. intros i _. rewrite <- qsum_scale. apply qsum_ext. intros j _. rewrite <- qsum_scale. reflexivity.
Qed.
Print Assumptions C112_pattern_partial.

(** With weights that are not negative and do not all vanish, the centre of gravity of the spectrum lies within half a bin of the
    weighted mean of the frequencies, hence within half a bin of the interval they span. *)
Theorem C112_centre_partial :
  forall (nt n_oct nsb : nat) (offset_0 : Q) (vr freq norm sb : nat -> Q) (count : Z) (out : writes) (lo hi : Q),
  averaging_1d nt n_oct nsb offset_0 vr freq norm sb count = Some out ->
  is_delta nt (n_pts nt) freq = false ->
  (forall i, (i < nsb)%nat -> in_window (offset_0 + vr i) count = true) ->
  (forall i p, (i < nsb)%nat -> (p < n_oct * n_pts nt)%nat -> 0 <= freq p + (offset_0 + vr i) /\ freq p + (offset_0 + vr i) < zq count) ->
  (forall p, 0 <= norm p) -> (forall k, 0 <= sb k) -> 0 < total out count ->
  let weight i j := vertex_sum (fun p => let k := (i * (n_oct * n_pts nt) + j * n_pts nt + p)%nat in if Nat.eqb nsb 1 then norm (k mod n_pts nt)%nat else norm (k mod n_pts nt)%nat * sb k) in
  let position i j := triangle_mean (fun p => offset_0 + vr i + freq (j * n_pts nt + p)%nat) in
  let mean := over_pattern nt n_oct nsb (fun i j t => weight i j t * position i j t) / over_pattern nt n_oct nsb weight in
  Qabs (moment centre out count / total out count - mean) <= 1 # 2 /\
  ((forall i p, (i < nsb)%nat -> (p < n_oct * n_pts nt)%nat -> lo <= offset_0 + vr i + freq p /\ offset_0 + vr i + freq p <= hi) -> lo <= mean /\ mean <= hi).
Proof.
  intros nt n_oct nsb o vr freq norm sb count out lo hi H D HW HF Hn Hs HT weight position mean.
  pose proof (C112_pattern_partial nt n_oct nsb o vr freq norm sb count out H D HW HF) as M. cbn zeta in M. fold weight position in M.
  assert (T : total out count == over_pattern nt n_oct nsb weight).
  { pose proof (averaging_total nt n_oct nsb o vr freq norm sb count out H) as X. rewrite D in X. rewrite (X HW HF). rewrite (pattern_eq _ _ _ _ (fun k => if Nat.eqb nsb 1 then norm (k mod n_pts nt)%nat else norm (k mod n_pts nt)%nat * sb k)).
    - reflexivity.
    - intros k. unfold amps_1d. destruct nsb as [|[|n]]; cbn [Nat.eqb]; reflexivity. }
  assert (W0 : forall i j t, 0 <= weight i j t).
  { intros i j [[a b] c]. unfold weight, vertex_sum. cbn zeta. destruct (Nat.eqb nsb 1).
    - pose proof (Hn ((i * (n_oct * n_pts nt) + j * n_pts nt + a) mod n_pts nt)%nat). pose proof (Hn ((i * (n_oct * n_pts nt) + j * n_pts nt + b) mod n_pts nt)%nat). pose proof (Hn ((i * (n_oct * n_pts nt) + j * n_pts nt + c) mod n_pts nt)%nat). lra.
    - assert (G : forall k, 0 <= norm (k mod n_pts nt)%nat * sb k) by (intros k; apply Qmult_le_0_compat; auto).
      pose proof (G (i * (n_oct * n_pts nt) + j * n_pts nt + a)%nat). pose proof (G (i * (n_oct * n_pts nt) + j * n_pts nt + b)%nat). pose proof (G (i * (n_oct * n_pts nt) + j * n_pts nt + c)%nat). lra. }
  assert (A : over_pattern nt n_oct nsb (fun i j t => Qabs (weight i j t)) == over_pattern nt n_oct nsb weight).
  { unfold over_pattern. apply qsum_ext; intros i _. apply qsum_ext; intros j _. apply qsum_ext; intros t _. apply Qabs_pos, W0. }
  rewrite A in M. rewrite T in HT. unfold mean. rewrite T. set (S := over_pattern nt n_oct nsb weight) in *. set (P := over_pattern nt n_oct nsb (fun i j t => weight i j t * position i j t)) in *. split.
  - apply Qabs_Qle_condition in M. apply Qabs_Qle_condition. assert (E : moment centre out count / S - P / S == (moment centre out count - P) / S) by (field; lra). rewrite E. split.
    + apply Qle_shift_div_l; [auto|]. lra.
    + apply Qle_shift_div_r; [auto|]. lra.
  - intros HB. assert (MONO : forall g g', (forall i j t, (i < nsb)%nat -> (j < n_oct)%nat -> In t (grid_tris nt) -> g i j t <= g' i j t) -> over_pattern nt n_oct nsb g <= over_pattern nt n_oct nsb g').
    { intros g g' E. unfold over_pattern. assert (Q : forall A (l : list A) (f f' : A -> Q), (forall x, In x l -> f x <= f' x) -> qsum (map f l) <= qsum (map f' l)).
      { clear. unfold qsum. induction l as [|x l IH]; intros f f' E; cbn [map fold_right]; [lra|]. assert (f x <= f' x) by (apply E; left; auto). assert (G := IH f f' (fun y Hy => E y (or_intror Hy))). lra. }
      apply Q. intros i Hi. apply Q. intros j Hj. apply Q. intros t Ht. apply in_seq in Hi, Hj. apply E; auto; lia. }
    assert (SC : forall q, over_pattern nt n_oct nsb (fun i j t => q * weight i j t) == q * S).
    { intros q. unfold S, over_pattern. rewrite <- qsum_scale. apply qsum_ext. intros i _. rewrite <- qsum_scale. apply qsum_ext. intros j _. rewrite <- qsum_scale. reflexivity. }
    assert (POS : forall i j t, (i < nsb)%nat -> (j < n_oct)%nat -> In t (grid_tris nt) -> lo <= position i j t /\ position i j t <= hi).
    { intros i j t Hi Hj Ht. assert (Bt : let '(a, b, c) := t in (a < n_pts nt)%nat /\ (b < n_pts nt)%nat /\ (c < n_pts nt)%nat).
      { apply grid_in in Ht. destruct Ht as [r [c [Hr [[Hc ->]|[Hc ->]]]]]; unfold up, down; repeat split; apply point_bound; lia. }
      destruct t as [[a b] c]. destruct Bt as [Ba [Bb Bc]]. unfold position, triangle_mean.
      destruct (HB i (j * n_pts nt + a)%nat Hi ltac:(nia)). destruct (HB i (j * n_pts nt + b)%nat Hi ltac:(nia)). destruct (HB i (j * n_pts nt + c)%nat Hi ltac:(nia)).
      split; [apply Qle_shift_div_l|apply Qle_shift_div_r]; lra. }
    split; [apply Qle_shift_div_l|apply Qle_shift_div_r]; auto; rewrite <- SC; apply MONO; intros i j t Hi Hj Ht; destruct (POS i j t Hi Hj Ht); pose proof (W0 i j t).
    + rewrite (Qmult_comm lo), (Qmult_comm (weight i j t)), (Qmult_comm (weight i j t)). apply Qmult_le_compat_r; auto.
    + rewrite (Qmult_comm (weight i j t)). apply Qmult_le_compat_r; auto.
Qed.
Print Assumptions C112_centre_partial.
Example C112_example : exists out,
  averaging_1d 1 4 2 5 (fun i => inject_Z (Z.of_nat i)) (fun p => inject_Z (Z.of_nat (p mod 5)) - 2) (fun _ => 1) (fun k => inject_Z (Z.of_nat (k mod 3))) 10 = Some out /\
  is_delta 1 (n_pts 1) (fun p => inject_Z (Z.of_nat (p mod 5)) - 2) = false /\ 0 < total out 10 /\
  forallb (fun i => in_window (5 + inject_Z (Z.of_nat i)) 10 && forallb (fun p => let f := inject_Z (Z.of_nat (p mod 5)) - 2 + (5 + inject_Z (Z.of_nat i)) in Qle_bool 0 f && Qltb f 10) (seq 0 12)) (seq 0 2) = true.
Proof. eexists. split; [vm_compute; reflexivity|]. split; [vm_compute; reflexivity|]. split; vm_compute; reflexivity. Qed.

(** A pattern taken for a delta is centred, to the tolerance of the delta test, on the frequency of the first orientation ... *)
Theorem C112_delta :
  forall (nt n_oct nsb : nat) (offset_0 : Q) (vr freq norm sb : nat -> Q) (count : Z) (out : writes),
  averaging_1d nt n_oct nsb offset_0 vr freq norm sb count = Some out ->
  is_delta nt (n_pts nt) freq = true ->
  (forall i, (i < nsb)%nat -> in_window (offset_0 + freq 0%nat + vr i) count = true /\ interior (offset_0 + freq 0%nat + vr i) count) ->
  let weight i j := vertex_sum (fun p => let k := (i * (n_oct * n_pts nt) + j * n_pts nt + p)%nat in if Nat.eqb nsb 1 then norm (k mod n_pts nt)%nat else norm (k mod n_pts nt)%nat * sb k) in
  Qabs (moment centre out count - over_pattern nt n_oct nsb (fun i j t => weight i j t * (offset_0 + freq 0%nat + vr i))) <=
  over_pattern nt n_oct nsb (fun i j t => TOL * Qabs (weight i j t)).
Proof.
  intros nt n_oct nsb o vr freq norm sb count out H D HW weight.
  pose proof (averaging_moment nt n_oct nsb o vr freq norm sb count out H) as M. cbn zeta in M. rewrite D in M. specialize (M (fun i Hi => proj1 (HW i Hi)) (fun i Hi => proj2 (HW i Hi))).
  assert (W : forall i j t, vertex_sum (fun p => amps_1d nsb (n_pts nt) norm sb (i * (n_oct * n_pts nt) + j * n_pts nt + p)%nat) t == weight i j t).
  { intros i j [[a b] c]. unfold weight, vertex_sum, amps_1d. cbn zeta. destruct nsb as [|[|n]]; cbn [Nat.eqb]; reflexivity. }
  assert (C : forall g g', (forall i j t, g i j t == g' i j t) -> over_pattern nt n_oct nsb g == over_pattern nt n_oct nsb g').
  { intros g g' E. unfold over_pattern. apply qsum_ext; intros i _. apply qsum_ext; intros j _. apply qsum_ext; intros t _. apply E. }
  match type of M with Qabs (_ - ?x) <= ?y => assert (E1 : x == over_pattern nt n_oct nsb (fun i j t => weight i j t * (o + freq 0%nat + vr i))); [apply C; intros i j t; rewrite W; reflexivity|];
    assert (E2 : y == over_pattern nt n_oct nsb (fun i j t => TOL * Qabs (weight i j t))); [apply C; intros i j t; rewrite W; reflexivity|] end.
  rewrite E1, E2 in M. exact M.
Qed.
Print Assumptions C112_delta.
Example C112_delta_example : exists out,
  averaging_1d 1 4 1 5 (fun _ => 0) (fun _ => 1 # 3) (fun _ => 1) (fun _ => 0) 10 = Some out /\
  is_delta 1 (n_pts 1) (fun _ => 1 # 3) = true /\ in_window (5 + (1 # 3) + 0) 10 = true /\ interior (5 + (1 # 3) + 0) 10.
Proof. eexists. split; [vm_compute; reflexivity|]. split; [vm_compute; reflexivity|]. split; [vm_compute; reflexivity|split; vm_compute; discriminate]. Qed.

(** ... and not on the mean of the frequencies: the test looks at the three corners of the first octant only.  Here the corners lie
    at 2 and the three mid-points at 5, all well inside ten bins; the mean is 17/4 with the weights used, the spectrum sits at 2. *)
Theorem C112_centre_refuted :
  let freq p := if (p =? 0)%nat || (p =? 2)%nat || (p =? 5)%nat then 0 else 3 in
  exists out, averaging_1d 2 1 1 2 (fun _ => 0) freq (fun _ => 1) (fun _ => 0) 10 = Some out /\
  moment centre out 10 / total out 10 == 2 /\
  over_pattern 2 1 1 (fun _ _ t => vertex_sum (fun _ => 1) t * triangle_mean (fun p => 2 + 0 + freq p) t) / over_pattern 2 1 1 (fun _ _ t => vertex_sum (fun _ => 1) t) == 17 # 4.
Proof. eexists. split; [vm_compute; reflexivity|]. split; vm_compute; reflexivity. Qed.
Print Assumptions C112_centre_refuted.
