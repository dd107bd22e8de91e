(** C117: raising the integration density, the powder average goes to the average over all directions. *)
From Coq Require Import Reals QArith Qreals List ZArith Lia Bool.
From Coquelicot Require Import Coquelicot.
From Verif Require PropFreq PropAverage.
From Verif Require Import InterpModel InterpSpec PowderModel WalkProofs DftModel DftProofs FreqModel PhysSpec PhysLevels FreqSpec.
From Verif Require Import AverageSpec AverageProofs AverageCentre SphereSpec SphereChange SphereProofs SpherePhys.
From Coq Require Import Lra.
Import ListNotations.
Open Scope R_scope.

(** The average over the hemisphere differs from the one over the directions by at most 4182 times the slope of the quantity, divided by the density. *)
Theorem C117_hemisphere : forall (g : (axis -> R) -> R) (L : R) (nt : nat) (alpha beta : nat -> R),
  slope g L -> 0 <= L -> (1 <= nt)%nat -> polar_angles nt alpha beta ->
  Rabs (powder_average nt 4 (fun o => g (towards nt alpha beta o)) - hemisphere_average g) <= 4182 * L / INR nt.
Proof. intros. apply hemisphere_conv; auto. Qed.
Print Assumptions C117_hemisphere.
Theorem C117_octant : forall (g : (axis -> R) -> R) (L : R) (nt : nat) (alpha beta : nat -> R),
  slope g L -> 0 <= L -> (1 <= nt)%nat -> polar_angles nt alpha beta ->
  Rabs (powder_average nt 1 (fun o => g (towards nt alpha beta o)) - octant_average g) <= 4182 * L / INR nt.
Proof. intros. apply octant_conv; auto. Qed.
Print Assumptions C117_octant.
(** The sum of the weights, that the code never divides by (C22), goes to 3 pi. *)
Theorem C117_total : forall nt, (1 <= nt)%nat -> exists t, get_total_amplitude nt (fun i => nth i (amplitudes nt) 0) = Some t /\ Rabs (t - 3 * PI) <= 1182 / INR nt.
Proof. exact total_conv. Qed.
Print Assumptions C117_total.
(** The average of the specification is one: a constant has itself as average, and the average of the element of a tensor is a third of its trace. *)
Theorem C117_constant : forall c, hemisphere_average (fun _ => c) = c /\ octant_average (fun _ => c) = c.
Proof. intros c. unfold hemisphere_average, octant_average. rewrite !over_const. pose proof PI_RGT_0. split; field; lra. Qed.
Print Assumptions C117_constant.
Theorem C117_tensor : forall T, hemisphere_average (element T) = trace T / 3.
Proof.
  intros T. destruct (sloped_element T) as (L & L0 & H). apply Rminus_diag_uniq. apply (small_zero _ (4182 * L)). intros n N. destruct (PropAverage.polar_exists n N) as (al & be & P).
  rewrite Rabs_minus_sym. rewrite <- (PropAverage.C116_tensor n al be T N P). apply (C117_hemisphere (element T) L n al be H L0 N P).
Qed.
Print Assumptions C117_tensor.
(** For example P4(cos beta), whose average at density 1 is 7/12 (C116_rank4_refuted), goes to 0. *)
Lemma P4_slope : sloped (fun u => P4 (u Z)).
Proof.
  assert (S : sloped (fun u => / 8 * (35 * (u Z * u Z * (u Z * u Z)) + ((-30) * (u Z * u Z) + 3)))).
  { repeat first [apply sloped_const | apply sloped_coord | apply sloped_plus | apply sloped_mult]. }
  destruct S as (L & L0 & H). exists L. split; auto. intros u v U V. specialize (H u v U V). unfold P4.
  replace ((35 * u Z ^ 4 - 30 * u Z ^ 2 + 3) / 8) with (/ 8 * (35 * (u Z * u Z * (u Z * u Z)) + ((-30) * (u Z * u Z) + 3))) by field.
  replace ((35 * v Z ^ 4 - 30 * v Z ^ 2 + 3) / 8) with (/ 8 * (35 * (v Z * v Z * (v Z * v Z)) + ((-30) * (v Z * v Z) + 3))) by field. exact H.
Qed.
Lemma P4_average : hemisphere_average (fun u => P4 (u Z)) = 0.
Proof.
  unfold hemisphere_average, over_directions. rewrite (RInt_ext _ (fun _ => 0)); [rewrite RInt_const; unfold scal; cbn; unfold mult; cbn; pose proof PI_RGT_0; field; lra|].
  intros al _. apply (is_RInt_unique (V := R_CompleteNormedModule)). cbn [direction].
  assert (E : is_RInt (fun be => P4 (cos be) * sin be) 0 (PI / 2) (minus ((fun be => - (7 * cos be ^ 5 - 10 * cos be ^ 3 + 3 * cos be) / 8) (PI / 2)) ((fun be => - (7 * cos be ^ 5 - 10 * cos be ^ 3 + 3 * cos be) / 8) 0))).
  { apply (is_RInt_derive (V := R_CompleteNormedModule) (fun be => - (7 * cos be ^ 5 - 10 * cos be ^ 3 + 3 * cos be) / 8)).
    - intros x _. auto_derive; auto. unfold P4. field.
    - intros x _. apply (ex_derive_continuous (V := R_NormedModule)). unfold P4. auto_derive. auto. }
  assert (V : forall v, v = 0 -> is_RInt (fun be => P4 (cos be) * sin be) 0 (PI / 2) v -> is_RInt (fun be => P4 (cos be) * sin be) 0 (PI / 2) 0) by (intros v ->; auto).
  refine (V _ _ E). unfold minus, plus, opp; cbn. rewrite cos_PI2, cos_0. field.
Qed.
Theorem C117_rank4 : forall eps, 0 < eps -> exists N, forall (nt : nat) (alpha beta : nat -> R), (N <= nt)%nat -> polar_angles nt alpha beta -> Rabs (powder_average nt 4 (fun o => P4 (towards nt alpha beta o Z))) < eps.
Proof.
  intros eps E. destruct P4_slope as (L & L0 & H). destruct (archimed_cor1 (eps / (4182 * L + 1))) as (N & HN & NP); [apply Rdiv_lt_0_compat; lra|]. exists N. intros nt al be LE P.
  pose proof (C117_hemisphere _ L nt al be H L0 ltac:(lia) P) as C. rewrite P4_average, Rminus_0_r in C. eapply Rle_lt_trans; [exact C|]. assert (I : / INR nt <= / INR N) by (apply Rinv_le_contravar; [apply lt_0_INR; lia|apply le_INR; auto]).
  assert (F : eps / (4182 * L + 1) * (4182 * L + 1) = eps) by (field; lra). assert (0 < / INR nt) by (apply Rinv_0_lt_compat, lt_0_INR; lia). unfold Rdiv. nra.
Qed.
Print Assumptions C117_rank4.

(** *** Spin systems, with the second order of the quadrupolar interaction; static sample *)
Definition level_difference (second : bool) (B0 : R) (sites : list site) (couplings : list coupling) (ns levels levels' : list nat) (alpha beta : R) : R :=
  system_level second B0 sites couplings (static_frame alpha beta) ns levels' - system_level second B0 sites couplings (static_frame alpha beta) ns levels.
Definition mean_difference (second : bool) (B0 : R) (sites : list site) (couplings : list coupling) (ns levels levels' : list nat) : R :=
  RInt (fun alpha => RInt (fun beta => level_difference second B0 sites couplings ns levels levels' alpha beta * sin beta) 0 (PI / 2)) 0 (2 * PI) / (2 * PI).
Lemma fine_fields second B0 sites ns lv lv' : sites_fine second B0 sites ns lv lv' ->
  (forall s n a, In (s, (n, a)) (combine sites (combine ns lv)) -> (a <= n)%nat /\ (second = true -> B0 * s_gamma s <> 0)) /\ (forall s n a, In (s, (n, a)) (combine sites (combine ns lv')) -> (a <= n)%nat /\ (second = true -> B0 * s_gamma s <> 0)).
Proof.
  revert ns lv lv'. induction sites as [|s sites IH]; intros [|n ns] [|a lv] [|a' lv'] H; cbn in H; try contradiction; [split; intros ? ? ? []|].
  destruct H as [(_ & _ & A & A' & _ & _ & NZ) H]. destruct (IH _ _ _ H) as [I1 I2]. cbn [combine]. split; intros s0 n0 a0 [[= -> -> ->]|I]; eauto.
Qed.
Lemma difference_sloped second B0 sites cps ns lv lv' : sites_fine second B0 sites ns lv lv' -> exists g, sloped g /\ forall al be, level_difference second B0 sites cps ns lv lv' al be = g (direction al be).
Proof.
  intros F. destruct (fine_fields _ _ _ _ _ _ F) as [H H']. destruct (system_sloped second B0 sites cps ns lv H) as (g & G & E). destruct (system_sloped second B0 sites cps ns lv' H') as (g' & G' & E').
  exists (fun u => g' u + -1 * g u). split; [apply sloped_plus; auto; apply sloped_mult; auto; apply sloped_const|]. intros al be. unfold level_difference. rewrite E, E'. ring.
Qed.
Theorem C117_static : forall (second : bool) (B0 : R) (sites : list site) (couplings : list coupling) (ns levels levels' : list nat), sites_fine second B0 sites ns levels levels' ->
  exists K, 0 <= K /\ forall (nt : nat) (alpha beta : nat -> R), (1 <= nt)%nat -> polar_angles nt alpha beta ->
  Rabs (powder_average nt 4 (fun o => level_difference second B0 sites couplings ns levels levels' (orientation (n_pts nt) alpha o) (beta (o mod n_pts nt)%nat)) -
    mean_difference second B0 sites couplings ns levels levels') <= K / INR nt.
Proof.
  intros second B0 sites cps ns lv lv' F. destruct (difference_sloped second B0 sites cps ns lv lv' F) as (g & (L & L0 & H) & E). exists (4182 * L). split; [lra|]. intros nt al be N P.
  rewrite (PropAverage.average_ext nt 4 _ (fun o => g (towards nt al be o)) N) by (intros; rewrite E; reflexivity).
  replace (mean_difference second B0 sites cps ns lv lv') with (hemisphere_average g); [apply C117_hemisphere; auto|]. unfold hemisphere_average, mean_difference, over_directions. f_equal. apply RInt_ext. intros a _. apply RInt_ext. intros b _. rewrite E. reflexivity.
Qed.
Print Assumptions C117_static.
(** The spectrum: the centre of gravity goes to the mean frequency over all directions, to half a bin and the rounding of the numbers (C116). *)
Theorem C117_centre_partial : forall (second : bool) (B0 : R) (sites : list site) (couplings : list coupling) (ns levels levels' : list nat) (increment : R), sites_fine second B0 sites ns levels levels' -> increment <> 0 ->
  exists K, 0 <= K /\ forall (nt : nat) (offset_0 : Q) (vr freq norm sb : nat -> Q) (count : BinNums.Z) (out : writes) (alpha beta : nat -> R) (c kappa eta eps M : R),
  (1 <= nt)%nat -> polar_angles nt alpha beta ->
  averaging_1d nt 4 1 offset_0 vr freq norm sb count = Some out ->
  is_delta nt (n_pts nt) freq = false -> in_window (offset_0 + vr 0%nat) count = true ->
  (forall p, (p < 4 * n_pts nt)%nat -> (0 <= freq p + (offset_0 + vr 0%nat) /\ freq p + (offset_0 + vr 0%nat) < zq count)%Q) ->
  0 < kappa -> 0 <= eta < 1 ->
  (forall p, (p < n_pts nt)%nat -> Rabs (Q2R (norm p) - kappa * nth p (amplitudes nt) 0) <= eta * (kappa * nth p (amplitudes nt) 0)) ->
  let nu o := level_difference second B0 sites couplings ns levels levels' (orientation (n_pts nt) alpha o) (beta (o mod n_pts nt)%nat) / increment in
  let nu_mean := mean_difference second B0 sites couplings ns levels levels' / increment in
  (forall o, (o < 4 * n_pts nt)%nat -> Rabs (Q2R (freq o) - (nu o - c)) <= eps) ->
  (forall o, (o < 4 * n_pts nt)%nat -> Rabs (nu o - nu_mean) <= M) ->
  Rabs (Q2R (moment centre out count) / Q2R (InterpSpec.total out count) - (Q2R (offset_0 + vr 0%nat) + (nu_mean - c))) <= / 2 + eps + eta / (1 - eta) * (M + K / INR nt) + K / INR nt.
Proof.
  intros second B0 sites cps ns lv lv' inc F IN. destruct (C117_static second B0 sites cps ns lv lv' F) as (K & K0 & HK). exists (K * Rabs (/ inc)). split; [apply Rmult_le_pos; auto using Rabs_pos|].
  intros nt o vr freq norm sb count out al be c kappa eta eps M N P H D HW HF KP E HN nu nu_mean HQ HM. specialize (HK nt al be N P).
  set (f := fun o => nu o - c). set (A := powder_average nt 4 f).
  assert (EA : Rabs (A - (nu_mean - c)) <= K * Rabs (/ inc) / INR nt).
  { unfold A, f. rewrite (PropAverage.average_ext nt 4 _ (fun o => - c + / inc * level_difference second B0 sites cps ns lv lv' (orientation (n_pts nt) al o) (be (o mod n_pts nt)%nat)) N) by (intros; unfold nu, Rdiv; ring).
    rewrite PropAverage.average_shift by (auto; lia). unfold nu_mean. set (p := powder_average _ _ _) in *. set (m := mean_difference _ _ _ _ _ _ _) in *.
    replace (- c + / inc * p - (m / inc - c)) with (/ inc * (p - m)) by (field; auto). rewrite Rabs_mult. replace (K * Rabs (/ inc) / INR nt) with (Rabs (/ inc) * (K / INR nt)) by (unfold Rdiv; ring). apply Rmult_le_compat_l; auto using Rabs_pos. }
  destruct (centre_close nt 4 o vr freq norm sb count out f kappa eta eps (M + K * Rabs (/ inc) / INR nt) N ltac:(lia) H D HW HF KP E HN HQ) as [_ R].
  { intros p Hp. fold A. replace (f p - A) with ((nu p - nu_mean) + - (A - (nu_mean - c))) by (unfold f; ring). eapply Rle_trans; [apply Rabs_triang|]. rewrite Rabs_Ropp. pose proof (HM p Hp). lra. }
  fold A in R. set (x := Q2R (moment centre out count) / Q2R (InterpSpec.total out count)) in *. set (y := Q2R (o + vr 0%nat)) in *.
  replace (x - (y + (nu_mean - c))) with ((x - (y + A)) + (A - (nu_mean - c))) by ring. eapply Rle_trans; [apply Rabs_triang|]. apply Rplus_le_compat; auto.
Qed.
Print Assumptions C117_centre_partial.
(** Cases: a sodium site with its second order and a proton, at the default density; and the spectrum of C116_centre_example, whose frequencies here are those of [level_difference]. *)
Example C117_example : sites_fine true (94 / 10) [PropFreq.sodium; PropFreq.proton 1] [3; 1]%nat [2; 0]%nat [1; 0]%nat /\ (exists alpha beta, polar_angles 70 alpha beta) /\ slope (fun u => u Z) 1 /\
  forall al be, level_difference false 1 [PropAverage.shielded] [] [1]%nat [0]%nat [1]%nat al be = PropAverage.difference 1 [PropAverage.shielded] [] (static_frame al be) [1]%nat [0]%nat [1]%nat.
Proof.
  split; [cbn [sites_fine]; unfold site_fine, spin, covered; cbn; repeat split; try lia; try lra; intros; lra|]. split; [apply PropAverage.polar_exists; lia|]. split; [|reflexivity].
  intros u v _ _. unfold dist3. pose proof (Rabs_pos (u X - v X)). pose proof (Rabs_pos (u Y - v Y)). lra.
Qed.
