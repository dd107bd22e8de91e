(** C118: where the centre of gravity goes with the second order of the quadrupolar interaction. *)
From Coq Require Import Reals QArith Qreals List ZArith Lia Bool.
From Coquelicot Require Import Coquelicot.
From Verif Require PropFreq PropAverage.
From Verif Require Import InterpModel InterpSpec PowderModel WalkProofs DftModel DftProofs FreqModel PhysSpec PhysLevels FreqSpec.
From Verif Require Import AverageSpec AverageProofs AverageCentre SphereSpec SphereChange SphereProofs SpherePhys PropSphere InducedSpec InducedProofs.
From Coq Require Import Lra.
Import ListNotations.
Open Scope R_scope.

Definition isotropic_change (second : bool) (B0 : R) (sites : list site) (couplings : list coupling) (ns levels levels' : list nat) : R :=
  isotropic_energy second B0 sites couplings ns levels' - isotropic_energy second B0 sites couplings ns levels.
Definition rotor_difference (second : bool) (B0 : R) (sites : list site) (couplings : list coupling) (ns levels levels' : list nat) (alpha beta theta phi : R) : R :=
  system_level second B0 sites couplings (rotor_frame alpha beta phi theta) ns levels' - system_level second B0 sites couplings (rotor_frame alpha beta phi theta) ns levels.

(** The isotropic change of the central transition (from -1/2 to 1/2) of a half-integer spin is its chemical shift and the induced shift of the textbooks. *)
Theorem C118_central : forall (B0 : R) (s : site) (n : nat), (2 <= n)%nat -> Nat.even n = false -> B0 * s_gamma s <> 0 ->
  let I := spin n in let nu0 := - (B0 * s_gamma s) * 1000000 in let a := (n / 2)%nat in
  quantum n a = - (1 / 2) /\ quantum n (S a) = 1 / 2 /\
  isotropic_change true B0 [s] [] [n] [a] [S a] =
    - (B0 * s_gamma s) * s_iso s - 3 / 40 * (s_Cq s ^ 2 / nu0) * ((I * (I + 1) - 3 / 4) / (I ^ 2 * (2 * I - 1) ^ 2)) * (1 + s_qeta s ^ 2 / 3).
Proof.
  intros B0 s n L Ev NZ I nu0 a. assert (E : n = (2 * a + 1)%nat). { rewrite <- Nat.negb_odd, negb_false_iff in Ev. apply Nat.odd_spec in Ev. destruct Ev as (k & K). assert (k = a) by (apply (Nat.div_unique n 2 k 1); lia). lia. }
  assert (EI : INR n = 2 * INR a + 1) by (rewrite E, plus_INR, mult_INR; cbn; ring).
  assert (Q : quantum n a = - (1 / 2)) by (unfold quantum, spin; rewrite EI; field). assert (Q' : quantum n (S a) = 1 / 2) by (unfold quantum, spin; rewrite EI, S_INR; field). split; auto. split; auto.
  assert (LI : 2 <= INR n) by (apply (le_INR 2); auto).
  unfold isotropic_change, isotropic_energy, system_level. cbn [map combine rtotal fold_right fst snd]. unfold site_level. cbv zeta. cbn [isotropic_site s_gamma s_iso s_zeta s_eta s_theta s_Cq s_qeta s_qtheta]. rewrite !AveragePhys.lab_principal0.
  unfold site_shift. rewrite (proj2 (Nat.ltb_ge n 2)) by auto. rewrite !PhysSpin.energy1_quad by (try lia; try (apply PhysExact.lab_sym, PhysExact.turned_sym, PhysExact.principal_sym); rewrite PhysExact.lab_trace, PhysExact.turned_trace; apply PhysExact.principal_trace).
  unfold induced_shift. cbv zeta. rewrite Q, Q'. unfold PhysSpin.kq. fold I. fold nu0. assert (I0 : 1 <= I) by (unfold I, spin; lra). assert (N0 : nu0 <> 0) by (unfold nu0; lra). field. repeat split; lra.
Qed.
Print Assumptions C118_central.
(** Static sample: the average over the directions is the isotropic change, and the powder average converges to it. *)
Lemma change_settles second B0 sites cps ns lv lv' : sites_fine second B0 sites ns lv lv' ->
  settles (fun fr => system_level second B0 sites cps fr ns lv' - system_level second B0 sites cps fr ns lv) (isotropic_change second B0 sites cps ns lv lv').
Proof.
  intros F. destruct (fine_fields _ _ _ _ _ _ F) as [H H']. eapply settles_ext; [| |apply settles_plus; [apply (settles_system second B0 sites cps ns lv' H')|apply (settles_scal (-1)), (settles_system second B0 sites cps ns lv H)]]; [intros; cbv beta; ring|unfold isotropic_change; ring].
Qed.
Theorem C118_mean : forall (second : bool) (B0 : R) (sites : list site) (couplings : list coupling) (ns levels levels' : list nat), sites_fine second B0 sites ns levels levels' ->
  mean_difference second B0 sites couplings ns levels levels' = isotropic_change second B0 sites couplings ns levels levels'.
Proof.
  intros second B0 sites cps ns lv lv' F. destruct (change_settles second B0 sites cps ns lv lv' F) as [(g & [_ A] & E) _]. rewrite <- A. unfold mean_difference, hemisphere_average, over_directions. f_equal. apply RInt_ext. intros a _. apply RInt_ext. intros b _. unfold level_difference. rewrite E. reflexivity.
Qed.
Print Assumptions C118_mean.
Theorem C118_static : forall (second : bool) (B0 : R) (sites : list site) (couplings : list coupling) (ns levels levels' : list nat), sites_fine second B0 sites ns levels levels' ->
  exists K, 0 <= K /\ forall (nt : nat) (alpha beta : nat -> R), (1 <= nt)%nat -> polar_angles nt alpha beta ->
  Rabs (powder_average nt 4 (fun o => level_difference second B0 sites couplings ns levels levels' (orientation (n_pts nt) alpha o) (beta (o mod n_pts nt)%nat)) -
    isotropic_change second B0 sites couplings ns levels levels') <= K / INR nt.
Proof. intros second B0 sites cps ns lv lv' F. rewrite <- C118_mean by auto. apply C117_static. auto. Qed.
Print Assumptions C118_static.
(** Spinning sample, at any angle: the powder average of the means over a turn converges to the same. *)
Theorem C118_spinning : forall (second : bool) (B0 : R) (sites : list site) (couplings : list coupling) (ns levels levels' : list nat) (theta : R), sites_fine second B0 sites ns levels levels' ->
  exists K, 0 <= K /\ forall (nt : nat) (alpha beta mean : nat -> R), (1 <= nt)%nat -> polar_angles nt alpha beta ->
  (forall o, (o < 4 * n_pts nt)%nat -> mean_over_turn (rotor_difference second B0 sites couplings ns levels levels' (orientation (n_pts nt) alpha o) (beta (o mod n_pts nt)%nat) theta) (mean o)) ->
  Rabs (powder_average nt 4 mean - isotropic_change second B0 sites couplings ns levels levels') <= K / INR nt.
Proof.
  intros second B0 sites cps ns lv lv' th F. destruct (change_settles second B0 sites cps ns lv lv' F) as [_ S]. destruct (S th) as (g & A & M). destruct (averages_conv g _ A) as (K & K0 & HK). exists K. split; auto. intros nt al be mean N P HM.
  rewrite (PropAverage.average_ext nt 4 mean (fun o => g (towards nt al be o)) N); [apply HK; auto|]. intros o Ho. eapply mean_unique; [apply HM; auto|]. apply (M (orientation (n_pts nt) al o) (be (o mod n_pts nt)%nat)).
Qed.
Print Assumptions C118_spinning.
(** The spectrum at infinite rotor frequency (one sideband) or of a static sample. *)
Lemma centre_of_gravity (target inc K : R) (nt : nat) (offset_0 : Q) (vr freq norm sb : nat -> Q) (count : BinNums.Z) (out : writes) (F : nat -> R) (c kappa eta eps M : R) :
  (1 <= nt)%nat -> inc <> 0 -> averaging_1d nt 4 1 offset_0 vr freq norm sb count = Some out ->
  is_delta nt (n_pts nt) freq = false -> in_window (offset_0 + vr 0%nat) count = true ->
  (forall p, (p < 4 * n_pts nt)%nat -> (0 <= freq p + (offset_0 + vr 0%nat) /\ freq p + (offset_0 + vr 0%nat) < zq count)%Q) ->
  0 < kappa -> 0 <= eta < 1 ->
  (forall p, (p < n_pts nt)%nat -> Rabs (Q2R (norm p) - kappa * nth p (amplitudes nt) 0) <= eta * (kappa * nth p (amplitudes nt) 0)) ->
  (forall o, (o < 4 * n_pts nt)%nat -> Rabs (Q2R (freq o) - (F o / inc - c)) <= eps) ->
  (forall o, (o < 4 * n_pts nt)%nat -> Rabs (F o / inc - target / inc) <= M) ->
  Rabs (powder_average nt 4 F - target) <= K / INR nt ->
  Rabs (Q2R (moment centre out count) / Q2R (InterpSpec.total out count) - (Q2R (offset_0 + vr 0%nat) + (target / inc - c))) <= / 2 + eps + eta / (1 - eta) * (M + K * Rabs (/ inc) / INR nt) + K * Rabs (/ inc) / INR nt.
Proof.
  intros N IN H D HW HF KP E HN HQ HM HK. set (f := fun o => F o / inc - c). set (A := powder_average nt 4 f).
  assert (EA : Rabs (A - (target / inc - c)) <= K * Rabs (/ inc) / INR nt).
  { unfold A, f. rewrite (PropAverage.average_ext nt 4 _ (fun o => - c + / inc * F o) N) by (intros; unfold Rdiv; ring). rewrite PropAverage.average_shift by (auto; lia). set (p := powder_average _ _ _) in *.
    replace (- c + / inc * p - (target / inc - c)) with (/ inc * (p - target)) by (field; auto). rewrite Rabs_mult. replace (K * Rabs (/ inc) / INR nt) with (Rabs (/ inc) * (K / INR nt)) by (unfold Rdiv; ring). apply Rmult_le_compat_l; auto using Rabs_pos. }
  destruct (centre_close nt 4 offset_0 vr freq norm sb count out f kappa eta eps (M + K * Rabs (/ inc) / INR nt) N ltac:(lia) H D HW HF KP E HN HQ) as [_ R].
  { intros p Hp. fold A. replace (f p - A) with ((F p / inc - target / inc) + - (A - (target / inc - c))) by (unfold f; ring). eapply Rle_trans; [apply Rabs_triang|]. rewrite Rabs_Ropp. pose proof (HM p Hp). lra. }
  fold A in R. set (x := Q2R (moment centre out count) / Q2R (InterpSpec.total out count)) in *. set (y := Q2R (offset_0 + vr 0%nat)) in *.
  replace (x - (y + (target / inc - c))) with ((x - (y + A)) + (A - (target / inc - c))) by ring. eapply Rle_trans; [apply Rabs_triang|]. apply Rplus_le_compat; auto.
Qed.
Theorem C118_centre_partial : forall (second : bool) (B0 : R) (sites : list site) (couplings : list coupling) (ns levels levels' : list nat) (theta increment : R), sites_fine second B0 sites ns levels levels' -> increment <> 0 ->
  exists K, 0 <= K /\ forall (nt : nat) (offset_0 : Q) (vr freq norm sb : nat -> Q) (count : BinNums.Z) (out : writes) (alpha beta mean : nat -> R) (c kappa eta eps M : R),
  (1 <= nt)%nat -> polar_angles nt alpha beta ->
  (forall o, (o < 4 * n_pts nt)%nat -> mean_over_turn (rotor_difference second B0 sites couplings ns levels levels' (orientation (n_pts nt) alpha o) (beta (o mod n_pts nt)%nat) theta) (mean o)) ->
  averaging_1d nt 4 1 offset_0 vr freq norm sb count = Some out ->
  is_delta nt (n_pts nt) freq = false -> in_window (offset_0 + vr 0%nat) count = true ->
  (forall p, (p < 4 * n_pts nt)%nat -> (0 <= freq p + (offset_0 + vr 0%nat) /\ freq p + (offset_0 + vr 0%nat) < zq count)%Q) ->
  0 < kappa -> 0 <= eta < 1 ->
  (forall p, (p < n_pts nt)%nat -> Rabs (Q2R (norm p) - kappa * nth p (amplitudes nt) 0) <= eta * (kappa * nth p (amplitudes nt) 0)) ->
  let nu_iso := isotropic_change second B0 sites couplings ns levels levels' / increment in
  (forall o, (o < 4 * n_pts nt)%nat -> Rabs (Q2R (freq o) - (mean o / increment - c)) <= eps) ->
  (forall o, (o < 4 * n_pts nt)%nat -> Rabs (mean o / increment - nu_iso) <= M) ->
  Rabs (Q2R (moment centre out count) / Q2R (InterpSpec.total out count) - (Q2R (offset_0 + vr 0%nat) + (nu_iso - c))) <= / 2 + eps + eta / (1 - eta) * (M + K / INR nt) + K / INR nt.
Proof.
  intros second B0 sites cps ns lv lv' th inc F IN. destruct (C118_spinning second B0 sites cps ns lv lv' th F) as (K & K0 & HK). exists (K * Rabs (/ inc)). split; [apply Rmult_le_pos; auto using Rabs_pos|].
  intros nt o vr freq norm sb count out al be mean c kappa eta eps M N P HM0 H D HW HF KP E HN nu_iso HQ HM. exact (centre_of_gravity _ inc K nt o vr freq norm sb count out mean c kappa eta eps M N IN H D HW HF KP E HN HQ HM (HK nt al be mean N P HM0)).
Qed.
Print Assumptions C118_centre_partial.
(** Cases: the central transition of sodium, shifted by its quadrupolar coupling; the two sites of C117_example; the means over a turn exist for every orientation. *)
Example C118_example : sites_fine true (94 / 10) [PropFreq.sodium; PropFreq.proton 1] [3; 1]%nat [2; 0]%nat [1; 0]%nat /\ (exists alpha beta, polar_angles 70 alpha beta) /\
  (94 / 10 * s_gamma PropFreq.sodium <> 0) /\ s_Cq PropFreq.sodium <> 0 /\
  forall al be th, exists v, mean_over_turn (rotor_difference true (94 / 10) [PropFreq.sodium; PropFreq.proton 1] [] [3; 1]%nat [2; 0]%nat [1; 0]%nat al be th) v.
Proof.
  destruct C117_example as (A & B & _). split; auto. split; auto. split; [cbn; lra|]. split; [cbn; lra|].
  intros al be th. destruct (change_settles true (94 / 10) [PropFreq.sodium; PropFreq.proton 1] [] [3; 1]%nat [2; 0]%nat [1; 0]%nat A) as [_ S]. destruct (S th) as (g & _ & M). exists (g (direction al be)). apply M.
Qed.
