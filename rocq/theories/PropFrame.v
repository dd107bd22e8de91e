(** C120: the powder pattern of a spin system does not depend on the frame in which the spin system is described. *)
From Coq Require Import Reals QArith Qreals List ZArith Lia Bool.
From Coquelicot Require Import Coquelicot.
From Verif Require PropFreq PropAverage.
From Verif Require Import InterpModel InterpSpec PowderModel WalkProofs DftModel DftProofs FreqModel PhysSpec PhysLevels FreqSpec.
From Verif Require Import AverageSpec AverageProofs AverageCentre AveragePhys SphereSpec SphereChange SphereProofs SpherePhys PropSphere InducedSpec InducedProofs PropInduced ShapeSpec ShapeProofs ShapeClose PropShape FrameSpec FrameProofs FramePhys.
From Coq Require Import Lra.
Import ListNotations.
Open Scope R_scope.

(** The Euler angles of a tensor in a turned frame always exist, with the polar angle from 0 to pi. *)
Theorem C120_exists : forall r th : euler, exists a b g, 0 <= b <= PI /\ turned_by r th (a, b, g).
Proof. exact turned_exists. Qed.
Print Assumptions C120_exists.
(** Averages over all directions of quantities that do not tell a direction from its opposite. *)
Theorem C120_average : forall (g : (axis -> R) -> R) (L a b c : R), slope g L -> 0 <= L -> (forall u, g (fun i => - u i) = g u) -> (forall u v, (forall i, u i = v i) -> g u = g v) ->
  hemisphere_average (fun u => g (fun k => asum (fun i => euler_axes a b c i k * u i))) = hemisphere_average g.
Proof.
  intros g L a b c H L0 E X. assert (T : tame g) by (split; [exists L; auto|auto]). rewrite <- (average_back1 (a, b, c) g T). unfold hemisphere_average, over_directions. f_equal. apply RInt_ext. intros al _. apply RInt_ext. intros be _. f_equal. apply X.
  intros k. unfold back1, yback, euler_axes, product, asum. destruct k; cbn [about_z about_y zback swap]; rewrite ?cos_neg, ?sin_neg; ring.
Qed.
Print Assumptions C120_average.

Lemma change_follows second B0 sites cps ns lv lv' : sites_fine second B0 sites ns lv lv' ->
  follows (fun fr => system_level second B0 sites cps fr ns lv' - system_level second B0 sites cps fr ns lv).
Proof.
  intros F. destruct (fine_fields _ _ _ _ _ _ F) as [H H']. eapply follows_ext; [|apply follows_plus; [apply (follows_system second B0 sites cps ns lv' H')|apply (follows_scal (-1)), (follows_system second B0 sites cps ns lv H)]]. intros; cbv beta; ring.
Qed.
Lemma tame_gentle F lam g : gentle F lam -> tame g -> tame (fun u => F (g u)).
Proof.
  intros G ((L & L0 & H) & B & C). assert (lam0 : 0 <= lam) by (specialize (G 1 0); rewrite Rminus_0_r, Rabs_R1, Rmult_1_r in G; eapply Rle_trans; [apply Rabs_pos|exact G]). split; [exists (lam * L); split; [apply Rmult_le_pos; auto|]|].
  - intros u v U V. eapply Rle_trans; [apply G|]. rewrite Rmult_assoc. apply Rmult_le_compat_l; auto.
  - split; intros; [rewrite B; auto|]. rewrite (C u v); auto.
Qed.
Lemma shape_turned F lam (G G' : R -> R -> R) g r : gentle F lam -> tame g -> (forall al be, G al be = g (direction al be)) -> (forall al be, G' al be = g (back [r] (direction al be))) -> mean_shape F G' = mean_shape F G.
Proof.
  intros HF T E E'. destruct (average_back [r] (fun u => F (g u)) (tame_gentle F lam g HF T)) as [_ A]. unfold mean_shape, hemisphere_average, over_directions in *.
  transitivity (RInt (fun alpha => RInt (fun beta => F (g (back [r] (direction alpha beta))) * sin beta) 0 (PI / 2)) 0 (2 * PI) / (2 * PI)); [f_equal; apply RInt_ext; intros; apply RInt_ext; intros; rewrite E'; reflexivity|].
  rewrite A. f_equal. apply RInt_ext; intros; apply RInt_ext; intros. rewrite E. reflexivity.
Qed.
(** The distribution of the frequency of any transition over all directions, static: the average of any F of bounded slope of the frequency (C119). *)
Theorem C120_static : forall (second : bool) (B0 : R) (r : euler) (sites sites' : list site) (couplings couplings' : list coupling) (ns levels levels' : list nat) (F : R -> R) (lam : R),
  sites_fine second B0 sites ns levels levels' -> system_turned r sites sites' couplings couplings' -> gentle F lam ->
  mean_shape F (level_difference second B0 sites' couplings' ns levels levels') = mean_shape F (level_difference second B0 sites couplings ns levels levels').
Proof.
  intros second B0 r sites sites' cps cps' ns lv lv' F lam Fi S HF. destruct (change_follows second B0 sites cps ns lv lv' Fi) as [(g & T & E) _]. apply (shape_turned F lam _ _ g r); auto.
  - intros al be. exact (E [] al be).
  - intros al be. rewrite <- (E [r] al be). unfold level_difference. rewrite !(system_turned_level second B0 r sites sites' cps cps' (static_frame al be) ns _ S). reflexivity.
Qed.
Print Assumptions C120_static.
(** The same for the means over a turn of the rotor, at any angle. *)
Theorem C120_spinning : forall (second : bool) (B0 : R) (r : euler) (sites sites' : list site) (couplings couplings' : list coupling) (ns levels levels' : list nat) (theta : R) (mean mean' : R -> R -> R) (F : R -> R) (lam : R),
  sites_fine second B0 sites ns levels levels' -> system_turned r sites sites' couplings couplings' -> gentle F lam ->
  (forall al be, mean_over_turn (rotor_difference second B0 sites couplings ns levels levels' al be theta) (mean al be)) ->
  (forall al be, mean_over_turn (rotor_difference second B0 sites' couplings' ns levels levels' al be theta) (mean' al be)) ->
  mean_shape F mean' = mean_shape F mean.
Proof.
  intros second B0 r sites sites' cps cps' ns lv lv' th m m' F lam Fi S HF M M'. destruct (change_follows second B0 sites cps ns lv lv' Fi) as [_ Q]. destruct (Q th) as (g & T & E). apply (shape_turned F lam _ _ g r); auto.
  - intros al be. eapply mean_unique; [apply M|]. exact (E [] al be).
  - intros al be. eapply mean_unique; [apply M'|]. eapply mean_ext; [| |exact (E [r] al be)]; [|reflexivity]. intros p. cbv beta. unfold rotor_difference. rewrite !(system_turned_level second B0 r sites sites' cps cps' (rotor_frame al be p th) ns _ S). reflexivity.
Qed.
Print Assumptions C120_spinning.
Lemma gentle_affine F lam inc c : inc <> 0 -> gentle F lam -> gentle (fun x => F (c + x / inc)) (lam * Rabs (/ inc)).
Proof. intros N G x y. eapply Rle_trans; [apply G|]. replace (c + x / inc - (c + y / inc)) with (/ inc * (x - y)) by (unfold Rdiv; ring). rewrite Rabs_mult. lra. Qed.
(** What the code makes of the frequencies of the two systems (static sample): [frequencies_of] says that the array of frequencies holds, to eps, those of the
    system in bins.  The two spectra, of any densities, differ by the half bins, the rounding, and K over the densities. *)
Definition frequencies_of (second : bool) (B0 : R) (sites : list site) (couplings : list coupling) (ns levels levels' : list nat) (increment c eps : R) (nt : nat) (alpha beta : nat -> R) (freq : nat -> Q) : Prop :=
  forall o, (o < 4 * n_pts nt)%nat -> Rabs (Q2R (freq o) - (level_difference second B0 sites couplings ns levels levels' (orientation (n_pts nt) alpha o) (beta (o mod n_pts nt)%nat) / increment - c)) <= eps.
Definition run_of (nt : nat) (alpha beta : nat -> R) (offset_0 : Q) (vr freq norm sb : nat -> Q) (count : BinNums.Z) (kappa eta : R) (out : writes) : Prop :=
  (1 <= nt)%nat /\ polar_angles nt alpha beta /\ averaging_1d nt 4 1 offset_0 vr freq norm sb count = Some out /\
  is_delta nt (n_pts nt) freq = false /\ in_window (offset_0 + vr 0%nat) count = true /\
  (forall p, (p < 4 * n_pts nt)%nat -> (0 <= freq p + (offset_0 + vr 0%nat) /\ freq p + (offset_0 + vr 0%nat) < zq count)%Q) /\
  0 < kappa /\ 0 <= eta < 1 /\ (forall p, (p < n_pts nt)%nat -> Rabs (Q2R (norm p) - kappa * nth p (amplitudes nt) 0) <= eta * (kappa * nth p (amplitudes nt) 0)).
Theorem C120_spectra_partial : forall (second : bool) (B0 : R) (r : euler) (sites sites' : list site) (couplings couplings' : list coupling) (ns levels levels' : list nat) (increment : R),
  sites_fine second B0 sites ns levels levels' -> sites_fine second B0 sites' ns levels levels' -> system_turned r sites sites' couplings couplings' -> increment <> 0 ->
  exists K, 0 <= K /\ forall (F : R -> R) (lam : R) (nt nt' : nat) (offset_0 : Q) (vr freq freq' norm norm' sb sb' : nat -> Q) (count : BinNums.Z) (out out' : writes) (alpha beta alpha' beta' : nat -> R) (c kappa kappa' eta eps : R),
  gentle F lam -> 0 <= lam ->
  run_of nt alpha beta offset_0 vr freq norm sb count kappa eta out -> frequencies_of second B0 sites couplings ns levels levels' increment c eps nt alpha beta freq ->
  run_of nt' alpha' beta' offset_0 vr freq' norm' sb' count kappa' eta out' -> frequencies_of second B0 sites' couplings' ns levels levels' increment c eps nt' alpha' beta' freq' ->
  Rabs (weighed F out' count / Q2R (InterpSpec.total out' count) - weighed F out count / Q2R (InterpSpec.total out count)) <= lam * (1 + 2 * eps + K / INR nt + K / INR nt' + eta / (1 - eta) * (2 * K)).
Proof.
  intros second B0 r sites sites' cps cps' ns lv lv' inc Fi Fi' S IN. destruct (C119_static_partial second B0 sites cps ns lv lv' inc Fi IN) as (K & K0 & HK). destruct (C119_static_partial second B0 sites' cps' ns lv lv' inc Fi' IN) as (K' & K0' & HK').
  exists (K + K'). split; [lra|]. intros F lam nt nt' o vr freq freq' norm norm' sb sb' count out out' al be al' be' c ka ka' eta eps HF Hl (N & P & A & D & W & In & Ka & Eta & No) Q (N' & P' & A' & D' & W' & In' & Ka' & Eta' & No') Q'.
  specialize (HK F lam nt o vr freq norm sb count out al be c ka eta eps HF Hl N P A D W In Ka Eta No Q). specialize (HK' F lam nt' o vr freq' norm' sb' count out' al' be' c ka' eta eps HF Hl N' P' A' D' W' In' Ka' Eta' No' Q').
  assert (E : mean_shape F (fun al be => Q2R (o + vr 0%nat) + (level_difference second B0 sites' cps' ns lv lv' al be / inc - c)) = mean_shape F (fun al be => Q2R (o + vr 0%nat) + (level_difference second B0 sites cps ns lv lv' al be / inc - c))).
  { pose proof (C120_static second B0 r sites sites' cps cps' ns lv lv' _ _ Fi S (gentle_affine F lam inc (Q2R (o + vr 0%nat) - c) IN HF)) as M. unfold mean_shape in *.
    transitivity (RInt (fun alpha => RInt (fun beta => F (Q2R (o + vr 0%nat) - c + level_difference second B0 sites' cps' ns lv lv' alpha beta / inc) * sin beta) 0 (PI / 2)) 0 (2 * PI) / (2 * PI)); [f_equal; apply RInt_ext; intros; apply RInt_ext; intros; do 2 f_equal; ring|].
    rewrite M. f_equal; apply RInt_ext; intros; apply RInt_ext; intros; do 2 f_equal; ring. }
  cbv beta zeta in HK, HK'. rewrite E in HK'. set (m := mean_shape _ _) in *. set (w := weighed F out count / _) in *. set (w' := weighed F out' count / _) in *.
  replace (w' - w) with ((w' - m) + - (w - m)) by ring. eapply Rle_trans; [apply Rabs_triang|]. rewrite Rabs_Ropp. eapply Rle_trans; [apply Rplus_le_compat; [exact HK'|exact HK]|]. rewrite <- Rmult_plus_distr_l. apply Rmult_le_compat_l; auto.
  assert (I1 : 0 < / INR nt) by (apply Rinv_0_lt_compat, lt_0_INR; lia). assert (I2 : 0 < / INR nt') by (apply Rinv_0_lt_compat, lt_0_INR; lia). assert (0 <= eta / (1 - eta)) by (apply Rle_mult_inv_pos; lra). set (e := eta / (1 - eta)) in *. unfold Rdiv. nra.
Qed.
Print Assumptions C120_spectra_partial.
(** The same at infinite rotor frequency, at any angle: the array of frequencies holds, to eps, the means over a turn of the rotor. *)
Definition means_of (mean : R -> R -> R) (increment c eps : R) (nt : nat) (alpha beta : nat -> R) (freq : nat -> Q) : Prop :=
  forall o, (o < 4 * n_pts nt)%nat -> Rabs (Q2R (freq o) - (mean (orientation (n_pts nt) alpha o) (beta (o mod n_pts nt)%nat) / increment - c)) <= eps.
Theorem C120_spinning_spectra_partial : forall (second : bool) (B0 : R) (r : euler) (sites sites' : list site) (couplings couplings' : list coupling) (ns levels levels' : list nat) (theta increment : R),
  sites_fine second B0 sites ns levels levels' -> sites_fine second B0 sites' ns levels levels' -> system_turned r sites sites' couplings couplings' -> increment <> 0 ->
  exists K, 0 <= K /\ forall (F : R -> R) (lam : R) (mean mean' : R -> R -> R) (nt nt' : nat) (offset_0 : Q) (vr freq freq' norm norm' sb sb' : nat -> Q) (count : BinNums.Z) (out out' : writes) (alpha beta alpha' beta' : nat -> R) (c kappa kappa' eta eps : R),
  gentle F lam -> 0 <= lam ->
  (forall al be, mean_over_turn (rotor_difference second B0 sites couplings ns levels levels' al be theta) (mean al be)) ->
  (forall al be, mean_over_turn (rotor_difference second B0 sites' couplings' ns levels levels' al be theta) (mean' al be)) ->
  run_of nt alpha beta offset_0 vr freq norm sb count kappa eta out -> means_of mean increment c eps nt alpha beta freq ->
  run_of nt' alpha' beta' offset_0 vr freq' norm' sb' count kappa' eta out' -> means_of mean' increment c eps nt' alpha' beta' freq' ->
  Rabs (weighed F out' count / Q2R (InterpSpec.total out' count) - weighed F out count / Q2R (InterpSpec.total out count)) <= lam * (1 + 2 * eps + K / INR nt + K / INR nt' + eta / (1 - eta) * (2 * K)).
Proof.
  intros second B0 r sites sites' cps cps' ns lv lv' th inc Fi Fi' S IN. destruct (C119_spinning_partial second B0 sites cps ns lv lv' th inc Fi IN) as (K & K0 & HK). destruct (C119_spinning_partial second B0 sites' cps' ns lv lv' th inc Fi' IN) as (K' & K0' & HK').
  exists (K + K'). split; [lra|]. intros F lam mean mean' nt nt' o vr freq freq' norm norm' sb sb' count out out' al be al' be' c ka ka' eta eps HF Hl HM HM' (N & P & A & D & W & In & Ka & Eta & No) Q (N' & P' & A' & D' & W' & In' & Ka' & Eta' & No') Q'.
  specialize (HK F lam nt o vr freq norm sb count out al be mean c ka eta eps HF Hl N P HM A D W In Ka Eta No Q). specialize (HK' F lam nt' o vr freq' norm' sb' count out' al' be' mean' c ka' eta eps HF Hl N' P' HM' A' D' W' In' Ka' Eta' No' Q').
  assert (E : mean_shape F (fun al be => Q2R (o + vr 0%nat) + (mean' al be / inc - c)) = mean_shape F (fun al be => Q2R (o + vr 0%nat) + (mean al be / inc - c))).
  { pose proof (C120_spinning second B0 r sites sites' cps cps' ns lv lv' th mean mean' _ _ Fi S (gentle_affine F lam inc (Q2R (o + vr 0%nat) - c) IN HF) HM HM') as M. unfold mean_shape in *.
    transitivity (RInt (fun alpha => RInt (fun beta => F (Q2R (o + vr 0%nat) - c + mean' alpha beta / inc) * sin beta) 0 (PI / 2)) 0 (2 * PI) / (2 * PI)); [f_equal; apply RInt_ext; intros; apply RInt_ext; intros; do 2 f_equal; ring|].
    rewrite M. f_equal; apply RInt_ext; intros; apply RInt_ext; intros; do 2 f_equal; ring. }
  cbv beta zeta in HK, HK'. rewrite E in HK'. set (m := mean_shape _ _) in *. set (w := weighed F out count / _) in *. set (w' := weighed F out' count / _) in *.
  replace (w' - w) with ((w' - m) + - (w - m)) by ring. eapply Rle_trans; [apply Rabs_triang|]. rewrite Rabs_Ropp. eapply Rle_trans; [apply Rplus_le_compat; [exact HK'|exact HK]|]. rewrite <- Rmult_plus_distr_l. apply Rmult_le_compat_l; auto.
  assert (I1 : 0 < / INR nt) by (apply Rinv_0_lt_compat, lt_0_INR; lia). assert (I2 : 0 < / INR nt') by (apply Rinv_0_lt_compat, lt_0_INR; lia). assert (0 <= eta / (1 - eta)) by (apply Rle_mult_inv_pos; lra). set (e := eta / (1 - eta)) in *. unfold Rdiv. nra.
Qed.
Print Assumptions C120_spinning_spectra_partial.
(** *** A case: the site of C116_centre_example, and the same site with the frame turned by 45 degrees about y. *)
Definition tilted : site := {| s_spin := 1 / 2; s_gamma := 1; s_iso := 3; s_zeta := 4; s_eta := 0; s_theta := (0, PI / 4, 0); s_Cq := 0; s_qeta := 0; s_qtheta := (0, 0, 0) |}.
Definition tilted_freq (o : nat) : Q := let y := if Nat.even (o / 3) then 1%nat else 0%nat in if Nat.eqb (o mod 3) y then (-2)%Q else 1%Q.
Lemma tilted_turned : system_turned (0, PI / 4, 0) [PropAverage.shielded] [tilted] [] [].
Proof.
  split; constructor; [|constructor]. repeat split; try reflexivity; [right|left; reflexivity]. intros T i j. cbn [tilted s_theta PropAverage.shielded]. unfold turned at 1 2. apply along_same. intros k l. symmetry. apply PropAverage.identity_turned.
Qed.
Lemma tilted_difference u v : level_difference false 1 [tilted] [] [1]%nat [0]%nat [1]%nat u v = - 5 + 3 * (cos v - sin v * cos u) * (cos v - sin v * cos u).
Proof.
  unfold level_difference. rewrite !(system_turned_level false 1 _ _ _ _ _ (static_frame u v) _ _ tilted_turned). unfold system_level. cbn [combine rtotal fold_right fst snd]. unfold site_level. cbv zeta. cbn [PropAverage.shielded s_gamma s_iso s_zeta s_eta s_theta Nat.ltb Nat.leb].
  change ((0, PI / 4, 0) :: static_frame u v) with ([(0, PI / 4, 0)] ++ static_frame u v). rewrite lab_app, lab_static, element_lab. unfold element, asum. rewrite !PropAverage.identity_turned. unfold principal, quantum, spin, back, back1, yback. cbn [INR fold_right zback swap direction].
  rewrite cos_neg, sin_neg, cos_0, sin_0, cos_PI4, sin_PI4. pose proof (sin2_cos2 v) as V. pose proof (sin2_cos2 u) as U. unfold Rsqr in U, V.
  assert (Q : 1 / sqrt 2 * (1 / sqrt 2) = / 2) by (assert (sqrt 2 <> 0) by (apply Rgt_not_eq, sqrt_lt_R0; lra); replace (1 / sqrt 2 * (1 / sqrt 2)) with (/ (sqrt 2 * sqrt 2)) by (field; auto); rewrite sqrt_sqrt by lra; reflexivity).
  set (h := 1 / sqrt 2) in *. set (x := sin v * cos u). set (y := sin v * sin u). set (z := cos v). assert (V' : sin v * sin v = 1 - cos v * cos v) by lra. assert (U' : sin u * sin u = 1 - cos u * cos u) by lra. assert (S : y * y = 1 - z * z - x * x) by (unfold x, y, z; ring [V' U']).
  ring_simplify. replace (h ^ 2) with (/ 2) by (rewrite <- Q; ring). replace (y ^ 2) with (1 - z * z - x * x) by (rewrite <- S; ring). field.
Qed.
Lemma corner p i : (p < 3)%nat -> cosine 1 p i = match p, i with O, X | 1%nat, Y | 2%nat, Z => 1 | _, _ => 0 end.
Proof.
  intros Hp. destruct p as [|[|[|p]]]; [| | |lia].
  - change (cosine 1 0 i) with (cosine 1 (at3 1 1 0 0) i). rewrite (cosine_at 1 1 0 0 i) by lia. unfold N2. cbn [INR]. replace (1 * 1 + 0 * 0 + 0 * 0) with 1 by ring. rewrite sqrt_1. destruct i; cbn [INR]; field.
  - change (cosine 1 1 i) with (cosine 1 (at3 1 0 1 0) i). rewrite (cosine_at 1 0 1 0 i) by lia. unfold N2. cbn [INR]. replace (0 * 0 + 1 * 1 + 0 * 0) with 1 by ring. rewrite sqrt_1. destruct i; cbn [INR]; field.
  - change (cosine 1 2 i) with (cosine 1 (at3 1 0 0 1) i). rewrite (cosine_at 1 0 0 1 i) by lia. unfold N2. cbn [INR]. replace (0 * 0 + 0 * 0 + 1 * 1) with 1 by ring. rewrite sqrt_1. destruct i; cbn [INR]; field.
Qed.
(** At a finite density the spectrum does depend on the frame: at density 1 the exact frequencies of the two sites give spectra with the same total, of which only one has
    intensity at 8 bins. *)
Theorem C120_density_refuted : exists (r : euler) (s s' : site) (alpha beta : nat -> R) (freq freq' norm : nat -> Q) (out out' : writes),
  sites_fine false 1 [s] [1]%nat [0]%nat [1]%nat /\ sites_fine false 1 [s'] [1]%nat [0]%nat [1]%nat /\ system_turned r [s] [s'] [] [] /\
  run_of 1 alpha beta 5 (fun _ => 0%Q) freq norm (fun _ => 0%Q) 10 1 0 out /\ frequencies_of false 1 [s] [] [1]%nat [0]%nat [1]%nat 1 (- 3) 0 1 alpha beta freq /\
  run_of 1 alpha beta 5 (fun _ => 0%Q) freq' norm (fun _ => 0%Q) 10 1 0 out' /\ frequencies_of false 1 [s'] [] [1]%nat [0]%nat [1]%nat 1 (- 3) 0 1 alpha beta freq' /\
  (InterpSpec.total out 10 == InterpSpec.total out' 10)%Q /\ (0 < deposit out 8)%Q /\ (deposit out' 8 == 0)%Q.
Proof.
  destruct PropAverage.C116_centre_example as (al & be & out & P & S & A & D & W & R & Nn & Q & _).
  exists (0, PI / 4, 0), PropAverage.shielded, tilted, al, be, PropAverage.shielded_freq, tilted_freq, (fun _ => 1%Q), out. eexists. split; auto. split; [cbn [sites_fine]; unfold site_fine, spin, covered; cbn; pose proof PI_4; pose proof PI_RGT_0; repeat split; try lia; try lra; intros; discriminate|].
  split; [exact tilted_turned|]. split; [repeat (split; [first [lia|lra|assumption]|]); auto|]. split; [intros o Ho; apply Q; auto|].
  split; [split; [lia|]; split; [exact P|]; split; [vm_compute; reflexivity|]; split; [vm_compute; reflexivity|]; split; [vm_compute; reflexivity|]; split; [|split; [lra|split; [lra|exact Nn]]]|].
  { intros p Hp. unfold tilted_freq. destruct (Nat.eqb _ _); split; vm_compute; congruence. }
  split.
  { intros o Ho. change (n_pts 1) with 3%nat in *. rewrite tilted_difference. set (j := (o / 3)%nat). set (p := (o mod 3)%nat). assert (Hp : (p < 3)%nat) by (apply Nat.mod_upper_bound; lia). assert (Hj : (j < 4)%nat) by (apply Nat.div_lt_upper_bound; lia).
    assert (E : forall i, direction (orientation 3 al o) (be p) i = SphereProofs.turn j (direction (al p) (be p)) i).
    { intros i. rewrite <- turn_direction by auto. pose proof (towards_at 1 al be j p Hp) as T. change (n_pts 1) with 3%nat in T. assert (o = j * 3 + p)%nat as Eo by (unfold j, p; pose proof (Nat.div_mod o 3 ltac:(lia)); lia). rewrite <- Eo in T. unfold towards in T. change (n_pts 1) with 3%nat in T. fold p in T. rewrite T. reflexivity. }
    pose proof (E X) as EX. pose proof (E Z) as EZ. unfold direction at 1 in EX. unfold direction at 1 in EZ. rewrite EX, EZ.
    assert (C : forall i, direction (al p) (be p) i = match p, i with O, X | 1%nat, Y | 2%nat, Z => 1 | _, _ => 0 end) by (intros i; rewrite (P p i Hp); apply corner; auto).
    unfold tilted_freq. fold j p. clearbody j p. clear - C Hj Hp.
    assert (J : j = 0%nat \/ j = 1%nat \/ j = 2%nat \/ j = 3%nat) by lia. assert (K : p = 0%nat \/ p = 1%nat \/ p = 2%nat) by lia.
    destruct J as [-> | [-> | [-> | ->]]], K as [-> | [-> | ->]]; cbn [SphereProofs.turn Nat.even Nat.eqb]; rewrite !C; unfold Q2R; cbn [Qnum Qden]; apply Rcomplements.Rabs_le_between; lra. }
  assert (A' := A). vm_compute in A'. injection A' as <-. repeat split; vm_compute; reflexivity.
Qed.
Print Assumptions C120_density_refuted.
(** Cases for the theorems: the systems above meet the hypotheses of C120_static and C120_spectra_partial (C120_density_refuted), and at the angle 0 the means over a turn are those frequencies, which meets C120_spinning_spectra_partial (C120_spinning_example); a quantity that is not constant for C120_average;
    and a system with a quadrupolar tensor and a coupling, turned about z, for the second order. *)
Example C120_average_example : let g := fun u : axis -> R => u X * u X in slope g 2 /\ (forall u, g (fun i => - u i) = g u) /\ (forall u v, (forall i, u i = v i) -> g u = g v) /\ g (fun i => match i with X => 1 | _ => 0 end) <> g (fun i => match i with Z => 1 | _ => 0 end).
Proof.
  cbv zeta. split; [|split; [intros; ring|split; [intros u v H; rewrite !H; reflexivity|lra]]]. intros u v U V. unfold unit_vector in *. unfold dist3. replace (u X * u X - v X * v X) with ((u X + v X) * (u X - v X)) by ring. rewrite Rabs_mult.
  assert (-1 <= u X <= 1) by nra. assert (-1 <= v X <= 1) by nra. assert (Rabs (u X + v X) <= 2) by (apply Rabs_le; lra). pose proof (Rabs_pos (u X - v X)). pose proof (Rabs_pos (u Y - v Y)). pose proof (Rabs_pos (u Z - v Z)). nra.
Qed.
Example C120_second_example : let th := (1 / 3, 1, 1 / 5) : euler in let th' := (1 / 3, 1, 1 / 5 + 2) : euler in
  let s t := {| s_spin := 3 / 2; s_gamma := 1; s_iso := 3; s_zeta := 4; s_eta := 1 / 2; s_theta := t; s_Cq := 1000; s_qeta := 1 / 4; s_qtheta := t |} in
  let c t := {| c_A := 0; c_X := 1; c_J := 10; c_zeta := 5; c_eta := 0; c_theta := t; c_D := 7; c_dtheta := t |} in
  turned_by (0, 0, 2) th th' /\ system_turned (0, 0, 2) [s th; s th] [s th'; s th'] [c th] [c th'] /\ sites_fine true 1 [s th; s th] [3; 3]%nat [1; 1]%nat [2; 1]%nat.
Proof.
  cbv zeta. assert (H : turned_by (0, 0, 2) (1 / 3, 1, 1 / 5) (1 / 3, 1, 1 / 5 + 2)).
  { intros T i j. cbn [turned]. rewrite along_product. unfold along, asum. assert (E : forall k l, euler_axes (1 / 3) 1 (1 / 5 + 2) k l = product (euler_axes 0 0 2) (euler_axes (1 / 3) 1 (1 / 5)) k l).
    { intros k l. unfold euler_axes, product, asum. destruct k, l; cbn [about_z about_y]; rewrite ?cos_0, ?sin_0, ?cos_plus, ?sin_plus; ring. }
    rewrite !E. reflexivity. }
  split; auto. split; [split; [constructor; [|constructor; [|constructor]]|constructor; [|constructor]]; (repeat (split; [reflexivity|])); split; right; exact H|]. cbn [sites_fine]. unfold site_fine, spin, covered. cbn. repeat split; try lia; try lra; intros; try lra.
Qed.
(** With the axis of the rotor along the field the means over a turn are the frequencies of a static sample, to first order: the runs of C120_density_refuted are runs of the spinning sample too. *)
Example C120_spinning_example : forall (B0 : R) (sites : list site) (couplings : list coupling) (ns levels levels' : list nat), sites_fine false B0 sites ns levels levels' ->
  forall al be, mean_over_turn (rotor_difference false B0 sites couplings ns levels levels' al be 0) (level_difference false B0 sites couplings ns levels levels' al be).
Proof.
  intros B0 sites cps ns lv lv' Fi al be. destruct (PropAverage.difference_split B0 sites cps ns lv lv' Fi) as (T & HT & E). unfold PropAverage.difference in E.
  eapply mean_ext; [| |exact (mean_plus _ _ _ _ (mean_const (PropAverage.isotropic_difference B0 sites cps ns lv lv')) (lab_rotor al be 0 T HT))].
  - intros p. cbv beta. unfold rotor_difference. rewrite E. reflexivity.
  - unfold level_difference. rewrite E, lab_static, cos_0. unfold P2. lra.
Qed.
