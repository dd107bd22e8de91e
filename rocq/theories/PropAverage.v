(** C116: the powder average of an interaction of first order is its isotropic part, at every integration density. *)
From Coq Require Import Reals QArith Qreals List ZArith Lra Lia Bool.
From Coquelicot Require Import Coquelicot.
From Verif Require PropFreq.
From Verif Require Import InterpModel InterpSpec PowderModel WalkProofs DftModel DftProofs FreqModel FreqSpec PhysSpec PhysLevels PhysExact PhysEvent.
From Verif Require Import AverageSpec AverageProofs AveragePhys AverageCentre.
Import ListNotations.
Open Scope R_scope.

(** Polar angles of the orientations exist: the hypothesis [polar_angles] of the theorems can be met for every density. *)
Lemma polar_exists : forall nt, (1 <= nt)%nat -> exists alpha beta, polar_angles nt alpha beta.
Proof.
  intros nt N. set (s := fun p => sqrt (1 - cosine nt p Z * cosine nt p Z)).
  exists (fun p => if Req_EM_T (s p) 0 then 0 else acos (cosine nt p X / s p)), (fun p => acos (cosine nt p Z)). intros p i Hp.
  destruct (point_triple nt p N Hp) as (x & y & z & E & ->). pose proof (cosine_at nt x y z X N E) as CX. pose proof (cosine_at nt x y z Y N E) as CY. pose proof (cosine_at nt x y z Z N E) as CZ. cbv iota beta in CX, CY, CZ.
  set (P := at3 nt x y z) in *. pose proof (N2_pos x y z ltac:(lia)) as NP. pose proof (sqrt_lt_R0 _ NP) as SP. set (n2 := sqrt (N2 x y z)) in *.
  assert (Q : n2 * n2 = N2 x y z) by (apply sqrt_sqrt; lra). pose proof (pos_INR x) as X0. pose proof (pos_INR y) as Y0. pose proof (pos_INR z) as Z0.
  set (cx := cosine nt P X) in *. set (cy := cosine nt P Y) in *. set (cz := cosine nt P Z) in *.
  assert (U : cx * cx + cy * cy + cz * cz = 1). { rewrite CX, CY, CZ. unfold N2 in Q. field_simplify_eq; [|lra]. replace (n2 ^ 2) with (n2 * n2) by ring. rewrite Q. ring. }
  assert (PX : 0 <= cx) by (rewrite CX; apply Rle_mult_inv_pos; auto). assert (PY : 0 <= cy) by (rewrite CY; apply Rle_mult_inv_pos; auto). assert (PZ : 0 <= cz) by (rewrite CZ; apply Rle_mult_inv_pos; auto).
  assert (B : -1 <= cz <= 1) by (split; [lra|]; nra). assert (S2 : s P * s P = cx * cx + cy * cy) by (unfold s; rewrite sqrt_sqrt; fold cz; nra). assert (S0 : 0 <= s P) by (unfold s; apply sqrt_pos).
  assert (SB : sin (acos cz) = s P) by (rewrite sin_acos by exact B; unfold s, Rsqr; reflexivity).
  unfold direction. fold cz. rewrite SB, cos_acos by exact B. destruct (Req_EM_T (s P) 0) as [SZ|SN].
  - rewrite SZ in *. assert (cx = 0) by nra. assert (cy = 0) by nra. rewrite cos_0, sin_0. destruct i; fold cx cy cz; lra.
  - assert (PS : 0 < s P) by lra. assert (A : -1 <= cx / s P <= 1).
    { split; [assert (0 <= cx / s P) by (apply Rle_mult_inv_pos; auto); lra|]. apply (Rmult_le_reg_r (s P)); auto. unfold Rdiv. rewrite Rmult_assoc, Rinv_l by auto. nra. }
    rewrite sin_acos, cos_acos by exact A. assert (R : sqrt (1 - (cx / s P)²) = cy / s P).
    { replace (1 - (cx / s P)²) with ((cy / s P) * (cy / s P)); [apply sqrt_square, Rle_mult_inv_pos; auto|]. unfold Rsqr. apply (Rmult_eq_reg_r (s P * s P)); [|nra]. field_simplify; auto. replace (s P ^ 2) with (s P * s P) by ring. rewrite S2. ring. }
    rewrite R. destruct i; fold cx cy cz; try (field; auto); reflexivity.
Qed.
Lemma powder_1_neq nt k : (1 <= nt)%nat -> (1 <= k)%nat -> powder_sum nt k (fun _ => 1) <> 0.
Proof. intros N K. rewrite powder_one by auto. apply Rgt_not_eq, Rmult_lt_0_compat; [apply lt_0_INR; lia|apply S3_one_pos; auto]. Qed.

(** The average over the hemisphere of the element of a tensor along the direction of the orientation is a third of the trace: exactly, at every density. *)
Theorem C116_tensor : forall (nt : nat) (alpha beta : nat -> R) (T : tensor3), (1 <= nt)%nat -> polar_angles nt alpha beta ->
  powder_average nt 4 (fun o => element T (towards nt alpha beta o)) = trace T / 3.
Proof. intros nt al be T N P. unfold powder_average. rewrite hemisphere by auto. field. apply powder_1_neq; auto. Qed.
Print Assumptions C116_tensor.
(** The same over one octant, for tensors along the axes of the crystallite ... *)
Theorem C116_octant : forall (nt : nat) (alpha beta : nat -> R) (T : tensor3), (1 <= nt)%nat -> polar_angles nt alpha beta -> diagonal T ->
  powder_average nt 1 (fun o => element T (towards nt alpha beta o)) = trace T / 3.
Proof. intros nt al be T N P D. unfold powder_average. rewrite octant_diagonal by auto. field. apply powder_1_neq; auto. Qed.
Print Assumptions C116_octant.
(** ... and not for others: a traceless tensor whose average is positive at every density above 1. *)
Theorem C116_octant_refuted : exists T, symmetric T /\ trace T = 0 /\ forall (nt : nat) (alpha beta : nat -> R), (2 <= nt)%nat -> polar_angles nt alpha beta ->
  0 < powder_average nt 1 (fun o => element T (towards nt alpha beta o)).
Proof.
  exists (fun i j => match i, j with X, Y | Y, X => 1 | _, _ => 0 end). split; [intros [] []; reflexivity|]. split; [unfold trace, asum; ring|]. intros nt al be N P. unfold powder_average. apply Rdiv_lt_0_compat.
  - apply octant_xy; auto.
  - rewrite powder_one by lia. apply Rmult_lt_0_compat; [cbn; lra|apply S3_one_pos; lia].
Qed.
Print Assumptions C116_octant_refuted.
Example C116_tensor_example : exists alpha beta, polar_angles 70 alpha beta /\ trace (principal 7 (1 / 2)) = 0.
Proof. destruct (polar_exists 70 ltac:(lia)) as (al & be & P). exists al, be. split; [exact P|apply principal_trace]. Qed.

(** *** Spin systems *)
Lemma fine_levels second B0 sites ns lv lv' : sites_fine second B0 sites ns lv lv' -> (forall s n a, In (s, (n, a)) (combine sites (combine ns lv)) -> (a <= n)%nat) /\ (forall s n a, In (s, (n, a)) (combine sites (combine ns lv')) -> (a <= n)%nat).
Proof.
  revert ns lv lv'. induction sites as [|s sites IH]; intros [|n ns] [|a lv] [|a' lv'] H; cbn in H; try contradiction; [split; intros ? ? ? []|].
  destruct H as [(_ & _ & A & A' & _) H]. destruct (IH _ _ _ H) as [I1 I2]. cbn [combine]. split; intros s0 n0 a0 [[= -> -> ->]|I]; eauto.
Qed.
Lemma average_shift nt k c q f : (1 <= nt)%nat -> (1 <= k)%nat -> powder_average nt k (fun o => c + q * f o) = c + q * powder_average nt k f.
Proof.
  intros N K. unfold powder_average. rewrite (powder_S3 nt k (fun o => c + q * f o) (fun j x y z => c + q * f (j * n_pts nt + at3 nt x y z)%nat) N) by auto. rewrite (powder_S3 nt k f (fun j x y z => f (j * n_pts nt + at3 nt x y z)%nat) N) by auto.
  rewrite (S3_ext nt _ (fun x y z => INR k * c * 1 + q * rsum k (fun j => f (j * n_pts nt + at3 nt x y z)%nat)) N) by (intros; rewrite WignerNorm.rsum_plus, rsum_const, rsum_scal; ring).
  rewrite S3_plus, (S3_scal nt (INR k * c) (fun _ _ _ => 1)), (S3_scal nt q), (powder_one nt k N). field. pose proof (S3_one_pos nt N). pose proof (lt_0_INR k ltac:(lia)). split; lra.
Qed.
Lemma average_ext nt k f g : (1 <= nt)%nat -> (forall o, (o < k * n_pts nt)%nat -> f o = g o) -> powder_average nt k f = powder_average nt k g.
Proof.
  intros N H. unfold powder_average. f_equal. rewrite (powder_S3 nt k f (fun j x y z => g (j * n_pts nt + at3 nt x y z)%nat) N); [rewrite (powder_S3 nt k g (fun j x y z => g (j * n_pts nt + at3 nt x y z)%nat) N); auto|].
  intros j x y z J E. apply H. pose proof (at3_bound nt x y z E). nia.
Qed.
(** The difference of the energies of two states (C109) in orientation o, without the second order of the quadrupolar interaction; static sample. *)
Definition difference (B0 : R) (sites : list site) (couplings : list coupling) (fr : list euler) (ns levels levels' : list nat) : R :=
  system_level false B0 sites couplings fr ns levels' - system_level false B0 sites couplings fr ns levels.
Definition isotropic_difference (B0 : R) (sites : list site) (couplings : list coupling) (ns levels levels' : list nat) : R :=
  difference B0 (map isotropic_site sites) (map isotropic_coupling couplings) [] ns levels levels'.
Lemma difference_split B0 sites cps ns lv lv' : sites_fine false B0 sites ns lv lv' -> exists T, traceless T /\
  forall fr, difference B0 sites cps fr ns lv lv' = isotropic_difference B0 sites cps ns lv lv' + lab fr T Z Z.
Proof.
  intros F. destruct (fine_levels _ _ _ _ _ _ F) as [L L']. destruct (system_split B0 sites cps ns lv L) as (T & HT & E). destruct (system_split B0 sites cps ns lv' L') as (T' & HT' & E').
  exists (tplus T' (tscal (-1) T)). split; [apply traceless_plus; auto; apply traceless_scal; auto|]. intros fr. unfold isotropic_difference, difference. rewrite E, E', lab_plus, lab_tscal, (isotropic_level B0 sites cps fr [] ns lv L), (isotropic_level B0 sites cps fr [] ns lv' L'). ring.
Qed.
Theorem C116_static : forall (nt : nat) (alpha beta : nat -> R) (B0 : R) (sites : list site) (couplings : list coupling) (ns levels levels' : list nat),
  (1 <= nt)%nat -> polar_angles nt alpha beta -> sites_fine false B0 sites ns levels levels' ->
  powder_average nt 4 (fun o => difference B0 sites couplings (static_frame (orientation (n_pts nt) alpha o) (beta (o mod n_pts nt)%nat)) ns levels levels') =
  isotropic_difference B0 sites couplings ns levels levels'.
Proof.
  intros nt al be B0 sites cps ns lv lv' N P F. destruct (difference_split B0 sites cps ns lv lv' F) as (T & [Sy Tr] & E).
  rewrite (average_ext nt 4 _ (fun o => isotropic_difference B0 sites cps ns lv lv' + 1 * element T (towards nt al be o)) N) by (intros; rewrite E, lab_static; unfold towards; ring).
  rewrite average_shift, C116_tensor by (auto; lia). rewrite Tr. field.
Qed.
Print Assumptions C116_static.
(** The same for the means over a turn of the rotor, at any angle of the rotor. *)
Theorem C116_spinning : forall (nt : nat) (alpha beta : nat -> R) (B0 : R) (sites : list site) (couplings : list coupling) (ns levels levels' : list nat) (theta : R) (mean : nat -> R),
  (1 <= nt)%nat -> polar_angles nt alpha beta -> sites_fine false B0 sites ns levels levels' ->
  (forall o, (o < 4 * n_pts nt)%nat -> mean_over_turn (fun phi => difference B0 sites couplings (rotor_frame (orientation (n_pts nt) alpha o) (beta (o mod n_pts nt)%nat) phi theta) ns levels levels') (mean o)) ->
  powder_average nt 4 mean = isotropic_difference B0 sites couplings ns levels levels'.
Proof.
  intros nt al be B0 sites cps ns lv lv' th mean N P F M. destruct (difference_split B0 sites cps ns lv lv' F) as (T & HT & E). pose proof HT as [Sy Tr].
  rewrite (average_ext nt 4 _ (fun o => isotropic_difference B0 sites cps ns lv lv' + P2 (cos th) * element T (towards nt al be o)) N).
  - rewrite average_shift, C116_tensor by (auto; lia). rewrite Tr. field.
  - intros o Ho. pose proof (M o Ho) as M1. pose proof (lab_rotor (orientation (n_pts nt) al o) (be (o mod n_pts nt)%nat) th T HT) as M2. unfold mean_over_turn in M1, M2.
    set (iso := isotropic_difference B0 sites cps ns lv lv') in *. apply (is_RInt_ext _ (fun phi => iso + lab (rotor_frame (orientation (n_pts nt) al o) (be (o mod n_pts nt)%nat) phi th) T Z Z)) in M1; [|intros; apply E].
    assert (M3 : is_RInt (fun phi => iso + lab (rotor_frame (orientation (n_pts nt) al o) (be (o mod n_pts nt)%nat) phi th) T Z Z) 0 (2 * PI) (2 * PI * iso + 2 * PI * (P2 (cos th) * element T (towards nt al be o)))).
    { apply (is_RInt_plus (V := R_NormedModule)); [|exact M2]. replace (2 * PI * iso) with (scal (2 * PI - 0) iso) by (unfold scal; cbn; unfold mult; cbn; ring). apply (is_RInt_const (V := R_NormedModule)). }
    pose proof (is_RInt_unique (V := R_CompleteNormedModule) _ _ _ _ M1) as U1. pose proof (is_RInt_unique (V := R_CompleteNormedModule) _ _ _ _ M3) as U3. rewrite U1 in U3. pose proof PI_RGT_0. nra.
Qed.
Print Assumptions C116_spinning.

(** *** The spectrum *)
(** The spectrum of one event over the hemisphere, static or at infinite speed (one sideband).  The numbers handed to the averaging are rational (doubles
    are); they agree with the real ones to eps (frequencies, in bins; c: the part of the frequency that is in the offset) and eta (weights, relative to a
    common factor kappa).  The centre of gravity of the spectrum is the isotropic frequency to half a bin and these tolerances, at every density. *)
Theorem C116_centre_partial : forall (nt : nat) (offset_0 : Q) (vr freq norm sb : nat -> Q) (count : BinNums.Z) (out : writes)
    (alpha beta : nat -> R) (B0 : R) (sites : list site) (couplings : list coupling) (ns levels levels' : list nat) (increment c kappa eta eps M : R),
  (1 <= nt)%nat -> polar_angles nt alpha beta -> sites_fine false B0 sites ns levels levels' ->
  averaging_1d nt 4 1 offset_0 vr freq norm sb count = Some out ->
  is_delta nt (n_pts nt) freq = false -> in_window (offset_0 + vr 0%nat) count = true ->
  (forall p, (p < 4 * n_pts nt)%nat -> (0 <= freq p + (offset_0 + vr 0%nat) /\ freq p + (offset_0 + vr 0%nat) < zq count)%Q) ->
  0 < kappa -> 0 <= eta < 1 ->
  (forall p, (p < n_pts nt)%nat -> Rabs (Q2R (norm p) - kappa * nth p (amplitudes nt) 0) <= eta * (kappa * nth p (amplitudes nt) 0)) ->
  let nu o := difference B0 sites couplings (static_frame (orientation (n_pts nt) alpha o) (beta (o mod n_pts nt)%nat)) ns levels levels' / increment in
  let nu_iso := isotropic_difference B0 sites couplings ns levels levels' / increment in
  (forall o, (o < 4 * n_pts nt)%nat -> Rabs (Q2R (freq o) - (nu o - c)) <= eps) ->
  (forall o, (o < 4 * n_pts nt)%nat -> Rabs (nu o - nu_iso) <= M) ->
  Rabs (Q2R (moment centre out count) / Q2R (InterpSpec.total out count) - (Q2R (offset_0 + vr 0%nat) + (nu_iso - c))) <= / 2 + eps + eta / (1 - eta) * M.
Proof.
  intros nt o vr freq norm sb count out al be B0 sites cps ns lv lv' inc c kappa eta eps M N P F H D HW HF K E HN nu nu_iso HQ HM.
  assert (A : powder_average nt 4 (fun o => nu o - c) = nu_iso - c).
  { rewrite (average_ext nt 4 _ (fun o => - c + / inc * difference B0 sites cps (static_frame (orientation (n_pts nt) al o) (be (o mod n_pts nt)%nat)) ns lv lv') N) by (intros; unfold nu, Rdiv; ring).
    rewrite average_shift, C116_static by (auto; lia). unfold nu_iso, Rdiv. ring. }
  pose proof (centre_close nt 4 o vr freq norm sb count out (fun o => nu o - c) kappa eta eps M N ltac:(lia) H D HW HF K E HN HQ) as R. rewrite A in R. apply R.
  intros p Hp. replace (nu p - c - (nu_iso - c)) with (nu p - nu_iso) by ring. auto.
Qed.
Print Assumptions C116_centre_partial.
(** Spin systems the theorems are about: sodium coupled to a proton (C109), and the shielding of a proton at the lowest density, where the spectrum is computed. *)
Example C116_static_example : exists alpha beta, polar_angles 70 alpha beta /\ sites_fine false (94 / 10) [PropFreq.sodium; PropFreq.proton 1] [3; 1]%nat [2; 0]%nat [1; 0]%nat.
Proof. destruct (polar_exists 70 ltac:(lia)) as (al & be & P). exists al, be. split; [exact P|]. cbn [sites_fine]. unfold site_fine, spin, covered. cbn. repeat split; try lia; try lra; intros; discriminate. Qed.
Definition shielded : site := {| s_spin := 1 / 2; s_gamma := 1; s_iso := 3; s_zeta := 4; s_eta := 0; s_theta := (0, 0, 0); s_Cq := 0; s_qeta := 0; s_qtheta := (0, 0, 0) |}.
Definition shielded_freq (o : nat) : Q := if Nat.eqb (o mod 3) 2 then 4%Q else (-2)%Q.
Lemma identity_turned T i j : turned (0, 0, 0) T i j = T i j.
Proof. unfold turned, along, euler_axes, product, asum. destruct i, j; cbn [about_z about_y]; rewrite ?cos_0, ?sin_0; ring. Qed.
Lemma shielded_difference u v : difference 1 [shielded] [] (static_frame u v) [1]%nat [0]%nat [1]%nat = - 3 + 2 * (3 * (cos v * cos v) - 1).
Proof.
  unfold difference, system_level. cbn [combine rtotal fold_right fst snd]. unfold site_level. cbv zeta. cbn [shielded s_gamma s_iso s_zeta s_eta s_theta Nat.ltb Nat.leb].
  rewrite lab_static. unfold element, asum. rewrite !identity_turned. unfold principal, direction, quantum, spin. cbn [INR]. pose proof (sin2_cos2 v) as V. pose proof (sin2_cos2 u) as U. unfold Rsqr in U, V.
  assert (S : sin v * cos u * (sin v * cos u) + sin v * sin u * (sin v * sin u) = 1 - cos v * cos v) by (replace (sin v * cos u * (sin v * cos u) + sin v * sin u * (sin v * sin u)) with (sin v * sin v * (sin u * sin u + cos u * cos u)) by ring; rewrite U; lra). nra.
Qed.
Lemma shielded_isotropic : isotropic_difference 1 [shielded] [] [1]%nat [0]%nat [1]%nat = - 3.
Proof. unfold isotropic_difference, difference, system_level. cbn [map combine rtotal fold_right fst snd]. unfold site_level. cbv zeta. cbn [isotropic_site shielded s_gamma s_iso s_zeta s_eta s_theta Nat.ltb Nat.leb]. rewrite lab_principal0. unfold quantum, spin. cbn [INR]. lra. Qed.
Example C116_centre_example : exists alpha beta out, polar_angles 1 alpha beta /\ sites_fine false 1 [shielded] [1]%nat [0]%nat [1]%nat /\
  averaging_1d 1 4 1 5 (fun _ => 0%Q) shielded_freq (fun _ => 1%Q) (fun _ => 0%Q) 10 = Some out /\ is_delta 1 (n_pts 1) shielded_freq = false /\ in_window (5 + 0) 10 = true /\
  (forall p, (p < 4 * n_pts 1)%nat -> (0 <= shielded_freq p + (5 + 0) /\ shielded_freq p + (5 + 0) < zq 10)%Q) /\
  (forall p, (p < n_pts 1)%nat -> Rabs (Q2R 1 - 1 * nth p (amplitudes 1) 0) <= 0 * (1 * nth p (amplitudes 1) 0)) /\
  (forall o, (o < 4 * n_pts 1)%nat -> Rabs (Q2R (shielded_freq o) - (difference 1 [shielded] [] (static_frame (orientation (n_pts 1) alpha o) (beta (o mod n_pts 1)%nat)) [1]%nat [0]%nat [1]%nat / 1 - - 3)) <= 0) /\
  (forall o, (o < 4 * n_pts 1)%nat -> Rabs (difference 1 [shielded] [] (static_frame (orientation (n_pts 1) alpha o) (beta (o mod n_pts 1)%nat)) [1]%nat [0]%nat [1]%nat / 1 - isotropic_difference 1 [shielded] [] [1]%nat [0]%nat [1]%nat / 1) <= 4).
Proof.
  destruct (polar_exists 1 ltac:(lia)) as (al & be & P). exists al, be. eexists. split; [exact P|]. split; [cbn [sites_fine]; unfold site_fine, spin, covered; cbn; repeat split; try lia; try lra; intros; discriminate|]. split; [vm_compute; reflexivity|]. split; [vm_compute; reflexivity|]. split; [vm_compute; reflexivity|].
  assert (C : forall q, (q < 3)%nat -> cos (be q) * cos (be q) = if Nat.eqb q 2 then 1 else 0).
  { intros q Hq. pose proof (P q Z Hq) as E. unfold direction in E. rewrite E. destruct q as [|[|[|q]]]; [| | |lia].
    - change (cosine 1 0 Z) with (cosine 1 (at3 1 1 0 0) Z). rewrite (cosine_at 1 1 0 0 Z) by lia. cbn [INR Nat.eqb]. unfold Rdiv. ring.
    - change (cosine 1 1 Z) with (cosine 1 (at3 1 0 1 0) Z). rewrite (cosine_at 1 0 1 0 Z) by lia. cbn [INR Nat.eqb]. unfold Rdiv. ring.
    - change (cosine 1 2 Z) with (cosine 1 (at3 1 0 0 1) Z). rewrite (cosine_at 1 0 0 1 Z) by lia. unfold N2. cbn [INR Nat.eqb]. replace (0 * 0 + 0 * 0 + 1 * 1) with 1 by ring. rewrite sqrt_1. field. }
  assert (D : forall o, difference 1 [shielded] [] (static_frame (orientation (n_pts 1) al o) (be (o mod n_pts 1)%nat)) [1]%nat [0]%nat [1]%nat = - 3 + Q2R (shielded_freq o)).
  { intros o. rewrite shielded_difference. change (n_pts 1) with 3%nat. rewrite C by (apply Nat.mod_upper_bound; lia). unfold shielded_freq. destruct (Nat.eqb (o mod 3) 2); unfold Q2R; cbn; lra. }
  split; [intros p _; unfold shielded_freq; destruct (Nat.eqb (p mod 3) 2); split; vm_compute; congruence|].
  split.
  { intros p Hp. assert (A : nth p (amplitudes 1) 0 = 1).
    { destruct p as [|[|[|p]]]; [| | |cbn in Hp; lia]; [change 0%nat with (at3 1 1 0 0) at 1|change 1%nat with (at3 1 0 1 0) at 1|change 2%nat with (at3 1 0 0 1) at 1]; rewrite amplitude_at by lia; unfold W3, N2; cbn [INR];
        [replace (1 * 1 + 0 * 0 + 0 * 0) with 1 by ring|replace (0 * 0 + 1 * 1 + 0 * 0) with 1 by ring|replace (0 * 0 + 0 * 0 + 1 * 1) with 1 by ring]; rewrite sqrt_1; field. }
    rewrite A. replace (Q2R 1 - 1 * 1) with 0 by (unfold Q2R; cbn; lra). rewrite Rabs_R0. lra. }
  split; intros o _; rewrite D; [replace (Q2R (shielded_freq o) - ((- 3 + Q2R (shielded_freq o)) / 1 - - 3)) with 0 by field; rewrite Rabs_R0; lra|].
  rewrite shielded_isotropic. replace ((- 3 + Q2R (shielded_freq o)) / 1 - - 3 / 1) with (Q2R (shielded_freq o)) by field. apply Rabs_le. unfold shielded_freq. destruct (Nat.eqb (o mod 3) 2); unfold Q2R; cbn; lra.
Qed.
(** Of rank 4 (the second order) the average is not exact: P4(cos beta) averages to 7/12 instead of 0 at the lowest density. *)
Theorem C116_rank4_refuted : forall alpha beta : nat -> R, polar_angles 1 alpha beta -> powder_average 1 4 (fun o => P4 (towards 1 alpha beta o Z)) = 7 / 12.
Proof.
  intros al be P. unfold powder_average. rewrite powder_one by lia.
  rewrite (powder_S3 1 4 _ (fun _ x y z => P4 (INR z / sqrt (N2 x y z))) ltac:(lia)).
  - rewrite (S3_ext 1 _ (fun x y z => 4 * P4 (INR z / sqrt (N2 x y z))) ltac:(lia)) by (intros; rewrite rsum_const; cbn; ring). rewrite S3_scal. unfold S3, tri3. cbn [rsum Nat.sub]. unfold Up, W3, N2. cbn [INR].
    replace (1 * 1 + 0 * 0 + 0 * 0) with 1 by ring. replace (0 * 0 + 1 * 1 + 0 * 0) with 1 by ring. replace (0 * 0 + 0 * 0 + 1 * 1) with 1 by ring. rewrite sqrt_1. unfold P4. field.
  - intros j x y z _ E. rewrite towards_at by (apply at3_bound; auto). unfold direction. rewrite <- (cosine_at 1 x y z Z) by (auto; lia). rewrite <- P by (apply at3_bound; auto). reflexivity.
Qed.
Print Assumptions C116_rank4_refuted.
