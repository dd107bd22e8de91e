(** C26 (reversal), C32, C55, C64: Fourier transforms, spinning sideband intensities and table trigonometry. *)
From Coq Require Import Reals List ZArith Lra Lia.
From Coquelicot Require Import Complex.
From Verif Require Import DftModel DftSpec DftProofs TableProofs.
Import ListNotations.
Open Scope R_scope.

(** C26, reversal.  For an isotope of negative gyromagnetic ratio the real part of fftn(conj(ifftn(x))) is returned instead of x:
    for every shape and contents this is x with every index k replaced by -k modulo the length of the axis. *)
Theorem C26_reversal : forall (shape : list nat) (x : list nat -> R) (ks : list nat),
  valid_index shape ks -> reverse_spectrum shape x ks = x (flips shape ks).
Proof. exact reversal. Qed.
Print Assumptions C26_reversal.
Example C26_reversal_example : valid_index [4; 3]%nat [1; 0]%nat /\ flips [4; 3]%nat [1; 0]%nat = [3; 0]%nat /\ flips [4; 3]%nat [0; 2]%nat = [0; 1]%nat.
Proof. split; [repeat constructor|]; auto. Qed.

(** C32.  x(j) = exp(i phi_j): the samples of one orientation over the rotor period.  For every number of sidebands and every
    modulation phi, the scaled sideband intensities add up to the orientation's weight w over the number of octants, and none is
    negative when w is not. *)
Theorem C32_sidebands_conserve : forall (nsb n_oct : nat) (w : R) (phi : nat -> R), (0 < nsb)%nat -> (0 < n_oct)%nat ->
  let intensity k := norm_amplitude nsb n_oct w * sideband_intensity nsb (fun j => (cos (phi j), sin (phi j))) k in
  rsum nsb intensity = w / INR n_oct /\ (0 <= w -> forall k, 0 <= intensity k).
Proof.
  intros nsb n_oct w phi H1 H2 intensity. assert (0 < INR nsb) by (apply INR_pos; auto). assert (0 < INR n_oct) by (apply INR_pos; auto). split.
  - unfold intensity. rewrite rsum_scal, parseval by auto. rewrite (rsum_ext nsb _ (fun _ => 1)).
    + rewrite rsum_const. unfold norm_amplitude. rewrite !mult_INR. field. lra.
    + intros j _. apply (cis_unit (phi j)).
  - intros W k. unfold intensity, norm_amplitude, sideband_intensity, abs2. rewrite !mult_INR.
    apply Rmult_le_pos; [|pose proof (Rle_0_sqr (fst (fft1 nsb (fun j => (cos (phi j), sin (phi j))) k)));
      pose proof (Rle_0_sqr (snd (fft1 nsb (fun j => (cos (phi j), sin (phi j))) k))); unfold Rsqr in *; lra].
    apply Rmult_le_pos; [auto|]. unfold Rdiv. rewrite Rmult_1_l. apply Rlt_le, Rinv_0_lt_compat. repeat apply Rmult_lt_0_compat; auto.
Qed.
Print Assumptions C32_sidebands_conserve.
Example C32_example : norm_amplitude 2 4 8 * sideband_intensity 2 (fun j => (cos (INR j * PI), sin (INR j * PI))) 1 = 2.
Proof.
  unfold sideband_intensity, fft1, abs2, norm_amplitude. cbn [csum INR Nat.mul Nat.add].
  replace (- (2 * PI) * (0 * 1) / (1 + 1)) with 0 by field. replace (- (2 * PI) * (1 * 1) / (1 + 1)) with (- PI) by field.
  unfold cis. rewrite cos_neg, sin_neg, !Rmult_0_l, !Rmult_1_l, cos_0, sin_0, cos_PI, sin_PI. cbn. field.
Qed.

(** C32 with the phase factors from the interpolated tables, as in the code: between (1 - 2.5e-9) w / n_oct and w / n_oct, whether
    or not the sign of the sine survives the in-place call. *)
Theorem C32_sidebands_table : forall (nsb n_oct : nat) (w : R) (phi : nat -> R) (inplace : bool), (0 < nsb)%nat -> (0 < n_oct)%nat -> 0 <= w ->
  let x j := if inplace then exp_imag_only_inplace (phi j) else exp_imag_only (phi j) in
  (1 - 2.5e-9) * (w / INR n_oct) <= rsum nsb (fun k => norm_amplitude nsb n_oct w * sideband_intensity nsb x k) <= w / INR n_oct.
Proof.
  intros nsb n_oct w phi inplace H1 H2 W x. assert (0 < INR nsb) by (apply INR_pos; auto). assert (0 < INR n_oct) by (apply INR_pos; auto).
  rewrite rsum_scal, parseval by auto.
  assert (U : forall j, 1 - delta * delta / 4 <= abs2 (x j) <= 1).
  { intros j. unfold x. destruct inplace; [apply inplace_modulus|apply exp_imag_modulus]. }
  pose proof (rsum_le nsb (fun _ => 1 - delta * delta / 4) (fun j => abs2 (x j)) (fun j _ => proj1 (U j))) as L.
  pose proof (rsum_le nsb (fun j => abs2 (x j)) (fun _ => 1) (fun j _ => proj2 (U j))) as R.
  rewrite rsum_const in L, R. set (s := rsum nsb (fun j => abs2 (x j))) in *. clearbody s.
  assert (E : norm_amplitude nsb n_oct w * (INR nsb * s) = w / INR n_oct * (s / INR nsb)).
  { unfold norm_amplitude. rewrite !mult_INR. field. lra. }
  rewrite E. assert (0 <= w / INR n_oct) by (apply Rmult_le_pos; [auto|apply Rlt_le, Rinv_0_lt_compat; auto]).
  assert (1 - 2.5e-9 <= s / INR nsb <= 1).
  { unfold delta in *. split; [apply Rmult_le_reg_r with (INR nsb)|apply Rmult_le_reg_r with (INR nsb)]; auto; unfold Rdiv; rewrite Rmult_assoc, Rinv_l by lra; lra. }
  split; nra.
Qed.
Print Assumptions C32_sidebands_table.

(** C32: no modulation over the rotor period (e.g. zero anisotropy) leaves all the intensity in the centre band. *)
Theorem C32_no_modulation : forall (nsb n_oct : nat) (w phi : R) (k : nat), (0 < k < nsb)%nat -> (0 < n_oct)%nat ->
  norm_amplitude nsb n_oct w * sideband_intensity nsb (fun _ => (cos phi, sin phi)) 0 = w / INR n_oct /\
  norm_amplitude nsb n_oct w * sideband_intensity nsb (fun _ => (cos phi, sin phi)) k = 0.
Proof.
  intros nsb n_oct w phi k Hk Ho. assert (0 < INR nsb) by (apply INR_pos; lia). assert (0 < INR n_oct) by (apply INR_pos; lia).
  destruct (constant_bands nsb phi k Hk) as [A B]. rewrite A, B. unfold norm_amplitude. rewrite !mult_INR. split; field; lra.
Qed.
Print Assumptions C32_no_modulation.

(** C55.  Bounds: for every phase x the two table entries read, i and i + 1, exist.  Accuracy: the values are within 1.5e-5 of the
    cosine of x and the sine of |x|, and within 1e-8 when x is not in the last 1e-4 of the period, where the last table entry is
    the value at 2 pi instead of at 6.2832.  They are periodic. *)
Theorem C55_table_bounds_partial : forall x : R,
  let i := table_index (modd (Rabs x) (2 * PI)) in
  (0 <= i)%Z /\ (i + 1 < table_size)%Z /\
  Rabs (fst (cos_sin_from_table x) - cos x) <= 1.5e-5 /\ Rabs (snd (cos_sin_from_table x) - sin (Rabs x)) <= 1.5e-5 /\
  (forall (y : R) (k : nat), 0 <= y < 6.2831 -> Rabs x = y + 2 * INR k * PI ->
     Rabs (fst (cos_sin_from_table x) - cos x) <= 1e-8 /\ Rabs (snd (cos_sin_from_table x) - sin (Rabs x)) <= 1e-8) /\
  (0 <= x -> forall k : nat, cos_sin_from_table (x + 2 * INR k * PI) = cos_sin_from_table x).
Proof.
  intros x i. destruct (table_bounds _ (modd_range (Rabs x) (Rabs_pos x))) as [A [B _]]. split; [auto|]. split; [auto|].
  destruct (table_sharp x) as [[D E] F].
  destruct (cos_sin_sharp x 1.5e-5 ltac:(lra) D E) as [G H]. split; [auto|]. split; [auto|].
  split; [|intros H0 k; apply cos_sin_period; auto].
  intros y k Hy Hx. destruct (F (modd_of _ _ _ Hy Hx)) as [F1 F2]. apply cos_sin_sharp; auto. lra.
Qed.
Print Assumptions C55_table_bounds_partial.

(** C55 fails for negative angles: get_cos_sin_from_table takes the sign of the angle after the absolute value: the sine of -x is
    that of x, for every x.  The vm_cosine_I_sine users get the rotation by |beta| for a rotation by beta. *)
Theorem C55_odd_refuted :
  (forall x : R, cos_sin_from_table (- x) = cos_sin_from_table x) /\ snd (cos_sin_from_table (-1)) > 0.8 /\ sin (-1) < -0.8.
Proof.
  split; [intros x; unfold cos_sin_from_table, table_exp; rewrite Rabs_Ropp; auto|].
  pose proof (cos_sin_close (-1)) as [_ E]. replace (Rabs (-1)) with 1 in E by (rewrite (Rabs_left (-1)); lra). pose proof sin_1_big. replace (sin (-1)) with (- sin 1) by (rewrite <- sin_neg; f_equal; lra).
  unfold delta in E. apply Rabs_def2_le in E. split; lra.
Qed.
Print Assumptions C55_odd_refuted.

(** C64.  With separate arrays the phase factor is within 1.5e-5 of exp(i x), for every phase of either sign, and within 1e-8 when
    |x| is not in the last 1e-4 of the period. *)
Theorem C64_phase_factor_partial : forall x : R,
  Rabs (fst (exp_imag_only x) - cos x) <= 1.5e-5 /\ Rabs (snd (exp_imag_only x) - sin x) <= 1.5e-5 /\
  (forall (y : R) (k : nat), 0 <= y < 6.2831 -> Rabs x = y + 2 * INR k * PI ->
     Rabs (fst (exp_imag_only x) - cos x) <= 1e-8 /\ Rabs (snd (exp_imag_only x) - sin x) <= 1e-8).
Proof.
  intros x. destruct (table_sharp x) as [[D E] F]. destruct (exp_imag_sharp x 1.5e-5 D E) as [G H]. split; [auto|]. split; [auto|].
  intros y k Hy Hx. destruct (F (modd_of _ _ _ Hy Hx)) as [F1 F2]. apply exp_imag_sharp; auto.
Qed.
Print Assumptions C64_phase_factor_partial.
(** C64 fails for the call the code makes (input and output the same array), executed in statement order: the imaginary part is
    never negative. *)
Theorem C64_inplace_refuted :
  (forall x : R, 0 <= snd (exp_imag_only_inplace x)) /\ snd (exp_imag_only_inplace (-1)) > 0.8 /\ sin (-1) < -0.8.
Proof.
  split; [exact inplace_nonneg|]. pose proof sin_1_big. replace (sin (-1)) with (- sin 1) by (rewrite <- sin_neg; f_equal; lra). split; [|lra].
  destruct (table_close 1 (-1)) as [_ [E _]]. replace (Rabs (-1)) with 1 in E by (rewrite (Rabs_left (-1)); lra). unfold delta in E. apply Rabs_def2_le in E.
  unfold exp_imag_only_inplace. cbn [snd]. rewrite rsign_pos; lra.
Qed.
Print Assumptions C64_inplace_refuted.
