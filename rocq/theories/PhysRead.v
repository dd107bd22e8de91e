(** Any linear reading of the components of an event: how far it is from the same reading of the exact components, when the readings of
    one turned tensor are near each other. *)
From Coq Require Import Reals List ZArith Lra Lia Psatz.
From Coquelicot Require Import Complex.
From Verif Require Import DftModel DftProofs WignerMatrix WignerModel WignerSpec WignerOrtho WignerClose WignerNorm WignerProofs FreqModel FreqSpec FreqProofs PhysSpec PhysLevels PhysRot PhysCouple PhysSpin PhysExact FreqConst PhysClose PhysRotor PhysEvent.
Import ListNotations.
Open Scope R_scope.

Section Reads.
(** Readings of components of rank 2 and 4, of the code and exact. *)
Variables g2 g4 h2 h4 : list C -> R.
Variable kap : R.
Hypothesis kap0 : 0 <= kap.
Hypothesis g2_scale : forall t v, g2 (vscale t v) = t * g2 v.
Hypothesis g4_scale : forall t v, g4 (vscale t v) = t * g4 v.
Hypothesis g2_add : forall a b, length a = 5%nat -> length b = 5%nat -> g2 (vadd a b) = g2 a + g2 b.
Hypothesis g4_add : forall a b, length a = 9%nat -> length b = 9%nat -> g4 (vadd a b) = g4 a + g4 b.
Hypothesis h2_scale : forall t v, h2 (vscale t v) = t * h2 v.
Hypothesis h4_scale : forall t v, h4 (vscale t v) = t * h4 v.
Hypothesis close2 : forall th p p', 0 <= beta_of th < 6.2831 -> Rabs (g2 (turn 2 th p) - h2 (exact_turn 2 th p')) <= kap * (6e-7 * size 2 p + 5 * gap 2 p p').
Hypothesis close4 : forall th p p', 0 <= beta_of th < 6.2831 -> Rabs (g4 (turn 4 th p) - h4 (exact_turn 4 th p')) <= kap * (6.1e-5 * size 4 p + 9 * gap 4 p p').

Definition code_read (c : comps) : R := g2 (r2 c) + g4 (r4 c).
Definition exact_read (c : comps) : R := h2 (r2 c) + h4 (r4 c).
Lemma zero_of n (g : list C -> R) : (forall t v, g (vscale t v) = t * g v) -> g (vzero n) = 0.
Proof. intros H. replace (vzero n) with (vscale 0 (vzero n)) by (rewrite vscale_0; unfold vzero; rewrite repeat_length; reflexivity). rewrite H. ring. Qed.
Lemma read_only0 x : code_read (only0 x) = 0. Proof. unfold code_read, only0. cbn [r2 r4]. rewrite (zero_of 5 g2 g2_scale), (zero_of 9 g4 g4_scale). ring. Qed.
Lemma read_only2 v : code_read (only2 v) = g2 v. Proof. unfold code_read, only2. cbn [r2 r4]. rewrite (zero_of 9 g4 g4_scale). ring. Qed.
Lemma read_only4 v : code_read (only4 v) = g4 v. Proof. unfold code_read, only4. cbn [r2 r4]. rewrite (zero_of 5 g2 g2_scale). ring. Qed.
Lemma xread_only0 x : exact_read (only0 x) = 0. Proof. unfold exact_read, only0. cbn [r2 r4]. rewrite (zero_of 5 h2 h2_scale), (zero_of 9 h4 h4_scale). ring. Qed.
Lemma xread_only2 v : exact_read (only2 v) = h2 v. Proof. unfold exact_read, only2. cbn [r2 r4]. rewrite (zero_of 9 h4 h4_scale). ring. Qed.
Lemma xread_only4 v : exact_read (only4 v) = h4 v. Proof. unfold exact_read, only4. cbn [r2 r4]. rewrite (zero_of 5 h2 h2_scale). ring. Qed.
Lemma read_add a b : wf a -> wf b -> code_read (cadd a b) = code_read a + code_read b.
Proof. intros [A2 A4] [B2 B4]. unfold code_read. cbn [cadd r2 r4]. rewrite g2_add, g4_add by auto. ring. Qed.
Lemma read_zero : code_read zero_comps = 0. Proof. unfold code_read, zero_comps. cbn [r2 r4]. rewrite (zero_of 5 g2 g2_scale), (zero_of 9 g4 g4_scale). ring. Qed.
Lemma read_total l : (forall c, In c l -> wf c) -> code_read (total l) = rtotal code_read l.
Proof.
  induction l as [|c l IH]; intros W; [apply read_zero|]. cbn [total fold_right rtotal]. fold (total l). rewrite read_add; [|apply W; left; auto|apply total_wf; intros; apply W; right; auto].
  rewrite IH by (intros; apply W; right; auto). reflexivity.
Qed.

Lemma first_read th t x y t' x' y' Bx By r : 0 <= beta_of th < 6.2831 -> 0 <= r <= 3e-9 -> within r (t * x) (t' * x') Bx -> within r (t * y) (t' * y') By ->
  Rabs (code_read (only2 (vscale t (turn 2 th (pas2 x y)))) - exact_read (only2 (vscale t' (exact_turn 2 th (pas2 x' y'))))) <= kap * (6.2e-7 * (2 * Bx + By)).
Proof.
  intros B Hr Wx Wy. rewrite read_only2, xread_only2, turn_vscale, <- exact_vscale. eapply Rle_trans; [apply close2; auto|]. apply Rmult_le_compat_l; auto.
  rewrite size_pas2, gap_pas2. replace (Rabs t * (2 * Rabs x + Rabs y)) with (2 * Rabs (t * x) + Rabs (t * y)) by (rewrite !Rabs_mult; ring).
  pose proof (within_size _ _ _ _ Wx) as S1. pose proof (within_size _ _ _ _ Wy) as S2. destruct Wx as [D1 A1], Wy as [D2 A2].
  pose proof (Rabs_pos (t' * x')). pose proof (Rabs_pos (t' * y')).
  assert (r * Bx <= 3e-9 * Bx) by (apply Rmult_le_compat_r; lra). assert (r * By <= 3e-9 * By) by (apply Rmult_le_compat_r; lra). lra.
Qed.
Lemma fourth_read th t x y z t' x' y' z' Bx By Bz r : 0 <= beta_of th < 6.2831 -> 0 <= r <= 5e-9 -> within r (t * x) (t' * x') Bx -> within r (t * y) (t' * y') By -> within r (t * z) (t' * z') Bz ->
  Rabs (code_read (only4 (vscale t (turn 4 th (pas4 x y z)))) - exact_read (only4 (vscale t' (exact_turn 4 th (pas4 x' y' z'))))) <= kap * (6.2e-5 * (2 * Bx + 2 * By + Bz)).
Proof.
  intros B Hr Wx Wy Wz. rewrite read_only4, xread_only4, turn_vscale, <- exact_vscale. eapply Rle_trans; [apply close4; auto|]. apply Rmult_le_compat_l; auto.
  rewrite size_pas4, gap_pas4. replace (Rabs t * (2 * Rabs x + 2 * Rabs y + Rabs z)) with (2 * Rabs (t * x) + 2 * Rabs (t * y) + Rabs (t * z)) by (rewrite !Rabs_mult; ring).
  pose proof (within_size _ _ _ _ Wx) as S1. pose proof (within_size _ _ _ _ Wy) as S2. pose proof (within_size _ _ _ _ Wz) as S3. destruct Wx as [D1 A1], Wy as [D2 A2], Wz as [D3 A3].
  pose proof (Rabs_pos (t' * x')). pose proof (Rabs_pos (t' * y')). pose proof (Rabs_pos (t' * z')).
  assert (r * Bx <= 5e-9 * Bx) by (apply Rmult_le_compat_r; lra). assert (r * By <= 5e-9 * By) by (apply Rmult_le_compat_r; lra). assert (r * Bz <= 5e-9 * Bz) by (apply Rmult_le_compat_r; lra). lra.
Qed.

Lemma shielding_read B0 s m m' : 0 <= beta_of (s_theta s) < 6.2831 ->
  Rabs (code_read (contribution decimal_f B0 s m m' Shielding1_2) - exact_read (contribution_with exact_turn ideal_f B0 s m m' Shielding1_2))
  <= kap * (1e-6 * (Rabs (B0 * s_gamma s * s_zeta s * (m' - m)) * (1 + Rabs (s_eta s)))).
Proof.
  intros B. rewrite contribution_turn. cbn [contribution_with]. set (z := - (B0 * s_gamma s) * s_zeta s). destruct all_within as [_ [_ [_ [_ [_ [_ [_ [_ [W _]]]]]]]]].
  replace (B0 * s_gamma s * s_zeta s * (m' - m)) with (- (tf_p m m' * z)) by (unfold z, tf_p; ring). rewrite Rabs_Ropp. set (P := tf_p m m').
  assert (W1 : within 4e-10 (P * (s6 decimal_f * s_eta s * z)) (P * (s6 ideal_f * s_eta s * z)) (0.409 * (Rabs (P * z) * Rabs (s_eta s)))).
  { replace (P * (s6 decimal_f * s_eta s * z)) with (s6 decimal_f * (P * z * s_eta s)) by ring. replace (P * (s6 ideal_f * s_eta s * z)) with (s6 ideal_f * (P * z * s_eta s)) by ring.
    rewrite <- Rabs_mult. replace 4e-10 with (4e-10 + 0 + 4e-10 * 0) by ring. apply within_mul; try lra; auto using within_same. }
  assert (W2 : within 4e-10 (P * - z) (P * - z) (Rabs (P * z))).
  { replace (Rabs (P * z)) with (Rabs (P * - z)) by (rewrite <- (Rabs_Ropp (P * z)); f_equal; ring). eapply within_weak; [| | |apply within_same]; lra. }
  eapply Rle_trans; [apply (first_read _ _ _ _ _ _ _ _ _ 4e-10 B ltac:(lra) W1 W2)|]. apply Rmult_le_compat_l; auto.
  pose proof (Rabs_pos (P * z)). pose proof (Rabs_pos (s_eta s)). pose proof (Rmult_le_pos _ _ H H0). lra.
Qed.
Lemma quad1_read B0 s m m' : 0 <= beta_of (s_qtheta s) < 6.2831 -> let nuq := 3 * s_Cq s / (2 * s_spin s * (2 * s_spin s - 1)) in
  Rabs (code_read (contribution decimal_f B0 s m m' Quad1_2) - exact_read (contribution_with exact_turn ideal_f B0 s m m' Quad1_2))
  <= kap * (1e-6 * (Rabs (nuq * (m' ^ 2 - m ^ 2)) * (1 + Rabs (s_qeta s)))).
Proof.
  intros B nuq. rewrite contribution_turn. cbn [contribution_with]. fold nuq. destruct all_within as [Wd [_ [_ [_ [_ [_ [_ [_ [W6 [Wi _]]]]]]]]]].
  set (e := s_qeta s). set (D := nuq * (m' ^ 2 - m ^ 2)).
  assert (W1 : within 1e-9 (tf_d decimal_f m m' * - (i6 decimal_f * e * nuq)) (tf_d ideal_f m m' * - (i6 ideal_f * e * nuq)) (1.225 * 0.167 * (Rabs D * Rabs e))).
  { unfold tf_d. replace (f_d decimal_f * (m' ^ 2 - m ^ 2) * - (i6 decimal_f * e * nuq)) with (f_d decimal_f * i6 decimal_f * - (D * e)) by (unfold D; ring).
    replace (f_d ideal_f * (m' ^ 2 - m ^ 2) * - (i6 ideal_f * e * nuq)) with (f_d ideal_f * i6 ideal_f * - (D * e)) by (unfold D; ring).
    rewrite <- Rabs_mult, <- (Rabs_Ropp (D * e)). eapply within_weak; [| | |apply within_mul; [| |apply within_mul; [| |exact Wd|exact Wi]|apply within_same]]; lra. }
  assert (W2 : within 1e-9 (tf_d decimal_f m m' * (s6 decimal_f * nuq)) (tf_d ideal_f m m' * (s6 ideal_f * nuq)) (1.225 * 0.409 * Rabs D)).
  { unfold tf_d. replace (f_d decimal_f * (m' ^ 2 - m ^ 2) * (s6 decimal_f * nuq)) with (f_d decimal_f * s6 decimal_f * D) by (unfold D; ring).
    replace (f_d ideal_f * (m' ^ 2 - m ^ 2) * (s6 ideal_f * nuq)) with (f_d ideal_f * s6 ideal_f * D) by (unfold D; ring).
    eapply within_weak; [| | |apply within_mul; [| |apply within_mul; [| |exact Wd|exact W6]|apply within_same]]; lra. }
  eapply Rle_trans; [apply (first_read _ _ _ _ _ _ _ _ _ 1e-9 B ltac:(lra) W1 W2)|]. apply Rmult_le_compat_l; auto.
  pose proof (Rabs_pos D) as PD. pose proof (Rabs_pos e) as Pe. pose proof (Rmult_le_pos _ _ PD Pe). lra.
Qed.
Lemma quad2_read B0 s m m' : 0 <= beta_of (s_qtheta s) < 6.2831 -> let nuq := 3 * s_Cq s / (2 * s_spin s * (2 * s_spin s - 1)) in
  let X c := exact_read (contribution_with exact_turn ideal_f B0 s m m' c) in
  let D c := code_read (contribution decimal_f B0 s m m' c) in
  Rabs (D Quad2_0 + D Quad2_2 + D Quad2_4 - (X Quad2_0 + X Quad2_2 + X Quad2_4))
  <= kap * (5e-6 * (Rabs (nuq ^ 2 / (- (B0 * s_gamma s) * 1000000)) * (1 + s_qeta s ^ 2) * size2 (s_spin s) m m')).
Proof.
  intros B nuq XX DD. unfold XX, DD. clear XX DD. rewrite (contribution_turn _ _ _ _ _ Quad2_0), (contribution_turn _ _ _ _ _ Quad2_2), (contribution_turn _ _ _ _ _ Quad2_4). cbn [contribution_with]. fold nuq. set (k := nuq ^ 2 / (- (B0 * s_gamma s) * 1000000)). set (e := s_qeta s). set (I := s_spin s).
  destruct all_within as [Wd [Wf [W0p [W0f [W2p [W2f [W4p [W4f [W6 [Wi [W3 [W00 [W22 [W20 [W44 [W42 [W40 W18]]]]]]]]]]]]]]]]].
  pose proof (tf_c_within I m m' c0p c0f _ _ W0p W0f ltac:(lra) ltac:(lra)) as T0. pose proof (tf_c_within I m m' c2p c2f _ _ W2p W2f ltac:(lra) ltac:(lra)) as T2.
  pose proof (tf_c_within I m m' c4p c4f _ _ W4p W4f ltac:(lra) ltac:(lra)) as T4.
  set (A := size2 I m m') in *. assert (PA : 0 <= A) by (unfold A, second_order_size; pose proof (Rabs_pos ((I * (I + 1) - 3 / 4) * (m' - m))); pose proof (Rabs_pos (5 * (m' ^ 3 - m ^ 3) + (1 - 3 * (I * (I + 1))) * (m' - m))); lra). clearbody A.
  set (t0 := tf_c (c0p decimal_f) (c0f decimal_f) decimal_f I m m') in *. set (t2 := tf_c (c2p decimal_f) (c2f decimal_f) decimal_f I m m') in *. set (t4 := tf_c (c4p decimal_f) (c4f decimal_f) decimal_f I m m') in *.
  set (u0 := tf_c (c0p ideal_f) (c0f ideal_f) ideal_f I m m') in *. set (u2 := tf_c (c2p ideal_f) (c2f ideal_f) ideal_f I m m') in *. set (u4 := tf_c (c4p ideal_f) (c4f ideal_f) ideal_f I m m') in *. clearbody t0 t2 t4 u0 u2 u4.
  assert (Wk : within 0 k k (Rabs k)) by apply within_same. set (K := Rabs k) in *. assert (PK : 0 <= K) by apply Rabs_pos.
  assert (We : within 0 e e (Rabs e)) by apply within_same. assert (We2 : within 0 (e ^ 2) (e ^ 2) (e ^ 2)) by (rewrite <- (Rabs_right (e ^ 2)) at 3 by (apply Rle_ge, pow2_ge_0); apply within_same).
  assert (W1 : within 4e-10 1 1 1) by (split; [rewrite Rminus_eq_0|]; rewrite ?Rabs_R0, ?Rabs_R1; lra).
  assert (P2 : 0 <= e ^ 2) by apply pow2_ge_0. assert (Pe : Rabs e <= (1 + e ^ 2) / 2). { pose proof (pow2_ge_0 (e - 1)) as h1. pose proof (pow2_ge_0 (e + 1)) as hh2. replace ((e - 1) ^ 2) with (e ^ 2 - 2 * e + 1) in h1 by ring. replace ((e + 1) ^ 2) with (e ^ 2 + 2 * e + 1) in hh2 by ring. apply Rabs_le. split; lra. } pose proof (Rabs_pos e) as Pe0. set (a := Rabs e) in *.
  assert (S3 : within 4e-10 (e ^ 2 * i3 decimal_f + 1) (e ^ 2 * i3 ideal_f + 1) (0.334 * e ^ 2 + 1)).
  { apply within_add; auto. eapply within_weak; [| | |apply within_mul; [| |exact We2|exact W3]]; lra. }
  assert (D3 : within 4e-10 (e ^ 2 * i3 decimal_f - 1) (e ^ 2 * i3 ideal_f - 1) (0.334 * e ^ 2 + 1)).
  { unfold Rminus. apply within_add; [|apply within_opp; auto]. eapply within_weak; [| | |apply within_mul; [| |exact We2|exact W3]]; lra. }
  assert (S18 : within 4e-10 (e ^ 2 * i18 decimal_f + 1) (e ^ 2 * i18 ideal_f + 1) (0.056 * e ^ 2 + 1)).
  { apply within_add; auto. eapply within_weak; [| | |apply within_mul; [| |exact We2|exact W18]]; lra. }
  assert (R22 : within 3e-9 (t2 * - (k * q22 decimal_f * e)) (u2 * - (k * q22 ideal_f * e)) (0.41 * A * (K * 0.073 * a))).
  { eapply within_weak; [| | |apply within_mul; [| |exact T2|apply within_opp, within_mul; [| |apply within_mul; [| |exact Wk|exact W22]|exact We]]]; lra. }
  assert (R20 : within 3e-9 (t2 * (k * q20 decimal_f * (e ^ 2 * i3 decimal_f - 1))) (u2 * (k * q20 ideal_f * (e ^ 2 * i3 ideal_f - 1))) (0.41 * A * (K * 0.09 * (0.334 * e ^ 2 + 1)))).
  { eapply within_weak; [| | |apply within_mul; [| |exact T2|apply within_mul; [| |apply within_mul; [| |exact Wk|exact W20]|exact D3]]]; lra. }
  assert (R44 : within 3e-9 (t4 * (k * q44 decimal_f * e ^ 2)) (u4 * (k * q44 ideal_f * e ^ 2)) (0.41 * A * (K * 0.028 * e ^ 2))).
  { eapply within_weak; [| | |apply within_mul; [| |exact T4|apply within_mul; [| |apply within_mul; [| |exact Wk|exact W44]|exact We2]]]; lra. }
  assert (R42 : within 3e-9 (t4 * - (k * q42 decimal_f * e)) (u4 * - (k * q42 ideal_f * e)) (0.41 * A * (K * 0.063 * a))).
  { eapply within_weak; [| | |apply within_mul; [| |exact T4|apply within_opp, within_mul; [| |apply within_mul; [| |exact Wk|exact W42]|exact We]]]; lra. }
  assert (R40 : within 3e-9 (t4 * (k * q40 decimal_f * (e ^ 2 * i18 decimal_f + 1))) (u4 * (k * q40 ideal_f * (e ^ 2 * i18 ideal_f + 1))) (0.41 * A * (K * 0.12 * (0.056 * e ^ 2 + 1)))).
  { eapply within_weak; [| | |apply within_mul; [| |exact T4|apply within_mul; [| |apply within_mul; [| |exact Wk|exact W40]|exact S18]]]; lra. }
  pose proof (first_read (s_qtheta s) _ _ _ _ _ _ _ _ 3e-9 B ltac:(lra) R22 R20) as C2.
  pose proof (fourth_read (s_qtheta s) _ _ _ _ _ _ _ _ _ _ _ 3e-9 B ltac:(lra) R44 R42 R40) as C4.
  rewrite read_only0, xread_only0.
  match type of C2 with Rabs (?x - ?y) <= _ => set (x2 := x) in *; set (y2 := y) in * end. match type of C4 with Rabs (?x - ?y) <= _ => set (x4 := x) in *; set (y4 := y) in * end. clearbody x2 y2 x4 y4.
  replace (0 + x2 + x4 - (0 + y2 + y4)) with ((x2 - y2) + (x4 - y4)) by ring.
  eapply Rle_trans; [apply b_add; [exact C2|exact C4]|]. rewrite <- Rmult_plus_distr_l. apply Rmult_le_compat_l; auto.
  assert (KA : 0 <= K * A) by (apply Rmult_le_pos; auto). replace (5e-6 * (K * (1 + e ^ 2) * A)) with (5e-6 * (1 + e ^ 2) * (K * A)) by ring.
  match goal with |- ?l <= _ => replace l with ((6.2e-7 * (2 * (0.41 * 0.073 * a) + 0.41 * 0.09 * (0.334 * e ^ 2 + 1)) + 6.2e-5 * (2 * (0.41 * 0.028 * e ^ 2) + 2 * (0.41 * 0.063 * a) + 0.41 * 0.12 * (0.056 * e ^ 2 + 1))) * (K * A)) by ring end.
  apply Rmult_le_compat_r; auto. lra.
Qed.
Lemma J_read d cp : 0 <= beta_of (c_theta cp) < 6.2831 ->
  Rabs (code_read (coupling_part turn decimal_f d cp 1) - exact_read (coupling_part exact_turn ideal_f d cp 1)) <= kap * (1e-6 * (Rabs (c_zeta cp * d) * (1 + Rabs (c_eta cp)))).
Proof.
  intros B. cbn [coupling_part]. destruct all_within as [_ [_ [_ [_ [_ [_ [_ [_ [W _]]]]]]]]]. set (z := c_zeta cp). set (e := c_eta cp).
  assert (W1 : within 4e-10 (d * - (s6 decimal_f * e * z)) (d * - (s6 ideal_f * e * z)) (0.409 * (Rabs (z * d) * Rabs e))).
  { replace (d * - (s6 decimal_f * e * z)) with (s6 decimal_f * - (z * d * e)) by ring. replace (d * - (s6 ideal_f * e * z)) with (s6 ideal_f * - (z * d * e)) by ring.
    rewrite <- Rabs_mult, <- (Rabs_Ropp (z * d * e)). eapply within_weak; [| | |apply within_mul; [| |exact W|apply within_same]]; lra. }
  assert (W2 : within 4e-10 (d * z) (d * z) (Rabs (z * d))).
  { rewrite (Rmult_comm d z). pose proof (Rabs_pos (z * d)). eapply within_weak; [| | |apply within_same]; lra. }
  eapply Rle_trans; [apply (first_read _ _ _ _ _ _ _ _ _ 4e-10 B ltac:(lra) W1 W2)|]. apply Rmult_le_compat_l; auto.
  pose proof (Rabs_pos (z * d)) as PD. pose proof (Rabs_pos e) as Pe. pose proof (Rmult_le_pos _ _ PD Pe). lra.
Qed.
Lemma D_read d cp : 0 <= beta_of (c_dtheta cp) < 6.2831 ->
  Rabs (code_read (coupling_part turn decimal_f d cp 2) - exact_read (coupling_part exact_turn ideal_f d cp 2)) <= kap * (1e-6 * Rabs (2 * c_D cp * d)).
Proof.
  intros B. cbn [coupling_part]. set (z := 2 * c_D cp).
  assert (W1 : within 4e-10 (d * 0) (d * 0) 0) by (split; rewrite ?Rmult_0_r, ?Rminus_eq_0, ?Rabs_R0; lra).
  assert (W2 : within 4e-10 (d * z) (d * z) (Rabs (z * d))).
  { rewrite (Rmult_comm d z). pose proof (Rabs_pos (z * d)). eapply within_weak; [| | |apply within_same]; lra. }
  eapply Rle_trans; [apply (first_read _ _ _ _ _ _ _ _ _ 4e-10 B ltac:(lra) W1 W2)|]. apply Rmult_le_compat_l; auto. pose proof (Rabs_pos (z * d)). lra.
Qed.

(** ** A site, a coupling, a spin system *)
Lemma Rabs_diff a b x : a = b -> 0 <= x -> Rabs (a - b) <= x. Proof. intros -> H. rewrite Rminus_eq_0, Rabs_R0. auto. Qed.
Lemma site_read fourth B0 s n a a' : site_fine fourth B0 s n a a' -> let m := quantum n a in let m' := quantum n a' in
  Rabs (code_read (site_total decimal_f fourth B0 freq_list_all s m m') - rtotal (fun c => exact_read (exact_part B0 s m m' c)) (existing fourth s)) <= kap * site_tolerance fourth B0 s n m m'.
Proof.
  intros [N1 [Sp [_ [_ [C1 [C2 _]]]]]] m m'. unfold site_total. rewrite existing_all. rewrite read_total by (intros c Hc; apply in_map_iff in Hc; destruct Hc as [k [<- _]]; apply contribution_wf).
  assert (MR : forall {A B} (g : B -> R) (h : A -> B) l, rtotal g (map h l) = rtotal (fun x => g (h x)) l) by (intros; unfold rtotal; induction l; cbn; congruence). rewrite MR.
  apply covered_beta in C1, C2.
  assert (Z0 : code_read (contribution decimal_f B0 s m m' Shielding1_0) - exact_read (exact_part B0 s m m' Shielding1_0) = 0).
  { unfold exact_part. rewrite contribution_turn. cbn [contribution_with]. rewrite read_only0, xread_only0. ring. }
  assert (Z1 : Rabs (code_read (contribution decimal_f B0 s m m' Shielding1_2) - exact_read (exact_part B0 s m m' Shielding1_2)) <= kap * (1e-6 * (Rabs (- (B0 * s_gamma s) * s_zeta s * (m' - m)) * (1 + Rabs (s_eta s))))).
  { pose proof (shielding_read B0 s m m' C1) as H. replace (- (B0 * s_gamma s) * s_zeta s * (m' - m)) with (- (B0 * s_gamma s * s_zeta s * (m' - m))) by ring. rewrite Rabs_Ropp. exact H. }
  unfold site_tolerance. cbv zeta. set (x0 := code_read (contribution decimal_f B0 s m m' Shielding1_0)) in *. set (y0 := exact_read (exact_part B0 s m m' Shielding1_0)) in *.
  set (x1 := code_read (contribution decimal_f B0 s m m' Shielding1_2)) in *. set (y1 := exact_read (exact_part B0 s m m' Shielding1_2)) in *.
  destruct (Nat.ltb_spec n 2) as [L|L].
  - assert (n = 1)%nat by lia. subst n. rewrite existing_half by auto. cbn [rtotal fold_right]. fold x0 x1 y0 y1. replace (x0 + (x1 + 0) - (y0 + (y1 + 0))) with ((x0 - y0) + (x1 - y1)) by ring. rewrite Z0, Rplus_0_l, Rplus_0_r. exact Z1.
  - rewrite (existing_more fourth s n) by auto. rewrite <- Sp.
    pose proof (quad1_read B0 s m m' C2) as Z2. cbv zeta in Z2. change (contribution_with exact_turn ideal_f B0 s m m' Quad1_2) with (exact_part B0 s m m' Quad1_2) in Z2.
    set (x2 := code_read (contribution decimal_f B0 s m m' Quad1_2)) in *. set (y2 := exact_read (exact_part B0 s m m' Quad1_2)) in *.
    destruct fourth.
    + pose proof (quad2_read B0 s m m' C2) as H. cbv zeta in H. cbn [app rtotal fold_right]. fold x0 x1 x2 y0 y1 y2. unfold exact_part.
      match type of H with Rabs (?p - ?q) <= _ => set (P := p) in *; set (Q := q) in * end.
      match goal with |- Rabs ?t <= _ => replace t with ((x0 - y0) + (x1 - y1) + ((x2 - y2) + (P - Q))) by (unfold P, Q; ring) end. rewrite Z0, Rplus_0_l.
      rewrite !(Rmult_plus_distr_l kap). eapply Rle_trans; [apply Rabs_triang|]. apply Rplus_le_compat; [exact Z1|]. eapply Rle_trans; [apply Rabs_triang|]. apply Rplus_le_compat; [exact Z2|exact H].
    + cbn [app rtotal fold_right]. fold x0 x1 x2 y0 y1 y2. replace (x0 + (x1 + (x2 + 0)) - (y0 + (y1 + (y2 + 0)))) with ((x0 - y0) + (x1 - y1) + (x2 - y2)) by ring. rewrite Z0, Rplus_0_l, Rplus_0_r.
      rewrite !(Rmult_plus_distr_l kap). eapply Rle_trans; [apply Rabs_triang|]. apply Rplus_le_compat; [exact Z1|exact Z2].
Qed.
Lemma coupling_read cp mi mf : covered (c_theta cp) -> covered (c_dtheta cp) ->
  Rabs (code_read (coupling_total decimal_f cp mi mf) - rtotal (fun k => exact_read (coupling_part exact_turn ideal_f (dIS cp mi mf) cp k)) (seq 0 3)) <= kap * coupling_tolerance cp (dIS cp mi mf).
Proof.
  intros C1 C2. apply covered_beta in C1, C2. set (d := dIS cp mi mf).
  change (coupling_total decimal_f cp mi mf) with (total (map (coupling_part turn decimal_f d cp) (seq 0 3))).
  rewrite read_total.
  2:{ intros c Hc. cbn in Hc. destruct Hc as [<-|[<-|[<-|[]]]]; split; try reflexivity; cbn [only2 r2 coupling_part]; unfold vscale; rewrite map_length; apply turn_length. }
  cbn [seq map rtotal fold_right].
  assert (Z0 : code_read (coupling_part turn decimal_f d cp 0) - exact_read (coupling_part exact_turn ideal_f d cp 0) = 0) by (cbn [coupling_part]; rewrite read_only0, xread_only0; ring).
  pose proof (J_read d cp C1) as Z1. pose proof (D_read d cp C2) as Z2.
  unfold coupling_tolerance. rewrite !Rmult_plus_distr_l.
  match type of Z0 with ?p - ?q = _ => set (x0 := p) in *; set (y0 := q) in * end.
  match type of Z1 with Rabs (?p - ?q) <= _ => set (x1 := p) in *; set (y1 := q) in * end. match type of Z2 with Rabs (?p - ?q) <= _ => set (x2 := p) in *; set (y2 := q) in * end.
  clearbody x0 y0 x1 y1 x2 y2. match goal with |- Rabs ?t <= _ => replace t with ((x0 - y0) + ((x1 - y1) + (x2 - y2))) by ring end. rewrite Z0, Rplus_0_l.
  eapply Rle_trans; [apply Rabs_triang|]. rewrite Rmult_plus_distr_l in Z1. rewrite ?Rmult_plus_distr_l. eapply Rle_trans; [apply Rplus_le_compat; [exact Z1|exact Z2]|]. lra.
Qed.
Lemma system_read fourth B0 sites cps ns lv lv' : sites_fine fourth B0 sites ns lv lv' -> couplings_fine cps (length sites) ->
  Rabs (code_read (cadd (sites_total decimal_f fourth B0 freq_list_all sites (states ns lv) (states ns lv')) (couplings_total decimal_f cps (states ns lv) (states ns lv'))) -
        exact_system exact_read fourth B0 sites cps ns lv lv') <= kap * system_tolerance fourth B0 sites cps ns lv lv'.
Proof.
  intros F G. destruct (sites_length _ _ _ _ _ _ F) as [L1 [L2 [L3 [L4 L5]]]].
  rewrite read_add; [|apply sites_total_wf|apply total_wf; intros c Hc; apply in_map_iff in Hc; destruct Hc as [k [<- _]]; apply coupling_wf].
  unfold exact_system, system_tolerance. rewrite Rmult_plus_distr_l. apply Rabs_sum2.
  - clear G cps L1 L2 L3 L4 L5. induction sites as [|s sites IH] in ns, lv, lv', F |- *; destruct ns as [|n ns], lv as [|a lv], lv' as [|a' lv']; cbn in F; try contradiction.
    + cbn [combine rtotal fold_right]. change (sites_total decimal_f fourth B0 freq_list_all [] (states [] []) (states [] [])) with zero_comps. rewrite read_zero, Rminus_0_r, Rabs_R0. lra.
    + destruct F as [F1 F2]. cbn [combine rtotal fold_right]. change (states (n :: ns) (a :: lv)) with (quantum n a :: states ns lv). change (states (n :: ns) (a' :: lv')) with (quantum n a' :: states ns lv').
      rewrite sites_total_cons, read_add by (apply site_total_wf || apply sites_total_wf). rewrite Rmult_plus_distr_l. apply Rabs_sum2; [apply site_read; auto|apply IH; auto].
  - unfold couplings_total. rewrite read_total by (intros c Hc; apply in_map_iff in Hc; destruct Hc as [k [<- _]]; apply coupling_wf).
    induction cps as [|cp cps IH]; [cbn; rewrite Rminus_0_r, Rabs_R0; lra|]. cbn [map rtotal fold_right]. destruct (G cp (or_introl eq_refl)) as [A [X [C1 C2]]].
    rewrite Rmult_plus_distr_l. apply Rabs_sum2; [|apply IH; intros c Hc; apply G; right; auto].
    pose proof (coupling_read cp (states ns lv) (states ns lv') C1 C2) as H. unfold dIS in H at 2. rewrite !state_nth in H by lia. exact H.
Qed.
End Reads.
