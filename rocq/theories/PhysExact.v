From Coq Require Import Reals List ZArith Lra Lia Psatz.
From Coquelicot Require Import Complex.
From Verif Require Import DftModel DftProofs WignerMatrix WignerModel WignerSpec WignerOrtho WignerNorm WignerProofs FreqModel FreqSpec FreqProofs PhysSpec PhysRot PhysCouple PhysSpin PhysLevels.
Import ListNotations.
Open Scope R_scope.

(** ** The contributions with exact constants and exact rotations *)
Definition exact_turn (l : nat) (th : euler) (v : list C) : list C := let '(a, b, g) := th in rotation ideal l a (cis b) g v.
(** The contribution of FreqSpec with the rotation as a parameter. *)
Definition contribution_with (trn : nat -> euler -> list C -> list C) (f : fconst) (B0 : R) (s : site) (m m' : R) (c : contrib) : comps :=
  let I := s_spin s in
  let larmor_MHz := - (B0 * s_gamma s) in
  let nuq := 3 * s_Cq s / (2 * I * (2 * I - 1)) in
  let k := nuq ^ 2 / (larmor_MHz * 1000000) in
  let eta := s_eta s in let etaq := s_qeta s in
  match c with
  | Shielding1_0 => only0 (larmor_MHz * s_iso s * tf_p m m')
  | Shielding1_2 => let z := larmor_MHz * s_zeta s in
      only2 (vscale (tf_p m m') (trn 2%nat (s_theta s) (pas2 (s6 f * eta * z) (- z))))
  | Quad1_2 => only2 (vscale (tf_d f m m') (trn 2%nat (s_qtheta s) (pas2 (- (i6 f * etaq * nuq)) (s6 f * nuq))))
  | Quad2_0 => only0 (k * q00 f * (etaq ^ 2 * i3 f + 1) * tf_c (c0p f) (c0f f) f I m m')
  | Quad2_2 => only2 (vscale (tf_c (c2p f) (c2f f) f I m m')
                        (trn 2%nat (s_qtheta s) (pas2 (- (k * q22 f * etaq)) (k * q20 f * (etaq ^ 2 * i3 f - 1)))))
  | Quad2_4 => only4 (vscale (tf_c (c4p f) (c4f f) f I m m')
                        (trn 4%nat (s_qtheta s) (pas4 (k * q44 f * etaq ^ 2) (- (k * q42 f * etaq)) (k * q40 f * (etaq ^ 2 * i18 f + 1)))))
  end.
Lemma contribution_turn f B0 s m m' c : contribution f B0 s m m' c = contribution_with turn f B0 s m m' c.
Proof. destruct c; reflexivity. Qed.
(** Rotations one after the other. *)
Definition through (l : nat) (fr : list euler) (v : list C) : list C := fold_left (fun v th => exact_turn l th v) fr v.
(** Frequency of components in the frame, with z along the field, that is reached by the rotations [fr]. *)
Definition exact_frequency (c : comps) (fr : list euler) : R :=
  r0 c + fst (nth 2 (through 2 fr (r2 c)) (RtoC 0)) + fst (nth 4 (through 4 fr (r4 c)) (RtoC 0)).

(** Rotations are linear. *)
Lemma scale_vscale l e t v : scale_phases l e (vscale t v) = vscale t (scale_phases l e v).
Proof.
  apply list_eq_C; [unfold vscale; rewrite map_length, !scale_length; auto|]. rewrite scale_length. intros i Hi. rewrite scale_nth by auto.
  rewrite !nth_vscale, scale_nth by auto. destruct (i <? l)%nat; [ring|]. destruct (l <? i)%nat; ring.
Qed.
Lemma mat_vscale r n w t v : mat_vec r n w (vscale t v) = vscale t (mat_vec r n w v).
Proof.
  apply list_eq_C; [unfold vscale; rewrite map_length, !mat_vec_length; auto|]. rewrite mat_vec_length. intros i Hi. rewrite nth_vscale, !mat_vec_nth by auto.
  induction n as [|n IH]; cbn [csum]; [apply C_ext; cbn; ring|]. rewrite nth_vscale.
  assert (G : forall N (f : nat -> C), csum N (fun j => RtoC (nth (i * S n + j) w 0) * (RtoC t * f j))%C = (RtoC t * csum N (fun j => RtoC (nth (i * S n + j) w 0%R) * f j))%C).
  { clear. induction N as [|N IH]; intros f; cbn [csum]; [apply C_ext; cbn; ring|]. rewrite IH. ring. }
  rewrite (csum_ext n _ (fun j => RtoC (nth (i * S n + j) w 0) * (RtoC t * nth j v (RtoC 0)))%C) by (intros; rewrite nth_vscale; auto). rewrite G. ring.
Qed.
Lemma rotation_vscale k l a e g t v : rotation k l a e g (vscale t v) = vscale t (rotation k l a e g v).
Proof. unfold rotation. rewrite scale_vscale, mat_vscale, scale_vscale. reflexivity. Qed.
Lemma exact_vscale l th t v : exact_turn l th (vscale t v) = vscale t (exact_turn l th v).
Proof. destruct th as [[a b] g]. apply rotation_vscale. Qed.
Lemma through_vscale l fr t v : through l fr (vscale t v) = vscale t (through l fr v).
Proof. revert v. induction fr as [|th fr IH]; intros v; cbn [through fold_left]; auto. fold (through l fr (exact_turn l th (vscale t v))). rewrite exact_vscale, IH. reflexivity. Qed.

(** ** First order *)
Lemma principal_sym z e : symmetric (principal z e). Proof. intros [] []; reflexivity. Qed.
Lemma principal_trace z e : trace (principal z e) = 0. Proof. unfold trace, asum, principal. field. Qed.
Lemma turned_sym th T : symmetric T -> symmetric (turned th T). Proof. destruct th as [[a b] g]. apply along_sym. Qed.
Lemma turned_trace th T : trace (turned th T) = trace T. Proof. destruct th as [[a b] g]. apply trace_euler. Qed.
Lemma pas2_principal x e : pas2 (- (x * e / sqrt 6)) x = vscale x (spherical (principal 1 e)).
Proof.
  destruct sqrt_consts as [_ [_ [_ [_ P]]]]. unfold pas2, vscale, spherical, principal. cbn [map fst snd].
  repeat (f_equal; [apply C_ext; cbn; field; lra|]). f_equal. apply C_ext; cbn; field; lra.
Qed.
Lemma exact_spherical th T : symmetric T -> trace T = 0 -> exact_turn 2 th (spherical T) = spherical (turned th T).
Proof. destruct th as [[a b] g]. apply rotation_spherical. Qed.
Lemma lab_sym fr T : symmetric T -> symmetric (lab fr T).
Proof. revert T. induction fr as [|th fr IH]; intros T S; cbn [lab fold_left]; auto. apply IH, turned_sym, S. Qed.
Lemma lab_trace fr T : trace (lab fr T) = trace T.
Proof. revert T. induction fr as [|th fr IH]; intros T; cbn [lab fold_left]; auto. change (trace (lab fr (turned th T)) = trace T). rewrite IH. apply turned_trace. Qed.
Lemma through_spherical fr T : symmetric T -> trace T = 0 -> through 2 fr (spherical T) = spherical (lab fr T).
Proof.
  revert T. induction fr as [|th fr IH]; intros T S Tr; cbn [through lab fold_left]; auto.
  change (through 2 fr (exact_turn 2 th (spherical T)) = spherical (lab fr (turned th T))). rewrite exact_spherical by auto. apply IH; [apply turned_sym; auto|rewrite turned_trace; auto].
Qed.
Lemma lab_spherical fr th x e :
  through 2 fr (exact_turn 2 th (vscale x (spherical (principal 1 e)))) = vscale x (spherical (lab fr (turned th (principal 1 e)))).
Proof.
  rewrite exact_vscale, through_vscale, exact_spherical by auto using principal_sym, principal_trace.
  rewrite through_spherical by (rewrite ?turned_trace; auto using principal_sym, principal_trace, turned_sym). reflexivity.
Qed.
Lemma zero_rotation k l al e ga i : fst (nth i (rotation k l al e ga (vzero (2 * l + 1))) (RtoC 0)) = 0.
Proof.
  replace (vzero (2 * l + 1)) with (vscale 0 (vzero (2 * l + 1))) by (rewrite vscale_0; unfold vzero; rewrite repeat_length; reflexivity).
  rewrite rotation_vscale, nth_vscale. cbn. ring.
Qed.
Lemma zero_through l fr i : fst (nth i (through l fr (vzero (2 * l + 1))) (RtoC 0)) = 0.
Proof.
  replace (vzero (2 * l + 1)) with (vscale 0 (vzero (2 * l + 1))) by (rewrite vscale_0; unfold vzero; rewrite repeat_length; reflexivity).
  rewrite through_vscale, nth_vscale. cbn. ring.
Qed.
Lemma exact_only2 v fr : exact_frequency (only2 v) fr = fst (nth 2 (through 2 fr v) (RtoC 0)).
Proof. unfold exact_frequency, only2. cbn [r0 r2 r4]. rewrite (zero_through 4). ring. Qed.
Lemma exact_only4 v fr : exact_frequency (only4 v) fr = fst (nth 4 (through 4 fr v) (RtoC 0)).
Proof. unfold exact_frequency, only4. cbn [r0 r2 r4]. rewrite (zero_through 2). ring. Qed.
Lemma exact_only0 x fr : exact_frequency (only0 x) fr = x.
Proof. unfold exact_frequency, only0. cbn [r0 r2 r4]. rewrite (zero_through 2), (zero_through 4). ring. Qed.
Lemma exact_first t x e th fr : exact_frequency (only2 (vscale t (exact_turn 2 th (pas2 (- (x * e / sqrt 6)) x)))) fr =
  t * x * lab fr (turned th (principal 1 e)) Z Z.
Proof. rewrite exact_only2, through_vscale, pas2_principal, lab_spherical, !nth_vscale. cbn. ring. Qed.

Lemma exact_shielding B0 s m m' fr :
  exact_frequency (contribution_with exact_turn ideal_f B0 s m m' Shielding1_2) fr =
  - (- (B0 * s_gamma s) * (m' - m) * s_zeta s * lab fr (turned (s_theta s) (principal 1 (s_eta s))) Z Z).
Proof.
  cbn [contribution_with]. set (z := - (B0 * s_gamma s) * s_zeta s). destruct sqrt_consts as [_ [_ [_ [_ P]]]].
  replace (s6 ideal_f * s_eta s * z) with (- ((- z) * s_eta s / sqrt 6)) by (cbn; field; lra). rewrite exact_first. unfold tf_p, z. ring.
Qed.
Lemma exact_quad1 n B0 s a a' fr : s_spin s = spin n -> (2 <= n)%nat -> (a <= n)%nat -> (a' <= n)%nat ->
  let V := lab fr (turned (s_qtheta s) (principal 1 (s_qeta s))) in
  exact_frequency (contribution_with exact_turn ideal_f B0 s (quantum n a) (quantum n a') Quad1_2) fr =
  energy1 (H_quad n (s_Cq s) V) a' - energy1 (H_quad n (s_Cq s) V) a.
Proof.
  intros Sp Ln La La' V. assert (SV : symmetric V) by (apply lab_sym, turned_sym, principal_sym).
  assert (TV : trace V = 0) by (unfold V; rewrite lab_trace, turned_trace; apply principal_trace).
  rewrite !energy1_quad by auto. cbn [contribution_with]. set (x := s6 ideal_f * (3 * s_Cq s / (2 * s_spin s * (2 * s_spin s - 1)))).
  destruct sqrt_consts as [_ [E2 [_ [Q P]]]].
  replace (i6 ideal_f * s_qeta s * (3 * s_Cq s / (2 * s_spin s * (2 * s_spin s - 1)))) with (x * s_qeta s / sqrt 6).
  2:{ unfold x. cbn [s6 i6 ideal_f]. unfold Rdiv. replace (/ 6) with (/ sqrt 6 * / sqrt 6) by (rewrite <- Rinv_mult, Q; reflexivity). ring. }
  rewrite exact_first. fold V. unfold tf_d, x, kq. rewrite Sp. cbn [s6 f_d ideal_f]. rewrite E2.
  assert (N1 : spin n <> 0) by (unfold spin; apply le_INR in Ln; cbn in Ln; lra). assert (N2 : 2 * spin n - 1 <> 0) by (unfold spin; apply le_INR in Ln; cbn in Ln; lra).
  field [Q]. repeat split; lra.
Qed.

(** ** Second order *)
Definition first_tensor (T : tensor3) : list C := vscale (/ sqrt 6) (spherical T).
Lemma sqrt_more : sqrt 125 = 5 * sqrt 5 /\ sqrt (18 / 25) = 3 * sqrt 2 / 5 /\ sqrt 10 = sqrt 2 * sqrt 5 /\ sqrt (2 / 175) = sqrt 2 * sqrt 7 / 35 /\
  sqrt 35 = sqrt 5 * sqrt 7 /\ sqrt (18 / 875) = 3 * sqrt 2 * sqrt 5 * sqrt 7 / 175 /\ sqrt 175 = 5 * sqrt 7 /\ sqrt 21 = sqrt 6 * sqrt 2 * sqrt 7 / 2 /\
  sqrt 70 = sqrt 2 * sqrt 5 * sqrt 7.
Proof.
  pose proof (sqrt_sqrt 2 ltac:(lra)) as Ha. pose proof (sqrt_sqrt 5 ltac:(lra)) as Hb. pose proof (sqrt_sqrt 7 ltac:(lra)) as Hg. pose proof (sqrt_sqrt 6 ltac:(lra)) as Hh.
  assert (0 < sqrt 2) by (apply sqrt_lt_R0; lra). assert (0 < sqrt 5) by (apply sqrt_lt_R0; lra). assert (0 < sqrt 7) by (apply sqrt_lt_R0; lra). assert (0 < sqrt 6) by (apply sqrt_lt_R0; lra).
  generalize dependent (sqrt 2). generalize dependent (sqrt 5). generalize dependent (sqrt 7). generalize dependent (sqrt 6). intros h Hh P6 g Hg P7 b Hb P5 a Ha P2.
  assert (0 < a * b) by (apply Rmult_lt_0_compat; auto). assert (0 < a * g) by (apply Rmult_lt_0_compat; auto). assert (0 < b * g) by (apply Rmult_lt_0_compat; auto).
  assert (0 < a * b * g) by (apply Rmult_lt_0_compat; auto). assert (0 < h * (a * g)) by (apply Rmult_lt_0_compat; auto).
  assert (S : forall x y, 0 <= x -> 0 <= y -> y * y = x -> sqrt x = y) by (intros; apply sqrt_lem_1; auto).
  repeat split; apply S; try lra; try field [Ha Hb Hg Hh].
Qed.
Lemma Q_principal e : let p := first_tensor (principal 1 e) in
  Q0 p = RtoC (q00 ideal_f * (e ^ 2 * i3 ideal_f + 1)) /\ Q2 p = pas2 (- (q22 ideal_f * e)) (q20 ideal_f * (e ^ 2 * i3 ideal_f - 1)) /\
  Q4 p = pas4 (q44 ideal_f * e ^ 2) (- (q42 ideal_f * e)) (q40 ideal_f * (e ^ 2 * i18 ideal_f + 1)).
Proof.
  intros p. unfold p, first_tensor, spherical, principal, Q0, Q2, Q4, vscale, pas2, pas4. cbn [map fst snd q0 q2 q4 ideal_f q00 q22 q20 q44 q42 q40 i3 i18].
  destruct sqrt_more as [_ [_ [_ [_ [_ [_ [_ [E1 E2]]]]]]]]. rewrite E1, E2.
  pose proof (sqrt_sqrt 2 ltac:(lra)) as Ha. pose proof (sqrt_sqrt 5 ltac:(lra)) as Hb. pose proof (sqrt_sqrt 7 ltac:(lra)) as Hg. pose proof (sqrt_sqrt 6 ltac:(lra)) as Hh.
  assert (0 < sqrt 2) by (apply sqrt_lt_R0; lra). assert (0 < sqrt 5) by (apply sqrt_lt_R0; lra). assert (0 < sqrt 7) by (apply sqrt_lt_R0; lra). assert (0 < sqrt 6) by (apply sqrt_lt_R0; lra).
  assert (E3 : sqrt (2 / 3) = sqrt 6 / 3) by apply sqrt_consts. rewrite ?E3.
  assert (N2 : sqrt 2 <> 0) by lra. assert (N5 : sqrt 5 <> 0) by lra. assert (N7 : sqrt 7 <> 0) by lra. assert (N6 : sqrt 6 <> 0) by lra.
  split; [apply C_ext; cbn; field [Ha Hb Hg Hh]; auto|]. split.
  - repeat (f_equal; [apply C_ext; cbn; field [Ha Hb Hg Hh]; auto|]). f_equal. apply C_ext; cbn; field [Ha Hb Hg Hh]; auto.
  - repeat (f_equal; [apply C_ext; cbn; field [Ha Hb Hg Hh]; auto|]). f_equal. apply C_ext; cbn; field [Ha Hb Hg Hh]; auto.
Qed.
(** Component zero of the products, in the laboratory frame. *)
Lemma Q_lab T : fst (Q0 (first_tensor T)) = / sqrt 5 * (W2 T / 18 + 2 * W1 T / 9 + T Z Z * T Z Z / 6) /\
  fst (nth 2 (Q2 (first_tensor T)) (RtoC 0)) = sqrt 2 / sqrt 7 * (W2 T / 18 - W1 T / 9 - T Z Z * T Z Z / 6) /\
  fst (nth 4 (Q4 (first_tensor T)) (RtoC 0)) = / (sqrt 2 * sqrt 5 * sqrt 7) * (W2 T / 18 - 8 * W1 T / 9 + T Z Z * T Z Z).
Proof.
  unfold first_tensor, spherical, Q0, Q2, Q4, vscale, W1, W2. cbn [map fst snd q0 q2 q4 nth].
  pose proof (sqrt_sqrt 2 ltac:(lra)) as Ha. pose proof (sqrt_sqrt 5 ltac:(lra)) as Hb. pose proof (sqrt_sqrt 7 ltac:(lra)) as Hg. pose proof (sqrt_sqrt 6 ltac:(lra)) as Hh.
  assert (0 < sqrt 2) by (apply sqrt_lt_R0; lra). assert (0 < sqrt 5) by (apply sqrt_lt_R0; lra). assert (0 < sqrt 7) by (apply sqrt_lt_R0; lra). assert (0 < sqrt 6) by (apply sqrt_lt_R0; lra).
  assert (E3 : sqrt (2 / 3) = sqrt 6 / 3) by apply sqrt_consts. rewrite ?E3.
  assert (N2 : sqrt 2 <> 0) by lra. assert (N5 : sqrt 5 <> 0) by lra. assert (N7 : sqrt 7 <> 0) by lra. assert (N6 : sqrt 6 <> 0) by lra.
  repeat split; cbn; field [Ha Hb Hg Hh]; auto.
Qed.
Lemma pas2_vscale k x y : pas2 (k * x) (k * y) = vscale k (pas2 x y).
Proof. unfold pas2, vscale. cbn [map fst snd]. repeat (f_equal; [apply C_ext; cbn; ring|]). f_equal. apply C_ext; cbn; ring. Qed.
Lemma pas4_vscale k x y z : pas4 (k * x) (k * y) (k * z) = vscale k (pas4 x y z).
Proof. unfold pas4, vscale. cbn [map fst snd]. repeat (f_equal; [apply C_ext; cbn; ring|]). f_equal. apply C_ext; cbn; ring. Qed.
Lemma first_length T : length (first_tensor T) = 5%nat. Proof. reflexivity. Qed.
Lemma first_lab fr th e : through 2 fr (exact_turn 2 th (first_tensor (principal 1 e))) = first_tensor (lab fr (turned th (principal 1 e))).
Proof. apply lab_spherical. Qed.
Lemma exact_Q fr th w : length w = 5%nat ->
  Q0 (through 2 fr (exact_turn 2 th w)) = Q0 w /\
  Q2 (through 2 fr (exact_turn 2 th w)) = through 2 fr (exact_turn 2 th (Q2 w)) /\
  Q4 (through 2 fr (exact_turn 2 th w)) = through 4 fr (exact_turn 4 th (Q4 w)).
Proof.
  intros L. assert (G : forall th w, length w = 5%nat -> Q0 (exact_turn 2 th w) = Q0 w /\ Q2 (exact_turn 2 th w) = exact_turn 2 th (Q2 w) /\ Q4 (exact_turn 2 th w) = exact_turn 4 th (Q4 w)).
  { intros [[a b] g] u Lu. apply (Q_rotation a (cis b) g u Lu (cis_unit b)). }
  assert (Ln : forall th w, length (exact_turn 2 th w) = 5%nat) by (intros [[a b] g] u; apply rotation_length).
  revert th w L. induction fr as [|f fr IH]; intros th w L; [apply G; auto|].
  destruct (IH f (exact_turn 2 th w) (Ln th w)) as [A0 [A2 A4]]. destruct (G th w L) as [B0 [B2 B4]].
  change (Q0 (through 2 fr (exact_turn 2 f (exact_turn 2 th w))) = Q0 w /\ Q2 (through 2 fr (exact_turn 2 f (exact_turn 2 th w))) = through 2 fr (exact_turn 2 f (exact_turn 2 th (Q2 w))) /\
          Q4 (through 2 fr (exact_turn 2 f (exact_turn 2 th w))) = through 4 fr (exact_turn 4 f (exact_turn 4 th (Q4 w)))).
  rewrite A0, A2, A4, B0, B2, B4. auto.
Qed.
Definition second (f : fconst) (trn : nat -> euler -> list C -> list C) (B0 : R) (s : site) (m m' : R) : comps :=
  cadd (contribution_with trn f B0 s m m' Quad2_0) (cadd (contribution_with trn f B0 s m m' Quad2_2) (contribution_with trn f B0 s m m' Quad2_4)).
Lemma exact_quad2 n B0 s a a' fr : s_spin s = spin n -> (2 <= n)%nat -> (a <= n)%nat -> (a' <= n)%nat -> B0 * s_gamma s <> 0 ->
  let V := lab fr (turned (s_qtheta s) (principal 1 (s_qeta s))) in let nu0 := - (B0 * s_gamma s) * 1000000 in
  let X c := exact_frequency (contribution_with exact_turn ideal_f B0 s (quantum n a) (quantum n a') c) fr in
  X Quad2_0 + X Quad2_2 + X Quad2_4 = energy2 n nu0 (H_quad n (s_Cq s) V) a' - energy2 n nu0 (H_quad n (s_Cq s) V) a.
Proof.
  intros Sp Ln La La' NB V nu0 XX. unfold XX. clear XX. assert (SV : symmetric V) by (apply lab_sym, turned_sym, principal_sym).
  assert (N0 : nu0 <> 0) by (unfold nu0; lra). rewrite !energy2_quad by auto. cbn [contribution_with]. fold nu0. rewrite Sp.
  set (k := (3 * s_Cq s / (2 * spin n * (2 * spin n - 1))) ^ 2 / nu0). set (e := s_qeta s) in *. set (th := s_qtheta s) in *.
  destruct (Q_principal e) as [P0 [P2 P4]]. destruct (exact_Q fr th (first_tensor (principal 1 e)) (first_length _)) as [T0 [T2 T4]].
  rewrite first_lab in T0, T2, T4. fold V in T0, T2, T4. destruct (Q_lab V) as [L0 [L2 L4]].
  rewrite exact_only0, exact_only2, exact_only4.
  replace (- (k * q22 ideal_f * e)) with (k * (- (q22 ideal_f * e))) by ring.
  replace (k * q20 ideal_f * (e ^ 2 * i3 ideal_f - 1)) with (k * (q20 ideal_f * (e ^ 2 * i3 ideal_f - 1))) by ring.
  rewrite pas2_vscale, <- P2, exact_vscale, !through_vscale, <- T2, !nth_vscale.
  replace (k * q44 ideal_f * e ^ 2) with (k * (q44 ideal_f * e ^ 2)) by ring. replace (- (k * q42 ideal_f * e)) with (k * (- (q42 ideal_f * e))) by ring.
  replace (k * q40 ideal_f * (e ^ 2 * i18 ideal_f + 1)) with (k * (q40 ideal_f * (e ^ 2 * i18 ideal_f + 1))) by ring.
  rewrite pas4_vscale, <- P4, exact_vscale, !through_vscale, <- T4, !nth_vscale.
  replace (k * q00 ideal_f * (e ^ 2 * i3 ideal_f + 1)) with (k * fst (Q0 (first_tensor V))) by (rewrite T0, P0; cbn [fst RtoC]; ring).
  assert (RE : forall x y (z : C), fst (RtoC x * (RtoC y * z))%C = x * (y * fst z)) by (intros; cbn; ring). rewrite !RE, L0, L2, L4. clear T0 T2 T4 P0 P2 P4 L0 L2 L4 RE.
  unfold tf_c, tf_f, tf_p, U1, U2, kq, k, rho2. cbn [ideal_f c0p c0f c2p c2f c4p c4f f_f].
  destruct sqrt_more as [S1 [S2 [S3 [S4 [S5 [S6 [S7 [S8 S9]]]]]]]]. rewrite S1, S2, S3, S4, S5, S6, S7. clear S1 S2 S3 S4 S5 S6 S7 S8 S9.
  assert (N1 : spin n <> 0) by (unfold spin; apply le_INR in Ln; cbn in Ln; lra). assert (N3 : 2 * spin n - 1 <> 0) by (unfold spin; apply le_INR in Ln; cbn in Ln; lra).
  pose proof (sqrt_sqrt 2 ltac:(lra)) as Ha. pose proof (sqrt_sqrt 5 ltac:(lra)) as Hb. pose proof (sqrt_sqrt 7 ltac:(lra)) as Hg.
  assert (N2 : sqrt 2 <> 0) by (apply Rgt_not_eq, sqrt_lt_R0; lra). assert (N5 : sqrt 5 <> 0) by (apply Rgt_not_eq, sqrt_lt_R0; lra). assert (N7 : sqrt 7 <> 0) by (apply Rgt_not_eq, sqrt_lt_R0; lra).
  generalize dependent (sqrt 2). generalize dependent (sqrt 5). generalize dependent (sqrt 7). intros g Hg N7 b Hb N5 a2 Ha N2.
  generalize (W1 V) (W2 V) (V Z Z) (quantum n a) (quantum n a'). intros w1 w2 z m m'. field [Ha Hb Hg]. auto 10.
Qed.
