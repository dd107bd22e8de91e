(** The decimal constants of the frequency functions against the exact ones, the default rotor angle and the sideband phase. *)
From Coq Require Import Reals Lra Lia List ZArith.
From Coquelicot Require Import Coquelicot.
From Verif Require Import DftModel DftProofs WignerModel WignerSpec WignerProofs FreqModel FreqSpec.
Import ListNotations.
Open Scope R_scope.

(** |x - y| <= h |y| for y >= 0 from bounds on squares. *)
Lemma close_sqrt x y h a b : 0 <= x -> 0 <= y -> y * y = b -> 0 <= a -> a <= 1 -> h = 1 - a ->
  (a * a) * b <= x * x <= (2 - a) * (2 - a) * b -> Rabs (x - y) <= h * y.
Proof.
  intros Hx Hy E A0 A1 -> [L U]. rewrite <- E in L, U. clear E b.
  assert (a * y <= x) by (apply Rsqr_incr_0; unfold Rsqr; nra). assert (x <= (2 - a) * y) by (apply Rsqr_incr_0; unfold Rsqr; nra).
  apply Rabs_le. lra.
Qed.
Definition rel (x y : R) : Prop := Rabs (x - y) <= 4e-10 * Rabs y.
Lemma rel_pos x y b : 0 <= x -> 0 <= y -> y * y = b -> (1 - 4e-10) * (1 - 4e-10) * b <= x * x <= (1 + 4e-10) * (1 + 4e-10) * b -> rel x y.
Proof.
  intros Hx Hy E B. unfold rel. rewrite (Rabs_right y) by lra. apply (close_sqrt x y _ (1 - 4e-10) b); try lra.
Qed.
Lemma rel_neg x y : rel x y -> rel (- x) (- y).
Proof. unfold rel. replace (- x - - y) with (- (x - y)) by ring. rewrite !Rabs_Ropp. auto. Qed.
Lemma sq_sqrt a : 0 <= a -> sqrt a * sqrt a = a.
Proof. apply sqrt_sqrt. Qed.
Lemma frac_sq a b n : 0 < n -> b <> 0 -> a / (b * sqrt n) * (a / (b * sqrt n)) = a * a / (b * b * n).
Proof.
  intros Hn Hb. assert (0 < sqrt n) by (apply sqrt_lt_R0; auto). pose proof (sq_sqrt n ltac:(lra)).
  replace (b * b * n) with ((b * sqrt n) * (b * sqrt n)) by (rewrite <- H0 at 3; ring). field. split; lra.
Qed.
Lemma frac_sq1 a n : 0 < n -> a / sqrt n * (a / sqrt n) = a * a / n.
Proof. intros Hn. pose proof (frac_sq a 1 n Hn ltac:(lra)) as E. rewrite !Rmult_1_l in E. exact E. Qed.
Lemma frac_pos a b n : 0 <= a -> 0 < b -> 0 < n -> 0 <= a / (b * sqrt n).
Proof. intros A B N. apply Rmult_le_pos; auto. left. apply Rinv_0_lt_compat. apply Rmult_lt_0_compat; auto. apply sqrt_lt_R0; auto. Qed.
Lemma frac_pos1 a n : 0 <= a -> 0 < n -> 0 <= a / sqrt n.
Proof. intros A N. pose proof (frac_pos a 1 n A ltac:(lra) N) as E. rewrite Rmult_1_l in E. exact E. Qed.

Theorem constants_close : let d := decimal_f in let e := ideal_f in
  rel (f_d d) (f_d e) /\ rel (f_f d) (f_f e) /\ rel (c0p d) (c0p e) /\ rel (c0f d) (c0f e) /\ rel (c2p d) (c2p e) /\ rel (c2f d) (c2f e) /\
  rel (c4p d) (c4p e) /\ rel (c4f d) (c4f e) /\ rel (s6 d) (s6 e) /\ rel (i6 d) (i6 e) /\ rel (i3 d) (i3 e) /\ rel (q00 d) (q00 e) /\
  rel (q22 d) (q22 e) /\ rel (q20 d) (q20 e) /\ rel (q44 d) (q44 e) /\ rel (q42 d) (q42 e) /\ rel (q40 d) (q40 e) /\ rel (i18 d) (i18 e).
Proof.
  cbn [decimal_f ideal_f f_d f_f c0p c0f c2p c2f c4p c4f s6 i6 i3 q00 q22 q20 q44 q42 q40 i18].
  repeat match goal with |- _ /\ _ => split end.
  - apply (rel_pos _ _ (3 / 2)); [lra|apply sqrt_pos|apply sq_sqrt; lra|lra].
  - apply (rel_pos _ _ (1 * 1 / 10)); [lra|apply frac_pos1; lra|apply frac_sq1; lra|lra].
  - apply (rel_pos _ _ (4 * 4 / 125)); [lra|apply frac_pos1; lra|apply frac_sq1; lra|lra].
  - apply (rel_pos _ _ (18 / 25)); [lra|apply sqrt_pos|apply sq_sqrt; lra|lra].
  - apply (rel_pos _ _ (2 / 175)); [lra|apply sqrt_pos|apply sq_sqrt; lra|lra].
  - replace (-1.0141851057) with (Ropp 1.0141851057) by lra. apply rel_neg. apply (rel_pos _ _ (6 * 6 / 35)); [lra|apply frac_pos1; lra|apply frac_sq1; lra|lra].
  - replace (-0.1434274331) with (Ropp 0.1434274331) by lra. apply rel_neg. apply (rel_pos _ _ (18 / 875)); [lra|apply sqrt_pos|apply sq_sqrt; lra|lra].
  - replace (-1.2850792082) with (Ropp 1.2850792082) by lra. apply rel_neg. apply (rel_pos _ _ (17 * 17 / 175)); [lra|apply frac_pos1; lra|apply frac_sq1; lra|lra].
  - apply (rel_pos _ _ (1 * 1 / 6)); [lra|apply frac_pos1; lra|apply frac_sq1; lra|lra].
  - unfold rel. rewrite (Rabs_right (1 / 6)) by lra. apply Rabs_le. lra.
  - unfold rel. rewrite (Rabs_right (1 / 3)) by lra. apply Rabs_le. lra.
  - apply (rel_pos _ _ (1 * 1 / (6 * 6 * 5))); [lra|apply frac_pos; lra|apply frac_sq; lra|lra].
  - apply (rel_pos _ _ (1 * 1 / (3 * 3 * 21))); [lra|apply frac_pos; lra|apply frac_sq; lra|lra].
  - apply (rel_pos _ _ (2 / (6 * 6 * 7))); [lra|apply frac_pos; [apply sqrt_pos|lra|lra]|rewrite frac_sq by lra; rewrite sq_sqrt; lra|lra].
  - unfold rel. rewrite (Rabs_right (1 / 36)) by lra. apply Rabs_le. lra.
  - apply (rel_pos _ _ (1 * 1 / (6 * 6 * 7))); [lra|apply frac_pos; lra|apply frac_sq; lra|lra].
  - apply (rel_pos _ _ (1 * 1 / 70)); [lra|apply frac_pos1; lra|apply frac_sq1; lra|lra].
  - unfold rel. rewrite (Rabs_right (1 / 18)) by lra. apply Rabs_le. lra.
Qed.

(** The default rotor angle. *)
Lemma ifact n : INR (fact (S n)) = INR (S n) * INR (fact n).
Proof. rewrite fact_simpl. apply mult_INR. Qed.
Definition cser (x : R) : R := 1 - x ^ 2 / 2 + x ^ 4 / 24 - x ^ 6 / 720 + x ^ 8 / 40320 - x ^ 10 / 3628800.
Lemma cos_series x : 0 <= x <= PI / 2 -> cser x <= cos x <= cser x + x ^ 12 / 479001600.
Proof.
  intros [A B]. destruct (cos_bound x 2 ltac:(pose proof PI_RGT_0; lra) B) as [L U].
  assert (F0 : INR (fact 0) = 1) by reflexivity. assert (F2 : INR (fact 2) = 2) by (rewrite !ifact, F0; cbn; ring). assert (F4 : INR (fact 4) = 24) by (rewrite 2 ifact, F2; cbn; ring).
  assert (F6 : INR (fact 6) = 720) by (rewrite 2 ifact, F4; cbn; ring). assert (F8 : INR (fact 8) = 40320) by (rewrite 2 ifact, F6; cbn; ring).
  assert (F10 : INR (fact 10) = 3628800) by (rewrite 2 ifact, F8; cbn; ring). assert (F12 : INR (fact 12) = 479001600) by (rewrite 2 ifact, F10; cbn; ring).
  assert (T : forall i v, INR (fact (2 * i)) = v -> cos_term x i = (-1) ^ i * (x ^ (2 * i) / v)) by (intros i v <-; reflexivity).
  unfold cos_approx in L, U. change (2 * 2 + 1)%nat with 5%nat in L. change (2 * (2 + 1))%nat with 6%nat in U. cbn [sum_f_R0] in L, U.
  rewrite (T 0%nat _ F0), (T 1%nat _ F2), (T 2%nat _ F4), (T 3%nat _ F6), (T 4%nat _ F8), (T 5%nat _ F10) in L, U. rewrite (T 6%nat _ F12) in U.
  cbn [Nat.mul Nat.add] in L, U. unfold cser. split; [eapply Rle_trans; [|exact L]|eapply Rle_trans; [exact U|]]; right; cbn [pow]; field.
Qed.
Lemma magic : Rabs (P2 (cos (955316618 / 1000000000))) <= 1e-9.
Proof.
  set (x := 955316618 / 1000000000). assert (B : 0 <= x / 2 <= PI / 2) by (pose proof PI2_3_2; unfold x; lra).
  destruct (cos_series _ B) as [L U]. replace (x / 2) with (477658309 / 1000000000) in * by (unfold x; field).
  replace x with (2 * (477658309 / 1000000000)) by (unfold x; field). rewrite cos_2a_cos. set (c := cos _) in *. clearbody c. clear x B.
  unfold cser in L, U.
  assert (L' : 0.888073834005 <= c). { eapply Rle_trans; [|exact L]. lra. }
  assert (U' : c <= 0.888073834007). { eapply Rle_trans; [exact U|]. lra. }
  clear L U. assert (C1 : 0.888073834005 * 0.888073834005 <= c * c) by (apply Rmult_le_compat; lra).
  assert (C2 : c * c <= 0.888073834007 * 0.888073834007) by (apply Rmult_le_compat; lra).
  unfold P2. replace (2 * c * c) with (2 * (c * c)) by ring. set (y := 2 * (c * c) - 1).
  assert (Y1 : 0.57735026926 <= y) by (unfold y; lra). assert (Y2 : y <= 0.57735026930) by (unfold y; lra). clearbody y.
  assert (Z1 : 0.57735026926 * 0.57735026926 <= y * y) by (apply Rmult_le_compat; lra).
  assert (Z2 : y * y <= 0.57735026930 * 0.57735026930) by (apply Rmult_le_compat; lra).
  apply Rabs_le. cbn [pow]. rewrite Rmult_1_r. lra.
Qed.

(** ** The sideband phase *)
Definition mode (d : R) (w : C) (m : R) (t : R) : R := d * fst (w * cis (m * t))%C.
Lemma mode_integral (d : R) (w : C) (nsb : nat) (vr : R) (mi step : nat) : 0 < vr -> (0 < nsb)%nat -> (mi < 4)%nat ->
  is_RInt (fun t => 2 * PI * (2 * mode d w ((INR mi - 4) * (vr * (2 * PI))) t)) 0 (INR step / (INR nsb * vr))
    (snd ((RtoC d * pre_phase nsb vr mi step) * w)%C).
Proof.
  intros V N M. set (m := (INR mi - 4) * (vr * (2 * PI))).
  assert (Hm : m <> 0). { unfold m. pose proof PI_RGT_0. assert (INR mi <= 3) by (replace 3 with (INR 3) by (cbn; ring); apply le_INR; lia).
    apply Rmult_integral_contrapositive_currified; [lra|]. apply Rmult_integral_contrapositive_currified; lra. }
  set (T := INR step / (INR nsb * vr)).
  set (F := fun t => 2 * (2 * PI) / m * d * (snd w * (cos (m * t) - 1) + fst w * sin (m * t))).
  assert (E : snd ((RtoC d * pre_phase nsb vr mi step) * w)%C = F T - F 0).
  { unfold F, pre_phase. cbv zeta. fold m. assert (0 < INR nsb) by (apply lt_0_INR; auto).
    replace (INR step * (m * (1 / (INR nsb * vr)))) with (m * T) by (unfold T; field; lra). rewrite Rmult_0_r, cos_0, sin_0. cbn. ring. }
  rewrite E. apply (is_RInt_derive F).
  - intros t _. unfold F, mode. auto_derive; [auto|]. cbn. unfold cis. cbn. field. auto.
  - intros t _. apply (ex_derive_continuous (V := R_NormedModule)). unfold mode, cis. cbn. auto_derive. auto.
Qed.

Lemma csum_snd n g : snd (csum n g) = rsum n (fun i => snd (g i)).
Proof. induction n; cbn [csum rsum]; [reflexivity|]. rewrite <- IHn. reflexivity. Qed.
Lemma is_RInt_rsum n (g : nat -> R -> R) (v : nat -> R) a b : (forall i, (i < n)%nat -> is_RInt (g i) a b (v i)) ->
  is_RInt (fun t => rsum n (fun i => g i t)) a b (rsum n v).
Proof.
  induction n; intros H; cbn [rsum].
  - pose proof (is_RInt_const (V := R_NormedModule) a b 0) as C. unfold scal in C. cbn in C. unfold mult in C. cbn in C. rewrite Rmult_0_r in C. exact C.
  - apply (is_RInt_plus (V := R_NormedModule)); auto.
Qed.
Lemma d_mirror k l b i : rank l -> (i < 2 * l + 1)%nat -> nth (2 * l - i) (wigner_dm0 k l b) 0 = (-1) ^ (l + i) * nth i (wigner_dm0 k l b) 0.
Proof.
  intros [->| ->] H; cbn [Nat.mul Nat.add Nat.sub] in *; unfold wigner_dm0.
  - do 5 (destruct i as [|i]; [cbn; ring|]). lia.
  - do 9 (destruct i as [|i]; [cbn; ring|]). lia.
Qed.
(** The modes -m and m add up to twice the mode -m. *)
Lemma mode_pair k l b w i x t : rank l -> real_tensor l w -> (i < l)%nat ->
  mode (nth (2 * l - i) (wigner_dm0 k l b) 0) (nth (2 * l - i) w (RtoC 0)) (- x) t = mode (nth i (wigner_dm0 k l b) 0) (nth i w (RtoC 0)) x t.
Proof.
  intros H R Hi. unfold mode. rewrite d_mirror by (auto; lia). rewrite (real_index l w i R ltac:(lia)).
  set (z := nth i w (RtoC 0)). unfold cis. replace (- x * t) with (- (x * t)) by ring. rewrite cos_neg, sin_neg.
  pose proof (m1_sq (l + i)) as M. set (e := (-1) ^ (l + i)) in *. clearbody e. cbn.
  transitivity ((e * e) * nth i (wigner_dm0 k l b) 0 * (fst z * cos (x * t) - snd z * sin (x * t))); [ring|]. rewrite M. ring.
Qed.
Lemma modulation_half k l b w vr t : rank l -> real_tensor l w ->
  modulation l (fun i => nth i (wigner_dm0 k l b) 0) w vr t =
  rsum l (fun i => 2 * mode (nth i (wigner_dm0 k l b) 0) (nth i w (RtoC 0)) ((INR i - INR l) * (vr * (2 * PI))) t).
Proof.
  intros H R. assert (P : forall i, (i < l)%nat -> mode (nth (2 * l - i) (wigner_dm0 k l b) 0) (nth (2 * l - i) w (RtoC 0)) ((INR (2 * l - i) - INR l) * (vr * (2 * PI))) t
     = mode (nth i (wigner_dm0 k l b) 0) (nth i w (RtoC 0)) ((INR i - INR l) * (vr * (2 * PI))) t).
  { intros i Hi. rewrite <- (mode_pair k l b w i) by auto. f_equal. rewrite minus_INR, mult_INR by lia. cbn [INR]. ring. }
  unfold modulation. fold (mode (nth 0 (wigner_dm0 k l b) 0)).
  assert (U : forall j, nth j (wigner_dm0 k l b) 0 * fst (nth j w (RtoC 0) * cis ((INR j - INR l) * (vr * (2 * PI)) * t))%C =
     mode (nth j (wigner_dm0 k l b) 0) (nth j w (RtoC 0)) ((INR j - INR l) * (vr * (2 * PI))) t) by reflexivity.
  set (M := fun j => mode (nth j (wigner_dm0 k l b) 0) (nth j w (RtoC 0)) ((INR j - INR l) * (vr * (2 * PI))) t) in *.
  rewrite (rsum_ext _ _ (fun j => if Nat.eqb j l then 0 else M j)) by (intros j _; destruct (Nat.eqb j l); auto).
  rewrite (rsum_ext l _ (fun j => 2 * M j)) by reflexivity. change (forall i, (i < l)%nat -> M (2 * l - i)%nat = M i) in P. clearbody M. clear U.
  destruct H as [->| ->]; cbn [rsum Nat.mul Nat.add Nat.eqb].
  - pose proof (P 0%nat ltac:(lia)) as P0. pose proof (P 1%nat ltac:(lia)) as P1. cbn [Nat.mul Nat.add Nat.sub] in P0, P1. rewrite P0, P1. ring.
  - pose proof (P 0%nat ltac:(lia)) as P0. pose proof (P 1%nat ltac:(lia)) as P1. pose proof (P 2%nat ltac:(lia)) as P2'. pose proof (P 3%nat ltac:(lia)) as P3.
    cbn [Nat.mul Nat.add Nat.sub] in P0, P1, P2', P3. rewrite P0, P1, P2', P3. ring.
Qed.

Theorem phase_integral k nsb vr angle w2 w4 (fourth : bool) step : 0 < vr -> (0 < nsb)%nat -> real_tensor 2 w2 -> real_tensor 4 w4 ->
  let d l i := nth i (wigner_dm0 k l angle) 0 in
  is_RInt (fun t => 2 * PI * (modulation 2 (d 2%nat) w2 vr t + if fourth then modulation 4 (d 4%nat) w4 vr t else 0)) 0 (INR step / (INR nsb * vr))
    (sideband_phase nsb vr (d 2%nat) (d 4%nat) (fun i => nth i w2 (RtoC 0)) (fun i => nth i w4 (RtoC 0)) fourth step).
Proof.
  intros V N R2 R4 d. unfold sideband_phase.
  assert (I2 : is_RInt (fun t => 2 * PI * modulation 2 (d 2%nat) w2 vr t) 0 (INR step / (INR nsb * vr))
     (snd (csum 2 (fun i => (RtoC (d 2%nat i) * pre_phase nsb vr (i + 2) step) * nth i w2 (RtoC 0))%C))).
  { rewrite csum_snd. eapply is_RInt_ext; [|apply is_RInt_rsum; intros i Hi; apply (mode_integral (d 2%nat i) (nth i w2 (RtoC 0)) nsb vr (i + 2) step V N); lia].
    intros t _. cbv beta. unfold d at 2. rewrite modulation_half by (auto; left; auto). rewrite <- rsum_scal. apply rsum_ext. intros i _.
    rewrite plus_INR. unfold d. do 3 f_equal. cbn [INR]. ring. }
  destruct fourth.
  - assert (I4 : is_RInt (fun t => 2 * PI * modulation 4 (d 4%nat) w4 vr t) 0 (INR step / (INR nsb * vr))
       (snd (csum 4 (fun i => (RtoC (d 4%nat i) * pre_phase nsb vr i step) * nth i w4 (RtoC 0))%C))).
    { rewrite csum_snd. eapply is_RInt_ext; [|apply is_RInt_rsum; intros i Hi; apply (mode_integral (d 4%nat i) (nth i w4 (RtoC 0)) nsb vr i step V N); lia].
      intros t _. cbv beta. unfold d at 2. rewrite modulation_half by (auto; right; auto). rewrite <- rsum_scal. apply rsum_ext. intros i _.
      unfold d. do 3 f_equal. cbn [INR]. ring. }
    eapply is_RInt_ext; [|apply (is_RInt_plus (V := R_NormedModule) _ _ _ _ _ _ I2 I4)]. intros t _. unfold plus. cbn. ring.
  - eapply is_RInt_ext; [|]. 2: { replace (snd _) with (snd (csum 2 (fun i => (RtoC (d 2%nat i) * pre_phase nsb vr (i + 2) step) * nth i w2 (RtoC 0))%C)) by (cbn; ring). exact I2. }
    intros t _. cbv beta. rewrite Rplus_0_r. reflexivity.
Qed.
