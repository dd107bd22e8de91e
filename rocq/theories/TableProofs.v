From Coq Require Import Reals List ZArith Lra Lia Psatz Machin.
From Coquelicot Require Import Complex.
From Verif Require Import DftModel DftSpec DftProofs.
Import ListNotations.
Open Scope R_scope.

Lemma pi_bounds : 62831 * delta < 2 * PI < 62832 * delta.
Proof.
  pose proof (PI_2_3_7_ineq 3) as [L U]. unfold delta.
  cbn [sum_f_R0 Nat.mul Nat.add] in L, U. unfold tg_alt, PI_2_3_7_tg, Ratan_seq in L, U.
  cbn [pow Nat.mul Nat.add INR] in L, U. lra.
Qed.

Lemma Rsin_le x : Rabs (sin x) <= Rabs x.
Proof.
  destruct (Rtotal_order x 0) as [H|[->|H]].
  - pose proof (sin_lt_x (- x) ltac:(lra)). rewrite sin_neg in H0. rewrite (Rabs_left x) by lra.
    destruct (Rle_lt_dec (- PI) x).
    + destruct (Req_dec x (- PI)). { subst. rewrite sin_neg, sin_PI, Ropp_0, Rabs_R0. pose proof PI_RGT_0. lra. }
      pose proof (sin_lt_0_var x ltac:(lra) H). rewrite Rabs_left by auto. lra.
    + pose proof (SIN_bound x). pose proof PI_RGT_0. pose proof pi_bounds. unfold delta in *. apply Rabs_le. lra.
  - rewrite sin_0. lra.
  - rewrite (Rabs_right x) by lra. pose proof (sin_lt_x x H). destruct (Rle_lt_dec x PI).
    + pose proof (sin_ge_0 x ltac:(lra) r). rewrite Rabs_right by lra. lra.
    + pose proof (SIN_bound x). pose proof pi_bounds. unfold delta in *. apply Rabs_le. lra.
Qed.

Lemma cos_lip x y : Rabs (cos x - cos y) <= Rabs (x - y).
Proof.
  rewrite form2. replace (-2 * sin ((x - y) / 2) * sin ((x + y) / 2)) with ((2 * sin ((x - y) / 2)) * (- sin ((x + y) / 2))) by ring.
  rewrite Rabs_mult, Rabs_Ropp, Rabs_mult, (Rabs_right 2) by lra. pose proof (Rsin_le ((x - y) / 2)).
  assert (Rabs ((x - y) / 2) = Rabs (x - y) / 2). { unfold Rdiv. rewrite Rabs_mult, (Rabs_right (/ 2)) by lra. auto. }
  assert (Rabs (sin ((x + y) / 2)) <= 1) by (apply Rabs_le; pose proof (SIN_bound ((x + y) / 2)); lra).
  pose proof (Rabs_pos (sin ((x - y) / 2))). pose proof (Rabs_pos (sin ((x + y) / 2))). nra.
Qed.
Lemma sin_lip x y : Rabs (sin x - sin y) <= Rabs (x - y).
Proof.
  rewrite <- (cos_shift x), <- (cos_shift y). eapply Rle_trans; [apply cos_lip|]. right. rewrite <- Rabs_Ropp. f_equal. ring.
Qed.

Lemma delta_pos : 0 < delta. Proof. unfold delta. lra. Qed.

Lemma modd_range x : 0 <= x -> 0 <= modd x (2 * PI) < 2 * PI.
Proof.
  intros H. unfold modd. pose proof (base_Int_part (x / (2 * PI))) as [A B]. pose proof PI_RGT_0.
  assert (E : x = x / (2 * PI) * (2 * PI)) by (field; lra).
  set (q := x / (2 * PI)) in *. clearbody q. subst x. split; nra.
Qed.
Lemma modd_shift x : 0 <= x -> exists k : nat, x = modd x (2 * PI) + 2 * INR k * PI.
Proof.
  intros H. unfold modd. pose proof (base_Int_part (x / (2 * PI))) as [A B]. pose proof PI_RGT_0.
  assert (0 <= x / (2 * PI)) by (apply Rmult_le_pos; [lra|apply Rlt_le, Rinv_0_lt_compat; lra]).
  assert (-1 < Int_part (x / (2 * PI)))%Z by (apply lt_IZR; lra).
  exists (Z.to_nat (Int_part (x / (2 * PI)))). rewrite INR_IZR_INZ, Z2Nat.id by lia. ring.
Qed.
Lemma cos_modd x : cos (modd (Rabs x) (2 * PI)) = cos x.
Proof.
  destruct (modd_shift (Rabs x) (Rabs_pos x)) as [k E]. 
  transitivity (cos (Rabs x)); [rewrite E at 2; rewrite cos_period; auto|]. unfold Rabs. destruct (Rcase_abs x); auto using cos_neg.
Qed.
Lemma sin_modd x : sin (modd (Rabs x) (2 * PI)) = sin (Rabs x).
Proof. destruct (modd_shift (Rabs x) (Rabs_pos x)) as [k E]. rewrite E at 2. rewrite sin_period. auto. Qed.

(** The two table entries used are cosine and sine of angles a <= b <= a + delta around the folded phase. *)
Lemma table_bounds y : 0 <= y < 2 * PI -> (0 <= table_index y)%Z /\ (table_index y + 1 < table_size)%Z /\
  0 <= y / delta - IZR (table_index y) < 1.
Proof.
  intros [H0 H1]. unfold table_index. pose proof (base_Int_part (y / delta)) as [A B]. pose proof pi_bounds as [P0 P1]. pose proof delta_pos.
  assert (0 <= y / delta) by (apply Rmult_le_pos; [lra|apply Rlt_le, Rinv_0_lt_compat; lra]).
  assert (y / delta < 62832).
  { apply Rmult_lt_reg_r with delta; auto. unfold Rdiv. rewrite Rmult_assoc, Rinv_l by lra. lra. }
  assert (-1 < Int_part (y / delta))%Z by (apply lt_IZR; lra).
  assert (Int_part (y / delta) < 62832)%Z by (apply lt_IZR; lra). unfold table_size. split; [lia|]. split; [lia|lra].
Qed.

Lemma table_angles y : 0 <= y < 2 * PI -> exists a b, let i := table_index y in
  cos_table i = cos a /\ sin_table i = sin a /\ cos_table (i + 1) = cos b /\ sin_table (i + 1) = sin b /\
  0 <= b - a <= delta /\ 0 <= y - a < delta.
Proof.
  intros H. destruct (table_bounds y H) as [I0 [I1 W]]. pose proof delta_pos as D. pose proof pi_bounds as [P0 P1]. unfold table_size in I1.
  assert (YW : 0 <= y - IZR (table_index y) * delta < delta).
  { assert (E : y = y / delta * delta) by (field; lra). set (q := y / delta) in *. set (i := IZR (table_index y)) in *. clearbody q i. split; nra. }
  exists (IZR (table_index y) * delta). unfold cos_table, sin_table, table_size.
  destruct (Z.eqb_spec (table_index y) (62833 - 1)); [lia|].
  destruct (Z.eqb_spec (table_index y + 1) (62833 - 1)) as [E|E].
  - exists (2 * PI). rewrite cos_2PI, sin_2PI. assert (table_index y = 62831%Z) by lia. rewrite H0 in *. repeat split; try lra.
  - exists (IZR (table_index y + 1) * delta). rewrite plus_IZR. repeat split; try lra.
Qed.

Lemma lerp_close w u v t d : 0 <= w < 1 -> Rabs (u - t) <= d -> Rabs (v - u) <= d -> Rabs (lerp w u v - t) <= 2 * d.
Proof.
  intros W A B. unfold lerp. replace ((1 - w) * u + w * v - t) with ((u - t) + w * (v - u)) by ring.
  eapply Rle_trans; [apply Rabs_triang|]. rewrite Rabs_mult, (Rabs_right w) by lra. pose proof (Rabs_pos (v - u)). nra.
Qed.

Lemma rsign_pos x : 0 < x -> rsign x = 1.
Proof. intros. unfold rsign. destruct (Rlt_dec 0 x); [auto|lra]. Qed.
Lemma rsign_neg x : x < 0 -> rsign x = -1.
Proof. intros. unfold rsign. destruct (Rlt_dec 0 x); [lra|]. destruct (Rlt_dec x 0); [auto|lra]. Qed.
Lemma rsign_0 : rsign 0 = 0.
Proof. unfold rsign. destruct (Rlt_dec 0 0); [lra|]. destruct (Rlt_dec 0 0); [lra|auto]. Qed.

Lemma table_close sgn x : Rabs (fst (table_exp sgn x) - cos x) <= 2 * delta /\
  Rabs (snd (table_exp 1 x) - sin (Rabs x)) <= 2 * delta /\ snd (table_exp sgn x) = snd (table_exp 1 x) * rsign sgn.
Proof.
  pose proof (modd_range (Rabs x) (Rabs_pos x)) as M. destruct (table_bounds _ M) as [_ [_ W]].
  destruct (table_angles _ M) as [a [b [C1 [S1 [C2 [S2 [AB YA]]]]]]]. unfold table_exp. cbn [fst snd].
  set (y := modd (Rabs x) (2 * PI)) in *.
  assert (DA : Rabs (a - y) <= delta) by (apply Rabs_le; lra). assert (DB : Rabs (b - a) <= delta) by (apply Rabs_le; lra).
  rewrite C1, S1, C2, S2. rewrite (rsign_pos 1) by lra. rewrite <- (cos_modd x), <- (sin_modd x). fold y. split; [|split].
  - apply lerp_close; auto; eapply Rle_trans; try apply cos_lip; auto.
  - rewrite Rmult_1_r. apply lerp_close; auto; eapply Rle_trans; try apply sin_lip; auto.
  - ring.
Qed.

Lemma sin_abs_sign x : sin x = sin (Rabs x) * rsign x.
Proof.
  destruct (Rtotal_order x 0) as [H|[->|H]].
  - rewrite Rabs_left, sin_neg, rsign_neg by auto. ring.
  - rewrite sin_0, rsign_0. ring.
  - rewrite Rabs_right, rsign_pos by lra. ring.
Qed.
Lemma rsign_abs x : Rabs (rsign x) <= 1.
Proof. unfold rsign. destruct (Rlt_dec 0 x), (Rlt_dec x 0); apply Rabs_le; lra. Qed.

Lemma exp_imag_close x : Rabs (fst (exp_imag_only x) - cos x) <= 2 * delta /\ Rabs (snd (exp_imag_only x) - sin x) <= 2 * delta.
Proof.
  unfold exp_imag_only. destruct (table_close x x) as [A [B E]]. split; auto. rewrite E, sin_abs_sign.
  replace (snd (table_exp 1 x) * rsign x - sin (Rabs x) * rsign x) with ((snd (table_exp 1 x) - sin (Rabs x)) * rsign x) by ring.
  rewrite Rabs_mult. pose proof (rsign_abs x). pose proof (Rabs_pos (rsign x)). pose proof (Rabs_pos (snd (table_exp 1 x) - sin (Rabs x))). nra.
Qed.

(** Second order accuracy of the interpolation. *)
Lemma pi_sharp : 6.2831853 < 2 * PI.
Proof.
  pose proof (PI_2_3_7_ineq 5) as [L U].
  cbn [sum_f_R0 Nat.mul Nat.add] in L, U. unfold tg_alt, PI_2_3_7_tg, Ratan_seq in L, U.
  cbn [pow Nat.mul Nat.add INR] in L, U. lra.
Qed.
Lemma cos_second x : 1 - x * x / 2 <= cos x <= 1.
Proof.
  split; [|apply COS_bound]. replace x with (2 * (x / 2)) at 3 by field. rewrite cos_2a_sin.
  pose proof (Rsin_le (x / 2)). pose proof (Rabs_pos (sin (x / 2))).
  assert (sin (x / 2) * sin (x / 2) <= x / 2 * (x / 2)).
  { rewrite <- (Rabs_right (sin (x / 2) * sin (x / 2))), <- (Rabs_right (x / 2 * (x / 2))) by (apply Rle_ge, Rle_0_sqr).
    rewrite !Rabs_mult. apply Rmult_le_compat; auto. }
  lra.
Qed.
Lemma sin_third x : 0 <= x <= 1 -> x - x * x <= sin x <= x.
Proof.
  intros H. pose proof pi_bounds as PB. unfold delta in PB. destruct (pre_sin_bound x 0 ltac:(lra) ltac:(lra)) as [L _].
  unfold sin_approx, sin_term in L. cbn in L. pose proof (Rsin_le x) as U.
  assert (0 <= sin x) by (apply sin_ge_0; lra). rewrite !Rabs_right in U by lra. split; [|lra]. nra.
Qed.
Lemma lerp_second w y : 0 <= w < 1 ->
  Rabs (lerp w (cos (y - w * delta)) (cos (y - w * delta + delta)) - cos y) <= delta * delta /\
  Rabs (lerp w (sin (y - w * delta)) (sin (y - w * delta + delta)) - sin y) <= delta * delta.
Proof.
  intros W. unfold lerp. replace (y - w * delta + delta) with (y + (1 - w) * delta) by ring.
  rewrite cos_minus, cos_plus, sin_minus, sin_plus.
  set (p := w * delta). set (q := (1 - w) * delta). pose proof (cos_second p) as CP. pose proof (cos_second q) as CQ.
  assert (P : 0 <= p <= delta) by (unfold p, delta; nra). assert (Q : 0 <= q <= delta) by (unfold q, delta; nra).
  assert (D1 : delta <= 1) by (unfold delta; lra).
  pose proof (sin_third p ltac:(lra)) as SP. pose proof (sin_third q ltac:(lra)) as SQ.
  assert (B1 : - (delta * delta / 2) <= (1 - w) * cos p + w * cos q - 1 <= 0).
  { assert (p * p <= delta * delta) by nra. assert (q * q <= delta * delta) by nra. set (dd := delta * delta) in *. clearbody dd. split; nra. }
  assert (B2 : - (delta * delta / 4) <= (1 - w) * sin p - w * sin q <= delta * delta / 4).
  { assert (E : (1 - w) * p = w * q) by (unfold p, q; ring).
    assert (U1 : w * (q * q) <= delta * delta / 4).
    { assert (w * q <= delta / 4). { unfold q. pose proof delta_pos. assert (w * (1 - w) <= 1 / 4) by (pose proof (Rle_0_sqr (w - 1 / 2)); unfold Rsqr in *; lra). nra. }
      assert (0 <= w * q) by nra. replace (w * (q * q)) with (w * q * q) by ring. replace (delta * delta / 4) with (delta / 4 * delta) by field.
      apply Rmult_le_compat; lra. }
    assert (U2 : (1 - w) * (p * p) <= delta * delta / 4).
    { assert ((1 - w) * p <= delta / 4). { unfold p. pose proof delta_pos. assert (w * (1 - w) <= 1 / 4) by (pose proof (Rle_0_sqr (w - 1 / 2)); unfold Rsqr in *; lra). nra. }
      assert (0 <= (1 - w) * p) by nra. replace ((1 - w) * (p * p)) with ((1 - w) * p * p) by ring. replace (delta * delta / 4) with (delta / 4 * delta) by field.
      apply Rmult_le_compat; lra. }
    assert ((1 - w) * p - (1 - w) * (p * p) <= (1 - w) * sin p <= (1 - w) * p) by nra.
    assert (w * q - w * (q * q) <= w * sin q <= w * q) by nra. lra. }
  pose proof (COS_bound y) as CY. pose proof (SIN_bound y) as SY.
  assert (DD : 0 <= delta * delta) by apply Rle_0_sqr.
  set (X := (1 - w) * cos p + w * cos q - 1) in *. set (Y := (1 - w) * sin p - w * sin q) in *.
  assert (Hm : forall u v a, -1 <= u <= 1 -> Rabs v <= a -> Rabs (u * v) <= a).
  { intros u v a0 Hu Hv. rewrite Rabs_mult. assert (Rabs u <= 1) by (apply Rabs_le; lra). pose proof (Rabs_pos v). pose proof (Rabs_pos u). nra. }
  assert (AX : Rabs X <= delta * delta / 2) by (apply Rabs_le; lra). assert (AY : Rabs Y <= delta * delta / 4) by (apply Rabs_le; lra).
  split.
  - replace ((1 - w) * (cos y * cos p + sin y * sin p) + w * (cos y * cos q - sin y * sin q) - cos y) with (cos y * X + sin y * Y) by (unfold X, Y; ring).
    eapply Rle_trans; [apply Rabs_triang|]. pose proof (Hm _ _ _ CY AX). pose proof (Hm _ _ _ SY AY). lra.
  - replace ((1 - w) * (sin y * cos p - cos y * sin p) + w * (sin y * cos q + cos y * sin q) - sin y) with (sin y * X - cos y * Y) by (unfold X, Y; ring).
    unfold Rminus. eapply Rle_trans; [apply Rabs_triang|]. rewrite Rabs_Ropp. pose proof (Hm _ _ _ SY AX). pose proof (Hm _ _ _ CY AY). lra.
Qed.
(** The last entry holds the value at 2 pi rather than at 62832 steps. *)
Lemma table_angles2 y : 0 <= y < 2 * PI -> exists b, let i := table_index y in let w := y / delta - IZR i in let a := y - w * delta in
  cos_table i = cos a /\ sin_table i = sin a /\ cos_table (i + 1) = cos b /\ sin_table (i + 1) = sin b /\
  Rabs (b - (a + delta)) <= 1.47e-5 /\ (y < 6.2831 -> b = a + delta).
Proof.
  intros H. destruct (table_bounds y H) as [I0 [I1 W]]. pose proof delta_pos as D. pose proof pi_bounds as [P0 P1]. pose proof pi_sharp as PS. unfold table_size in I1.
  assert (A : y - (y / delta - IZR (table_index y)) * delta = IZR (table_index y) * delta) by (field; lra).
  cbv zeta. rewrite A. unfold cos_table, sin_table, table_size.
  destruct (Z.eqb_spec (table_index y) (62833 - 1)); [lia|].
  destruct (Z.eqb_spec (table_index y + 1) (62833 - 1)) as [E|E].
  - exists (2 * PI). rewrite cos_2PI, sin_2PI. assert (T : table_index y = 62831%Z) by lia. rewrite T in *.
    split; [auto|]. split; [auto|]. split; [auto|]. split; [auto|]. unfold delta in *. split; [apply Rabs_le; lra|]. intros L. exfalso.
    assert (62831 <= y / / 10000) by lra. assert (y / / 10000 = y * 10000) by field. lra.
  - exists (IZR (table_index y + 1) * delta). rewrite plus_IZR. replace ((IZR (table_index y) + 1) * delta) with (IZR (table_index y) * delta + delta) by ring.
    repeat split; auto. rewrite Rminus_eq_0, Rabs_R0. lra.
Qed.
Lemma table_sharp x : let y := modd (Rabs x) (2 * PI) in
  (Rabs (fst (table_exp 1 x) - cos x) <= 1.5e-5 /\ Rabs (snd (table_exp 1 x) - sin (Rabs x)) <= 1.5e-5) /\
  (y < 6.2831 -> Rabs (fst (table_exp 1 x) - cos x) <= 1e-8 /\ Rabs (snd (table_exp 1 x) - sin (Rabs x)) <= 1e-8).
Proof.
  intros y. pose proof (modd_range (Rabs x) (Rabs_pos x)) as M. destruct (table_bounds _ M) as [_ [_ W]].
  destruct (table_angles2 _ M) as [b [C1 [S1 [C2 [S2 [AB YA]]]]]]. unfold table_exp. cbn [fst snd].
  rewrite C1, S1, C2, S2. rewrite (rsign_pos 1), Rmult_1_r by lra. rewrite <- (cos_modd x), <- (sin_modd x). fold y. fold y in W, AB, YA.
  set (w := y / delta - IZR (table_index y)) in *. destruct (lerp_second w y W) as [LC LS]. set (a := y - w * delta) in *. split.
  - assert (G : forall u v t b', Rabs (lerp w u v - t) <= delta * delta -> Rabs (b' - v) <= 1.47e-5 -> Rabs (lerp w u b' - t) <= 1.5e-5).
    { intros u v t b' H1 H2. replace (lerp w u b' - t) with ((lerp w u v - t) + w * (b' - v)) by (unfold lerp; ring).
      eapply Rle_trans; [apply Rabs_triang|]. rewrite Rabs_mult, (Rabs_right w) by lra. pose proof (Rabs_pos (b' - v)). unfold delta in *. nra. }
    split; [eapply (G _ _ _ _ LC)|eapply (G _ _ _ _ LS)]; (eapply Rle_trans; [|exact AB]); [apply cos_lip|apply sin_lip].
  - intros L. rewrite (YA L). unfold delta in LC, LS |- *. split; lra.
Qed.
Lemma table_sharp_sgn sgn x c s e : Rabs (fst (table_exp 1 x) - c) <= e -> Rabs (snd (table_exp 1 x) - s) <= e -> rsign sgn * rsign sgn <= 1 ->
  fst (table_exp sgn x) = fst (table_exp 1 x) /\ Rabs (snd (table_exp sgn x) - s * rsign sgn) <= e.
Proof.
  intros A B H. split; [reflexivity|]. destruct (table_close sgn x) as [_ [_ E]]. rewrite E.
  replace (snd (table_exp 1 x) * rsign sgn - s * rsign sgn) with ((snd (table_exp 1 x) - s) * rsign sgn) by ring.
  rewrite Rabs_mult. pose proof (rsign_abs sgn). pose proof (Rabs_pos (rsign sgn)). pose proof (Rabs_pos (snd (table_exp 1 x) - s)). nra.
Qed.
Lemma rsign_sq x : rsign x * rsign x <= 1.
Proof. unfold rsign. destruct (Rlt_dec 0 x), (Rlt_dec x 0); lra. Qed.
Lemma exp_imag_sharp x e : Rabs (fst (table_exp 1 x) - cos x) <= e -> Rabs (snd (table_exp 1 x) - sin (Rabs x)) <= e ->
  Rabs (fst (exp_imag_only x) - cos x) <= e /\ Rabs (snd (exp_imag_only x) - sin x) <= e.
Proof.
  intros A B. destruct (table_sharp_sgn x x _ _ _ A B (rsign_sq x)) as [E F]. unfold exp_imag_only. rewrite E, (sin_abs_sign x). auto.
Qed.
Lemma cos_sin_sharp x e : 0 <= e -> Rabs (fst (table_exp 1 x) - cos x) <= e -> Rabs (snd (table_exp 1 x) - sin (Rabs x)) <= e ->
  Rabs (fst (cos_sin_from_table x) - cos x) <= e /\ Rabs (snd (cos_sin_from_table x) - sin (Rabs x)) <= e.
Proof.
  intros P A B. unfold cos_sin_from_table. set (g := modd (Rabs x) (2 * PI) / delta). destruct (table_sharp_sgn g x _ _ _ A B (rsign_sq g)) as [E F].
  rewrite E. split; auto. pose proof (modd_range (Rabs x) (Rabs_pos x)) as [M0 _]. pose proof delta_pos as D.
  destruct M0 as [M0|M0].
  - rewrite rsign_pos, Rmult_1_r in F; auto. unfold g, Rdiv. apply Rmult_lt_0_compat; auto. apply Rinv_0_lt_compat; auto.
  - assert (S0 : sin (Rabs x) = 0) by (rewrite <- sin_modd, <- M0; apply sin_0). rewrite S0 in *.
    replace (snd (table_exp g x) - 0) with (snd (table_exp g x) - 0 * rsign g) by ring. auto.
Qed.

(** Modulus of the interpolated phase factor. *)
Lemma lerp_modulus w a b : 0 <= w <= 1 -> 0 <= b - a <= delta ->
  1 - delta * delta / 4 <= lerp w (cos a) (cos b) * lerp w (cos a) (cos b) + lerp w (sin a) (sin b) * lerp w (sin a) (sin b) <= 1.
Proof.
  intros W D. 
  assert (E : lerp w (cos a) (cos b) * lerp w (cos a) (cos b) + lerp w (sin a) (sin b) * lerp w (sin a) (sin b)
    = 1 - 2 * (w * (1 - w)) * (1 - cos (b - a))).
  { unfold lerp. rewrite cos_minus. pose proof (sin2_cos2 a) as A. pose proof (sin2_cos2 b) as B. unfold Rsqr in A, B.
    transitivity ((1 - w) * (1 - w) * (sin a * sin a + cos a * cos a) + w * w * (sin b * sin b + cos b * cos b)
      + 2 * (w * (1 - w)) * (cos b * cos a + sin b * sin a)); [ring|]. rewrite A, B. ring. }
  rewrite E.
  assert (C : 0 <= 1 - cos (b - a) <= delta * delta / 2).
  { assert (H : 1 - cos (b - a) = 2 * (sin ((b - a) / 2) * sin ((b - a) / 2))).
    { replace (b - a) with (2 * ((b - a) / 2)) at 1 by field. rewrite cos_2a_sin. ring. }
    rewrite H. pose proof (Rsin_le ((b - a) / 2)) as S. pose proof delta_pos. rewrite (Rabs_right ((b - a) / 2)) in S by lra.
    pose proof (Rabs_pos (sin ((b - a) / 2))).
    assert (SQ : sin ((b - a) / 2) * sin ((b - a) / 2) = Rabs (sin ((b - a) / 2)) * Rabs (sin ((b - a) / 2))).
    { rewrite <- Rabs_mult. rewrite Rabs_right; auto. nra. }
    rewrite SQ. split; nra. }
  assert (V0 : 0 <= w * (1 - w)) by (apply Rmult_le_pos; lra).
  assert (V1 : w * (1 - w) <= / 4) by (pose proof (Rle_0_sqr (w - / 2)) as SQ; unfold Rsqr in SQ; lra).
  set (v := w * (1 - w)) in *. set (c := 1 - cos (b - a)) in *. clearbody v c.
  pose proof (Rmult_le_pos v c V0 (proj1 C)). pose proof (Rmult_le_compat v (/ 4) c (delta * delta / 2) V0 (proj1 C) V1 (proj2 C)). lra.
Qed.

Lemma exp_imag_modulus x : 1 - delta * delta / 4 <= abs2 (exp_imag_only x) <= 1.
Proof.
  pose proof (modd_range (Rabs x) (Rabs_pos x)) as M. destruct (table_bounds _ M) as [_ [_ W]].
  destruct (table_angles _ M) as [a [b [C1 [S1 [C2 [S2 [AB YA]]]]]]]. unfold exp_imag_only, table_exp, abs2. cbn [fst snd].
  rewrite C1, S1, C2, S2. 
  destruct (Req_dec x 0) as [->|Hx].
  - rewrite rsign_0. rewrite Rmult_0_r, Rmult_0_l, Rplus_0_r.
    assert (Y0 : modd (Rabs 0) (2 * PI) = 0).
    { rewrite Rabs_R0. unfold modd. replace (0 / (2 * PI)) with (INR 0) by (cbn; field; pose proof PI_RGT_0; lra). rewrite Int_part_INR. cbn. ring. }
    rewrite Y0 in *. assert (T0 : table_index 0 = 0%Z).
    { unfold table_index. replace (0 / delta) with (INR 0) by (cbn; field; pose proof delta_pos; lra). rewrite Int_part_INR. auto. }
    rewrite T0 in *. unfold cos_table in C1. cbn [Z.eqb table_size] in C1. replace (0 / delta - IZR 0) with 0 by (pose proof delta_pos; field; lra).
    unfold lerp. rewrite <- C1. cbn. rewrite Rmult_0_l, cos_0. unfold delta. lra.
  - assert (S : rsign x * rsign x = 1). { destruct (Rtotal_order x 0) as [H|[H|H]]; [rewrite rsign_neg by auto; ring|contradiction|rewrite rsign_pos by auto; ring]. }
    set (w := modd (Rabs x) (2 * PI) / delta - IZR (table_index (modd (Rabs x) (2 * PI)))) in *.
    replace (lerp w (sin a) (sin b) * rsign x * (lerp w (sin a) (sin b) * rsign x)) with (lerp w (sin a) (sin b) * lerp w (sin a) (sin b) * (rsign x * rsign x)) by ring.
    rewrite S, Rmult_1_r. apply lerp_modulus; lra.
Qed.

Lemma sin_1_pos : 2 * delta < sin 1.
Proof.
  pose proof (sin_lb_ge_0 1). pose proof (SIN_bound 1). pose proof pi_bounds as [P0 P1]. unfold delta in *.
  assert (L : sin (PI / 6) < sin 1) by (apply sin_increasing_1; lra). rewrite sin_PI6 in L. lra.
Qed.

Lemma inplace_nonneg x : 0 <= snd (exp_imag_only_inplace x).
Proof.
  unfold exp_imag_only_inplace. cbn [snd]. set (s := snd (table_exp 1 x)). destruct (Rtotal_order s 0) as [H|[->|H]].
  - rewrite rsign_neg by auto. lra.
  - lra.
  - rewrite rsign_pos by auto. lra.
Qed.
Lemma abs2_table sgn x : rsign sgn * rsign sgn = 1 -> abs2 (table_exp sgn x) = abs2 (table_exp 1 x).
Proof.
  intros H. destruct (table_close sgn x) as [_ [_ E]]. unfold abs2. rewrite E. f_equal.
  transitivity (snd (table_exp 1 x) * snd (table_exp 1 x) * (rsign sgn * rsign sgn)); [ring|]. rewrite H. ring.
Qed.
Lemma table_modulus x : 1 - delta * delta / 4 <= abs2 (table_exp 1 x) <= 1.
Proof.
  destruct (Req_dec x 0) as [->|Hx].
  - pose proof (exp_imag_modulus 0) as [A B]. unfold exp_imag_only in A, B.
    pose proof (modd_range (Rabs 0) (Rabs_pos 0)) as M. destruct (table_bounds _ M) as [_ [_ W]].
    destruct (table_angles _ M) as [a [b [C1 [S1 [C2 [S2 [AB YA]]]]]]]. unfold table_exp, abs2. cbn [fst snd].
    rewrite C1, S1, C2, S2, (rsign_pos 1), !Rmult_1_r by lra. apply lerp_modulus; lra.
  - rewrite <- (abs2_table x x); [apply exp_imag_modulus|].
    destruct (Rtotal_order x 0) as [H|[H|H]]; [rewrite rsign_neg by auto; ring|contradiction|rewrite rsign_pos by auto; ring].
Qed.
Lemma inplace_modulus x : 1 - delta * delta / 4 <= abs2 (exp_imag_only_inplace x) <= 1.
Proof.
  pose proof (table_modulus x) as M. unfold exp_imag_only_inplace, abs2 in *. cbn [fst snd].
  set (s := snd (table_exp 1 x)) in *. set (c := fst (table_exp 1 x)) in *. clearbody s c.
  destruct (Rtotal_order s 0) as [H|[->|H]].
  - rewrite rsign_neg by auto. lra.
  - rewrite rsign_0. lra.
  - rewrite rsign_pos by auto. lra.
Qed.
Lemma cos_sin_close x : Rabs (fst (cos_sin_from_table x) - cos x) <= 2 * delta /\ Rabs (snd (cos_sin_from_table x) - sin (Rabs x)) <= 2 * delta.
Proof.
  unfold cos_sin_from_table. set (g := modd (Rabs x) (2 * PI) / delta). destruct (table_close g x) as [A [B E]]. split; auto. rewrite E.
  pose proof (modd_range (Rabs x) (Rabs_pos x)) as [M0 _]. pose proof delta_pos as D.
  destruct M0 as [M0|M0].
  - rewrite rsign_pos, Rmult_1_r; auto. unfold g, Rdiv. apply Rmult_lt_0_compat; auto. apply Rinv_0_lt_compat; auto.
  - rewrite <- sin_modd. unfold g. rewrite <- M0, sin_0. replace (0 / delta) with 0 by (field; lra). rewrite rsign_0, Rmult_0_r, Rminus_0_r, Rabs_R0. lra.
Qed.
Lemma sin_1_big : 0.801 < sin 1.
Proof.
  assert (PB := pi_bounds). unfold delta in PB.
  destruct (pre_sin_bound 1 1 ltac:(lra) ltac:(lra)) as [L _].
  unfold sin_approx, sin_term in L. cbn in L. lra.
Qed.
Local Open Scope C_scope.
Lemma constant_bands n phi k : (0 < k < n)%nat ->
  sideband_intensity n (fun _ => (cos phi, sin phi)) 0 = (INR n * INR n)%R /\ sideband_intensity n (fun _ => (cos phi, sin phi)) k = 0%R.
Proof.
  intros H. assert (0 < INR n)%R by (apply INR_pos; lia). unfold sideband_intensity, fft1. split.
  - rewrite (csum_ext n _ (fun _ => cis phi)).
    + rewrite csum_const. pose proof (cis_unit phi) as U. unfold abs2 in *. cbn in *.
      transitivity (INR n * INR n * (cos phi * cos phi + sin phi * sin phi))%R; [ring|]. rewrite U. ring.
    + intros j _. cbn [INR]. replace (- (2 * PI) * (INR j * 0) / INR n)%R with 0%R by (field; lra). rewrite cis_0. change (cos phi, sin phi) with (cis phi). ring.
  - rewrite (csum_ext n _ (fun j => cis phi * cis (- (2 * PI * (INR j * INR k) / INR n)))).
    + rewrite csum_scal, root_sum_neg by lia. rewrite Nat.mod_small by lia. destruct k; [lia|]. cbn [Nat.eqb]. unfold abs2. cbn. ring.
    + intros j _. change (cos phi, sin phi) with (cis phi). rewrite Cmult_comm. f_equal. f_equal. field. lra.
Qed.
Lemma Rabs_def2_le x y : (Rabs x <= y -> - y <= x <= y)%R.
Proof. unfold Rabs. destruct (Rcase_abs x); lra. Qed.
Lemma modd_period x k : modd (x + 2 * INR k * PI) (2 * PI) = modd x (2 * PI).
Proof.
  unfold modd. pose proof PI_RGT_0. assert (E : ((x + 2 * INR k * PI) / (2 * PI) = x / (2 * PI) + INR k)%R) by (field; lra). rewrite E.
  pose proof (base_Int_part (x / (2 * PI))) as [A B].
  assert (I : (Int_part (x / (2 * PI)) + Z.of_nat k)%Z = Int_part (x / (2 * PI) + INR k)).
  { pose proof (base_Int_part (x / (2 * PI) + INR k)) as [A' B']. rewrite INR_IZR_INZ in A', B' |- *.
    set (u := Int_part (x / (2 * PI))) in *. set (v := Int_part (x / (2 * PI) + IZR (Z.of_nat k))) in *.
    assert (u + Z.of_nat k < v + 1)%Z by (apply lt_IZR; rewrite !plus_IZR; lra).
    assert (v < u + Z.of_nat k + 1)%Z by (apply lt_IZR; rewrite !plus_IZR; lra). lia. }
  rewrite <- I, plus_IZR, <- INR_IZR_INZ. ring.
Qed.
Lemma cos_sin_period x k : (0 <= x)%R -> cos_sin_from_table (x + 2 * INR k * PI) = cos_sin_from_table x.
Proof.
  intros H. pose proof PI_RGT_0. pose proof (pos_INR k). assert (0 <= 2 * INR k * PI)%R by (apply Rmult_le_pos; lra).
  unfold cos_sin_from_table, table_exp. rewrite !Rabs_right by lra. rewrite modd_period. auto.
Qed.
Local Open Scope R_scope.
Lemma modd_small y : 0 <= y < 2 * PI -> modd y (2 * PI) = y.
Proof.
  intros H. unfold modd. pose proof PI_RGT_0. assert (0 <= y / (2 * PI) < 1).
  { split; [apply Rmult_le_pos; [lra|apply Rlt_le, Rinv_0_lt_compat; lra]|]. apply Rmult_lt_reg_r with (2 * PI); [lra|].
    unfold Rdiv. rewrite Rmult_assoc, Rinv_l by lra. lra. }
  pose proof (base_Int_part (y / (2 * PI))) as [A B].
  assert (-1 < Int_part (y / (2 * PI)))%Z by (apply lt_IZR; lra). assert (Int_part (y / (2 * PI)) < 1)%Z by (apply lt_IZR; lra).
  replace (Int_part (y / (2 * PI))) with 0%Z by lia. ring.
Qed.
Lemma modd_of y x k : 0 <= y < 6.2831 -> x = y + 2 * INR k * PI -> modd x (2 * PI) < 6.2831.
Proof.
  intros H E. pose proof pi_bounds as PB. unfold delta in PB. rewrite E, modd_period, modd_small; lra.
Qed.
