(** C36-C39, C65: rotations of spherical tensors. *)
From Coq Require Import Reals List ZArith Lra Lia.
From Coquelicot Require Import Complex.
From Verif Require Import DftModel DftSpec DftProofs TableProofs WignerModel WignerSpec WignerOrtho WignerNorm WignerClose WignerProofs WignerFormula.
Import ListNotations.
Open Scope R_scope.

(** ** C36 *)
(** Norm.  With exact constants and trigonometry it is preserved; with the decimal constants and the interpolated tables of the
    code it changes by less than 3e-4 of itself, for all Euler angles and tensors. *)
Theorem C36_norm : forall (l : nat) (alpha beta gamma : R) (v : list C), (l = 2 \/ l = 4)%nat -> length v = (2 * l + 1)%nat ->
  norm2 (rotation ideal l alpha (cis beta) gamma v) = norm2 v /\
  Rabs (norm2 (single_wigner_rotation decimal l alpha beta gamma v) - norm2 v) <= 3e-4 * norm2 v.
Proof. intros l a b g v H L. split; [apply rotation_norm; auto using cis_unit|apply table_norm; auto]. Qed.
Print Assumptions C36_norm.

(** Zero Euler angles leave every tensor unchanged, exactly, in the code's constants and tables too. *)
Theorem C36_identity : forall (l : nat) (v : list C), (l = 2 \/ l = 4)%nat -> length v = (2 * l + 1)%nat ->
  single_wigner_rotation decimal l 0 0 0 v = v.
Proof. intros l v H L. unfold single_wigner_rotation. rewrite table_zero. apply rotation_zero; auto. Qed.
Print Assumptions C36_identity.

(** The inverse rotation restores every tensor, for exact constants and trigonometry ... *)
Theorem C36_inverse_partial : forall (l : nat) (alpha beta gamma : R) (v : list C), (l = 2 \/ l = 4)%nat -> length v = (2 * l + 1)%nat ->
  rotation ideal l (- gamma) (cis (- beta)) (- alpha) (rotation ideal l alpha (cis beta) gamma v) = v.
Proof.
  intros l a b g v H L. replace (cis (- b)) with (cos b, - sin b) by (unfold cis; rewrite cos_neg, sin_neg; auto).
  apply rotation_inverse; auto. apply (cis_unit b).
Qed.
Print Assumptions C36_inverse_partial.

Definition axial : list C := [RtoC 0; RtoC 0; RtoC 1; RtoC 0; RtoC 0].
Lemma cos_1_bounds : 0.540 < cos 1 < 0.5417.
Proof.
  assert (PB := pi_bounds). unfold delta in PB. destruct (pre_cos_bound 1 1 ltac:(lra) ltac:(lra)) as [L _]. destruct (pre_cos_bound 1 0 ltac:(lra) ltac:(lra)) as [_ U].
  unfold cos_approx, cos_term in L, U. cbn in L, U. split; lra.
Qed.
Lemma sin_1_bounds : 0.841 < sin 1 < 0.842.
Proof.
  assert (PB := pi_bounds). unfold delta in PB. destruct (pre_sin_bound 1 1 ltac:(lra) ltac:(lra)) as [L _]. destruct (pre_sin_bound 1 0 ltac:(lra) ltac:(lra)) as [_ U].
  unfold sin_approx, sin_term in L, U. cbn in L, U. split; lra.
Qed.
Lemma table_1 : 0.5399 < fst (cos_sin_from_table 1) < 0.5418 /\ 0.8409 < snd (cos_sin_from_table 1) < 0.8421.
Proof.
  destruct (table_sharp 1) as [[A B] _]. destruct (cos_sin_sharp 1 1.5e-5 ltac:(lra) A B) as [D E]. rewrite (Rabs_right 1) in E by lra.
  apply Rabs_def2_le in D, E. pose proof cos_1_bounds. pose proof sin_1_bounds. lra.
Qed.
Lemma rot_axial k e i : (i < 5)%nat -> nth i (rotation k 2 0 e 0 axial) (RtoC 0) = RtoC (ent k 2 e i 2).
Proof.
  intros H. unfold rotation. rewrite cis_0. rewrite !(scale_one 2) by (rewrite ?mat_vec_length; auto). rewrite mat_vec_nth by auto.
  rewrite (csum_single _ _ 2); [cbn [nth axial Nat.mul Nat.add]; unfold ent; cbn [Nat.mul Nat.add]; ring|lia|].
  intros j Hj Ne. replace (nth j axial (RtoC 0)) with (RtoC 0); [ring|]. do 5 (destruct j as [|j]; [first [lia|reflexivity]|]). lia.
Qed.

(** ... but not in the code: rotating by 1 and then by -1 (radian) gives an axial tensor whose middle component is negative
    instead of 1, because the sign of beta is lost (C38). *)
Theorem C36_inverse_refuted : fst (nth 2 (single_wigner_rotation decimal 2 0 (-1) 0 (single_wigner_rotation decimal 2 0 1 0 axial)) (RtoC 0)) < 0 /\
  fst (nth 2 axial (RtoC 0)) = 1.
Proof.
  split; [|reflexivity]. unfold single_wigner_rotation.
  assert (T : cos_sin_from_table (-1) = cos_sin_from_table 1).
  { unfold cos_sin_from_table, table_exp. replace (Rabs (-1)) with (Rabs 1) by (rewrite <- (Rabs_Ropp 1); f_equal; lra). auto. }
  rewrite T. pose proof table_1 as [Tc Ts]. set (e := cos_sin_from_table 1) in *. clearbody e. destruct e as [c s]. cbn [fst snd] in *.
  assert (E : nth 2 (rotation decimal 2 0 (c, s) 0 (rotation decimal 2 0 (c, s) 0 axial)) (RtoC 0)
    = csum 5 (fun j => RtoC (ent decimal 2 (c, s) 2 j) * RtoC (ent decimal 2 (c, s) j 2))%C).
  { unfold rotation at 1. rewrite cis_0. rewrite (scale_one 2) by (rewrite ?mat_vec_length; auto). rewrite mat_vec_nth by (cbn; lia).
    rewrite (scale_one 2) by apply rotation_length. apply csum_ext. intros j Hj. rewrite rot_axial by auto. auto. }
  rewrite E. clear E. rewrite (csum_ext 5 _ (fun j => RtoC (ent decimal 2 (c, s) 2 j * ent decimal 2 (c, s) j 2))) by (intros; rewrite RtoC_mult; auto).
  rewrite <- rsum_RtoC. cbn [fst RtoC].
  assert (F : rsum 5 (fun j => ent decimal 2 (c, s) 2 j * ent decimal 2 (c, s) j 2) =
    2 * (k38 decimal * k38 decimal) * (s * s * (s * s)) - 2 * (k32 decimal * k32 decimal) * (s * s * (c * c)) + (3 / 2 * (c * c) - 1 / 2) * (3 / 2 * (c * c) - 1 / 2)).
  { rewrite (rsum_ext 5 _ (fun j => ent2 decimal c s 2 j * ent2 decimal c s j 2)) by (intros; rewrite !ent_2; auto). unfold ent2. wig. field. }
  rewrite F. clear F. cbn [k38 k32 decimal].
  assert (S2 : 0.707 <= s * s <= 0.7092) by nra. assert (C2 : 0.2914 <= c * c <= 0.2937) by nra.
  set (x := s * s) in *. set (y := c * c) in *. clearbody x y.
  assert (x * x <= 0.7092 * 0.7092) by nra. assert (0.707 * 0.2914 <= x * y) by nra. assert ((3 / 2 * y - 1 / 2) * (3 / 2 * y - 1 / 2) <= 0.01) by nra. lra.
Qed.
Print Assumptions C36_inverse_refuted.
Example C36_example : norm2 axial = 1 /\ length axial = 5%nat.
Proof. split; [unfold norm2, axial; cbn; ring|reflexivity]. Qed.

(** ** C37 *)
(** The powder rotation computes with the first l + 1 rows only and takes the upper components from symmetry; for the tensor of a
    real interaction its result is the first l + 1 components of the full rotation, which has that symmetry again. *)
Theorem C37_half_rotation : forall (k : wconst) (l : nat) (alpha : R) (e_beta : C) (v : list C), (l = 2 \/ l = 4)%nat -> real_tensor l v ->
  rotation_2 k l (fun m => cpow (cis alpha) m) e_beta v = firstn (l + 1) (rotation k l alpha e_beta 0 v) /\
  real_tensor l (rotation k l alpha e_beta 0 v) /\
  snd (nth l (rotation k l alpha e_beta 0 v) (RtoC 0)) = 0.
Proof.
  intros k l a e v H R. split; [apply rotation_2_full; auto|]. assert (Q : real_tensor l (rotation k l a e 0 v)) by (apply rotation_real; auto).
  split; auto. apply real_centre; auto.
Qed.
Print Assumptions C37_half_rotation.
Example C37_example : real_tensor 2 [(1, 2); (3, 4); (5, 0); (-3, 4); (1, -2)].
Proof.
  split; [reflexivity|]. intros m Hm. do 3 (destruct m as [|m]; [apply C_ext; cbn; ring|]). lia.
Qed.

(** ** C38 *)
(** Refuted: for all Euler angles and tensors the rotation by -beta is the rotation by beta.  The exact rotation by -1 radian of an
    axial tensor has a component above 0.5 where the code's is below -0.5. *)
Theorem C38_sign_of_beta_refuted :
  (forall k l alpha beta gamma v, single_wigner_rotation k l alpha (- beta) gamma v = single_wigner_rotation k l alpha beta gamma v) /\
  fst (nth 1 (single_wigner_rotation decimal 2 0 (-1) 0 axial) (RtoC 0)) < -0.5 /\
  0.5 < fst (nth 1 (rotation ideal 2 0 (cis (-1)) 0 axial) (RtoC 0)).
Proof.
  assert (P : forall k l alpha beta gamma v, single_wigner_rotation k l alpha (- beta) gamma v = single_wigner_rotation k l alpha beta gamma v).
  { intros k l a b g v. unfold single_wigner_rotation, cos_sin_from_table, table_exp. rewrite Rabs_Ropp. auto. }
  split; auto. split.
  - replace (-1) with (- (1)) by lra. rewrite P. unfold single_wigner_rotation. rewrite rot_axial by lia. cbn [fst RtoC]. rewrite ent_2. unfold ent2. wig.
    cbn [k32 decimal]. pose proof table_1 as [Tc Ts]. set (c := fst (cos_sin_from_table 1)) in *. set (s := snd (cos_sin_from_table 1)) in *. clearbody c s.
    assert (0.8409 * 0.5399 <= s * c) by nra. lra.
  - rewrite rot_axial by lia. cbn [fst RtoC]. rewrite ent_2. unfold cis, ent2. cbn [fst snd]. replace (-1) with (- (1)) by lra. rewrite cos_neg, sin_neg. wig.
    cbn [k32 ideal]. pose proof cos_1_bounds. pose proof sin_1_bounds. assert (1.22 <= sqrt (3 / 2)). { rewrite <- (sqrt_square 1.22) by lra. apply sqrt_le_1_alt. lra. }
    assert (0.841 * 0.540 <= sin 1 * cos 1) by nra. set (q := sqrt (3 / 2)) in *. set (p := sin 1 * cos 1) in *.
    replace (- (q * - sin 1 * cos 1)) with (q * p) by (unfold p; ring). clearbody p q. nra.
Qed.
Print Assumptions C38_sign_of_beta_refuted.

(** For beta from 0 to 6.2831 the code's rotation is the exact rotation within 6e-5 of the tensor's norm. *)
Theorem C38_sign_of_beta_partial : forall (l : nat) (alpha beta gamma : R) (v : list C), (l = 2 \/ l = 4)%nat -> length v = (2 * l + 1)%nat ->
  0 <= beta < 6.2831 ->
  sqrt (dist2 (single_wigner_rotation decimal l alpha beta gamma v) (rotation ideal l alpha (cis beta) gamma v)) <= 6e-5 * sqrt (norm2 v).
Proof.
  intros l a b g v H L B. pose proof (table_rotation_close l a b g v H L B) as D.
  replace 6e-5 with (sqrt (6e-5 * 6e-5)) by (apply sqrt_square; lra). rewrite <- sqrt_mult_alt by lra. apply sqrt_le_1_alt.
  assert (0 <= norm2 v). { rewrite norm2_list. apply rsum_nonneg. intros. unfold abs2. nra. } nra.
Qed.
Print Assumptions C38_sign_of_beta_partial.
Example C38_example : 0 <= PI < 6.2831. Proof. pose proof pi_bounds as P. unfold delta in P. lra. Qed.

(** ** C39 *)
(** One octant or a hemisphere of four, with or without fourth rank: from the phase table of the averaging scheme
    ([get_exp_Im_alpha] of the azimuths alpha), octant j of the result has the components of the full rotations with azimuth
    alpha - j pi/2, and the table ends as it began, entry by entry. *)
Theorem C39_tables_restored : forall (k : wconst) (npts n_octants : nat) (fourth : bool) (alpha : nat -> R) (eb : nat -> C) (R2 R4 : list C) (junk : exp_table),
  (n_octants = 1 \/ n_octants = 4)%nat -> real_tensor 2 R2 -> real_tensor 4 R4 ->
  let t := get_exp_Im_alpha fourth (fun o => cis (alpha o)) junk in
  let '(components, t') := batch_rotation k npts n_octants fourth eb R2 R4 t in
  components = flat_map (fun j => map (fun o =>
      (firstn 3 (rotation k 2 (alpha o - INR j * (PI / 2)) (eb o) 0 R2),
       if fourth then firstn 5 (rotation k 4 (alpha o - INR j * (PI / 2)) (eb o) 0 R4) else [])) (seq 0 npts)) (seq 0 n_octants) /\
  (forall row o, t' row o = t row o).
Proof.
  intros k npts n f alpha eb R2 R4 junk Hn H2 H4 t. unfold batch_rotation.
  destruct (batch_spec k npts n f eb R2 R4 junk Hn H2 H4 n alpha t ltac:(lia) ltac:(reflexivity)) as [A B].
  destruct (batch_loop k npts n f eb R2 R4 n t) as [c t']. cbn [fst snd] in *. split; auto. intros row o. rewrite B. unfold t, get_exp_Im_alpha.
  replace (cis (alpha o - (if (n =? 1)%nat then 0 else INR n * (PI / 2)))) with (cis (alpha o)); auto.
  destruct Hn as [->| ->]; cbn [Nat.eqb]; [f_equal; ring|]. replace (INR 4) with 4 by (cbn; ring). rewrite full_turn. auto.
Qed.
Print Assumptions C39_tables_restored.
Example C39_example : real_tensor 4 [(1, 2); (3, 4); (5, 6); (7, 8); (9, 0); (-7, 8); (5, -6); (-3, 4); (1, -2)].
Proof.
  split; [reflexivity|]. intros m Hm. do 5 (destruct m as [|m]; [apply C_ext; cbn; ring|]). lia.
Qed.

(** ** C65 *)
(** Row i, column j of the matrices is Wigner's d^l_{j-l, i-l}(beta): exactly with the square roots, within 3.1e-7 with the decimal
    constants of the code, within 6.3e-6 with the interpolated tables for beta from 0 to 6.2831.  The vector used for the rotor angle
    is d^l_{m, 0}. *)
Theorem C65_wigner_formula : forall (l i j : nat) (beta : R), (l = 2 \/ l = 4)%nat -> (i < 2 * l + 1)%nat -> (j < 2 * l + 1)%nat ->
  let entry k e := nth (i * (2 * l + 1) + j) (wigner_d k false l e) 0 in
  let d := wigner_formula (Z.of_nat l) (Z.of_nat j - Z.of_nat l) (Z.of_nat i - Z.of_nat l) beta in
  entry ideal (cis beta) = d /\ Rabs (entry decimal (cis beta) - d) <= 3.1e-7 /\
  (0 <= beta < 6.2831 -> Rabs (entry decimal (cos_sin_from_table beta) - d) <= 6.4e-6) /\
  nth j (wigner_dm0 ideal l beta) 0 = wigner_formula (Z.of_nat l) (Z.of_nat j - Z.of_nat l) 0 beta /\
  Rabs (nth j (wigner_dm0 decimal l beta) 0 - wigner_formula (Z.of_nat l) (Z.of_nat j - Z.of_nat l) 0 beta) <= 3.1e-7.
Proof.
  intros l i j b H Hi Hj entry d.
  assert (F : forall i j, (i < 2 * l + 1)%nat -> (j < 2 * l + 1)%nat -> ent ideal l (cis b) i j = wigner_formula (Z.of_nat l) (Z.of_nat j - Z.of_nat l) (Z.of_nat i - Z.of_nat l) b).
  { destruct H as [->| ->]; [apply formula2|apply formula4]. }
  assert (U : abs2 (cis b) <= 1) by (rewrite cis_unit; lra).
  assert (C0 : forall i j, (i < 2 * l + 1)%nat -> (j < 2 * l + 1)%nat -> Rabs (ent decimal l (cis b) i j - ent ideal l (cis b) i j) <= 3.1e-7).
  { intros i' j' Hi' Hj'. eapply Rle_trans; [apply (ent_close l _ _ 0 i' j' H U U)|]; auto; try (rewrite Rminus_eq_0, Rabs_R0; lra). unfold eps. lra. }
  change (ent ideal l (cis b) i j = d /\ Rabs (ent decimal l (cis b) i j - d) <= 3.1e-7 /\
    (0 <= b < 6.2831 -> Rabs (ent decimal l (cos_sin_from_table b) i j - d) <= 6.4e-6) /\
    nth j (wigner_dm0 ideal l b) 0 = wigner_formula (Z.of_nat l) (Z.of_nat j - Z.of_nat l) 0 b /\
    Rabs (nth j (wigner_dm0 decimal l b) 0 - wigner_formula (Z.of_nat l) (Z.of_nat j - Z.of_nat l) 0 b) <= 3.1e-7).
  unfold d. rewrite <- (F i j Hi Hj). split; auto. split; [auto|].
  assert (L0 : wigner_formula (Z.of_nat l) (Z.of_nat j - Z.of_nat l) 0 b = ent ideal l (cis b) l j) by (rewrite (F l j) by lia; f_equal; lia).
  rewrite L0, !dm0_row by auto. split; [|split; [auto|apply C0; lia]].
  intros B. destruct (table_sharp b) as [_ G]. destruct G as [G1 G2].
  { rewrite Rabs_right by lra. rewrite modd_small; [lra|]. pose proof pi_bounds. unfold delta in *. lra. }
  destruct (cos_sin_sharp b 1e-8 ltac:(lra) G1 G2) as [K1 K2]. rewrite (Rabs_right b) in K2 by lra.
  eapply Rle_trans; [apply (ent_close l _ _ 1e-8 i j H)|]; auto; [apply cos_sin_modulus|]. unfold eps. lra.
Qed.
Print Assumptions C65_wigner_formula.
(** Rotations about the same axis add. *)
Theorem C65_compose : forall (l : nat) (a b : R) (v : list C), (l = 2 \/ l = 4)%nat -> length v = (2 * l + 1)%nat ->
  rotation ideal l 0 (cis b) 0 (rotation ideal l 0 (cis a) 0 v) = rotation ideal l 0 (cis (a + b)) 0 v.
Proof. intros l a b v H L. apply rotation_add; auto. Qed.
Print Assumptions C65_compose.
Example C65_example : wigner_formula 2 2 0 (PI / 2) = sqrt (3 / 8).
Proof.
  destruct (C65_wigner_formula 2 2 4 (PI / 2)) as [E _]; try lia. change (Z.of_nat 4 - Z.of_nat 2)%Z with 2%Z in E. change (Z.of_nat 2 - Z.of_nat 2)%Z with 0%Z in E.
  change (Z.of_nat 2) with 2%Z in E. rewrite <- E. unfold cis. rewrite cos_PI2, sin_PI2. cbn [wigner_d fst snd]. wig. cbn [k38 ideal]. ring.
Qed.
