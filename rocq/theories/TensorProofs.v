(** Proofs about the Haeberlen parameters and the random tensor models. *)
From Coq Require Import Reals List Lra Lia ZArith Bool.
From Verif Require Import Base TensorModel TensorSpec.
Import ListNotations.
Open Scope R_scope.

(** * Eigenvalues *)
Lemma product_zero a b c : a * b * c = 0 -> a = 0 \/ b = 0 \/ c = 0.
Proof. intros H. apply Rmult_integral in H as [H|H]; auto. apply Rmult_integral in H as [H|H]; auto. Qed.

Lemma cubic_unique a b c a' b' c' :
  (forall l, (l - a) * (l - b) * (l - c) = (l - a') * (l - b') * (l - c')) ->
  a <= b <= c -> a' <= b' <= c' -> a = a' /\ b = b' /\ c = c'.
Proof.
  intros H A B.
  pose proof (H a) as Ha. pose proof (H c) as Hc. pose proof (H a') as Ha'. pose proof (H c') as Hc'.
  replace ((a - a) * (a - b) * (a - c)) with 0 in Ha by ring.
  replace ((c - a) * (c - b) * (c - c)) with 0 in Hc by ring.
  replace ((a' - a') * (a' - b') * (a' - c')) with 0 in Ha' by ring.
  replace ((c' - a') * (c' - b') * (c' - c')) with 0 in Hc' by ring.
  symmetry in Ha, Hc. apply product_zero in Ha, Hc, Ha', Hc'.
  assert (a = a') by (destruct Ha as [|[|]], Ha' as [|[|]]; lra).
  assert (c = c') by (destruct Hc as [|[|]], Hc' as [|[|]]; lra).
  pose proof (H 0) as K0. pose proof (H 1) as K1. pose proof (H (-1)) as K2.
  repeat split; auto. subst. ring_simplify in K0. ring_simplify in K1. ring_simplify in K2. lra.
Qed.

Lemma eigen_sums t a b c : eigenvalues t (a, b, c) ->
  a + b + c = m00 t + m11 t + m22 t /\
  a * b + b * c + a * c = (m00 t * m11 t - m01 t * m10 t) + (m11 t * m22 t - m12 t * m21 t) + (m00 t * m22 t - m02 t * m20 t).
Proof.
  unfold eigenvalues, det, shifted. cbn. intros H.
  pose proof (H 0) as H0. pose proof (H 1) as H1. pose proof (H (-1)) as H2.
  split; lra.
Qed.

Lemma mat_zero t : m00 t = 0 -> m01 t = 0 -> m02 t = 0 -> m10 t = 0 -> m11 t = 0 -> m12 t = 0 ->
  m20 t = 0 -> m21 t = 0 -> m22 t = 0 -> t = zero_mat.
Proof. destruct t; cbn; intros; subst; reflexivity. Qed.

Lemma sqr_zero x : x * x = 0 -> x = 0.
Proof. intros H. apply Rmult_integral in H as []; auto. Qed.

Lemma eigen_zero t : symmetric t -> eigenvalues t (0, 0, 0) -> t = zero_mat.
Proof.
  intros [S1 [S2 S3]] H. apply eigen_sums in H as [T M].
  rewrite <- S1, <- S2, <- S3 in M.
  assert (E : m00 t * m00 t + m11 t * m11 t + m22 t * m22 t + 2 * (m01 t * m01 t) + 2 * (m02 t * m02 t) + 2 * (m12 t * m12 t) = 0).
  { replace (m00 t * m00 t + m11 t * m11 t + m22 t * m22 t) with
      ((m00 t + m11 t + m22 t) * (m00 t + m11 t + m22 t) - 2 * (m00 t * m11 t + m11 t * m22 t + m00 t * m22 t)) by ring.
    rewrite <- T. lra. }
  pose proof (Rle_0_sqr (m00 t)). pose proof (Rle_0_sqr (m11 t)). pose proof (Rle_0_sqr (m22 t)).
  pose proof (Rle_0_sqr (m01 t)). pose proof (Rle_0_sqr (m02 t)). pose proof (Rle_0_sqr (m12 t)).
  unfold Rsqr in *.
  apply mat_zero; try rewrite <- S1; try rewrite <- S2; try rewrite <- S3; apply sqr_zero; lra.
Qed.

(** * Sorting by magnitude *)
Ltac abs_cases := unfold Rabs in *; repeat match goal with
  | |- context [Rcase_abs ?x] => destruct (Rcase_abs x)
  | H : context [Rcase_abs ?x] |- _ => destruct (Rcase_abs x)
  end.

Lemma sort_abs3 a b c : exists e0 e1 e2, sort_abs [a; b; c] = [e0; e1; e2] /\
  Rabs e0 <= Rabs e1 <= Rabs e2 /\
  ((e0 = a /\ e1 = b /\ e2 = c) \/ (e0 = a /\ e1 = c /\ e2 = b) \/ (e0 = b /\ e1 = a /\ e2 = c) \/
   (e0 = b /\ e1 = c /\ e2 = a) \/ (e0 = c /\ e1 = a /\ e2 = b) \/ (e0 = c /\ e1 = b /\ e2 = a)).
Proof.
  unfold sort_abs. cbn [fold_left insert_abs].
  destruct (Rlt_dec (Rabs b) (Rabs a)); cbn [insert_abs];
  repeat (match goal with |- context [Rlt_dec ?x ?y] => destruct (Rlt_dec x y) end; cbn [insert_abs]);
  do 3 eexists; (split; [reflexivity|]); (split; [lra|tauto]).
Qed.

Lemma eta_range e0 e1 e2 : e0 + e1 + e2 = 0 -> Rabs e0 <= Rabs e1 <= Rabs e2 -> e2 <> 0 ->
  0 <= (e0 - e1) / e2 <= 1.
Proof.
  intros S A N. destruct (Rlt_dec 0 e2) as [P|P].
  - assert (0 <= e0 - e1 <= e2) as [L U] by (abs_cases; lra).
    split. apply Rmult_le_pos; [lra | left; apply Rinv_0_lt_compat; lra].
    apply Rmult_le_reg_r with e2; [lra|]. unfold Rdiv. rewrite Rmult_assoc, Rinv_l; lra.
  - assert (e2 < 0) by lra. assert (e2 <= e0 - e1 <= 0) as [L U] by (abs_cases; lra).
    replace ((e0 - e1) / e2) with ((- (e0 - e1)) / (- e2)) by (field; lra).
    split. apply Rmult_le_pos; [lra | left; apply Rinv_0_lt_compat; lra].
    apply Rmult_le_reg_r with (- e2); [lra|]. unfold Rdiv. rewrite Rmult_assoc, Rinv_l; lra.
Qed.

Section Eig.
Variable eig : mat -> R * R * R.

Lemma haeberlen_sorted t a b c : eig t = (a, b, c) ->
  exists e0 e1 e2, haeberlen eig t = (e2, divide (e0 - e1) e2) /\
  Rabs e0 <= Rabs e1 <= Rabs e2 /\ e0 + e1 + e2 = a + b + c /\
  (forall l, (l - e0) * (l - e1) * (l - e2) = (l - a) * (l - b) * (l - c)).
Proof.
  intros E. unfold haeberlen. rewrite E.
  destruct (sort_abs3 a b c) as [e0 [e1 [e2 [S [O P]]]]]. rewrite S.
  exists e0, e1, e2. split; [reflexivity|]. split; [exact O|].
  repeat (destruct P as [[? [? ?]]|P]; [subst; split; [ring | intros; ring]|]).
  destruct P as [? [? ?]]; subst; split; [ring | intros; ring].
Qed.

Lemma haeberlen_convention_ok t : symmetric t -> traceless t -> t <> zero_mat -> ascending_eigenvalues eig t ->
  exists zeta eta, haeberlen eig t = (zeta, Some eta) /\ zeta <> 0 /\ 0 <= eta <= 1 /\
    haeberlen_convention t zeta eta /\ eigenvalues t (get_principal_components zeta eta).
Proof.
  intros Sy Tr Nz [Ei As]. destruct (eig t) as [[a b] c] eqn:E.
  destruct (haeberlen_sorted t a b c E) as [e0 [e1 [e2 [H [O [S P]]]]]].
  assert (Ei' : eigenvalues t (e1, e0, e2)).
  { intros l. specialize (Ei l). cbn in Ei. rewrite Ei, <- P. ring. }
  assert (T : e0 + e1 + e2 = 0).
  { apply eigen_sums in Ei as [Q _]. unfold traceless in Tr. lra. }
  assert (N : e2 <> 0).
  { intros Z. apply Nz. apply eigen_zero; auto.
    assert (e1 = 0) by (subst; abs_cases; lra). assert (e0 = 0) by (subst; abs_cases; lra). subst. exact Ei'. }
  pose proof (eta_range e0 e1 e2 T O N) as R.
  exists e2, ((e0 - e1) / e2). rewrite H. unfold divide. destruct (Req_EM_T e2 0); [contradiction|].
  split; [reflexivity|]. split; [exact N|]. split; [exact R|]. split.
  - exists e1, e0. split; [exact Ei'|]. split; [tauto|]. field; auto.
  - unfold get_principal_components. intros l. rewrite (Ei' l).
    set (eta := (e0 - e1) / e2). assert (Q : eta * e2 = e0 - e1) by (unfold eta; field; auto).
    replace (-0.5 * e2 * (eta + 1)) with e1 by lra.
    replace (0.5 * e2 * (eta - 1)) with e0 by lra. reflexivity.
Qed.

Lemma haeberlen_parameters t zeta eta : ascending_eigenvalues eig t -> eigenvalues t (get_principal_components zeta eta) ->
  zeta <> 0 -> 0 <= eta <= 1 -> eta < 1 \/ 0 < zeta -> haeberlen eig t = (zeta, Some eta).
Proof.
  intros [Ei As] Pc Nz Re Tie. destruct (eig t) as [[a b] c] eqn:E.
  unfold get_principal_components in Pc. set (xx := -0.5 * zeta * (eta + 1)) in *. set (yy := 0.5 * zeta * (eta - 1)) in *.
  assert (Q : forall l, (l - a) * (l - b) * (l - c) = (l - xx) * (l - yy) * (l - zeta)).
  { intros l. rewrite <- (Ei l), <- (Pc l). reflexivity. }
  unfold haeberlen. rewrite E. unfold sort_abs. cbn [fold_left insert_abs].
  assert (Xz : xx = - (zeta * (1 + eta)) / 2) by (unfold xx; lra).
  assert (Yz : yy = - (zeta * (1 - eta)) / 2) by (unfold yy; lra).
  destruct (Rlt_dec 0 zeta) as [P|P].
  - assert (0 <= zeta * eta <= zeta) as [L1 L2] by (split; [apply Rmult_le_pos; lra | rewrite <- (Rmult_1_r zeta) at 2; apply Rmult_le_compat_l; lra]).
    destruct (cubic_unique a b c xx yy zeta) as [-> [-> ->]]; auto; [lra|].
    assert (Ax : Rabs xx = (zeta + zeta * eta) / 2) by (rewrite Rabs_left; lra).
    assert (Ay : Rabs yy = (zeta - zeta * eta) / 2) by (rewrite Rabs_left1; lra).
    assert (Az : Rabs zeta = zeta) by (apply Rabs_pos_eq; lra).
    assert (D : divide (yy - xx) zeta = Some eta).
    { unfold divide. destruct (Req_EM_T zeta 0); [lra|]. f_equal. rewrite Xz, Yz. field. lra. }
    destruct (Rlt_dec (Rabs yy) (Rabs xx)) as [Q1|Q1]; cbn [insert_abs].
    + destruct (Rlt_dec (Rabs zeta) (Rabs yy)); [lra|]. cbn [insert_abs].
      destruct (Rlt_dec (Rabs zeta) (Rabs xx)); [lra|]. cbn [insert_abs]. now rewrite D.
    + assert (zeta * eta = 0) by lra. assert (eta = 0) by (apply Rmult_integral in H as []; lra).
      destruct (Rlt_dec (Rabs zeta) (Rabs xx)); [lra|]. cbn [insert_abs].
      destruct (Rlt_dec (Rabs zeta) (Rabs yy)); [lra|]. cbn [insert_abs].
      replace (xx - yy) with (yy - xx) by lra. now rewrite D.
  - assert (N : zeta < 0) by lra. assert (e1 : eta < 1) by lra.
    assert (L1 : zeta < zeta * eta) by (rewrite <- (Rmult_1_r zeta) at 1; apply Rmult_lt_gt_compat_neg_l; lra).
    assert (L2 : zeta * eta <= 0) by (rewrite <- (Rmult_0_r zeta); apply Rmult_le_compat_neg_l; lra).
    destruct (cubic_unique a b c zeta yy xx) as [-> [-> ->]]; auto; [intros l; rewrite Q; ring | lra|].
    assert (Ax : Rabs xx = - (zeta + zeta * eta) / 2) by (rewrite Rabs_pos_eq; lra).
    assert (Ay : Rabs yy = - (zeta - zeta * eta) / 2) by (rewrite Rabs_pos_eq; lra).
    assert (Az : Rabs zeta = - zeta) by (apply Rabs_left; lra).
    assert (D : divide (yy - xx) zeta = Some eta).
    { unfold divide. destruct (Req_EM_T zeta 0); [lra|]. f_equal. rewrite Xz, Yz. field. lra. }
    destruct (Rlt_dec (Rabs yy) (Rabs zeta)); [|lra]. cbn [insert_abs].
    destruct (Rlt_dec (Rabs xx) (Rabs yy)); [lra|]. cbn [insert_abs].
    destruct (Rlt_dec (Rabs xx) (Rabs zeta)); [|lra]. now rewrite D.
Qed.

(** At eta = 1 the two largest components have equal magnitude. *)
Lemma haeberlen_tie t zeta : ascending_eigenvalues eig t -> eigenvalues t (get_principal_components zeta 1) ->
  zeta < 0 -> haeberlen eig t = (- zeta, Some 1).
Proof.
  intros A P N. apply haeberlen_parameters; auto; try lra.
  unfold get_principal_components, eigenvalues in *. intros l. rewrite (P l).
  replace (-0.5 * - zeta * (1 + 1)) with zeta by lra. replace (-0.5 * zeta * (1 + 1)) with (- zeta) by lra.
  replace (0.5 * - zeta * (1 - 1)) with 0 by lra. replace (0.5 * zeta * (1 - 1)) with 0 by lra. ring.
Qed.

Lemma haeberlen_zero : ascending_eigenvalues eig zero_mat -> haeberlen eig zero_mat = (0, None).
Proof.
  intros [Ei As]. destruct (eig zero_mat) as [[a b] c] eqn:E.
  destruct (cubic_unique a b c 0 0 0) as [-> [-> ->]]; auto; [|lra|].
  - intros l. rewrite <- (Ei l). unfold det, shifted, zero_mat; cbn. ring.
  - unfold haeberlen. rewrite E. unfold sort_abs. cbn [fold_left insert_abs].
    rewrite Rabs_R0. destruct (Rlt_dec 0 0); [lra|]. cbn [insert_abs].
    rewrite Rabs_R0. destruct (Rlt_dec 0 0); [lra|]. cbn [insert_abs].
    destruct (Rlt_dec 0 0); [lra|]. unfold divide. destruct (Req_EM_T 0 0); [reflexivity | lra].
Qed.

(** * The random tensors *)
Lemma czjzek_documented sigma d : czjzek_tensor sigma d = documented_tensor sigma d.
Proof. unfold czjzek_tensor, documented_tensor. f_equal; ring. Qed.
Lemma documented_symmetric sigma d : symmetric (documented_tensor sigma d).
Proof. repeat split. Qed.
Lemma documented_traceless sigma d : traceless (documented_tensor sigma d).
Proof. unfold traceless, documented_tensor; cbn. ring. Qed.

Lemma norm_components zeta eta : norm3 (get_principal_components zeta eta) = tensor_norm zeta eta.
Proof.
  unfold norm3, get_principal_components, tensor_norm.
  replace (_ + _ + _) with (zeta * zeta * ((3 + eta * eta) / 2)).
  - rewrite sqrt_mult; [|apply Rle_0_sqr | pose proof (Rle_0_sqr eta); unfold Rsqr in *; lra].
    now rewrite <- (sqrt_Rsqr_abs zeta).
  - replace (-0.5 * zeta * (eta + 1)) with (- (zeta * (eta + 1)) / 2) by lra.
    replace (0.5 * zeta * (eta - 1)) with (zeta * (eta - 1) / 2) by lra. field.
Qed.

Lemma ext_tensor_perturbed eps zeta eta d : ext_tensor eps (get_principal_components zeta eta) d = perturbed zeta eta eps d.
Proof.
  unfold ext_tensor, perturbed. rewrite norm_components, czjzek_documented.
  unfold add_diag, get_principal_components, mat_add, diagonal, mat_scale. cbn. f_equal; lra.
Qed.
Lemma perturbed_symmetric zeta eta eps d : symmetric (perturbed zeta eta eps d).
Proof. repeat split. Qed.
Lemma perturbed_traceless zeta eta eps d : traceless (perturbed zeta eta eps d).
Proof.
  pose proof (documented_traceless 1 d) as T. unfold traceless, perturbed, mat_add, diagonal, mat_scale in *. cbn [m00 m11 m22] in *.
  set (r := eps * tensor_norm zeta eta / sqrt 30). 
  replace (_ + _ + _) with (r * (m00 (documented_tensor 1 d) + m11 (documented_tensor 1 d) + m22 (documented_tensor 1 d))) by field.
  rewrite T. ring.
Qed.

Lemma dominant_ok st zeta eta : py_or (st_zeta st) (st_Cq st) = Some zeta -> st_eta st = Some eta -> zeta <> 0 -> eta <> 0 ->
  dominant st = Ok (get_principal_components zeta eta).
Proof.
  intros H1 H2 N1 N2. unfold dominant. rewrite H1, H2. cbn.
  destruct (Req_EM_T zeta 0); [contradiction|]. destruct (Req_EM_T eta 0); [contradiction|]. reflexivity.
Qed.
Lemma dominant_axial st : st_eta st = Some 0 -> dominant st = Ok (0, 0, 0).
Proof.
  intros H. unfold dominant. rewrite H. cbn. destruct (Req_EM_T 0 0); [|lra]. now rewrite andb_false_r.
Qed.
Lemma ext_zero eps d : ext_tensor eps (0, 0, 0) d = zero_mat.
Proof.
  unfold ext_tensor, norm3, add_diag. replace (0 * 0 + 0 * 0 + 0 * 0) with 0 by ring. rewrite sqrt_0.
  apply mat_zero; cbn; unfold Rdiv; ring.
Qed.
End Eig.

(** * Polar coordinates *)
Lemma pi_close : 3.14159265357 < PI < 3.1415926536.
Proof.
  pose proof (PI_2_3_7_ineq 7) as [L U].
  cbn [sum_f_R0 Nat.mul Nat.add] in L, U. unfold tg_alt, PI_2_3_7_tg, Ratan_seq in L, U.
  cbn [pow Nat.mul Nat.add INR] in L, U. lra.
Qed.

Lemma polar_norm zeta eta : 0 <= eta <= 1 -> let '(x, y) := x_y_from_zeta_eta zeta eta in
  0 <= x /\ 0 <= y /\ x * x + y * y = zeta * zeta.
Proof.
  intros E. unfold x_y_from_zeta_eta. set (t := tan _).
  assert (0 <= t).
  { unfold t. pose proof pi_close. destruct (Req_dec eta 0) as [->|].
    rewrite Rmult_0_r, tan_0; lra. left. apply tan_gt_0; lra. }
  assert (P : 0 < t * t + 1) by (pose proof (Rle_0_sqr t); unfold Rsqr in *; lra).
  set (s := sqrt (zeta * zeta / (t * t + 1))). assert (0 <= s) by apply sqrt_pos.
  assert (Q : s * s = zeta * zeta / (t * t + 1)).
  { apply sqrt_sqrt. apply Rmult_le_pos; [apply Rle_0_sqr | left; now apply Rinv_0_lt_compat]. }
  assert (Q' : s * s * (t * t + 1) = zeta * zeta) by (rewrite Q; field; lra).
  destruct (Rle_dec 0 zeta); (split; [|split]); auto; try (apply Rmult_le_pos; auto); rewrite <- Q'; ring.
Qed.

Lemma polar_pos zeta eta : zeta <> 0 -> 0 < sqrt (zeta * zeta / (tan (0.7853981634 * eta) * tan (0.7853981634 * eta) + 1)).
Proof.
  intros N. set (t := tan _). apply sqrt_lt_R0.
  assert (P : 0 < t * t + 1) by (pose proof (Rle_0_sqr t); unfold Rsqr in *; lra).
  apply Rmult_lt_0_compat; [|now apply Rinv_0_lt_compat]. pose proof (Rsqr_pos_lt zeta N). exact H.
Qed.

Lemma polar_back zeta eta : zeta <> 0 -> 0 <= eta <= 1 - 0.00000000001 ->
  let '(x, y) := x_y_from_zeta_eta zeta eta in
  x_y_to_zeta_eta x y = (zeta, 4 * 0.7853981634 / PI * eta).
Proof.
  intros N E. pose proof pi_close as Pi.
  assert (A : 0 <= 0.7853981634 * eta < PI / 4) by lra.
  set (a := 0.7853981634 * eta) in *.
  assert (T : 0 <= tan a < 1).
  { split. destruct (Req_dec a 0) as [->|]; [rewrite tan_0; lra | left; apply tan_gt_0; lra].
    rewrite <- tan_PI4. apply tan_increasing; lra. }
  assert (AT : atan (tan a) = a).
  { apply tan_is_inj; [apply atan_bound | lra | apply atan_right_inv]. }
  assert (F : 4 / PI * a = 4 * 0.7853981634 / PI * eta) by (unfold a; field; lra).
  pose proof (polar_pos zeta eta N) as S. fold a in S.
  assert (E2 : 0 <= eta <= 1) by lra.
  pose proof (polar_norm zeta eta E2) as PN. unfold x_y_from_zeta_eta in *. fold a in PN. fold a.
  set (s := sqrt (zeta * zeta / (tan a * tan a + 1))) in *.
  assert (TS : tan a * s < s) by (rewrite <- (Rmult_1_l s) at 2; apply Rmult_lt_compat_r; lra).
  destruct (Rle_dec 0 zeta) as [Z|Z]; destruct PN as [Px [Py Q]]; unfold x_y_to_zeta_eta;
    rewrite (Rabs_pos_eq (tan a * s)), (Rabs_pos_eq s) by auto.
  - destruct (Rlt_dec s (tan a * s)); [lra|]. destruct (Rlt_dec (tan a * s) s); [|lra].
    rewrite Q, <- F. f_equal. apply sqrt_square; auto.
    replace (tan a * s / s) with (tan a) by (field; lra). now rewrite AT.
  - destruct (Rlt_dec (tan a * s) s); [|lra]. rewrite Q, <- F. f_equal.
    replace (zeta * zeta) with ((- zeta) * (- zeta)) by ring. rewrite sqrt_square by lra. ring.
    replace (tan a * s / s) with (tan a) by (field; lra). now rewrite AT.
Qed.

Lemma polar_factor eta : 0 <= eta <= 1 -> Rabs (4 * 0.7853981634 / PI * eta - eta) <= 0.00000000001.
Proof.
  intros E. pose proof pi_close as Pi.
  replace (4 * 0.7853981634 / PI * eta - eta) with ((4 * 0.7853981634 - PI) / PI * eta) by (field; lra).
  assert (0 <= (4 * 0.7853981634 - PI) / PI <= 0.00000000001) as [L U].
  { split. apply Rmult_le_pos; [lra | left; apply Rinv_0_lt_compat; lra].
    apply Rmult_le_reg_r with PI; [lra|]. unfold Rdiv. rewrite Rmult_assoc, Rinv_l by lra. lra. }
  rewrite Rabs_pos_eq by (apply Rmult_le_pos; lra).
  rewrite <- (Rmult_1_r 0.00000000001). apply Rmult_le_compat; lra.
Qed.

Lemma polar_flip zeta : 0 < zeta -> let '(x, y) := x_y_from_zeta_eta zeta 1 in
  fst (x_y_to_zeta_eta x y) = - zeta.
Proof.
  intros Z. pose proof pi_close as Pi. assert (T : 1 < tan (0.7853981634 * 1)).
  { rewrite Rmult_1_r. rewrite <- tan_PI4. apply tan_increasing; lra. }
  assert (E : 0 <= 1 <= 1) by lra. pose proof (polar_norm zeta 1 E) as PN.
  assert (N : zeta <> 0) by lra. pose proof (polar_pos zeta 1 N) as S.
  unfold x_y_from_zeta_eta in *. set (t := tan (0.7853981634 * 1)) in *. set (s := sqrt (zeta * zeta / (t * t + 1))) in *.
  destruct (Rle_dec 0 zeta); [|lra]. destruct PN as [Px [Py Q]]. unfold x_y_to_zeta_eta.
  rewrite (Rabs_pos_eq (t * s)), (Rabs_pos_eq s) by auto.
  destruct (Rlt_dec s (t * s)) as [_|B]; [|exfalso; apply B; rewrite <- (Rmult_1_l s) at 1; apply Rmult_lt_compat_r; lra].
  cbn. rewrite Q, sqrt_square by lra. reflexivity.
Qed.

(** * Histograms *)
Definition b2r (b : bool) : R := if b then 1 else 0.

Lemma sum_app l1 l2 : sum (l1 ++ l2) = sum l1 + sum l2.
Proof. induction l1; unfold sum in *; cbn [app map fold_right]; [ring|]. rewrite IHl1. ring. Qed.
Lemma sum_map_plus {A} (f g : A -> R) l : sum (map (fun x => f x + g x) l) = sum (map f l) + sum (map g l).
Proof. induction l; unfold sum in *; cbn [app map fold_right]; [ring|]. rewrite IHl. ring. Qed.
Lemma sum_map_scale {A} c (f : A -> R) l : sum (map (fun x => c * f x) l) = c * sum (map f l).
Proof. induction l; unfold sum in *; cbn [app map fold_right]; [ring|]. rewrite IHl. ring. Qed.
Lemma sum_map_zero {A} (l : list A) : sum (map (fun _ => 0) l) = 0.
Proof. induction l; unfold sum in *; cbn [app map fold_right]; [ring|]. rewrite IHl. ring. Qed.
Lemma sum_ext {A} (f g : A -> R) l : (forall x, In x l -> f x = g x) -> sum (map f l) = sum (map g l).
Proof. intros H. f_equal. apply map_ext_in. exact H. Qed.
Lemma sum_nonneg l : (forall x, In x l -> 0 <= x) -> 0 <= sum l.
Proof. induction l; cbn; intros H; [lra|]. pose proof (H a (or_introl eq_refl)). assert (0 <= sum l) by auto. unfold sum in *. lra. Qed.

Lemma edge_step lo hi n k : lo < hi -> (0 < n)%nat -> edge lo hi n k < edge lo hi n (S k).
Proof.
  intros H N. unfold edge. rewrite S_INR. assert (0 < INR n) by (apply lt_0_INR; lia).
  assert (0 < (hi - lo) / INR n) by (apply Rmult_lt_0_compat; [lra | now apply Rinv_0_lt_compat]).
  unfold Rdiv in *. lra.
Qed.
Lemma edge_mono lo hi n j k : lo < hi -> (0 < n)%nat -> (j <= k)%nat -> edge lo hi n j <= edge lo hi n k.
Proof.
  intros H N. induction 1; [lra|]. pose proof (edge_step lo hi n m H N). lra.
Qed.
Lemma edge_0 lo hi n : edge lo hi n 0 = lo.
Proof. unfold edge. cbn. unfold Rdiv. ring. Qed.
Lemma edge_n lo hi n : (0 < n)%nat -> edge lo hi n n = hi.
Proof. intros N. unfold edge. field. apply not_0_INR. lia. Qed.

Definition within (lo hi v : R) : bool :=
  if Rle_dec lo v then if Rle_dec v hi then true else false else false.

Lemma bins_prefix lo hi n v m : lo < hi -> (m < n)%nat ->
  sum (map (fun k => b2r (in_bin lo hi n k v)) (seq 0 m)) =
  if Rle_dec lo v then if Rlt_dec v (edge lo hi n m) then 1 else 0 else 0.
Proof.
  intros H. induction m; intros N.
  - cbn. rewrite edge_0. destruct (Rle_dec lo v); auto. destruct (Rlt_dec v lo); auto. lra.
  - rewrite seq_S, map_app, sum_app, IHm by lia. cbn [map sum fold_right Nat.add]. unfold in_bin.
    assert (N' : (0 < n)%nat) by lia.
    pose proof (edge_step lo hi n m H N'). pose proof (edge_mono lo hi n 0 m H N' ltac:(lia)) as M. rewrite edge_0 in M.
    replace (Nat.eqb (S m) n) with false by (symmetry; apply Nat.eqb_neq; lia).
    destruct (Rle_dec lo v), (Rlt_dec v (edge lo hi n m)), (Rle_dec (edge lo hi n m) v), (Rlt_dec v (edge lo hi n (S m))); cbn; lra.
Qed.

Lemma bins_sum lo hi n v : lo < hi -> (0 < n)%nat ->
  sum (map (fun k => b2r (in_bin lo hi n k v)) (seq 0 n)) = b2r (within lo hi v).
Proof.
  intros H N. destruct n as [|m]; [lia|]. rewrite seq_S, map_app, sum_app, bins_prefix by (auto; lia).
  cbn [map sum fold_right Nat.add]. unfold in_bin, within. rewrite Nat.eqb_refl.
  pose proof (edge_n lo hi (S m) N) as E. rewrite E.
  pose proof (edge_step lo hi (S m) m H N) as S1. rewrite E in S1.
  pose proof (edge_mono lo hi (S m) 0 m H N ltac:(lia)) as M. rewrite edge_0 in M.
  destruct (Rle_dec lo v), (Rlt_dec v (edge lo hi (S m) m)), (Rle_dec (edge lo hi (S m) m) v), (Rlt_dec v hi), (Req_EM_T v hi), (Rle_dec v hi); cbn; lra.
Qed.

Lemma count_cons {A} (p : A -> bool) x l : INR (count_if p (x :: l)) = b2r (p x) + INR (count_if p l).
Proof. unfold count_if. cbn [filter]. destruct (p x); cbn [length b2r]; [rewrite S_INR|]; ring. Qed.
Lemma count_nil {A} (p : A -> bool) : INR (count_if p []) = 0.
Proof. reflexivity. Qed.
Lemma b2r_and a b : b2r (a && b) = b2r a * b2r b.
Proof. destruct a, b; cbn; ring. Qed.

Section Hist.
Variables xlo xhi ylo yhi : R.
Variables nx ny : nat.
Hypothesis Hx : xlo < xhi.
Hypothesis Hy : ylo < yhi.
Hypothesis Nx : (0 < nx)%nat.
Hypothesis Ny : (0 < ny)%nat.
Definition cell_count (samples : list (R * R)) i j : R :=
  INR (count_if (fun s => andb (in_bin xlo xhi nx i (fst s)) (in_bin ylo yhi ny j (snd s))) samples).
Definition inside (s : R * R) : bool := andb (within xlo xhi (fst s)) (within ylo yhi (snd s)).

Lemma total_count samples :
  sum (map (fun i => sum (map (cell_count samples i) (seq 0 ny))) (seq 0 nx)) = INR (count_if inside samples).
Proof.
  induction samples as [|s l IH].
  - rewrite count_nil. rewrite (sum_ext _ (fun _ => 0)); [apply sum_map_zero|].
    intros i _. rewrite (sum_ext _ (fun _ => 0)); [apply sum_map_zero|]. reflexivity.
  - rewrite count_cons, <- IH. unfold inside. rewrite b2r_and, <- (bins_sum xlo xhi nx (fst s)), <- (bins_sum ylo yhi ny (snd s)) by auto.
    rewrite (Rmult_comm (sum _) (sum (map _ (seq 0 ny)))), <- sum_map_scale, <- sum_map_plus. apply sum_ext. intros i _.
    rewrite Rmult_comm, <- sum_map_scale, <- sum_map_plus. apply sum_ext. intros j _.
    unfold cell_count. rewrite count_cons, b2r_and. reflexivity.
Qed.
End Hist.

Lemma sum_swap {A B} (f : A -> B -> R) la lb :
  sum (map (fun a => sum (map (f a) lb)) la) = sum (map (fun b => sum (map (fun a => f a b) la)) lb).
Proof.
  induction la as [|a la IH]; cbn [map].
  - cbn. induction lb; cbn; auto. unfold sum in *. rewrite <- IHlb. ring.
  - change (sum (map (f a) lb) + sum (map (fun a => sum (map (f a) lb)) la) = sum (map (fun b => f a b + sum (map (fun a => f a b) la)) lb)).
    rewrite IH, <- sum_map_plus. reflexivity.
Qed.

Lemma pdf_ok pos0 pos1 samples xlo xhi ylo yhi :
  axis_range pos0 = Ok (xlo, xhi) -> axis_range pos1 = Ok (ylo, yhi) -> xlo < xhi -> ylo < yhi ->
  pdf pos0 pos1 samples = Ok (map (fun j => map (fun i =>
     divide (cell_count xlo xhi ylo yhi (length pos0) (length pos1) samples i j)
            (INR (count_if (inside xlo xhi ylo yhi) samples))) (seq 0 (length pos0))) (seq 0 (length pos1))).
Proof.
  intros A0 A1 Hx Hy. unfold pdf. rewrite A0. cbn [bind]. rewrite A1. cbn [bind].
  assert (Nx : (0 < length pos0)%nat) by (destruct pos0; [discriminate | cbn; lia]).
  assert (Ny : (0 < length pos1)%nat) by (destruct pos1; [discriminate | cbn; lia]).
  pose proof (total_count xlo xhi ylo yhi _ _ Hx Hy Nx Ny samples) as T. unfold sum in T. fold (cell_count xlo xhi ylo yhi (length pos0) (length pos1) samples).
  rewrite <- T. reflexivity.
Qed.

(** Bins of a uniform grid are centred on the grid points. *)
Lemma uniform_last p0 step n : last (uniform p0 step (S n)) 0 = p0 + INR n * step.
Proof. unfold uniform. rewrite seq_S, map_app. cbn [map Nat.add]. now rewrite last_last. Qed.
Lemma uniform_range p0 step n : (2 <= n)%nat ->
  axis_range (uniform p0 step n) = Ok (p0 - step / 2, p0 + INR n * step - step / 2).
Proof.
  intros N. destruct n as [|[|n]]; try lia. pose proof (uniform_last p0 step (S n)) as L.
  unfold axis_range. destruct (uniform p0 step (S (S n))) as [|a [|b r]] eqn:E; try discriminate.
  cbn [bind]. unfold uniform in E. cbn [seq map] in E. apply f_equal with (f := fun l => (nth 0 l 0, nth 1 l 0)) in E. cbn [nth INR] in E.
  apply pair_equal_spec in E as [<- <-]. f_equal. apply pair_equal_spec. split; [lra|]. rewrite L. rewrite !S_INR. lra.
Qed.
Lemma uniform_length p0 step n : length (uniform p0 step n) = n.
Proof. unfold uniform. now rewrite map_length, seq_length. Qed.
Lemma uniform_edge p0 step n k : (0 < n)%nat ->
  edge (p0 - step / 2) (p0 + INR n * step - step / 2) n k = p0 + INR k * step - step / 2.
Proof. intros N. unfold edge. field. apply not_0_INR. lia. Qed.
Lemma uniform_bin p0 step n k v : (0 < n)%nat -> 0 < step ->
  in_bin (p0 - step / 2) (p0 + INR n * step - step / 2) n k v = true <->
  in_cell (p0 + INR k * step) step v \/ (S k = n /\ v = p0 + INR k * step + step / 2).
Proof.
  intros N St. unfold in_bin, in_cell. rewrite !uniform_edge by auto. rewrite S_INR.
  set (c := p0 + INR k * step). replace (p0 + (INR k + 1) * step - step / 2) with (c + step / 2) by (unfold c; lra).
  destruct (Rle_dec (c - step / 2) v) as [L|L].
  2: { split; [discriminate | intros [?|[? ?]]; lra]. }
  destruct (Rlt_dec v (c + step / 2)) as [U|U]. { split; auto; lra. }
  destruct (Nat.eqb (S k) n) eqn:E.
  - apply Nat.eqb_eq in E. subst n. rewrite S_INR.
    replace (p0 + (INR k + 1) * step - step / 2) with (c + step / 2) by (unfold c; lra).
    destruct (Req_EM_T v (c + step / 2)); split; auto; try discriminate. intros [?|[? ?]]; lra.
  - apply Nat.eqb_neq in E. split; [discriminate | intros [?|[? ?]]; [lra | congruence]].
Qed.
Lemma within_iff lo hi v : within lo hi v = true <-> lo <= v <= hi.
Proof. unfold within. destruct (Rle_dec lo v), (Rle_dec v hi); split; intros; try discriminate; try lra; auto. Qed.
Lemma count_ext {A} (p q : A -> bool) l : (forall x, p x = true <-> q x = true) -> count_if p l = count_if q l.
Proof.
  intros H. unfold count_if. f_equal. apply filter_ext. intros x. specialize (H x).
  destruct (p x), (q x); auto; [symmetry|]; apply H; auto.
Qed.
Lemma count_pos {A} (p : A -> bool) l x : In x l -> p x = true -> 0 < INR (count_if p l).
Proof.
  intros I P. apply lt_0_INR. unfold count_if. assert (F : In x (filter p l)) by (apply filter_In; auto).
  destruct (filter p l); [destruct F | cbn; lia].
Qed.
