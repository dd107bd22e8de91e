(** Proofs about the shears of the MQ-VAS and ST-VAS methods. *)
From Coq Require Import Reals Lra Lia List ZArith QArith Qreals Qcanon String.
From Coquelicot Require Import Complex.
From Verif Require Import Base DftModel DftProofs WignerModel WignerSpec WignerProofs FreqModel FreqSpec FreqProofs CoreProofs FreqConst PathwayModel MethodsModel.
Import ListNotations.
Open Scope R_scope.

(** The real number of a rational of the Python layer. *)
Definition QR (q : Qc) : R := Q2R (this q).
(** Frequency along the first dimension, weights w0 and w1, of the fourth-rank second-order quadrupolar contribution of site s, for
    the transition m -> m' in the first event and the central transition in the second. *)
Definition sheared (f : fconst) (w0 w1 B0 : R) (s : site) (m m' alpha : R) (e_beta : C) (angle : R) : R :=
  w0 * anisotropic true (contribution f B0 s m m' Quad2_4) alpha e_beta angle +
  w1 * anisotropic true (contribution f B0 s (1 / 2) (- (1 / 2)) Quad2_4) alpha e_beta angle.

Lemma nth_vscale t v i : nth i (vscale t v) (RtoC 0) = (RtoC t * nth i v (RtoC 0))%C.
Proof.
  revert i. induction v as [|x v IH]; intros [|i]; cbn [vscale map nth]; try (apply C_ext; cbn; ring). apply IH.
Qed.
Lemma csum_scale n t g : csum n (fun i => RtoC t * g i)%C = (RtoC t * csum n g)%C.
Proof. induction n; cbn [csum]; [apply C_ext; cbn; ring|]. rewrite IHn. ring. Qed.
Lemma vscale_map t v : vscale t v = map (fun z => RtoC t * z)%C v.
Proof. unfold vscale. apply map_ext. intros z. apply C_ext; cbn; ring. Qed.
Lemma scale_vscale l e t v : scale_phases l e (vscale t v) = vscale t (scale_phases l e v).
Proof.
  rewrite (vscale_map t (scale_phases l e v)). unfold scale_phases. rewrite map_map. apply map_ext. intros j. rewrite nth_vscale.
  destruct (j <? l)%nat; [ring|]. destruct (l <? j)%nat; [ring|auto].
Qed.
Lemma mat_vscale r n w t v : mat_vec r n w (vscale t v) = vscale t (mat_vec r n w v).
Proof. rewrite (vscale_map t (mat_vec r n w v)). unfold mat_vec. rewrite map_map. apply map_ext. intros m. rewrite <- csum_scale. apply csum_ext. intros j _. rewrite nth_vscale. ring. Qed.
Lemma rotation_vscale k l a e g t v : rotation k l a e g (vscale t v) = vscale t (rotation k l a e g v).
Proof. unfold rotation. rewrite scale_vscale, mat_vscale, scale_vscale. auto. Qed.
Lemma aniso4 t v a e th : anisotropic true (only4 (vscale t v)) a e th = t * anisotropic true (only4 v) a e th.
Proof.
  unfold anisotropic. cbn [only4 r2 r4]. rewrite rotation_vscale, nth_vscale.
  assert (Z : fst (nth 2 (rotation decimal 2 a e 0 (vzero 5)) (RtoC 0)) = 0).
  { assert (E : vzero 5 = vscale 0 (vzero 5)) by (unfold vzero, vscale; cbn; rewrite !Rmult_0_l; reflexivity).
    rewrite E, rotation_vscale, nth_vscale. cbn. ring. }
  rewrite Z. cbn. ring.
Qed.
(** Both terms are multiples of the same tensor. *)
Lemma sheared_factor f B0 s a e th : exists x, forall w0 w1 m m',
  anisotropic true (contribution f B0 s m m' Quad2_4) a e th = tf_c (c4p f) (c4f f) f (s_spin s) m m' * x /\
  sheared f w0 w1 B0 s m m' a e th = (w0 * tf_c (c4p f) (c4f f) f (s_spin s) m m' + w1 * tf_c (c4p f) (c4f f) f (s_spin s) (1 / 2) (- (1 / 2))) * x.
Proof. eexists. intros v0 v1 n n'. unfold sheared. cbn [contribution]. cbv zeta. rewrite !aniso4. split; [reflexivity|ring]. Qed.
(** The exact constants: c4 is proportional to a polynomial with rational coefficients. *)
Definition c4_poly (I m m' : R) : R := 6 * (I * (I + 1) - 3 / 4) * (m' - m) + 17 * (5 * (m' ^ 3 - m ^ 3) + (1 - 3 * (I * (I + 1))) * (m' - m)).
Lemma c4_ideal I m m' : tf_c (c4p ideal_f) (c4f ideal_f) ideal_f I m m' = c4p ideal_f / 6 * c4_poly I m m'.
Proof.
  assert (E : c4f ideal_f * f_f ideal_f = 17 / 6 * c4p ideal_f).
  { cbn [c4f f_f c4p ideal_f]. assert (S : sqrt (18 / 875) = 6 / sqrt 1750).
    { assert (P : 0 < sqrt 1750) by (apply sqrt_lt_R0; lra). replace (18 / 875) with ((6 / sqrt 1750) * (6 / sqrt 1750)) by (rewrite frac_sq1 by lra; lra).
      apply sqrt_square. apply frac_pos1; lra. }
    rewrite S. assert (T : sqrt 175 * sqrt 10 = sqrt 1750) by (rewrite <- sqrt_mult by lra; f_equal; lra).
    assert (0 < sqrt 175) by (apply sqrt_lt_R0; lra). assert (0 < sqrt 10) by (apply sqrt_lt_R0; lra). rewrite <- T. field. lra. }
  unfold tf_c, tf_f, tf_p, c4_poly. transitivity (c4p ideal_f * (I * (I + 1) - 3 / 4) * (m' - m) + (c4f ideal_f * f_f ideal_f) * (5 * (m' ^ 3 - m ^ 3) + (1 - 3 * (I * (I + 1))) * (m' - m))); [ring|].
  rewrite E. field.
Qed.
Lemma sheared_ideal w0 w1 B0 s m m' a e th : w0 * c4_poly (s_spin s) m m' + w1 * c4_poly (s_spin s) (1 / 2) (- (1 / 2)) = 0 -> sheared ideal_f w0 w1 B0 s m m' a e th = 0.
Proof.
  intros H. destruct (sheared_factor ideal_f B0 s a e th) as [x X]. destruct (X w0 w1 m m') as [_ ->]. rewrite !c4_ideal.
  replace (_ * x) with (c4p ideal_f / 6 * (w0 * c4_poly (s_spin s) m m' + w1 * c4_poly (s_spin s) (1 / 2) (- (1 / 2))) * x) by ring. rewrite H. ring.
Qed.
Lemma sheared_decimal w0 w1 B0 s m m' a e th t : let c := tf_c (c4p decimal_f) (c4f decimal_f) decimal_f (s_spin s) in
  Rabs (w0 * c m m' + w1 * c (1 / 2) (- (1 / 2))) <= t * Rabs (c (1 / 2) (- (1 / 2))) ->
  Rabs (sheared decimal_f w0 w1 B0 s m m' a e th) <= t * Rabs (anisotropic true (contribution decimal_f B0 s (1 / 2) (- (1 / 2)) Quad2_4) a e th).
Proof.
  intros c H. destruct (sheared_factor decimal_f B0 s a e th) as [x X]. destruct (X w0 w1 m m') as [_ ->]. destruct (X w0 w1 (1 / 2) (- (1 / 2))) as [-> _].
  fold c. rewrite !Rabs_mult, <- Rmult_assoc. apply Rmult_le_compat_r; auto using Rabs_pos.
Qed.
Lemma QR_half a : QR (half a) = IZR a / 2.
Proof. unfold QR. rewrite (Qeq_eqR _ (a # 2)) by apply Qred_correct. unfold Q2R. cbn. lra. Qed.
