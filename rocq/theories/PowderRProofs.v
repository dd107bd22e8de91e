(** Proofs about the real weights and phases of the powder averaging scheme. *)
From Coq Require Import ZArith Bool List Lia Reals Lra.
From Verif Require Import InterpModel PowderModel.
Import ListNotations.
(** ** Normalisation of the weights *)
Open Scope R_scope.
Lemma total_1 : get_total_amplitude 1 (fun i => nth i (amplitudes 1) 0) = Some 3.
Proof.
  unfold get_total_amplitude, amplitudes, face. cbn -[INR sqrt]. f_equal. unfold rsq. simpl INR.
  replace (1 * 1 + 0 * 0 + 0 * 0) with 1 by ring. replace (0 * 0 + 1 * 1 + 0 * 0) with 1 by ring. rewrite sqrt_1. field.
Qed.
Lemma total_2 : get_total_amplitude 2 (fun i => nth i (amplitudes 2) 0) = Some (3 / 4 + 9 / sqrt 2).
Proof.
  unfold get_total_amplitude, amplitudes, face. cbn -[INR sqrt]. f_equal. unfold rsq. simpl INR.
  assert (S2 : 0 < sqrt 2) by (apply sqrt_lt_R0; lra). assert (S4 : sqrt 4 = 2) by (replace 4 with (2 * 2) by ring; apply sqrt_square; lra).
  replace ((1 + 1) * (1 + 1) + 0 * 0 + 0 * 0) with 4 by ring. replace (0 * 0 + (1 + 1) * (1 + 1) + 0 * 0) with 4 by ring.
  replace (1 * 1 + 1 * 1 + 0 * 0) with 2 by ring. replace (1 * 1 + 0 * 0 + 1 * 1) with 2 by ring. replace (0 * 0 + 1 * 1 + 1 * 1) with 2 by ring.
  rewrite S4. field. lra.
Qed.
Lemma total_2_not_3 : 3 / 4 + 9 / sqrt 2 > 3.
Proof.
  assert (S2 : 0 < sqrt 2) by (apply sqrt_lt_R0; lra). assert (B : sqrt 2 < 2).
  { rewrite <- (sqrt_square 2) at 2 by lra. apply sqrt_lt_1; lra. }
  assert (9 / 2 < 9 / sqrt 2). { unfold Rdiv. apply Rmult_lt_compat_l; [lra|]. apply Rinv_lt_contravar; [nra|auto]. }
  lra.
Qed.

(** ** Phases *)
Lemma exp_beta_unit x y z : 0 <= x -> 0 <= y -> 0 <= z -> x + y + z = 1 -> let '(c, s) := exp_I_beta (x, y, z) in c * c + s * s = 1 /\ 0 <= c /\ 0 <= s.
Proof. intros. unfold exp_I_beta. rewrite !sqrt_sqrt by lra. repeat split; [lra| |]; apply sqrt_pos. Qed.
Lemma exp_alpha_unit x y z : 0 <= x -> 0 <= y -> 0 < x + y -> let '(c, s) := exp_I_alpha false (x, y, z) in c * c + s * s = 1 /\ 0 <= c /\ 0 <= s.
Proof.
  intros. unfold exp_I_alpha. assert (P : 0 < sqrt (x + y)) by (apply sqrt_lt_R0; auto).
  pose proof (sqrt_pos x). pose proof (sqrt_pos y). repeat split.
  - replace (sqrt x / sqrt (x + y) * (sqrt x / sqrt (x + y)) + sqrt y / sqrt (x + y) * (sqrt y / sqrt (x + y)))
      with ((sqrt x * sqrt x + sqrt y * sqrt y) / (sqrt (x + y) * sqrt (x + y))) by (field; lra).
    rewrite !sqrt_sqrt by lra. field. lra.
  - apply Rmult_le_pos; auto. left. apply Rinv_0_lt_compat; auto.
  - apply Rmult_le_pos; auto. left. apply Rinv_0_lt_compat; auto.
Qed.
(** The three direction cosines are recovered from the two phases. *)
Lemma exp_direction x y z : 0 <= x -> 0 <= y -> 0 <= z -> 0 < x + y ->
  let '(cb, sb) := exp_I_beta (x, y, z) in let '(ca, sa) := exp_I_alpha false (x, y, z) in
  sb * ca = sqrt x /\ sb * sa = sqrt y /\ cb = sqrt z.
Proof. intros. unfold exp_I_beta, exp_I_alpha. assert (P : 0 < sqrt (x + y)) by (apply sqrt_lt_R0; auto). repeat split; field; lra. Qed.
