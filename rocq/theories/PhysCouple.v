From Coq Require Import Reals List ZArith Lra Lia Psatz.
From Coquelicot Require Import Complex.
From Verif Require Import DftModel DftProofs WignerMatrix WignerModel WignerSpec WignerOrtho WignerNorm WignerProofs.
Import ListNotations.
Open Scope R_scope.

(** Products of the components of a second rank tensor with themselves, coupled to rank 0, 2 and 4 with Clebsch-Gordan coefficients,
    and that they turn as tensors of those ranks.  a, b, g, h: square roots of 2, 5, 7, 6. *)
Definition q0 (b : R) (w : list C) : C := match w with
  | [c0; c1; c2; c3; c4] => RtoC (b / 5) * (RtoC 2 * c0 * c4 - RtoC 2 * c1 * c3 + c2 * c2)
  | _ => RtoC 0 end%C.
Definition q2 (a g h : R) (w : list C) : list C := match w with
  | [c0; c1; c2; c3; c4] =>
    let x := RtoC (2 * a * g / 7) in let y := RtoC (h * a * g / 14) in let z := RtoC (a * g / 14) in
    [x * c0 * c2 - y * c1 * c1; RtoC 2 * (y * c0 * c3 - z * c1 * c2); x * c0 * c4 + RtoC 2 * z * c1 * c3 - RtoC (a * g / 7) * c2 * c2;
     RtoC 2 * (y * c4 * c1 - z * c3 * c2); x * c4 * c2 - y * c3 * c3]
  | _ => [] end%C.
Definition q4 (a b g h : R) (w : list C) : list C := match w with
  | [c0; c1; c2; c3; c4] =>
    let x := RtoC (h * g / 7) in let y := RtoC (2 * g / 7) in let z := RtoC (a * g / 14) in let u := RtoC (h * a * g / 14) in
    [c0 * c0; RtoC a * c0 * c1; x * c0 * c2 + y * c1 * c1; RtoC 2 * (z * c0 * c3 + u * c1 * c2);
     RtoC (a * b * g / 70) * (RtoC 2 * c0 * c4 + RtoC 8 * c1 * c3 + RtoC 6 * c2 * c2);
     RtoC 2 * (z * c4 * c1 + u * c3 * c2); x * c4 * c2 + y * c3 * c3; RtoC a * c4 * c3; c4 * c4]
  | _ => [] end%C.
Section Coupled.
Variables a b g h c s : R.
Hypothesis Hs : s * s = 1 - c * c.
Hypothesis Ha : a * a = 2.
Hypothesis Hb : b * b = 5.
Hypothesis Hg : g * g = 7.
Hypothesis Hh : h * h = 6.
Local Notation K := (kk a b g h).
Lemma q0_mat c0 c1 c2 c3 c4 : let w := [c0; c1; c2; c3; c4] in q0 b (mat_vec 5 5 (wigner_d K false 2 (c, s)) w) = q0 b w.
Proof.
  intros w. subst w. unfold mat_vec, wigner_d. cbn [fst snd seq map csum wigner_2j nth Nat.mul Nat.add kk k38 k32 q0]. destruct c0, c1, c2, c3, c4.
  apply C_ext; cbn; field [Hs Hh].
Qed.
Lemma q2_mat c0 c1 c2 c3 c4 : let w := [c0; c1; c2; c3; c4] in
  q2 a g h (mat_vec 5 5 (wigner_d K false 2 (c, s)) w) = mat_vec 5 5 (wigner_d K false 2 (c, s)) (q2 a g h w).
Proof.
  intros w. subst w. unfold mat_vec, wigner_d. cbn [fst snd seq map csum wigner_2j nth Nat.mul Nat.add kk k38 k32 q2]. destruct c0, c1, c2, c3, c4.
  repeat (f_equal; [apply C_ext; cbn; field [Hs Hh]|]). f_equal. apply C_ext; cbn; field [Hs Hh].
Qed.
Lemma q4_mat c0 c1 c2 c3 c4 : let w := [c0; c1; c2; c3; c4] in
  q4 a b g h (mat_vec 5 5 (wigner_d K false 2 (c, s)) w) = mat_vec 9 9 (wigner_d K false 4 (c, s)) (q4 a b g h w).
Proof.
  intros w. subst w. unfold mat_vec, wigner_d.
  cbn [fst snd seq map csum wigner_2j wigner_4j nth Nat.mul Nat.add kk k38 k32 k2_8 k14_8 k70_16 k35_4 k7_8 k10_8 k5_4 k2_4 q4]. destruct c0, c1, c2, c3, c4.
  repeat (f_equal; [apply C_ext; cbn; field [Hs Ha Hb Hg Hh]|]). f_equal. apply C_ext; cbn; field [Hs Ha Hb Hg Hh].
Qed.
End Coupled.

Lemma q_phases a b g h e c0 c1 c2 c3 c4 : abs2 e = 1 -> let w := [c0; c1; c2; c3; c4] in
  q0 b (scale_phases 2 e w) = q0 b w /\ q2 a g h (scale_phases 2 e w) = scale_phases 2 e (q2 a g h w) /\ q4 a b g h (scale_phases 2 e w) = scale_phases 4 e (q4 a b g h w).
Proof.
  destruct e as [x y]. intros E w. unfold abs2 in E. cbn [fst snd] in E. assert (H : y * y = 1 - x * x) by lra. subst w. unfold scale_phases.
  cbn [seq map Nat.mul Nat.add Nat.ltb Nat.leb Nat.sub nth q0 q2 q4 cpow]. destruct c0, c1, c2, c3, c4.
  split; [apply C_ext; cbn; ring [H]|]. split.
  - repeat (f_equal; [apply C_ext; cbn; ring [H]|]). f_equal. apply C_ext; cbn; ring [H].
  - repeat (f_equal; [apply C_ext; cbn; ring [H]|]). f_equal. apply C_ext; cbn; ring [H].
Qed.
Lemma five (w : list C) : length w = 5%nat -> exists c0 c1 c2 c3 c4, w = [c0; c1; c2; c3; c4].
Proof. intros L. destruct w as [|c0 [|c1 [|c2 [|c3 [|c4 [|]]]]]]; cbn in L; try lia. do 5 eexists. reflexivity. Qed.
Definition Q0 := q0 (sqrt 5).
Definition Q2 := q2 (sqrt 2) (sqrt 7) (sqrt 6).
Definition Q4 := q4 (sqrt 2) (sqrt 5) (sqrt 7) (sqrt 6).
Lemma Q_rotation al e ga w : length w = 5%nat -> abs2 e = 1 ->
  Q0 (rotation ideal 2 al e ga w) = Q0 w /\ Q2 (rotation ideal 2 al e ga w) = rotation ideal 2 al e ga (Q2 w) /\
  Q4 (rotation ideal 2 al e ga w) = rotation ideal 4 al e ga (Q4 w).
Proof.
  intros L E. assert (Hs : snd e * snd e = 1 - fst e * fst e) by (unfold abs2 in E; lra). destruct e as [c s]. cbn [fst snd] in Hs.
  pose proof (sqrt_sqrt 2 ltac:(lra)) as Ha. pose proof (sqrt_sqrt 5 ltac:(lra)) as Hb. pose proof (sqrt_sqrt 7 ltac:(lra)) as Hg. pose proof (sqrt_sqrt 6 ltac:(lra)) as Hh.
  unfold rotation, Q0, Q2, Q4. rewrite ideal_kk. change (2 * 2 + 1)%nat with 5%nat. change (2 * 4 + 1)%nat with 9%nat.
  assert (PH : forall x w, length w = 5%nat -> q0 (sqrt 5) (scale_phases 2 (cis x) w) = q0 (sqrt 5) w /\
    q2 (sqrt 2) (sqrt 7) (sqrt 6) (scale_phases 2 (cis x) w) = scale_phases 2 (cis x) (q2 (sqrt 2) (sqrt 7) (sqrt 6) w) /\
    q4 (sqrt 2) (sqrt 5) (sqrt 7) (sqrt 6) (scale_phases 2 (cis x) w) = scale_phases 4 (cis x) (q4 (sqrt 2) (sqrt 5) (sqrt 7) (sqrt 6) w)).
  { clear -Ha. intros x w L. destruct (five w L) as [c0 [c1 [c2 [c3 [c4 ->]]]]]. apply q_phases, cis_unit. }
  destruct (PH al w L) as [A0 [A2 A4]]. set (v := scale_phases 2 (cis al) w) in *. assert (Lv : length v = 5%nat) by apply scale_length.
  destruct (PH ga (mat_vec 5 5 (wigner_d (kk (sqrt 2) (sqrt 5) (sqrt 7) (sqrt 6)) false 2 (c, s)) v) (mat_vec_length _ _ _ _)) as [B0 [B2 B4]].
  rewrite B0, B2, B4, <- A0, <- A2, <- A4. clearbody v. destruct (five v Lv) as [c0 [c1 [c2 [c3 [c4 ->]]]]].
  rewrite q0_mat, q2_mat, q4_mat by auto. auto.
Qed.
