From Coq Require Import Reals List ZArith Lra Lia Psatz.
From Coquelicot Require Import Complex.
From Verif Require Import DftModel DftProofs WignerMatrix WignerModel WignerSpec WignerOrtho WignerProofs PhysSpec.
Import ListNotations.
Open Scope R_scope.

(** ** Rotation of the components of a tensor in space *)
Lemma sqrt_consts : sqrt (3 / 8) = sqrt 6 / 4 /\ sqrt (3 / 2) = sqrt 6 / 2 /\ sqrt (2 / 3) = sqrt 6 / 3 /\ sqrt 6 * sqrt 6 = 6 /\ 0 < sqrt 6.
Proof.
  pose proof (sqrt_sqrt 6 ltac:(lra)) as Q. assert (P : 0 < sqrt 6) by (apply sqrt_lt_R0; lra).
  repeat split; auto; apply sqrt_lem_1; lra.
Qed.
Lemma scale_spherical a T : symmetric T -> scale_phases 2 (cis a) (spherical T) = spherical (along (about_z a) T).
Proof.
  intros S. pose proof (S X Y) as Sxy. pose proof (S X Z) as Sxz. pose proof (S Y Z) as Syz. destruct sqrt_consts as [_ [_ [E3 [Q P]]]].
  unfold scale_phases, spherical. rewrite E3. cbn [seq map Nat.mul Nat.add Nat.ltb Nat.leb Nat.sub nth]. unfold along, asum, about_z.
  repeat (f_equal; [apply C_ext; cbn; rewrite <- ?Sxy, <- ?Sxz, <- ?Syz; field; lra|]). f_equal. apply C_ext; cbn; rewrite <- ?Sxy, <- ?Sxz, <- ?Syz; field; lra.
Qed.
Lemma mat_spherical b T : symmetric T -> trace T = 0 ->
  mat_vec 5 5 (wigner_d ideal false 2 (cis b)) (spherical T) = spherical (along (about_y b) T).
Proof.
  intros S Tr. pose proof (S X Y) as Sxy. pose proof (S X Z) as Sxz. pose proof (S Y Z) as Syz. destruct sqrt_consts as [E1 [E2 [E3 [Q P]]]].
  assert (Hs : sin b * sin b = 1 - cos b * cos b) by (pose proof (sin2_cos2 b) as H; unfold Rsqr in H; lra).
  assert (Ty : T Y Y = - T X X - T Z Z) by (unfold trace, asum in Tr; lra).
  unfold mat_vec, spherical, wigner_d, cis. rewrite E3. cbn [fst snd seq map csum wigner_2j nth Nat.mul Nat.add ideal k38 k32]. rewrite E1, E2. unfold along, asum, about_y.
  repeat (f_equal; [apply C_ext; cbn; rewrite <- ?Sxy, <- ?Sxz, <- ?Syz, ?Ty; field [Hs Q]; lra|]). f_equal. apply C_ext; cbn; rewrite <- ?Sxy, <- ?Sxz, <- ?Syz, ?Ty; field [Hs Q]; lra.
Qed.
Lemma along_sym A T : symmetric T -> symmetric (along A T).
Proof.
  intros S i j. unfold along, asum. rewrite (S X Y), (S X Z), (S Y Z). ring.
Qed.
Lemma along_product A B T i j : along (product A B) T i j = along A (along B T) i j.
Proof. unfold along, product, asum. ring. Qed.
Lemma spherical_ext T T' : (forall i j, T i j = T' i j) -> spherical T = spherical T'.
Proof. intros H. unfold spherical. rewrite !H. reflexivity. Qed.
Lemma trace_z a T : trace (along (about_z a) T) = trace T.
Proof. pose proof (sin2_cos2 a) as H. unfold Rsqr in H. assert (Hs : sin a * sin a = 1 - cos a * cos a) by lra. unfold trace, along, asum, about_z. ring [Hs]. Qed.
Lemma trace_y a T : trace (along (about_y a) T) = trace T.
Proof. pose proof (sin2_cos2 a) as H. unfold Rsqr in H. assert (Hs : sin a * sin a = 1 - cos a * cos a) by lra. unfold trace, along, asum, about_y. ring [Hs]. Qed.
Lemma trace_along_ext A B T : (forall i j, A i j = B i j) -> trace (along A T) = trace (along B T).
Proof. intros H. unfold trace, along, asum. rewrite !H. reflexivity. Qed.
Lemma along_euler a b g T i j : along (euler_axes a b g) T i j = along (about_z g) (along (about_y b) (along (about_z a) T)) i j.
Proof. unfold euler_axes. unfold along, product, asum. ring. Qed.
Lemma trace_euler a b g T : trace (along (euler_axes a b g) T) = trace T.
Proof. unfold trace at 1, asum. rewrite !along_euler. fold (asum (fun i => along (about_z g) (along (about_y b) (along (about_z a) T)) i i)). 
  change (trace (along (about_z g) (along (about_y b) (along (about_z a) T))) = trace T). rewrite trace_z, trace_y, trace_z. reflexivity. Qed.
Lemma rotation_spherical a b g T : symmetric T -> trace T = 0 ->
  rotation ideal 2 a (cis b) g (spherical T) = spherical (along (euler_axes a b g) T).
Proof.
  intros S Tr. unfold rotation. rewrite scale_spherical by auto. change (2 * 2 + 1)%nat with 5%nat.
  rewrite mat_spherical by (auto using along_sym; rewrite trace_z; auto). rewrite scale_spherical by (do 2 apply along_sym; auto).
  apply spherical_ext. intros. symmetry. apply along_euler.
Qed.
Lemma along_element a b T : along (euler_axes a b 0) T Z Z = element T (direction a b).
Proof. rewrite along_euler. unfold element, along, asum, about_z, about_y, direction. ring. Qed.

(** ** Products of the components of a tensor with themselves *)
(** Coupled to rank 0, 2 and 4 with Clebsch-Gordan coefficients; [w] has five components. *)
