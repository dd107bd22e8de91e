(** Averages over all directions do not depend on the frame. *)
From Coq Require Import Reals List Lia Psatz.
From Coquelicot Require Import Coquelicot.
From Verif Require PropAverage PhysEvent.
From Verif Require Import InterpModel DftModel DftProofs FreqModel FreqSpec PhysSpec PhysLevels PhysRot PhysSpin PhysExact PowderModel AverageSpec AverageProofs AveragePhys SphereSpec SphereChange SphereProofs SpherePhys InducedSpec InducedProofs FrameSpec.
From Coq Require Import Lra.
Import ListNotations.
Open Scope R_scope.

(** Functions of a direction that do not tell a direction from its opposite *)
Definition tame (g : (axis -> R) -> R) : Prop := sloped g /\ (forall u, g (fun i => - u i) = g u) /\ (forall u v, (forall i, u i = v i) -> g u = g v).
Lemma tame_const c : tame (fun _ => c). Proof. split; [apply sloped_const|auto]. Qed.
Lemma tame_plus f g : tame f -> tame g -> tame (fun u => f u + g u).
Proof. intros (A & B & C) (A' & B' & C'). split; [apply sloped_plus; auto|]. split; intros; [rewrite B, B'; auto|]. rewrite (C u v), (C' u v); auto. Qed.
Lemma tame_mult f g : tame f -> tame g -> tame (fun u => f u * g u).
Proof. intros (A & B & C) (A' & B' & C'). split; [apply sloped_mult; auto|]. split; intros; [rewrite B, B'; auto|]. rewrite (C u v), (C' u v); auto. Qed.
Lemma tame_scal q f : tame f -> tame (fun u => q * f u). Proof. intros H. apply tame_mult; auto. apply tame_const. Qed.
Lemma tame_element T : tame (element T).
Proof. split; [apply sloped_element|]. split; intros; unfold element, asum; [ring|rewrite !H; reflexivity]. Qed.

(** Turning a direction back *)
Definition zback (a : R) (u : axis -> R) : axis -> R := fun i => match i with X => cos a * u X - sin a * u Y | Y => sin a * u X + cos a * u Y | Z => u Z end.
Definition swap (u : axis -> R) : axis -> R := fun i => match i with X => u X | Y => u Z | Z => u Y end.
Definition yback (b : R) (u : axis -> R) : axis -> R := swap (zback (- b) (swap u)).
Definition back1 (th : euler) (u : axis -> R) : axis -> R := let '(a, b, g) := th in zback a (yback b (zback g u)).
Definition back (pre : list euler) (u : axis -> R) : axis -> R := fold_right back1 u pre.
Lemma zback_unit a u : unit_vector u -> unit_vector (zback a u).
Proof. unfold unit_vector, zback. intros U. pose proof (sin2_cos2 a) as S. unfold Rsqr in S. assert (Q : sin a * sin a = 1 - cos a * cos a) by lra. ring_simplify. replace (cos a ^ 2) with (1 - sin a * sin a) by (rewrite Q; ring). replace (sin a ^ 2) with (sin a * sin a) by ring. lra. Qed.
Lemma swap_unit u : unit_vector u -> unit_vector (swap u). Proof. unfold unit_vector, swap. lra. Qed.
Lemma back1_unit th u : unit_vector u -> unit_vector (back1 th u).
Proof. destruct th as [[a b] g]. unfold back1, yback. auto 8 using zback_unit, swap_unit. Qed.
Lemma back_unit pre u : unit_vector u -> unit_vector (back pre u). Proof. induction pre; cbn; auto using back1_unit. Qed.
Lemma zback_dist a u v : dist3 (zback a u) (zback a v) <= 2 * dist3 u v.
Proof.
  unfold dist3, zback. assert (H : forall c s p q p' q', Rabs c <= 1 -> Rabs s <= 1 -> Rabs (c * p + s * q - (c * p' + s * q')) <= Rabs (p - p') + Rabs (q - q')).
  { intros. replace (c * p + s * q - (c * p' + s * q')) with (c * (p - p') + s * (q - q')) by ring. eapply Rle_trans; [apply Rabs_triang|]. rewrite !Rabs_mult. pose proof (Rabs_pos (p - p')). pose proof (Rabs_pos (q - q')). apply Rplus_le_compat; rewrite <- (Rmult_1_l (Rabs (_ - _))) at 2; apply Rmult_le_compat_r; auto. }
  assert (C : Rabs (cos a) <= 1) by (apply Rcomplements.Rabs_le_between, COS_bound). assert (S : Rabs (sin a) <= 1) by (apply Rcomplements.Rabs_le_between, SIN_bound).
  pose proof (H (cos a) (- sin a) (u X) (u Y) (v X) (v Y) C ltac:(rewrite Rabs_Ropp; auto)) as H1. pose proof (H (sin a) (cos a) (u X) (u Y) (v X) (v Y) S C) as H2.
  replace (cos a * u X - sin a * u Y) with (cos a * u X + - sin a * u Y) by ring. replace (cos a * v X - sin a * v Y) with (cos a * v X + - sin a * v Y) by ring. pose proof (Rabs_pos (u Z - v Z)). lra.
Qed.
Lemma swap_dist u v : dist3 (swap u) (swap v) = dist3 u v. Proof. unfold dist3, swap. ring. Qed.
Lemma tame_zback a g : tame g -> tame (fun u => g (zback a u)).
Proof.
  intros ((L & L0 & H) & B & C). split; [exists (2 * L); split; [lra|]; intros u v U V; eapply Rle_trans; [apply H; apply zback_unit; auto|]; pose proof (zback_dist a u v); nra|].
  split; intros; [rewrite <- B|]; apply C; intros i; destruct i; cbn; rewrite ?H0; ring.
Qed.
Lemma tame_swap g : tame g -> tame (fun u => g (swap u)).
Proof.
  intros ((L & L0 & H) & B & C). split; [exists L; split; [lra|]; intros u v U V; rewrite <- (swap_dist u v); apply H; apply swap_unit; auto|].
  split; intros; [rewrite <- B|]; apply C; intros i; destruct i; cbn; rewrite ?H0; ring.
Qed.
Lemma tame_yback b g : tame g -> tame (fun u => g (yback b u)).
Proof. intros H. unfold yback. exact (tame_swap (fun u => g (swap (zback (- b) u))) (tame_zback (- b) (fun u => g (swap u)) (tame_swap g H))). Qed.
Lemma tame_back1 th g : tame g -> tame (fun u => g (back1 th u)).
Proof. intros H. destruct th as [[a b] c]. unfold back1. exact (tame_zback c (fun u => g (zback a (yback b u))) (tame_yback b (fun u => g (zback a u)) (tame_zback a g H))). Qed.

(** The average does not change *)
Lemma zback_direction a al be i : zback a (direction al be) i = direction (al + a) be i.
Proof. destruct i; cbn; rewrite ?cos_plus, ?sin_plus; ring. Qed.
Lemma average_zback a g : tame g -> hemisphere_average (fun u => g (zback a u)) = hemisphere_average g.
Proof.
  intros ((L & L0 & H) & B & C). unfold hemisphere_average. f_equal.
  transitivity (over_directions g a (2 * PI + a)).
  - unfold over_directions. assert (E : RInt (fun al => scal 1 (ring_of g (1 * al + a))) 0 (2 * PI) = RInt (ring_of g) (1 * 0 + a) (1 * (2 * PI) + a)) by (apply (RInt_comp_lin (V := R_CompleteNormedModule)), (ring_ex g L H L0)).
    replace (1 * 0 + a) with a in E by ring. replace (1 * (2 * PI) + a) with (2 * PI + a) in E by ring. change (RInt (fun alpha => RInt (fun beta => g (direction alpha beta) * sin beta) 0 (PI / 2)) a (2 * PI + a)) with (RInt (ring_of g) a (2 * PI + a)). rewrite <- E.
    apply RInt_ext. intros al _. change (scal 1 (ring_of g (1 * al + a))) with (1 * ring_of g (1 * al + a)). rewrite !Rmult_1_l. unfold ring_of. apply RInt_ext. intros be _. f_equal. apply C. intros i. apply zback_direction.
  - rewrite (over_chasles g L H L0 a (2 * PI) (2 * PI + a)). rewrite (over_chasles g L H L0 0 a (2 * PI)).
    assert (P : over_directions g (2 * PI) (2 * PI + a) = over_directions g 0 a).
    { unfold over_directions. assert (E : RInt (fun al => scal 1 (ring_of g (1 * al + 2 * PI))) 0 a = RInt (ring_of g) (1 * 0 + 2 * PI) (1 * a + 2 * PI)) by (apply (RInt_comp_lin (V := R_CompleteNormedModule)), (ring_ex g L H L0)).
      replace (1 * 0 + 2 * PI) with (2 * PI) in E by ring. replace (1 * a + 2 * PI) with (2 * PI + a) in E by ring. change (RInt (fun alpha => RInt (fun beta => g (direction alpha beta) * sin beta) 0 (PI / 2)) (2 * PI) (2 * PI + a)) with (RInt (ring_of g) (2 * PI) (2 * PI + a)). rewrite <- E.
      apply RInt_ext. intros al _. change (scal 1 (ring_of g (1 * al + 2 * PI))) with (1 * ring_of g (1 * al + 2 * PI)). rewrite !Rmult_1_l. unfold ring_of. apply RInt_ext. intros be _. f_equal. apply C. intros i. pose proof (cos_period al 1) as P1. pose proof (sin_period al 1) as P2. cbn in P1, P2. replace (al + 2 * 1 * PI) with (al + 2 * PI) in P1, P2 by ring. destruct i; cbn; rewrite ?P1, ?P2; ring. }
    rewrite P. ring.
Qed.
Lemma average_swap g : tame g -> hemisphere_average (fun u => g (swap u)) = hemisphere_average g.
Proof.
  intros T. pose proof (tame_swap g T) as ((L' & L0' & H') & _). destruct T as ((L & L0 & H) & B & C). apply Rminus_diag_uniq. apply (small_zero _ (4182 * L' + 4182 * L)). intros n N. destruct (PropAverage.polar_exists n N) as (al & be & P).
  pose proof (hemisphere_conv g L n al be H L0 N P) as A. pose proof (hemisphere_conv (fun u => g (swap u)) L' n al be H' L0' N P) as A'.
  assert (E : powder_average n 4 (fun o => g (swap (towards n al be o))) = powder_average n 4 (fun o => g (towards n al be o))).
  { unfold powder_average. f_equal. rewrite (powder_turns (fun u => g (swap u)) L' n 4 al be) by (auto; lia). rewrite (powder_turns g L n 4 al be) by (auto; lia). cbn [rsum].
    set (h := fun s t (x y z : nat) => g (fun i => match i with X => s * along3 x y z X | Y => t * along3 x y z Y | Z => along3 x y z Z end)).
    assert (XY : forall x y z i, along3 x y z i = along3 y x z (match i with X => Y | Y => X | Z => Z end)) by (intros x y z i; unfold along3; replace (N2 y x z) with (N2 x y z) by (unfold N2; ring); destruct i; reflexivity).
    assert (YZ : forall x y z i, along3 x y z i = along3 x z y (match i with X => X | Y => Z | Z => Y end)) by (intros x y z i; unfold along3; replace (N2 x z y) with (N2 x y z) by (unfold N2; ring); destruct i; reflexivity).
    assert (T0 : S3 n (fun x y z => g (turn 0 (along3 x y z))) = S3 n (h 1 1)) by (apply S3_ext; auto; intros; apply C; intros i; destruct i; cbn; ring).
    assert (T1 : S3 n (fun x y z => g (turn 1 (along3 x y z))) = S3 n (h 1 (-1))) by (rewrite S3_xy; apply S3_ext; auto; intros; apply C; intros i; destruct i; cbn; rewrite (XY y x z); cbn; ring).
    assert (T2 : S3 n (fun x y z => g (turn 2 (along3 x y z))) = S3 n (h (-1) (-1))) by (apply S3_ext; auto; intros; apply C; intros i; destruct i; cbn; ring).
    assert (T3 : S3 n (fun x y z => g (turn 3 (along3 x y z))) = S3 n (h (-1) 1)) by (rewrite S3_xy; apply S3_ext; auto; intros; apply C; intros i; destruct i; cbn; rewrite (XY y x z); cbn; ring).
    assert (U0 : S3 n (fun x y z => g (swap (turn 0 (along3 x y z)))) = S3 n (h 1 1)) by (rewrite S3_yz; apply S3_ext; auto; intros; apply C; intros i; destruct i; cbn; rewrite (YZ x z y); cbn; ring).
    assert (U1 : S3 n (fun x y z => g (swap (turn 1 (along3 x y z)))) = S3 n (h (-1) (-1))).
    { rewrite S3_xy, S3_yz. apply S3_ext; auto. intros x y z _. unfold h. rewrite <- B. apply C. intros i. destruct i; cbn; rewrite (XY z x y), (YZ x z y); cbn; ring. }
    assert (U2 : S3 n (fun x y z => g (swap (turn 2 (along3 x y z)))) = S3 n (h 1 (-1)) ).
    { rewrite S3_yz. apply S3_ext; auto. intros x y z _. unfold h. rewrite <- B. apply C. intros i. destruct i; cbn; rewrite (YZ x z y); cbn; ring. }
    assert (U3 : S3 n (fun x y z => g (swap (turn 3 (along3 x y z)))) = S3 n (h (-1) 1) ).
    { rewrite S3_xy, S3_yz. apply S3_ext; auto. intros x y z _. unfold h. apply C. intros i. destruct i; cbn; rewrite (XY z x y), (YZ x z y); cbn; ring. }
    rewrite T0, T1, T2, T3, U0, U1, U2, U3. ring. }
  cbv beta in A'; rewrite E in A'. set (p := powder_average _ _ _) in *. set (x := hemisphere_average g) in *. set (y := hemisphere_average (fun u => g (swap u))) in *.
  replace (y - x) with ((p - x) + - (p - y)) by ring. eapply Rle_trans; [apply Rabs_triang|]. rewrite Rabs_Ropp. unfold Rdiv in *. lra.
Qed.
Lemma average_yback b g : tame g -> hemisphere_average (fun u => g (yback b u)) = hemisphere_average g.
Proof.
  intros T. unfold yback. assert (T1 := tame_swap g T). assert (T2 := tame_zback (- b) _ T1). cbv beta in T2. rewrite (average_swap (fun u => g (swap (zback (- b) u))) T2). rewrite (average_zback (- b) (fun u => g (swap u)) T1). apply average_swap; auto.
Qed.
Lemma average_back1 th g : tame g -> hemisphere_average (fun u => g (back1 th u)) = hemisphere_average g.
Proof.
  destruct th as [[a b] c]. intros T. assert (T1 := tame_zback a g T). assert (T2 := tame_yback b _ T1). cbv beta in T2. unfold back1.
  rewrite (average_zback c (fun u => g (zback a (yback b u))) T2), (average_yback b (fun u => g (zback a u)) T1). apply average_zback; auto.
Qed.
Lemma average_back pre : forall g, tame g -> tame (fun u => g (back pre u)) /\ hemisphere_average (fun u => g (back pre u)) = hemisphere_average g.
Proof.
  induction pre as [|th pre IH]; intros g T; [auto|]. cbn [back fold_right]. destruct (IH (fun u => g (back1 th u)) (tame_back1 th g T)) as [T' E]. split; [exact T'|]. unfold back in E. rewrite E. apply average_back1; auto.
Qed.
