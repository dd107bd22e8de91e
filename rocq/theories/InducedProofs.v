(** Averages over directions, and over a turn of the rotor, of the second order energies. *)
From Coq Require Import Reals List Lia Psatz.
From Coquelicot Require Import Coquelicot.
From Verif Require PropAverage PropSphere PhysEvent.
From Verif Require Import InterpModel DftModel DftProofs FreqModel FreqSpec PhysSpec PhysLevels PhysRot PhysSpin PhysExact PowderModel AverageSpec AverageProofs AveragePhys SphereSpec SphereChange SphereProofs SpherePhys InducedSpec.
From Coq Require Import Lra.
Import ListNotations.
Open Scope R_scope.

(** Trigonometric polynomials of degree 4 *)
Lemma poly_mean k00 k10 k01 k20 k11 k02 k30 k21 k12 k03 k40 k31 k22 k13 k04 :
  mean_over_turn (fun p => k00 + k10 * cos p + k01 * sin p + k20 * cos p ^ 2 + k11 * (cos p * sin p) + k02 * sin p ^ 2
    + k30 * cos p ^ 3 + k21 * (cos p ^ 2 * sin p) + k12 * (cos p * sin p ^ 2) + k03 * sin p ^ 3
    + k40 * cos p ^ 4 + k31 * (cos p ^ 3 * sin p) + k22 * (cos p ^ 2 * sin p ^ 2) + k13 * (cos p * sin p ^ 3) + k04 * sin p ^ 4)
  (k00 + (k20 + k02) / 2 + 3 / 8 * (k40 + k04) + k22 / 8).
Proof.
  unfold mean_over_turn. set (F := fun p => k00 * p + k10 * sin p - k01 * cos p + k20 * ((p + sin p * cos p) / 2) + k11 * (sin p ^ 2 / 2) + k02 * ((p - sin p * cos p) / 2)
    + k30 * (sin p - sin p ^ 3 / 3) - k21 * (cos p ^ 3 / 3) + k12 * (sin p ^ 3 / 3) + k03 * (cos p ^ 3 / 3 - cos p)
    + k40 * (3 / 8 * p + 3 / 8 * (sin p * cos p) + sin p * cos p ^ 3 / 4) - k31 * (cos p ^ 4 / 4) + k22 * (p / 8 - sin p * cos p * (cos p ^ 2 - sin p ^ 2) / 8) + k13 * (sin p ^ 4 / 4)
    + k04 * (3 / 8 * p - sin p * cos p / 2 + sin p * cos p * (cos p ^ 2 - sin p ^ 2) / 8)).
  replace (2 * PI * (k00 + (k20 + k02) / 2 + 3 / 8 * (k40 + k04) + k22 / 8)) with (minus (F (2 * PI)) (F 0)).
  2:{ unfold minus, plus, opp; cbn. unfold F. rewrite sin_2PI, cos_2PI, sin_0, cos_0. field. }
  apply (is_RInt_derive (V := R_CompleteNormedModule) F).
  - intros x _. unfold F. auto_derive; auto. pose proof (sin2_cos2 x) as S. unfold Rsqr in S. assert (Q : sin x ^ 2 = 1 - cos x ^ 2) by (simpl; lra).
    field_simplify. replace (sin x ^ 4) with ((1 - cos x ^ 2) ^ 2) by (rewrite <- Q; ring). replace (sin x ^ 3) with (sin x * (1 - cos x ^ 2)) by (rewrite <- Q; ring). rewrite ?Q. field.
  - intros x _. apply (ex_derive_continuous (V := R_NormedModule)). auto_derive. auto.
Qed.
Lemma mean_unique g v w : mean_over_turn g v -> mean_over_turn g w -> v = w.
Proof. intros A B. apply (is_RInt_unique (V := R_CompleteNormedModule)) in A. apply (is_RInt_unique (V := R_CompleteNormedModule)) in B. rewrite A in B. pose proof PI_RGT_0. nra. Qed.
Lemma mean_ext g h v w : (forall p, g p = h p) -> v = w -> mean_over_turn g v -> mean_over_turn h w.
Proof. intros E <-. apply is_RInt_ext. auto. Qed.
Lemma mean_plus g h v w : mean_over_turn g v -> mean_over_turn h w -> mean_over_turn (fun p => g p + h p) (v + w).
Proof. intros A B. unfold mean_over_turn. rewrite Rmult_plus_distr_l. apply (is_RInt_plus (V := R_NormedModule)); auto. Qed.
Lemma mean_scal k g v : mean_over_turn g v -> mean_over_turn (fun p => k * g p) (k * v).
Proof. intros A. unfold mean_over_turn. replace (2 * PI * (k * v)) with (k * (2 * PI * v)) by ring. apply (is_RInt_scal (V := R_NormedModule)). exact A. Qed.
Lemma mean_const c : mean_over_turn (fun _ => c) c.
Proof. unfold mean_over_turn. replace (2 * PI * c) with (scal (2 * PI - 0) c) by (unfold scal; cbn; unfold mult; cbn; ring). apply (is_RInt_const (V := R_NormedModule)). Qed.

(** Averages over the hemisphere are linear *)
Lemma hemi_limit g v : sloped g -> (exists K, forall n alpha beta, (1 <= n)%nat -> polar_angles n alpha beta -> Rabs (powder_average n 4 (fun o => g (towards n alpha beta o)) - v) <= K / INR n) -> hemisphere_average g = v.
Proof.
  intros (L & L0 & H) (K & HK). apply Rminus_diag_uniq. apply (small_zero _ (4182 * L + K)). intros n N. destruct (PropAverage.polar_exists n N) as (al & be & P).
  pose proof (hemisphere_conv g L n al be H L0 N P) as A. specialize (HK n al be N P). set (a := powder_average _ _ _) in *. replace (hemisphere_average g - v) with (- (a - hemisphere_average g) + (a - v)) by ring.
  eapply Rle_trans; [apply Rabs_triang|]. rewrite Rabs_Ropp. unfold Rdiv in *. nra.
Qed.
Definition averages (g : (axis -> R) -> R) (v : R) : Prop := sloped g /\ hemisphere_average g = v.
Lemma averages_conv g v : averages g v -> exists K, 0 <= K /\ forall n alpha beta, (1 <= n)%nat -> polar_angles n alpha beta -> Rabs (powder_average n 4 (fun o => g (towards n alpha beta o)) - v) <= K / INR n.
Proof. intros [(L & L0 & H) <-]. exists (4182 * L). split; [lra|]. intros. apply hemisphere_conv; auto. Qed.
Lemma average_plus nt k f g : (1 <= nt)%nat -> (1 <= k)%nat -> powder_average nt k (fun o => f o + g o) = powder_average nt k f + powder_average nt k g.
Proof.
  intros N K. unfold powder_average. rewrite (powder_S3 nt k (fun o => f o + g o) (fun j x y z => f (j * n_pts nt + at3 nt x y z)%nat + g (j * n_pts nt + at3 nt x y z)%nat) N) by auto.
  rewrite (powder_S3 nt k f (fun j x y z => f (j * n_pts nt + at3 nt x y z)%nat) N) by auto. rewrite (powder_S3 nt k g (fun j x y z => g (j * n_pts nt + at3 nt x y z)%nat) N) by auto.
  rewrite (S3_ext nt _ (fun x y z => rsum k (fun j => f (j * n_pts nt + at3 nt x y z)%nat) + rsum k (fun j => g (j * n_pts nt + at3 nt x y z)%nat)) N) by (intros; apply WignerNorm.rsum_plus).
  rewrite S3_plus. unfold Rdiv. ring.
Qed.
Lemma averages_plus f g v w : averages f v -> averages g w -> averages (fun u => f u + g u) (v + w).
Proof.
  intros F G. pose proof F as [F1 _]. pose proof G as [G1 _]. destruct (averages_conv f v F) as (K & K0 & HK), (averages_conv g w G) as (K' & K0' & HK'). assert (S : sloped (fun u => f u + g u)) by (apply sloped_plus; auto). split; auto.
  apply hemi_limit; auto. exists (K + K'). intros n al be N P. rewrite average_plus by (auto; lia). specialize (HK n al be N P). specialize (HK' n al be N P).
  match goal with |- Rabs (?a + ?b - _) <= _ => replace (a + b - (v + w)) with ((a - v) + (b - w)) by ring end. eapply Rle_trans; [apply Rabs_triang|]. unfold Rdiv in *. lra.
Qed.
Lemma averages_const c : averages (fun _ => c) c.
Proof. split; [apply sloped_const|]. apply (proj1 (PropSphere.C117_constant c)). Qed.
Lemma averages_scal q f v : averages f v -> averages (fun u => q * f u) (q * v).
Proof.
  intros F. pose proof F as [F1 _]. destruct (averages_conv f v F) as (K & K0 & HK). assert (S : sloped (fun u => q * f u)) by (apply sloped_mult; auto; apply sloped_const). split; auto.
  apply hemi_limit; auto. exists (Rabs q * K). intros n al be N P. rewrite (PropAverage.average_ext n 4 _ (fun o => 0 + q * f (towards n al be o)) N) by (intros; ring). rewrite PropAverage.average_shift by (auto; lia). specialize (HK n al be N P).
  match goal with |- Rabs (0 + q * ?a - _) <= _ => replace (0 + q * a - q * v) with (q * (a - v)) by ring end. rewrite Rabs_mult. unfold Rdiv. rewrite Rmult_assoc. apply Rmult_le_compat_l; auto using Rabs_pos.
Qed.
Lemma averages_ext f g v w : (forall u, f u = g u) -> v = w -> averages f v -> averages g w.
Proof.
  intros E <- [S A]. split; [destruct S as (L & L0 & H); exists L; split; auto; intros a b U V; rewrite <- !E; auto|]. rewrite <- A. unfold hemisphere_average, over_directions. f_equal. apply RInt_ext. intros. apply RInt_ext. intros. rewrite E. reflexivity.
Qed.
Lemma averages_element T : averages (element T) (trace T / 3).
Proof. split; [apply sloped_element|apply PropSphere.C117_tensor]. Qed.

(** The square of an element *)
Lemma polar_square A B C : is_RInt (fun b => (A * cos b ^ 2 + 2 * B * (sin b * cos b) + C * sin b ^ 2) ^ 2 * sin b) 0 (PI / 2) (A ^ 2 / 5 + 8 * (A * B) / 15 + (4 * B ^ 2 + 2 * (A * C)) * (2 / 15) + 4 / 5 * (B * C) + 8 / 15 * C ^ 2).
Proof.
  set (F := fun b => - (A ^ 2 * (cos b ^ 5 / 5)) + 4 * (A * B) * (sin b ^ 3 / 3 - sin b ^ 5 / 5) + (4 * B ^ 2 + 2 * (A * C)) * (cos b ^ 5 / 5 - cos b ^ 3 / 3) + 4 * (B * C) * (sin b ^ 5 / 5) + C ^ 2 * (- cos b + 2 / 3 * cos b ^ 3 - cos b ^ 5 / 5)).
  replace (A ^ 2 / 5 + 8 * (A * B) / 15 + (4 * B ^ 2 + 2 * (A * C)) * (2 / 15) + 4 / 5 * (B * C) + 8 / 15 * C ^ 2) with (minus (F (PI / 2)) (F 0)).
  2:{ unfold minus, plus, opp; cbn -[pow]. unfold F. rewrite sin_PI2, cos_PI2, sin_0, cos_0. field. }
  apply (is_RInt_derive (V := R_CompleteNormedModule) F).
  - intros x _. unfold F. auto_derive; auto. pose proof (sin2_cos2 x) as S. unfold Rsqr in S. assert (Q : sin x ^ 2 = 1 - cos x ^ 2) by (simpl; lra).
    ring_simplify. replace (sin x ^ 5) with (sin x * (1 - cos x ^ 2) ^ 2) by (rewrite <- Q; ring). replace (sin x ^ 4) with ((1 - cos x ^ 2) ^ 2) by (rewrite <- Q; ring). replace (sin x ^ 3) with (sin x * (1 - cos x ^ 2)) by (rewrite <- Q; ring). rewrite ?Q. field.
  - intros x _. apply (ex_derive_continuous (V := R_NormedModule)). auto_derive. auto.
Qed.
Lemma averages_square T : symmetric T -> averages (fun u => element T u * element T u) ((2 * trace (product T T) + trace T * trace T) / 15).
Proof.
  intros Sy. split; [apply sloped_mult; apply sloped_element|]. unfold hemisphere_average, over_directions. pose proof PI_RGT_0 as PP.
  set (b := T X Z) in *. set (d := T Y Z) in *. set (A := T Z Z). set (x := T X X). set (y := T Y Y). set (w := T X Y).
  assert (E : forall al be, element T (direction al be) = A * cos be ^ 2 + 2 * (b * cos al + d * sin al) * (sin be * cos be) + (x * cos al ^ 2 + 2 * w * (cos al * sin al) + y * sin al ^ 2) * sin be ^ 2).
  { intros al be. unfold element, asum, direction. rewrite (Sy Z X), (Sy Z Y), (Sy Y X). fold b d A x y w. ring. }
  rewrite (RInt_ext _ (fun al => A ^ 2 / 5 + 8 * (A * (b * cos al + d * sin al)) / 15 + (4 * (b * cos al + d * sin al) ^ 2 + 2 * (A * (x * cos al ^ 2 + 2 * w * (cos al * sin al) + y * sin al ^ 2))) * (2 / 15)
    + 4 / 5 * ((b * cos al + d * sin al) * (x * cos al ^ 2 + 2 * w * (cos al * sin al) + y * sin al ^ 2)) + 8 / 15 * (x * cos al ^ 2 + 2 * w * (cos al * sin al) + y * sin al ^ 2) ^ 2)).
  2:{ intros al _. apply (is_RInt_unique (V := R_CompleteNormedModule)). eapply is_RInt_ext; [|apply polar_square]. intros be _. cbv beta. rewrite E. match goal with |- @eq _ ?l ?r => change (@eq R l r) end. ring. }
  assert (M : mean_over_turn (fun al => A ^ 2 / 5 + 8 * (A * (b * cos al + d * sin al)) / 15 + (4 * (b * cos al + d * sin al) ^ 2 + 2 * (A * (x * cos al ^ 2 + 2 * w * (cos al * sin al) + y * sin al ^ 2))) * (2 / 15)
    + 4 / 5 * ((b * cos al + d * sin al) * (x * cos al ^ 2 + 2 * w * (cos al * sin al) + y * sin al ^ 2)) + 8 / 15 * (x * cos al ^ 2 + 2 * w * (cos al * sin al) + y * sin al ^ 2) ^ 2) ((2 * trace (product T T) + trace T * trace T) / 15)).
  { eapply mean_ext; [| |apply (poly_mean (A ^ 2 / 5) (8 * A * b / 15) (8 * A * d / 15) ((4 * b ^ 2 + 2 * A * x) * (2 / 15)) ((8 * b * d + 4 * A * w) * (2 / 15)) ((4 * d ^ 2 + 2 * A * y) * (2 / 15))
       (4 / 5 * (b * x)) (4 / 5 * (2 * b * w + d * x)) (4 / 5 * (b * y + 2 * d * w)) (4 / 5 * (d * y)) (8 / 15 * x ^ 2) (8 / 15 * (4 * x * w)) (8 / 15 * (4 * w ^ 2 + 2 * x * y)) (8 / 15 * (4 * w * y)) (8 / 15 * y ^ 2))].
    - intros p. cbv beta. field.
    - unfold trace, product, asum. rewrite (Sy Z X), (Sy Z Y), (Sy Y X). fold b d A x y w. field. }
  apply (is_RInt_unique (V := R_CompleteNormedModule)) in M. rewrite M. field. lra.
Qed.
(** The rotor: the element along the field at the phase p *)
Lemma along_z U p th : symmetric U -> element (along (about_z p) U) (direction 0 th) =
  cos th ^ 2 * U Z Z + 2 * (sin th * cos th) * U X Z * cos p + 2 * (sin th * cos th) * U Y Z * sin p + sin th ^ 2 * U X X * cos p ^ 2 + 2 * sin th ^ 2 * U X Y * (cos p * sin p) + sin th ^ 2 * U Y Y * sin p ^ 2.
Proof. intros Sy. unfold element, along, asum. cbn [about_z direction]. rewrite cos_0, sin_0. rewrite (Sy Z X), (Sy Z Y), (Sy Y X). ring. Qed.
Lemma turn_mean U th : symmetric U -> mean_over_turn (fun p => element (along (about_z p) U) (direction 0 th)) (cos th ^ 2 * U Z Z + sin th ^ 2 * (U X X + U Y Y) / 2).
Proof.
  intros Sy. eapply mean_ext; [| |apply (poly_mean (cos th ^ 2 * U Z Z) (2 * (sin th * cos th) * U X Z) (2 * (sin th * cos th) * U Y Z) (sin th ^ 2 * U X X) (2 * sin th ^ 2 * U X Y) (sin th ^ 2 * U Y Y) 0 0 0 0 0 0 0 0 0)].
  - intros p. cbv beta. rewrite along_z by auto. ring.
  - field.
Qed.
Lemma turn_square U th : symmetric U -> mean_over_turn (fun p => element (along (about_z p) U) (direction 0 th) * element (along (about_z p) U) (direction 0 th))
  ((cos th ^ 2 * U Z Z + sin th ^ 2 * (U X X + U Y Y) / 2) ^ 2 + 2 * (sin th * cos th) ^ 2 * W1 U + sin th ^ 4 / 8 * W2 U).
Proof.
  intros Sy. set (A := cos th ^ 2 * U Z Z). set (B := 2 * (sin th * cos th) * U X Z). set (D := 2 * (sin th * cos th) * U Y Z). set (G := sin th ^ 2 * U X X). set (H := 2 * sin th ^ 2 * U X Y). set (K := sin th ^ 2 * U Y Y).
  eapply mean_ext; [| |apply (poly_mean (A ^ 2) (2 * A * B) (2 * A * D) (B ^ 2 + 2 * A * G) (2 * B * D + 2 * A * H) (D ^ 2 + 2 * A * K) (2 * B * G) (2 * B * H + 2 * D * G) (2 * B * K + 2 * D * H) (2 * D * K) (G ^ 2) (2 * G * H) (H ^ 2 + 2 * G * K) (2 * H * K) (K ^ 2))].
  - intros p. cbv beta. rewrite along_z by auto. fold A B D G H K. ring.
  - unfold W1, W2, A, B, D, G, H, K. field.
Qed.
Lemma rotor_lab al be p th T i j : lab (rotor_frame al be p th) T i j = along (euler_axes 0 th 0) (along (about_z p) (along (euler_axes al be 0) T)) i j.
Proof.
  unfold rotor_frame. cbn [lab fold_left turned]. apply along_same. intros k l. rewrite along_euler. apply along_same. intros k' l'. rewrite along_euler. symmetry. 
  unfold along, asum. destruct k', l'; cbn [about_z]; rewrite ?cos_0, ?sin_0; ring.
Qed.
Lemma W_same V V' : (forall i j, V i j = V' i j) -> W1 V = W1 V' /\ W2 V = W2 V'.
Proof. intros H. unfold W1, W2. rewrite !H. auto. Qed.
Lemma symmetric_z p U : symmetric U -> symmetric (along (about_z p) U).
Proof. intros H i j. unfold along, asum. rewrite (H X Y), (H X Z), (H Y Z). destruct i, j; cbn [about_z]; ring. Qed.
Lemma product_sym T : symmetric T -> symmetric (product T T).
Proof. intros H i j. unfold product, asum. rewrite (H i X), (H i Y), (H i Z), (H j X), (H j Y), (H j Z). ring. Qed.
Lemma element_same T T' u : (forall i j, T i j = T' i j) -> element T u = element T' u.
Proof. intros H. unfold element, asum. rewrite !H. reflexivity. Qed.
Section Rotor.
Variable T : tensor3.
Hypothesis Sy : symmetric T.
Hypothesis Tr : trace T = 0.
Lemma rotor_W al be p th : let U := along (euler_axes al be 0) T in let e := element (along (about_z p) U) (direction 0 th) in let q := element (along (about_z p) (along (euler_axes al be 0) (product T T))) (direction 0 th) in
  W1 (lab (rotor_frame al be p th) T) = q - e * e /\ W2 (lab (rotor_frame al be p th) T) = 2 * trace (product T T) - 3 * (e * e) - 4 * (q - e * e).
Proof.
  intros U e q. destruct (W_same _ _ (rotor_lab al be p th T)) as [-> ->]. fold U.
  assert (SU : symmetric (along (about_z p) U)) by (apply symmetric_z; apply along_sym; auto).
  assert (TU : trace (along (about_z p) U) = 0) by (rewrite trace_z; unfold U; rewrite trace_euler; auto).
  destruct (W_static 0 th _ SU TU) as (_ & E1 & E2). rewrite E1, E2.
  assert (Q : element (product (along (about_z p) U) (along (about_z p) U)) (direction 0 th) = q).
  { apply element_same. intros i j. rewrite <- square_z. apply along_same. intros. unfold U. symmetry. apply square_euler. }
  assert (S : trace (product (along (about_z p) U) (along (about_z p) U)) = trace (product T T)).
  { rewrite <- (trace_euler al be 0 (product T T)). rewrite <- (trace_z p (along (euler_axes al be 0) (product T T))). unfold trace, asum. rewrite <- !square_z. f_equal; [f_equal|]; apply along_same; intros; unfold U; symmetry; apply square_euler. }
  rewrite Q, S. fold e. auto.
Qed.
(** The two quadratic forms of the second order: averages, static and spinning *)
Definition form1 (u : axis -> R) : R := element (product T T) u + -1 * (element T u * element T u).
Definition form2 (u : axis -> R) : R := 2 * trace (product T T) + (-3 * (element T u * element T u) + -4 * form1 u).
Let t2 := trace (product T T).
Lemma averages_form1 : averages form1 (t2 / 5).
Proof. eapply averages_ext; [intros; reflexivity| |apply averages_plus; [apply averages_element|apply averages_scal, averages_square; auto]]. rewrite Tr. unfold t2. field. Qed.
Lemma averages_form2 : averages form2 (4 / 5 * t2).
Proof. eapply averages_ext; [intros; reflexivity| |apply averages_plus; [apply averages_const|apply averages_plus; [apply averages_scal, averages_square; auto|apply averages_scal, averages_form1]]]. rewrite Tr. unfold t2. field. Qed.
Lemma static_W al be : W1 (lab (static_frame al be) T) = form1 (direction al be) /\ W2 (lab (static_frame al be) T) = form2 (direction al be).
Proof. change (lab (static_frame al be) T) with (along (euler_axes al be 0) T). destruct (W_static al be T Sy Tr) as (_ & -> & ->). unfold form2, form1. split; ring. Qed.
Definition mean_e2 (th : R) (u : axis -> R) : R := P2 (cos th) ^ 2 * (element T u * element T u) + (2 * (sin th * cos th) ^ 2 * form1 u + sin th ^ 4 / 8 * form2 u).
Definition mean_q (th : R) (u : axis -> R) : R := (cos th ^ 2 - sin th ^ 2 / 2) * element (product T T) u + sin th ^ 2 / 2 * t2.
Lemma averages_e2 th : averages (mean_e2 th) (2 / 15 * t2).
Proof.
  eapply averages_ext; [intros; reflexivity| |apply averages_plus; [apply averages_scal, averages_square; auto|apply averages_plus; apply averages_scal; [apply averages_form1|apply averages_form2]]].
  rewrite Tr. unfold P2. fold t2. pose proof (sin2_cos2 th) as S. unfold Rsqr in S. assert (Q : sin th ^ 2 = 1 - cos th ^ 2) by (simpl; lra). replace (sin th ^ 4) with ((1 - cos th ^ 2) ^ 2) by (rewrite <- Q; ring). rewrite Rpow_mult_distr, Q. field.
Qed.
Lemma averages_q th : averages (mean_q th) (t2 / 3).
Proof.
  eapply averages_ext; [intros; reflexivity| |apply averages_plus; [apply averages_scal, averages_element|apply averages_const]]. fold t2. pose proof (sin2_cos2 th) as S. unfold Rsqr in S. assert (Q : sin th ^ 2 = 1 - cos th ^ 2) by (simpl; lra). rewrite Q. field.
Qed.
Lemma rotor_e2 al be th : let U := along (euler_axes al be 0) T in mean_over_turn (fun p => element (along (about_z p) U) (direction 0 th) * element (along (about_z p) U) (direction 0 th)) (mean_e2 th (direction al be)).
Proof.
  intros U. assert (SU : symmetric U) by (apply along_sym; auto). assert (TU : trace U = 0) by (unfold U; rewrite trace_euler; auto). eapply mean_ext; [intros; reflexivity| |apply turn_square; auto].
  destruct (static_W al be) as [E1 E2]. change (lab (static_frame al be) T) with U in E1, E2. unfold mean_e2. rewrite E1, E2. assert (EZ : U Z Z = element T (direction al be)) by apply along_element.
  unfold trace, asum in TU. replace (U X X + U Y Y) with (- U Z Z) by lra. rewrite EZ. unfold P2. pose proof (sin2_cos2 th) as S. unfold Rsqr in S. assert (Q : sin th ^ 2 = 1 - cos th ^ 2) by (simpl; lra). replace (sin th ^ 4) with ((1 - cos th ^ 2) ^ 2) by (rewrite <- Q; ring). rewrite Rpow_mult_distr, Q. field.
Qed.
Lemma rotor_q al be th : mean_over_turn (fun p => element (along (about_z p) (along (euler_axes al be 0) (product T T))) (direction 0 th)) (mean_q th (direction al be)).
Proof.
  set (U := along (euler_axes al be 0) (product T T)). assert (SU : symmetric U) by (apply along_sym, product_sym; auto). assert (TU : trace U = t2) by (unfold U; rewrite trace_euler; auto). eapply mean_ext; [intros; reflexivity| |apply turn_mean; auto].
  unfold mean_q. assert (EZ : U Z Z = element (product T T) (direction al be)) by apply along_element. unfold trace, asum in TU. replace (U X X + U Y Y) with (t2 - U Z Z) by lra. rewrite EZ. field.
Qed.
Lemma rotor_forms th : exists g1 g2, averages g1 (t2 / 5) /\ averages g2 (4 / 5 * t2) /\ forall al be,
  mean_over_turn (fun p => W1 (lab (rotor_frame al be p th) T)) (g1 (direction al be)) /\ mean_over_turn (fun p => W2 (lab (rotor_frame al be p th) T)) (g2 (direction al be)).
Proof.
  exists (fun u => mean_q th u + -1 * mean_e2 th u), (fun u => 2 * t2 + (-3 * mean_e2 th u + -4 * (mean_q th u + -1 * mean_e2 th u))).
  assert (A1 : averages (fun u => mean_q th u + -1 * mean_e2 th u) (t2 / 5)) by (eapply averages_ext; [intros; reflexivity| |apply averages_plus; [apply averages_q|apply averages_scal, averages_e2]]; field).
  split; auto. split; [eapply averages_ext; [intros; reflexivity| |apply averages_plus; [apply averages_const|apply averages_plus; apply averages_scal; [apply averages_e2|exact A1]]]; field|].
  intros al be. assert (M1 := mean_plus _ _ _ _ (rotor_q al be th) (mean_scal (-1) _ _ (rotor_e2 al be th))). cbv beta zeta in M1. split.
  - eapply mean_ext; [| |exact M1]; [|reflexivity]. intros p. cbv beta. rewrite (proj1 (rotor_W al be p th)). cbv zeta. ring.
  - eapply mean_ext; [| |exact (mean_plus _ _ _ _ (mean_const (2 * t2)) (mean_plus _ _ _ _ (mean_scal (-3) _ _ (rotor_e2 al be th)) (mean_scal (-4) _ _ M1)))]; [|reflexivity].
    intros p. cbv beta zeta. rewrite (proj2 (rotor_W al be p th)). cbv zeta. unfold t2. ring.
Qed.
End Rotor.

(** Energies whose average over the directions is v, static and spinning at any angle *)
Definition settles (lev : list euler -> R) (v : R) : Prop :=
  (exists g, averages g v /\ forall al be, lev (static_frame al be) = g (direction al be)) /\
  forall th, exists g, averages g v /\ forall al be, mean_over_turn (fun p => lev (rotor_frame al be p th)) (g (direction al be)).
Lemma settles_plus f g v w : settles f v -> settles g w -> settles (fun fr => f fr + g fr) (v + w).
Proof.
  intros [(a & A & E) F] [(b & B & E') G]. split.
  - exists (fun u => a u + b u). split; [apply averages_plus; auto|]. intros. rewrite E, E'. reflexivity.
  - intros th. destruct (F th) as (c & C & Ec), (G th) as (d & D & Ed). exists (fun u => c u + d u). split; [apply averages_plus; auto|]. intros. apply (mean_plus (fun p => f (rotor_frame al be p th))); auto.
Qed.
Lemma settles_scal k f v : settles f v -> settles (fun fr => k * f fr) (k * v).
Proof.
  intros [(a & A & E) F]. split.
  - exists (fun u => k * a u). split; [apply averages_scal; auto|]. intros. rewrite E. reflexivity.
  - intros th. destruct (F th) as (c & C & Ec). exists (fun u => k * c u). split; [apply averages_scal; auto|]. intros. apply (mean_scal k (fun p => f (rotor_frame al be p th))); auto.
Qed.
Lemma settles_const c : settles (fun _ => c) c.
Proof. split; [|intros _]; exists (fun _ => c); (split; [apply averages_const|]); intros; [reflexivity|apply mean_const]. Qed.
Lemma settles_ext f g v w : (forall fr, f fr = g fr) -> v = w -> settles f v -> settles g w.
Proof.
  intros H <- [(a & A & E) F]. split; [exists a; split; auto; intros; rewrite <- H; auto|]. intros th. destruct (F th) as (c & C & Ec). exists c. split; auto. intros. eapply mean_ext; [| |apply Ec]; auto. intros. apply H.
Qed.
Lemma settles_tensor T : traceless T -> settles (fun fr => lab fr T Z Z) 0.
Proof.
  intros H. pose proof H as [Sy Tr]. split.
  - exists (element T). split; [|intros; apply lab_static]. eapply averages_ext; [intros; reflexivity| |apply averages_element]. rewrite Tr. field.
  - intros th. exists (fun u => P2 (cos th) * element T u). split; [|intros; apply lab_rotor; auto]. eapply averages_ext; [intros; reflexivity| |apply averages_scal, averages_element]. rewrite Tr. field.
Qed.
Lemma turned_square th e : trace (product (turned th (principal 1 e)) (turned th (principal 1 e))) = 3 / 2 * (1 + e ^ 2 / 3).
Proof.
  destruct th as [[a b] g]. cbn [turned]. assert (E : trace (product (principal 1 e) (principal 1 e)) = 3 / 2 * (1 + e ^ 2 / 3)) by (unfold trace, product, asum; cbn [principal]; field).
  rewrite <- E, <- (trace_euler a b g (product (principal 1 e) (principal 1 e))). unfold trace, asum. rewrite !square_euler. reflexivity.
Qed.
Lemma settles_energy2 n nu0 Cq th e a : nu0 <> 0 -> (a <= n)%nat ->
  settles (fun fr => energy2 n nu0 (H_quad n Cq (lab fr (turned th (principal 1 e)))) a) (induced_shift n nu0 Cq e (quantum n a)).
Proof.
  intros N A. set (T := turned th (principal 1 e)). destruct (traceless_turned th 1 e) as [Sy Tr]. fold T in Sy, Tr.
  set (m := quantum n a). set (k := kq n Cq). set (c1 := fun m => k * k / 4 * rho2 n m * ((2 * m + 1) * (2 * m + 1))). set (c2 := fun m => k * k / 16 * rho2 n m * rho2 n (m + 1)).
  set (p := (c1 (m - 1) - c1 m) / nu0). set (q := (c2 (m - 2) - c2 m) / 2 / nu0).
  assert (S1 : settles (fun fr => W1 (lab fr T)) (trace (product T T) / 5) /\ settles (fun fr => W2 (lab fr T)) (4 / 5 * trace (product T T))).
  { split; split.
    - exists (form1 T). split; [apply averages_form1; auto|intros al be; exact (proj1 (static_W T Sy Tr al be))].
    - intros t. destruct (rotor_forms T Sy Tr t) as (g1 & g2 & A1 & A2 & M). exists g1. split; auto. intros al be. exact (proj1 (M al be)).
    - exists (form2 T). split; [apply averages_form2; auto|intros al be; exact (proj2 (static_W T Sy Tr al be))].
    - intros t. destruct (rotor_forms T Sy Tr t) as (g1 & g2 & A1 & A2 & M). exists g2. split; auto. intros al be. exact (proj2 (M al be)). }
  destruct S1 as [S1 S2]. eapply settles_ext; [| |apply settles_plus; [apply (settles_scal p); exact S1|apply (settles_scal q); exact S2]].
  - intros fr. cbv beta. rewrite energy2_quad by (auto; apply lab_sym; auto). fold m k. unfold U1, U2, p, q, c1, c2. field. auto.
  - unfold induced_shift. cbv zeta. fold m. fold (kq n Cq). fold k. rewrite <- (turned_square th e). fold T. unfold p, q, c1, c2, rho2. set (t := trace (product T T)). field. auto.
Qed.
Lemma settles_system second B0 sites cps ns lv : (forall s n a, In (s, (n, a)) (combine sites (combine ns lv)) -> (a <= n)%nat /\ (second = true -> B0 * s_gamma s <> 0)) ->
  settles (fun fr => system_level second B0 sites cps fr ns lv) (isotropic_energy second B0 sites cps ns lv).
Proof.
  intros H. destruct (system_split B0 sites cps ns lv ltac:(intros; eapply H; eauto)) as (T & HT & E).
  assert (S2 : settles (fun fr => rtotal (fun x => site_level second B0 (fst x) fr (fst (snd x)) (snd (snd x))) (combine sites (combine ns lv)) - rtotal (fun x => site_level false B0 (fst x) fr (fst (snd x)) (snd (snd x))) (combine sites (combine ns lv)))
    (if second then rtotal (fun x => site_shift B0 (fst x) (fst (snd x)) (snd (snd x))) (combine sites (combine ns lv)) else 0)).
  { destruct second; [|eapply settles_ext; [| |apply (settles_const 0)]; intros; cbv beta; ring]. clear E T HT. revert H. generalize (combine sites (combine ns lv)) as l. induction l as [|[s [n a]] l IH]; intros H.
    { eapply settles_ext; [| |apply (settles_const 0)]; intros; cbv beta; cbn [rtotal fold_right]; ring. }
    destruct (H s n a ltac:(left; reflexivity)) as [A NZ]. specialize (NZ eq_refl).
    assert (ONE : settles (fun fr => site_level true B0 s fr n a - site_level false B0 s fr n a) (site_shift B0 s n a)).
    { unfold site_level, site_shift. cbv zeta. destruct (Nat.ltb n 2); [eapply settles_ext; [| |apply (settles_const 0)]; intros; cbv beta; ring|].
      eapply settles_ext; [| |apply (settles_energy2 n (- (B0 * s_gamma s) * 1000000) (s_Cq s) (s_qtheta s) (s_qeta s) a); [lra|exact A]]; [|reflexivity]. intros fr. cbv beta. ring. }
    eapply settles_ext; [| |apply settles_plus; [exact ONE|apply IH; intros; apply H; right; auto]]; [|rewrite !(PhysEvent.rtotal_cons (A := site * (nat * nat))); reflexivity]. intros fr. cbv beta. rewrite !(PhysEvent.rtotal_cons (A := site * (nat * nat))). cbn [fst snd]. ring. }
  set (c := system_level false B0 (map isotropic_site sites) (map isotropic_coupling cps) [] ns lv).
  eapply settles_ext; [| |apply settles_plus; [apply settles_plus; [apply (settles_const c)|apply settles_tensor; exact HT]|exact S2]].
  - intros fr. cbv beta. specialize (E fr). rewrite (isotropic_level B0 sites cps fr [] ns lv ltac:(intros; eapply H; eauto)) in E. fold c in E. unfold system_level at 1 in E. unfold system_level at 1. lra.
  - unfold isotropic_energy. fold c. ring.
Qed.
