(** The integral over the face of the octahedron as an integral over the directions. *)
From Coq Require Import Reals List Lia Psatz.
From Coquelicot Require Import Coquelicot.
From Verif Require Import DftModel DftProofs WignerNorm WignerProofs PhysSpec AverageProofs SphereRiemann SphereSpec.
From Coq Require Import Lra.
Open Scope R_scope.

(** ** Exchange of integrals of a function with slopes at most L *)
Definition lip2 (K : R -> R -> R) (L : R) : Prop := forall a b a' b', Rabs (K a b - K a' b') <= L * (Rabs (a - a') + Rabs (b - b')).
Lemma lip2_l K L : 0 <= L -> lip2 K L -> forall a x, continuous (fun b => K a b) x.
Proof. intros HL H a x. apply (lip_continuous _ L _ HL). intros y _. eapply Rle_trans; [apply H|]. rewrite (Rminus_diag_eq a a) by auto. rewrite Rabs_R0, Rplus_0_l. lra. Qed.
Lemma lip2_swap K L : lip2 K L -> lip2 (fun b a => K a b) L.
Proof. intros H a b a' b'. rewrite Rplus_comm. apply H. Qed.
Lemma lip2_int K L : 0 <= L -> lip2 K L -> forall a a', Rabs (RInt (K a) 0 1 - RInt (K a') 0 1) <= L * Rabs (a - a').
Proof.
  intros HL H a a'. assert (C : forall a x, continuous (K a) x) by (intros a0 x; apply (lip2_l K L HL H a0 x)).
  assert (E : RInt (fun b => K a b - K a' b) 0 1 = RInt (K a) 0 1 - RInt (K a') 0 1).
  { rewrite (RInt_minus (V := R_CompleteNormedModule) (K a) (K a')) by (apply continuous_ex; auto). reflexivity. }
  rewrite <- E. eapply Rle_trans; [apply (RInt_bound _ 0 1 (L * Rabs (a - a')))|].
  - intros x. apply (continuous_minus (V := R_NormedModule)); apply C.
  - intros x. eapply Rle_trans; [apply H|]. rewrite (Rminus_diag_eq x x) by auto. rewrite Rabs_R0, Rplus_0_r. lra.
  - rewrite Rminus_0_r, Rabs_R1. lra.
Qed.
Lemma lip2_int_cont K L : 0 <= L -> lip2 K L -> forall a, continuous (fun a => RInt (K a) 0 1) a.
Proof. intros HL H a. apply (lip_continuous _ L _ HL). intros y _. apply (lip2_int K L HL H). Qed.
Lemma double_sum K L n : (1 <= n)%nat -> 0 <= L -> lip2 K L -> let h := / INR n in
  Rabs (rsum n (fun i => h * rsum n (fun j => h * K (INR i * h) (INR j * h))) - RInt (fun a => RInt (K a) 0 1) 0 1) <= 2 * L * h.
Proof.
  intros N HL H h. assert (N0 : 0 < INR n) by (apply lt_0_INR; lia). assert (H0 : 0 < h) by (apply Rinv_0_lt_compat; auto). assert (H1 : INR n * h = 1) by (unfold h; field; lra).
  set (V := fun a => RInt (K a) 0 1).
  assert (A : Rabs (rsum n (fun i => h * V (INR i * h)) - RInt V 0 1) <= L * h).
  { rewrite <- H1 at 1. eapply Rle_trans; [apply (left_sum V L h n)|]; [lra|intros; apply (lip2_int_cont K L HL H)|intros; apply (lip2_int K L HL H)|auto|]. replace (INR n * (L * h * h)) with (INR n * h * (L * h)) by ring. rewrite H1. lra. }
  assert (B : Rabs (rsum n (fun i => h * rsum n (fun j => h * K (INR i * h) (INR j * h))) - rsum n (fun i => h * V (INR i * h))) <= L * h).
  { rewrite <- rsum_sub. eapply Rle_trans; [apply rsum_abs|]. replace (L * h) with (INR n * (h * (L * h))) by (replace (INR n * (h * (L * h))) with (INR n * h * (L * h)) by ring; rewrite H1; ring).
    rewrite <- rsum_const. apply rsum_le. intros i _. rewrite <- Rmult_minus_distr_l, Rabs_mult, (Rabs_pos_eq h) by lra. apply Rmult_le_compat_l; [lra|].
    unfold V. rewrite <- H1 at 1. eapply Rle_trans; [apply (left_sum (K (INR i * h)) L h n)|]; [lra|intros; apply (lip2_l K L HL H)| |auto|].
    - intros x y _ _. eapply Rle_trans; [apply H|]. rewrite (Rminus_diag_eq (INR i * h)) by auto. rewrite Rabs_R0, Rplus_0_l. lra.
    - replace (INR n * (L * h * h)) with (INR n * h * (L * h)) by ring. rewrite H1. lra. }
  replace (2 * L * h) with (L * h + L * h) by ring. eapply Rle_trans; [|apply Rplus_le_compat; [exact B|exact A]]. eapply Rle_trans; [|apply Rabs_triang]. apply Req_le. f_equal. ring.
Qed.
Lemma small_zero x C : (forall n, (1 <= n)%nat -> Rabs x <= C * / INR n) -> x = 0.
Proof.
  intros H. destruct (Req_dec x 0) as [|NZ]; auto. exfalso. pose proof (Rabs_pos_lt x NZ) as P. assert (C0 : 0 < C) by (specialize (H 1%nat ltac:(lia)); cbn in H; rewrite Rinv_1 in H; lra).
  destruct (archimed_cor1 (Rabs x / (C + 1))) as (n & Hn & Hp); [apply Rdiv_lt_0_compat; lra|]. specialize (H n ltac:(lia)).
  assert (E : Rabs x / (C + 1) * (C + 1) = Rabs x) by (field; lra). assert (0 < / INR n) by (apply Rinv_0_lt_compat, lt_0_INR; lia). nra.
Qed.
Theorem fubini K L : 0 <= L -> lip2 K L -> RInt (fun a => RInt (fun b => K a b) 0 1) 0 1 = RInt (fun b => RInt (fun a => K a b) 0 1) 0 1.
Proof.
  intros HL H. apply Rminus_diag_uniq. apply (small_zero _ (4 * L)). intros n N. pose proof (double_sum K L n N HL H) as A. pose proof (double_sum _ L n N HL (lip2_swap _ _ H)) as B. cbv zeta beta in A, B. set (h := / INR n) in *.
  assert (S : rsum n (fun i => h * rsum n (fun j => h * K (INR i * h) (INR j * h))) = rsum n (fun i => h * rsum n (fun j => h * K (INR j * h) (INR i * h)))).
  { rewrite (rsum_ext n _ (fun i => rsum n (fun j => h * (h * K (INR i * h) (INR j * h))))) by (intros; rewrite <- rsum_scal; reflexivity). rewrite rsum_swap. apply rsum_ext. intros i _. rewrite <- rsum_scal. reflexivity. }
  rewrite <- S in B. change (RInt (fun a => RInt (fun b => K a b) 0 1) 0 1) with (RInt (fun a => RInt (K a) 0 1) 0 1). match type of A with Rabs (?s - ?i) <= _ => match type of B with Rabs (_ - ?j) <= _ => replace (i - j) with (- (s - i) + (s - j)) by ring end end.
  eapply Rle_trans; [apply Rabs_triang|]. rewrite Rabs_Ropp. replace (4 * L * h) with (2 * L * h + 2 * L * h) by ring. apply Rplus_le_compat; [exact A|exact B].
Qed.

(** ** The face *)
Definition rho (y z : R) : R := sqrt ((1 - y - z) * (1 - y - z) + y * y + z * z).
Definition cube (y z : R) : R := / rho y z * / rho y z * / rho y z.
Definition face_dir (y z : R) : axis -> R := fun i => match i with X => 1 - y - z | Y => y | Z => z end / rho y z.
Lemma sqn x : 0 <= x * x. Proof. apply Rle_0_sqr. Qed.
Lemma rho_sq y z : rho y z * rho y z = (1 - y - z) * (1 - y - z) + y * y + z * z.
Proof. apply sqrt_sqrt. pose proof (sqn (1 - y - z)). pose proof (sqn y). pose proof (sqn z). lra. Qed.
Lemma rho_third y z : 1 / 3 <= rho y z * rho y z.
Proof. rewrite rho_sq. pose proof (sqn (y - z)). pose proof (sqn (y + z - 2 / 3)). lra. Qed.
Lemma rho_pos y z : 0 < rho y z.
Proof. pose proof (rho_third y z). pose proof (sqrt_pos ((1 - y - z) * (1 - y - z) + y * y + z * z)) as H0. fold (rho y z) in H0. destruct H0 as [|E]; auto. rewrite <- E in H. lra. Qed.
Lemma irho_bound y z : 0 < / rho y z <= 7 / 4 /\ / rho y z * / rho y z <= 3.
Proof.
  pose proof (rho_pos y z) as P. pose proof (rho_third y z) as T. assert (0 < / rho y z) by (apply Rinv_0_lt_compat; auto). assert (E : / rho y z * rho y z = 1) by (apply Rinv_l; lra). set (i := / rho y z) in *. set (r := rho y z) in *.
  assert (E2 : (i * i) * (r * r) = 1) by (replace (i * i * (r * r)) with ((i * r) * (i * r)) by ring; rewrite E; ring). assert (i * i <= 3) by nra. split; auto. split; auto. nra.
Qed.
Lemma abs_le_rho a s : a * a <= s * s -> 0 <= s -> Rabs a <= s.
Proof. intros H S. apply Rabs_le. split; nra. Qed.
Lemma rho_lip y z y' z' : Rabs (rho y z - rho y' z') <= 2 * (Rabs (y - y') + Rabs (z - z')).
Proof.
  pose proof (rho_pos y z) as P. pose proof (rho_pos y' z') as P'. pose proof (rho_sq y z) as Q. pose proof (rho_sq y' z') as Q'. set (r := rho y z) in *. set (r' := rho y' z') in *.
  pose proof (sqn y). pose proof (sqn z). pose proof (sqn (1 - y - z)). pose proof (sqn y'). pose proof (sqn z'). pose proof (sqn (1 - y' - z')).
  assert (AY : Rabs (y + y') <= r + r') by (eapply Rle_trans; [apply Rabs_triang|]; apply Rplus_le_compat; apply abs_le_rho; lra).
  assert (AZ : Rabs (z + z') <= r + r') by (eapply Rle_trans; [apply Rabs_triang|]; apply Rplus_le_compat; apply abs_le_rho; lra).
  assert (AX : Rabs ((1 - y - z) + (1 - y' - z')) <= r + r') by (eapply Rle_trans; [apply Rabs_triang|]; apply Rplus_le_compat; apply abs_le_rho; lra).
  apply (Rmult_le_reg_r (r + r')); [lra|]. rewrite <- (Rabs_pos_eq (r + r')) at 1 by lra. rewrite <- Rabs_mult.
  replace ((r - r') * (r + r')) with (((1 - y - z) - (1 - y' - z')) * ((1 - y - z) + (1 - y' - z')) + (y - y') * (y + y') + (z - z') * (z + z')) by (replace ((r - r') * (r + r')) with (r * r - r' * r') by ring; rewrite Q, Q'; ring).
  set (dy := Rabs (y - y')). set (dz := Rabs (z - z')). assert (DX : Rabs ((1 - y - z) - (1 - y' - z')) <= dy + dz) by (replace ((1 - y - z) - (1 - y' - z')) with (- (y - y') + - (z - z')) by ring; eapply Rle_trans; [apply Rabs_triang|]; rewrite !Rabs_Ropp; unfold dy, dz; lra).
  replace (2 * (dy + dz) * (r + r')) with ((dy + dz) * (r + r') + dy * (r + r') + dz * (r + r')) by ring.
  eapply Rle_trans; [apply Rabs_triang|]. apply Rplus_le_compat; [eapply Rle_trans; [apply Rabs_triang|]; apply Rplus_le_compat|]; rewrite Rabs_mult; apply Rmult_le_compat; auto using Rabs_pos; unfold dy, dz; lra.
Qed.
Lemma irho_lip y z y' z' : Rabs (/ rho y z - / rho y' z') <= 6 * (Rabs (y - y') + Rabs (z - z')).
Proof.
  pose proof (rho_pos y z) as P. pose proof (rho_pos y' z') as P'. pose proof (rho_lip y' z' y z) as L. rewrite (Rabs_minus_sym y' y), (Rabs_minus_sym z' z) in L. destruct (irho_bound y z) as [[I0 I1] I2], (irho_bound y' z') as [[J0 J1] J2].
  replace (/ rho y z - / rho y' z') with ((/ rho y z * / rho y' z') * (rho y' z' - rho y z)) by (field; lra). rewrite Rabs_mult, Rabs_pos_eq by nra. set (d := Rabs (y - y') + Rabs (z - z')) in *. assert (D0 : 0 <= d) by (unfold d; pose proof (Rabs_pos (y - y')); pose proof (Rabs_pos (z - z')); lra).
  replace (6 * d) with (3 * (2 * d)) by ring. apply Rmult_le_compat; auto using Rabs_pos; [nra|]. nra.
Qed.
Lemma cube_bound y z : Rabs (cube y z) <= 21 / 4.
Proof. unfold cube. destruct (irho_bound y z) as [[I0 I1] I2]. set (i := / rho y z) in *. rewrite Rabs_pos_eq by (apply Rmult_le_pos; nra). nra. Qed.
Lemma cube_lip y z y' z' : Rabs (cube y z - cube y' z') <= 54 * (Rabs (y - y') + Rabs (z - z')).
Proof.
  unfold cube. pose proof (irho_lip y z y' z') as L. destruct (irho_bound y z) as [[I0 I1] I2], (irho_bound y' z') as [[J0 J1] J2]. set (i := / rho y z) in *. set (j := / rho y' z') in *. set (d := Rabs (y - y') + Rabs (z - z')) in *.
  replace (i * i * i - j * j * j) with ((i - j) * (i * i + i * j + j * j)) by ring. rewrite Rabs_mult, (Rabs_pos_eq (i * i + i * j + j * j)) by nra. replace (54 * d) with (6 * d * 9) by ring. apply Rmult_le_compat; auto using Rabs_pos; nra.
Qed.
Lemma face_unit y z : unit_vector (face_dir y z).
Proof. unfold unit_vector, face_dir. pose proof (rho_pos y z) as P. pose proof (rho_sq y z) as Q. field_simplify_eq; [|lra]. replace (rho y z ^ 2) with (rho y z * rho y z) by ring. rewrite Q. ring. Qed.
Lemma face_dist y z y' z' : dist3 (face_dir y z) (face_dir y' z') <= 14 * (Rabs (y - y') + Rabs (z - z')).
Proof.
  pose proof (rho_lip y' z' y z) as L. rewrite (Rabs_minus_sym y' y), (Rabs_minus_sym z' z) in L. destruct (irho_bound y' z') as [[J0 J1] J2]. pose proof (rho_pos y z) as P. pose proof (rho_pos y' z') as P'. pose proof (face_unit y z) as U. unfold unit_vector in U.
  assert (C : forall a a', Rabs (a / rho y z) <= 1 -> Rabs (a / rho y z - a' / rho y' z') <= 7 / 4 * (Rabs (a - a') + Rabs (rho y' z' - rho y z))).
  { intros a a' A. replace (a / rho y z - a' / rho y' z') with (/ rho y' z' * ((a - a') + a / rho y z * (rho y' z' - rho y z))) by (field; lra). rewrite Rabs_mult, (Rabs_pos_eq (/ rho y' z')) by lra.
    apply Rmult_le_compat; [lra|apply Rabs_pos|auto|]. eapply Rle_trans; [apply Rabs_triang|]. apply Rplus_le_compat_l. rewrite Rabs_mult. pose proof (Rabs_pos (rho y' z' - rho y z)). nra. }
  unfold dist3, face_dir in *. set (d := Rabs (y - y') + Rabs (z - z')) in *.
  assert (DX : Rabs ((1 - y - z) - (1 - y' - z')) <= d) by (replace ((1 - y - z) - (1 - y' - z')) with (- (y - y') + - (z - z')) by ring; eapply Rle_trans; [apply Rabs_triang|]; rewrite !Rabs_Ropp; unfold d; lra).
  pose proof (sqn ((1 - y - z) / rho y z)). pose proof (sqn (y / rho y z)). pose proof (sqn (z / rho y z)).
  pose proof (C (1 - y - z) (1 - y' - z') ltac:(apply abs_le_rho; lra)). pose proof (C y y' ltac:(apply abs_le_rho; lra)). pose proof (C z z' ltac:(apply abs_le_rho; lra)). fold d in L. unfold d in *. lra.
Qed.

(** ** Change of variables *)
Definition clamp (t : R) : R := Rmax 0 (Rmin 1 t).
Lemma clamp_in t : 0 <= clamp t <= 1.
Proof. unfold clamp. split; [apply Rmax_l|]. apply Rmax_lub; [lra|apply Rmin_l]. Qed.
Lemma clamp_id t : 0 <= t <= 1 -> clamp t = t.
Proof. intros H. unfold clamp. rewrite Rmin_right, Rmax_right; lra. Qed.
Lemma clamp_lip a b : Rabs (clamp a - clamp b) <= Rabs (a - b).
Proof. unfold clamp, Rmax, Rmin. repeat destruct Rle_dec; unfold Rabs; repeat destruct Rcase_abs; lra. Qed.
Section Change.
Variable g : (axis -> R) -> R.
Variables L B : R.
Hypothesis HL : slope g L.
Hypothesis L0 : 0 <= L.
Hypothesis HB : forall u, unit_vector u -> Rabs (g u) <= B.
Definition gf (y z : R) : R := g (face_dir y z).
Lemma gf_bound y z : Rabs (gf y z) <= B. Proof. apply HB, face_unit. Qed.
Lemma gf_lip y z y' z' : Rabs (gf y z - gf y' z') <= 14 * L * (Rabs (y - y') + Rabs (z - z')).
Proof. eapply Rle_trans; [apply HL; apply face_unit|]. replace (14 * L * (Rabs (y - y') + Rabs (z - z'))) with (L * (14 * (Rabs (y - y') + Rabs (z - z')))) by ring. apply Rmult_le_compat_l; auto. apply face_dist. Qed.
Let M := 21 / 4 * (14 * L) + B * 54.
Let P := 21 / 4 * B.
Definition Gf (y z : R) : R := cube y z * gf y z.
Lemma Gf_bound y z : Rabs (Gf y z) <= P. Proof. exact (G_bound cube gf (21 / 4) B cube_bound gf_bound y z). Qed.
Lemma Gf_lip y z y' z' : Rabs (Gf y z - Gf y' z') <= M * (Rabs (y - y') + Rabs (z - z')).
Proof. exact (G_lip cube gf (21 / 4) 54 B (14 * L) cube_bound gf_bound cube_lip gf_lip y z y' z'). Qed.
Lemma B0 : 0 <= B. Proof. eapply Rle_trans; [apply Rabs_pos|apply (gf_bound 0 0)]. Qed.
Lemma M0 : 0 <= M. Proof. pose proof B0. unfold M. nra. Qed.
Lemma P0 : 0 <= P. Proof. pose proof B0. unfold P. nra. Qed.
Definition Kc (t z : R) : R := (1 - clamp z) * Gf ((1 - clamp z) * clamp t) (clamp z).
Lemma Kc_lip : lip2 Kc (P + 2 * M).
Proof.
  intros t z t' z'. unfold Kc. pose proof (clamp_in t). pose proof (clamp_in t'). pose proof (clamp_in z). pose proof (clamp_in z'). pose proof (clamp_lip t t') as CT. pose proof (clamp_lip z z') as CZ. pose proof M0. pose proof P0.
  set (a := clamp t) in *. set (a' := clamp t') in *. set (b := clamp z) in *. set (b' := clamp z') in *.
  replace ((1 - b) * Gf ((1 - b) * a) b - (1 - b') * Gf ((1 - b') * a') b') with ((1 - b) * (Gf ((1 - b) * a) b - Gf ((1 - b') * a') b') + (b' - b) * Gf ((1 - b') * a') b') by ring.
  pose proof (Gf_lip ((1 - b) * a) b ((1 - b') * a') b') as GL. pose proof (Gf_bound ((1 - b') * a') b') as GB. set (D := Gf ((1 - b) * a) b - Gf ((1 - b') * a') b') in *. set (E := Gf ((1 - b') * a') b') in *.
  assert (S : Rabs ((1 - b) * a - (1 - b') * a') <= Rabs (a - a') + Rabs (b - b')).
  { replace ((1 - b) * a - (1 - b') * a') with ((1 - b) * (a - a') + - a' * (b - b')) by ring. eapply Rle_trans; [apply Rabs_triang|]. rewrite !Rabs_mult, Rabs_Ropp, (Rabs_pos_eq (1 - b)), (Rabs_pos_eq a') by lra.
    pose proof (Rabs_pos (a - a')). pose proof (Rabs_pos (b - b')). nra. }
  set (dt := Rabs (t - t')) in *. set (dz := Rabs (z - z')) in *. pose proof (Rabs_pos (a - a')) as A0. pose proof (Rabs_pos (b - b')) as A1.
  eapply Rle_trans; [apply Rabs_triang|]. rewrite !Rabs_mult, (Rabs_pos_eq (1 - b)), (Rabs_minus_sym b' b) by lra.
  assert (D1 : Rabs D <= M * (2 * (dt + dz))) by (eapply Rle_trans; [exact GL|]; apply Rmult_le_compat_l; lra).
  assert (D2 : (1 - b) * Rabs D <= M * (2 * (dt + dz))) by (pose proof (Rabs_pos D); nra). assert (D3 : Rabs (b - b') * Rabs E <= (dt + dz) * P) by (apply Rmult_le_compat; auto using Rabs_pos; lra). lra.
Qed.
Lemma Kc_pos : 0 <= P + 2 * M. Proof. pose proof M0. pose proof P0. lra. Qed.

Lemma step1 : RInt (inner cube gf) 0 1 = RInt (fun z => RInt (fun t => Kc t z) 0 1) 0 1.
Proof.
  apply RInt_ext. intros z. rewrite Rmin_left, Rmax_right by lra. intros Hz. unfold inner.
  assert (E : RInt (fun y => cube y z * gf y z) ((1 - z) * 0 + 0) ((1 - z) * 1 + 0) = RInt (fun t => scal (1 - z) ((fun y => cube y z * gf y z) ((1 - z) * t + 0))) 0 1).
  { symmetry. apply (RInt_comp_lin (V := R_CompleteNormedModule) (fun y => cube y z * gf y z)). exact (G_ex cube gf (21 / 4) 54 B (14 * L) cube_bound gf_bound cube_lip gf_lip ltac:(lra) ltac:(lra) z _ _). }
  replace ((1 - z) * 0 + 0) with 0 in E by ring. replace ((1 - z) * 1 + 0) with (1 - z) in E by ring. rewrite E. apply RInt_ext. intros t. rewrite Rmin_left, Rmax_right by lra. intros Ht. unfold Kc, Gf. rewrite !clamp_id by lra. unfold scal; cbn. unfold mult; cbn. rewrite Rplus_0_r. reflexivity.
Qed.
Definition tau (al : R) : R := sin al / (sin al + cos al).
Definition zed (al be : R) : R := cos be / ((sin al + cos al) * sin be + cos be).
Lemma sum_pos al : 0 <= al <= PI / 2 -> 0 < sin al + cos al.
Proof.
  intros H. pose proof PI_RGT_0. assert (0 <= sin al) by (apply sin_ge_0; lra). assert (0 <= cos al) by (apply cos_ge_0; lra). pose proof (sin2_cos2 al) as S. unfold Rsqr in S. nra.
Qed.
Lemma den_pos al be : 0 <= al <= PI / 2 -> 0 <= be <= PI / 2 -> 0 < (sin al + cos al) * sin be + cos be.
Proof.
  intros H H'. pose proof (sum_pos al H) as S. pose proof PI_RGT_0. assert (0 <= sin be) by (apply sin_ge_0; lra). assert (0 <= cos be) by (apply cos_ge_0; lra). pose proof (sin2_cos2 be) as T. unfold Rsqr in T.
  assert (0 <= (sin al + cos al) * sin be) by (apply Rmult_le_pos; lra). destruct (Req_dec (cos be) 0) as [E|E]; [|lra]. assert (0 < sin be) by nra. rewrite E, Rplus_0_r. apply Rmult_lt_0_compat; auto.
Qed.
(** The point of the face in direction (al, be). *)
Lemma face_point al be : 0 <= al <= PI / 2 -> 0 <= be <= PI / 2 -> let N := (sin al + cos al) * sin be + cos be in
  0 <= tau al <= 1 /\ 0 <= zed al be <= 1 /\ 1 - zed al be = (sin al + cos al) * sin be / N /\ rho ((1 - zed al be) * tau al) (zed al be) = / N /\
  forall i, face_dir ((1 - zed al be) * tau al) (zed al be) i = direction al be i.
Proof.
  intros H H' N. pose proof (sum_pos al H) as S. pose proof (den_pos al be H H') as D. fold N in D. pose proof PI_RGT_0.
  assert (0 <= sin al) by (apply sin_ge_0; lra). assert (0 <= cos al) by (apply cos_ge_0; lra). assert (0 <= sin be) by (apply sin_ge_0; lra). assert (0 <= cos be) by (apply cos_ge_0; lra).
  pose proof (sin2_cos2 al) as TA. pose proof (sin2_cos2 be) as TB. unfold Rsqr in TA, TB.
  assert (Z1 : 1 - zed al be = (sin al + cos al) * sin be / N) by (unfold zed; fold N; apply (Rmult_eq_reg_r N); [|lra]; field_simplify; [|lra|lra]; unfold N; ring).
  assert (Y1 : (1 - zed al be) * tau al = sin al * sin be / N) by (rewrite Z1; unfold tau; field; lra).
  assert (X1 : 1 - (1 - zed al be) * tau al - zed al be = cos al * sin be / N) by (replace (1 - (1 - zed al be) * tau al - zed al be) with ((1 - zed al be) - (1 - zed al be) * tau al) by ring; rewrite Y1, Z1; field; lra).
  assert (ZZ : zed al be = cos be / N) by reflexivity.
  assert (R : rho ((1 - zed al be) * tau al) (zed al be) = / N).
  { unfold rho. rewrite X1, Y1, ZZ. replace (cos al * sin be / N * (cos al * sin be / N) + sin al * sin be / N * (sin al * sin be / N) + cos be / N * (cos be / N)) with (/ N * / N).
    - apply sqrt_square. apply Rlt_le, Rinv_0_lt_compat; auto.
    - replace (cos al * sin be / N * (cos al * sin be / N) + sin al * sin be / N * (sin al * sin be / N) + cos be / N * (cos be / N)) with (((sin al * sin al + cos al * cos al) * (sin be * sin be) + cos be * cos be) * (/ N * / N)) by (field; lra).
      rewrite TA, Rmult_1_l, TB. ring. }
  assert (I : 0 < / N) by (apply Rinv_0_lt_compat; auto).
  split; [|split; [|split; [exact Z1|split; [exact R|]]]].
  - split; [apply Rle_mult_inv_pos; auto|]. unfold tau. apply (Rmult_le_reg_r (sin al + cos al)); auto. unfold Rdiv. rewrite Rmult_assoc, Rinv_l by lra. lra.
  - assert (0 <= zed al be) by (rewrite ZZ; apply Rle_mult_inv_pos; auto). assert (0 <= 1 - zed al be) by (rewrite Z1; apply Rle_mult_inv_pos; auto; apply Rmult_le_pos; lra). lra.
  - intros i. unfold face_dir. rewrite R. destruct i; cbn [direction]; rewrite ?X1, ?Y1, ?ZZ; field; lra.
Qed.
Lemma g_ext u v : unit_vector u -> (forall i, v i = u i) -> g v = g u.
Proof.
  intros U E. assert (V : unit_vector v) by (unfold unit_vector; rewrite !E; exact U). pose proof (HL v u V U) as H. unfold dist3 in H. rewrite !E, (Rminus_diag_eq (u X) (u X)), (Rminus_diag_eq (u Y) (u Y)), (Rminus_diag_eq (u Z) (u Z)), Rabs_R0 in H by auto.
  replace (L * (0 + 0 + 0)) with 0 in H by ring. pose proof (Rabs_pos (g v - g u)). destruct (Req_dec (g v - g u) 0) as [Z|Z]; [lra|]. pose proof (Rabs_pos_lt _ Z). lra.
Qed.
Lemma step4 al : 0 <= al <= PI / 2 -> RInt (fun z => Kc (tau al) z) 0 1 = (sin al + cos al) * (sin al + cos al) * RInt (fun be => g (direction al be) * sin be) 0 (PI / 2).
Proof.
  intros H. pose proof PI_RGT_0 as PI0. pose proof (sum_pos al H) as S. set (D := sin al + cos al) in *.
  set (dz := fun be => - D / ((D * sin be + cos be) * (D * sin be + cos be))).
  assert (Z0 : zed al 0 = 1) by (unfold zed; rewrite sin_0, cos_0; field; lra). assert (Z1 : zed al (PI / 2) = 0) by (unfold zed; rewrite sin_PI2, cos_PI2; fold D; field; lra).
  assert (C : RInt (fun be => scal (dz be) (Kc (tau al) (zed al be))) 0 (PI / 2) = RInt (fun z => Kc (tau al) z) (zed al 0) (zed al (PI / 2))).
  { apply (RInt_comp (V := R_CompleteNormedModule) (fun z => Kc (tau al) z) (zed al) dz).
    - intros x _. apply (lip2_l Kc _ Kc_pos Kc_lip).
    - intros be. rewrite Rmin_left, Rmax_right by lra. intros Hb. pose proof (den_pos al be H Hb) as N. fold D in N. split.
      + unfold zed, dz. fold D. auto_derive; [fold D; lra|]. fold D. pose proof (sin2_cos2 be) as T. unfold Rsqr in T. field_simplify_eq; [|lra]. replace (cos be ^ 2) with (1 - sin be ^ 2) by (replace (sin be ^ 2) with (sin be * sin be) by ring; replace (cos be ^ 2) with (cos be * cos be) by ring; lra). ring.
      + apply (ex_derive_continuous (V := R_NormedModule)). unfold dz. auto_derive. nra. }
  rewrite Z0, Z1 in C. rewrite <- (opp_RInt_swap (V := R_CompleteNormedModule)) by (apply continuous_ex; intros; apply (lip2_l Kc _ Kc_pos Kc_lip)). rewrite <- C.
  assert (EX : ex_RInt (fun be => scal (dz be) (Kc (tau al) (zed al be))) 0 (PI / 2)).
  { apply continuous_ex. intros be. rewrite Rmin_left, Rmax_right by lra. intros Hb. pose proof (den_pos al be H Hb) as N. fold D in N. apply (continuous_scal (V := R_NormedModule)).
    - apply (ex_derive_continuous (V := R_NormedModule)). unfold dz. auto_derive. nra.
    - apply (continuous_comp (zed al) (fun z => Kc (tau al) z)); [|apply (lip2_l Kc _ Kc_pos Kc_lip)]. apply (ex_derive_continuous (V := R_NormedModule)). unfold zed. fold D. auto_derive. lra. }
  rewrite <- (RInt_opp (V := R_CompleteNormedModule)) by exact EX.
  transitivity (RInt (fun be => scal (D * D) (g (direction al be) * sin be)) 0 (PI / 2)).
  - apply RInt_ext. intros be. rewrite Rmin_left, Rmax_right by lra. intros Hb. destruct (face_point al be H ltac:(lra)) as (T & Zb & Z2 & R & F). fold D in Z2, R. pose proof (den_pos al be H ltac:(lra)) as N. fold D in N.
    unfold Kc, Gf, gf. rewrite !clamp_id by auto. rewrite <- (g_ext (face_dir ((1 - zed al be) * tau al) (zed al be)) (direction al be) (face_unit _ _) (fun i => eq_sym (F i))). unfold cube. rewrite R, Z2. unfold opp, scal; cbn. unfold mult; cbn. unfold dz. field. lra.
  - destruct (Rtotal_order 0 0) as [|[_|]]; try lra. rewrite (RInt_scal (V := R_CompleteNormedModule)); [reflexivity|].
    apply (ex_RInt_ext (fun be => scal (/ (D * D)) (opp (scal (dz be) (Kc (tau al) (zed al be)))))).
    + intros be. rewrite Rmin_left, Rmax_right by lra. intros Hb. destruct (face_point al be H ltac:(lra)) as (T & Zb & Z2 & R & F). fold D in Z2, R. pose proof (den_pos al be H ltac:(lra)) as N. fold D in N.
      unfold Kc, Gf, gf. rewrite !clamp_id by auto. rewrite <- (g_ext (face_dir ((1 - zed al be) * tau al) (zed al be)) (direction al be) (face_unit _ _) (fun i => eq_sym (F i))). unfold cube. rewrite R, Z2. unfold opp, scal; cbn. unfold mult; cbn. unfold dz. field. lra.
    + apply (ex_RInt_scal (V := R_NormedModule)), (ex_RInt_opp (V := R_NormedModule)). exact EX.
Qed.
Theorem face_integral : RInt (inner cube gf) 0 1 = over_directions g 0 (PI / 2).
Proof.
  pose proof PI_RGT_0 as PI0. rewrite step1, <- (fubini Kc _ Kc_pos Kc_lip). set (V := fun t => RInt (fun z => Kc t z) 0 1).
  set (dt := fun al => / ((sin al + cos al) * (sin al + cos al))).
  assert (T0 : tau 0 = 0) by (unfold tau; rewrite sin_0; unfold Rdiv; ring). assert (T1 : tau (PI / 2) = 1) by (unfold tau; rewrite sin_PI2, cos_PI2; field; lra).
  assert (C : RInt (fun al => scal (dt al) (V (tau al))) 0 (PI / 2) = RInt V (tau 0) (tau (PI / 2))).
  { apply (RInt_comp (V := R_CompleteNormedModule) V tau dt).
    - intros x _. apply (lip2_int_cont Kc _ Kc_pos Kc_lip).
    - intros al. rewrite Rmin_left, Rmax_right by lra. intros Ha. pose proof (sum_pos al Ha) as S. split.
      + unfold tau, dt. auto_derive; [lra|]. pose proof (sin2_cos2 al) as T. unfold Rsqr in T. field_simplify_eq; [|lra]. replace (cos al ^ 2) with (1 - sin al ^ 2) by (replace (sin al ^ 2) with (sin al * sin al) by ring; replace (cos al ^ 2) with (cos al * cos al) by ring; lra). ring.
      + apply (ex_derive_continuous (V := R_NormedModule)). unfold dt. auto_derive. nra. }
  rewrite T0, T1 in C. rewrite <- C. unfold over_directions. apply RInt_ext. intros al. rewrite Rmin_left, Rmax_right by lra. intros Ha. unfold V. rewrite step4 by lra. unfold dt, scal; cbn. unfold mult; cbn. pose proof (sum_pos al ltac:(lra)). field. lra.
Qed.
End Change.
