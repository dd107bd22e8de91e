(** The powder average against the average over the directions. *)
From Coq Require Import Reals QArith Qreals List Lia Psatz.
From Coquelicot Require Import Coquelicot.
From Verif Require Import InterpModel InterpSpec PowderModel WalkProofs DftModel DftProofs WignerNorm WignerProofs TableProofs FreqSpec PhysSpec AverageSpec AverageProofs SphereRiemann SphereSpec SphereChange.
From Verif Require CoreProofs.
From Coq Require Import Lra.
Import ListNotations.
Open Scope R_scope.

(** ** The directions *)
Lemma direction_unit al be : unit_vector (direction al be).
Proof. unfold unit_vector, direction. pose proof (sin2_cos2 al) as A. pose proof (sin2_cos2 be) as B. unfold Rsqr in A, B. replace (sin be * cos al * (sin be * cos al) + sin be * sin al * (sin be * sin al) + cos be * cos be) with (sin be * sin be * (sin al * sin al + cos al * cos al) + cos be * cos be) by ring. rewrite A. lra. Qed.
Lemma dist_bound u v : unit_vector u -> unit_vector v -> dist3 u v <= 4.
Proof.
  unfold unit_vector, dist3. intros U V. set (a := Rabs (u X - v X)). set (b := Rabs (u Y - v Y)). set (c := Rabs (u Z - v Z)).
  assert (S : forall x, Rabs x * Rabs x = x * x) by (intros x; rewrite <- Rabs_mult; apply Rabs_pos_eq, Rle_0_sqr).
  assert (Q : a * a + b * b + c * c <= 4).
  { unfold a, b, c. rewrite !S. pose proof (sqn (u X + v X)). pose proof (sqn (u Y + v Y)). pose proof (sqn (u Z + v Z)). lra. }
  pose proof (sqn (a - b)). pose proof (sqn (a - c)). pose proof (sqn (b - c)). assert (a + b + c <= 4 \/ 4 < a + b + c) as [|H4] by lra; auto. nra.
Qed.
(** ** Integrals over the directions *)
Section Directions.
Variable g : (axis -> R) -> R.
Variables L B : R.
Hypothesis HL : slope g L.
Hypothesis L0 : 0 <= L.
Hypothesis HB : forall u, unit_vector u -> Rabs (g u) <= B.
Lemma Bn : 0 <= B. Proof. eapply Rle_trans; [apply Rabs_pos|apply (HB _ (direction_unit 0 0))]. Qed.
Definition ring_of (al : R) : R := RInt (fun be => g (direction al be) * sin be) 0 (PI / 2).
Lemma gdir_lip al be al' be' : Rabs (g (direction al be) - g (direction al' be')) <= L * (2 * Rabs (al - al') + 3 * Rabs (be - be')).
Proof.
  eapply Rle_trans; [apply HL; apply direction_unit|]. apply Rmult_le_compat_l; auto. unfold dist3, direction.
  pose proof (cos_lip al al') as C. pose proof (sin_lip al al') as S. pose proof (cos_lip be be') as CB. pose proof (sin_lip be be') as SB.
  assert (K : forall f f', Rabs f <= 1 -> Rabs (sin be * f' - sin be' * f) <= Rabs (f' - f) + Rabs (sin be - sin be')).
  { intros f f' F. replace (sin be * f' - sin be' * f) with (sin be * (f' - f) + f * (sin be - sin be')) by ring. eapply Rle_trans; [apply Rabs_triang|]. rewrite !Rabs_mult. assert (Rabs (sin be) <= 1) by (apply Rabs_le; pose proof (SIN_bound be); lra). pose proof (Rabs_pos (f' - f)). pose proof (Rabs_pos (sin be - sin be')). nra. }
  pose proof (K (cos al') (cos al) ltac:(apply Rabs_le; pose proof (COS_bound al'); lra)). pose proof (K (sin al') (sin al) ltac:(apply Rabs_le; pose proof (SIN_bound al'); lra)). lra.
Qed.
Lemma ring_in al be : continuous (fun be => g (direction al be) * sin be) be.
Proof.
  apply (continuous_mult (K := R_AbsRing)).
  - apply (lip_continuous _ (3 * L)); [lra|]. intros y _. eapply Rle_trans; [apply gdir_lip|]. rewrite (Rminus_diag_eq al al) by auto. rewrite Rabs_R0. lra.
  - apply (ex_derive_continuous (V := R_NormedModule)). auto_derive. auto.
Qed.
Lemma ring_lip al al' : Rabs (ring_of al - ring_of al') <= PI / 2 * (2 * L * Rabs (al - al')).
Proof.
  pose proof PI_RGT_0. unfold ring_of. assert (E : RInt (fun be => g (direction al be) * sin be - g (direction al' be) * sin be) 0 (PI / 2) = RInt (fun be => g (direction al be) * sin be) 0 (PI / 2) - RInt (fun be => g (direction al' be) * sin be) 0 (PI / 2)).
  { rewrite (RInt_minus (V := R_CompleteNormedModule) (fun be => g (direction al be) * sin be) (fun be => g (direction al' be) * sin be)) by (apply continuous_ex; intros; apply ring_in). reflexivity. }
  rewrite <- E. eapply Rle_trans; [apply (RInt_bound _ 0 (PI / 2) (2 * L * Rabs (al - al')))|].
  - intros x. apply (continuous_minus (V := R_NormedModule)); apply ring_in.
  - intros be. rewrite <- Rmult_minus_distr_r, Rabs_mult. pose proof (gdir_lip al be al' be) as H1. rewrite (Rminus_diag_eq be be), Rabs_R0 in H1 by auto. assert (Rabs (sin be) <= 1) by (apply Rabs_le; pose proof (SIN_bound be); lra). pose proof (Rabs_pos (g (direction al be) - g (direction al' be))). pose proof (Rabs_pos (sin be)). nra.
  - rewrite Rminus_0_r, (Rabs_pos_eq (PI / 2)) by lra. lra.
Qed.
Lemma ring_cont al : continuous ring_of al.
Proof. pose proof PI_RGT_0. apply (lip_continuous _ (PI / 2 * (2 * L))); [nra|]. intros y _. eapply Rle_trans; [apply ring_lip|]. lra. Qed.
Lemma ring_ex a b : ex_RInt ring_of a b. Proof. apply continuous_ex. intros. apply ring_cont. Qed.
Lemma sin_integral : is_RInt sin 0 (PI / 2) 1.
Proof.
  replace 1 with (minus (- cos (PI / 2)) (- cos 0)) by (unfold minus, plus, opp; cbn; rewrite cos_PI2, cos_0; ring). apply (is_RInt_derive (V := R_CompleteNormedModule) (fun x => - cos x) sin).
  - intros x _. auto_derive; auto. ring.
  - intros x _. apply (ex_derive_continuous (V := R_NormedModule)). auto_derive. auto.
Qed.
Lemma sin_scaled c : is_RInt (fun be => c * sin be) 0 (PI / 2) c.
Proof. pose proof (is_RInt_scal (V := R_NormedModule) sin 0 (PI / 2) c 1 sin_integral) as I. assert (E : forall v, v = c -> is_RInt (fun be => c * sin be) 0 (PI / 2) v -> is_RInt (fun be => c * sin be) 0 (PI / 2) c) by (intros v ->; auto). apply (E (c * 1)); [ring|exact I]. Qed.
Lemma ring_bound al : Rabs (ring_of al) <= B.
Proof.
  pose proof PI_RGT_0. unfold ring_of. pose proof (sin_scaled B) as I.
  eapply (norm_RInt_le (V := R_NormedModule) (fun be => g (direction al be) * sin be) (fun be => B * sin be) 0 (PI / 2)); [lra| |apply (RInt_correct (V := R_CompleteNormedModule)), continuous_ex; intros; apply ring_in|exact I].
  intros be Hb. unfold norm; cbn. unfold abs; cbn. assert (0 <= sin be) by (apply sin_ge_0; lra). rewrite Rabs_mult, (Rabs_pos_eq (sin be)) by auto. apply Rmult_le_compat_r; auto. apply HB, direction_unit.
Qed.
Lemma over_bound a b : a <= b -> Rabs (over_directions g a b) <= (b - a) * B.
Proof. intros H. apply abs_RInt_le_const; auto. apply ring_ex. intros; apply ring_bound. Qed.
Lemma over_chasles a b c : over_directions g a c = over_directions g a b + over_directions g b c.
Proof. symmetry. apply (RInt_Chasles (V := R_CompleteNormedModule)); apply ring_ex. Qed.
End Directions.
Lemma slope_const c : slope (fun _ => c) 0.
Proof. intros u v _ _. rewrite Rminus_diag_eq by auto. rewrite Rabs_R0. lra. Qed.
Lemma over_const c a b : over_directions (fun _ => c) a b = c * (b - a).
Proof.
  unfold over_directions. rewrite (RInt_ext _ (fun _ => c)) by (intros; apply (is_RInt_unique (V := R_CompleteNormedModule)), sin_scaled).
  rewrite RInt_const. unfold scal; cbn. unfold mult; cbn. ring.
Qed.
Lemma slope_shift g L c : slope g L -> slope (fun u => g u - c) L.
Proof. intros H u v U V. replace (g u - c - (g v - c)) with (g u - g v) by ring. auto. Qed.
Lemma over_shift g L c a b : slope g L -> 0 <= L -> over_directions (fun u => g u - c) a b = over_directions g a b - c * (b - a).
Proof.
  intros H L0. rewrite <- (over_const c a b). unfold over_directions.
  rewrite (RInt_ext _ (fun al => minus (ring_of g al) (ring_of (fun _ => c) al))).
  - apply (RInt_minus (V := R_CompleteNormedModule)); [apply (ring_ex g L H L0)|apply (ring_ex (fun _ => c) 0 (slope_const c) ltac:(lra))].
  - intros al _. unfold ring_of. rewrite <- (RInt_minus (V := R_CompleteNormedModule)); [|apply continuous_ex; intros; apply (ring_in g L H L0)|apply continuous_ex; intros; apply (ring_in (fun _ => c) 0 (slope_const c) ltac:(lra) al)].
    apply RInt_ext. intros be _. unfold minus, plus, opp; cbn. ring.
Qed.

(** ** The sums *)
Definition along3 (x y z : nat) : axis -> R := fun i => INR (match i with X => x | Y => y | Z => z end) / sqrt (N2 x y z).
Lemma face_sqrt nt x y z : (1 <= nt)%nat -> (x + y + z = nt)%nat -> let h := / INR nt in sqrt (N2 x y z) = INR nt * rho (INR y * h) (INR z * h) /\ INR x * h = 1 - INR y * h - INR z * h.
Proof.
  intros N E h. assert (N0 : 0 < INR nt) by (apply lt_0_INR; lia). assert (H1 : INR nt * h = 1) by (unfold h; field; lra). assert (H0 : 0 < h) by (apply Rinv_0_lt_compat; auto).
  assert (EX : INR x * h = 1 - INR y * h - INR z * h) by (rewrite <- E, !plus_INR in H1; lra). split; auto.
  unfold rho. rewrite <- EX. replace (INR x * h * (INR x * h) + INR y * h * (INR y * h) + INR z * h * (INR z * h)) with (N2 x y z * (h * h)) by (unfold N2; ring).
  pose proof (N2_pos x y z ltac:(lia)). rewrite sqrt_mult by nra. rewrite sqrt_square by lra. replace (INR nt * (sqrt (N2 x y z) * h)) with (sqrt (N2 x y z) * (INR nt * h)) by ring. rewrite H1. ring.
Qed.
Lemma W3_cube nt x y z : (1 <= nt)%nat -> (x + y + z = nt)%nat -> let h := / INR nt in W3 nt x y z = h * h * cube (INR y * h) (INR z * h).
Proof.
  intros N E h. destruct (face_sqrt nt x y z N E) as [S _]. fold h in S. pose proof (N2_pos x y z ltac:(lia)) as P. assert (N0 : 0 < INR nt) by (apply lt_0_INR; lia). pose proof (rho_pos (INR y * h) (INR z * h)) as R.
  unfold W3. rewrite <- (sqrt_sqrt (N2 x y z)) at 1 by lra. rewrite S. unfold cube, h in *. field. split; lra.
Qed.
Section Sums.
Variable g : (axis -> R) -> R.
Variables L B : R.
Hypothesis HL : slope g L.
Hypothesis L0 : 0 <= L.
Hypothesis HB : forall u, unit_vector u -> Rabs (g u) <= B.
Lemma psi_gf nt x y z : (1 <= nt)%nat -> (x + y + z = nt)%nat -> let h := / INR nt in g (along3 x y z) = gf g (INR y * h) (INR z * h).
Proof.
  intros N E h. destruct (face_sqrt nt x y z N E) as [S EX]. fold h in S, EX. assert (N0 : 0 < INR nt) by (apply lt_0_INR; lia). pose proof (rho_pos (INR y * h) (INR z * h)) as R.
  apply (g_ext g L HL); [apply face_unit|]. intros i. unfold along3, face_dir. rewrite S. destruct i; [rewrite <- EX| |]; unfold h in *; field; split; lra.
Qed.
Lemma S3_face nt : (1 <= nt)%nat -> S3 nt (fun x y z => g (along3 x y z)) = face_sum cube (gf g) nt.
Proof.
  intros N. unfold S3, face_sum. cbv zeta. set (h := / INR nt). rewrite Rmult_plus_distr_l, <- !tri3_scal. f_equal; apply tri3_ext; intros a b c E; unfold Up, Down, up_term, down_term, term; cbn [fst snd].
  - rewrite !(W3_cube nt) by lia. rewrite !(psi_gf nt) by lia. fold h. field.
  - rewrite !(W3_cube nt) by lia. rewrite !(psi_gf nt) by lia. fold h. field.
Qed.
Lemma octant_close nt : (1 <= nt)%nat -> Rabs (S3 nt (fun x y z => g (along3 x y z)) - 6 * over_directions g 0 (PI / 2)) <= (1544 * L + 1182 * B) / INR nt.
Proof.
  intros N. rewrite S3_face by auto. rewrite <- (face_integral g L B HL L0 HB).
  eapply Rle_trans; [apply (face_close cube (gf g) (21 / 4) 54 B (14 * L) cube_bound (gf_bound g B HB) cube_lip (gf_lip g L HL L0) ltac:(lra) ltac:(lra) nt N)|].
  assert (N0 : 0 < / INR nt) by (apply Rinv_0_lt_compat, lt_0_INR; lia). assert (0 <= B) by (apply (Bn g B HB)). unfold Rdiv. apply Rmult_le_compat_r; lra.
Qed.
End Sums.
(** The octants. *)
Definition turn (j : nat) (u : axis -> R) : axis -> R := match j with
  | O => u | 1%nat => fun i => match i with X => u Y | Y => - u X | Z => u Z end | 2%nat => fun i => match i with X => - u X | Y => - u Y | Z => u Z end | _ => fun i => match i with X => - u Y | Y => u X | Z => u Z end end.
Lemma turn_unit j u : unit_vector u -> unit_vector (turn j u).
Proof. intros U. destruct j as [|[|[|j]]]; cbn; auto; unfold unit_vector in *; lra. Qed.
Lemma turn_dist j u v : dist3 (turn j u) (turn j v) = dist3 u v.
Proof.
  assert (A : forall a b, Rabs (- a - - b) = Rabs (a - b)) by (intros; replace (- a - - b) with (- (a - b)) by ring; apply Rabs_Ropp).
  destruct j as [|[|[|j]]]; cbn; auto; unfold dist3; rewrite !A; ring.
Qed.
Lemma turn_direction j al be i : (j < 4)%nat -> direction (al - INR j * (PI / 2)) be i = turn j (direction al be) i.
Proof.
  intros J. destruct (quarter al) as ((C0 & S0) & (C1 & S1) & (C2 & S2) & (C3 & S3)). destruct j as [|[|[|[|j]]]]; [| | | |lia]; unfold direction, turn; destruct i; rewrite ?C0, ?S0, ?C1, ?S1, ?C2, ?S2, ?C3, ?S3; ring.
Qed.
Lemma turn_slope g L j : slope g L -> slope (fun u => g (turn j u)) L.
Proof. intros H u v U V. rewrite <- (turn_dist j u v). apply H; apply turn_unit; auto. Qed.
Lemma over_turn g L j k : slope g L -> 0 <= L -> (j < 4)%nat -> over_directions (fun u => g (turn j u)) 0 (PI / 2) = over_directions g (2 * PI * INR k - INR j * (PI / 2)) (2 * PI * INR k - INR j * (PI / 2) + PI / 2).
Proof.
  intros H L0 J. unfold over_directions. set (a := 2 * PI * INR k - INR j * (PI / 2)).
  assert (E : RInt (fun al => scal 1 (ring_of g (1 * al + a))) 0 (PI / 2) = RInt (ring_of g) (1 * 0 + a) (1 * (PI / 2) + a)) by (apply (RInt_comp_lin (V := R_CompleteNormedModule)), (ring_ex g L H L0)).
  replace (1 * 0 + a) with a in E by ring. replace (1 * (PI / 2) + a) with (a + PI / 2) in E by ring. change (RInt (fun alpha => RInt (fun beta => g (direction alpha beta) * sin beta) 0 (PI / 2)) a (a + PI / 2)) with (RInt (ring_of g) a (a + PI / 2)). rewrite <- E.
  apply RInt_ext. intros al _. change (scal 1 (ring_of g (1 * al + a))) with (1 * ring_of g (1 * al + a)). rewrite Rmult_1_l. unfold ring_of. apply RInt_ext. intros be _. f_equal. symmetry. apply (g_ext g L H); [apply turn_unit, direction_unit|]. intros i. rewrite <- turn_direction by auto.
  unfold direction, a. replace (1 * al + (2 * PI * INR k - INR j * (PI / 2))) with (al - INR j * (PI / 2) + 2 * INR k * PI) by ring. rewrite cos_period, sin_period. reflexivity.
Qed.
Lemma over_whole g L : slope g L -> 0 <= L -> rsum 4 (fun j => over_directions (fun u => g (turn j u)) 0 (PI / 2)) = over_directions g 0 (2 * PI).
Proof.
  intros H L0. cbn [rsum]. rewrite (over_turn g L 0 0), (over_turn g L 1 1), (over_turn g L 2 1), (over_turn g L 3 1) by (auto; lia). cbn [INR].
  replace (2 * PI * 0 - 0 * (PI / 2)) with 0 by ring. replace (0 + PI / 2) with (PI / 2) by ring. replace (2 * PI * 1 - 1 * (PI / 2)) with (3 * (PI / 2)) by field. replace (3 * (PI / 2) + PI / 2) with (2 * PI) by field.
  replace (2 * PI * 1 - (1 + 1) * (PI / 2)) with PI by field. replace (PI + PI / 2) with (3 * (PI / 2)) by field. replace (2 * PI * 1 - (1 + 1 + 1) * (PI / 2)) with (PI / 2) by field. replace (PI / 2 + PI / 2) with PI by field.
  rewrite (over_chasles g L H L0 0 (PI / 2) (2 * PI)), (over_chasles g L H L0 (PI / 2) PI (2 * PI)), (over_chasles g L H L0 PI (3 * (PI / 2)) (2 * PI)). ring.
Qed.
Lemma powder_turns g L nt k alpha beta : slope g L -> (1 <= nt)%nat -> (k <= 4)%nat -> polar_angles nt alpha beta ->
  powder_sum nt k (fun o => g (towards nt alpha beta o)) = rsum k (fun j => S3 nt (fun x y z => g (turn j (along3 x y z)))).
Proof.
  intros H N K P. rewrite (powder_S3 nt k _ (fun j x y z => g (turn j (along3 x y z))) N); [symmetry; apply S3_rsum|].
  intros j x y z J E. rewrite towards_at by (apply at3_bound; auto). pose proof (at3_bound nt x y z E) as Q.
  assert (D : forall i, direction (alpha (at3 nt x y z)) (beta (at3 nt x y z)) i = along3 x y z i) by (intros i; rewrite P by auto; apply cosine_at; auto).
  apply (g_ext g L H).
  - apply turn_unit. unfold unit_vector. rewrite <- !D. apply direction_unit.
  - intros i. rewrite turn_direction by lia. destruct j as [|[|[|j]]]; unfold turn; destruct i; rewrite ?D; reflexivity.
Qed.
Lemma tri3_half N : INR N * INR N / 2 <= tri3 N (fun _ _ _ => 1).
Proof.
  assert (E : tri3 N (fun _ _ _ => 1) = INR N * (INR N + 1) / 2).
  { unfold tri3. rewrite (rsum_ext N _ (fun r => INR (N - r))) by (intros; rewrite rsum_const; ring). induction N as [|N IH]; [cbn; field|].
    rewrite CoreProofs.rsum_first. rewrite (rsum_ext N _ (fun r => INR (N - r))) by (intros; f_equal; lia). rewrite IH. rewrite Nat.sub_0_r, S_INR. field. }
  rewrite E. pose proof (pos_INR N). nra.
Qed.
Lemma S3_one_low nt : (1 <= nt)%nat -> 3 / 2 <= S3 nt (fun _ _ _ => 1).
Proof.
  intros N. assert (N0 : 0 < INR nt) by (apply lt_0_INR; lia). unfold S3. set (h := / INR nt). assert (H0 : 0 < h) by (apply Rinv_0_lt_compat; auto). assert (H1 : INR nt * h = 1) by (unfold h; field; lra).
  assert (W : forall x y z, (x + y + z = nt)%nat -> h * h <= W3 nt x y z).
  { intros x y z E. rewrite W3_cube by auto. fold h. destruct (face_sqrt nt x y z N E) as [_ EX]. fold h in EX. pose proof (rho_sq (INR y * h) (INR z * h)) as Q. pose proof (rho_pos (INR y * h) (INR z * h)) as R.
    assert (0 <= INR x * h) by (apply Rmult_le_pos; [apply pos_INR|lra]). assert (0 <= INR y * h) by (apply Rmult_le_pos; [apply pos_INR|lra]). assert (0 <= INR z * h) by (apply Rmult_le_pos; [apply pos_INR|lra]). rewrite <- EX in Q.
    assert (R1 : rho (INR y * h) (INR z * h) <= 1) by nra. assert (1 <= / rho (INR y * h) (INR z * h)) by (rewrite <- Rinv_1; apply Rinv_le_contravar; lra). unfold cube. set (i := / rho (INR y * h) (INR z * h)) in *. assert (1 <= i * i) by nra. assert (1 <= i * i * i) by nra. rewrite <- (Rmult_1_r (h * h)) at 1. apply Rmult_le_compat_l; nra. }
  assert (U : 3 * (h * h) * tri3 nt (fun _ _ _ => 1) <= tri3 nt (Up nt (fun _ _ _ => 1))).
  { rewrite <- tri3_scal. apply tri3_le. intros x y z E. unfold Up. pose proof (W (S x) y z ltac:(lia)). pose proof (W x (S y) z ltac:(lia)). pose proof (W x y (S z) ltac:(lia)). lra. }
  assert (D : 0 <= tri3 (nt - 1) (Down nt (fun _ _ _ => 1))).
  { apply tri3_nonneg. intros x y z E. unfold Down. pose proof (W (S x) (S y) z ltac:(lia)). pose proof (W (S x) y (S z) ltac:(lia)). pose proof (W x (S y) (S z) ltac:(lia)). assert (0 < h * h) by nra. lra. }
  pose proof (tri3_half nt) as T. assert (Q : 3 * (h * h) * (INR nt * INR nt / 2) = 3 / 2) by (replace (3 * (h * h) * (INR nt * INR nt / 2)) with (3 / 2 * ((INR nt * h) * (INR nt * h))) by field; rewrite H1; field).
  assert (3 * (h * h) * (INR nt * INR nt / 2) <= 3 * (h * h) * tri3 nt (fun _ _ _ => 1)) by (apply Rmult_le_compat_l; nra). lra.
Qed.
Lemma average_far g L a b u : slope g L -> 0 <= L -> a < b -> unit_vector u -> Rabs (g u - over_directions g a b / (b - a)) <= 4 * L.
Proof.
  intros H L0 AB U. pose proof (over_shift g L (g u) a b H L0) as E.
  assert (A : Rabs (over_directions (fun v => g v - g u) a b) <= (b - a) * (4 * L)).
  { apply (over_bound _ L); [apply slope_shift; auto|auto| |lra]. intros v V. eapply Rle_trans; [apply H; auto|]. pose proof (dist_bound v u V U). nra. }
  rewrite E in A. replace (over_directions g a b - g u * (b - a)) with (- ((g u - over_directions g a b / (b - a)) * (b - a))) in A by (field; lra). rewrite Rabs_Ropp, Rabs_mult, (Rabs_pos_eq (b - a)) in A by lra. apply (Rmult_le_reg_r (b - a)); lra.
Qed.
(** ** The theorems *)
Lemma average_conv g L nt k alpha beta T : slope g L -> 0 <= L -> (1 <= nt)%nat -> (1 <= k <= 4)%nat -> polar_angles nt alpha beta -> 0 < T ->
  (forall c, rsum k (fun j => over_directions (fun u => g (turn j u) - c) 0 (PI / 2)) = over_directions g 0 T - c * T) ->
  Rabs (powder_average nt k (fun o => g (towards nt alpha beta o)) - over_directions g 0 T / T) <= 4182 * L / INR nt.
Proof.
  intros H L0 N K P T0 W. set (v := over_directions g 0 T / T). set (g0 := fun u => g u - v). assert (H0 : slope g0 L) by (apply slope_shift; auto). assert (N0 : 0 < / INR nt) by (apply Rinv_0_lt_compat, lt_0_INR; lia).
  assert (B : forall u, unit_vector u -> Rabs (g0 u) <= 4 * L) by (intros u U; unfold g0, v; replace T with (T - 0) at 2 by ring; apply average_far; auto).
  unfold powder_average. pose proof (S3_one_low nt N) as LOW. assert (K0 : 1 <= INR k) by (apply (le_INR 1); lia). rewrite powder_one by auto.
  assert (E : powder_sum nt k (fun o => g (towards nt alpha beta o)) = powder_sum nt k (fun o => g0 (towards nt alpha beta o)) + v * (INR k * S3 nt (fun _ _ _ => 1))).
  { rewrite (powder_turns g L nt k), (powder_turns g0 L nt k) by (auto; lia). unfold g0. rewrite (rsum_ext k (fun j => S3 nt (fun x y z => g (turn j (along3 x y z)))) (fun j => S3 nt (fun x y z => g (turn j (along3 x y z)) - v) + v * S3 nt (fun _ _ _ => 1))).
    - rewrite rsum_plus, rsum_const. ring.
    - intros j _. rewrite <- S3_scal, <- S3_plus. apply S3_ext; auto. intros. ring. }
  rewrite E. set (S := powder_sum nt k (fun o => g0 (towards nt alpha beta o))) in *. set (One := S3 nt (fun _ _ _ => 1)) in *.
  replace ((S + v * (INR k * One)) / (INR k * One) - v) with (S / (INR k * One)) by (field; split; lra).
  assert (SB : Rabs S <= INR k * ((1544 * L + 1182 * (4 * L)) / INR nt)).
  { assert (Z : rsum k (fun j => over_directions (fun u => g (turn j u) - v) 0 (PI / 2)) = 0) by (rewrite W; unfold v; field; lra).
    unfold S. rewrite (powder_turns g0 L nt k) by (auto; lia). rewrite <- (Rminus_0_r (rsum k _)). rewrite <- (Rmult_0_r 6), <- Z, <- rsum_scal, <- rsum_sub. eapply Rle_trans; [apply rsum_abs|]. rewrite <- rsum_const. apply rsum_le. intros j Hj.
    apply (octant_close (fun u => g0 (turn j u)) L (4 * L)); auto. apply turn_slope; auto. intros u U. apply B, turn_unit; auto. }
  unfold Rdiv. rewrite Rabs_mult, (Rabs_pos_eq (/ (INR k * One))) by (apply Rlt_le, Rinv_0_lt_compat; nra).
  apply (Rmult_le_reg_r (INR k * One)); [nra|]. rewrite Rmult_assoc, Rinv_l, Rmult_1_r by nra. eapply Rle_trans; [exact SB|]. unfold Rdiv. set (i := / INR nt) in *. assert (LI : 0 <= L * i) by (apply Rmult_le_pos; lra).
  replace (INR k * ((1544 * L + 1182 * (4 * L)) * i)) with (INR k * (6272 * (L * i))) by ring. replace (4182 * L * i * (INR k * One)) with (INR k * (4182 * One * (L * i))) by ring. apply Rmult_le_compat_l; [lra|]. apply Rmult_le_compat_r; lra.
Qed.
Lemma turn0 (g : (axis -> R) -> R) : (fun u => g (turn 0 u)) = g. Proof. reflexivity. Qed.
Theorem hemisphere_conv g L nt alpha beta : slope g L -> 0 <= L -> (1 <= nt)%nat -> polar_angles nt alpha beta ->
  Rabs (powder_average nt 4 (fun o => g (towards nt alpha beta o)) - hemisphere_average g) <= 4182 * L / INR nt.
Proof.
  intros H L0 N P. pose proof PI_RGT_0. apply (average_conv g L nt 4 alpha beta (2 * PI)); auto; try lia; try lra. intros c.
  rewrite (over_whole (fun u => g u - c) L) by (auto; apply slope_shift; auto). rewrite (over_shift g L) by auto. ring.
Qed.
Theorem octant_conv g L nt alpha beta : slope g L -> 0 <= L -> (1 <= nt)%nat -> polar_angles nt alpha beta ->
  Rabs (powder_average nt 1 (fun o => g (towards nt alpha beta o)) - octant_average g) <= 4182 * L / INR nt.
Proof.
  intros H L0 N P. pose proof PI_RGT_0. apply (average_conv g L nt 1 alpha beta (PI / 2)); auto; try lia; try lra. intros c. cbn [rsum]. rewrite Rplus_0_l. rewrite (over_shift (fun u => g (turn 0 u)) L) by (auto; apply turn_slope; auto). rewrite turn0. ring.
Qed.
Theorem total_conv nt : (1 <= nt)%nat -> exists t, get_total_amplitude nt (fun i => nth i (amplitudes nt) 0) = Some t /\ Rabs (t - 3 * PI) <= 1182 / INR nt.
Proof.
  intros N. unfold get_total_amplitude. rewrite triangles_grid. eexists. split; [reflexivity|].
  assert (E : forall ts s, fold_left (fun s t => let '(a, b, c) := t in s + (nth b (amplitudes nt) 0 + nth c (amplitudes nt) 0 + nth a (amplitudes nt) 0)) ts s = s + fold_right Rplus 0 (map (weight_of nt) ts)).
  { induction ts as [|[[a b] c] ts IH]; intros s; cbn [fold_left map fold_right]; [ring|]. rewrite IH. unfold weight_of. ring. }
  rewrite E, Rplus_0_l.
  assert (F : fold_right Rplus 0 (map (weight_of nt) (grid_tris nt)) = S3 nt (fun _ _ _ => 1)).
  { rewrite <- (sum_at nt (fun _ => 1)) by auto. unfold over_triangles. f_equal. apply map_ext. intros [[a b] c]. unfold mean_of. field. }
  rewrite F. pose proof (octant_close (fun _ => 1) 0 1 (slope_const 1) ltac:(lra) ltac:(intros; apply Req_le; apply Rabs_R1) nt N) as C. rewrite over_const in C.
  replace (3 * PI) with (6 * (1 * (PI / 2 - 0))) by field. replace (1182 / INR nt) with ((1544 * 0 + 1182 * 1) / INR nt) by (f_equal; ring). exact C.
Qed.
