From Coq Require Import ZArith QArith Qabs Bool List Lia Lqa Qfield Setoid Morphisms.
From Verif Require Import Base BaseProofs InterpModel InterpSpec InterpProofs DeltaProofs AxisModel AxisSpec.
Import ListNotations.
Open Scope Q_scope.

Lemma zq_pos n : (0 < n)%Z -> 0 < zq n.
Proof. intros H. unfold zq. change 0 with (inject_Z 0). rewrite <- Zlt_Qlt. auto. Qed.

Lemma trunc_half n : (0 < n)%Z -> trunc (zq n / 2) = (n / 2)%Z.
Proof.
  intros H. unfold trunc, zq, Qdiv, inject_Z. cbn. rewrite Z.mul_1_r, Z.quot_div_nonneg by lia. reflexivity.
Qed.

Lemma nth_zrange (n : Z) (k : Z) : (0 <= k < n)%Z -> nth_error (zrange 0 n) (Z.to_nat k) = Some k.
Proof.
  intros H. unfold zrange. rewrite nth_error_map, nth_error_nth' with (d := 0%nat) by (rewrite seq_length; lia).
  rewrite seq_nth by lia. cbn. f_equal. lia.
Qed.
Lemma zrange_length a b : List.length (zrange a b) = Z.to_nat (b - a).
Proof. unfold zrange. rewrite map_length, seq_length. auto. Qed.

Lemma coordinate_eq d k : valid_dim d -> (0 <= k < sd_count d)%Z ->
  coordinate d k = (zq k - zq (sd_count d / 2)) * (sd_width d / zq (sd_count d)) + sd_ref d.
Proof.
  intros [Hn Hw] Hk. unfold coordinate, coordinates_Hz. rewrite trunc_half by auto.
  rewrite nth_error_nth with (x := (zq k - zq (sd_count d / 2)) * (sd_width d / zq (sd_count d)) + sd_ref d); auto.
  rewrite nth_error_map, nth_zrange by auto. reflexivity.
Qed.

Lemma coordinates_length d : List.length (coordinates_Hz d) = Z.to_nat (sd_count d).
Proof. unfold coordinates_Hz. rewrite map_length, zrange_length. f_equal. lia. Qed.

Lemma inc_pos d : valid_dim d -> 0 < increment d.
Proof. intros [Hn Hw]. unfold increment. apply Qlt_shift_div_l; [apply zq_pos; auto|]. lra. Qed.

Lemma width_inc d : valid_dim d -> sd_width d == zq (sd_count d) * increment d.
Proof. intros [Hn Hw]. pose proof (zq_pos _ Hn). unfold increment. field. lra. Qed.

(** The position of a frequency in bins, without divisions. *)
Lemma position_eq gamma d f : valid_dim d ->
  (position gamma d f - half) * increment d == f - coordinates_offset gamma d.
Proof.
  intros V. pose proof (inc_pos d V). unfold position, normalize_offset, inverse_increment. field. lra.
Qed.
Lemma position_inj gamma d f x : valid_dim d -> (x - half) * increment d == f - coordinates_offset gamma d -> position gamma d f == x.
Proof.
  intros V E. pose proof (inc_pos d V) as I. rewrite <- (position_eq gamma d f V) in E.
  assert (P : (position gamma d f - x) * increment d == 0) by lra.
  apply Qmult_integral in P. destruct P; lra.
Qed.

Lemma factor_pos gamma : 0 < gamma -> axis_factor gamma = -1.
Proof. intros H. unfold axis_factor, Qltb. destruct (Qle_bool gamma 0) eqn:E; auto. apply Qle_bool_iff in E. lra. Qed.
Lemma factor_neg gamma : gamma <= 0 -> axis_factor gamma = 1.
Proof. intros H. unfold axis_factor, Qltb. apply Qle_bool_iff in H. rewrite H. auto. Qed.

Lemma zq_even n : (n mod 2 = 0)%Z -> zq n == 2 * zq (n / 2).
Proof. intros H. unfold zq. change 2 with (inject_Z 2). rewrite <- inject_Z_mult. apply inject_Z_injective. pose proof (Z.div_mod n 2). lia. Qed.
Lemma zq_odd n : (n mod 2 = 1)%Z -> zq n == 2 * zq (n / 2) + 1.
Proof.
  intros H. unfold zq. change 2 with (inject_Z 2). change 1 with (inject_Z 1). rewrite <- inject_Z_mult, <- inject_Z_plus.
  apply inject_Z_injective. pose proof (Z.div_mod n 2). lia.
Qed.

(** Positive gyromagnetic ratio: position of the k-th coordinate. *)
Lemma position_coordinate gamma d k : valid_dim d -> 0 < gamma -> (0 <= k < sd_count d)%Z ->
  position gamma d (coordinate d k) == zq k + half + (zq (sd_count d) / 2 - zq (sd_count d / 2)).
Proof.
  intros V G Hk. apply position_inj; auto. rewrite coordinate_eq by auto. unfold coordinates_offset.
  rewrite (factor_pos gamma G). pose proof (width_inc d V) as W. fold (increment d).
  assert (E : sd_width d / 2 == zq (sd_count d) * increment d / 2) by (rewrite W; reflexivity).
  rewrite E. field.
Qed.

(** Negative gyromagnetic ratio: the frequency -c for the k-th coordinate c. *)
Lemma position_coordinate_neg gamma d k : valid_dim d -> gamma <= 0 -> (0 <= k < sd_count d)%Z ->
  position gamma d (- coordinate d k) == zq (sd_count d) - zq k + half - (zq (sd_count d) / 2 - zq (sd_count d / 2)).
Proof.
  intros V G Hk. apply position_inj; auto. rewrite coordinate_eq by auto. unfold coordinates_offset.
  rewrite (factor_neg gamma G). pose proof (width_inc d V) as W. fold (increment d).
  assert (E : sd_width d / 2 == zq (sd_count d) * increment d / 2) by (rewrite W; reflexivity).
  rewrite E. field.
Qed.

Lemma half_even n : (n mod 2 = 0)%Z -> zq n / 2 - zq (n / 2) == 0.
Proof. intros H. rewrite (zq_even n H). field. Qed.
Lemma half_odd n : (n mod 2 = 1)%Z -> zq n / 2 - zq (n / 2) == half.
Proof. intros H. rewrite (zq_odd n H). unfold half. field. Qed.

(** A delta at the centre of a bin. *)
Lemma trunc_spec x p : zq p <= x -> x < zq p + 1 -> 0 <= x -> trunc x = p.
Proof.
  intros H1 H2 H0. unfold trunc. destruct x as [a b]. cbn in *. unfold zq, Qle, Qlt, Qplus, inject_Z in *. cbn in *.
  rewrite Z.quot_div_nonneg by lia. symmetry. apply Z.div_unique with (r := (a - Zpos b * p)%Z); lia.
Qed.

Lemma delta_centre x n k amp : (0 <= k < n)%Z -> x == zq k + half -> delta_fn x n amp = [(k, amp)].
Proof.
  intros Hk E. assert (T : trunc x = k).
  { apply trunc_spec; rewrite E; unfold half; try lra. assert (0 <= zq k) by (change 0 with (zq 0); unfold zq; rewrite <- Zle_Qle; lia). lra. }
  unfold delta_fn. rewrite T. destruct (Z.leb_spec n k); [lia|]. destruct (Z.ltb_spec k 0); [lia|]. cbn [orb].
  assert (A : Qabs (x - zq k - half) == 0) by (rewrite E; setoid_replace (zq k + half - zq k - half) with 0 by ring; reflexivity).
  unfold Qltb. destruct (Qle_bool TOL (Qabs (x - zq k - half))) eqn:B; auto.
  apply Qle_bool_iff in B. rewrite A in B. unfold TOL in B. lra.
Qed.

(** ** C57 *)
Lemma map_zrange_eq (f g : Z -> Q) n : (forall k, (0 <= k < n)%Z -> f k == g k) -> qlist_eq (map f (zrange 0 n)) (map g (zrange 0 n)).
Proof.
  intros H. unfold qlist_eq, zrange. rewrite !map_map. 
  assert (K : forall k, In k (seq 0 (Z.to_nat (n - 0))) -> f (0 + Z.of_nat k)%Z == g (0 + Z.of_nat k)%Z).
  { intros k Hk. apply in_seq in Hk. apply H. lia. }
  induction (seq 0 (Z.to_nat (n - 0))); cbn; constructor; [apply K; left; auto|]. apply IHl. intros k Hk. apply K. right; auto.
Qed.

Lemma rev_map_seq {A} (f : nat -> A) n : rev (map f (seq 0 n)) = map (fun k => f (n - 1 - k)%nat) (seq 0 n).
Proof.
  rewrite <- map_rev. replace (rev (seq 0 n)) with (map (fun k => (n - 1 - k)%nat) (seq 0 n)); [rewrite map_map; auto|].
  induction n; auto. rewrite seq_S at 2. rewrite rev_app_distr. cbn [rev app plus]. rewrite <- IHn.
  cbn [seq map]. f_equal; [lia|]. rewrite <- seq_shift, map_map. apply map_ext. intros. lia.
Qed.
Lemma rev_map_zrange {A} (f : Z -> A) n : rev (map f (zrange 0 n)) = map (fun k => f (n - 1 - k)%Z) (zrange 0 n).
Proof.
  unfold zrange. rewrite !map_map, rev_map_seq. apply map_ext_in. intros k Hk. apply in_seq in Hk. f_equal. lia.
Qed.

Lemma Qltb_true x y : Qltb x y = true <-> x < y.
Proof. unfold Qltb. rewrite negb_true_iff. split; intros H. apply Qnot_le_lt. intros C. apply Qle_bool_iff in C. congruence.
  destruct (Qle_bool y x) eqn:E; auto. apply Qle_bool_iff in E. lra. Qed.
Lemma Qltb_false x y : Qltb x y = false <-> y <= x.
Proof. unfold Qltb. rewrite negb_false_iff. apply Qle_bool_iff. Qed.

Lemma dataset_positive c : (0 < cd_count c)%Z -> 0 < cd_inc c -> cd_fft c = true \/ (cd_count c mod 2 = 0)%Z ->
  qlist_eq (coordinates_Hz (get_spectral_dimension c)) (csdm_coordinates c).
Proof.
  intros Hn Hi H. pose proof (zq_pos _ Hn) as Z0. unfold get_spectral_dimension.
  assert (P : 0 < zq (cd_count c) * cd_inc c) by (apply Qmult_lt_0_compat; auto).
  destruct (Qltb (zq (cd_count c) * cd_inc c) 0) eqn:E; [apply Qltb_true in E; lra|].
  unfold coordinates_Hz, csdm_coordinates. cbn [sd_count sd_width sd_ref]. rewrite trunc_half by auto.
  apply map_zrange_eq. intros k _. destruct (cd_fft c) eqn:F.
  - field. lra.
  - destruct H as [H|H]; [discriminate|]. pose proof (zq_even _ H) as Ev.
    assert (T : zq (cd_count c) * cd_inc c / zq (cd_count c) == cd_inc c) by (field; lra). rewrite T.
    assert (S : zq (cd_count c) * cd_inc c / 2 == zq (cd_count c / 2) * cd_inc c) by (rewrite Ev; field). rewrite S. ring.
Qed.

Lemma dataset_negative c : (0 < cd_count c)%Z -> cd_inc c < 0 -> cd_fft c = false ->
  qlist_eq (coordinates_Hz (get_spectral_dimension c)) (rev (csdm_coordinates c)).
Proof.
  intros Hn Hi F. pose proof (zq_pos _ Hn) as Z0. unfold get_spectral_dimension.
  assert (P : zq (cd_count c) * cd_inc c < 0).
  { assert (0 < zq (cd_count c) * (- cd_inc c)) by (apply Qmult_lt_0_compat; lra). lra. }
  destruct (Qltb (zq (cd_count c) * cd_inc c) 0) eqn:E; [|apply Qltb_false in E; lra].
  unfold coordinates_Hz, csdm_coordinates. cbn [sd_count sd_width sd_ref]. rewrite trunc_half, F, rev_map_zrange by auto.
  apply map_zrange_eq. intros k _.
  assert (T : - (zq (cd_count c) * cd_inc c) / zq (cd_count c) == - cd_inc c) by (field; lra). rewrite T.
  assert (Q1 : zq ((cd_count c + 1) / 2 - 1) + zq (cd_count c / 2) == zq (cd_count c) - 1).
  { unfold zq. rewrite <- inject_Z_plus. change 1 with (inject_Z 1). unfold Qminus. rewrite <- inject_Z_opp, <- inject_Z_plus.
    apply inject_Z_injective. pose proof (Z.div_mod (cd_count c) 2). pose proof (Z.div_mod (cd_count c + 1) 2).
    pose proof (Z.mod_pos_bound (cd_count c) 2). pose proof (Z.mod_pos_bound (cd_count c + 1) 2). lia. }
  assert (Q2 : zq (cd_count c - 1 - k) == zq (cd_count c) - 1 - zq k).
  { unfold zq. change 1 with (inject_Z 1). unfold Qminus. rewrite <- !inject_Z_opp, <- !inject_Z_plus. apply inject_Z_injective. lia. }
  rewrite Q2. assert (Q3 : zq ((cd_count c + 1) / 2 - 1) == zq (cd_count c) - 1 - zq (cd_count c / 2)) by lra. rewrite Q3. ring.
Qed.

(** Export of the axes of a method and reading them back. *)
Lemma dims_roundtrip l : Forall valid_dim l -> Forall2 dim_eq (get_spectral_dimensions (to_csdm_dimensions l)) l.
Proof.
  intros V. unfold get_spectral_dimensions, to_csdm_dimensions. rewrite map_rev, rev_involutive, map_map.
  induction V; cbn; constructor; auto. destruct H as [Hn Hw]. pose proof (zq_pos _ Hn).
  unfold get_spectral_dimension, to_csdm_dimension. cbn [cd_count cd_inc cd_ref cd_fft cd_origin].
  assert (E : zq (sd_count x) * (sd_width x / zq (sd_count x)) == sd_width x) by (field; lra).
  destruct (Qltb _ 0) eqn:B; [apply Qltb_true in B; rewrite E in B; lra|].
  unfold dim_eq. cbn. split; [auto|]. split; [exact E|]. split; reflexivity || auto.
Qed.

Lemma csdm_export d : valid_dim d -> qlist_eq (csdm_coordinates (to_csdm_dimension d)) (coordinates_Hz d).
Proof.
  intros [Hn Hw]. unfold csdm_coordinates, coordinates_Hz, to_csdm_dimension. cbn [cd_count cd_inc cd_ref cd_fft].
  rewrite trunc_half by auto. apply map_zrange_eq. intros. reflexivity.
Qed.

(** ** C31 *)
Lemma zrange_in a b m : In m (zrange a b) <-> (a <= m < b)%Z.
Proof.
  unfold zrange. rewrite in_map_iff. split.
  - intros [k [E H]]. apply in_seq in H. lia.
  - intros H. exists (Z.to_nat (m - a)). split; [lia|]. apply in_seq. lia.
Qed.
Lemma zrange_nth a b i d : (Z.of_nat i < b - a)%Z -> nth i (zrange a b) d = (a + Z.of_nat i)%Z.
Proof.
  intros H. unfold zrange. rewrite nth_indep with (d' := (fun k => (a + Z.of_nat k)%Z) 0%nat) by (rewrite map_length, seq_length; lia).
  rewrite (map_nth (fun k => (a + Z.of_nat k)%Z)), seq_nth by lia. reflexivity.
Qed.

Lemma fft_order_split n : (1 <= n)%Z -> fft_order n = zrange 0 ((n + 1) / 2) ++ zrange (- (n / 2)) 0.
Proof.
  intros H. unfold fft_order. pose proof (Z.div_mod n 2 ltac:(lia)). pose proof (Z.mod_pos_bound n 2 ltac:(lia)).
  pose proof (Z.div_mod (n + 1) 2 ltac:(lia)). pose proof (Z.mod_pos_bound (n + 1) 2 ltac:(lia)).
  rewrite Z.rem_mod_nonneg by lia. destruct (Z.eqb_spec (n mod 2) 0).
  - rewrite Z.quot_opp_l, Z.quot_div_nonneg by lia. f_equal; f_equal; lia.
  - rewrite Z.quot_opp_l, Z.quot_div_nonneg by lia. pose proof (Z.div_mod (n - 1) 2 ltac:(lia)). pose proof (Z.mod_pos_bound (n - 1) 2 ltac:(lia)).
    f_equal; f_equal; lia.
Qed.

Lemma fft_order_length n : (1 <= n)%Z -> List.length (fft_order n) = Z.to_nat n.
Proof.
  intros H. rewrite fft_order_split by auto. rewrite app_length, !zrange_length.
  pose proof (Z.div_mod n 2 ltac:(lia)). pose proof (Z.mod_pos_bound n 2 ltac:(lia)).
  pose proof (Z.div_mod (n + 1) 2 ltac:(lia)). pose proof (Z.mod_pos_bound (n + 1) 2 ltac:(lia)). lia.
Qed.

Lemma fft_order_nth n i d : (1 <= n)%Z -> (Z.of_nat i < n)%Z ->
  nth i (fft_order n) d = (if 2 * Z.of_nat i <? n then Z.of_nat i else Z.of_nat i - n)%Z.
Proof.
  intros H Hi. rewrite fft_order_split by auto.
  pose proof (Z.div_mod n 2 ltac:(lia)). pose proof (Z.mod_pos_bound n 2 ltac:(lia)).
  pose proof (Z.div_mod (n + 1) 2 ltac:(lia)). pose proof (Z.mod_pos_bound (n + 1) 2 ltac:(lia)).
  destruct (Z.ltb_spec (2 * Z.of_nat i) n).
  - rewrite app_nth1 by (rewrite zrange_length; lia). rewrite zrange_nth; lia.
  - rewrite app_nth2 by (rewrite zrange_length; lia). rewrite zrange_length, zrange_nth by lia. lia.
Qed.

Lemma fft_order_in n m : (1 <= n)%Z -> In m (fft_order n) <-> (- (n / 2) <= m < (n + 1) / 2)%Z.
Proof.
  intros H. rewrite fft_order_split by auto. rewrite in_app_iff, !zrange_in.
  pose proof (Z.div_mod n 2 ltac:(lia)). pose proof (Z.mod_pos_bound n 2 ltac:(lia)).
  pose proof (Z.div_mod (n + 1) 2 ltac:(lia)). pose proof (Z.mod_pos_bound (n + 1) 2 ltac:(lia)). lia.
Qed.

Lemma fft_order_nodup n : (1 <= n)%Z -> NoDup (fft_order n).
Proof.
  intros H. apply (NoDup_nth _ 0%Z). intros i j Hi Hj. rewrite fft_order_length in Hi, Hj by auto.
  rewrite !fft_order_nth by lia. destruct (Z.ltb_spec (2 * Z.of_nat i) n), (Z.ltb_spec (2 * Z.of_nat j) n); lia.
Qed.

(** ** C30 *)
Definition rotor_of (e : rotor_event) : Q * Q := if Qltb (re_frequency e) (1 # 1000) then (1000000000, 0) else (re_frequency e, re_angle e).
Lemma static_b e : Qltb (re_frequency e) (1 # 1000) = true <-> static e.
Proof. apply Qltb_true. Qed.
Lemma spin_b e : Qltb (re_frequency e) (1 # 1000) = false <-> ~ static e.
Proof. rewrite <- static_b. destruct (Qltb _ _); split; congruence. Qed.

(** Once the count is 1 and a previous count 1, nothing is rejected. *)
Lemma loop_one l acc : for_each l rotor_step (1%Z, 1%Z, acc) = Ok (1%Z, 1%Z, acc ++ map rotor_of l).
Proof.
  revert acc. induction l; intros acc; cbn [for_each map]; [rewrite app_nil_r; auto|].
  unfold rotor_step at 1, rotor_of at 1. destruct (Qltb (re_frequency a) (1 # 1000)) eqn:B; cbn [negb Z.eqb Pos.eqb bind];
    rewrite IHl, <- app_assoc; reflexivity.
Qed.

Lemma loop_spin nsb l acc : (nsb <> 0)%Z -> Forall (fun e => ~ static e) l ->
  for_each l rotor_step (nsb, nsb, acc) = Ok (nsb, nsb, acc ++ map rotor_of l).
Proof.
  intros Hn F. revert acc. induction F; intros acc; cbn [for_each map]; [rewrite app_nil_r; auto|].
  unfold rotor_step at 1, rotor_of at 1. apply spin_b in H. rewrite H.
  destruct (Z.eqb_spec nsb 0); [lia|]. rewrite Z.eqb_refl. cbn [negb bind]. rewrite IHF, <- app_assoc. reflexivity.
Qed.

Lemma loop_mixed nsb l acc : (nsb <> 0)%Z -> (nsb <> 1)%Z -> Exists static l ->
  for_each l rotor_step (nsb, nsb, acc) = Err ValueError.
Proof.
  intros H0 H1 E. revert acc. induction l; [inversion E|]; intros acc. cbn [for_each]. unfold rotor_step at 1.
  destruct (Qltb (re_frequency a) (1 # 1000)) eqn:B.
  - destruct (Z.eqb_spec nsb 0); [lia|]. destruct (Z.eqb_spec nsb 1); [lia|]. reflexivity.
  - destruct (Z.eqb_spec nsb 0); [lia|]. rewrite Z.eqb_refl. cbn [negb bind]. apply IHl. inversion E; subst; auto.
    apply static_b in H2. congruence.
Qed.

Lemma rotor_static_first nsb e l : static e -> rotor_loop nsb (e :: l) = Ok (1%Z, map rotor_of (e :: l)).
Proof.
  intros S. unfold rotor_loop. cbn [for_each]. unfold rotor_step at 1. pose proof S as S'. apply static_b in S'. rewrite S'.
  cbn [Z.eqb negb Pos.eqb bind]. rewrite loop_one. cbn [bind]. cbn [map app]. unfold rotor_of at 2. rewrite S'. reflexivity.
Qed.
Lemma rotor_all_spin nsb l : (nsb <> 0)%Z -> Forall (fun e => ~ static e) l -> rotor_loop nsb l = Ok (nsb, map rotor_of l).
Proof.
  intros Hn F. destruct F; [reflexivity|]. unfold rotor_loop. cbn [for_each]. unfold rotor_step at 1. apply spin_b in H. rewrite H.
  cbn [Z.eqb]. rewrite Z.eqb_refl. cbn [negb bind]. rewrite loop_spin by auto. cbn [bind app map]. unfold rotor_of at 2. rewrite H. reflexivity.
Qed.
Lemma rotor_spin_first nsb e l : (nsb <> 0)%Z -> (nsb <> 1)%Z -> ~ static e -> Exists static l -> rotor_loop nsb (e :: l) = Err ValueError.
Proof.
  intros H0 H1 S E. unfold rotor_loop. cbn [for_each]. unfold rotor_step at 1. apply spin_b in S. rewrite S.
  cbn [Z.eqb]. rewrite Z.eqb_refl. cbn [negb bind]. rewrite loop_mixed by auto. reflexivity.
Qed.

(** ** C27 *)
Lemma affine_local_eq a0 a1 a2 a3 f0 f1 : let '(x, y) := affine_local (a0, a1, a2, a3) f0 f1 in
  x == a0 * f0 + a1 * f1 /\ y == a3 * f1 + a2 * (a0 * f0 + a1 * f1).
Proof.
  unfold affine_local.
  destruct (Qeq_bool a0 1) eqn:E0; destruct (Qeq_bool a1 0) eqn:E1; destruct (Qeq_bool a3 1) eqn:E3; destruct (Qeq_bool a2 0) eqn:E2;
  cbn [negb];
  try (apply Qeq_bool_eq in E0); try (apply Qeq_bool_eq in E1); try (apply Qeq_bool_eq in E2); try (apply Qeq_bool_eq in E3);
  rewrite ?E0, ?E1, ?E2, ?E3; split; ring.
Qed.

Lemma affine_scaled m0 m1 m2 m3 i0 i1 n0 n1 : ~ m0 == 0 -> 0 < i0 -> 0 < i1 ->
  let '(a0, a1, a2, a3) := affine_c (Some (m0, m1, m2, m3)) i0 i1 in
  (a0 * n0 + a1 * n1) * i0 == m0 * (n0 * i0) + m1 * (n1 * i1) /\
  (a3 * n1 + a2 * (a0 * n0 + a1 * n1)) * i1 == m2 * (n0 * i0) + m3 * (n1 * i1).
Proof.
  intros Hm H0 H1. unfold affine_c. destruct (Qeq_bool (m2 * (i0 / i1)) 0) eqn:E; cbn [negb].
  - apply Qeq_bool_eq in E. split; [field; lra|].
    assert (M : m2 == 0).
    { assert (m2 == m2 * (i0 / i1) * (i1 / i0)) by (field; lra). rewrite H, E. ring. }
    rewrite M. field; lra.
  - split; field; repeat split; lra.
Qed.
