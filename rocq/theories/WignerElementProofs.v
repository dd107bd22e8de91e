From Coq Require Import Reals List ZArith Bool Lra Lia Psatz.
From Verif Require Import WignerSpec WignerElement.
Import ListNotations.
Open Scope R_scope.

(** ** The loops *)
Lemma fac_loop_eq n s : fac_loop n s = s * INR (fact n).
Proof.
  revert s. induction n as [|n IH]; intros s; [cbn; lra|]. destruct n as [|n]; [cbn; lra|].
  change (fac_loop (S (S n)) s) with (fac_loop (S n) (s * INR (S (S n)))). rewrite IH, (fact_simpl (S n)), mult_INR. ring.
Qed.
Lemma fac_eq z : (0 <= z)%Z -> fac z = Some (zfact z).
Proof. intros H. unfold fac, zfact. destruct (Z.ltb_spec z 0); [lia|]. rewrite fac_loop_eq. f_equal. ring. Qed.
Lemma fac_neg z : (z < 0)%Z -> fac z = None.
Proof. intros H. unfold fac. destruct (Z.ltb_spec z 0); [auto|lia]. Qed.
Lemma power_loop_eq n t x : power_loop n t x = t * x ^ n.
Proof. revert t. induction n as [|n IH]; intros t; cbn [power_loop pow]; [ring|]. rewrite IH. ring. Qed.
Lemma power_eq x z : (0 <= z)%Z -> my_power x z = x ^ Z.to_nat z.
Proof. intros H. unfold my_power. destruct (Z.eqb_spec z 0) as [->|]; [reflexivity|]. rewrite power_loop_eq. ring. Qed.

Definition lsum (l : list R) : R := fold_right Rplus 0 l.
Lemma lsum_app a b : lsum (a ++ b) = lsum a + lsum b.
Proof. unfold lsum. induction a; cbn [app fold_right]; [ring|]. rewrite IHa. ring. Qed.
Lemma lsum_ext {A} (f g : A -> R) l : (forall x, In x l -> f x = g x) -> lsum (map f l) = lsum (map g l).
Proof. unfold lsum. induction l as [|x l IH]; intros H; [reflexivity|]. cbn [map fold_right]. rewrite (H x) by (left; auto). rewrite IH; auto. intros; apply H; right; auto. Qed.
Lemma lsum_zero {A} (f : A -> R) l : (forall x, In x l -> f x = 0) -> lsum (map f l) = 0.
Proof. intros H. rewrite (lsum_ext f (fun _ => 0) l H). clear. unfold lsum. induction l; cbn [map fold_right]; auto. rewrite IHl. ring. Qed.
Lemma lsum_scale {A} (f : A -> R) a l : lsum (map (fun x => a * f x) l) = a * lsum (map f l).
Proof. unfold lsum. induction l as [|x l IH]; cbn [map fold_right]; [ring|]. rewrite IH. ring. Qed.

Lemma sgn_shift (k : nat) : (-1) ^ S k = - (-1) ^ k. Proof. cbn. ring. Qed.
Lemma zfact_pos z : 0 < zfact z. Proof. unfold zfact. apply lt_0_INR. apply lt_O_fact. Qed.
Definition step_term (l m1 m2 : Z) (c s : R) (k : nat) : R :=
  let z := Z.of_nat k in
  if ((0 <=? l - m1 - z) && (0 <=? l + m2 - z) && (0 <=? z + m1 - m2))%Z
  then (-1) ^ k * c ^ Z.to_nat (2 * l + m2 - m1 - 2 * z) * s ^ Z.to_nat (m1 - m2 + 2 * z) / (zfact (l - m1 - z) * zfact (l + m2 - z) * zfact (z + m1 - m2) * zfact z)
  else 0.
Lemma loop_eq l m1 m2 c s n : fold_left (element_step l m1 m2 c s) (map Z.of_nat (seq 0 n)) (Some (0, 1)) = Some (lsum (map (step_term l m1 m2 c s) (seq 0 n)), (-1) ^ n).
Proof.
  induction n as [|n IH]; [reflexivity|]. rewrite seq_S, !map_app, fold_left_app, IH, lsum_app. cbn [Nat.add map fold_left]. unfold element_step, bind.
  pose proof (eq_refl (step_term l m1 m2 c s n)) as T. unfold step_term in T at 2. cbn zeta in T.
  destruct (((0 <=? l - m1 - Z.of_nat n) && (0 <=? l + m2 - Z.of_nat n) && (0 <=? Z.of_nat n + m1 - m2))%Z) eqn:E.
  - cbn [lsum fold_right]. rewrite T. apply andb_prop in E. destruct E as [E E3]. apply andb_prop in E. destruct E as [E1 E2]. apply Z.leb_le in E1, E2, E3.
    rewrite !fac_eq, !power_eq by lia. rewrite sgn_shift. f_equal. f_equal. ring.
  - cbn [lsum fold_right]. rewrite T. rewrite sgn_shift. f_equal. f_equal. ring.
Qed.
Lemma generic_eq l m1 m2 beta : (- l <= m1 <= l)%Z -> (- l <= m2 <= l)%Z ->
  generic_wigner_d_element l m1 m2 beta =
  Some (lsum (map (step_term l m1 m2 (cos (beta / 2)) (sin (beta / 2))) (seq 0 (Z.to_nat (l - m1 + 1)))) * sqrt (zfact (l + m2) * zfact (l - m2) * zfact (l + m1) * zfact (l - m1))).
Proof. intros H1 H2. unfold generic_wigner_d_element. rewrite loop_eq. cbn [bind]. rewrite !fac_eq by lia. reflexivity. Qed.
Lemma generic_exit l m1 m2 beta : (m1 < - l \/ l < m1 \/ m2 < - l \/ l < m2)%Z -> generic_wigner_d_element l m1 m2 beta = None.
Proof.
  intros H. unfold generic_wigner_d_element. rewrite loop_eq. cbn [bind].
  destruct (fac (l + m2)) eqn:A; [|reflexivity]. destruct (fac (l - m2)) eqn:B; [|reflexivity]. destruct (fac (l + m1)) eqn:C; [|reflexivity]. destruct (fac (l - m1)) eqn:D; [|reflexivity].
  exfalso. destruct H as [H|[H|[H|H]]]; [rewrite fac_neg in C|rewrite fac_neg in D|rewrite fac_neg in A|rewrite fac_neg in B]; try discriminate; lia.
Qed.

(** ** Wigner's formula over natural numbers: degree n = 2l, row j = l - m1, column i = l - m2 *)
Definition wcoef (n i j : nat) (c s : R) (k : nat) : R :=
  if ((k <=? n - i) && (k <=? j) && (j - k <=? i))%nat
  then (-1) ^ (i - (j - k)) * c ^ ((n - i - k) + (j - k)) * s ^ ((i - (j - k)) + k) / (INR (fact (n - i - k)) * INR (fact k) * INR (fact (i - (j - k))) * INR (fact (j - k)))
  else 0.
Definition wnat (n i j : nat) (beta : R) : R :=
  sqrt (INR (fact (n - j)) * INR (fact j) * INR (fact (n - i)) * INR (fact i)) * lsum (map (wcoef n i j (cos (beta / 2)) (sin (beta / 2))) (seq 0 (S n))).
Lemma formula_nat l m1 m2 beta : (- l <= m1 <= l)%Z -> (- l <= m2 <= l)%Z ->
  wigner_formula l m1 m2 beta = wnat (Z.to_nat (2 * l)) (Z.to_nat (l - m2)) (Z.to_nat (l - m1)) beta.
Proof.
  intros H1 H2. unfold wigner_formula, wnat. set (n := Z.to_nat (2 * l)). set (i := Z.to_nat (l - m2)). set (j := Z.to_nat (l - m1)).
  assert (Ei : (i <= n)%nat) by (unfold i, n; lia). assert (Ej : (j <= n)%nat) by (unfold j, n; lia).
  f_equal.
  - f_equal. unfold zfact. replace (Z.to_nat (l + m1)) with (n - j)%nat by (unfold n, j; lia). replace (Z.to_nat (l + m2)) with (n - i)%nat by (unfold n, i; lia). fold i j. reflexivity.
  - fold (lsum (map (fun k => wigner_term l m1 m2 (cos (beta / 2)) (sin (beta / 2)) (Z.of_nat k)) (seq 0 (Z.to_nat (2 * l + 1))))).
    replace (Z.to_nat (2 * l + 1)) with (S n) by (unfold n; lia). apply lsum_ext. intros k _. unfold wigner_term, wcoef, zfact.
    destruct (((k <=? n - i) && (k <=? j) && (j - k <=? i))%nat) eqn:E.
    + apply andb_prop in E. destruct E as [E E3]. apply andb_prop in E. destruct E as [E1 E2]. apply Nat.leb_le in E1, E2, E3.
      replace (((0 <=? l + m2 - Z.of_nat k) && (0 <=? Z.of_nat k) && (0 <=? m1 - m2 + Z.of_nat k) && (0 <=? l - m1 - Z.of_nat k))%Z) with true
        by (symmetry; rewrite !andb_true_iff, !Z.leb_le; unfold n, i, j in *; lia).
      replace (Z.to_nat (m1 - m2 + Z.of_nat k)) with (i - (j - k))%nat by (unfold i, j in *; lia). replace (Z.to_nat (l + m2 - Z.of_nat k)) with (n - i - k)%nat by (unfold n, i in *; lia).
      replace (Z.to_nat (l - m1 - Z.of_nat k)) with (j - k)%nat by (unfold j in *; lia). rewrite Nat2Z.id.
      replace (Z.to_nat (2 * l + m2 - m1 - 2 * Z.of_nat k)) with ((n - i - k) + (j - k))%nat by (unfold n, i, j in *; lia). replace (Z.to_nat (m1 - m2 + 2 * Z.of_nat k)) with ((i - (j - k)) + k)%nat by (unfold i, j in *; lia). reflexivity.
    + replace (((0 <=? l + m2 - Z.of_nat k) && (0 <=? Z.of_nat k) && (0 <=? m1 - m2 + Z.of_nat k) && (0 <=? l - m1 - Z.of_nat k))%Z) with false; [reflexivity|].
      symmetry. apply not_true_is_false. intros T. rewrite !andb_true_iff, !Z.leb_le in T. apply not_true_iff_false in E. apply E. rewrite !andb_true_iff, !Nat.leb_le. unfold n, i, j in *. lia.
Qed.

(** ** The elements act on homogeneous polynomials *)
Lemma fact_pos n : 0 < INR (fact n). Proof. apply lt_0_INR, lt_O_fact. Qed.
Lemma binomial_fact a b m : (a + b) ^ m / INR (fact m) = sum_f_R0 (fun k => b ^ (m - k) * a ^ k / (INR (fact (m - k)) * INR (fact k))) m.
Proof.
  rewrite binomial. unfold Rdiv at 1. rewrite Rmult_comm, scal_sum. apply sum_eq. intros k Hk. unfold C.
  pose proof (fact_pos m). pose proof (fact_pos k). pose proof (fact_pos (m - k)). field. repeat split; lra.
Qed.
Lemma sum_extend f m n : (m <= n)%nat -> (forall k, (m < k)%nat -> f k = 0) -> sum_f_R0 f n = sum_f_R0 f m.
Proof. intros H Z. induction n as [|n IH]; [replace m with 0%nat by lia; reflexivity|]. destruct (Nat.eq_dec m (S n)) as [->|]; [reflexivity|]. cbn. rewrite IH, Z by lia. ring. Qed.
Lemma sum_all_zero f n : (forall k, (k <= n)%nat -> f k = 0) -> sum_f_R0 f n = 0.
Proof. intros H. rewrite (sum_eq f (fun _ => 0)) by auto. induction n; cbn; auto. rewrite IHn; [ring|]. intros; apply H; lia. Qed.
(** Product of two polynomials of degrees p and q. *)
Lemma product (A B : nat -> R) p q : (forall k, (p < k)%nat -> A k = 0) -> (forall k, (q < k)%nat -> B k = 0) ->
  sum_f_R0 A p * sum_f_R0 B q = sum_f_R0 (fun j => sum_f_R0 (fun k => A k * B (j - k)%nat) j) (p + q).
Proof.
  intros HA HB. rewrite <- (sum_extend A p (p + q)), <- (sum_extend B q (p + q)) by (auto; lia). destruct (p + q)%nat as [|n] eqn:E; [cbn; ring|].
  rewrite cauchy_finite by lia. rewrite (sum_all_zero (fun k => sum_f_R0 (fun l => A (S (l + k)) * B (S n - l)%nat) (pred (S n - k)))); [ring|].
  intros k Hk. apply sum_all_zero. intros l Hl. destruct (le_lt_dec (S (l + k)) p) as [G|G]; [rewrite HB by lia; ring|rewrite HA by lia; ring].
Qed.
Lemma lsum_sum f n : lsum (map f (seq 0 (S n))) = sum_f_R0 f n.
Proof. induction n as [|n IH]; [cbn; ring|]. rewrite seq_S, map_app, lsum_app, IH. cbn. ring. Qed.
Definition wt (n j : nat) : R := sqrt (INR (fact (n - j)) * INR (fact j)).
Lemma wt_pos n j : 0 < wt n j.
Proof. unfold wt. apply sqrt_lt_R0. apply Rmult_lt_0_compat; apply fact_pos. Qed.
Lemma wt_sq n j : wt n j * wt n j = INR (fact (n - j)) * INR (fact j).
Proof. unfold wt. apply sqrt_sqrt. left. apply Rmult_lt_0_compat; apply fact_pos. Qed.
Lemma acts n i beta x y : (i <= n)%nat -> let c := cos (beta / 2) in let s := sin (beta / 2) in
  sum_f_R0 (fun j => wnat n i j beta * (y ^ (n - j) * x ^ j / wt n j)) n = (c * y + s * x) ^ (n - i) * (c * x - s * y) ^ i / wt n i.
Proof.
  intros Hi c s.
  assert (P : (c * y + s * x) ^ (n - i) * (c * x - s * y) ^ i / wt n i =
    wt n i * (((s * x + c * y) ^ (n - i) / INR (fact (n - i))) * ((c * x + - (s * y)) ^ i / INR (fact i)))).
  { rewrite (Rplus_comm (s * x)). change (c * x + - (s * y)) with (c * x - s * y). pose proof (wt_sq n i) as Q. pose proof (wt_pos n i). pose proof (fact_pos (n - i)). pose proof (fact_pos i).
    apply (Rmult_eq_reg_r (wt n i)); [|lra]. replace (wt n i * _ * wt n i) with (wt n i * wt n i * (((c * y + s * x) ^ (n - i) / INR (fact (n - i))) * ((c * x - s * y) ^ i / INR (fact i)))) by ring. rewrite Q. field. repeat split; lra. }
  rewrite P. clear P. rewrite !binomial_fact.
  set (A := fun k => if (k <=? n - i)%nat then (c * y) ^ (n - i - k) * (s * x) ^ k / (INR (fact (n - i - k)) * INR (fact k)) else 0).
  set (B := fun k => if (k <=? i)%nat then (- (s * y)) ^ (i - k) * (c * x) ^ k / (INR (fact (i - k)) * INR (fact k)) else 0).
  rewrite (sum_eq _ A (n - i)), (sum_eq _ B i).
  2:{ intros k Hk. unfold B. destruct (Nat.leb_spec k i); [reflexivity|lia]. }
  2:{ intros k Hk. unfold A. destruct (Nat.leb_spec k (n - i)); [reflexivity|lia]. }
  rewrite product.
  2:{ intros k Hk. unfold A. destruct (Nat.leb_spec k (n - i)); [lia|reflexivity]. }
  2:{ intros k Hk. unfold B. destruct (Nat.leb_spec k i); [lia|reflexivity]. }
  replace (n - i + i)%nat with n by lia. rewrite scal_sum. apply sum_eq. intros j Hj. unfold wnat. rewrite lsum_sum. fold c s.
  rewrite (sum_extend (wcoef n i j c s) j n) by (auto; intros k Hk; unfold wcoef; replace (k <=? j)%nat with false by (symmetry; apply Nat.leb_gt; lia); rewrite andb_false_r; reflexivity).
  replace (sqrt (INR (fact (n - j)) * INR (fact j) * INR (fact (n - i)) * INR (fact i))) with (wt n j * wt n i)
    by (unfold wt; rewrite <- sqrt_mult by (left; apply Rmult_lt_0_compat; apply fact_pos); f_equal; ring).
  replace (wt n j * wt n i * sum_f_R0 (wcoef n i j c s) j * (y ^ (n - j) * x ^ j / wt n j)) with ((y ^ (n - j) * x ^ j * sum_f_R0 (wcoef n i j c s) j) * wt n i) by (field; pose proof (wt_pos n j); lra).
  f_equal. rewrite Rmult_comm, (Rmult_comm _ (_ * x ^ j)), scal_sum. apply sum_eq. intros k Hk. unfold wcoef, A, B.
  destruct (Nat.leb_spec k (n - i)); [|cbn [andb]; ring]. destruct (Nat.leb_spec k j); [|lia]. destruct (Nat.leb_spec (j - k) i); [|cbn [andb]; ring]. cbn [andb].
  replace (n - j)%nat with ((n - i - k) + (i - (j - k)))%nat at 1 by lia. replace (x ^ j) with (x ^ (k + (j - k))) by (f_equal; lia).
  rewrite !pow_add, !Rpow_mult_distr. replace (- (s * y)) with (-1 * s * y) by ring. rewrite !Rpow_mult_distr. field. repeat split; apply Rgt_not_eq, fact_pos.
Qed.

(** ** Coefficients are determined by the values *)
Lemma sum_minus f g n : sum_f_R0 (fun k => f k - g k) n = sum_f_R0 f n - sum_f_R0 g n.
Proof. apply minus_sum. Qed.
Lemma poly_zero : forall n (a : nat -> R), (forall x, 0 < x -> sum_f_R0 (fun k => a k * x ^ k) n = 0) -> forall k, (k <= n)%nat -> a k = 0.
Proof.
  induction n as [|n IH]; intros a H k Hk; [replace k with 0%nat by lia; specialize (H 1 ltac:(lra)); cbn in H; lra|].
  assert (S0 : forall x, sum_f_R0 (fun k => a k * x ^ k) (S n) = a 0%nat + x * sum_f_R0 (fun k => a (S k) * x ^ k) n).
  { intros x. rewrite decomp_sum by lia. cbn [pow pred]. rewrite scal_sum. f_equal; [ring|]. apply sum_eq. intros m _. cbn. ring. }
  assert (A0 : a 0%nat = 0).
  { set (M := sum_f_R0 (fun k => Rabs (a (S k))) n). assert (M0 : 0 <= M) by (apply cond_pos_sum; intros; apply Rabs_pos).
    assert (B : forall x, 0 < x <= 1 -> Rabs (a 0%nat) <= x * M).
    { intros x Hx. specialize (H x ltac:(lra)). rewrite S0 in H. replace (a 0%nat) with (- (x * sum_f_R0 (fun k => a (S k) * x ^ k) n)) by lra. rewrite Rabs_Ropp, Rabs_mult, (Rabs_right x) by lra.
      apply Rmult_le_compat_l; [lra|]. eapply Rle_trans; [apply Rabs_triang_gen|]. apply sum_Rle. intros m _. rewrite Rabs_mult. rewrite <- (Rmult_1_r (Rabs (a (S m)))) at 2. apply Rmult_le_compat_l; [apply Rabs_pos|].
      rewrite Rabs_right by (apply Rle_ge, pow_le; lra). rewrite <- (pow1 m). apply pow_incr. lra. }
    destruct (Req_dec (a 0%nat) 0) as [|N]; auto. exfalso. pose proof (Rabs_pos_lt _ N). assert (P : 0 < 2 * (M + 1 + Rabs (a 0%nat))) by lra.
    specialize (B (Rabs (a 0%nat) / (2 * (M + 1 + Rabs (a 0%nat))))). assert (Q : 0 < Rabs (a 0%nat) / (2 * (M + 1 + Rabs (a 0%nat))) <= 1).
    { split; [apply Rdiv_lt_0_compat; lra|]. apply (Rmult_le_reg_r (2 * (M + 1 + Rabs (a 0%nat)))); auto. unfold Rdiv. rewrite Rmult_assoc, Rinv_l by lra. lra. }
    specialize (B Q). apply (Rmult_le_compat_r (2 * (M + 1 + Rabs (a 0%nat)))) in B; [|lra]. replace (Rabs (a 0%nat) / (2 * (M + 1 + Rabs (a 0%nat))) * M * (2 * (M + 1 + Rabs (a 0%nat)))) with (Rabs (a 0%nat) * M) in B by (field; lra). nra. }
  destruct k as [|k]; [exact A0|]. apply (IH (fun k => a (S k))); [|lia]. intros x Hx. specialize (H x Hx). rewrite S0, A0 in H.
  apply (Rmult_eq_reg_l x); [|lra]. lra.
Qed.

(** ** Addition of the angles *)
Lemma compose n i k a b : (i <= n)%nat -> (k <= n)%nat -> sum_f_R0 (fun j => wnat n i j a * wnat n j k b) n = wnat n i k (a + b).
Proof.
  intros Hi Hk. apply Rminus_diag_uniq. cut (forall k, (k <= n)%nat -> (sum_f_R0 (fun j => wnat n i j a * wnat n j k b) n - wnat n i k (a + b)) / wt n k = 0).
  { intros Z. specialize (Z k Hk). pose proof (wt_pos n k). apply (Rmult_eq_reg_r (/ wt n k)); [|apply Rinv_neq_0_compat; lra]. unfold Rdiv in Z. rewrite Z. ring. }
  clear k Hk. apply poly_zero. intros x Hx.
  assert (X : forall k, (k <= n)%nat -> (sum_f_R0 (fun j => wnat n i j a * wnat n j k b) n - wnat n i k (a + b)) / wt n k * x ^ k =
    sum_f_R0 (fun j => wnat n i j a * (wnat n j k b * (1 ^ (n - k) * x ^ k / wt n k))) n - wnat n i k (a + b) * (1 ^ (n - k) * x ^ k / wt n k)).
  { intros k Hk. rewrite pow1. rewrite (sum_eq (fun j => wnat n i j a * (wnat n j k b * (1 * x ^ k / wt n k))) (fun j => (wnat n i j a * wnat n j k b) * (1 * x ^ k / wt n k))) by (intros; ring).
    rewrite <- scal_sum. unfold Rdiv. ring. }
  rewrite (sum_eq _ _ n X), sum_minus, acts by auto.
  assert (SW : sum_f_R0 (fun k => sum_f_R0 (fun j => wnat n i j a * (wnat n j k b * (1 ^ (n - k) * x ^ k / wt n k))) n) n =
    sum_f_R0 (fun j => sum_f_R0 (fun k => wnat n i j a * (wnat n j k b * (1 ^ (n - k) * x ^ k / wt n k))) n) n).
  { assert (G : forall (f : nat -> nat -> R) m p, sum_f_R0 (fun k => sum_f_R0 (fun j => f k j) m) p = sum_f_R0 (fun j => sum_f_R0 (fun k => f k j) p) m).
    { intros f m p. induction p as [|p IH]; cbn; [apply sum_eq; auto|]. rewrite IH, <- plus_sum. apply sum_eq. auto. }
    apply (G (fun k j => wnat n i j a * (wnat n j k b * (1 ^ (n - k) * x ^ k / wt n k)))). }
  rewrite SW. set (c2 := cos (b / 2)). set (s2 := sin (b / 2)). set (Y := c2 * 1 + s2 * x). set (X' := c2 * x - s2 * 1).
  rewrite (sum_eq _ (fun j => wnat n i j a * (Y ^ (n - j) * X' ^ j / wt n j))).
  2:{ intros j Hj. unfold Y, X', c2, s2. rewrite <- (acts n j b x 1 Hj). rewrite scal_sum. apply sum_eq. intros; ring. }
  rewrite acts by auto. unfold Y, X', c2, s2.
  replace ((a + b) / 2) with (a / 2 + b / 2) by field. rewrite cos_plus, sin_plus.
  replace (cos (a / 2) * (cos (b / 2) * 1 + sin (b / 2) * x) + sin (a / 2) * (cos (b / 2) * x - sin (b / 2) * 1)) with ((cos (a / 2) * cos (b / 2) - sin (a / 2) * sin (b / 2)) * 1 + (sin (a / 2) * cos (b / 2) + cos (a / 2) * sin (b / 2)) * x) by ring.
  replace (cos (a / 2) * (cos (b / 2) * x - sin (b / 2) * 1) - sin (a / 2) * (cos (b / 2) * 1 + sin (b / 2) * x)) with ((cos (a / 2) * cos (b / 2) - sin (a / 2) * sin (b / 2)) * x - (sin (a / 2) * cos (b / 2) + cos (a / 2) * sin (b / 2)) * 1) by ring. ring.
Qed.

(** ** The element computed by the code *)
Lemma formula_neg l m1 m2 beta : (- l <= m1 <= l)%Z -> (- l <= m2 <= l)%Z ->
  generic_wigner_d_element l m1 m2 beta = Some (wigner_formula l m1 m2 (- beta)).
Proof.
  intros H1 H2. rewrite generic_eq by auto. f_equal. unfold wigner_formula. rewrite Rmult_comm. f_equal; [f_equal; ring|].
  replace (- beta / 2) with (- (beta / 2)) by field. rewrite cos_neg, sin_neg. generalize (cos (beta / 2)) (sin (beta / 2)). intros c s.
  change (fold_right Rplus 0 (map (fun k => wigner_term l m1 m2 c (- s) (Z.of_nat k)) (seq 0 (Z.to_nat (2 * l + 1))))) with (lsum (map (fun k => wigner_term l m1 m2 c (- s) (Z.of_nat k)) (seq 0 (Z.to_nat (2 * l + 1))))).
  replace (Z.to_nat (2 * l + 1)) with (Z.to_nat (l - m1 + 1) + Z.to_nat (l + m1))%nat by lia. rewrite seq_app, map_app, lsum_app. rewrite (lsum_zero _ (seq (0 + _) _)).
  - rewrite Rplus_0_r. apply lsum_ext. intros k _. unfold step_term, wigner_term. cbn zeta.
    replace ((0 <=? l + m2 - Z.of_nat k) && (0 <=? Z.of_nat k) && (0 <=? m1 - m2 + Z.of_nat k) && (0 <=? l - m1 - Z.of_nat k))%Z with ((0 <=? l - m1 - Z.of_nat k) && (0 <=? l + m2 - Z.of_nat k) && (0 <=? Z.of_nat k + m1 - m2))%Z.
    2:{ apply eq_true_iff_eq. rewrite !andb_true_iff, !Z.leb_le. lia. }
    destruct (((0 <=? l - m1 - Z.of_nat k) && (0 <=? l + m2 - Z.of_nat k) && (0 <=? Z.of_nat k + m1 - m2))%Z) eqn:E; [|reflexivity].
    rewrite !andb_true_iff, !Z.leb_le in E. replace (m1 - m2 + Z.of_nat k)%Z with (Z.of_nat k + m1 - m2)%Z by lia.
    set (p := Z.to_nat (Z.of_nat k + m1 - m2)). replace (Z.to_nat (m1 - m2 + 2 * Z.of_nat k)) with (p + k)%nat by (unfold p; lia). replace (- s) with (-1 * s) by ring. rewrite Rpow_mult_distr, (pow_add (-1) p k).
    assert (S : (-1) ^ p * (-1) ^ p = 1) by (rewrite <- Rpow_mult_distr; replace (-1 * -1) with 1 by ring; apply pow1).
    pose proof (zfact_pos (l + m2 - Z.of_nat k)). pose proof (zfact_pos (l - m1 - Z.of_nat k)). pose proof (zfact_pos (Z.of_nat k)). pose proof (zfact_pos (Z.of_nat k + m1 - m2)).
    replace ((-1) ^ p * c ^ Z.to_nat (2 * l + m2 - m1 - 2 * Z.of_nat k) * ((-1) ^ p * (-1) ^ k * s ^ (p + k))) with (((-1) ^ p * (-1) ^ p) * ((-1) ^ k * c ^ Z.to_nat (2 * l + m2 - m1 - 2 * Z.of_nat k) * s ^ (p + k))) by ring.
    rewrite S, Rmult_1_l. field. repeat split; lra.
  - intros k Hk. apply in_seq in Hk. unfold wigner_term. replace (0 <=? l - m1 - Z.of_nat k)%Z with false by (symmetry; apply Z.leb_gt; lia). rewrite andb_false_r. reflexivity.
Qed.
