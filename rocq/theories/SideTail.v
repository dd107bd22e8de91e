(** How much of the intensity is in the sidebands of high order. *)
From Coq Require Import Reals List ZArith Lia Bool Psatz.
From Coquelicot Require Import Coquelicot.
From Verif Require Import DftModel DftProofs WignerNorm WignerProofs AverageProofs TableProofs PhysClose PhysSide SphereRiemann SideLimit PropOrders.
From Coq Require Import Lra.
Import ListNotations.
Open Scope R_scope.

(** ** The transform of differences *)
Lemma csum_shift n (g : nat -> C) : csum n (fun j => g (S j)) = (csum n g + g n - g 0%nat)%C.
Proof. induction n as [|n IH]; cbn [csum]; [ring|]. rewrite IH. ring. Qed.
Lemma fft_differences n (x : nat -> C) k : (0 < n)%nat -> x n = x 0%nat -> fft1 n (fun j => x (S j) - x j)%C k = ((cis (2 * PI * INR k / INR n) - RtoC 1) * fft1 n x k)%C.
Proof.
  intros N E. assert (PN : 0 < INR n) by (apply lt_0_INR; auto). unfold fft1. set (e j := cis (- (2 * PI) * (INR j * INR k) / INR n)).
  assert (S1 : forall j, e j = (cis (2 * PI * INR k / INR n) * e (S j))%C) by (intros j; unfold e; rewrite <- cis_add; f_equal; rewrite S_INR; field; lra).
  rewrite (csum_ext n _ (fun j => cis (2 * PI * INR k / INR n) * (e (S j) * x (S j)) + Copp (RtoC 1) * (e j * x j))%C) by (intros j _; change (cis (- (2 * PI) * (INR j * INR k) / INR n)) with (e j); transitivity (e j * x (S j) - e j * x j)%C; [ring|]; rewrite (S1 j) at 1; ring).
  rewrite csum_plus, !csum_scal, (csum_shift n (fun j => e j * x j)%C). rewrite E. assert (EN : e n = e 0%nat). { unfold e. replace (- (2 * PI) * (INR n * INR k) / INR n) with (0 + 2 * IZR (- Z.of_nat k) * PI) by (rewrite opp_IZR, <- INR_IZR_INZ; field; lra). rewrite cis_turns. f_equal. cbn [INR]. unfold Rdiv. ring. }
  rewrite EN. change (csum n (fun j => cis (- (2 * PI) * (INR j * INR k) / INR n) * x j)%C) with (csum n (fun j => e j * x j)%C). ring.
Qed.
Definition weight (n i : nat) : R := abs2 (cis (2 * PI * INR i / INR n) - RtoC 1)%C.
Lemma abs2_mult a b : abs2 (a * b)%C = abs2 a * abs2 b. Proof. destruct a, b. unfold abs2; cbn. ring. Qed.
Lemma abs2_pos z : 0 <= abs2 z. Proof. unfold abs2. nra. Qed.
Lemma weight_sin t : abs2 (cis t - RtoC 1)%C = 4 * (sin (t / 2) * sin (t / 2)).
Proof.
  unfold abs2, cis; cbn. replace t with (2 * (t / 2)) at 1 2 3 4 by field. set (u := t / 2). rewrite cos_2a_sin, sin_2a. pose proof (sin2_cos2 u) as Q. unfold Rsqr in Q. assert (cos u * cos u = 1 - sin u * sin u) by lra.
  replace (2 * sin u * cos u + - 0) with (2 * sin u * cos u) by ring. replace (2 * sin u * cos u * (2 * sin u * cos u)) with (4 * (sin u * sin u) * (cos u * cos u)) by ring. rewrite H. ring.
Qed.
Lemma sin_half x : 0 <= x <= PI / 2 -> x / 2 <= sin x.
Proof.
  intros H. pose proof PI_RGT_0. pose proof (SIN x ltac:(lra) ltac:(lra)) as [L _]. eapply Rle_trans; [|exact L]. unfold sin_lb, sin_approx, sin_term. cbn [sum_f_R0]. unfold Rdiv. cbn [Nat.mul Nat.add pow fact INR].
  assert (x <= 158 / 100) by (pose proof pi_bounds as [_ PB]; unfold delta in PB; lra).
  match goal with |- _ <= ?e => replace e with (x - x * x * x / 6 + x * x * x * x * x / 120 - x * x * x * x * x * x * x / 5040) by (cbn; field) end.
  assert (exists y, y = x * x) as [y Ey] by (exists (x * x); reflexivity). assert (0 <= y) by (rewrite Ey; nra). assert (y <= 25 / 10) by (rewrite Ey; nra). replace (x - x * x * x / 6 + x * x * x * x * x / 120 - x * x * x * x * x * x * x / 5040) with (x * (1 - y / 6 + y * y / 120 - y * y * y / 5040)) by (rewrite Ey; field).
  replace (x * / 2) with (x * (1 / 2)) by field. apply Rmult_le_compat_l; [lra|]. assert (0 <= y * y) by nra. assert (y * y * y <= 25 / 10 * (y * y)) by nra. lra.
Qed.
(** The place k mod n of an order k of at most n / 2 has a weight of at least (pi k / n)^2. *)
Lemma weight_order n (k : Z) : (0 < n)%nat -> (2 * Z.abs k <= Z.of_nat n)%Z -> (PI * Rabs (IZR k) / INR n) ^ 2 <= weight n (Z.to_nat (k mod Z.of_nat n)).
Proof.
  intros N H. assert (PN : 0 < INR n) by (apply lt_0_INR; auto). pose proof PI_RGT_0 as PP. unfold weight.
  assert (EZ : INR (Z.to_nat (k mod Z.of_nat n)) = IZR k - INR n * IZR (k / Z.of_nat n)).
  { rewrite INR_IZR_INZ, Z2Nat.id by (apply Z.mod_pos_bound; lia). rewrite INR_IZR_INZ, <- mult_IZR, <- minus_IZR. f_equal. pose proof (Z.div_mod k (Z.of_nat n) ltac:(lia)). lia. }
  rewrite EZ. replace (2 * PI * (IZR k - INR n * IZR (k / Z.of_nat n)) / INR n) with (2 * PI * IZR k / INR n + 2 * IZR (- (k / Z.of_nat n)) * PI) by (rewrite opp_IZR; field; lra). rewrite cis_turns, weight_sin.
  assert (A : Rabs (IZR k) <= INR n / 2). { rewrite <- abs_IZR. apply (Rmult_le_reg_l 2); [lra|]. replace (2 * (INR n / 2)) with (INR n) by field. rewrite INR_IZR_INZ, <- (mult_IZR 2). apply IZR_le. auto. }
  set (u := PI * Rabs (IZR k) / INR n). assert (U0 : 0 <= u) by (unfold u; apply Rle_mult_inv_pos; auto; apply Rmult_le_pos; [lra|apply Rabs_pos]).
  assert (U1 : u <= PI / 2) by (unfold u; apply (Rmult_le_reg_r (INR n)); auto; replace (PI * Rabs (IZR k) / INR n * INR n) with (PI * Rabs (IZR k)) by (field; lra); nra).
  assert (SS : sin (2 * PI * IZR k / INR n / 2) * sin (2 * PI * IZR k / INR n / 2) = sin u * sin u).
  { unfold u. unfold Rabs. destruct (Rcase_abs (IZR k)); [replace (PI * - IZR k / INR n) with (- (2 * PI * IZR k / INR n / 2)) by (field; lra); rewrite sin_neg; ring|replace (PI * IZR k / INR n) with (2 * PI * IZR k / INR n / 2) by (field; lra); reflexivity]. }
  rewrite SS. pose proof (sin_half u (conj U0 U1)). nra.
Qed.

(** ** A signal whose phase changes by at most D in a turn, in n steps *)
Section Signal.
Variables (n : nat) (ph : nat -> R) (D : R).
Hypothesis N : (0 < n)%nat.
Hypothesis closed : cis (ph n) = cis (ph 0%nat).
Hypothesis steps : forall j, (j < n)%nat -> Rabs (ph (S j) - ph j) <= D / INR n.
Let x j := cis (ph j).
Let I i := sideband_intensity n x i / INR n ^ 2.
Lemma I_pos i : 0 <= I i.
Proof. assert (PN : 0 < INR n) by (apply lt_0_INR; auto). unfold I, sideband_intensity. apply Rle_mult_inv_pos; [apply abs2_pos|]. apply pow_lt. auto. Qed.
Lemma I_total : rsum n I = 1.
Proof.
  assert (PN : 0 < INR n) by (apply lt_0_INR; auto). unfold I, Rdiv. rewrite (rsum_ext n _ (fun i => / INR n ^ 2 * sideband_intensity n x i)) by (intros; ring). rewrite rsum_scal, parseval by auto. rewrite (rsum_ext n _ (fun _ => 1)) by (intros; apply cis_unit). rewrite rsum_const. field. lra.
Qed.
Lemma weighted_total : rsum n (fun i => weight n i * I i) <= (D / INR n) ^ 2.
Proof.
  assert (PN : 0 < INR n) by (apply lt_0_INR; auto). assert (E : forall i, weight n i * I i = / INR n ^ 2 * sideband_intensity n (fun j => x (S j) - x j)%C i).
  { intros i. unfold I, sideband_intensity. rewrite fft_differences by (auto; exact closed). rewrite abs2_mult. unfold weight. field. lra. }
  rewrite (rsum_ext n _ _ (fun i _ => E i)), rsum_scal, parseval by auto. apply (Rmult_le_reg_l (INR n)); [auto|]. replace (INR n * (/ INR n ^ 2 * (INR n * rsum n (fun j => abs2 (x (S j) - x j)%C)))) with (rsum n (fun j => abs2 (x (S j) - x j)%C)) by (field; lra).
  rewrite <- rsum_const. apply rsum_le. intros j Hj. assert (CM : Cmod (x (S j) - x j)%C <= D / INR n) by (eapply Rle_trans; [apply cis_lipschitz|apply steps; auto]).
  assert (A2 : forall z : C, abs2 z = Cmod z ^ 2) by (intros z; unfold Cmod, abs2; rewrite pow2_sqrt by nra; ring). rewrite A2. apply pow_incr. split; [apply Cmod_ge_0|exact CM].
Qed.
Let ix (k : Z) := Z.to_nat (k mod Z.of_nat n).
Lemma ix_below k : (ix k < n)%nat. Proof. unfold ix. pose proof (Z.mod_pos_bound k (Z.of_nat n) ltac:(lia)). lia. Qed.
Lemma ix_inj a b : (2 * Z.abs a < Z.of_nat n)%Z -> (2 * Z.abs b < Z.of_nat n)%Z -> ix a = ix b -> a = b.
Proof.
  intros Ha Hb E. unfold ix in E. apply Z2Nat.inj in E; [|apply Z.mod_pos_bound; lia..]. pose proof (Z.div_mod a (Z.of_nat n) ltac:(lia)). pose proof (Z.div_mod b (Z.of_nat n) ltac:(lia)).
  assert (Q : (a - b = Z.of_nat n * (a / Z.of_nat n - b / Z.of_nat n))%Z) by lia. assert (a / Z.of_nat n - b / Z.of_nat n = 0)%Z by nia. lia.
Qed.
Lemma tail_bound (m : nat) ks : (0 < m)%nat -> NoDup ks -> (forall k, In k ks -> (Z.of_nat m <= Z.abs k)%Z /\ (2 * Z.abs k < Z.of_nat n)%Z) -> fold_right Rplus 0 (map (fun k => I (ix k)) ks) <= (D / (PI * INR m)) ^ 2.
Proof.
  intros M ND H. assert (PN : 0 < INR n) by (apply lt_0_INR; auto). assert (PM : 0 < INR m) by (apply lt_0_INR; auto). pose proof PI_RGT_0 as PP.
  set (q := (PI * INR m / INR n) ^ 2). assert (Q0 : 0 < q) by (unfold q; apply pow_lt, Rdiv_lt_0_compat; auto; apply Rmult_lt_0_compat; auto).
  assert (A : q * fold_right Rplus 0 (map (fun k => I (ix k)) ks) <= fold_right Rplus 0 (map (fun i => weight n i * I i) (map ix ks))).
  { clear ND. induction ks as [|k ks IH]; cbn [map fold_right]; [lra|]. specialize (IH (fun j Hj => H j (or_intror Hj))). destruct (H k (or_introl eq_refl)) as [H1 H2]. pose proof (weight_order n k N ltac:(lia)) as W.
    assert (q <= weight n (ix k)). { eapply Rle_trans; [|exact W]. unfold q. apply pow_incr. split; [apply Rle_mult_inv_pos; auto; apply Rmult_le_pos; lra|]. unfold Rdiv. apply Rmult_le_compat_r; [left; apply Rinv_0_lt_compat; auto|]. apply Rmult_le_compat_l; [lra|]. rewrite INR_IZR_INZ, <- abs_IZR. apply IZR_le. auto. }
    pose proof (I_pos (ix k)). nra. }
  assert (B : fold_right Rplus 0 (map (fun i => weight n i * I i) (map ix ks)) <= rsum n (fun i => weight n i * I i)).
  { apply some_of_all; [intros i; apply Rmult_le_pos; [apply abs2_pos|apply I_pos]| |].
    - intros i Hi. apply in_map_iff in Hi as (k & <- & _). apply ix_below.
    - apply nodup_map; auto. intros a b Ha Hb. destruct (H a Ha), (H b Hb). apply ix_inj; auto. }
  pose proof weighted_total as T. apply (Rmult_le_reg_l q); auto. replace (q * (D / (PI * INR m)) ^ 2) with ((D / INR n) ^ 2) by (unfold q; field; lra). lra.
Qed.
Lemma kept_bound (m : nat) ks : (0 < m)%nat -> (2 * Z.of_nat m <= Z.of_nat n + 1)%Z -> (forall k, (Z.abs k < Z.of_nat m)%Z -> In k ks) -> 1 - (D / (PI * INR m)) ^ 2 <= fold_right Rplus 0 (map (fun k => I (ix k)) ks).
Proof.
  intros M MN H. assert (PN : 0 < INR n) by (apply lt_0_INR; auto). assert (PM : 0 < INR m) by (apply lt_0_INR; auto). pose proof PI_RGT_0 as PP.
  set (q := (PI * INR m / INR n) ^ 2). assert (Q0 : 0 < q) by (unfold q; apply pow_lt, Rdiv_lt_0_compat; auto; apply Rmult_lt_0_compat; auto).
  assert (P : forall i, (i < n)%nat -> I i <= (if existsb (Nat.eqb i) (map ix ks) then I i else 0) + / q * (weight n i * I i)).
  { intros i Hi. pose proof (I_pos i) as Ip. destruct (existsb (Nat.eqb i) (map ix ks)) eqn:Ex.
    - assert (0 <= / q * (weight n i * I i)) by (apply Rmult_le_pos; [left; apply Rinv_0_lt_compat; auto|apply Rmult_le_pos; [apply abs2_pos|auto]]). lra.
    - assert (W : q <= weight n i).
      { set (k := if Z.ltb (2 * Z.of_nat i) (Z.of_nat n) then Z.of_nat i else (Z.of_nat i - Z.of_nat n)%Z).
        assert (EK : ix k = i). { unfold ix, k. destruct (Z.ltb_spec (2 * Z.of_nat i) (Z.of_nat n)); [rewrite Z.mod_small by lia; lia|]. replace (Z.of_nat i - Z.of_nat n)%Z with (Z.of_nat i + -1 * Z.of_nat n)%Z by ring. rewrite Z.mod_add by lia. rewrite Z.mod_small by lia. lia. }
        assert (K2 : (2 * Z.abs k <= Z.of_nat n)%Z) by (unfold k; destruct (Z.ltb_spec (2 * Z.of_nat i) (Z.of_nat n)); lia).
        assert (K1 : (Z.of_nat m <= Z.abs k)%Z). { destruct (Z_lt_le_dec (Z.abs k) (Z.of_nat m)) as [L|]; auto. exfalso. specialize (H k L). assert (existsb (Nat.eqb i) (map ix ks) = true) by (apply existsb_exists; exists i; split; [rewrite <- EK; apply in_map; auto|apply Nat.eqb_refl]). congruence. }
        pose proof (weight_order n k N K2) as W. fold (ix k) in W. rewrite EK in W. eapply Rle_trans; [|exact W]. unfold q. apply pow_incr. split; [apply Rle_mult_inv_pos; auto; apply Rmult_le_pos; lra|]. unfold Rdiv. apply Rmult_le_compat_r; [left; apply Rinv_0_lt_compat; auto|]. apply Rmult_le_compat_l; [lra|]. rewrite INR_IZR_INZ, <- abs_IZR. apply IZR_le. auto. }
      rewrite Rplus_0_l. apply (Rmult_le_reg_l q); auto. rewrite <- Rmult_assoc, Rinv_r, Rmult_1_l by lra. nra. }
  pose proof (rsum_le n _ _ P) as S. rewrite rsum_plus, rsum_scal, I_total in S. pose proof weighted_total as T.
  assert (C : rsum n (fun i => if existsb (Nat.eqb i) (map ix ks) then I i else 0) <= fold_right Rplus 0 (map (fun k => I (ix k)) ks)).
  { clear - N. induction ks as [|k ks IH]; cbn [map fold_right existsb]; [rewrite rsum_const; lra|]. eapply Rle_trans; [|apply Rplus_le_compat_l; exact IH].
    assert (O : rsum n (fun i => if Nat.eqb i (ix k) then I i else 0) <= I (ix k)).
    { clear IH. assert (Q : forall l, rsum l (fun i => if Nat.eqb i (ix k) then I i else 0) = if Nat.ltb (ix k) l then I (ix k) else 0).
      { induction l as [|l IH]; cbn [rsum]; [reflexivity|]. rewrite IH. destruct (Nat.ltb_spec (ix k) l), (Nat.eqb_spec l (ix k)), (Nat.ltb_spec (ix k) (S l)); try lia; try subst l; ring. }
      rewrite Q. pose proof (I_pos (ix k)). destruct (Nat.ltb _ _); lra. }
    eapply Rle_trans; [|apply Rplus_le_compat_r; exact O]. rewrite <- rsum_plus. apply rsum_le. intros i _. pose proof (I_pos i). destruct (Nat.eqb i (ix k)), (existsb (Nat.eqb i) (map ix ks)); cbn [orb]; lra. }
  replace ((D / (PI * INR m)) ^ 2) with (/ q * (D / INR n) ^ 2) by (unfold q; field; lra). assert (/ q * rsum n (fun i => weight n i * I i) <= / q * (D / INR n) ^ 2) by (apply Rmult_le_compat_l; [left; apply Rinv_0_lt_compat; auto|exact T]). lra.
Qed.
End Signal.
