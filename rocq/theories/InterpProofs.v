From Coq Require Import ZArith QArith Qabs Bool List Lia Lqa Qfield Morphisms Setoid Permutation.
From Verif Require Import InterpModel InterpSpec.
Import ListNotations.
Open Scope Q_scope.


Definition is_sorted3 (abc : Q * Q * Q) : Prop := let '(a, b, c) := abc in a <= b /\ b <= c.

(** ** Basics *)
Lemma Qltb_spec x y : reflect (x < y) (Qltb x y).
Proof.
  unfold Qltb. destruct (Qle_bool y x) eqn:E; simpl; constructor.
  - apply Qle_bool_iff in E. apply Qle_not_lt. auto.
  - apply Qnot_le_lt. rewrite <- Qle_bool_iff. congruence.
Qed.
Lemma Qle_bool_spec x y : reflect (x <= y) (Qle_bool x y).
Proof.
  destruct (Qle_bool x y) eqn:E; constructor.
  - apply Qle_bool_iff; auto.
  - rewrite <- Qle_bool_iff. congruence.
Qed.

Lemma trunc_quot x : trunc x = Z.quot (Qnum x) (Zpos (Qden x)). Proof. reflexivity. Qed.

Lemma trunc_nonneg x : 0 <= x -> zq (trunc x) <= x /\ x < zq (trunc x) + 1 /\ (0 <= trunc x)%Z.
Proof.
  unfold Qle, Qlt, zq, inject_Z, Qplus, trunc. simpl. intros H.
  rewrite Z.mul_1_r in H. set (n := Qnum x) in *. set (d := Zpos (Qden x)) in *.
  assert (0 < d)%Z by (unfold d; lia).
  pose proof (Z.quot_rem' n d). pose proof (Z.rem_bound_pos n d ltac:(lia) ltac:(lia)).
  pose proof (Z.quot_pos n d ltac:(lia) ltac:(lia)). nia.
Qed.
Lemma trunc_neg x : x <= 0 -> x <= zq (trunc x) /\ zq (trunc x) - 1 < x /\ (trunc x <= 0)%Z.
Proof.
  unfold Qle, Qlt, zq, inject_Z, Qminus, Qplus, Qopp, trunc. simpl. intros H.
  rewrite Z.mul_1_r in H. set (n := Qnum x) in *. set (d := Zpos (Qden x)) in *.
  assert (0 < d)%Z by (unfold d; lia).
  pose proof (Z.quot_rem' n d). pose proof (Z.rem_bound_pos (- n) d ltac:(lia) ltac:(lia)) as Hr. rewrite Z.rem_opp_l' in Hr.
  assert (Z.quot n d <= 0)%Z by (nia). nia.
Qed.

Lemma zq_le a b : (a <= b)%Z <-> zq a <= zq b.
Proof. unfold zq. rewrite <- Zle_Qle. tauto. Qed.
Lemma zq_lt a b : (a < b)%Z <-> zq a < zq b.
Proof. unfold zq. rewrite <- Zlt_Qlt. tauto. Qed.
Lemma zq_plus a b : zq (a + b) == zq a + zq b.
Proof. unfold zq. rewrite inject_Z_plus. reflexivity. Qed.
Lemma zq_1 : zq 1 == 1. Proof. reflexivity. Qed.
Lemma zq_succ_le a b : (a < b)%Z -> zq a + 1 <= zq b.
Proof. intros H. change 1 with (zq 1). rewrite <- zq_plus. apply (proj1 (zq_le _ _)). lia. Qed.

Global Instance trunc_proper : Proper (Qeq ==> eq) trunc.
Proof.
  intros x y E. destruct (Qlt_le_dec x 0) as [H|H].
  - assert (Hy : y < 0) by (rewrite <- E; auto).
    destruct (trunc_neg x) as [A [B C]]; [lra|]. destruct (trunc_neg y) as [A' [B' C']]; [lra|].
    assert (zq (trunc x) - 1 < zq (trunc y)) by lra. assert (zq (trunc y) - 1 < zq (trunc x)) by lra.
    destruct (Z.lt_trichotomy (trunc x) (trunc y)) as [L|[L|L]]; auto; apply zq_succ_le in L; lra.
  - assert (Hy : 0 <= y) by (rewrite <- E; auto).
    destruct (trunc_nonneg x) as [A [B C]]; [lra|]. destruct (trunc_nonneg y) as [A' [B' C']]; [lra|].
    assert (zq (trunc x) - 1 < zq (trunc y)) by lra. assert (zq (trunc y) - 1 < zq (trunc x)) by lra.
    destruct (Z.lt_trichotomy (trunc x) (trunc y)) as [L|[L|L]]; auto; apply zq_succ_le in L; lra.
Qed.

(** What the truncation says about positions (k >= 0). *)
Lemma trunc_ge_pos k x : (0 < k)%Z -> (k <= trunc x)%Z -> zq k <= x.
Proof.
  intros H L. destruct (Qlt_le_dec x 0) as [Hx|Hx].
  - destruct (trunc_neg x) as [_ [_ C]]; [lra|]. lia.
  - destruct (trunc_nonneg x Hx) as [A _]. apply zq_le in L. lra.
Qed.
Lemma trunc_lt_pos k x : (0 <= k)%Z -> (trunc x <= k)%Z -> x < zq k + 1.
Proof.
  intros H L. destruct (Qlt_le_dec x 0) as [Hx|Hx].
  - apply zq_le in H. change (zq 0) with 0 in H. lra.
  - destruct (trunc_nonneg x Hx) as [_ [B _]]. apply zq_le in L. lra.
Qed.
Lemma trunc_ge_0 x : 0 <= x -> (0 <= trunc x)%Z /\ zq (trunc x) <= x.
Proof. intros H. destruct (trunc_nonneg x H). tauto. Qed.
Lemma trunc_lt_0 x : (trunc x < 0)%Z -> x <= -(1).
Proof.
  intros L. destruct (Qlt_le_dec x 0) as [Hx|Hx].
  - destruct (trunc_neg x) as [A _]; [lra|]. apply zq_succ_le in L. change (zq 0) with 0 in L. lra.
  - destruct (trunc_nonneg x Hx). lia.
Qed.
Lemma trunc_mono x y : x <= y -> (trunc x <= trunc y)%Z.
Proof.
  intros H. destruct (Z_lt_le_dec (trunc y) (trunc x)) as [L|L]; auto. exfalso.
  destruct (Qlt_le_dec x 0) as [Hx|Hx].
  - destruct (trunc_neg x) as [_ [B C]]; [lra|]. destruct (Qlt_le_dec y 0) as [Hy|Hy].
    + destruct (trunc_neg y) as [A' _]; [lra|]. apply zq_succ_le in L. lra.
    + destruct (trunc_nonneg y Hy). lia.
  - destruct (trunc_nonneg x Hx) as [A [B C]]. destruct (trunc_nonneg y) as [A' [B' C']]; [lra|].
    apply zq_succ_le in L. lra.
Qed.

(** ** Deposits *)
Lemma deposit_app a b k : deposit (a ++ b) k == deposit a k + deposit b k.
Proof.
  induction a as [|[x v] a IH]; simpl; [ring|]. destruct (Z.eqb x k); simpl; rewrite IH; ring.
Qed.
Lemma deposit_cons x v w k : deposit ((x, v) :: w) k == (if Z.eqb x k then v else 0) + deposit w k.
Proof. simpl. destruct (Z.eqb x k); simpl; ring. Qed.
Lemma deposit_nil k : deposit [] k == 0. Proof. reflexivity. Qed.

Lemma ramp_deposit n p diff df k :
  deposit (ramp n p diff df) k ==
  if (p <=? k)%Z && (k <? p + Z.of_nat n)%Z then diff + df * zq (k - p + 1) else 0.
Proof.
  revert p diff; induction n as [|n IH]; intros p diff.
  - simpl. destruct (Z.leb_spec p k), (Z.ltb_spec k (p + 0)); simpl; try reflexivity. lia.
  - cbn [ramp]. rewrite deposit_cons, IH.
    destruct (Z.eqb_spec p k).
    + subst. destruct (Z.leb_spec (k + 1) k); [lia|]. cbn [andb].
      destruct (Z.leb_spec k k), (Z.ltb_spec k (k + Z.of_nat (S n))); cbn [andb]; try lia.
      replace (k - k + 1)%Z with 1%Z by lia. change (zq 1) with 1. ring.
    + destruct (Z.leb_spec (p + 1) k), (Z.ltb_spec k (p + 1 + Z.of_nat n)),
        (Z.leb_spec p k), (Z.ltb_spec k (p + Z.of_nat (S n))); cbn [andb]; try lia; try ring.
      replace (k - p + 1)%Z with ((k - (p + 1) + 1) + 1)%Z by lia. rewrite !zq_plus. change (zq 1) with 1. ring.
Qed.

(** ** Areas of the two halves *)
Definition clampQ (lo hi x : Q) : Q := if Qle_bool x lo then lo else if Qle_bool hi x then hi else x.
(** Area of the left half (slope top/(f1-f0)) to the left of x, and of the right half. *)
Definition Larea (top f0 f1 x : Q) : Q :=
  if Qle_bool f1 f0 then 0 else (clampQ f0 f1 x - f0) * (clampQ f0 f1 x - f0) * half * (top / (f1 - f0)).
Definition Rarea (top f1 f2 x : Q) : Q :=
  if Qle_bool f2 f1 then 0 else
  ((f2 - f1) * (f2 - f1) - (f2 - clampQ f1 f2 x) * (f2 - clampQ f1 f2 x)) * half * (top / (f2 - f1)).

Ltac qb := repeat match goal with
  | |- context [Qle_bool ?a ?b] => destruct (Qle_bool_spec a b)
  | |- context [Qltb ?a ?b] => destruct (Qltb_spec a b)
  end.

Lemma Larea_low top f0 f1 x : x <= f0 -> Larea top f0 f1 x == 0.
Proof.
  intros H. unfold Larea, clampQ. destruct (Qle_bool_spec f1 f0); [reflexivity|].
  destruct (Qle_bool_spec x f0); [ring|lra].
Qed.
Lemma Larea_mid top f0 f1 x : f0 <= x -> x <= f1 -> f0 < f1 -> Larea top f0 f1 x == (x - f0) * (x - f0) * half * (top / (f1 - f0)).
Proof.
  intros H0 H H1. unfold Larea, clampQ. destruct (Qle_bool_spec f1 f0); [lra|].
  destruct (Qle_bool_spec x f0).
  { assert (E : x == f0) by lra. rewrite E. ring. }
  destruct (Qle_bool_spec f1 x).
  { assert (E : x == f1) by lra. rewrite E. ring. }
  ring.
Qed.
Lemma Larea_high top f0 f1 x : f0 <= f1 -> f1 <= x -> Larea top f0 f1 x == (f1 - f0) * top * half.
Proof.
  intros H0 H. unfold Larea, clampQ. destruct (Qle_bool_spec f1 f0) as [L|L].
  { assert (E : f1 == f0) by lra. rewrite E. ring. }
  destruct (Qle_bool_spec x f0); [lra|]. destruct (Qle_bool_spec f1 x); [|lra]. field. lra.
Qed.
Lemma Rarea_low top f1 f2 x : x <= f1 -> Rarea top f1 f2 x == 0.
Proof.
  intros H. unfold Rarea, clampQ. destruct (Qle_bool_spec f2 f1); [reflexivity|].
  destruct (Qle_bool_spec x f1); [ring|lra].
Qed.
Lemma Rarea_mid top f1 f2 x : f1 <= x -> x <= f2 -> f1 < f2 ->
  Rarea top f1 f2 x == ((f2 - f1) * (f2 - f1) - (f2 - x) * (f2 - x)) * half * (top / (f2 - f1)).
Proof.
  intros H0 H H1. unfold Rarea, clampQ. destruct (Qle_bool_spec f2 f1); [lra|].
  destruct (Qle_bool_spec x f1).
  { assert (E : x == f1) by lra. rewrite E. ring. }
  destruct (Qle_bool_spec f2 x).
  { assert (E : x == f2) by lra. rewrite E. ring. }
  ring.
Qed.
Lemma Rarea_high top f1 f2 x : f1 <= f2 -> f2 <= x -> Rarea top f1 f2 x == (f2 - f1) * top * half.
Proof.
  intros H0 H. unfold Rarea, clampQ. destruct (Qle_bool_spec f2 f1) as [L|L].
  { assert (E : f2 == f1) by lra. rewrite E. ring. }
  destruct (Qle_bool_spec x f1); [lra|]. destruct (Qle_bool_spec f2 x); [|lra]. field. lra.
Qed.

Lemma LR_tent amp f0 f1 f2 x : f0 <= f1 -> f1 <= f2 -> f0 < f2 ->
  Larea (amp * (2#1) / (f2 - f0)) f0 f1 x + Rarea (amp * (2#1) / (f2 - f0)) f1 f2 x == amp * tent_cdf f0 f1 f2 x.
Proof.
  intros H0 H1 H2. unfold tent_cdf. destruct (Qle_bool_spec x f0).
  { rewrite Larea_low, Rarea_low by lra. ring. }
  destruct (Qltb_spec x f1).
  { rewrite Larea_mid, Rarea_low by lra. unfold half. field. split; lra. }
  destruct (Qltb_spec x f2).
  { rewrite Larea_high, Rarea_mid by lra. unfold half. field. split; lra. }
  rewrite Larea_high, Rarea_high by lra. unfold half. field. lra.
Qed.

(** ** The two halves are exact bin by bin *)
(** The clipped indexes of __triangle_interpolation. *)
Definition lclip (f : Q) : Z := if (trunc f <? 0)%Z then 0%Z else trunc f.
Definition rclip (points : Z) (f : Q) : Z := if (points <=? trunc f)%Z then points else trunc f.
Definition mclip (points : Z) (f : Q) : Z := if (rclip points f <? 0)%Z then 0%Z else rclip points f.

Section Halves.
Variables (top f0 f1 f2 : Q) (points : Z).
Hypothesis H01 : f0 <= f1.
Hypothesis H12 : f1 <= f2.

Local Notation p0 := (trunc f0).
Local Notation c_p := (lclip f0).
Local Notation pm := (trunc f1).
Local Notation pm1 := (rclip points f1).
Local Notation c_pm := (mclip points f1).
Local Notation px := (trunc f2).
Local Notation c_px := (rclip points f2).

Hypothesis Hp : (p0 <= points)%Z.
Hypothesis Hx : (0 <= px)%Z.
Hypothesis Hpt : (0 <= points)%Z.

Lemma order_pm : (c_p <= c_pm)%Z.
Proof.
  pose proof (trunc_mono _ _ H01). unfold lclip, mclip, rclip.  destruct (Z.ltb_spec p0 0), (Z.leb_spec points pm);
  destruct (Z.ltb_spec points 0), (Z.ltb_spec pm 0); try lia.
Qed.
Lemma order_mx : (c_pm <= c_px)%Z.
Proof.
  pose proof (trunc_mono _ _ H12). unfold mclip, rclip.  destruct (Z.leb_spec points px), (Z.leb_spec points pm);
  destruct (Z.ltb_spec points 0), (Z.ltb_spec pm 0); try lia.
Qed.
Lemma order_px : (0 <= c_p <= points)%Z /\ (0 <= c_pm <= points)%Z /\ (0 <= c_px <= points)%Z.
Proof.
  pose proof (trunc_mono _ _ H01) as M1. pose proof (trunc_mono _ _ H12) as M2.   unfold lclip, mclip, rclip.
  destruct (Z.leb_spec points px), (Z.leb_spec points pm), (Z.ltb_spec p0 0);
  destruct (Z.ltb_spec points 0), (Z.ltb_spec pm 0); try lia.
Qed.

Variable k : Z.
Hypothesis Hk : (0 < k)%Z \/ (k = 0%Z /\ 0 <= f0).
Hypothesis Hkp : (k < points)%Z.

Lemma k0 : (0 <= k)%Z. Proof. destruct Hk; lia. Qed.
Lemma zqk0 : 0 <= zq k. Proof. apply (proj1 (zq_le 0 k)). apply k0. Qed.

Lemma below f : (k < trunc f)%Z -> zq k + 1 <= f.
Proof. intros H. pose proof k0. apply zq_succ_le in H as H'. assert (zq (trunc f) <= f) by (apply trunc_ge_pos; lia). lra. Qed.
Lemma above f : (trunc f < k)%Z -> f <= zq k.
Proof.
  intros H. destruct (Z_lt_le_dec (trunc f) 0) as [L|L].
  - apply trunc_lt_0 in L. pose proof zqk0. lra.
  - pose proof (trunc_lt_pos (trunc f) f L ltac:(lia)). apply zq_succ_le in H. lra.
Qed.
Lemma at_bin f : trunc f = k -> f0 <= f -> zq k <= f /\ f < zq k + 1.
Proof.
  intros H Hf. split.
  - destruct Hk as [Hk'|[Hk' Hf0]].
    + apply trunc_ge_pos; lia.
    + rewrite Hk'. change (zq 0) with 0. lra.
  - apply trunc_lt_pos; [apply k0|lia].
Qed.

Lemma left_exact : deposit (left_tri c_p c_pm (p0 <? 0)%Z (points <=? pm)%Z top f0 f1) k ==
  Larea top f0 f1 (zq k + 1) - Larea top f0 f1 (zq k).
Proof.
  pose proof order_pm as O. pose proof order_px as [O1 [O2 O3]]. pose proof k0 as K0. pose proof zqk0 as ZK0.
  (* positions of f0 and f1 relative to the bin *)
  assert (A0 : (k < c_p)%Z -> zq k + 1 <= f0).
  { intros H. apply below. unfold lclip in H.  destruct (p0 <? 0)%Z; lia. }
  assert (A1 : (c_p < k)%Z -> f0 <= zq k).
  { intros H. apply above. unfold lclip in H.  destruct (Z.ltb_spec p0 0); lia. }
  assert (A2 : c_p = k -> (p0 <? 0)%Z = false /\ zq k <= f0 /\ f0 < zq k + 1).
  { intros H. unfold lclip in H. destruct (Z.ltb_spec p0 0) as [L|L].
    - destruct Hk as [Hk'|[Hk' Hf0]]; [lia|]. destruct (trunc_ge_0 f0 Hf0).  lia.
    - split; auto. apply at_bin; auto. lra. }
  assert (B0 : (k < c_pm)%Z -> zq k + 1 <= f1).
  { intros H. apply below. unfold mclip, rclip in H.  destruct (Z.leb_spec points pm); [lia|]. destruct (pm <? 0)%Z; lia. }
  assert (B1 : (c_pm < k)%Z -> f1 <= zq k).
  { intros H. apply above. unfold mclip, rclip in H.  destruct (Z.leb_spec points pm).
    - destruct (Z.ltb_spec points 0); lia.
    - destruct (Z.ltb_spec pm 0); lia. }
  assert (B2 : c_pm = k -> (points <=? pm)%Z = false /\ zq k <= f1 /\ f1 < zq k + 1 \/ (points <=? pm)%Z = false /\ f1 < 0 /\ k = 0%Z).
  { intros H. unfold mclip, rclip in H. destruct (Z.leb_spec points pm) as [L|L].
    - destruct (Z.ltb_spec points 0); lia.
    - destruct (Z.ltb_spec pm 0) as [L'|L'].
      + right. apply trunc_lt_0 in L'. split; auto. split; [lra|lia].
      + left. split; auto. apply at_bin; auto. }
  assert (B3 : c_pm = k -> (points <=? pm)%Z = false /\ zq k <= f1 /\ f1 < zq k + 1).
  { intros H. destruct (B2 H) as [|[? [? ?]]]; auto. exfalso. destruct Hk as [|[? ?]]; [lia|]. lra. }
  unfold left_tri. destruct (Z.eqb_spec c_p c_pm) as [E|E].
  - rewrite deposit_cons, deposit_nil. destruct (Z.eqb_spec c_p k) as [E2|E2].
    + destruct (A2 E2) as [C1 [C2 C3]]. destruct (B3 ltac:(congruence)) as [D1 [D2 D3]]. rewrite C1, D1. cbn [negb andb].
      rewrite Larea_high, Larea_low by lra. ring.
    + destruct (Z.lt_trichotomy c_p k) as [L|[L|L]]; [|lia|].
      * rewrite !Larea_high; [ring| | | |]; try lra; specialize (B1 ltac:(lia)); lra.
      * specialize (A0 L). rewrite !Larea_low by lra. ring.
  - assert (Lt : (c_p < c_pm)%Z) by lia.
    rewrite deposit_cons, deposit_app, ramp_deposit, deposit_cons, deposit_nil.
    rewrite Z2Nat.id by lia. replace (c_p + 1 + (c_pm - (c_p + 1)))%Z with c_pm by lia.
    destruct (Z.lt_trichotomy k c_p) as [L|[L|L]].
    + specialize (A0 L). rewrite !Larea_low by lra.
      destruct (Z.eqb_spec c_p k); [lia|]. destruct (Z.eqb_spec c_pm k); [lia|].
      destruct (Z.leb_spec (c_p + 1) k); [lia|]. cbn [andb]. ring.
    + symmetry in L. destruct (A2 L) as [C1 [C2 C3]]. specialize (B0 ltac:(lia)).
      rewrite C1. cbn [negb].
      destruct (Z.eqb_spec c_p k); [|lia]. destruct (Z.eqb_spec c_pm k); [lia|].
      destruct (Z.leb_spec (c_p + 1) k); [lia|]. cbn [andb].
      rewrite (Larea_low _ _ _ (zq k)) by lra. rewrite Larea_mid by lra. rewrite L. ring.
    + specialize (A1 L). destruct (Z.eqb_spec c_p k); [lia|]. destruct (Z.leb_spec (c_p + 1) k); [|lia].
      destruct (Z.lt_trichotomy k c_pm) as [M|[M|M]].
      * specialize (B0 M). destruct (Z.eqb_spec c_pm k); [lia|]. destruct (Z.ltb_spec k c_pm); [|lia]. cbn [andb].
        rewrite !Larea_mid by lra.
        replace (k - (c_p + 1) + 1)%Z with (k + - c_p)%Z by lia. rewrite zq_plus.
        assert (En : zq (- c_p) == - zq c_p) by (unfold zq; rewrite inject_Z_opp; reflexivity). rewrite En. unfold half.
        field. lra.
      * symmetry in M. destruct (B3 M) as [D1 [D2 D3]]. rewrite D1. cbn [negb].
        destruct (Z.eqb_spec c_pm k); [|lia]. destruct (Z.ltb_spec k c_pm); [lia|]. cbn [andb].
        assert (Hf : f0 < f1).
        { apply zq_succ_le in Lt. rewrite M in Lt. destruct (Z_lt_le_dec p0 0) as [Q0|Q0].
          - apply trunc_lt_0 in Q0. lra.
          - assert (Ecp : c_p = p0) by (unfold lclip; destruct (Z.ltb_spec p0 0); lia). rewrite Ecp in Lt.
            pose proof (trunc_lt_pos p0 f0 Q0 ltac:(lia)). lra. }
        rewrite (Larea_high _ _ _ (zq k + 1)) by lra. rewrite Larea_mid by lra. rewrite M. unfold half. field. lra.
      * specialize (B1 M). destruct (Z.eqb_spec c_pm k); [lia|]. destruct (Z.ltb_spec k c_pm); [lia|]. cbn [andb].
        rewrite !Larea_high by lra. ring.
Qed.

Lemma right_exact : deposit (right_tri c_pm c_px (pm1 <? 0)%Z (points <=? px)%Z top f1 f2) k ==
  Rarea top f1 f2 (zq k + 1) - Rarea top f1 f2 (zq k).
Proof.
  pose proof order_mx as O. pose proof order_px as [O1 [O2 O3]]. pose proof k0 as K0. pose proof zqk0 as ZK0.
  assert (A0 : (k < c_pm)%Z -> zq k + 1 <= f1).
  { intros H. apply below. unfold mclip, rclip in H.  destruct (Z.leb_spec points pm); [lia|]. destruct (pm <? 0)%Z; lia. }
  assert (A1 : (c_pm < k)%Z -> f1 <= zq k).
  { intros H. apply above. unfold mclip, rclip in H.  destruct (Z.leb_spec points pm).
    - destruct (Z.ltb_spec points 0); lia.
    - destruct (Z.ltb_spec pm 0); lia. }
  assert (A2 : c_pm = k -> (pm1 <? 0)%Z = false /\ zq k <= f1 /\ f1 < zq k + 1).
  { intros H. unfold mclip in H. destruct (Z.ltb_spec pm1 0) as [L|L].
    - assert (pm < 0)%Z by (unfold rclip in L; destruct (Z.leb_spec points pm); lia).
      destruct Hk as [Hk'|[Hk' Hf0]]; [lia|]. destruct (trunc_ge_0 f1 ltac:(lra)) as [X _].  lia.
    - split; auto. apply at_bin; auto. unfold rclip in H.  destruct (Z.leb_spec points pm); lia. }
  assert (B0 : (k < c_px)%Z -> zq k + 1 <= f2).
  { intros H. apply below. unfold rclip in H.  destruct (Z.leb_spec points px); lia. }
  assert (B1 : (c_px < k)%Z -> f2 <= zq k).
  { intros H. apply above. unfold rclip in H.  destruct (Z.leb_spec points px); lia. }
  assert (B2 : c_px = k -> (points <=? px)%Z = false /\ zq k <= f2 /\ f2 < zq k + 1).
  { intros H. unfold rclip in H. destruct (Z.leb_spec points px); [lia|]. split; auto. apply at_bin; auto. lra. }
  unfold right_tri. destruct (Z.eqb_spec c_pm c_px) as [E|E].
  - rewrite deposit_cons, deposit_nil. destruct (Z.eqb_spec c_pm k) as [E2|E2].
    + destruct (A2 E2) as [C1 [C2 C3]]. destruct (B2 ltac:(congruence)) as [D1 [D2 D3]]. rewrite D1. cbn [negb].
      rewrite Rarea_high, Rarea_low by lra. ring.
    + destruct (Z.lt_trichotomy c_pm k) as [L|[L|L]]; [|lia|].
      * rewrite !Rarea_high; [ring| | | |]; try lra; specialize (B1 ltac:(lia)); lra.
      * specialize (A0 L). rewrite !Rarea_low by lra. ring.
  - assert (Lt : (c_pm < c_px)%Z) by lia.
    rewrite deposit_cons, deposit_app, ramp_deposit.
    rewrite Z2Nat.id by lia. replace (c_pm + 1 + (c_px - (c_pm + 1)))%Z with c_px by lia.
    assert (Elast : deposit (if negb (points <=? px)%Z then [(c_px, (f2 - zq c_px) * (f2 - zq c_px) * half * (top / (f2 - f1)))] else []) k
       == if (c_px =? k)%Z then (f2 - zq k) * (f2 - zq k) * half * (top / (f2 - f1)) else 0).
    { destruct (Z.eqb_spec c_px k) as [Ek|Ek].
      - destruct (B2 Ek) as [-> _]. cbn [negb]. rewrite deposit_cons, deposit_nil, Ek, Z.eqb_refl. ring.
      - destruct (negb (points <=? px)%Z); [|reflexivity]. rewrite deposit_cons, deposit_nil.
        destruct (Z.eqb_spec c_px k); [lia|]. ring. }
    rewrite Elast. clear Elast.
    destruct (Z.lt_trichotomy k c_pm) as [L|[L|L]].
    + specialize (A0 L). rewrite !Rarea_low by lra.
      destruct (Z.eqb_spec c_pm k); [lia|]. destruct (Z.eqb_spec c_px k); [lia|].
      destruct (Z.leb_spec (c_pm + 1) k); [lia|]. cbn [andb]. ring.
    + symmetry in L. destruct (A2 L) as [C1 [C2 C3]]. specialize (B0 ltac:(lia)).
      rewrite C1. cbn [negb].
      destruct (Z.eqb_spec c_pm k); [|lia]. destruct (Z.eqb_spec c_px k); [lia|].
      destruct (Z.leb_spec (c_pm + 1) k); [lia|]. cbn [andb].
      rewrite (Rarea_low _ _ _ (zq k)) by lra. rewrite Rarea_mid by lra. rewrite L. unfold half. field. lra.
    + specialize (A1 L). destruct (Z.eqb_spec c_pm k); [lia|]. destruct (Z.leb_spec (c_pm + 1) k); [|lia].
      destruct (Z.lt_trichotomy k c_px) as [M|[M|M]].
      * specialize (B0 M). destruct (Z.eqb_spec c_px k); [lia|]. destruct (Z.ltb_spec k c_px); [|lia]. cbn [andb].
        rewrite !Rarea_mid by lra.
        replace (k - (c_pm + 1) + 1)%Z with (k + - c_pm)%Z by lia. rewrite zq_plus.
        assert (En : zq (- c_pm) == - zq c_pm) by (unfold zq; rewrite inject_Z_opp; reflexivity). rewrite En. unfold half.
        field. lra.
      * symmetry in M. destruct (B2 M) as [D1 [D2 D3]].
        destruct (Z.eqb_spec c_px k); [|lia]. destruct (Z.ltb_spec k c_px); [lia|]. cbn [andb].
        assert (Hf : f1 < f2 \/ f2 == f1) by (destruct (Qlt_le_dec f1 f2); [auto|right; lra]).
        destruct Hf as [Hf|Hf].
        -- rewrite (Rarea_high _ _ _ (zq k + 1)) by lra. rewrite Rarea_mid by lra. unfold half. field. lra.
        -- exfalso. assert (trunc f1 = trunc f2) by (rewrite Hf; auto).
           unfold mclip, rclip in Lt.  destruct (Z.leb_spec points px), (Z.leb_spec points pm);
           destruct (Z.ltb_spec points 0), (Z.ltb_spec pm 0); try lia.
      * specialize (B1 M). destruct (Z.eqb_spec c_px k); [lia|]. destruct (Z.ltb_spec k c_px); [lia|]. cbn [andb].
        rewrite !Rarea_high by lra. ring.
Qed.
End Halves.

(** ** Sorting three numbers *)


Lemma sort3_spec a b c : let '(x, y, z) := sort3 a b c in x <= y /\ y <= z /\ Permutation [a; b; c] [x; y; z].
Proof.
  unfold sort3. destruct (Qltb_spec b a).
  - destruct (Qltb_spec c a); [destruct (Qltb_spec c b)|].
    + split; [lra|]. split; [lra|]. apply Permutation_sym. apply perm_trans with [c; a; b]; [repeat constructor|].
      apply (Permutation_cons_append [a; b] c).
    + split; [lra|]. split; [lra|]. apply perm_trans with [b; a; c]; repeat constructor.
    + split; [lra|]. split; [lra|]. repeat constructor.
  - destruct (Qltb_spec c b); [destruct (Qltb_spec c a)|].
    + split; [lra|]. split; [lra|]. apply Permutation_sym. apply (Permutation_cons_append [a; b] c).
    + split; [lra|]. split; [lra|]. repeat constructor.
    + split; [lra|]. split; [lra|]. reflexivity.
Qed.

Lemma perm3 {A} (a b c x y z : A) : Permutation [a; b; c] [x; y; z] ->
  (a = x /\ b = y /\ c = z) \/ (a = x /\ b = z /\ c = y) \/ (a = y /\ b = x /\ c = z) \/
  (a = y /\ b = z /\ c = x) \/ (a = z /\ b = x /\ c = y) \/ (a = z /\ b = y /\ c = x).
Proof.
  intros H. assert (Ha : In a [x; y; z]) by (apply (Permutation_in a H); simpl; auto).
  assert (T : forall p q (P : Permutation [b; c] [p; q]), (b = p /\ c = q) \/ (b = q /\ c = p)).
  { intros p q P. apply Permutation_length_2_inv in P. destruct P as [P|P]; inversion P; auto. }
  destruct Ha as [<-|[<-|[<-|[]]]].
  - apply Permutation_cons_inv in H. destruct (T _ _ H) as [[-> ->]|[-> ->]]; tauto.
  - assert (H' : Permutation [y; b; c] [y; x; z]) by (eapply perm_trans; [exact H|constructor]).
    apply Permutation_cons_inv in H'. destruct (T _ _ H') as [[-> ->]|[-> ->]]; tauto.
  - assert (H' : Permutation [z; b; c] [z; x; y]).
    { eapply perm_trans; [exact H|]. apply Permutation_sym. apply (Permutation_cons_append [x; y] z). }
    apply Permutation_cons_inv in H'. destruct (T _ _ H') as [[-> ->]|[-> ->]]; tauto.
Qed.

Lemma sorted3_unique a b c x y z : Permutation [a; b; c] [x; y; z] -> a <= b -> b <= c -> x <= y -> y <= z ->
  a == x /\ b == y /\ c == z.
Proof. intros H. destruct (perm3 _ _ _ _ _ _ H) as [[-> [-> ->]]|[[-> [-> ->]]|[[-> [-> ->]]|[[-> [-> ->]]|[[-> [-> ->]]|[-> [-> ->]]]]]]]; intros; repeat split; lra. Qed.

Global Instance Qltb_proper : Proper (Qeq ==> Qeq ==> eq) Qltb.
Proof. intros a b E c d F. unfold Qltb. rewrite E, F. auto. Qed.
Global Instance tent_proper : Proper (Qeq ==> Qeq ==> Qeq ==> Qeq ==> Qeq) tent_cdf.
Proof.
  intros a a' Ea b b' Eb c c' Ec x x' Ex. unfold tent_cdf.
  replace (Qle_bool x a) with (Qle_bool x' a') by (rewrite Ea, Ex; auto).
  replace (Qltb x b) with (Qltb x' b') by (rewrite Eb, Ex; auto).
  replace (Qltb x c) with (Qltb x' c') by (rewrite Ec, Ex; auto).
  destruct (Qle_bool x' a'); [reflexivity|]. destruct (Qltb x' b').
  - rewrite Ea, Eb, Ec, Ex. reflexivity.
  - destruct (Qltb x' c'); [|reflexivity]. rewrite Ea, Eb, Ec, Ex. reflexivity.
Qed.

Lemma tent_low a b c x : x <= a -> tent_cdf a b c x == 0.
Proof. intros H. unfold tent_cdf. destruct (Qle_bool_spec x a); [reflexivity|lra]. Qed.
Lemma tent_high a b c x : a <= b -> b <= c -> a < c -> c <= x -> tent_cdf a b c x == 1.
Proof.
  intros H0 H1 H2 H. unfold tent_cdf. destruct (Qle_bool_spec x a); [lra|]. destruct (Qltb_spec x b); [lra|].
  destruct (Qltb_spec x c); [lra|reflexivity].
Qed.

(** ** The triangle routine on sorted frequencies *)
Definition triangle_sorted (f0 f1 f2 amp : Q) (points : Z) : writes :=
  if (points <? trunc f0)%Z then [] else
  if (trunc f2 <? 0)%Z then [] else
  let top := amp * (2 # 1) / (f2 - f0) in
  left_tri (lclip f0) (mclip points f1) (trunc f0 <? 0)%Z (points <=? trunc f1)%Z top f0 f1 ++
  right_tri (mclip points f1) (rclip points f2) (rclip points f1 <? 0)%Z (points <=? trunc f2)%Z top f1 f2.

Lemma triangle_unfold a b c amp points : triangle a b c amp points =
  if (trunc a =? trunc b)%Z && (trunc a =? trunc c)%Z then
    if (points <=? trunc a)%Z || (trunc a <? 0)%Z then [] else [(trunc a, amp)]
  else let '(x, y, z) := sort3 a b c in triangle_sorted x y z amp points.
Proof. reflexivity. Qed.

Definition exact_bin (f0 : Q) (k : Z) : Prop := (0 < k)%Z \/ (k = 0%Z /\ 0 <= f0).

Lemma triangle_sorted_exact f0 f1 f2 amp points k : f0 <= f1 -> f1 <= f2 -> f0 < f2 ->
  exact_bin f0 k -> (k < points)%Z ->
  deposit (triangle_sorted f0 f1 f2 amp points) k == amp * (tent_cdf f0 f1 f2 (zq k + 1) - tent_cdf f0 f1 f2 (zq k)).
Proof.
  intros H0 H1 H2 Hk Hkp. assert (K0 : (0 <= k)%Z) by (destruct Hk; lia).
  assert (ZK : 0 <= zq k) by (apply (proj1 (zq_le 0 k)); auto).
  unfold triangle_sorted. destruct (Z.ltb_spec points (trunc f0)) as [L|L].
  { assert (zq k + 1 <= f0) by (apply below with f0; auto; lia).
    rewrite !tent_low by lra. rewrite deposit_nil. ring. }
  destruct (Z.ltb_spec (trunc f2) 0) as [L'|L'].
  { apply trunc_lt_0 in L'. rewrite !tent_high by lra. rewrite deposit_nil. ring. }
  cbv zeta. rewrite deposit_app.
  rewrite left_exact with (f2 := f2) by (auto; lia). rewrite right_exact with (f0 := f0) by (auto; lia).
  pose proof (LR_tent amp f0 f1 f2 (zq k + 1) H0 H1 H2) as E1. pose proof (LR_tent amp f0 f1 f2 (zq k) H0 H1 H2) as E2.
  set (l1 := Larea _ _ _ (zq k + 1)) in *. set (l2 := Larea _ _ _ (zq k)) in *.
  set (r1 := Rarea _ _ _ (zq k + 1)) in *. set (r2 := Rarea _ _ _ (zq k)) in *.
  set (t1 := tent_cdf _ _ _ (zq k + 1)) in *. set (t2 := tent_cdf _ _ _ (zq k)) in *.
  transitivity ((l1 + r1) - (l2 + r2)); [ring|]. rewrite E1, E2. ring.
Qed.

Theorem triangle_exact_sorted a b c x y z amp points k : Permutation [a; b; c] [x; y; z] -> x <= y -> y <= z -> x < z ->
  exact_bin x k -> (k < points)%Z ->
  deposit (triangle a b c amp points) k == amp * (tent_cdf x y z (zq k + 1) - tent_cdf x y z (zq k)).
Proof.
  intros HP Hxy Hyz Hxz Hk Hkp. rewrite triangle_unfold.
  destruct ((trunc a =? trunc b)%Z && (trunc a =? trunc c)%Z) eqn:E.
  - apply andb_true_iff in E. destruct E as [E1 E2]. apply Z.eqb_eq in E1, E2.
    assert (Ex : trunc x = trunc a /\ trunc z = trunc a).
    { destruct (perm3 _ _ _ _ _ _ HP) as [[? [? ?]]|[[? [? ?]]|[[? [? ?]]|[[? [? ?]]|[[? [? ?]]|[? [? ?]]]]]]]; subst; split; congruence. }
    destruct Ex as [Ex Ez].
    assert (K0 : (0 <= k)%Z) by (destruct Hk; lia).
    destruct (Z.lt_trichotomy k (trunc a)) as [L|[L|L]].
    + assert (zq k + 1 <= x) by (apply below with x; auto; lia).
      rewrite !tent_low by lra.
      destruct (_ || _); [rewrite deposit_nil; ring|]. rewrite deposit_cons, deposit_nil.
      destruct (Z.eqb_spec (trunc a) k); [lia|]. ring.
    + destruct (Z.leb_spec points (trunc a)); [lia|]. destruct (Z.ltb_spec (trunc a) 0); [lia|]. cbn [orb].
      rewrite deposit_cons, deposit_nil. destruct (Z.eqb_spec (trunc a) k); [|lia].
      destruct (at_bin x k Hk x ltac:(lia) ltac:(lra)) as [A1 A2].
      assert (B : z < zq k + 1) by (apply trunc_lt_pos; lia).
      rewrite tent_high, tent_low by lra. ring.
    + assert (z <= zq k) by (apply above with x; auto; lia).
      rewrite !tent_high by lra.
      destruct (_ || _); [rewrite deposit_nil; ring|]. rewrite deposit_cons, deposit_nil.
      destruct (Z.eqb_spec (trunc a) k); [lia|]. ring.
  - pose proof (sort3_spec a b c) as S. destruct (sort3 a b c) as [[x' y'] z'].
    destruct S as [S1 [S2 S3]].
    destruct (sorted3_unique x y z x' y' z') as [U1 [U2 U3]]; auto.
    { eapply perm_trans; [apply Permutation_sym; exact HP|exact S3]. }
    rewrite triangle_sorted_exact; auto.
    + rewrite U1, U2, U3. reflexivity.
    + lra.
    + destruct Hk as [?|[? ?]]; [left; auto|right; split; auto; lra].
Qed.

(** Three equal frequencies: everything goes to the bin that contains them. *)
Lemma triangle_same_bin a b c amp points p : trunc a = p -> trunc b = p -> trunc c = p ->
  triangle a b c amp points = if (points <=? p)%Z || (p <? 0)%Z then [] else [(p, amp)].
Proof. intros Ha Hb Hc. rewrite triangle_unfold, Ha, Hb, Hc, Z.eqb_refl. reflexivity. Qed.

(** ** Sum over all bins *)

Lemma fold_plus_ext {A} (f g : A -> Q) l : (forall x, In x l -> f x == g x) -> fold_right Qplus 0 (map f l) == fold_right Qplus 0 (map g l).
Proof.
  induction l as [|x l IH]; intros H; simpl; [reflexivity|]. rewrite IH, (H x); [reflexivity| |]; simpl; auto.
  intros y Hy. apply H. simpl. auto.
Qed.
Lemma telescope (T : Q -> Q) (HT : Proper (Qeq ==> Qeq) T) n :
  fold_right Qplus 0 (map (fun k => T (zq k + 1) - T (zq k)) (map Z.of_nat (seq 0 n))) == T (zq (Z.of_nat n)) - T 0.
Proof.
  assert (G : forall n a, fold_right Qplus 0 (map (fun k => T (zq k + 1) - T (zq k)) (map Z.of_nat (seq a n)))
    == T (zq (Z.of_nat (a + n))) - T (zq (Z.of_nat a))).
  { clear n. induction n as [|n IH]; intros a; cbn [seq map fold_right].
    - rewrite Nat.add_0_r. ring.
    - rewrite IH. replace (S a + n)%nat with (a + S n)%nat by lia.
      assert (E : zq (Z.of_nat (S a)) == zq (Z.of_nat a) + 1).
      { rewrite Nat2Z.inj_succ. unfold Z.succ. rewrite zq_plus. reflexivity. }
      rewrite E. ring. }
  rewrite G. cbn [Nat.add]. reflexivity.
Qed.

Theorem triangle_total a b c amp points : 0 <= a -> 0 <= b -> 0 <= c ->
  a < zq points -> b < zq points -> c < zq points ->
  total (triangle a b c amp points) points == amp.
Proof.
  intros Ha Hb Hc La Lb Lc. pose proof (sort3_spec a b c) as S. destruct (sort3 a b c) as [[x y] z]. destruct S as [S1 [S2 S3]].
  assert (B : 0 <= x /\ z < zq points).
  { destruct (perm3 _ _ _ _ _ _ S3) as [[? [? ?]]|[[? [? ?]]|[[? [? ?]]|[[? [? ?]]|[[? [? ?]]|[? [? ?]]]]]]]; subst; split; lra. }
  assert (Hpos : (0 < points)%Z) by (apply (proj2 (zq_lt 0 points)); change (zq 0) with 0; lra).
  destruct (Qlt_le_dec x z) as [Hxz|Hxz].
  - unfold total. rewrite fold_plus_ext with (g := fun k => amp * (tent_cdf x y z (zq k + 1)) - amp * (tent_cdf x y z (zq k))).
    2:{ intros k Hk. unfold bins in Hk. apply in_map_iff in Hk. destruct Hk as [i [<- Hi]]. apply in_seq in Hi.
        rewrite triangle_exact_sorted with (x := x) (y := y) (z := z); auto; [ring| |lia].
        destruct (Z.eq_dec (Z.of_nat i) 0); [right|left]; [split; [auto|lra]|lia]. }
    unfold bins. rewrite (telescope (fun q => amp * tent_cdf x y z q)).
    + rewrite Z2Nat.id by lia. rewrite tent_high, tent_low by lra. ring.
    + intros u v E. rewrite E. reflexivity.
  - assert (E : x == y /\ y == z) by (split; lra). destruct E as [E1 E2].
    assert (T : trunc b = trunc a /\ trunc c = trunc a).
    { assert (trunc x = trunc y) by (rewrite E1; auto). assert (trunc y = trunc z) by (rewrite E2; auto).
      destruct (perm3 _ _ _ _ _ _ S3) as [[? [? ?]]|[[? [? ?]]|[[? [? ?]]|[[? [? ?]]|[[? [? ?]]|[? [? ?]]]]]]]; subst; split; congruence. }
    destruct T as [T1 T2]. rewrite (triangle_same_bin a b c amp points (trunc a)) by auto.
    destruct (trunc_nonneg a Ha) as [N1 [N2 N3]].
    assert (trunc a < points)%Z by (apply (proj2 (zq_lt _ _)); lra).
    destruct (Z.leb_spec points (trunc a)); [lia|]. destruct (Z.ltb_spec (trunc a) 0); [lia|]. cbn [orb].
    unfold total, bins. rewrite map_map.
    assert (G : forall n s, (s <= Z.to_nat (trunc a))%nat -> (Z.to_nat (trunc a) < s + n)%nat ->
      fold_right Qplus 0 (map (fun i => deposit [(trunc a, amp)] (Z.of_nat i)) (seq s n)) == amp).
    { assert (Z0 : forall n s, (Z.to_nat (trunc a) < s)%nat -> fold_right Qplus 0 (map (fun i => deposit [(trunc a, amp)] (Z.of_nat i)) (seq s n)) == 0).
      { induction n as [|n IH]; intros s Hs; cbn [seq map fold_right]; [reflexivity|]. rewrite IH by lia.
        rewrite deposit_cons, deposit_nil. destruct (Z.eqb_spec (trunc a) (Z.of_nat s)); [lia|]. ring. }
      induction n as [|n IH]; intros s G1 G2; [lia|]. cbn [seq map fold_right].
      rewrite deposit_cons, deposit_nil. destruct (Z.eqb_spec (trunc a) (Z.of_nat s)).
      - rewrite Z0 by lia. ring.
      - rewrite IH by lia. ring. }
    apply G; lia.
Qed.

(** ** Addresses *)

Lemma ramp_addr n p diff df w : In w (ramp n p diff df) -> (p <= fst w < p + Z.of_nat n)%Z.
Proof.
  revert p diff; induction n as [|n IH]; intros p diff; cbn [ramp]; [intros []|].
  intros [<-|H]; [simpl; lia|]. apply IH in H. lia.
Qed.

Lemma triangle_sorted_safe f0 f1 f2 amp points : (0 <= points)%Z -> f0 <= f1 -> f1 <= f2 ->
  Forall (safe_write points) (triangle_sorted f0 f1 f2 amp points).
Proof.
  intros Hpt H0 H1. unfold triangle_sorted. destruct (Z.ltb_spec points (trunc f0)); [constructor|].
  destruct (Z.ltb_spec (trunc f2) 0); [constructor|]. cbv zeta.
  pose proof (order_pm f0 f1 points H0 ltac:(lia) ltac:(lia)) as O1.
  pose proof (order_mx f1 f2 points H1 ltac:(lia) ltac:(lia)) as O2.
  pose proof (order_px f0 f1 f2 points H0 H1 ltac:(lia) ltac:(lia) ltac:(lia)) as [O3 [O4 O5]].
  apply Forall_app. split.
  - unfold left_tri. destruct (Z.eqb_spec (lclip f0) (mclip points f1)) as [E|E].
    + constructor; [|constructor]. unfold safe_write. cbn [fst snd].
      destruct (Z.eq_dec (lclip f0) points) as [E'|E']; [right|left; lia]. split; auto.
      assert (Hc : (points <=? trunc f1)%Z = true \/ points = 0%Z).
      { rewrite E in E'. unfold mclip, rclip in E'. destruct (Z.leb_spec points (trunc f1)); auto.
        destruct (Z.ltb_spec (trunc f1) 0); lia. }
      destruct Hc as [->|Hz]; [reflexivity|].
      destruct (Z.leb_spec points (trunc f1)); [reflexivity|].
      assert (trunc f0 < 0)%Z by (pose proof (trunc_mono _ _ H0); lia).
      destruct (Z.ltb_spec (trunc f0) 0); [reflexivity|lia].
    + constructor; [left; simpl; lia|]. apply Forall_app. split.
      * apply Forall_forall. intros w Hw. apply ramp_addr in Hw. rewrite Z2Nat.id in Hw by lia. left. lia.
      * constructor; [|constructor]. unfold safe_write. cbn [fst snd].
        destruct (Z.eq_dec (mclip points f1) points) as [E'|E']; [right|left; lia]. split; auto.
        assert (Hc : (points <=? trunc f1)%Z = true).
        { unfold mclip, rclip in *. destruct (Z.leb_spec points (trunc f1)); auto.
          destruct (Z.ltb_spec (trunc f1) 0); lia. }
        rewrite Hc. reflexivity.
  - assert (Hc : rclip points f2 = points -> (points <=? trunc f2)%Z = true).
    { unfold rclip. destruct (Z.leb_spec points (trunc f2)); auto. lia. }
    unfold right_tri. destruct (Z.eqb_spec (mclip points f1) (rclip points f2)) as [E|E].
    + constructor; [|constructor]. unfold safe_write. cbn [fst snd].
      destruct (Z.eq_dec (mclip points f1) points) as [E'|E']; [right|left; lia]. split; auto.
      rewrite Hc by congruence. reflexivity.
    + constructor; [left; simpl; lia|]. apply Forall_app. split.
      * apply Forall_forall. intros w Hw. apply ramp_addr in Hw. rewrite Z2Nat.id in Hw by lia. left. lia.
      * destruct (Z.leb_spec points (trunc f2)); cbn [negb]; [constructor|]. constructor; [|constructor]. left. cbn [fst].
        destruct (Z.eq_dec (rclip points f2) points) as [E'|E']; [|lia].
        unfold rclip in E'. destruct (Z.leb_spec points (trunc f2)); lia.
Qed.

Theorem triangle_safe a b c amp points : (0 <= points)%Z -> Forall (safe_write points) (triangle a b c amp points).
Proof.
  intros Hp. rewrite triangle_unfold. destruct (_ && _).
  - destruct (Z.leb_spec points (trunc a)); [constructor|]. destruct (Z.ltb_spec (trunc a) 0); [constructor|]. cbn [orb].
    constructor; [|constructor]. left. simpl. lia.
  - pose proof (sort3_spec a b c) as S. destruct (sort3 a b c) as [[x y] z]. destruct S as [S1 [S2 _]].
    apply triangle_sorted_safe; auto.
Qed.

Theorem delta_safe f points amp w : In w (delta_fn f points amp) -> (0 <= fst w < points)%Z.
Proof.
  unfold delta_fn. destruct (Z.leb_spec points (trunc f)); [intros []|]. destruct (Z.ltb_spec (trunc f) 0); [intros []|]. cbn [orb].
  destruct (Qltb _ TOL); [intros [<-|[]]; simpl; lia|].
  destruct (Qltb _ half).
  - destruct (Z.eqb_spec (trunc f) 0); cbn [negb app]; [intros [<-|[]]|intros [<-|[<-|[]]]]; simpl; lia.
  - destruct (Qltb half _); [|intros []].
    destruct (Z.eqb_spec (trunc f + 1) points); cbn [negb app]; [intros [<-|[]]|intros [<-|[<-|[]]]]; simpl; lia.
Qed.

Theorem triangle_interpolation_safe a b c amp points : (0 <= points)%Z -> Forall (safe_write points) (triangle_interpolation a b c amp points).
Proof.
  intros Hp. unfold triangle_interpolation. destruct (_ && _).
  - apply Forall_forall. intros w Hw. left. eapply delta_safe; eauto.
  - apply triangle_safe; auto.
Qed.

(** ** Vertex order *)
Definition weq (a b : writes) : Prop := Forall2 (fun x y => fst x = fst y /\ snd x == snd y) a b.
Lemma weq_deposit a b k : weq a b -> deposit a k == deposit b k.
Proof.
  induction 1 as [|[x v] [y u] a b [E1 E2] H IH]; [reflexivity|]. cbn [fst snd] in *. rewrite !deposit_cons, IH, E1.
  destruct (y =? k)%Z; [rewrite E2|]; reflexivity.
Qed.
Lemma ramp_weq n p diff diff' df df' : diff == diff' -> df == df' -> weq (ramp n p diff df) (ramp n p diff' df').
Proof.
  revert p diff diff'; induction n as [|n IH]; intros p diff diff' E F; cbn [ramp]; constructor.
  - cbn [fst snd]. split; auto. rewrite E, F. reflexivity.
  - apply IH; auto. rewrite E, F. reflexivity.
Qed.
Lemma weq_app a a' b b' : weq a a' -> weq b b' -> weq (a ++ b) (a' ++ b').
Proof. apply Forall2_app. Qed.
Lemma left_weq p pmid l r top top' f0 f0' f1 f1' : top == top' -> f0 == f0' -> f1 == f1' ->
  weq (left_tri p pmid l r top f0 f1) (left_tri p pmid l r top' f0' f1').
Proof.
  intros E0 E1 E2. unfold left_tri. destruct (p =? pmid)%Z.
  - constructor; [|constructor]. cbn [fst snd]. split; auto. destruct (_ && _); [|reflexivity]. rewrite E0, E1, E2. reflexivity.
  - constructor; [|apply weq_app; [apply ramp_weq|constructor; [|constructor]]]; cbn [fst snd].
    + split; auto. destruct (negb l); rewrite E0, E1, E2; reflexivity.
    + rewrite E0, E1, E2; reflexivity.
    + rewrite E0, E1, E2; reflexivity.
    + split; auto. destruct (negb r); [|reflexivity]. rewrite E0, E1, E2; reflexivity.
Qed.
Lemma right_weq p pmax l r top top' f1 f1' f2 f2' : top == top' -> f1 == f1' -> f2 == f2' ->
  weq (right_tri p pmax l r top f1 f2) (right_tri p pmax l r top' f1' f2').
Proof.
  intros E0 E1 E2. unfold right_tri. destruct (p =? pmax)%Z.
  - constructor; [|constructor]. cbn [fst snd]. split; auto. destruct (negb r); [|reflexivity]. rewrite E0, E1, E2. reflexivity.
  - constructor; [|apply weq_app; [apply ramp_weq|]]; cbn [fst snd].
    + split; auto. destruct (negb l); rewrite E0, E1, E2; reflexivity.
    + rewrite E0, E1, E2; reflexivity.
    + rewrite E0, E1, E2; reflexivity.
    + destruct (negb r); constructor; [|constructor]. cbn [fst snd]. split; auto. rewrite E0, E1, E2; reflexivity.
Qed.
Lemma triangle_sorted_weq f0 f1 f2 f0' f1' f2' amp points : f0 == f0' -> f1 == f1' -> f2 == f2' ->
  weq (triangle_sorted f0 f1 f2 amp points) (triangle_sorted f0' f1' f2' amp points).
Proof.
  intros E0 E1 E2. unfold triangle_sorted, lclip, mclip, rclip.
  assert (T0 : trunc f0' = trunc f0) by (rewrite E0; auto). assert (T1 : trunc f1' = trunc f1) by (rewrite E1; auto).
  assert (T2 : trunc f2' = trunc f2) by (rewrite E2; auto). rewrite !T0, !T1, !T2.
  destruct (points <? trunc f0)%Z; [constructor|]. destruct (trunc f2 <? 0)%Z; [constructor|]. cbv zeta.
  apply weq_app.
  - apply left_weq; auto. rewrite E0, E2. reflexivity.
  - apply right_weq; auto. rewrite E0, E2. reflexivity.
Qed.

Theorem triangle_perm a b c a' b' c' amp points k : Permutation [a; b; c] [a'; b'; c'] ->
  deposit (triangle a b c amp points) k == deposit (triangle a' b' c' amp points) k.
Proof.
  intros HP. rewrite !triangle_unfold.
  destruct ((trunc a =? trunc b)%Z && (trunc a =? trunc c)%Z) eqn:E; destruct ((trunc a' =? trunc b')%Z && (trunc a' =? trunc c')%Z) eqn:E'.
  - apply andb_true_iff in E. destruct E as [E1 E2]. apply Z.eqb_eq in E1, E2.
    assert (trunc a' = trunc a).
    { destruct (perm3 _ _ _ _ _ _ HP) as [[? [? ?]]|[[? [? ?]]|[[? [? ?]]|[[? [? ?]]|[[? [? ?]]|[? [? ?]]]]]]]; subst; congruence. }
    rewrite H. reflexivity.
  - exfalso. apply andb_true_iff in E. destruct E as [E1 E2]. apply Z.eqb_eq in E1, E2.
    apply andb_false_iff in E'. rewrite !Z.eqb_neq in E'.
    destruct (perm3 _ _ _ _ _ _ HP) as [[? [? ?]]|[[? [? ?]]|[[? [? ?]]|[[? [? ?]]|[[? [? ?]]|[? [? ?]]]]]]]; subst; destruct E'; congruence.
  - exfalso. apply andb_true_iff in E'. destruct E' as [E1 E2]. apply Z.eqb_eq in E1, E2.
    apply andb_false_iff in E. rewrite !Z.eqb_neq in E.
    destruct (perm3 _ _ _ _ _ _ HP) as [[? [? ?]]|[[? [? ?]]|[[? [? ?]]|[[? [? ?]]|[[? [? ?]]|[? [? ?]]]]]]]; subst; destruct E; congruence.
  - pose proof (sort3_spec a b c) as S. destruct (sort3 a b c) as [[x y] z]. destruct S as [S1 [S2 S3]].
    pose proof (sort3_spec a' b' c') as S'. destruct (sort3 a' b' c') as [[x' y'] z']. destruct S' as [S1' [S2' S3']].
    destruct (sorted3_unique x y z x' y' z') as [U1 [U2 U3]]; auto.
    { eapply perm_trans; [apply Permutation_sym; exact S3|]. eapply perm_trans; [exact HP|exact S3']. }
    apply weq_deposit, triangle_sorted_weq; auto.
Qed.

(** ** The right end of the window *)
Lemma left_bin0 f0 f1 points top : (0 < points)%Z -> f0 <= f1 ->
  deposit (left_tri (lclip f0) (mclip points f1) (trunc f0 <? 0)%Z (points <=? trunc f1)%Z top f0 f1) 0 ==
  if (0 <? trunc f0)%Z then 0 else
  if (0 <? trunc f1)%Z then
    (let diff := 1 - f0 in if negb (trunc f0 <? 0)%Z then half * diff * diff * (top / (f1 - f0)) else (diff - half) * (top / (f1 - f0)))
  else if negb (trunc f0 <? 0)%Z then (f1 - f0) * top * half else 0.
Proof.
  intros Hp H01. pose proof (trunc_mono _ _ H01) as M.
  destruct (Z.ltb_spec 0 (trunc f0)) as [L|L].
  - assert (C : (lclip f0 = trunc f0)%Z) by (unfold lclip; destruct (Z.ltb_spec (trunc f0) 0); lia).
    assert (C' : (1 <= mclip points f1)%Z) by (unfold mclip, rclip; destruct (Z.leb_spec points (trunc f1)); [destruct (Z.ltb_spec points 0)|destruct (Z.ltb_spec (trunc f1) 0)]; lia).
    unfold left_tri. rewrite C. destruct (Z.eqb_spec (trunc f0) (mclip points f1)).
    + rewrite deposit_cons, deposit_nil. destruct (Z.eqb_spec (trunc f0) 0); [lia|]. ring.
    + rewrite deposit_cons, deposit_app, ramp_deposit, deposit_cons, deposit_nil.
      destruct (Z.eqb_spec (trunc f0) 0); [lia|]. destruct (Z.eqb_spec (mclip points f1) 0); [lia|].
      destruct (Z.leb_spec (trunc f0 + 1) 0); [lia|]. cbn [andb]. ring.
  - assert (C : (lclip f0 = 0)%Z) by (unfold lclip; destruct (Z.ltb_spec (trunc f0) 0); lia). unfold left_tri. rewrite C.
    destruct (Z.ltb_spec 0 (trunc f1)) as [L1|L1].
    + assert (C' : (1 <= mclip points f1)%Z) by (unfold mclip, rclip; destruct (Z.leb_spec points (trunc f1)); [destruct (Z.ltb_spec points 0)|destruct (Z.ltb_spec (trunc f1) 0)]; lia).
      destruct (Z.eqb_spec 0 (mclip points f1)); [lia|].
      rewrite deposit_cons, deposit_app, ramp_deposit, deposit_cons, deposit_nil.
      destruct (Z.eqb_spec (mclip points f1) 0); [lia|]. cbn [Z.add Z.leb Z.compare andb Z.eqb].
      change (zq 0) with 0. cbv zeta. destruct (negb (trunc f0 <? 0)%Z); ring.
    + assert (C' : (mclip points f1 = 0)%Z) by (unfold mclip, rclip; destruct (Z.leb_spec points (trunc f1)); [lia|destruct (Z.ltb_spec (trunc f1) 0)]; lia).
      rewrite C', Z.eqb_refl, deposit_cons, deposit_nil, Z.eqb_refl.
      destruct (Z.leb_spec points (trunc f1)); [lia|]. cbn [negb andb]. destruct (negb (trunc f0 <? 0)%Z); ring.
Qed.
Lemma right_bin0 f1 f2 points top : (0 < points)%Z -> f1 <= f2 -> (0 <= trunc f2)%Z ->
  deposit (right_tri (mclip points f1) (rclip points f2) (rclip points f1 <? 0)%Z (points <=? trunc f2)%Z top f1 f2) 0 ==
  if (0 <? trunc f1)%Z then 0 else
  if (0 <? trunc f2)%Z then
    (let diff := f2 - 1 in if negb (trunc f1 <? 0)%Z then (f2 - f1 - diff) * (diff + (f2 - f1)) * half * (top / (f2 - f1)) else (diff + half) * (top / (f2 - f1)))
  else (f2 - f1) * top * half.
Proof.
  intros Hp H01 H2. pose proof (trunc_mono _ _ H01) as M.
  destruct (Z.ltb_spec 0 (trunc f1)) as [L|L].
  - assert (C' : (1 <= mclip points f1)%Z) by (unfold mclip, rclip; destruct (Z.leb_spec points (trunc f1)); [destruct (Z.ltb_spec points 0)|destruct (Z.ltb_spec (trunc f1) 0)]; lia).
    assert (C : (1 <= rclip points f2)%Z) by (unfold rclip; destruct (Z.leb_spec points (trunc f2)); lia).
    unfold right_tri. destruct (Z.eqb_spec (mclip points f1) (rclip points f2)).
    + rewrite deposit_cons, deposit_nil. destruct (Z.eqb_spec (mclip points f1) 0); [lia|]. ring.
    + rewrite deposit_cons, deposit_app, ramp_deposit.
      destruct (Z.eqb_spec (mclip points f1) 0); [lia|].
      destruct (Z.leb_spec (mclip points f1 + 1) 0); [lia|]. cbn [andb].
      destruct (negb (points <=? trunc f2)%Z); [|rewrite deposit_nil; ring]. rewrite deposit_cons, deposit_nil.
      destruct (Z.eqb_spec (rclip points f2) 0); [lia|]. ring.
  - assert (C' : (mclip points f1 = 0)%Z) by (unfold mclip, rclip; destruct (Z.leb_spec points (trunc f1)); [lia|destruct (Z.ltb_spec (trunc f1) 0)]; lia).
    assert (C1 : rclip points f1 = trunc f1) by (unfold rclip; destruct (Z.leb_spec points (trunc f1)); lia).
    rewrite C1. unfold right_tri. rewrite C'.
    destruct (Z.ltb_spec 0 (trunc f2)) as [L1|L1].
    + assert (C : (1 <= rclip points f2)%Z) by (unfold rclip; destruct (Z.leb_spec points (trunc f2)); lia).
      destruct (Z.eqb_spec 0 (rclip points f2)); [lia|].
      rewrite deposit_cons, deposit_app, ramp_deposit. cbn [Z.add Z.leb Z.compare andb Z.eqb].
      assert (E : deposit (if negb (points <=? trunc f2)%Z then [(rclip points f2, (f2 - zq (rclip points f2)) * (f2 - zq (rclip points f2)) * half * (top / (f2 - f1)))] else []) 0 == 0).
      { destruct (negb _); [|reflexivity]. rewrite deposit_cons, deposit_nil. destruct (Z.eqb_spec (rclip points f2) 0); [lia|]. ring. }
      rewrite E. change (zq 0) with 0. cbv zeta. destruct (negb (trunc f1 <? 0)%Z); ring.
    + assert (C : (rclip points f2 = 0)%Z) by (unfold rclip; destruct (Z.leb_spec points (trunc f2)); lia).
      rewrite C, Z.eqb_refl, deposit_cons, deposit_nil, Z.eqb_refl.
      destruct (Z.leb_spec points (trunc f2)); [lia|]. cbn [negb]. ring.
Qed.

Lemma triangle_sorted_right_end f0 f1 f2 amp n n' k : f0 <= f1 -> f1 <= f2 -> f0 < f2 -> (0 <= k < n)%Z -> (k < n')%Z ->
  deposit (triangle_sorted f0 f1 f2 amp n) k == deposit (triangle_sorted f0 f1 f2 amp n') k.
Proof.
  intros H0 H1 H2 Hk Hk'. destruct (Z.eq_dec k 0) as [->|Hz].
  - assert (G : forall n, (0 < n)%Z -> deposit (triangle_sorted f0 f1 f2 amp n) 0 ==
      if (trunc f2 <? 0)%Z then 0 else
      let top := amp * (2 # 1) / (f2 - f0) in
      (if (0 <? trunc f0)%Z then 0 else
       if (0 <? trunc f1)%Z then
         (let diff := 1 - f0 in if negb (trunc f0 <? 0)%Z then half * diff * diff * (top / (f1 - f0)) else (diff - half) * (top / (f1 - f0)))
       else if negb (trunc f0 <? 0)%Z then (f1 - f0) * top * half else 0) +
      (if (0 <? trunc f1)%Z then 0 else
       if (0 <? trunc f2)%Z then
         (let diff := f2 - 1 in if negb (trunc f1 <? 0)%Z then (f2 - f1 - diff) * (diff + (f2 - f1)) * half * (top / (f2 - f1)) else (diff + half) * (top / (f2 - f1)))
       else (f2 - f1) * top * half)).
    { clear - H0 H1 H2. intros n Hn. unfold triangle_sorted. destruct (Z.ltb_spec n (trunc f0)) as [L|L].
      - pose proof (trunc_mono _ _ H0). pose proof (trunc_mono _ _ H1).
        destruct (Z.ltb_spec (trunc f2) 0); [lia|]. cbv zeta.
        destruct (Z.ltb_spec 0 (trunc f0)); [|lia]. destruct (Z.ltb_spec 0 (trunc f1)); [|lia]. reflexivity.
      - destruct (Z.ltb_spec (trunc f2) 0); [reflexivity|]. cbv zeta.
        rewrite deposit_app, left_bin0, right_bin0 by (auto; lia). reflexivity. }
    rewrite !G by lia. reflexivity.
  - rewrite !triangle_sorted_exact; auto; try reflexivity; try lia; left; lia.
Qed.

Theorem triangle_right_end a b c amp n n' k : (0 <= k < n)%Z -> (k < n')%Z ->
  deposit (triangle a b c amp n) k == deposit (triangle a b c amp n') k.
Proof.
  intros Hk Hk'. rewrite !triangle_unfold. destruct (_ && _) eqn:E.
  - destruct (Z.leb_spec n (trunc a)), (Z.leb_spec n' (trunc a)), (Z.ltb_spec (trunc a) 0); cbn [orb];
      rewrite ?deposit_cons, ?deposit_nil; destruct (Z.eqb_spec (trunc a) k); try lia; ring.
  - pose proof (sort3_spec a b c) as S. destruct (sort3 a b c) as [[x y] z]. destruct S as [S1 [S2 S3]].
    apply triangle_sorted_right_end; auto.
    destruct (Qlt_le_dec x z) as [L|L]; auto. exfalso.
    assert (E1 : x == y) by lra. assert (E2 : y == z) by lra.
    assert (trunc x = trunc y) by (rewrite E1; auto). assert (trunc y = trunc z) by (rewrite E2; auto).
    assert (T : trunc a = trunc b /\ trunc a = trunc c).
    { destruct (perm3 _ _ _ _ _ _ S3) as [[? [? ?]]|[[? [? ?]]|[[? [? ?]]|[[? [? ?]]|[[? [? ?]]|[? [? ?]]]]]]]; subst; split; congruence. }
    destruct T as [T1 T2]. rewrite <- T1, <- T2, Z.eqb_refl in E. discriminate.
Qed.

(** ** The left end of the window: moving it by s bins *)
Lemma tent_shift a b c x s : tent_cdf (a - s) (b - s) (c - s) (x - s) == tent_cdf a b c x.
Proof.
  unfold tent_cdf.
  destruct (Qle_bool_spec x a) as [A|A]; destruct (Qle_bool_spec (x - s) (a - s)) as [A'|A']; [reflexivity|exfalso; lra|exfalso; lra|].
  destruct (Qltb_spec x b) as [B|B]; destruct (Qltb_spec (x - s) (b - s)) as [B'|B']; [|exfalso; lra|exfalso; lra|].
  { setoid_replace (x - s - (a - s)) with (x - a) by ring. setoid_replace (c - s - (a - s)) with (c - a) by ring.
    setoid_replace (b - s - (a - s)) with (b - a) by ring. reflexivity. }
  destruct (Qltb_spec x c) as [C|C]; destruct (Qltb_spec (x - s) (c - s)) as [C'|C']; [|exfalso; lra|exfalso; lra|reflexivity].
  setoid_replace (c - s - (x - s)) with (c - x) by ring. setoid_replace (c - s - (a - s)) with (c - a) by ring.
  setoid_replace (c - s - (b - s)) with (c - b) by ring. reflexivity.
Qed.
Lemma trunc_is k x : (0 < k)%Z -> trunc x = k <-> zq k <= x /\ x < zq k + 1.
Proof.
  intros H. split.
  - intros E. split; [apply trunc_ge_pos; lia|apply trunc_lt_pos; lia].
  - intros [A B]. assert (zq 0 < zq k) by (apply (proj1 (zq_lt 0 k)); auto). change (zq 0) with 0 in *.
    destruct (trunc_nonneg x) as [C [D E]]; [lra|].
    destruct (Z.lt_trichotomy (trunc x) k) as [L|[L|L]]; auto; apply zq_succ_le in L; lra.
Qed.

Theorem triangle_left_end a b c amp n n' s k : (0 < k < n')%Z -> (0 < k + s < n)%Z ->
  deposit (triangle (a - zq s) (b - zq s) (c - zq s) amp n') k == deposit (triangle a b c amp n) (k + s).
Proof.
  intros Hk Hs. pose proof (sort3_spec a b c) as S. destruct (sort3 a b c) as [[x y] z]. destruct S as [S1 [S2 S3]].
  assert (S3' : Permutation [a - zq s; b - zq s; c - zq s] [x - zq s; y - zq s; z - zq s]).
  { apply (Permutation_map (fun q => q - zq s)) in S3. exact S3. }
  destruct (Qlt_le_dec x z) as [L|L].
  - rewrite (triangle_exact_sorted _ _ _ (x - zq s) (y - zq s) (z - zq s)); auto; try lra; [|left; lia|lia].
    rewrite (triangle_exact_sorted _ _ _ x y z); auto; try lra; [|left; lia|lia].
    rewrite !zq_plus.
    rewrite <- (tent_shift x y z (zq k + zq s + 1) (zq s)), <- (tent_shift x y z (zq k + zq s) (zq s)).
    setoid_replace (zq k + zq s + 1 - zq s) with (zq k + 1) by ring.
    setoid_replace (zq k + zq s - zq s) with (zq k) by ring. reflexivity.
  - assert (E1 : x == y) by lra. assert (E2 : y == z) by lra.
    assert (V : a == x /\ b == x /\ c == x).
    { destruct (perm3 _ _ _ _ _ _ S3) as [[? [? ?]]|[[? [? ?]]|[[? [? ?]]|[[? [? ?]]|[[? [? ?]]|[? [? ?]]]]]]]; subst; repeat split; lra. }
    destruct V as [Va [Vb Vc]].
    assert (G : forall (f f' f'' : Q) m j, (0 < j < m)%Z -> f == f' -> f == f'' ->
       deposit (triangle f f' f'' amp m) j == if Qle_bool (zq j) f && Qltb f (zq j + 1) then amp else 0).
    { intros f f' f'' m j Hj Ef Ef'. rewrite (triangle_same_bin f f' f'' amp m (trunc f)); [|auto|rewrite Ef; auto|rewrite Ef'; auto].
      pose proof (trunc_is j f ltac:(lia)) as TI.
      destruct (Qle_bool_spec (zq j) f), (Qltb_spec f (zq j + 1)); cbn [andb].
      - assert (E : trunc f = j) by (apply TI; auto). rewrite E.
        destruct (Z.leb_spec m j); [lia|]. destruct (Z.ltb_spec j 0); [lia|]. cbn [orb]. rewrite deposit_cons, deposit_nil, Z.eqb_refl. ring.
      - destruct (_ || _); [reflexivity|]. rewrite deposit_cons, deposit_nil. destruct (Z.eqb_spec (trunc f) j); [|ring]. apply TI in e. lra.
      - destruct (_ || _); [reflexivity|]. rewrite deposit_cons, deposit_nil. destruct (Z.eqb_spec (trunc f) j); [|ring]. apply TI in e. lra.
      - destruct (_ || _); [reflexivity|]. rewrite deposit_cons, deposit_nil. destruct (Z.eqb_spec (trunc f) j); [|ring]. apply TI in e. lra. }
    rewrite !G; try lia; try (rewrite Va, ?Vb, ?Vc; reflexivity).
    pose proof (zq_plus k s) as Z1.
    destruct (Qle_bool_spec (zq k) (a - zq s)), (Qltb_spec (a - zq s) (zq k + 1)),
      (Qle_bool_spec (zq (k + s)) a), (Qltb_spec a (zq (k + s) + 1)); cbn [andb]; try reflexivity; lra.
Qed.

(** ** The tent *)
Lemma tent_up_area f0 f1 f2 x y : f0 < f1 -> f1 <= f2 -> f0 <= x -> x <= y -> y <= f1 ->
  tent_cdf f0 f1 f2 y - tent_cdf f0 f1 f2 x == (y - x) * (tent_up f0 f1 f2 x + tent_up f0 f1 f2 y) / 2.
Proof.
  intros H0 H1 H2 H3 H4. assert (G : forall u, f0 <= u -> u <= f1 -> tent_cdf f0 f1 f2 u == (u - f0) * (u - f0) / ((f2 - f0) * (f1 - f0))).
  { intros u U0 U1. unfold tent_cdf. destruct (Qle_bool_spec u f0).
    - setoid_replace u with f0 by lra. field. split; lra.
    - destruct (Qltb_spec u f1); [reflexivity|]. assert (E : u == f1) by lra. destruct (Qltb_spec u f2).
      + rewrite E. field. repeat split; lra.
      + assert (E2 : f2 == f1) by lra. rewrite E, E2. field. lra. }
  rewrite !G by lra. unfold tent_up. field. split; lra.
Qed.
Lemma tent_down_area f0 f1 f2 x y : f0 <= f1 -> f1 < f2 -> f1 <= x -> x <= y -> y <= f2 ->
  tent_cdf f0 f1 f2 y - tent_cdf f0 f1 f2 x == (y - x) * (tent_down f0 f1 f2 x + tent_down f0 f1 f2 y) / 2.
Proof.
  intros H0 H1 H2 H3 H4. assert (G : forall u, f1 <= u -> u <= f2 -> tent_cdf f0 f1 f2 u == 1 - (f2 - u) * (f2 - u) / ((f2 - f0) * (f2 - f1))).
  { intros u U0 U1. unfold tent_cdf. destruct (Qle_bool_spec u f0).
    - setoid_replace u with f1 by lra. setoid_replace f0 with f1 by lra. field. lra.
    - destruct (Qltb_spec u f1); [lra|]. destruct (Qltb_spec u f2); [reflexivity|]. setoid_replace u with f2 by lra. field. split; lra. }
  rewrite !G by lra. unfold tent_down. field. split; lra.
Qed.
