From Coq Require Import Reals List ZArith Lra Lia Psatz.
From Coquelicot Require Import Complex.
From Verif Require Import DftModel DftSpec DftProofs WignerMatrix WignerOrtho.
Import ListNotations.
Open Scope R_scope.

(** ** The decimal constants *)
Lemma close_sqrt x k e : 0 <= k - e -> 0 <= k + e -> (k - e) * (k - e) <= x <= (k + e) * (k + e) -> Rabs (k - sqrt x) <= e.
Proof.
  intros H0 H1 [L U]. assert (k - e <= sqrt x) by (apply sqrt_le_1_alt in L; rewrite sqrt_square in L; auto).
  assert (sqrt x <= k + e) by (apply sqrt_le_1_alt in U; rewrite sqrt_square in U; auto). apply Rabs_le. lra.
Qed.
Lemma close_sqrt_div x k e d : 0 < d -> 0 <= k - e -> 0 <= k + e -> ((k - e) * d) * ((k - e) * d) <= x <= ((k + e) * d) * ((k + e) * d) -> Rabs (k - sqrt x / d) <= e.
Proof.
  intros D H0 H1 H. assert (A : Rabs (k * d - sqrt x) <= e * d).
  { apply close_sqrt; nra. }
  replace (k - sqrt x / d) with ((k * d - sqrt x) * / d) by (field; lra). rewrite Rabs_mult, (Rabs_right (/ d)).
  - apply Rmult_le_reg_r with d; auto. rewrite Rmult_assoc, Rinv_l by lra. lra.
  - apply Rle_ge, Rlt_le, Rinv_0_lt_compat. auto.
Qed.

(** Entries of the matrices for close constants and arguments: a structural bound. *)
Lemma b_mul x y a b : Rabs x <= a -> Rabs y <= b -> Rabs (x * y) <= a * b.
Proof. intros. rewrite Rabs_mult. apply Rmult_le_compat; auto using Rabs_pos. Qed.
Lemma b_add x y a b : Rabs x <= a -> Rabs y <= b -> Rabs (x + y) <= a + b.
Proof. intros. eapply Rle_trans; [apply Rabs_triang|]. lra. Qed.
Lemma b_opp x a : Rabs x <= a -> Rabs (- x) <= a. Proof. rewrite Rabs_Ropp. auto. Qed.
Lemma b_sub x y a b : Rabs x <= a -> Rabs y <= b -> Rabs (x - y) <= a + b.
Proof. intros. apply b_add; auto using b_opp. Qed.
Lemma b_pos x : 0 <= x -> Rabs x <= x. Proof. intros. rewrite Rabs_right; lra. Qed.
Lemma b_neg x : x <= 0 -> Rabs x <= - x. Proof. intros. rewrite Rabs_left1; lra. Qed.
Ltac bnd := first [eassumption | apply b_pos; lra | apply b_neg; lra | eapply b_mul; [bnd|bnd] | eapply b_sub; [bnd|bnd] | eapply b_add; [bnd|bnd] | eapply b_opp; bnd].
Lemma d_mul x y x' y' a b p q : Rabs x <= a -> Rabs y' <= b -> Rabs (x - x') <= p -> Rabs (y - y') <= q -> Rabs (x * y - x' * y') <= a * q + p * b.
Proof. intros. replace (x * y - x' * y') with (x * (y - y') + (x - x') * y') by ring. apply b_add; apply b_mul; auto. Qed.
Lemma d_add x y x' y' p q : Rabs (x - x') <= p -> Rabs (y - y') <= q -> Rabs (x + y - (x' + y')) <= p + q.
Proof. intros. replace (x + y - (x' + y')) with ((x - x') + (y - y')) by ring. apply b_add; auto. Qed.
Lemma d_sub x y x' y' p q : Rabs (x - x') <= p -> Rabs (y - y') <= q -> Rabs (x - y - (x' - y')) <= p + q.
Proof. intros. replace (x - y - (x' - y')) with ((x - x') - (y - y')) by ring. apply b_sub; auto. Qed.
Lemma d_opp x x' p : Rabs (x - x') <= p -> Rabs (- x - - x') <= p.
Proof. intros. replace (- x - - x') with (- (x - x')) by ring. apply b_opp; auto. Qed.
Lemma d_const x : Rabs (x - x) <= 0. Proof. rewrite Rminus_eq_0, Rabs_R0. lra. Qed.
Ltac dbnd := first [eassumption | apply d_const | eapply d_mul; [bnd|bnd|dbnd|dbnd] | eapply d_sub; [dbnd|dbnd] | eapply d_add; [dbnd|dbnd] | eapply d_opp; dbnd].

Definition eps := / 2000000000.
Definition tight (x y b : R) := Rabs (x - y) <= eps /\ Rabs x <= b.
Definition all_tight (k k' : wconst) :=
  tight (k38 k) (k38 k') 0.613 /\ tight (k32 k) (k32 k') 1.225 /\ tight (k2_8 k) (k2_8 k') 0.177 /\
  tight (k14_8 k) (k14_8 k') 0.468 /\ tight (k70_16 k) (k70_16 k') 0.523 /\ tight (k35_4 k) (k35_4 k') 1.48 /\
  tight (k7_8 k) (k7_8 k') 0.331 /\ tight (k10_8 k) (k10_8 k') 0.396 /\ tight (k5_4 k) (k5_4 k') 0.56 /\
  tight (k2_4 k) (k2_4 k') 0.354.
Lemma decimal_tight : all_tight decimal ideal.
Proof.
  unfold all_tight, tight, decimal, ideal, eps. cbn [k38 k32 k2_8 k14_8 k70_16 k35_4 k7_8 k10_8 k5_4 k2_4].
  repeat split; try (apply close_sqrt_div; lra); try (apply close_sqrt; lra); rewrite Rabs_right; lra.
Qed.

Section Close.
Variables c s c' s' e : R.
Hypothesis Bc : Rabs c <= 1.
Hypothesis Bs : Rabs s <= 1.
Hypothesis Bc' : Rabs c' <= 1.
Hypothesis Bs' : Rabs s' <= 1.
Hypothesis Dc : Rabs (c - c') <= e.
Hypothesis Ds : Rabs (s - s') <= e.
Hypothesis E0 : 0 <= e.
Variables k k' : wconst.
Hypothesis T : all_tight k k'.
Ltac constants := destruct T as [[? ?] [[? ?] [[? ?] [[? ?] [[? ?] [[? ?] [[? ?] [[? ?] [[? ?] [? ?]]]]]]]]]].
Ltac entry := unfold ent2, ent4; cbn [nth Nat.mul Nat.add wigner_2j wigner_4j].
Lemma close2 i j : (i < 5)%nat -> (j < 5)%nat -> Rabs (ent2 k c s i j - ent2 k' c' s' i j) <= 10 * e + 10 * eps.
Proof.
  intros Hi Hj. unfold ent2. constants. 
  do 5 (destruct i as [|i]; [do 5 (destruct j as [|j]; [eapply Rle_trans; [entry; dbnd|unfold eps in *; lra]|]); lia|]). lia.
Qed.
Lemma close4 i j : (i < 9)%nat -> (j < 9)%nat -> Rabs (ent4 k c s i j - ent4 k' c' s' i j) <= 600 * e + 600 * eps.
Proof.
  intros Hi Hj. unfold ent4. constants.
  do 9 (destruct i as [|i]; [do 9 (destruct j as [|j]; [eapply Rle_trans; [entry; dbnd|unfold eps in *; lra]|]); lia|]). lia.
Qed.
End Close.
