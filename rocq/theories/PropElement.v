(** C113: the single elements of the Wigner matrices.  [wigner_formula l m1 m2 beta] (WignerSpec) is d^l_{m1 m2}(beta). *)
From Coq Require Import Reals List ZArith Bool Lra Lia.
From Coquelicot Require Rcomplements.
From Verif Require Import WignerMatrix WignerSpec WignerOrtho WignerFormula WignerElement WignerElementProofs.
Import ListNotations.
Open Scope R_scope.

(** The orders from l down to -l, and sums over them. *)
Definition orders (l : Z) : list Z := map (fun j => (l - Z.of_nat j)%Z) (seq 0 (Z.to_nat (2 * l + 1))).
Definition sum_over (l : list Z) (f : Z -> R) : R := fold_right Rplus 0 (map f l).
Lemma over_orders l f : (0 <= l)%Z -> sum_over (orders l) f = sum_f_R0 (fun j => f (l - Z.of_nat j)%Z) (Z.to_nat (2 * l)).
Proof. intros H. unfold sum_over, orders. rewrite map_map. replace (Z.to_nat (2 * l + 1)) with (S (Z.to_nat (2 * l))) by lia. rewrite <- lsum_sum. reflexivity. Qed.

(** The elements of every rank are those of the rotations of two component spinors, acting on the homogeneous polynomials of degree
    2l with basis y^(l+m) x^(l-m) / sqrt ((l+m)! (l-m)!) ... *)
Theorem C113_action : forall (l m2 : Z) (beta x y : R), (- l <= m2 <= l)%Z ->
  let basis m x y := y ^ Z.to_nat (l + m) * x ^ Z.to_nat (l - m) / sqrt (INR (fact (Z.to_nat (l + m))) * INR (fact (Z.to_nat (l - m)))) in
  sum_over (orders l) (fun m1 => wigner_formula l m1 m2 beta * basis m1 x y) =
  basis m2 (cos (beta / 2) * x - sin (beta / 2) * y) (cos (beta / 2) * y + sin (beta / 2) * x).
Proof.
  intros l m2 beta x y H basis. rewrite over_orders by lia. set (n := Z.to_nat (2 * l)). set (i := Z.to_nat (l - m2)).
  rewrite (sum_eq _ (fun j => wnat n i j beta * (y ^ (n - j) * x ^ j / wt n j))).
  - rewrite (acts n i beta x y) by (unfold n, i; lia). unfold basis, wt. fold i. replace (Z.to_nat (l + m2)) with (n - i)%nat by (unfold n, i; lia). reflexivity.
  - intros j Hj. rewrite formula_nat by (unfold n in Hj; lia). fold n i. unfold basis, wt. replace (Z.to_nat (l - (l - Z.of_nat j))) with j by lia. replace (Z.to_nat (l + (l - Z.of_nat j))) with (n - j)%nat by (unfold n; lia). reflexivity.
Qed.
Print Assumptions C113_action.
(** ... and rotations about the same axis add. *)
Theorem C113_addition : forall (l m1 m2 : Z) (a b : R), (- l <= m1 <= l)%Z -> (- l <= m2 <= l)%Z ->
  sum_over (orders l) (fun m => wigner_formula l m1 m a * wigner_formula l m m2 b) = wigner_formula l m1 m2 (a + b).
Proof.
  intros l m1 m2 a b H1 H2. rewrite over_orders by lia. rewrite (formula_nat l m1 m2) by auto. rewrite (Rplus_comm a b), <- compose by lia. apply sum_eq. intros j Hj.
  rewrite !formula_nat by lia. replace (Z.to_nat (l - (l - Z.of_nat j))) with j by lia. ring.
Qed.
Print Assumptions C113_addition.
Example C113_action_example : (- 3 <= -1 <= 3)%Z /\ orders 3 = [3; 2; 1; 0; -1; -2; -3]%Z /\ wigner_formula 2 0 0 0 = 1.
Proof. split; [lia|]. split; [reflexivity|]. pose proof (formula2 0 2 2 ltac:(lia) ltac:(lia)) as F. change (Z.of_nat 2 - 2)%Z with 0%Z in F. rewrite <- F, cos_0, sin_0. unfold ent2. wig. lra. Qed.

(** The function returns, for every rank but 2, the element at the opposite angle, that is d^l_{m2 m1}(beta); the process exits when
    an order lies outside the rank. *)
Theorem C113_element_partial : forall (l m1 m2 : Z) (beta : R), l <> 2%Z ->
  ((- l <= m1 <= l)%Z /\ (- l <= m2 <= l)%Z -> wigner_d_element l m1 m2 beta = Some (wigner_formula l m1 m2 (- beta))) /\
  (~ ((- l <= m1 <= l)%Z /\ (- l <= m2 <= l)%Z) -> wigner_d_element l m1 m2 beta = None).
Proof.
  intros l m1 m2 beta N. unfold wigner_d_element. destruct (Z.eqb_spec l 2); [contradiction|]. cbn [negb]. split.
  - intros [H1 H2]. apply formula_neg; auto.
  - intros H. apply generic_exit. lia.
Qed.
Print Assumptions C113_element_partial.
Example C113_element_example : wigner_d_element 3 3 (-3) PI = Some (wigner_formula 3 3 (-3) (- PI)) /\ wigner_d_element 1 2 0 1 = None.
Proof. split; [apply (C113_element_partial 3 3 (-3) PI); lia|apply (C113_element_partial 1 2 0 1); lia]. Qed.

(** So the documented element is returned when m1 - m2 is even or the angle is zero, and its opposite when m1 - m2 is odd. *)
Theorem C113_parity : forall (l m1 m2 : Z) (beta : R), (- l <= m1 <= l)%Z -> (- l <= m2 <= l)%Z ->
  wigner_formula l m1 m2 (- beta) = (if Z.even (m1 - m2) then 1 else -1) * wigner_formula l m1 m2 beta.
Proof.
  intros l m1 m2 beta H1 H2. unfold wigner_formula. match goal with |- _ = ?e * (?q * ?f) => replace (e * (q * f)) with (q * (e * f)) by ring end. apply Rmult_eq_compat_l.
  replace (- beta / 2) with (- (beta / 2)) by field. rewrite cos_neg, sin_neg. generalize (cos (beta / 2)) (sin (beta / 2)). intros c s.
  change (lsum (map (fun k => wigner_term l m1 m2 c (- s) (Z.of_nat k)) (seq 0 (Z.to_nat (2 * l + 1)))) = (if Z.even (m1 - m2) then 1 else -1) * lsum (map (fun k => wigner_term l m1 m2 c s (Z.of_nat k)) (seq 0 (Z.to_nat (2 * l + 1))))).
  rewrite <- lsum_scale. apply lsum_ext. intros k _. unfold wigner_term. destruct (_ && _ && _ && _)%bool eqn:E; [|ring]. rewrite !andb_true_iff, !Z.leb_le in E.
  replace (- s) with (-1 * s) by ring. rewrite Rpow_mult_distr.
  assert (S : (-1) ^ Z.to_nat (m1 - m2 + 2 * Z.of_nat k) = if Z.even (m1 - m2) then 1 else -1).
  { set (p := Z.to_nat (m1 - m2 + 2 * Z.of_nat k)). assert (EV : Z.even (m1 - m2) = Nat.even p).
    { rewrite <- (Z.even_add_mul_2 (m1 - m2) (Z.of_nat k)). replace (m1 - m2 + 2 * Z.of_nat k)%Z with (Z.of_nat p) by (unfold p; lia).
      clear. induction p as [|p IH]; [reflexivity|]. rewrite Nat2Z.inj_succ, Z.even_succ, Nat.even_succ, <- Z.negb_even, <- Nat.negb_even, IH. reflexivity. }
    rewrite EV. clear. induction p as [|p IH]; [reflexivity|]. cbn [pow]. rewrite IH, Nat.even_succ, <- Nat.negb_even. destruct (Nat.even p); cbn; ring. }
  rewrite S. destruct (Z.even (m1 - m2)); unfold Rdiv; ring.
Qed.
Print Assumptions C113_parity.
Example C113_parity_example : Z.even (1 - 0) = false /\ (- 1 <= 0 <= 1)%Z. Proof. split; [reflexivity|lia]. Qed.

(** The sign is not that of the documented element ... *)
Theorem C113_sign_refuted : exists r, wigner_d_element 1 1 0 (PI / 2) = Some r /\ r = - wigner_formula 1 1 0 (PI / 2) /\ 0 < r.
Proof.
  exists (wigner_formula 1 1 0 (- (PI / 2))). split; [apply (C113_element_partial 1 1 0 (PI / 2)); lia|]. rewrite (C113_parity 1 1 0 (PI / 2)) by lia. cbn [Z.even Z.sub Z.opp Z.add]. split; [ring|].
  unfold wigner_formula. change (seq 0 (Z.to_nat (2 * 1 + 1))) with [0%nat; 1%nat; 2%nat]. cbn [map fold_right]. unfold wigner_term. ev_leb. cbn [andb]. ev_nat. ev_zf. cbn [pow]. replace (PI / 2 / 2) with (PI / 4) by field. rewrite cos_PI4, sin_PI4.
  match goal with |- context [sqrt (?a * 1 * 1 * 1)] => set (q := sqrt (a * 1 * 1 * 1)); assert (0 < q) by (apply sqrt_lt_R0; lra) end. assert (P : 0 < 1 / sqrt 2) by (apply Rdiv_lt_0_compat; [lra|apply sqrt_lt_R0; lra]).
  set (r := 1 / sqrt 2) in *. clearbody q r. match goal with |- 0 < ?e => replace e with (q * (r * r)) by field end. apply Rmult_lt_0_compat; [assumption|]. apply Rmult_lt_0_compat; assumption.
Qed.
Print Assumptions C113_sign_refuted.
(** ... and for rank 2 the function always returns 0. *)
Theorem C113_rank2_refuted : (forall m1 m2 beta, wigner_d_element 2 m1 m2 beta = Some 0) /\ wigner_formula 2 0 0 0 = 1.
Proof.
  split; [reflexivity|]. pose proof (formula2 0 2 2 ltac:(lia) ltac:(lia)) as F. change (Z.of_nat 2 - 2)%Z with 0%Z in F. rewrite <- F, cos_0, sin_0. unfold ent2. wig. lra.
Qed.
Print Assumptions C113_rank2_refuted.

(** The function that takes the cosine and sine returns the elements of rank 2, to the precision of its constants, and 0 for all
    other ranks and orders. *)
Theorem C113_from_exp_partial : forall (m1 m2 : Z) (beta : R),
  ((-2 <= m1 <= 2)%Z /\ (-2 <= m2 <= 2)%Z -> Rabs (wigner_d_element_from_exp_I_beta 2 m1 m2 (cos beta) (sin beta) - wigner_formula 2 m1 m2 beta) <= 1e-9) /\
  (~ ((-2 <= m1 <= 2)%Z /\ (-2 <= m2 <= 2)%Z) -> wigner_d_element_from_exp_I_beta 2 m1 m2 (cos beta) (sin beta) = 0) /\
  (forall l, l <> 2%Z -> wigner_d_element_from_exp_I_beta l m1 m2 (cos beta) (sin beta) = 0).
Proof.
  intros m1 m2 beta. split; [|split].
  - intros [H1 H2]. pose proof (formula2 beta (Z.to_nat (m2 + 2)) (Z.to_nat (m1 + 2)) ltac:(lia) ltac:(lia)) as F.
    replace (Z.of_nat (Z.to_nat (m1 + 2)) - 2)%Z with m1 in F by lia. replace (Z.of_nat (Z.to_nat (m2 + 2)) - 2)%Z with m2 in F by lia. rewrite <- F. clear F.
    pose proof (COS_bound beta) as C. pose proof (SIN_bound beta) as S. set (c := cos beta) in *. set (s := sin beta) in *. clearbody c s.
    assert (K38 : Rabs (0.6123724355 - sqrt (3 / 8)) <= 1e-9).
    { pose proof (sqrt_sqrt (3 / 8) ltac:(lra)) as Q. pose proof (sqrt_pos (3 / 8)). apply Rabs_le. split; nra. }
    assert (K32 : Rabs (1.224744871 - sqrt (3 / 2)) <= 1e-9).
    { pose proof (sqrt_sqrt (3 / 2) ltac:(lra)) as Q. pose proof (sqrt_pos (3 / 2)). apply Rabs_le. split; nra. }
    assert (U : forall k k' a b, Rabs (k - k') <= 1e-9 -> -1 <= a <= 1 -> -1 <= b <= 1 -> Rabs (k * a * b - k' * a * b) <= 1e-9).
    { intros k k' a b K A B. replace (k * a * b - k' * a * b) with ((k - k') * (a * b)) by ring. rewrite Rabs_mult, Rabs_mult.
      assert (Rabs a <= 1) by (apply Rabs_le; lra). assert (Rabs b <= 1) by (apply Rabs_le; lra). pose proof (Rabs_pos a). pose proof (Rabs_pos b). pose proof (Rabs_pos (k - k')). assert (0 <= Rabs a * Rabs b <= 1) by nra. nra. }
    pose proof (U _ _ s s K38 S S) as U1. pose proof (U _ _ s c K32 S C) as U2. apply Rcomplements.Rabs_le_between in U1, U2.
    assert (M1 : m1 = (-2)%Z \/ m1 = (-1)%Z \/ m1 = 0%Z \/ m1 = 1%Z \/ m1 = 2%Z) by lia. assert (M2 : m2 = (-2)%Z \/ m2 = (-1)%Z \/ m2 = 0%Z \/ m2 = 1%Z \/ m2 = 2%Z) by lia.
    unfold ent2. destruct M1 as [->|[->|[->|[->| ->]]]]; destruct M2 as [->|[->|[->|[->| ->]]]]; cbn [wigner_d_element_from_exp_I_beta negb Z.eqb Pos.eqb];
      match goal with |- context [nth (Z.to_nat ?a * 5 + Z.to_nat ?b)] => let r := eval vm_compute in (Z.to_nat a * 5 + Z.to_nat b)%nat in change (Z.to_nat a * 5 + Z.to_nat b)%nat with r end;
      cbn [nth wigner_2j ideal k38 k32]; apply Rabs_le; lra.
  - intros H. unfold wigner_d_element_from_exp_I_beta. cbn [negb Z.eqb Pos.eqb].
    destruct m1 as [|[[?|?|]|[?|[?|?|]|]|]|[[?|?|]|[?|[?|?|]|]|]]; try reflexivity; destruct m2 as [|[[?|?|]|[?|[?|?|]|]|]|[[?|?|]|[?|[?|?|]|]|]]; try reflexivity; exfalso; apply H; lia.
  - intros l N. unfold wigner_d_element_from_exp_I_beta. destruct (Z.eqb_spec l 2); [contradiction|]. reflexivity.
Qed.
Print Assumptions C113_from_exp_partial.
Example C113_from_exp_example : (-2 <= 1 <= 2)%Z /\ ~ (-2 <= 3 <= 2)%Z. Proof. lia. Qed.
