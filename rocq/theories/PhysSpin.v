From Coq Require Import Reals List ZArith Lra Lia Psatz.
From Coquelicot Require Import Complex.
From Verif Require Import DftModel DftProofs WignerNorm PhysSpec.
Import ListNotations.
Open Scope R_scope.

(** ** Matrix elements of quadratic forms in the spin *)
Lemma csum_zero n f : (forall i, (i < n)%nat -> f i = RtoC 0) -> csum n f = RtoC 0.
Proof. induction n as [|n IH]; intros H; cbn; [auto|]. rewrite IH, H by (auto; intros; apply H; lia). ring. Qed.
Lemma csum_one n k v : csum n (fun c => if Nat.eqb c k then v else RtoC 0) = if Nat.ltb k n then v else RtoC 0.
Proof.
  induction n as [|n IH]; [reflexivity|]. cbn [csum]. rewrite IH. destruct (Nat.eqb_spec n k) as [->|N].
  - rewrite Nat.ltb_irrefl. replace (k <? S k)%nat with true by (symmetry; apply Nat.ltb_lt; lia). ring.
  - destruct (Nat.ltb_spec k n); [replace (k <? S n)%nat with true by (symmetry; apply Nat.ltb_lt; lia)|replace (k <? S n)%nat with false by (symmetry; apply Nat.ltb_ge; lia)]; ring.
Qed.
Lemma csum_add n f g : csum n (fun c => f c + g c)%C = (csum n f + csum n g)%C.
Proof. induction n as [|n IH]; cbn; [ring|]. rewrite IH. ring. Qed.
Lemma rsum_one n k v : rsum n (fun c => if Nat.eqb c k then v else 0) = if Nat.ltb k n then v else 0.
Proof.
  induction n as [|n IH]; [reflexivity|]. cbn [rsum]. rewrite IH. destruct (Nat.eqb_spec n k) as [->|N].
  - rewrite Nat.ltb_irrefl. replace (k <? S k)%nat with true by (symmetry; apply Nat.ltb_lt; lia). ring.
  - destruct (Nat.ltb_spec k n); [replace (k <? S n)%nat with true by (symmetry; apply Nat.ltb_lt; lia)|replace (k <? S n)%nat with false by (symmetry; apply Nat.ltb_ge; lia)]; ring.
Qed.

Definition rho2 (n : nat) (x : R) : R := spin n * (spin n + 1) - x * (x + 1).
Definition rho (n b : nat) : R := sqrt (rho2 n (quantum n b)).
Lemma rho_sq n b : (b <= n)%nat -> rho n b * rho n b = rho2 n (quantum n b).
Proof.
  intros L. unfold rho. apply sqrt_sqrt. unfold rho2, quantum, spin. pose proof (pos_INR b). apply le_INR in L. nra.
Qed.
Lemma rho_top n : rho n n = 0.
Proof. unfold rho. replace (rho2 n (quantum n n)) with 0; [apply sqrt_0|]. unfold rho2, quantum, spin. field. Qed.
(** The three elements of a row that may differ from zero. *)
Definition up (n : nat) (i : axis) (b : nat) : C := match i with X => RtoC (rho n b / 2) | Y => (0, - (rho n b / 2)) | Z => RtoC 0 end.
Definition dn (n : nat) (i : axis) (a : nat) : C := match i with X => RtoC (rho n a / 2) | Y => (0, rho n a / 2) | Z => RtoC 0 end.
Definition dg (n : nat) (i : axis) (a : nat) : C := match i with Z => RtoC (quantum n a) | _ => RtoC 0 end.
Lemma op_up n i b : spin_op n i (S b) b = up n i b.
Proof.
  unfold spin_op, lowering, raising. rewrite Nat.eqb_refl. replace (b =? S (S b))%nat with false by (symmetry; apply Nat.eqb_neq; lia).
  replace (S b =? b)%nat with false by (symmetry; apply Nat.eqb_neq; lia). fold (rho2 n (quantum n b)) (rho n b).
  destruct i; cbn [up]; apply C_ext; cbn; unfold rho, rho2; field.
Qed.
Lemma op_dn n i b : spin_op n i b (S b) = dn n i b.
Proof.
  unfold spin_op, lowering, raising. rewrite Nat.eqb_refl. replace (b =? S (S b))%nat with false by (symmetry; apply Nat.eqb_neq; lia).
  replace (b =? S b)%nat with false by (symmetry; apply Nat.eqb_neq; lia).
  destruct i; cbn [dn]; apply C_ext; cbn; unfold rho, rho2; field.
Qed.
Lemma op_dg n i b : spin_op n i b b = dg n i b.
Proof.
  unfold spin_op, lowering, raising. replace (b =? S b)%nat with false by (symmetry; apply Nat.eqb_neq; lia). rewrite Nat.eqb_refl.
  destruct i; cbn [dg]; apply C_ext; cbn; ring.
Qed.
Lemma op_far n i a b : (a <> S b -> b <> S a -> a <> b -> spin_op n i a b = RtoC 0)%nat.
Proof.
  intros H1 H2 H3. apply Nat.eqb_neq in H1, H2, H3. unfold spin_op, lowering, raising. rewrite H1, H2, H3. destruct i; apply C_ext; cbn; ring.
Qed.
(** Row a of a product. *)
Lemma compose_row n i j a b : (a <= n)%nat -> compose n (spin_op n i) (spin_op n j) a b =
  ((match a with O => RtoC 0 | S c => up n i c * spin_op n j c b end) + dg n i a * spin_op n j a b + dn n i a * (if Nat.ltb a n then spin_op n j (S a) b else RtoC 0))%C.
Proof.
  intros L. unfold compose.
  rewrite (csum_ext (S n) _ (fun c => ((if Nat.eqb c (a - 1) then match a with O => RtoC 0 | S c => up n i c * spin_op n j c b end else RtoC 0)
     + (if Nat.eqb c a then dg n i a * spin_op n j a b else RtoC 0)) + (if Nat.eqb c (S a) then dn n i a * spin_op n j (S a) b else RtoC 0))%C).
  - rewrite !csum_add, !csum_one. replace (a - 1 <? S n)%nat with true by (symmetry; apply Nat.ltb_lt; lia). replace (a <? S n)%nat with true by (symmetry; apply Nat.ltb_lt; lia).
    change (S a <? S n)%nat with (a <? n)%nat. destruct (a <? n)%nat; [ring|]. rewrite Cmult_0_r. ring.
  - intros c Hc. destruct (Nat.eqb_spec c (a - 1)) as [E1|N1]; [|destruct (Nat.eqb_spec c a) as [E2|N2]; [|destruct (Nat.eqb_spec c (S a)) as [E3|N3]]].
    + destruct a as [|a].
      * cbn in E1. subst c. rewrite Nat.eqb_refl, op_dg. cbn [Nat.eqb]. ring.
      * cbn in E1. rewrite Nat.sub_0_r in E1. subst c. rewrite op_up. replace (a =? S a)%nat with false by (symmetry; apply Nat.eqb_neq; lia).
        replace (a =? S (S a))%nat with false by (symmetry; apply Nat.eqb_neq; lia). ring.
    + subst c. rewrite op_dg. replace (a =? S a)%nat with false by (symmetry; apply Nat.eqb_neq; lia). ring.
    + subst c. rewrite op_dn. ring.
    + rewrite op_far by lia. ring.
Qed.
Lemma quantum_S n a : quantum n (S a) = quantum n a + 1.
Proof. unfold quantum. rewrite S_INR. ring. Qed.
Section Elements.
Variables (n : nat) (T : tensor3).
Hypothesis Sym : symmetric T.
Lemma row_next i j a : (S a <= n)%nat -> compose n (spin_op n i) (spin_op n j) a (S a) = (dg n i a * dn n j a + dn n i a * dg n j (S a))%C.
Proof.
  intros L. rewrite compose_row by lia. replace (a <? n)%nat with true by (symmetry; apply Nat.ltb_lt; lia). rewrite op_dn, op_dg.
  destruct a as [|c]; [ring|]. rewrite op_far by lia. ring.
Qed.
Lemma row_next2 i j a : (S (S a) <= n)%nat -> compose n (spin_op n i) (spin_op n j) a (S (S a)) = (dn n i a * dn n j (S a))%C.
Proof.
  intros L. rewrite compose_row by lia. replace (a <? n)%nat with true by (symmetry; apply Nat.ltb_lt; lia). rewrite op_dn, (op_far n j a) by lia.
  destruct a as [|c]; [ring|]. rewrite op_far by lia. ring.
Qed.
Lemma row_same i j a : (a <= n)%nat -> compose n (spin_op n i) (spin_op n j) a a =
  ((match a with O => RtoC 0 | S c => up n i c * dn n j c end) + dg n i a * dg n j a + dn n i a * up n j a)%C.
Proof.
  intros L. rewrite compose_row by lia. rewrite op_dg, op_up. destruct (Nat.ltb_spec a n).
  - destruct a as [|c]; [ring|]. rewrite op_dn. ring.
  - assert (a = n) by lia. subst a. assert (D : dn n i n = RtoC 0) by (unfold dn; rewrite rho_top; destruct i; apply C_ext; cbn; field). rewrite D. destruct n as [|c]; [ring|]. rewrite op_dn. ring.
Qed.
Lemma row_far i j a b : (a <= n)%nat -> (S (S a) < b)%nat -> compose n (spin_op n i) (spin_op n j) a b = RtoC 0.
Proof.
  intros L F. rewrite compose_row by lia. rewrite (op_far n j a), (op_far n j (S a)) by lia. destruct (a <? n)%nat, a as [|c]; try rewrite (op_far n j c) by lia; ring.
Qed.
Lemma compose_conj i j a b : compose n (spin_op n i) (spin_op n j) a b = Cconj (compose n (spin_op n j) (spin_op n i) b a).
Proof.
  unfold compose. assert (K : forall i a b, spin_op n i a b = Cconj (spin_op n i b a)).
  { clear. intros i a b. unfold spin_op, lowering. destruct i; cbn [Cconj].
    - rewrite Cplus_comm. unfold raising. destruct (b =? S a)%nat, (a =? S b)%nat; apply C_ext; cbn; ring.
    - unfold raising. destruct (b =? S a)%nat, (a =? S b)%nat; apply C_ext; cbn; ring.
    - rewrite (Nat.eqb_sym b a). destruct (Nat.eqb_spec a b) as [->|]; apply C_ext; cbn; ring. }
  assert (G : forall N, csum N (fun c => spin_op n i a c * spin_op n j c b)%C = Cconj (csum N (fun c => spin_op n j b c * spin_op n i c a)%C)).
  { induction N as [|N IH]; cbn [csum]; [apply C_ext; cbn; ring|]. rewrite IH, (K i a N), (K j N b). rewrite (K i N a). rewrite (K i a N). rewrite (K j b N). rewrite (K j N b).
    generalize (csum N (fun c => (spin_op n j b c * spin_op n i c a)%C)) (spin_op n i a N) (spin_op n j b N). intros u v w. apply C_ext; cbn; ring. }
  apply G.
Qed.
Lemma quadratic_conj a b : quadratic n T a b = Cconj (quadratic n T b a).
Proof.
  unfold quadratic. rewrite (Sym Y X), (Sym Z X), (Sym Z Y).
  rewrite (compose_conj X X a b), (compose_conj X Y a b), (compose_conj X Z a b), (compose_conj Y X a b), (compose_conj Y Y a b), (compose_conj Y Z a b), (compose_conj Z X a b), (compose_conj Z Y a b), (compose_conj Z Z a b).
  generalize (compose n (spin_op n X) (spin_op n X) b a) (compose n (spin_op n X) (spin_op n Y) b a) (compose n (spin_op n X) (spin_op n Z) b a) (compose n (spin_op n Y) (spin_op n X) b a)
    (compose n (spin_op n Y) (spin_op n Y) b a) (compose n (spin_op n Y) (spin_op n Z) b a) (compose n (spin_op n Z) (spin_op n X) b a) (compose n (spin_op n Z) (spin_op n Y) b a) (compose n (spin_op n Z) (spin_op n Z) b a).
  intros. apply C_ext; cbn; ring.
Qed.
Lemma quadratic_next a : (S a <= n)%nat -> quadratic n T a (S a) = (RtoC (rho n a / 2 * (2 * quantum n a + 1)) * (T X Z, T Y Z))%C.
Proof.
  intros L. unfold quadratic. rewrite !row_next by auto. cbn [dg dn]. rewrite quantum_S, (Sym Y X), (Sym Z X), (Sym Z Y). apply C_ext; cbn; field.
Qed.
Lemma quadratic_next2 a : (S (S a) <= n)%nat -> quadratic n T a (S (S a)) = (RtoC (rho n a * rho n (S a) / 4) * (T X X - T Y Y, 2 * T X Y)%R)%C.
Proof.
  intros L. unfold quadratic. rewrite !row_next2 by auto. cbn [dg dn]. rewrite (Sym Y X), (Sym Z X), (Sym Z Y). apply C_ext; cbn; field.
Qed.
Lemma quadratic_far a b : (a <= n)%nat -> (S (S a) < b)%nat -> quadratic n T a b = RtoC 0.
Proof. intros L F. unfold quadratic. rewrite !row_far by auto. ring. Qed.
Lemma quadratic_same a : (a <= n)%nat -> let m := quantum n a in
  quadratic n T a a = RtoC (T Z Z * (m * m) + (T X X + T Y Y) / 2 * (spin n * (spin n + 1) - m * m)).
Proof.
  intros L m. unfold quadratic. rewrite !row_same by auto. cbn [dg dn up]. rewrite (Sym Y X), (Sym Z X), (Sym Z Y).
  pose proof (rho_sq n a L) as R1. fold m in R1. unfold rho2 in R1. fold m. destruct a as [|c].
  - assert (M : spin n = - m) by (unfold m, quantum; cbn; ring). rewrite M in *. apply C_ext; cbn; field [R1].
  - pose proof (rho_sq n c ltac:(lia)) as R2. unfold rho2 in R2. assert (Mc : quantum n c = m - 1) by (unfold m; rewrite quantum_S; ring). rewrite Mc in R2. apply C_ext; cbn; field [R1 R2].
Qed.
End Elements.

(** ** The spin matrices are those of an angular momentum *)
Definition next_axis (i : axis) : axis := match i with X => Y | Y => Z | Z => X end.
Definition Ci : C := (0, 1).
Lemma commutator n i a b : (a <= n)%nat -> (b <= n)%nat ->
  (compose n (spin_op n i) (spin_op n (next_axis i)) a b - compose n (spin_op n (next_axis i)) (spin_op n i) a b = Ci * spin_op n (next_axis (next_axis i)) a b)%C.
Proof.
  intros La Lb.
  assert (UP : forall a b, (a <= b)%nat -> (b <= n)%nat ->
    (compose n (spin_op n i) (spin_op n (next_axis i)) a b - compose n (spin_op n (next_axis i)) (spin_op n i) a b = Ci * spin_op n (next_axis (next_axis i)) a b)%C).
  { clear a b La Lb. intros a b L Lb. assert (K : (b = a \/ b = S a \/ b = S (S a) \/ S (S a) < b)%nat) by lia. destruct K as [->|[->|[->|K]]].
    - rewrite !row_same, op_dg by auto. pose proof (rho_sq n a Lb) as R1. unfold rho2 in R1. destruct a as [|c].
      + assert (M : spin n = - quantum n 0) by (unfold quantum; cbn; ring). rewrite M in *. destruct i; cbn [next_axis dg dn up]; apply C_ext; cbn; field [R1].
      + pose proof (rho_sq n c ltac:(lia)) as R2. unfold rho2 in R2. rewrite quantum_S in *. destruct i; cbn [next_axis dg dn up]; rewrite ?quantum_S; apply C_ext; cbn; field [R1 R2].
    - rewrite !row_next, op_dn by auto. destruct i; cbn [next_axis dg dn up]; rewrite ?quantum_S; apply C_ext; cbn; field.
    - rewrite !row_next2, op_far by lia. destruct i; cbn [next_axis dg dn up]; apply C_ext; cbn; field.
    - rewrite !row_far, op_far by lia. ring. }
  destruct (Nat.le_ge_cases a b) as [L|L]; [auto|].
  rewrite (compose_conj n i (next_axis i) a b), (compose_conj n (next_axis i) i a b). specialize (UP b a L La).
  assert (S : spin_op n (next_axis (next_axis i)) a b = Cconj (spin_op n (next_axis (next_axis i)) b a)).
  { unfold spin_op, lowering. destruct i; cbn [next_axis].
    - rewrite (Nat.eqb_sym b a). destruct (Nat.eqb_spec a b) as [->|]; apply C_ext; cbn; ring.
    - unfold raising. destruct (b =? S a)%nat, (a =? S b)%nat; apply C_ext; cbn; ring.
    - unfold raising. destruct (b =? S a)%nat, (a =? S b)%nat; apply C_ext; cbn; ring. }
  rewrite S. revert UP. generalize (compose n (spin_op n i) (spin_op n (next_axis i)) b a) (compose n (spin_op n (next_axis i)) (spin_op n i) b a) (spin_op n (next_axis (next_axis i)) b a).
  intros [u1 u2] [v1 v2] [w1 w2] E. injection E as E1 E2. cbn in E1, E2. apply C_ext; cbn; lra.
Qed.
Lemma casimir n a b : (a <= n)%nat -> (b <= n)%nat ->
  (compose n (spin_op n X) (spin_op n X) a b + compose n (spin_op n Y) (spin_op n Y) a b + compose n (spin_op n Z) (spin_op n Z) a b =
   if Nat.eqb a b then RtoC (spin n * (spin n + 1)) else RtoC 0)%C.
Proof.
  intros La Lb.
  assert (UP : forall a b, (a <= b)%nat -> (b <= n)%nat -> (compose n (spin_op n X) (spin_op n X) a b + compose n (spin_op n Y) (spin_op n Y) a b + compose n (spin_op n Z) (spin_op n Z) a b =
   if Nat.eqb a b then RtoC (spin n * (spin n + 1)) else RtoC 0)%C).
  { clear a b La Lb. intros a b L Lb. assert (K : (b = a \/ b = S a \/ b = S (S a) \/ S (S a) < b)%nat) by lia. destruct K as [->|[->|[->|K]]].
    - rewrite !row_same, Nat.eqb_refl by auto. pose proof (rho_sq n a Lb) as R1. unfold rho2 in R1. destruct a as [|c].
      + assert (M : spin n = - quantum n 0) by (unfold quantum; cbn; ring). rewrite M in *. cbn [dg dn up]; apply C_ext; cbn; field [R1].
      + pose proof (rho_sq n c ltac:(lia)) as R2. unfold rho2 in R2. rewrite quantum_S in *. cbn [dg dn up]; rewrite ?quantum_S; apply C_ext; cbn; field [R1 R2].
    - rewrite !row_next by auto. replace (a =? S a)%nat with false by (symmetry; apply Nat.eqb_neq; lia). cbn [dg dn up]; apply C_ext; cbn; field.
    - rewrite !row_next2 by lia. replace (a =? S (S a))%nat with false by (symmetry; apply Nat.eqb_neq; lia). cbn [dg dn up]; apply C_ext; cbn; field.
    - rewrite !row_far by lia. replace (a =? b)%nat with false by (symmetry; apply Nat.eqb_neq; lia). ring. }
  destruct (Nat.le_ge_cases a b) as [L|L]; [auto|].
  rewrite (compose_conj n X X a b), (compose_conj n Y Y a b), (compose_conj n Z Z a b). specialize (UP b a L La). rewrite (Nat.eqb_sym b a) in UP.
  revert UP. generalize (compose n (spin_op n X) (spin_op n X) b a) (compose n (spin_op n Y) (spin_op n Y) b a) (compose n (spin_op n Z) (spin_op n Z) b a).
  intros [u1 u2] [v1 v2] [w1 w2] E. destruct (a =? b)%nat; injection E as E1 E2; cbn in E1, E2; apply C_ext; cbn; lra.
Qed.

(** ** The energies *)
Definition kq (n : nat) (Cq : R) : R := Cq / (2 * spin n * (2 * spin n - 1)).
Lemma energy1_quad n Cq V a : symmetric V -> trace V = 0 -> (a <= n)%nat -> let m := quantum n a in
  energy1 (H_quad n Cq V) a = kq n Cq * (V Z Z * (3 * (m * m) - spin n * (spin n + 1)) / 2).
Proof.
  intros Sy Tr L m. unfold energy1, H_quad. rewrite quadratic_same by auto. fold m. fold (kq n Cq). assert (T : V X X + V Y Y = - V Z Z) by (unfold trace, asum in Tr; lra).
  rewrite T. cbn. field.
Qed.
(** Squares of the elements one and two above the diagonal, as polynomials in m. *)
Definition W1 (V : tensor3) : R := V X Z * V X Z + V Y Z * V Y Z.
Definition W2 (V : tensor3) : R := (V X X - V Y Y) * (V X X - V Y Y) + 4 * (V X Y * V X Y).
Definition U1 (n : nat) (k : R) (V : tensor3) (m : R) : R := k * k / 4 * rho2 n m * ((2 * m + 1) * (2 * m + 1)) * W1 V.
Definition U2 (n : nat) (k : R) (V : tensor3) (m : R) : R := k * k / 16 * rho2 n m * rho2 n (m + 1) * W2 V.
Lemma element1 n Cq V a : symmetric V -> (S a <= n)%nat -> abs2 (H_quad n Cq V a (S a)) = U1 n (kq n Cq) V (quantum n a).
Proof.
  intros Sy L. unfold H_quad. rewrite quadratic_next by auto. fold (kq n Cq). rewrite <- Cmult_assoc || idtac. rewrite !abs2_mult.
  pose proof (rho_sq n a ltac:(lia)) as R. unfold U1, W1. rewrite <- R. unfold abs2. cbn. field.
Qed.
Lemma element2 n Cq V a : symmetric V -> (S (S a) <= n)%nat -> abs2 (H_quad n Cq V a (S (S a))) = U2 n (kq n Cq) V (quantum n a).
Proof.
  intros Sy L. unfold H_quad. rewrite quadratic_next2 by auto. fold (kq n Cq). rewrite !abs2_mult.
  pose proof (rho_sq n a ltac:(lia)) as R. pose proof (rho_sq n (S a) ltac:(lia)) as R'. rewrite quantum_S in R'. unfold U2, W2. rewrite <- R, <- R'. unfold abs2. cbn. field.
Qed.
Lemma H_swap n Cq V a b : symmetric V -> abs2 (H_quad n Cq V a b) = abs2 (H_quad n Cq V b a).
Proof. intros Sy. unfold H_quad. rewrite (quadratic_conj n V Sy a b), !abs2_mult, abs2_Cconj. reflexivity. Qed.
Lemma H_far n Cq V a b : (a <= n)%nat -> (S (S a) < b)%nat -> abs2 (H_quad n Cq V a b) = 0.
Proof. intros L F. unfold H_quad. rewrite quadratic_far by auto. unfold abs2. cbn. ring. Qed.
Lemma U1_low n k V : U1 n k V (quantum n 0 - 1) = 0. Proof. unfold U1, rho2, quantum, spin. cbn. field. Qed.
Lemma U1_high n k V : U1 n k V (quantum n n) = 0. Proof. unfold U1, rho2, quantum, spin. field. Qed.
Lemma U2_low n k V x : x = quantum n 0 - 1 \/ x = quantum n 0 - 2 -> U2 n k V x = 0.
Proof. intros [->| ->]; unfold U2, rho2, quantum, spin; cbn; field. Qed.
Lemma U2_high n k V x : x = quantum n n \/ x = quantum n n - 1 -> U2 n k V x = 0.
Proof. intros [->| ->]; unfold U2, rho2, quantum, spin; field. Qed.
Local Ltac nz := repeat split; auto; let E := fresh in intro E; match goal with N : ?x <> 0 |- _ => apply N; lra end.
Lemma energy2_quad n nu0 Cq V a : symmetric V -> nu0 <> 0 -> (a <= n)%nat -> let m := quantum n a in let k := kq n Cq in
  energy2 n nu0 (H_quad n Cq V) a = (U1 n k V (m - 1) - U1 n k V m + (U2 n k V (m - 2) - U2 n k V m) / 2) / nu0.
Proof.
  intros Sy N L m k. unfold energy2.
  set (f := fun b => if Nat.eqb b a then 0 else abs2 (H_quad n Cq V a b) / (nu0 * quantum n a - nu0 * quantum n b)).
  set (d1 := if Nat.ltb 0 a then f (a - 1)%nat else 0). set (d2 := if Nat.ltb 1 a then f (a - 2)%nat else 0).
  rewrite (rsum_ext (S n) f (fun b => (if Nat.eqb b (S a) then f (S a) else 0) + (if Nat.eqb b (S (S a)) then f (S (S a)) else 0)
     + (if Nat.eqb b (a - 1) then d1 else 0) + (if Nat.eqb b (a - 2) then d2 else 0))).
  - rewrite !rsum_plus, !rsum_one. replace (a - 1 <? S n)%nat with true by (symmetry; apply Nat.ltb_lt; lia). replace (a - 2 <? S n)%nat with true by (symmetry; apply Nat.ltb_lt; lia).
    assert (A1 : (if (S a <? S n)%nat then f (S a) else 0) = - U1 n k V m / nu0).
    { change (S a <? S n)%nat with (a <? n)%nat. destruct (Nat.ltb_spec a n).
      - unfold f. replace (S a =? a)%nat with false by (symmetry; apply Nat.eqb_neq; lia). rewrite element1, quantum_S by (auto; lia). unfold m, k. field; nz.
      - unfold m. assert (EN : a = n) by lia. rewrite EN, U1_high. field; nz. }
    assert (A2 : (if (S (S a) <? S n)%nat then f (S (S a)) else 0) = - (U2 n k V m / 2) / nu0).
    { change (S (S a) <? S n)%nat with (S a <? n)%nat. destruct (Nat.ltb_spec (S a) n).
      - unfold f. replace (S (S a) =? a)%nat with false by (symmetry; apply Nat.eqb_neq; lia). rewrite element2, !quantum_S by (auto; lia). unfold m, k. field; nz.
      - rewrite U2_high; [field; nz|]. assert (E : a = n \/ n = S a) by lia. destruct E as [->| ->]; [left; reflexivity|right]. unfold m. unfold quantum, spin. rewrite S_INR. lra. }
    assert (A3 : d1 = U1 n k V (m - 1) / nu0).
    { unfold d1. destruct a as [|c]; cbn [Nat.ltb Nat.leb].
      - unfold m. rewrite U1_low. field; nz.
      - cbn [Nat.sub]. rewrite Nat.sub_0_r. unfold f. replace (c =? S c)%nat with false by (symmetry; apply Nat.eqb_neq; lia). rewrite H_swap, element1 by (auto; lia).
        unfold m, k. rewrite quantum_S. replace (quantum n c + 1 - 1) with (quantum n c) by ring. field; nz. }
    assert (A4 : d2 = U2 n k V (m - 2) / 2 / nu0).
    { unfold d2. destruct a as [|[|c]]; cbn [Nat.ltb Nat.leb].
      - unfold m. rewrite U2_low by auto. field; nz.
      - unfold m. rewrite quantum_S, U2_low by (left; ring). field; nz.
      - cbn [Nat.sub]. rewrite Nat.sub_0_r. unfold f. replace (c =? S (S c))%nat with false by (symmetry; apply Nat.eqb_neq; lia). rewrite H_swap, element2 by (auto; lia).
        unfold m, k. rewrite !quantum_S. replace (quantum n c + 1 + 1 - 2) with (quantum n c) by ring. field; nz. }
    rewrite A1, A2, A3, A4. field; nz.
  - intros b Hb. unfold d1, d2.
    assert (FAR : (S (S a) < b \/ S (S b) < a)%nat -> f b = 0).
    { intros F. unfold f. replace (b =? a)%nat with false by (symmetry; apply Nat.eqb_neq; lia). destruct F as [F|F]; [|rewrite H_swap by auto]; rewrite H_far by lia; unfold Rdiv; ring. }
    destruct (Nat.eqb_spec b (S a)) as [->|N1]; [replace (S a =? S (S a))%nat with false by (symmetry; apply Nat.eqb_neq; lia); replace (S a =? a - 1)%nat with false by (symmetry; apply Nat.eqb_neq; lia); replace (S a =? a - 2)%nat with false by (symmetry; apply Nat.eqb_neq; lia); ring|].
    destruct (Nat.eqb_spec b (S (S a))) as [->|N2]; [replace (S (S a) =? a - 1)%nat with false by (symmetry; apply Nat.eqb_neq; lia); replace (S (S a) =? a - 2)%nat with false by (symmetry; apply Nat.eqb_neq; lia); ring|].
    destruct (Nat.eqb_spec b (a - 1)) as [E1|N3].
    + destruct a as [|c].
      * cbn in E1. subst b. cbn [Nat.ltb Nat.leb Nat.sub Nat.eqb]. unfold f. rewrite Nat.eqb_refl. ring.
      * cbn in E1. rewrite Nat.sub_0_r in E1. subst b. replace (S c - 1)%nat with c by lia. cbn [Nat.ltb Nat.leb]. destruct c as [|c]; [cbn; ring|].
        replace (S (S c) - 2)%nat with c by lia. replace (S c =? c)%nat with false by (symmetry; apply Nat.eqb_neq; lia). ring.
    + destruct (Nat.eqb_spec b (a - 2)) as [E2|N4].
      * destruct a as [|[|c]]; [cbn in *; lia|cbn in *; lia|]. cbn [Nat.ltb Nat.leb]. rewrite E2. ring.
      * destruct (Nat.eq_dec b a) as [->|N5]; [unfold f; rewrite Nat.eqb_refl; ring|]. rewrite FAR by lia. ring.
Qed.
