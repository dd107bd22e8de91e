From Coq Require Import Reals List ZArith Lra Lia Psatz.
From Coquelicot Require Import Complex.
From Verif Require Import DftModel DftProofs WignerMatrix.
Import ListNotations.
Open Scope R_scope.

(** The constants through the square roots of 2, 5, 7 and 6. *)
Definition kk (a b g h : R) : wconst :=
  {| k38 := h / 4; k32 := h / 2; k2_8 := a / 8; k14_8 := a * g / 8; k70_16 := a * b * g / 16; k35_4 := b * g / 4; k7_8 := g / 8;
     k10_8 := a * b / 8; k5_4 := b / 4; k2_4 := a / 4 |}.
Lemma sqrt_sq x : 0 <= x -> sqrt x * sqrt x = x. Proof. apply sqrt_sqrt. Qed.
Lemma ideal_kk : ideal = kk (sqrt 2) (sqrt 5) (sqrt 7) (sqrt 6).
Proof.
  assert (E1 : sqrt (3 / 8) = sqrt 6 / 4).
  { apply sqrt_lem_1; [lra| |]. pose proof (sqrt_pos 6). lra. pose proof (sqrt_sq 6 ltac:(lra)). lra. }
  assert (E2 : sqrt (3 / 2) = sqrt 6 / 2).
  { apply sqrt_lem_1; [lra| |]. pose proof (sqrt_pos 6). lra. pose proof (sqrt_sq 6 ltac:(lra)). lra. }
  unfold ideal, kk. rewrite E1, E2.
  replace 14 with (2 * 7) by ring. replace 70 with (2 * 5 * 7) by ring. replace 35 with (5 * 7) by ring. replace 10 with (2 * 5) by ring.
  rewrite !sqrt_mult by lra. reflexivity.
Qed.

Definition ent2 (k : wconst) (c s : R) (i j : nat) : R := nth (i * 5 + j) (wigner_2j k c s) 0.
Definition ent4 (k : wconst) (c s : R) (i j : nat) : R := nth (i * 9 + j) (wigner_4j k c s) 0.
Ltac wig := cbn [nth Nat.mul Nat.add k38 k32 k2_8 k14_8 k70_16 k35_4 k7_8 k10_8 k5_4 k2_4 rsum Nat.eqb kk wigner_2j wigner_4j].
Ltac cases i n := match n with O => idtac | S ?m => destruct i as [|i]; [|cases i m] end.

Section Ortho.
Variables a b g h c s : R.
Hypothesis Hs : s * s = 1 - c * c.
Hypothesis Ha : a * a = 2.
Hypothesis Hb : b * b = 5.
Hypothesis Hg : g * g = 7.
Hypothesis Hh : h * h = 6.
Local Notation K := (kk a b g h).

Lemma ortho2 i j : (i < 5)%nat -> (j < 5)%nat -> rsum 5 (fun m => ent2 K c s m i * ent2 K c s m j) = if Nat.eqb i j then 1 else 0.
Proof.
  intros Hi Hj. unfold ent2. do 5 (destruct i as [|i]; [do 5 (destruct j as [|j]; [wig; field [Hs Hh]|]); lia|]). lia.
Qed.
Lemma ortho4_le i j : (i <= j)%nat -> (j < 9)%nat -> rsum 9 (fun m => ent4 K c s m i * ent4 K c s m j) = if Nat.eqb i j then 1 else 0.
Proof.
  intros Hi Hj. unfold ent4. do 9 (destruct i as [|i]; [do 9 (destruct j as [|j]; [first [lia|wig; field [Hs Ha Hb Hg]]|]); lia|]). lia.
Qed.
Lemma ortho4 i j : (i < 9)%nat -> (j < 9)%nat -> rsum 9 (fun m => ent4 K c s m i * ent4 K c s m j) = if Nat.eqb i j then 1 else 0.
Proof.
  intros Hi Hj. destruct (Nat.le_ge_cases i j) as [L|L]; [apply ortho4_le; auto|].
  rewrite (rsum_ext 9 _ (fun m => ent4 K c s m j * ent4 K c s m i)) by (intros; ring). rewrite ortho4_le by auto. rewrite Nat.eqb_sym. auto.
Qed.
End Ortho.

(** The matrix of the opposite angle is the transpose. *)
Lemma transp2 k c s i j : (i < 5)%nat -> (j < 5)%nat -> ent2 k c (- s) i j = ent2 k c s j i.
Proof. intros Hi Hj. unfold ent2. do 5 (destruct i as [|i]; [do 5 (destruct j as [|j]; [wig; field|]); lia|]). lia. Qed.
Lemma transp4 k c s i j : (i < 9)%nat -> (j < 9)%nat -> ent4 k c (- s) i j = ent4 k c s j i.
Proof. intros Hi Hj. unfold ent4. do 9 (destruct i as [|i]; [do 9 (destruct j as [|j]; [wig; field|]); lia|]). lia. Qed.

Lemma kk_ideal c s (H : s * s = 1 - c * c) :
  (forall i j, (i < 5)%nat -> (j < 5)%nat -> rsum 5 (fun m => ent2 ideal c s m i * ent2 ideal c s m j) = if Nat.eqb i j then 1 else 0) /\
  (forall i j, (i < 9)%nat -> (j < 9)%nat -> rsum 9 (fun m => ent4 ideal c s m i * ent4 ideal c s m j) = if Nat.eqb i j then 1 else 0).
Proof.
  rewrite ideal_kk. split; intros i j Hi Hj; [apply ortho2|apply ortho4]; auto; apply sqrt_sq; lra.
Qed.
