From Coq Require Import Reals List ZArith Lra Lia.
From Verif Require Import DftModel DftProofs WignerMatrix WignerOrtho.
Open Scope R_scope.

Section Compose.
Variables a b g h c s : R.
Hypothesis Hs : s * s = 1 - c * c.
Hypothesis Ha : a * a = 2.
Hypothesis Hb : b * b = 5.
Hypothesis Hg : g * g = 7.
Hypothesis Hh : h * h = 6.
Local Notation K := (kk a b g h).
(** Composition: the matrix of the sum of the angles is the product of the matrices. *)
Variables c' s' : R.
Hypothesis Hs' : s' * s' = 1 - c' * c'.
Lemma compose2 i j : (i < 5)%nat -> (j < 5)%nat ->
  rsum 5 (fun m => ent2 K c' s' i m * ent2 K c s m j) = ent2 K (c * c' - s * s') (s * c' + c * s') i j.
Proof.
  intros Hi Hj. unfold ent2. do 5 (destruct i as [|i]; [do 5 (destruct j as [|j]; [wig; field [Hs Hs' Hh]|]); lia|]). lia.
Qed.
Lemma compose4 i j : (i < 9)%nat -> (j < 9)%nat ->
  rsum 9 (fun m => ent4 K c' s' i m * ent4 K c s m j) = ent4 K (c * c' - s * s') (s * c' + c * s') i j.
Proof.
  intros Hi Hj. unfold ent4. do 9 (destruct i as [|i]; [do 9 (destruct j as [|j]; [wig; field [Hs Hs' Ha Hb Hg]|]); lia|]). lia.
Qed.
End Compose.
