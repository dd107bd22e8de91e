From Coq Require Import Reals List ZArith Lra Lia Psatz.
From Coquelicot Require Import Complex.
From Verif Require Import DftModel DftSpec DftProofs WignerMatrix WignerSpec WignerOrtho.
Import ListNotations.
Open Scope R_scope.

(** Square roots of the products of factorials. *)
Ltac sqn :=
  apply sqrt_lem_1; [lra| |];
  [repeat apply Rmult_le_pos; try lra; apply sqrt_pos|];
  pose proof (sqrt_sq 2 ltac:(lra)) as Q2; pose proof (sqrt_sq 5 ltac:(lra)) as Q5; pose proof (sqrt_sq 7 ltac:(lra)) as Q7; pose proof (sqrt_sq 6 ltac:(lra)) as Q6;
  ring [Q2 Q5 Q7 Q6].
Lemma sq_16 : sqrt 16 = 4 * 1. Proof. sqn. Qed.
Lemma sq_24 : sqrt 24 = 2 * sqrt 6. Proof. sqn. Qed.
Lemma sq_36 : sqrt 36 = 6 * 1. Proof. sqn. Qed.
Lemma sq_96 : sqrt 96 = 4 * sqrt 6. Proof. sqn. Qed.
Lemma sq_144 : sqrt 144 = 12 * 1. Proof. sqn. Qed.
Lemma sq_576 : sqrt 576 = 24 * 1. Proof. sqn. Qed.
Lemma sq_331776 : sqrt 331776 = 576 * 1. Proof. sqn. Qed.
Lemma sq_414720 : sqrt 414720 = 288 * sqrt 5. Proof. sqn. Qed.
Lemma sq_518400 : sqrt 518400 = 720 * 1. Proof. sqn. Qed.
Lemma sq_829440 : sqrt 829440 = 288 * (sqrt 2 * sqrt 5). Proof. sqn. Qed.
Lemma sq_1036800 : sqrt 1036800 = 720 * sqrt 2. Proof. sqn. Qed.
Lemma sq_2073600 : sqrt 2073600 = 1440 * 1. Proof. sqn. Qed.
Lemma sq_2903040 : sqrt 2903040 = 288 * (sqrt 5 * sqrt 7). Proof. sqn. Qed.
Lemma sq_3628800 : sqrt 3628800 = 720 * sqrt 7. Proof. sqn. Qed.
Lemma sq_7257600 : sqrt 7257600 = 720 * (sqrt 2 * sqrt 7). Proof. sqn. Qed.
Lemma sq_23224320 : sqrt 23224320 = 576 * (sqrt 2 * sqrt 5 * sqrt 7). Proof. sqn. Qed.
Lemma sq_25401600 : sqrt 25401600 = 5040 * 1. Proof. sqn. Qed.
Lemma sq_29030400 : sqrt 29030400 = 1440 * (sqrt 2 * sqrt 7). Proof. sqn. Qed.
Lemma sq_58060800 : sqrt 58060800 = 2880 * sqrt 7. Proof. sqn. Qed.
Lemma sq_203212800 : sqrt 203212800 = 10080 * sqrt 2. Proof. sqn. Qed.
Lemma sq_1625702400 : sqrt 1625702400 = 40320 * 1. Proof. sqn. Qed.
Ltac sqrts := try rewrite sq_16; try rewrite sq_24; try rewrite sq_36; try rewrite sq_96; try rewrite sq_144; try rewrite sq_576; try rewrite sq_331776; try rewrite sq_414720; try rewrite sq_518400; try rewrite sq_829440; try rewrite sq_1036800; try rewrite sq_2073600; try rewrite sq_2903040; try rewrite sq_3628800; try rewrite sq_7257600; try rewrite sq_23224320; try rewrite sq_25401600; try rewrite sq_29030400; try rewrite sq_58060800; try rewrite sq_203212800; try rewrite sq_1625702400.

Lemma zfact_S z : (0 <= z)%Z -> zfact (z + 1) = IZR (z + 1) * zfact z.
Proof.
  intros H. unfold zfact. replace (Z.to_nat (z + 1)) with (S (Z.to_nat z)) by lia. rewrite fact_simpl, mult_INR. f_equal.
  rewrite INR_IZR_INZ. f_equal. lia.
Qed.
Lemma zf0 : zfact 0 = 1. Proof. reflexivity. Qed.
Lemma zf1 : zfact 1 = 1. Proof. reflexivity. Qed.
Lemma zf2 : zfact 2 = 2. Proof. change 2%Z with (1 + 1)%Z at 1. rewrite zfact_S, zf1 by lia. cbn [Z.add Pos.add Pos.succ]. lra. Qed.
Lemma zf3 : zfact 3 = 6. Proof. change 3%Z with (2 + 1)%Z at 1. rewrite zfact_S, zf2 by lia. cbn [Z.add Pos.add Pos.succ]. lra. Qed.
Lemma zf4 : zfact 4 = 24. Proof. change 4%Z with (3 + 1)%Z at 1. rewrite zfact_S, zf3 by lia. cbn [Z.add Pos.add Pos.succ]. lra. Qed.
Lemma zf5 : zfact 5 = 120. Proof. change 5%Z with (4 + 1)%Z at 1. rewrite zfact_S, zf4 by lia. cbn [Z.add Pos.add Pos.succ]. lra. Qed.
Lemma zf6 : zfact 6 = 720. Proof. change 6%Z with (5 + 1)%Z at 1. rewrite zfact_S, zf5 by lia. cbn [Z.add Pos.add Pos.succ]. lra. Qed.
Lemma zf7 : zfact 7 = 5040. Proof. change 7%Z with (6 + 1)%Z at 1. rewrite zfact_S, zf6 by lia. cbn [Z.add Pos.add Pos.succ]. lra. Qed.
Lemma zf8 : zfact 8 = 40320. Proof. change 8%Z with (7 + 1)%Z at 1. rewrite zfact_S, zf7 by lia. cbn [Z.add Pos.add Pos.succ]. lra. Qed.

Ltac ev_leb := repeat match goal with |- context [(?a <=? ?b)%Z] => let r := eval vm_compute in (a <=? b)%Z in change (a <=? b)%Z with r end.
Ltac ev_nat := repeat match goal with |- context [Z.to_nat ?a] => let r := eval vm_compute in (Z.to_nat a) in change (Z.to_nat a) with r end.
Ltac ev_zf := repeat match goal with |- context [zfact ?a] => 
  let r := eval vm_compute in a in progress change (zfact a) with (zfact r) end;
  rewrite ?zf0, ?zf1, ?zf2, ?zf3, ?zf4, ?zf5, ?zf6, ?zf7, ?zf8.
Ltac mulnum := repeat match goal with |- context [sqrt (IZR ?a * IZR ?b)] => let r := eval vm_compute in (a * b)%Z in replace (IZR a * IZR b) with (IZR r) by lra
  | |- context [sqrt (IZR ?a * IZR ?b * ?c)] => let r := eval vm_compute in (a * b)%Z in replace (IZR a * IZR b) with (IZR r) by lra
  | |- context [sqrt (IZR ?a * IZR ?b * ?c * ?d)] => let r := eval vm_compute in (a * b)%Z in replace (IZR a * IZR b) with (IZR r) by lra end.
Ltac formula Hc Q2 Q5 Q7 Q6 :=
  unfold wigner_formula;
  match goal with |- context [seq 0 ?n] => let r := eval vm_compute in (seq 0 n) in change (seq 0 n) with r end;
  cbn [map fold_right]; unfold wigner_term; ev_leb; cbn [andb]; ev_nat; ev_zf; mulnum; sqrts; cbn [pow];
  unfold ent2, ent4; wig; field [Hc Q2 Q5 Q7 Q6].
Lemma half_angle x : cos x = 1 - 2 * sin (x / 2) * sin (x / 2) /\ sin x = 2 * sin (x / 2) * cos (x / 2) /\ cos (x / 2) * cos (x / 2) = 1 - sin (x / 2) * sin (x / 2).
Proof.
  replace (cos x) with (cos (2 * (x / 2))) by (f_equal; field). replace (sin x) with (sin (2 * (x / 2))) by (f_equal; field).
  rewrite cos_2a_sin, sin_2a. pose proof (sin2_cos2 (x / 2)) as H. unfold Rsqr in H. repeat split; lra.
Qed.
Lemma formula2 beta i j : (i < 5)%nat -> (j < 5)%nat ->
  ent2 ideal (cos beta) (sin beta) i j = wigner_formula 2 (Z.of_nat j - 2) (Z.of_nat i - 2) beta.
Proof.
  intros Hi Hj. destruct (half_angle beta) as [E1 [E2 Hc]]. rewrite E1, E2, ideal_kk.
  pose proof (sqrt_sq 2 ltac:(lra)) as Q2; pose proof (sqrt_sq 5 ltac:(lra)) as Q5; pose proof (sqrt_sq 7 ltac:(lra)) as Q7; pose proof (sqrt_sq 6 ltac:(lra)) as Q6.
  do 5 (destruct i as [|i]; [do 5 (destruct j as [|j]; [formula Hc Q2 Q5 Q7 Q6|]); lia|]). lia.
Qed.
Lemma formula4 beta i j : (i < 9)%nat -> (j < 9)%nat ->
  ent4 ideal (cos beta) (sin beta) i j = wigner_formula 4 (Z.of_nat j - 4) (Z.of_nat i - 4) beta.
Proof.
  intros Hi Hj. destruct (half_angle beta) as [E1 [E2 Hc]]. rewrite E1, E2, ideal_kk.
  pose proof (sqrt_sq 2 ltac:(lra)) as Q2; pose proof (sqrt_sq 5 ltac:(lra)) as Q5; pose proof (sqrt_sq 7 ltac:(lra)) as Q7; pose proof (sqrt_sq 6 ltac:(lra)) as Q6.
  do 9 (destruct i as [|i]; [do 9 (destruct j as [|j]; [formula Hc Q2 Q5 Q7 Q6|]); lia|]). lia.
Qed.
