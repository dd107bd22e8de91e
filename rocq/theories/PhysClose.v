From Coq Require Import Reals List ZArith Lra Lia Psatz.
From Coquelicot Require Import Complex.
From Verif Require Import DftModel DftProofs WignerMatrix WignerModel WignerSpec WignerOrtho WignerClose WignerNorm WignerProofs FreqModel FreqSpec FreqProofs PhysSpec PhysLevels PhysRot PhysCouple PhysSpin PhysExact FreqConst.
From Verif Require Import DftSpec TableProofs.
Import ListNotations.
Open Scope R_scope.

(** ** How far the decimal constants and the tables are from the exact rotation *)
Definition size (l : nat) (v : list C) : R := rsum (2 * l + 1) (fun i => Cmod (nth i v (RtoC 0))).
Definition gap (l : nat) (v v' : list C) : R := rsum (2 * l + 1) (fun i => Cmod (nth i v (RtoC 0) - nth i v' (RtoC 0))%C).
Lemma Cmod_unit e : abs2 e = 1 -> Cmod e = 1.
Proof. intros H. unfold Cmod. replace (fst e ^ 2 + snd e ^ 2) with (abs2 e) by (unfold abs2; ring). rewrite H. apply sqrt_1. Qed.
Lemma Cmod_cpow e n : abs2 e = 1 -> Cmod (cpow e n) = 1. Proof. intros H. apply Cmod_unit. apply abs2_cpow; auto. Qed.
Lemma scale_diff l e v v' i : abs2 e = 1 -> (i < 2 * l + 1)%nat ->
  Cmod (nth i (scale_phases l e v) (RtoC 0) - nth i (scale_phases l e v') (RtoC 0))%C = Cmod (nth i v (RtoC 0) - nth i v' (RtoC 0))%C.
Proof.
  intros E Hi. rewrite !scale_nth by auto. destruct (i <? l)%nat.
  - replace (nth i v (RtoC 0) * cpow e (l - i) - nth i v' (RtoC 0) * cpow e (l - i))%C with ((nth i v (RtoC 0) - nth i v' (RtoC 0)) * cpow e (l - i))%C by ring.
    rewrite Cmod_mult, Cmod_cpow by auto. ring.
  - destruct (l <? i)%nat; auto.
    replace (nth i v (RtoC 0) * Cconj (cpow e (i - l)) - nth i v' (RtoC 0) * Cconj (cpow e (i - l)))%C with ((nth i v (RtoC 0) - nth i v' (RtoC 0)) * Cconj (cpow e (i - l)))%C by ring.
    rewrite Cmod_mult. rewrite (Cmod_unit (Cconj _)) by (rewrite abs2_Cconj; apply abs2_cpow; auto). ring.
Qed.
Lemma scale_size l e v : abs2 e = 1 -> size l (scale_phases l e v) = size l v.
Proof.
  intros E. apply rsum_ext. intros i Hi. rewrite !scale_nth by auto. destruct (i <? l)%nat; [rewrite Cmod_mult, Cmod_cpow by auto; ring|].
  destruct (l <? i)%nat; auto. rewrite Cmod_mult, (Cmod_unit (Cconj _)) by (rewrite abs2_Cconj; apply abs2_cpow; auto). ring.
Qed.
Lemma Cmod_csum n f : Cmod (csum n f) <= rsum n (fun i => Cmod (f i)).
Proof. induction n as [|n IH]; cbn [csum rsum]; [rewrite Cmod_0; lra|]. eapply Rle_trans; [apply Cmod_triangle|]. lra. Qed.
(** Rows of two rotations with nearby matrices. *)
Lemma row_diff l al ga e e' t v v' i : rank l -> abs2 e' = 1 -> 0 <= t ->
  (forall i j, (i < 2 * l + 1)%nat -> (j < 2 * l + 1)%nat -> Rabs (ent decimal l e i j - ent ideal l e' i j) <= t) -> (i < 2 * l + 1)%nat ->
  Cmod (nth i (rotation decimal l al e ga v) (RtoC 0) - nth i (rotation ideal l al e' ga v') (RtoC 0))%C <= t * size l v + gap l v v'.
Proof.
  intros H U T0 T Hi. unfold rotation. rewrite scale_diff by auto using cis_unit. rewrite !mat_vec_nth by auto.
  rewrite <- (scale_size l (cis al) v) by apply cis_unit.
  assert (G : gap l v v' = gap l (scale_phases l (cis al) v) (scale_phases l (cis al) v')) by (apply rsum_ext; intros; rewrite scale_diff by auto using cis_unit; auto).
  rewrite G. clear G. set (u := scale_phases l (cis al) v). set (u' := scale_phases l (cis al) v'). clearbody u u'. unfold size, gap. set (N := (2 * l + 1)%nat) in *.
  assert (E : forall K (A B : nat -> R) (x y : nat -> C), (csum K (fun j => RtoC (A j) * x j) - csum K (fun j => RtoC (B j) * y j) =
    csum K (fun j => RtoC (A j - B j)%R * x j + RtoC (B j) * (x j - y j)))%C).
  { clear. induction K as [|K IH]; intros A B x y; cbn [csum]; [ring|]. rewrite <- IH, RtoC_minus. ring. }
  match goal with |- Cmod ?x <= _ => change x with (csum N (fun j => RtoC (ent decimal l e i j) * nth j u (RtoC 0)) - csum N (fun j => RtoC (ent ideal l e' i j) * nth j u' (RtoC 0)))%C end.
  rewrite (E N (fun j => ent decimal l e i j) (fun j => ent ideal l e' i j) (fun j => nth j u (RtoC 0)) (fun j => nth j u' (RtoC 0))). clear E. eapply Rle_trans; [apply Cmod_csum|]. rewrite <- rsum_scal, <- rsum_plus. apply rsum_le. intros j Hj.
  eapply Rle_trans; [apply Cmod_triangle|]. rewrite !Cmod_mult, !Cmod_R. pose proof (T i j Hi Hj). pose proof (ent_le_1 l e' i j H U Hi Hj).
  pose proof (Cmod_ge_0 (nth j u (RtoC 0))). pose proof (Cmod_ge_0 (nth j u (RtoC 0) - nth j u' (RtoC 0))%C).
  apply Rplus_le_compat; [apply Rmult_le_compat_r; auto|]. rewrite <- (Rmult_1_l (Cmod (nth j u _ - _)%C)) at 2. apply Rmult_le_compat_r; auto.
Qed.
(** Tolerances: of one entry with exact angle, and with the angle from the tables. *)
Definition tol (l : nat) : R := if Nat.eqb l 2 then 5e-9 else 3e-7.
Definition tol_table (l : nat) : R := if Nat.eqb l 2 then 1.1e-7 else 6.4e-6.
Lemma entry_close l e e' h i j : rank l -> abs2 e <= 1 -> abs2 e' <= 1 -> Rabs (fst e - fst e') <= h -> Rabs (snd e - snd e') <= h ->
  (i < 2 * l + 1)%nat -> (j < 2 * l + 1)%nat -> Rabs (ent decimal l e i j - ent ideal l e' i j) <= (if Nat.eqb l 2 then 10 else 600) * (h + eps).
Proof.
  intros H U U' D1 D2 Hi Hj. assert (0 <= h) by (pose proof (Rabs_pos (fst e - fst e')); lra).
  assert (B : forall z : C, abs2 z <= 1 -> Rabs (fst z) <= 1 /\ Rabs (snd z) <= 1) by (unfold abs2; intros z Hz; split; apply Rabs_le; nra).
  destruct (B e U), (B e' U'). destruct H as [->| ->]; cbn [Nat.eqb].
  - rewrite !ent_2. eapply Rle_trans; [apply (close2 _ _ _ _ h); auto using decimal_tight|]. lra.
  - rewrite !ent_4. eapply Rle_trans; [apply (close4 _ _ _ _ h); auto using decimal_tight|]. lra.
Qed.
Lemma tol_exact l b i j : rank l -> (i < 2 * l + 1)%nat -> (j < 2 * l + 1)%nat -> Rabs (ent decimal l (cis b) i j - ent ideal l (cis b) i j) <= tol l.
Proof.
  intros H Hi Hj. eapply Rle_trans; [apply (entry_close l _ _ 0 i j H)|]; auto; rewrite ?cis_unit; try (right; reflexivity); try (rewrite Rminus_eq_0, Rabs_R0; right; reflexivity).
  unfold tol, eps. destruct (l =? 2)%nat; lra.
Qed.
Lemma tol_tables l b i j : rank l -> 0 <= b < 6.2831 -> (i < 2 * l + 1)%nat -> (j < 2 * l + 1)%nat -> Rabs (ent decimal l (cos_sin_from_table b) i j - ent ideal l (cis b) i j) <= tol_table l.
Proof.
  intros H B Hi Hj. eapply Rle_trans; [apply (entry_close l _ (cis b) 1e-8 i j H)|]; auto.
  - apply cos_sin_modulus.
  - rewrite cis_unit. lra.
  - destruct (table_sharp b) as [_ F]. destruct F as [F1 F2].
    { rewrite Rabs_right by lra. rewrite modd_small; [lra|]. pose proof pi_bounds. unfold delta in *. lra. }
    apply (cos_sin_sharp b 1e-8); auto; lra.
  - destruct (table_sharp b) as [_ F]. destruct F as [F1 F2].
    { rewrite Rabs_right by lra. rewrite modd_small; [lra|]. pose proof pi_bounds. unfold delta in *. lra. }
    unfold cis. cbn [snd]. rewrite <- (Rabs_right b) at 2 by lra. apply (cos_sin_sharp b 1e-8); auto; lra.
  - unfold tol_table, eps. destruct (l =? 2)%nat; lra.
Qed.

Lemma row_size k l al ga e M v i : rank l -> 0 <= M -> (forall i j, (i < 2 * l + 1)%nat -> (j < 2 * l + 1)%nat -> Rabs (ent k l e i j) <= M) -> (i < 2 * l + 1)%nat ->
  Cmod (nth i (rotation k l al e ga v) (RtoC 0)) <= M * size l v.
Proof.
  intros H M0 B Hi. unfold rotation. rewrite <- (scale_size l (cis al) v) by apply cis_unit. set (u := scale_phases l (cis al) v). clearbody u.
  assert (P : Cmod (nth i (scale_phases l (cis ga) (mat_vec (2 * l + 1) (2 * l + 1) (wigner_d k false l e) u)) (RtoC 0)) = Cmod (nth i (mat_vec (2 * l + 1) (2 * l + 1) (wigner_d k false l e) u) (RtoC 0))).
  { rewrite !scale_nth by auto. destruct (i <? l)%nat; [rewrite Cmod_mult, Cmod_cpow by apply cis_unit; ring|].
    destruct (l <? i)%nat; auto. rewrite Cmod_mult, (Cmod_unit (Cconj _)) by (rewrite abs2_Cconj; apply abs2_cpow, cis_unit). ring. }
  rewrite P, mat_vec_nth by auto. eapply Rle_trans; [apply Cmod_csum|]. unfold size. rewrite <- rsum_scal. apply rsum_le. intros j Hj.
  rewrite Cmod_mult, Cmod_R. apply Rmult_le_compat_r; [apply Cmod_ge_0|]. apply (B i j Hi Hj).
Qed.
Lemma size_nonneg l v : 0 <= size l v. Proof. apply rsum_nonneg. intros. apply Cmod_ge_0. Qed.
Lemma gap_nonneg l v v' : 0 <= gap l v v'. Proof. apply rsum_nonneg. intros. apply Cmod_ge_0. Qed.
Definition beta_of (th : euler) : R := snd (fst th).
(** Both rotations together. *)
Definition tol_both (l : nat) : R := if Nat.eqb l 2 then 6e-7 else 6.1e-5.
Lemma both_close l th al be p p' : rank l -> 0 <= beta_of th < 6.2831 ->
  Rabs (fst (nth l (rotation decimal l al (cis be) 0 (turn l th p)) (RtoC 0)) - fst (nth l (rotation ideal l al (cis be) 0 (exact_turn l th p')) (RtoC 0)))
  <= tol_both l * size l p + INR (2 * l + 1) * gap l p p'.
Proof.
  intros H B. destruct th as [[a b] g]. cbn [beta_of fst snd] in B. cbn [turn exact_turn]. unfold single_wigner_rotation.
  set (w := rotation decimal l a (cos_sin_from_table b) g p). set (w' := rotation ideal l a (cis b) g p').
  assert (T1 : 0 <= tol l) by (unfold tol; destruct (l =? 2)%nat; lra). assert (T2 : 0 <= tol_table l) by (unfold tol_table; destruct (l =? 2)%nat; lra).
  assert (G : gap l w w' <= INR (2 * l + 1) * (tol_table l * size l p + gap l p p')).
  { unfold gap at 1. rewrite <- rsum_const. apply rsum_le. intros i Hi. apply row_diff; auto using cis_unit. intros; apply tol_tables; auto. }
  assert (S : size l w <= INR (2 * l + 1) * ((1 + tol_table l) * size l p)).
  { unfold size at 1. rewrite <- rsum_const. apply rsum_le. intros i Hi. apply row_size; auto; [lra|]. intros i0 j0 Hi0 Hj0.
    pose proof (tol_tables l b i0 j0 H B Hi0 Hj0) as K1. pose proof (ent_le_1 l (cis b) i0 j0 H (cis_unit b) Hi0 Hj0) as K2.
    replace (ent decimal l (cos_sin_from_table b) i0 j0) with ((ent decimal l (cos_sin_from_table b) i0 j0 - ent ideal l (cis b) i0 j0) + ent ideal l (cis b) i0 j0) by ring.
    eapply Rle_trans; [apply Rabs_triang|]. lra. }
  pose proof (row_diff l al 0 (cis be) (cis be) (tol l) w w' l H (cis_unit be) T1 (fun i j Hi Hj => tol_exact l be i j H Hi Hj) ltac:(lia)) as D.
  set (z := nth l (rotation decimal l al (cis be) 0 w) (RtoC 0)) in *. set (z' := nth l (rotation ideal l al (cis be) 0 w') (RtoC 0)) in *. clearbody z z'.
  assert (RE : Rabs (fst z - fst z') <= Cmod (z - z')%C). { eapply Rle_trans; [|apply Rmax_Cmod]. apply Rmax_l. }
  eapply Rle_trans; [exact RE|]. eapply Rle_trans; [exact D|]. pose proof (size_nonneg l p) as SP. pose proof (gap_nonneg l p p') as GP.
  set (sp := size l p) in *. set (gp := gap l p p') in *. set (sw := size l w) in *. set (gw := gap l w w') in *. clearbody sp gp sw gw.
  destruct H as [->| ->]; cbn in T1, T2, G, S |- *; unfold tol, tol_table, tol_both in *; cbn [Nat.eqb] in *; lra.
Qed.
Lemma nth_RtoC (l : list R) i : nth i (map RtoC l) (RtoC 0) = RtoC (nth i l 0). Proof. exact (map_nth RtoC l 0 i). Qed.
Lemma size_pas2 t x y : size 2 (vscale t (pas2 x y)) = Rabs t * (2 * Rabs x + Rabs y).
Proof.
  change (vscale t (pas2 x y)) with (vscale t (map RtoC [x; 0; y; 0; x])). unfold size. cbn [Nat.mul Nat.add rsum]. rewrite !nth_vscale, !nth_RtoC, !Cmod_mult, !Cmod_R. cbn [nth]. rewrite Rabs_R0. ring.
Qed.
Lemma gap_pas2 t x y t' x' y' : gap 2 (vscale t (pas2 x y)) (vscale t' (pas2 x' y')) = 2 * Rabs (t * x - t' * x') + Rabs (t * y - t' * y').
Proof.
  change (vscale t (pas2 x y)) with (vscale t (map RtoC [x; 0; y; 0; x])). change (vscale t' (pas2 x' y')) with (vscale t' (map RtoC [x'; 0; y'; 0; x'])).
  unfold gap. cbn [Nat.mul Nat.add rsum]. rewrite !nth_vscale, !nth_RtoC. rewrite <- !RtoC_mult, <- !RtoC_minus, !Cmod_R. cbn [nth]. rewrite !Rmult_0_r, Rminus_0_r, Rabs_R0. ring.
Qed.
Lemma size_pas4 t x y z : size 4 (vscale t (pas4 x y z)) = Rabs t * (2 * Rabs x + 2 * Rabs y + Rabs z).
Proof.
  change (vscale t (pas4 x y z)) with (vscale t (map RtoC [x; 0; y; 0; z; 0; y; 0; x])). unfold size. cbn [Nat.mul Nat.add rsum]. rewrite !nth_vscale, !nth_RtoC, !Cmod_mult, !Cmod_R. cbn [nth]. rewrite Rabs_R0. ring.
Qed.
Lemma gap_pas4 t x y z t' x' y' z' : gap 4 (vscale t (pas4 x y z)) (vscale t' (pas4 x' y' z')) = 2 * Rabs (t * x - t' * x') + 2 * Rabs (t * y - t' * y') + Rabs (t * z - t' * z').
Proof.
  change (vscale t (pas4 x y z)) with (vscale t (map RtoC [x; 0; y; 0; z; 0; y; 0; x])). change (vscale t' (pas4 x' y' z')) with (vscale t' (map RtoC [x'; 0; y'; 0; z'; 0; y'; 0; x'])).
  unfold gap. cbn [Nat.mul Nat.add rsum]. rewrite !nth_vscale, !nth_RtoC. rewrite <- !RtoC_mult, <- !RtoC_minus, !Cmod_R. cbn [nth]. rewrite !Rmult_0_r, Rminus_0_r, Rabs_R0. ring.
Qed.
Lemma turn_vscale l th t v : vscale t (turn l th v) = turn l th (vscale t v).
Proof. destruct th as [[a b] g]. cbn [turn]. unfold single_wigner_rotation. rewrite rotation_vscale. reflexivity. Qed.

(** ** Products of nearby numbers *)
Definition within (r x y B : R) : Prop := Rabs (x - y) <= r * B /\ Rabs y <= B.
Lemma within_same x : within 0 x x (Rabs x). Proof. split; [rewrite Rminus_eq_0, Rabs_R0|]; lra. Qed.
Lemma within_mul r s x y B x' y' B' : 0 <= r -> 0 <= s -> within r x y B -> within s x' y' B' -> within (r + s + r * s) (x * x') (y * y') (B * B').
Proof.
  intros R S [D1 A1] [D2 A2]. split.
  - replace (x * x' - y * y') with ((x - y) * (x' - y') + ((x - y) * y' + y * (x' - y'))) by ring.
    eapply Rle_trans; [apply b_add; [apply b_mul; [exact D1|exact D2]|apply b_add; apply b_mul; [exact D1|exact A2|exact A1|exact D2]]|]. right. ring.
  - apply b_mul; auto.
Qed.
Lemma within_add r x y B x' y' B' : within r x y B -> within r x' y' B' -> within r (x + x') (y + y') (B + B').
Proof.
  intros [D1 A1] [D2 A2]. split.
  - replace (x + x' - (y + y')) with ((x - y) + (x' - y')) by ring. eapply Rle_trans; [apply b_add; eauto|]. right. ring.
  - apply b_add; auto.
Qed.
Lemma within_opp r x y B : within r x y B -> within r (- x) (- y) B.
Proof. intros [D A]. split; [replace (- x - - y) with (- (x - y)) by ring|]; rewrite Rabs_Ropp; auto. Qed.
Lemma within_weak r r' x y B B' : r <= r' -> B <= B' -> 0 <= r' -> within r x y B -> within r' x y B'.
Proof. intros R BB R0 [D A]. split; [|lra]. pose proof (Rabs_pos y). eapply Rle_trans; [exact D|]. apply Rle_trans with (r' * B); [apply Rmult_le_compat_r; lra|apply Rmult_le_compat_l; lra]. Qed.
Lemma within_size r x y B : within r x y B -> Rabs x <= (1 + r) * B.
Proof. intros [D A]. replace x with ((x - y) + y) by ring. eapply Rle_trans; [apply Rabs_triang|]. lra. Qed.

(** ** The contributions *)
Definition code_frequency (c : comps) (al be : R) : R :=
  r0 c + fst (nth 2 (rotation decimal 2 al (cis be) 0 (r2 c)) (RtoC 0)) + fst (nth 4 (rotation decimal 4 al (cis be) 0 (r4 c)) (RtoC 0)).
Lemma code_static c al be : isotropic c + anisotropic true c al (cis be) 0 = code_frequency c al be.
Proof. unfold isotropic, anisotropic, code_frequency, P2, P4. rewrite cos_0. field. Qed.
Lemma code_only2 v al be : code_frequency (only2 v) al be = fst (nth 2 (rotation decimal 2 al (cis be) 0 v) (RtoC 0)).
Proof. unfold code_frequency, only2. cbn [r0 r2 r4]. rewrite (zero_rotation decimal 4). ring. Qed.
Lemma code_only4 v al be : code_frequency (only4 v) al be = fst (nth 4 (rotation decimal 4 al (cis be) 0 v) (RtoC 0)).
Proof. unfold code_frequency, only4. cbn [r0 r2 r4]. rewrite (zero_rotation decimal 2). ring. Qed.
Lemma code_only0 x al be : code_frequency (only0 x) al be = x.
Proof. unfold code_frequency, only0. cbn [r0 r2 r4]. rewrite (zero_rotation decimal 2), (zero_rotation decimal 4). ring. Qed.
Lemma first_close th al be t x y t' x' y' Bx By r : 0 <= beta_of th < 6.2831 -> 0 <= r <= 3e-9 -> within r (t * x) (t' * x') Bx -> within r (t * y) (t' * y') By ->
  Rabs (code_frequency (only2 (vscale t (turn 2 th (pas2 x y)))) al be - exact_frequency (only2 (vscale t' (exact_turn 2 th (pas2 x' y')))) [(al, be, 0)]) <= 6.2e-7 * (2 * Bx + By).
Proof.
  intros B Hr Wx Wy. rewrite code_only2, exact_only2, turn_vscale, <- exact_vscale. eapply Rle_trans; [apply both_close; auto; left; auto|].
  rewrite size_pas2, gap_pas2. replace (Rabs t * (2 * Rabs x + Rabs y)) with (2 * Rabs (t * x) + Rabs (t * y)) by (rewrite !Rabs_mult; ring).
  pose proof (within_size _ _ _ _ Wx) as S1. pose proof (within_size _ _ _ _ Wy) as S2. destruct Wx as [D1 A1], Wy as [D2 A2].
  pose proof (Rabs_pos (t' * x')). pose proof (Rabs_pos (t' * y')). cbn [tol_both Nat.eqb Nat.mul Nat.add]. change (tol_both 2) with 6e-7. change (INR 5) with (2 + 1 + 1 + 1)%R || (replace (INR 5) with 5 by (cbn; ring)).
  assert (r * Bx <= 3e-9 * Bx) by (apply Rmult_le_compat_r; lra). assert (r * By <= 3e-9 * By) by (apply Rmult_le_compat_r; lra). lra.
Qed.
Lemma fourth_close th al be t x y z t' x' y' z' Bx By Bz r : 0 <= beta_of th < 6.2831 -> 0 <= r <= 5e-9 -> within r (t * x) (t' * x') Bx -> within r (t * y) (t' * y') By -> within r (t * z) (t' * z') Bz ->
  Rabs (code_frequency (only4 (vscale t (turn 4 th (pas4 x y z)))) al be - exact_frequency (only4 (vscale t' (exact_turn 4 th (pas4 x' y' z')))) [(al, be, 0)]) <= 6.2e-5 * (2 * Bx + 2 * By + Bz).
Proof.
  intros B Hr Wx Wy Wz. rewrite code_only4, exact_only4, turn_vscale, <- exact_vscale. eapply Rle_trans; [apply both_close; auto; right; auto|].
  rewrite size_pas4, gap_pas4. replace (Rabs t * (2 * Rabs x + 2 * Rabs y + Rabs z)) with (2 * Rabs (t * x) + 2 * Rabs (t * y) + Rabs (t * z)) by (rewrite !Rabs_mult; ring).
  pose proof (within_size _ _ _ _ Wx) as S1. pose proof (within_size _ _ _ _ Wy) as S2. pose proof (within_size _ _ _ _ Wz) as S3. destruct Wx as [D1 A1], Wy as [D2 A2], Wz as [D3 A3].
  pose proof (Rabs_pos (t' * x')). pose proof (Rabs_pos (t' * y')). pose proof (Rabs_pos (t' * z')). change (tol_both 4) with 6.1e-5. replace (INR (2 * 4 + 1)) with 9 by (cbn; ring).
  assert (r * Bx <= 5e-9 * Bx) by (apply Rmult_le_compat_r; lra). assert (r * By <= 5e-9 * By) by (apply Rmult_le_compat_r; lra). assert (r * Bz <= 5e-9 * Bz) by (apply Rmult_le_compat_r; lra). lra.
Qed.
Lemma const_within (g : fconst -> R) B : Rabs (g decimal_f - g ideal_f) <= 4e-10 * Rabs (g ideal_f) -> Rabs (g decimal_f) <= (1 - 4e-10) * B -> within 4e-10 (g decimal_f) (g ideal_f) B.
Proof.
  intros D S. assert (A : Rabs (g ideal_f) <= B).
  { assert (Rabs (g ideal_f) <= Rabs (g decimal_f) + 4e-10 * Rabs (g ideal_f)); [|lra].
    replace (g ideal_f) with (g decimal_f - (g decimal_f - g ideal_f)) at 1 by ring. eapply Rle_trans; [apply b_sub; [apply Rle_refl|exact D]|]. lra. }
  split; auto. lra.
Qed.
Lemma all_within : within 4e-10 (f_d decimal_f) (f_d ideal_f) 1.225 /\ within 4e-10 (f_f decimal_f) (f_f ideal_f) 0.3163 /\
  within 4e-10 (c0p decimal_f) (c0p ideal_f) 0.358 /\ within 4e-10 (c0f decimal_f) (c0f ideal_f) 0.849 /\ within 4e-10 (c2p decimal_f) (c2p ideal_f) 0.107 /\
  within 4e-10 (c2f decimal_f) (c2f ideal_f) 1.015 /\ within 4e-10 (c4p decimal_f) (c4p ideal_f) 0.144 /\ within 4e-10 (c4f decimal_f) (c4f ideal_f) 1.286 /\
  within 4e-10 (s6 decimal_f) (s6 ideal_f) 0.409 /\ within 4e-10 (i6 decimal_f) (i6 ideal_f) 0.167 /\ within 4e-10 (i3 decimal_f) (i3 ideal_f) 0.334 /\
  within 4e-10 (q00 decimal_f) (q00 ideal_f) 0.075 /\ within 4e-10 (q22 decimal_f) (q22 ideal_f) 0.073 /\ within 4e-10 (q20 decimal_f) (q20 ideal_f) 0.09 /\
  within 4e-10 (q44 decimal_f) (q44 ideal_f) 0.028 /\ within 4e-10 (q42 decimal_f) (q42 ideal_f) 0.063 /\ within 4e-10 (q40 decimal_f) (q40 ideal_f) 0.12 /\ within 4e-10 (i18 decimal_f) (i18 ideal_f) 0.056.
Proof.
  destruct constants_close as [A1 [A2 [A3 [A4 [A5 [A6 [A7 [A8 [A9 [A10 [A11 [A12 [A13 [A14 [A15 [A16 [A17 A18]]]]]]]]]]]]]]]]].
  repeat match goal with |- _ /\ _ => split end; (apply const_within; [assumption|cbn; apply Rabs_le; lra]).
Qed.

Lemma shielding_close B0 s m m' al be : 0 <= beta_of (s_theta s) < 6.2831 ->
  Rabs (code_frequency (contribution decimal_f B0 s m m' Shielding1_2) al be - exact_frequency (contribution_with exact_turn ideal_f B0 s m m' Shielding1_2) [(al, be, 0)])
  <= 1e-6 * (Rabs (B0 * s_gamma s * s_zeta s * (m' - m)) * (1 + Rabs (s_eta s))).
Proof.
  intros B. rewrite contribution_turn. cbn [contribution_with]. set (z := - (B0 * s_gamma s) * s_zeta s). destruct all_within as [_ [_ [_ [_ [_ [_ [_ [_ [W _]]]]]]]]].
  replace (B0 * s_gamma s * s_zeta s * (m' - m)) with (- (tf_p m m' * z)) by (unfold z, tf_p; ring). rewrite Rabs_Ropp. set (P := tf_p m m').
  assert (W1 : within 4e-10 (P * (s6 decimal_f * s_eta s * z)) (P * (s6 ideal_f * s_eta s * z)) (0.409 * (Rabs (P * z) * Rabs (s_eta s)))).
  { replace (P * (s6 decimal_f * s_eta s * z)) with (s6 decimal_f * (P * z * s_eta s)) by ring. replace (P * (s6 ideal_f * s_eta s * z)) with (s6 ideal_f * (P * z * s_eta s)) by ring.
    rewrite <- Rabs_mult. replace 4e-10 with (4e-10 + 0 + 4e-10 * 0) by ring. apply within_mul; try lra; auto using within_same. }
  assert (W2 : within 4e-10 (P * - z) (P * - z) (Rabs (P * z))).
  { replace (Rabs (P * z)) with (Rabs (P * - z)) by (rewrite <- (Rabs_Ropp (P * z)); f_equal; ring). eapply within_weak; [| | |apply within_same]; lra. }
  eapply Rle_trans; [apply (first_close _ _ _ _ _ _ _ _ _ _ _ 4e-10 B ltac:(lra) W1 W2)|].
  pose proof (Rabs_pos (P * z)). pose proof (Rabs_pos (s_eta s)). pose proof (Rmult_le_pos _ _ H H0). lra.
Qed.
Lemma quad1_close B0 s m m' al be : 0 <= beta_of (s_qtheta s) < 6.2831 -> let nuq := 3 * s_Cq s / (2 * s_spin s * (2 * s_spin s - 1)) in
  Rabs (code_frequency (contribution decimal_f B0 s m m' Quad1_2) al be - exact_frequency (contribution_with exact_turn ideal_f B0 s m m' Quad1_2) [(al, be, 0)])
  <= 1e-6 * (Rabs (nuq * (m' ^ 2 - m ^ 2)) * (1 + Rabs (s_qeta s))).
Proof.
  intros B nuq. rewrite contribution_turn. cbn [contribution_with]. fold nuq. destruct all_within as [Wd [_ [_ [_ [_ [_ [_ [_ [W6 [Wi _]]]]]]]]]].
  set (e := s_qeta s). set (D := nuq * (m' ^ 2 - m ^ 2)).
  assert (W1 : within 1e-9 (tf_d decimal_f m m' * - (i6 decimal_f * e * nuq)) (tf_d ideal_f m m' * - (i6 ideal_f * e * nuq)) (1.225 * 0.167 * (Rabs D * Rabs e))).
  { unfold tf_d. replace (f_d decimal_f * (m' ^ 2 - m ^ 2) * - (i6 decimal_f * e * nuq)) with (f_d decimal_f * i6 decimal_f * - (D * e)) by (unfold D; ring).
    replace (f_d ideal_f * (m' ^ 2 - m ^ 2) * - (i6 ideal_f * e * nuq)) with (f_d ideal_f * i6 ideal_f * - (D * e)) by (unfold D; ring).
    rewrite <- Rabs_mult, <- (Rabs_Ropp (D * e)). eapply within_weak; [| | |apply within_mul; [| |apply within_mul; [| |exact Wd|exact Wi]|apply within_same]]; lra. }
  assert (W2 : within 1e-9 (tf_d decimal_f m m' * (s6 decimal_f * nuq)) (tf_d ideal_f m m' * (s6 ideal_f * nuq)) (1.225 * 0.409 * Rabs D)).
  { unfold tf_d. replace (f_d decimal_f * (m' ^ 2 - m ^ 2) * (s6 decimal_f * nuq)) with (f_d decimal_f * s6 decimal_f * D) by (unfold D; ring).
    replace (f_d ideal_f * (m' ^ 2 - m ^ 2) * (s6 ideal_f * nuq)) with (f_d ideal_f * s6 ideal_f * D) by (unfold D; ring).
    eapply within_weak; [| | |apply within_mul; [| |apply within_mul; [| |exact Wd|exact W6]|apply within_same]]; lra. }
  eapply Rle_trans; [apply (first_close _ _ _ _ _ _ _ _ _ _ _ 1e-9 B ltac:(lra) W1 W2)|].
  pose proof (Rabs_pos D) as PD. pose proof (Rabs_pos e) as Pe. pose proof (Rmult_le_pos _ _ PD Pe). lra.
Qed.
(** The size of the second order of a transition of a spin I. *)
Notation size2 := second_order_size.
Lemma tf_c_within I m m' (cp cf : fconst -> R) Bp Bf : within 4e-10 (cp decimal_f) (cp ideal_f) Bp -> within 4e-10 (cf decimal_f) (cf ideal_f) Bf -> 0 <= Bp <= 0.41 -> 0 <= Bf <= 1.29 ->
  within 1e-9 (tf_c (cp decimal_f) (cf decimal_f) decimal_f I m m') (tf_c (cp ideal_f) (cf ideal_f) ideal_f I m m') (0.41 * size2 I m m').
Proof.
  intros Wp Wf Hp Hf. destruct all_within as [_ [W _]]. unfold tf_c, tf_f, tf_p, second_order_size. set (Y := (I * (I + 1) - 3 / 4) * (m' - m)). set (F := 5 * (m' ^ 3 - m ^ 3) + (1 - 3 * (I * (I + 1))) * (m' - m)).
  pose proof (Rabs_pos Y). pose proof (Rabs_pos F).
  replace (cp decimal_f * (I * (I + 1) - 3 / 4) * (m' - m)) with (cp decimal_f * Y) by (unfold Y; ring). replace (cp ideal_f * (I * (I + 1) - 3 / 4) * (m' - m)) with (cp ideal_f * Y) by (unfold Y; ring).
  rewrite Rmult_plus_distr_l. apply within_add.
  - eapply within_weak; [| | |apply within_mul; [| |exact Wp|apply within_same]]; try lra. apply Rmult_le_compat_r; lra.
  - eapply within_weak; [| | |apply within_mul; [| |exact Wf|apply within_mul; [| |exact W|apply within_same]]]; try lra.
    replace (Bf * (0.3163 * Rabs F)) with (Bf * 0.3163 * Rabs F) by ring. apply Rmult_le_compat_r; lra.
Qed.
Lemma quad2_close B0 s m m' al be p2 p4 : 0 <= beta_of (s_qtheta s) < 6.2831 -> Rabs p2 <= 1 -> Rabs p4 <= 1 -> let nuq := 3 * s_Cq s / (2 * s_spin s * (2 * s_spin s - 1)) in
  let X c := exact_frequency (contribution_with exact_turn ideal_f B0 s m m' c) [(al, be, 0)] in
  let D c := code_frequency (contribution decimal_f B0 s m m' c) al be in
  Rabs (D Quad2_0 + p2 * D Quad2_2 + p4 * D Quad2_4 - (X Quad2_0 + p2 * X Quad2_2 + p4 * X Quad2_4))
  <= 5e-6 * (Rabs (nuq ^ 2 / (- (B0 * s_gamma s) * 1000000)) * (1 + s_qeta s ^ 2) * size2 (s_spin s) m m').
Proof.
  intros B HP2 HP4 nuq XX DD. unfold XX, DD. clear XX DD. rewrite (contribution_turn _ _ _ _ _ Quad2_0), (contribution_turn _ _ _ _ _ Quad2_2), (contribution_turn _ _ _ _ _ Quad2_4). cbn [contribution_with]. fold nuq. set (k := nuq ^ 2 / (- (B0 * s_gamma s) * 1000000)). set (e := s_qeta s). set (I := s_spin s).
  destruct all_within as [Wd [Wf [W0p [W0f [W2p [W2f [W4p [W4f [W6 [Wi [W3 [W00 [W22 [W20 [W44 [W42 [W40 W18]]]]]]]]]]]]]]]]].
  pose proof (tf_c_within I m m' c0p c0f _ _ W0p W0f ltac:(lra) ltac:(lra)) as T0. pose proof (tf_c_within I m m' c2p c2f _ _ W2p W2f ltac:(lra) ltac:(lra)) as T2.
  pose proof (tf_c_within I m m' c4p c4f _ _ W4p W4f ltac:(lra) ltac:(lra)) as T4.
  set (A := size2 I m m') in *. assert (PA : 0 <= A) by (unfold A, second_order_size; pose proof (Rabs_pos ((I * (I + 1) - 3 / 4) * (m' - m))); pose proof (Rabs_pos (5 * (m' ^ 3 - m ^ 3) + (1 - 3 * (I * (I + 1))) * (m' - m))); lra). clearbody A.
  set (t0 := tf_c (c0p decimal_f) (c0f decimal_f) decimal_f I m m') in *. set (t2 := tf_c (c2p decimal_f) (c2f decimal_f) decimal_f I m m') in *. set (t4 := tf_c (c4p decimal_f) (c4f decimal_f) decimal_f I m m') in *.
  set (u0 := tf_c (c0p ideal_f) (c0f ideal_f) ideal_f I m m') in *. set (u2 := tf_c (c2p ideal_f) (c2f ideal_f) ideal_f I m m') in *. set (u4 := tf_c (c4p ideal_f) (c4f ideal_f) ideal_f I m m') in *. clearbody t0 t2 t4 u0 u2 u4.
  assert (Wk : within 0 k k (Rabs k)) by apply within_same. set (K := Rabs k) in *. assert (PK : 0 <= K) by apply Rabs_pos.
  assert (We : within 0 e e (Rabs e)) by apply within_same. assert (We2 : within 0 (e ^ 2) (e ^ 2) (e ^ 2)) by (rewrite <- (Rabs_right (e ^ 2)) at 3 by (apply Rle_ge, pow2_ge_0); apply within_same).
  assert (W1 : within 4e-10 1 1 1) by (split; [rewrite Rminus_eq_0|]; rewrite ?Rabs_R0, ?Rabs_R1; lra).
  assert (P2 : 0 <= e ^ 2) by apply pow2_ge_0. assert (Pe : Rabs e <= (1 + e ^ 2) / 2). { pose proof (pow2_ge_0 (e - 1)) as h1. pose proof (pow2_ge_0 (e + 1)) as h2. replace ((e - 1) ^ 2) with (e ^ 2 - 2 * e + 1) in h1 by ring. replace ((e + 1) ^ 2) with (e ^ 2 + 2 * e + 1) in h2 by ring. apply Rabs_le. split; lra. } pose proof (Rabs_pos e) as Pe0. set (a := Rabs e) in *.
  assert (S3 : within 4e-10 (e ^ 2 * i3 decimal_f + 1) (e ^ 2 * i3 ideal_f + 1) (0.334 * e ^ 2 + 1)).
  { apply within_add; auto. eapply within_weak; [| | |apply within_mul; [| |exact We2|exact W3]]; lra. }
  assert (D3 : within 4e-10 (e ^ 2 * i3 decimal_f - 1) (e ^ 2 * i3 ideal_f - 1) (0.334 * e ^ 2 + 1)).
  { unfold Rminus. apply within_add; [|apply within_opp; auto]. eapply within_weak; [| | |apply within_mul; [| |exact We2|exact W3]]; lra. }
  assert (S18 : within 4e-10 (e ^ 2 * i18 decimal_f + 1) (e ^ 2 * i18 ideal_f + 1) (0.056 * e ^ 2 + 1)).
  { apply within_add; auto. eapply within_weak; [| | |apply within_mul; [| |exact We2|exact W18]]; lra. }
  assert (R0 : within 3e-9 (k * q00 decimal_f * (e ^ 2 * i3 decimal_f + 1) * t0) (k * q00 ideal_f * (e ^ 2 * i3 ideal_f + 1) * u0) (K * 0.075 * (0.334 * e ^ 2 + 1) * (0.41 * A))).
  { eapply within_weak; [| | |apply within_mul; [| |apply within_mul; [| |apply within_mul; [| |exact Wk|exact W00]|exact S3]|exact T0]]; lra. }
  assert (R22 : within 3e-9 (t2 * - (k * q22 decimal_f * e)) (u2 * - (k * q22 ideal_f * e)) (0.41 * A * (K * 0.073 * a))).
  { eapply within_weak; [| | |apply within_mul; [| |exact T2|apply within_opp, within_mul; [| |apply within_mul; [| |exact Wk|exact W22]|exact We]]]; lra. }
  assert (R20 : within 3e-9 (t2 * (k * q20 decimal_f * (e ^ 2 * i3 decimal_f - 1))) (u2 * (k * q20 ideal_f * (e ^ 2 * i3 ideal_f - 1))) (0.41 * A * (K * 0.09 * (0.334 * e ^ 2 + 1)))).
  { eapply within_weak; [| | |apply within_mul; [| |exact T2|apply within_mul; [| |apply within_mul; [| |exact Wk|exact W20]|exact D3]]]; lra. }
  assert (R44 : within 3e-9 (t4 * (k * q44 decimal_f * e ^ 2)) (u4 * (k * q44 ideal_f * e ^ 2)) (0.41 * A * (K * 0.028 * e ^ 2))).
  { eapply within_weak; [| | |apply within_mul; [| |exact T4|apply within_mul; [| |apply within_mul; [| |exact Wk|exact W44]|exact We2]]]; lra. }
  assert (R42 : within 3e-9 (t4 * - (k * q42 decimal_f * e)) (u4 * - (k * q42 ideal_f * e)) (0.41 * A * (K * 0.063 * a))).
  { eapply within_weak; [| | |apply within_mul; [| |exact T4|apply within_opp, within_mul; [| |apply within_mul; [| |exact Wk|exact W42]|exact We]]]; lra. }
  assert (R40 : within 3e-9 (t4 * (k * q40 decimal_f * (e ^ 2 * i18 decimal_f + 1))) (u4 * (k * q40 ideal_f * (e ^ 2 * i18 ideal_f + 1))) (0.41 * A * (K * 0.12 * (0.056 * e ^ 2 + 1)))).
  { eapply within_weak; [| | |apply within_mul; [| |exact T4|apply within_mul; [| |apply within_mul; [| |exact Wk|exact W40]|exact S18]]]; lra. }
  pose proof (first_close (s_qtheta s) al be _ _ _ _ _ _ _ _ 3e-9 B ltac:(lra) R22 R20) as C2.
  pose proof (fourth_close (s_qtheta s) al be _ _ _ _ _ _ _ _ _ _ _ 3e-9 B ltac:(lra) R44 R42 R40) as C4.
  rewrite code_only0, exact_only0. destruct R0 as [C0 _].
  set (x0 := k * q00 decimal_f * (e ^ 2 * i3 decimal_f + 1) * t0) in *. set (y0 := k * q00 ideal_f * (e ^ 2 * i3 ideal_f + 1) * u0) in *. clearbody x0 y0.
  match type of C2 with Rabs (?x - ?y) <= _ => set (x2 := x) in *; set (y2 := y) in * end. match type of C4 with Rabs (?x - ?y) <= _ => set (x4 := x) in *; set (y4 := y) in * end. clearbody x2 y2 x4 y4.
  replace (x0 + p2 * x2 + p4 * x4 - (y0 + p2 * y2 + p4 * y4)) with ((x0 - y0) + p2 * (x2 - y2) + p4 * (x4 - y4)) by ring.
  assert (LW : forall p x B, Rabs p <= 1 -> Rabs x <= B -> Rabs (p * x) <= B).
  { intros p x B' Hp Hx. rewrite Rabs_mult. pose proof (Rabs_pos x). pose proof (Rabs_pos p). apply Rle_trans with (1 * Rabs x); [apply Rmult_le_compat_r; auto|lra]. }
  eapply Rle_trans; [apply b_add; [apply b_add; [exact C0|apply LW; [exact HP2|exact C2]]|apply LW; [exact HP4|exact C4]]|].
  assert (KA : 0 <= K * A) by (apply Rmult_le_pos; auto). replace (5e-6 * (K * (1 + e ^ 2) * A)) with (5e-6 * (1 + e ^ 2) * (K * A)) by ring.
  match goal with |- ?l <= _ => replace l with ((3e-9 * (0.075 * (0.334 * e ^ 2 + 1) * 0.41) + 6.2e-7 * (2 * (0.41 * 0.073 * a) + 0.41 * 0.09 * (0.334 * e ^ 2 + 1)) + 6.2e-5 * (2 * (0.41 * 0.028 * e ^ 2) + 2 * (0.41 * 0.063 * a) + 0.41 * 0.12 * (0.056 * e ^ 2 + 1))) * (K * A)) by ring end.
  apply Rmult_le_compat_r; auto. lra.
Qed.

(** ** Couplings *)
Definition coupling_part (trn : nat -> euler -> list C -> list C) (f : fconst) (d : R) (cp : coupling) (which : nat) : comps :=
  match which with
  | O => only0 (c_J cp * d)
  | 1%nat => only2 (vscale d (trn 2%nat (c_theta cp) (pas2 (- (s6 f * c_eta cp * c_zeta cp)) (c_zeta cp))))
  | _ => only2 (vscale d (trn 2%nat (c_dtheta cp) (pas2 0 (2 * c_D cp))))
  end.
Lemma J_close d cp al be : 0 <= beta_of (c_theta cp) < 6.2831 ->
  Rabs (code_frequency (coupling_part turn decimal_f d cp 1) al be - exact_frequency (coupling_part exact_turn ideal_f d cp 1) [(al, be, 0)]) <= 1e-6 * (Rabs (c_zeta cp * d) * (1 + Rabs (c_eta cp))).
Proof.
  intros B. cbn [coupling_part]. destruct all_within as [_ [_ [_ [_ [_ [_ [_ [_ [W _]]]]]]]]]. set (z := c_zeta cp). set (e := c_eta cp).
  assert (W1 : within 4e-10 (d * - (s6 decimal_f * e * z)) (d * - (s6 ideal_f * e * z)) (0.409 * (Rabs (z * d) * Rabs e))).
  { replace (d * - (s6 decimal_f * e * z)) with (s6 decimal_f * - (z * d * e)) by ring. replace (d * - (s6 ideal_f * e * z)) with (s6 ideal_f * - (z * d * e)) by ring.
    rewrite <- Rabs_mult, <- (Rabs_Ropp (z * d * e)). eapply within_weak; [| | |apply within_mul; [| |exact W|apply within_same]]; lra. }
  assert (W2 : within 4e-10 (d * z) (d * z) (Rabs (z * d))).
  { rewrite (Rmult_comm d z). pose proof (Rabs_pos (z * d)). eapply within_weak; [| | |apply within_same]; lra. }
  eapply Rle_trans; [apply (first_close _ _ _ _ _ _ _ _ _ _ _ 4e-10 B ltac:(lra) W1 W2)|].
  pose proof (Rabs_pos (z * d)) as PD. pose proof (Rabs_pos e) as Pe. pose proof (Rmult_le_pos _ _ PD Pe). lra.
Qed.
Lemma D_close d cp al be : 0 <= beta_of (c_dtheta cp) < 6.2831 ->
  Rabs (code_frequency (coupling_part turn decimal_f d cp 2) al be - exact_frequency (coupling_part exact_turn ideal_f d cp 2) [(al, be, 0)]) <= 1e-6 * Rabs (2 * c_D cp * d).
Proof.
  intros B. cbn [coupling_part]. set (z := 2 * c_D cp).
  assert (W1 : within 4e-10 (d * 0) (d * 0) 0) by (split; rewrite ?Rmult_0_r, ?Rminus_eq_0, ?Rabs_R0; lra).
  assert (W2 : within 4e-10 (d * z) (d * z) (Rabs (z * d))).
  { rewrite (Rmult_comm d z). pose proof (Rabs_pos (z * d)). eapply within_weak; [| | |apply within_same]; lra. }
  eapply Rle_trans; [apply (first_close _ _ _ _ _ _ _ _ _ _ _ 4e-10 B ltac:(lra) W1 W2)|]. pose proof (Rabs_pos (z * d)). lra.
Qed.
Lemma exact_J d cp fr : exact_frequency (coupling_part exact_turn ideal_f d cp 1) fr = d * c_zeta cp * lab fr (turned (c_theta cp) (principal 1 (c_eta cp))) Z Z.
Proof.
  cbn [coupling_part]. destruct sqrt_consts as [_ [_ [_ [_ P]]]].
  replace (- (s6 ideal_f * c_eta cp * c_zeta cp)) with (- (c_zeta cp * c_eta cp / sqrt 6)) by (cbn; field; lra). apply exact_first.
Qed.
Lemma exact_D d cp fr : exact_frequency (coupling_part exact_turn ideal_f d cp 2) fr = d * (2 * c_D cp) * lab fr (turned (c_dtheta cp) (principal 1 0)) Z Z.
Proof.
  cbn [coupling_part]. destruct sqrt_consts as [_ [_ [_ [_ P]]]]. replace (pas2 0 (2 * c_D cp)) with (pas2 (- (2 * c_D cp * 0 / sqrt 6)) (2 * c_D cp)) by (f_equal; field; lra). apply exact_first.
Qed.
