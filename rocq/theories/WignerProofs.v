From Coq Require Import Reals List ZArith Lra Lia Psatz.
From Coquelicot Require Import Complex.
From Verif Require Import DftModel DftSpec DftProofs TableProofs WignerModel WignerSpec WignerOrtho WignerNorm WignerClose WignerCompose WignerFormula.
Import ListNotations.
Open Scope R_scope.

Definition rank (l : nat) := l = 2%nat \/ l = 4%nat.
Definition ent (k : wconst) (l : nat) (e : C) (i j : nat) : R := nth (i * (2 * l + 1) + j) (wigner_d k false l e) 0.
Lemma ent_2 k e i j : ent k 2 e i j = ent2 k (fst e) (snd e) i j. Proof. reflexivity. Qed.
Lemma ent_4 k e i j : ent k 4 e i j = ent4 k (fst e) (snd e) i j. Proof. reflexivity. Qed.

Lemma unit_sq e : abs2 e = 1 -> snd e * snd e = 1 - fst e * fst e. Proof. unfold abs2. lra. Qed.
Definition delta_ (i j : nat) : R := if Nat.eqb i j then 1 else 0.
Lemma ent_ortho l e i j : rank l -> abs2 e = 1 -> (i < 2 * l + 1)%nat -> (j < 2 * l + 1)%nat ->
  rsum (2 * l + 1) (fun m => ent ideal l e m i * ent ideal l e m j) = delta_ i j.
Proof.
  intros [->| ->] U Hi Hj; destruct (kk_ideal (fst e) (snd e) (unit_sq e U)) as [A B]; [apply A|apply B]; auto.
Qed.
Lemma ent_transp k l c s i j : rank l -> (i < 2 * l + 1)%nat -> (j < 2 * l + 1)%nat -> ent k l (c, - s) i j = ent k l (c, s) j i.
Proof. intros [->| ->] Hi Hj; [apply transp2|apply transp4]; auto. Qed.
Lemma ent_compose l a b i j : rank l -> (i < 2 * l + 1)%nat -> (j < 2 * l + 1)%nat ->
  rsum (2 * l + 1) (fun m => ent ideal l (cis b) i m * ent ideal l (cis a) m j) = ent ideal l (cis (a + b)) i j.
Proof.
  intros H Hi Hj. assert (T : forall x, sin x * sin x = 1 - cos x * cos x) by (intros x; pose proof (sin2_cos2 x); unfold Rsqr in *; lra).
  destruct H as [->| ->]; unfold cis; rewrite cos_plus, sin_plus, ideal_kk; [apply compose2|apply compose4]; auto; first [exact (T _)|apply sqrt_sq; lra].
Qed.
Lemma ent_one k l i j : rank l -> (i < 2 * l + 1)%nat -> (j < 2 * l + 1)%nat -> ent k l (RtoC 1) i j = delta_ i j.
Proof.
  intros [->| ->] Hi Hj; [rewrite ent_2|rewrite ent_4]; unfold RtoC, ent2, ent4, delta_; cbn [fst snd].
  - do 5 (destruct i as [|i]; [do 5 (destruct j as [|j]; [wig; field|]); lia|]); lia.
  - do 9 (destruct i as [|i]; [do 9 (destruct j as [|j]; [wig; field|]); lia|]); lia.
Qed.
Lemma ent_le_1 l e i j : rank l -> abs2 e = 1 -> (i < 2 * l + 1)%nat -> (j < 2 * l + 1)%nat -> Rabs (ent ideal l e i j) <= 1.
Proof.
  intros H U Hi Hj. pose proof (ent_ortho l e j j H U Hj Hj) as O. unfold delta_ in O. rewrite Nat.eqb_refl in O.
  assert (L : ent ideal l e i j * ent ideal l e i j <= 1).
  { rewrite <- O. set (f := fun m => ent ideal l e m j * ent ideal l e m j). change (f i <= rsum (2 * l + 1) f).
    assert (G : forall n, (i < n)%nat -> f i <= rsum n f).
    { induction n; intros Hn; [lia|]. cbn. assert (0 <= f n) by apply Rle_0_sqr. assert (0 <= rsum n f) by (apply rsum_nonneg; intros; apply Rle_0_sqr).
      destruct (Nat.eq_dec i n) as [->|]; [lra|]. pose proof (IHn ltac:(lia)). lra. }
    apply G. auto. }
  apply Rabs_le. split; nra.
Qed.

(** ** Vectors *)
Lemma map_seq_nth {A} (d : A) f n i : (i < n)%nat -> nth i (map f (seq 0 n)) d = f i.
Proof.
  intros H. rewrite nth_indep with (d' := f 0%nat) by (rewrite map_length, seq_length; auto).
  rewrite map_nth, seq_nth by auto. reflexivity.
Qed.
Lemma mat_vec_nth r n w v i : (i < r)%nat -> nth i (mat_vec r n w v) (RtoC 0) = csum n (fun j => RtoC (nth (i * n + j) w 0) * nth j v (RtoC 0))%C.
Proof. intros H. unfold mat_vec. rewrite map_seq_nth by auto. reflexivity. Qed.
Lemma list_eq_C (a b : list C) : length a = length b -> (forall i, (i < length a)%nat -> nth i a (RtoC 0) = nth i b (RtoC 0)) -> a = b.
Proof. intros. apply nth_ext with (RtoC 0) (RtoC 0); auto. Qed.

Lemma mat_mul n w1 w2 w3 v :
  (forall i j, (i < n)%nat -> (j < n)%nat -> rsum n (fun m => nth (i * n + m) w1 0 * nth (m * n + j) w2 0) = nth (i * n + j) w3 0) ->
  mat_vec n n w1 (mat_vec n n w2 v) = mat_vec n n w3 v.
Proof.
  intros H. apply list_eq_C; [rewrite !mat_vec_length; auto|]. rewrite mat_vec_length. intros i Hi.
  rewrite !mat_vec_nth by auto. rewrite (csum_ext n _ (fun j => csum n (fun m => RtoC (nth (i * n + j) w1 0) * (RtoC (nth (j * n + m) w2 0) * nth m v (RtoC 0)))%C)).
  - rewrite csum_swap. apply csum_ext. intros m Hm. rewrite <- (H i m Hi Hm), rsum_RtoC.
    rewrite (csum_ext n _ (fun j => nth m v (RtoC 0) * RtoC (nth (i * n + j) w1 0 * nth (j * n + m) w2 0))%C).
    + rewrite csum_scal. ring.
    + intros j _. rewrite RtoC_mult. ring.
  - intros j Hj. rewrite mat_vec_nth by auto. rewrite csum_scal. auto.
Qed.
Lemma mat_one n w v : length v = n -> (forall i j, (i < n)%nat -> (j < n)%nat -> nth (i * n + j) w 0 = delta_ i j) -> mat_vec n n w v = v.
Proof.
  intros L H. apply list_eq_C; [rewrite mat_vec_length; auto|]. rewrite mat_vec_length. intros i Hi. rewrite mat_vec_nth by auto.
  rewrite (csum_single n _ i Hi).
  - rewrite H by auto. unfold delta_. rewrite Nat.eqb_refl. ring.
  - intros j Hj Ne. rewrite H by auto. unfold delta_. destruct (Nat.eqb_spec i j); [lia|]. ring.
Qed.

Lemma scale_nth l e v j : (j < 2 * l + 1)%nat -> nth j (scale_phases l e v) (RtoC 0) =
  (if Nat.ltb j l then nth j v (RtoC 0) * cpow e (l - j) else if Nat.ltb l j then nth j v (RtoC 0) * Cconj (cpow e (j - l)) else nth j v (RtoC 0))%C.
Proof. intros H. unfold scale_phases. rewrite map_seq_nth by auto. auto. Qed.
Lemma cpow_1 n : cpow (RtoC 1) n = RtoC 1.
Proof. induction n; cbn [cpow]; [auto|]. rewrite IHn. ring. Qed.
Lemma cpow_mult a b n : cpow (a * b)%C n = (cpow a n * cpow b n)%C.
Proof. induction n; cbn [cpow]; [ring|]. rewrite IHn. ring. Qed.
Lemma cpow_cis a n : cpow (cis a) n = cis (INR n * a).
Proof.
  induction n; cbn [cpow]; [replace (INR 0 * a) with 0 by (cbn; ring); rewrite cis_0; auto|].
  rewrite IHn, S_INR, <- cis_add. f_equal. ring.
Qed.
Lemma scale_one l v : length v = (2 * l + 1)%nat -> scale_phases l (RtoC 1) v = v.
Proof.
  intros L. apply list_eq_C; [rewrite scale_length; auto|]. rewrite scale_length. intros i Hi. rewrite scale_nth by auto. rewrite !cpow_1.
  assert (E : Cconj (RtoC 1) = RtoC 1) by (apply C_ext; cbn; ring). rewrite E. destruct (i <? l)%nat; [ring|]. destruct (l <? i)%nat; ring.
Qed.
Lemma scale_scale l e e' v : scale_phases l e (scale_phases l e' v) = scale_phases l (e' * e)%C v.
Proof.
  apply list_eq_C; [rewrite !scale_length; auto|]. rewrite scale_length. intros i Hi. rewrite !scale_nth by auto. rewrite !cpow_mult, !Cconj_mult.
  destruct (i <? l)%nat; [ring|]. destruct (l <? i)%nat; ring.
Qed.
Lemma scale_undo l a v : length v = (2 * l + 1)%nat -> scale_phases l (cis (- a)) (scale_phases l (cis a) v) = v.
Proof. intros L. rewrite scale_scale, <- cis_add. replace (a + - a) with 0 by ring. rewrite cis_0. apply scale_one; auto. Qed.

Lemma rotation_length k l a e g v : length (rotation k l a e g v) = (2 * l + 1)%nat.
Proof. unfold rotation. apply scale_length. Qed.

(** ** C36 *)
Lemma rotation_norm l a e g v : rank l -> abs2 e = 1 -> length v = (2 * l + 1)%nat -> norm2 (rotation ideal l a e g v) = norm2 v.
Proof.
  intros H U L. unfold rotation. rewrite scale_norm by (auto using cis_unit; rewrite mat_vec_length; auto).
  pose proof (mat_vec_norm (2 * l + 1) (wigner_d ideal false l e) (scale_phases l (cis a) v) 0 ltac:(lra) (scale_length _ _ _)) as M.
  rewrite Rmult_0_r, Rmult_0_l, scale_norm in M by auto using cis_unit. 
  assert (Z : Rabs (norm2 (mat_vec (2 * l + 1) (2 * l + 1) (wigner_d ideal false l e) (scale_phases l (cis a) v)) - norm2 v) <= 0).
  { apply M. intros i j Hi Hj. pose proof (ent_ortho l e i j H U Hi Hj) as O. unfold ent, delta_ in O. rewrite O, Rminus_eq_0, Rabs_R0. lra. }
  pose proof (Rabs_pos (norm2 (mat_vec (2 * l + 1) (2 * l + 1) (wigner_d ideal false l e) (scale_phases l (cis a) v)) - norm2 v)) as P.
  assert (E : Rabs (norm2 (mat_vec (2 * l + 1) (2 * l + 1) (wigner_d ideal false l e) (scale_phases l (cis a) v)) - norm2 v) = 0) by lra.
  destruct (Req_dec (norm2 (mat_vec (2 * l + 1) (2 * l + 1) (wigner_d ideal false l e) (scale_phases l (cis a) v)) - norm2 v) 0) as [D|D]; [lra|].
  apply Rabs_no_R0 in D. lra.
Qed.

Lemma rotation_zero k l v : rank l -> length v = (2 * l + 1)%nat -> rotation k l 0 (RtoC 1) 0 v = v.
Proof.
  intros H L. unfold rotation. rewrite cis_0. rewrite (scale_one l v L). rewrite mat_one.
  - apply scale_one; auto.
  - auto.
  - intros i j Hi Hj. apply (ent_one k l i j H Hi Hj).
Qed.
Lemma table_zero : cos_sin_from_table 0 = RtoC 1.
Proof.
  unfold cos_sin_from_table, table_exp. rewrite Rabs_R0. assert (M : modd 0 (2 * PI) = 0) by (apply modd_small; pose proof PI_RGT_0; lra).
  rewrite M. assert (Z : 0 / delta = 0) by (pose proof delta_pos; field; lra). rewrite Z.
  assert (I : table_index 0 = 0%Z).
  { unfold table_index. rewrite Z. pose proof (base_Int_part 0) as [A B]. assert (-1 < Int_part 0)%Z by (apply lt_IZR; lra). assert (Int_part 0 <= 0)%Z by (apply le_IZR; lra). lia. }
  rewrite I, rsign_0. unfold lerp, cos_table, table_size. cbn [Z.eqb Z.sub Z.add Z.opp Z.pos_sub]. rewrite Rmult_0_l, cos_0. apply C_ext; cbn; ring.
Qed.

Lemma rotation_inverse l a c s g v : rank l -> abs2 (c, s) = 1 -> length v = (2 * l + 1)%nat ->
  rotation ideal l (- g) (c, - s) (- a) (rotation ideal l a (c, s) g v) = v.
Proof.
  intros H U L. unfold rotation. rewrite scale_undo by apply mat_vec_length.
  rewrite (mat_mul _ _ _ (wigner_d ideal false l (RtoC 1))).
  - rewrite mat_one; [apply scale_undo; auto|apply scale_length|]. intros i j Hi Hj. apply (ent_one ideal l i j H Hi Hj).
  - intros i j Hi Hj. change (rsum (2 * l + 1) (fun m => ent ideal l (c, - s) i m * ent ideal l (c, s) m j) = ent ideal l (RtoC 1) i j).
    rewrite ent_one by auto. rewrite <- (ent_ortho l (c, s) i j H U Hi Hj). apply rsum_ext. intros m Hm. rewrite ent_transp by auto. auto.
Qed.
Lemma rotation_add l a b v : rank l -> length v = (2 * l + 1)%nat ->
  rotation ideal l 0 (cis b) 0 (rotation ideal l 0 (cis a) 0 v) = rotation ideal l 0 (cis (a + b)) 0 v.
Proof.
  intros H L. unfold rotation. rewrite cis_0. rewrite !(scale_one l) by (rewrite ?scale_length, ?mat_vec_length; auto).
  apply mat_mul. intros i j Hi Hj. apply (ent_compose l a b i j H Hi Hj).
Qed.

(** Norm with the constants and the tables of the source. *)
Lemma cos_sin_modulus x : 1 - delta * delta / 4 <= abs2 (cos_sin_from_table x) <= 1.
Proof.
  unfold cos_sin_from_table. pose proof (modd_range (Rabs x) (Rabs_pos x)) as [[M|M] _].
  - rewrite abs2_table; [apply table_modulus|]. rewrite rsign_pos; [ring|]. pose proof delta_pos. apply Rmult_lt_0_compat; auto. apply Rinv_0_lt_compat; auto.
  - rewrite <- M. replace (0 / delta) with 0 by (pose proof delta_pos; field; lra). pose proof (table_modulus x) as T.
    assert (S0 : snd (table_exp 1 x) = 0).
    { unfold table_exp. rewrite <- M. cbn [snd]. assert (Z : 0 / delta = 0) by (pose proof delta_pos; field; lra).
      assert (I : table_index 0 = 0%Z).
      { unfold table_index. rewrite Z. pose proof (base_Int_part 0) as [A B]. assert (-1 < Int_part 0)%Z by (apply lt_IZR; lra). assert (Int_part 0 <= 0)%Z by (apply le_IZR; lra). lia. }
      rewrite I, Z. unfold lerp, sin_table, table_size. cbn [Z.eqb Z.sub Z.add Z.opp Z.pos_sub]. rewrite Rmult_0_l, sin_0. ring. }
    assert (E : table_exp 0 x = table_exp 1 x).
    { apply C_ext; [reflexivity|]. destruct (table_close 0 x) as [_ [_ F]]. rewrite F, S0. ring. }
    rewrite E. auto.
Qed.
Lemma normalise e : 1 - 2.5e-9 <= abs2 e <= 1 -> exists e', abs2 e' = 1 /\ Rabs (fst e - fst e') <= 2.5e-9 /\ Rabs (snd e - snd e') <= 2.5e-9.
Proof.
  intros B. set (r := sqrt (abs2 e)). assert (R2 : r * r = abs2 e) by (apply sqrt_sqrt; lra). assert (R0 : 0 <= r) by apply sqrt_pos.
  assert (Rl : 1 - 2.5e-9 <= r) by nra. assert (Ru : r <= 1) by nra.
  exists (fst e / r, snd e / r). cbn [fst snd]. unfold abs2 in *. cbn [fst snd].
  assert (U : fst e / r * (fst e / r) + snd e / r * (snd e / r) = 1). { apply Rmult_eq_reg_r with (r * r); [|nra]. transitivity (fst e * fst e + snd e * snd e); [field; lra|lra]. }
  split; auto.
  assert (G : forall x, x / r * (x / r) <= 1 -> Rabs (x - x / r) <= 2.5e-9).
  { intros x Hx. replace (x - x / r) with (x / r * (r - 1)) by (field; lra). rewrite Rabs_mult.
    assert (Rabs (x / r) <= 1) by (apply Rabs_le; split; nra). assert (Rabs (r - 1) <= 2.5e-9) by (apply Rabs_le; lra).
    pose proof (Rabs_pos (x / r)). pose proof (Rabs_pos (r - 1)). nra. }
  split; apply G; pose proof (Rle_0_sqr (fst e / r)); pose proof (Rle_0_sqr (snd e / r)); unfold Rsqr in *; lra.
Qed.
Lemma ent_close l e e' h i j : rank l -> abs2 e <= 1 -> abs2 e' <= 1 -> Rabs (fst e - fst e') <= h -> Rabs (snd e - snd e') <= h ->
  (i < 2 * l + 1)%nat -> (j < 2 * l + 1)%nat -> Rabs (ent decimal l e i j - ent ideal l e' i j) <= 600 * h + 600 * eps.
Proof.
  intros H U U' D1 D2 Hi Hj. assert (0 <= h) by (pose proof (Rabs_pos (fst e - fst e')); lra).
  assert (B : forall z : C, abs2 z <= 1 -> Rabs (fst z) <= 1 /\ Rabs (snd z) <= 1) by (unfold abs2; intros z Hz; split; apply Rabs_le; nra).
  destruct (B e U), (B e' U'). destruct H as [->| ->].
  - rewrite !ent_2. eapply Rle_trans; [apply (close2 _ _ _ _ h); auto using decimal_tight|]. unfold eps. lra.
  - rewrite !ent_4. apply (close4 _ _ _ _ h); auto using decimal_tight.
Qed.
Lemma table_norm l a b g v : rank l -> length v = (2 * l + 1)%nat ->
  Rabs (norm2 (single_wigner_rotation decimal l a b g v) - norm2 v) <= 3e-4 * norm2 v.
Proof.
  intros H L. unfold single_wigner_rotation. pose proof (cos_sin_modulus b) as M. unfold delta in M. set (e := cos_sin_from_table b) in *. clearbody e.
  destruct (normalise e ltac:(lra)) as [e' [U [D1 D2]]].
  unfold rotation. rewrite scale_norm by (auto using cis_unit; rewrite mat_vec_length; auto). rewrite <- (scale_norm l (cis a) v) by auto using cis_unit.
  set (n := (2 * l + 1)%nat). assert (N9 : INR n <= 9) by (unfold n; destruct H as [->| ->]; cbn; lra).
  assert (N0 : 0 <= INR n) by apply pos_INR.
  set (t := 1.8e-6). assert (T : forall i j, (i < n)%nat -> (j < n)%nat -> Rabs (ent decimal l e i j - ent ideal l e' i j) <= t).
  { intros i j Hi Hj. eapply Rle_trans; [apply (ent_close l e e' 2.5e-9); auto; lra|]. unfold eps, t. lra. }
  assert (P : 0 <= norm2 (scale_phases l (cis a) v)). { rewrite norm2_list. apply rsum_nonneg. intros. unfold abs2. nra. }
  eapply Rle_trans; [apply (mat_vec_norm _ _ _ (INR n * (2 * t + t * t)))|].
  - unfold t. nra.
  - apply scale_length.
  - intros i j Hi Hj. fold n. 
    change (Rabs (rsum n (fun m => ent decimal l e m i * ent decimal l e m j) - delta_ i j) <= INR n * (2 * t + t * t)).
    rewrite <- (ent_ortho l e' i j H U Hi Hj). fold n. 
    replace (rsum n (fun m => ent decimal l e m i * ent decimal l e m j) - rsum n (fun m => ent ideal l e' m i * ent ideal l e' m j))
      with (rsum n (fun m => ent decimal l e m i * ent decimal l e m j + -1 * (ent ideal l e' m i * ent ideal l e' m j))) by (rewrite rsum_plus, rsum_scal; ring).
    eapply Rle_trans; [apply rsum_abs|]. rewrite <- rsum_const. apply rsum_le. intros m Hm.
    pose proof (T m i Hm Hi) as Ti. pose proof (T m j Hm Hj) as Tj. pose proof (ent_le_1 l e' m i H U Hm Hi) as Bi. pose proof (ent_le_1 l e' m j H U Hm Hj) as Bj.
    set (x := ent decimal l e m i) in *. set (y := ent decimal l e m j) in *. set (x' := ent ideal l e' m i) in *. set (y' := ent ideal l e' m j) in *. clearbody x y x' y'.
    replace (x * y + -1 * (x' * y')) with ((x - x') * (y - y') + ((x - x') * y' + x' * (y - y'))) by ring.
    replace (2 * t + t * t) with (t * t + (t * 1 + 1 * t)) by ring. apply b_add; [apply b_mul; auto|]. apply b_add; apply b_mul; auto.
  - fold n. apply Rmult_le_compat_r; auto. assert (INR n * INR n <= 81) by nra. unfold t. nra.
Qed.

(** ** C37 *)
Lemma half_is_firstn k l e : rank l -> wigner_d k true l e = firstn ((l + 1) * (2 * l + 1)) (wigner_d k false l e).
Proof. intros [->| ->]; reflexivity. Qed.
Lemma pow_m1_even m : (-1) ^ m = if Nat.eqb (m mod 2) 0 then 1 else -1.
Proof.
  rewrite (Nat.div_mod m 2) at 1 by lia. rewrite pow_add, pow_mult. replace ((-1) ^ 2) with 1 by ring. rewrite pow1.
  pose proof (Nat.mod_upper_bound m 2 ltac:(lia)). destruct (m mod 2) as [|[|]]; cbn; [ring|ring|lia].
Qed.
Lemma half_vector_scale l a v : real_tensor l v -> half_vector l (fun m => cpow (cis a) m) v = scale_phases l (cis a) v.
Proof.
  intros [L H]. apply list_eq_C; [unfold half_vector, scale_phases; rewrite !map_length; auto|].
  unfold half_vector at 1. rewrite map_length, seq_length. intros i Hi. rewrite scale_nth by auto. unfold half_vector. rewrite map_seq_nth by auto.
  destruct (Nat.ltb_spec i l); [auto|]. destruct (Nat.ltb_spec l i); [|auto].
  pose proof (H (i - l)%nat ltac:(lia)) as E. replace (l + (i - l))%nat with i in E by lia. rewrite E. rewrite pow_m1_even.
  destruct ((i - l) mod 2 =? 0)%nat; apply C_ext; cbn [fst snd]; cbn; ring.
Qed.
Lemma rotation_2_full k l a e v : rank l -> real_tensor l v ->
  rotation_2 k l (fun m => cpow (cis a) m) e v = firstn (l + 1) (rotation k l a e 0 v).
Proof.
  intros H R. unfold rotation_2, rotation. rewrite cis_0, scale_one by apply mat_vec_length. rewrite (half_vector_scale l a v R).
  apply list_eq_C; [rewrite firstn_length, !mat_vec_length; lia|]. rewrite mat_vec_length. intros i Hi.
  rewrite mat_vec_nth by auto. rewrite (half_is_firstn k l e H).
  assert (NF : forall (A : Type) (d : A) x m n, (m < n)%nat -> nth m (firstn n x) d = nth m x d).
  { intros A d x. induction x as [|y x IH]; intros m n Hm; [rewrite firstn_nil; auto|]. destruct n; [lia|]. destruct m; [reflexivity|]. cbn. apply IH. lia. }
  rewrite NF by auto. rewrite mat_vec_nth by lia. apply csum_ext. intros j Hj. rewrite NF by nia. auto.
Qed.

Lemma rsum_rev n f : rsum n f = rsum n (fun i => f (n - 1 - i)%nat).
Proof.
  induction n as [|n IH] in f |- *; [reflexivity|].
  assert (S1 : forall m g, rsum (S m) g = g 0%nat + rsum m (fun i => g (S i))).
  { intros m g. induction m as [|m IHm]; [cbn; ring|]. cbn [rsum] in *. rewrite IHm. ring. }
  rewrite (S1 n (fun i => f (S n - 1 - i)%nat)). cbn [rsum]. rewrite IH. replace (S n - 1 - 0)%nat with n by lia. rewrite Rplus_comm. f_equal.
  apply rsum_ext. intros i Hi. f_equal. lia.
Qed.
Lemma ent_mirror k l e i j : rank l -> (i < 2 * l + 1)%nat -> (j < 2 * l + 1)%nat ->
  ent k l e (2 * l - i) (2 * l - j) = (-1) ^ (i + j) * ent k l e i j.
Proof.
  intros [->| ->] Hi Hj; rewrite ?ent_2, ?ent_4; unfold ent2, ent4.
  - do 5 (destruct i as [|i]; [do 5 (destruct j as [|j]; [cbn [Nat.sub Nat.mul Nat.add]; wig; cbn [pow]; field|]); lia|]); lia.
  - do 9 (destruct i as [|i]; [do 9 (destruct j as [|j]; [cbn [Nat.sub Nat.mul Nat.add]; wig; cbn [pow]; field|]); lia|]); lia.
Qed.
Lemma m1_sq n : (-1) ^ n * (-1) ^ n = 1.
Proof. rewrite pow_m1_even. destruct (n mod 2 =? 0)%nat; ring. Qed.
(** A real tensor, over all indexes. *)
Lemma real_index l v j : real_tensor l v -> (j < 2 * l + 1)%nat -> nth (2 * l - j) v (RtoC 0) = (RtoC ((-1) ^ (l + j)) * Cconj (nth j v (RtoC 0)))%C.
Proof.
  intros [L H] Hj. destruct (Nat.le_ge_cases j l) as [J|J].
  - pose proof (H (l - j)%nat ltac:(lia)) as E. replace (l + (l - j))%nat with (2 * l - j)%nat in E by lia. replace (l - (l - j))%nat with j in E by lia. rewrite E.
    f_equal. f_equal. rewrite <- (Rmult_1_l ((-1) ^ (l - j))), <- (m1_sq j). rewrite Rmult_assoc, <- pow_add. replace (j + (l - j))%nat with l by lia.
    rewrite pow_add. ring.
  - pose proof (H (j - l)%nat ltac:(lia)) as E. replace (l + (j - l))%nat with j in E by lia. replace (l - (j - l))%nat with (2 * l - j)%nat in E by lia. rewrite E.
    rewrite Cconj_mult. assert (CC : Cconj (Cconj (nth (2 * l - j) v (RtoC 0))) = nth (2 * l - j) v (RtoC 0)) by (apply C_ext; cbn; ring). rewrite CC.
    assert (CR : forall x, Cconj (RtoC x) = RtoC x) by (intros; apply C_ext; cbn; ring). rewrite CR.
    assert (P : (-1) ^ (l + j) * (-1) ^ (j - l) = 1).
    { rewrite <- pow_add. replace (l + j + (j - l))%nat with (j + j)%nat by lia. rewrite pow_add. apply m1_sq. }
    transitivity (RtoC ((-1) ^ (l + j) * (-1) ^ (j - l)) * nth (2 * l - j) v (RtoC 0))%C; [rewrite P; ring|]. rewrite RtoC_mult. ring.
Qed.
Lemma real_index_inv l v : length v = (2 * l + 1)%nat ->
  (forall j, (j < 2 * l + 1)%nat -> nth (2 * l - j) v (RtoC 0) = (RtoC ((-1) ^ (l + j)) * Cconj (nth j v (RtoC 0)))%C) -> real_tensor l v.
Proof.
  intros L H. split; auto. intros m Hm. pose proof (H (l - m)%nat ltac:(lia)) as E. replace (2 * l - (l - m))%nat with (l + m)%nat in E by lia. rewrite E.
  f_equal. f_equal. rewrite pow_add. assert (A : (-1) ^ l = (-1) ^ m * (-1) ^ (l - m)) by (rewrite <- pow_add; f_equal; lia). rewrite A.
  rewrite Rmult_assoc, m1_sq. ring.
Qed.
Lemma scale_real l e v : real_tensor l v -> real_tensor l (scale_phases l e v).
Proof.
  intros R. apply real_index_inv; [apply scale_length|]. intros j Hj. rewrite !scale_nth by lia. rewrite (real_index l v j R Hj).
  assert (CC : forall z, Cconj (Cconj z) = z) by (intros; apply C_ext; cbn; ring).
  destruct (Nat.ltb_spec (2 * l - j) l), (Nat.ltb_spec j l); try lia.
  - destruct (Nat.ltb_spec l j); [|lia]. rewrite Cconj_mult, CC. replace (l - (2 * l - j))%nat with (j - l)%nat by lia. ring.
  - destruct (Nat.ltb_spec l (2 * l - j)); [|lia]. rewrite Cconj_mult. replace (2 * l - j - l)%nat with (l - j)%nat by lia. ring.
  - destruct (Nat.ltb_spec l j); [lia|]. destruct (Nat.ltb_spec l (2 * l - j)); [lia|]. auto.
Qed.
Lemma mat_real k l e v : rank l -> real_tensor l v -> real_tensor l (mat_vec (2 * l + 1) (2 * l + 1) (wigner_d k false l e) v).
Proof.
  intros H R. apply real_index_inv; [apply mat_vec_length|]. intros i Hi. rewrite !mat_vec_nth by lia.
  set (n := (2 * l + 1)%nat) in *. rewrite !(csum_re n).
  rewrite (rsum_rev n (fun j => nth ((2 * l - i) * n + j) (wigner_d k false l e) 0 * fst (nth j v (RtoC 0)))).
  rewrite (rsum_rev n (fun j => nth ((2 * l - i) * n + j) (wigner_d k false l e) 0 * snd (nth j v (RtoC 0)))).
  assert (Re : forall j, (j < n)%nat -> fst (nth (2 * l - j) v (RtoC 0)) = (-1) ^ (l + j) * fst (nth j v (RtoC 0)) /\ snd (nth (2 * l - j) v (RtoC 0)) = - (-1) ^ (l + j) * snd (nth j v (RtoC 0))).
  { intros j Hj. rewrite (real_index l v j R Hj). cbn. split; ring. }
  assert (SG : forall j, (-1) ^ (i + j) * (-1) ^ (l + j) = (-1) ^ (l + i)).
  { intros j. rewrite !pow_add. transitivity ((-1) ^ i * (-1) ^ l * ((-1) ^ j * (-1) ^ j)); [ring|]. rewrite m1_sq. ring. }
  set (w := wigner_d k false l e) in *.
  assert (M : forall j, (j < n)%nat -> nth ((2 * l - i) * n + (2 * l - j)) w 0 = (-1) ^ (i + j) * nth (i * n + j) w 0) by (intros j Hj; apply (ent_mirror k l e i j H Hi Hj)).
  apply C_ext; unfold Cconj, Cmult, RtoC; cbn [fst snd].
  - match goal with |- _ = ?a * ?b - _ => transitivity (a * b); [|ring] end. rewrite <- rsum_scal. apply rsum_ext. intros j Hj.
    replace (n - 1 - j)%nat with (2 * l - j)%nat by (unfold n; lia). destruct (Re j Hj) as [E _]. unfold RtoC in E. rewrite E, (M j Hj), <- (SG j). ring.
  - match goal with |- _ = ?a * - ?b + _ => transitivity (- a * b); [|ring] end. rewrite <- rsum_scal. apply rsum_ext. intros j Hj.
    replace (n - 1 - j)%nat with (2 * l - j)%nat by (unfold n; lia). destruct (Re j Hj) as [_ E]. unfold RtoC in E. rewrite E, (M j Hj), <- (SG j). ring.
Qed.
Lemma rotation_real k l a e g v : rank l -> real_tensor l v -> real_tensor l (rotation k l a e g v).
Proof. intros H R. unfold rotation. apply scale_real, mat_real; auto. apply scale_real; auto. Qed.
Lemma real_centre l v : real_tensor l v -> snd (nth l v (RtoC 0)) = 0.
Proof.
  intros [_ H]. pose proof (H 0%nat ltac:(lia)) as E. rewrite Nat.add_0_r, Nat.sub_0_r in E. set (z := nth l v (RtoC 0)) in *.
  assert (S : snd z = - snd z) by (rewrite E at 1; cbn; ring). lra.
Qed.

(** ** C38: closeness to the exact rotation *)
Lemma dist2_list a b : length a = length b -> dist2 a b = rsum (length a) (fun i => abs2 (nth i a (RtoC 0) - nth i b (RtoC 0))%C).
Proof.
  intros L. unfold dist2. rewrite norm2_list, map_length, combine_length, <- L, Nat.min_id. apply rsum_ext. intros i Hi.
  set (F := fun p : C * C => (fst p - snd p)%C).
  rewrite nth_indep with (d' := F (RtoC 0, RtoC 0)) by (rewrite map_length, combine_length; lia).
  rewrite (map_nth F), combine_nth by auto. reflexivity.
Qed.
Lemma dist2_scale l e a b : abs2 e = 1 -> length a = (2 * l + 1)%nat -> length b = (2 * l + 1)%nat -> dist2 (scale_phases l e a) (scale_phases l e b) = dist2 a b.
Proof.
  intros E La Lb. rewrite !dist2_list by (rewrite ?scale_length; congruence). rewrite scale_length, La. apply rsum_ext. intros i Hi. rewrite !scale_nth by auto.
  destruct (i <? l)%nat.
  - replace (nth i a (RtoC 0) * cpow e (l - i) - nth i b (RtoC 0) * cpow e (l - i))%C with ((nth i a (RtoC 0) - nth i b (RtoC 0)) * cpow e (l - i))%C by ring.
    rewrite abs2_mult, abs2_cpow by auto. ring.
  - destruct (l <? i)%nat; auto.
    replace (nth i a (RtoC 0) * Cconj (cpow e (i - l)) - nth i b (RtoC 0) * Cconj (cpow e (i - l)))%C with ((nth i a (RtoC 0) - nth i b (RtoC 0)) * Cconj (cpow e (i - l)))%C by ring.
    rewrite abs2_mult, abs2_Cconj, abs2_cpow by auto. ring.
Qed.
Lemma dist2_mat n w w' v t : 0 <= t -> length v = n -> (forall i j, (i < n)%nat -> (j < n)%nat -> Rabs (nth (i * n + j) w 0 - nth (i * n + j) w' 0) <= t) ->
  dist2 (mat_vec n n w v) (mat_vec n n w' v) <= INR n * INR n * (t * t) * norm2 v.
Proof.
  intros T L H. rewrite dist2_list by (rewrite !mat_vec_length; auto). rewrite mat_vec_length, norm2_list, L.
  assert (S : forall x : nat -> R, forall i, (i < n)%nat -> rsum n (fun j => (nth (i * n + j) w 0 - nth (i * n + j) w' 0) * x j) * rsum n (fun j => (nth (i * n + j) w 0 - nth (i * n + j) w' 0) * x j)
    <= INR n * (t * t) * rsum n (fun j => x j * x j)).
  { intros x i Hi. eapply Rle_trans; [apply cauchy|]. rewrite Rmult_assoc. apply Rmult_le_compat_l; [apply pos_INR|]. rewrite <- rsum_scal. apply rsum_le. intros j Hj.
    pose proof (H i j Hi Hj) as B. set (u := nth (i * n + j) w 0 - nth (i * n + j) w' 0) in *. clearbody u.
    assert (u * u <= t * t). { rewrite <- (Rabs_right (u * u)), Rabs_mult by (apply Rle_ge, Rle_0_sqr). pose proof (Rabs_pos u). apply Rmult_le_compat; auto. }
    pose proof (Rle_0_sqr (x j)). unfold Rsqr in *. nra. }
  apply Rle_trans with (rsum n (fun _ => INR n * (t * t) * rsum n (fun j => abs2 (nth j v (RtoC 0))))).
  - apply rsum_le. intros i Hi. rewrite !mat_vec_nth by auto. rewrite !(csum_re n (fun j => nth (i * n + j) _ 0) (fun j => nth j v (RtoC 0))).
    pose proof (S (fun j => fst (nth j v (RtoC 0))) i Hi) as A. pose proof (S (fun j => snd (nth j v (RtoC 0))) i Hi) as B. cbv beta in A, B.
    unfold abs2 at 2. rewrite (rsum_plus n (fun j => fst (nth j v (RtoC 0)) * fst (nth j v (RtoC 0))) (fun j => snd (nth j v (RtoC 0)) * snd (nth j v (RtoC 0)))).
    assert (E : forall x : nat -> R, rsum n (fun j => nth (i * n + j) w 0 * x j) - rsum n (fun j => nth (i * n + j) w' 0 * x j) = rsum n (fun j => (nth (i * n + j) w 0 - nth (i * n + j) w' 0) * x j)).
    { intros x. rewrite (rsum_ext n (fun j => (nth (i * n + j) w 0 - nth (i * n + j) w' 0) * x j) (fun j => nth (i * n + j) w 0 * x j + -1 * (nth (i * n + j) w' 0 * x j))) by (intros; ring).
      rewrite rsum_plus, rsum_scal. ring. }
    unfold abs2, Cminus, Cplus, Copp. cbn [fst snd]. change (?a + - ?b) with (a - b). 
    rewrite <- (E (fun j => fst (nth j v (RtoC 0)))) in A. rewrite <- (E (fun j => snd (nth j v (RtoC 0)))) in B. unfold Rminus in A, B. lra.
  - rewrite rsum_const. right. ring.
Qed.
Lemma table_rotation_close l a b g v : rank l -> length v = (2 * l + 1)%nat -> 0 <= b < 6.2831 ->
  dist2 (single_wigner_rotation decimal l a b g v) (rotation ideal l a (cis b) g v) <= 3.3e-9 * norm2 v.
Proof.
  intros H L B. unfold single_wigner_rotation, rotation. rewrite dist2_scale by (auto using cis_unit, mat_vec_length).
  assert (P : 0 <= norm2 v). { rewrite norm2_list. apply rsum_nonneg. intros. unfold abs2. nra. }
  set (n := (2 * l + 1)%nat). assert (N9 : INR n <= 9) by (unfold n; destruct H as [->| ->]; cbn; lra). assert (N0 : 0 <= INR n) by apply pos_INR.
  set (t := 6.3e-6). eapply Rle_trans; [apply (dist2_mat n _ _ _ t)|].
  - unfold t. lra.
  - apply scale_length.
  - intros i j Hi Hj. eapply Rle_trans; [apply (ent_close l _ (cis b) 1e-8 i j H)|]; auto.
    + apply cos_sin_modulus.
    + rewrite cis_unit. lra.
    + destruct (table_sharp b) as [_ F]. destruct F as [F1 F2].
      { rewrite Rabs_right by lra. rewrite modd_small; [lra|]. pose proof pi_bounds. unfold delta in *. lra. }
      apply (cos_sin_sharp b 1e-8); auto; lra.
    + destruct (table_sharp b) as [_ F]. destruct F as [F1 F2].
      { rewrite Rabs_right by lra. rewrite modd_small; [lra|]. pose proof pi_bounds. unfold delta in *. lra. }
      unfold cis. cbn [snd]. rewrite <- (Rabs_right b) at 2 by lra. apply (cos_sin_sharp b 1e-8); auto; lra.
    + unfold eps, t. lra.
  - rewrite scale_norm by auto using cis_unit. apply Rmult_le_compat_r; auto. assert (INR n * INR n <= 81) by nra. unfold t. lra.
Qed.

(** ** C39 *)
Lemma rotation_2_ext k l e e' eb v : (forall m, (1 <= m <= l)%nat -> e m = e' m) -> rotation_2 k l e eb v = rotation_2 k l e' eb v.
Proof.
  intros H. unfold rotation_2. f_equal. unfold half_vector. apply map_ext_in. intros j Hj. apply in_seq in Hj.
  destruct (Nat.ltb_spec j l); [rewrite H by lia; auto|]. destruct (Nat.ltb_spec l j); [|auto]. rewrite H by lia. auto.
Qed.
Lemma quarter (f : bool) (alpha : nat -> R) junk row o :
  step_alpha f 4 (get_exp_Im_alpha f (fun o => cis (alpha o)) junk) row o = get_exp_Im_alpha f (fun o => cis (alpha o - PI / 2)) junk row o.
Proof.
  assert (Q : cis (alpha o - PI / 2) = (cis (alpha o) * (0, -1))%C).
  { replace (alpha o - PI / 2) with (alpha o + - (PI / 2)) by ring. rewrite cis_add. f_equal. unfold cis. rewrite cos_neg, sin_neg, cos_PI2, sin_PI2. auto. }
  assert (S2 : ((0, -1) * (0, -1))%C = RtoC (-1)) by (apply C_ext; cbn; ring).
  assert (S3 : (RtoC (-1) * (0, -1))%C = (0, 1)) by (apply C_ext; cbn; ring).
  assert (S4 : ((0, 1) * (0, -1))%C = RtoC 1) by (apply C_ext; cbn; ring).
  unfold step_alpha, get_exp_Im_alpha. cbn [Nat.eqb]. rewrite Q. set (z := cis (alpha o)).
  destruct row as [|[|[|[|]]]]; destruct f; auto.
  - transitivity (z * z * z * z * RtoC 1)%C; [ring|]. rewrite <- S4, <- S3, <- S2. ring.
  - rewrite <- S3, <- S2. ring.
  - rewrite <- S2. ring.
  - rewrite <- S2. ring.
Qed.
Lemma table_phase (f : bool) alpha junk m o : (1 <= m <= 4)%nat -> (f = true \/ (m <= 2)%nat) ->
  get_exp_Im_alpha f (fun o => cis (alpha o)) junk (4 - m)%nat o = cpow (cis (alpha o)) m.
Proof.
  intros Hm Hf. unfold get_exp_Im_alpha. destruct m as [|[|[|[|[|]]]]]; try lia; cbn [Nat.sub cpow]; try (destruct f; [|lia]); ring.
  all: destruct Hf as [Hf|Hf]; [discriminate|lia].
Qed.
Lemma step_ext f n t t' row o : (forall row o, t row o = t' row o) -> step_alpha f n t row o = step_alpha f n t' row o.
Proof. intros H. unfold step_alpha. rewrite !H. auto. Qed.

Lemma batch_spec k npts n_oct f eb R2 R4 junk : (n_oct = 1 \/ n_oct = 4)%nat -> real_tensor 2 R2 -> real_tensor 4 R4 ->
  forall todo alpha t, (todo <= 1 \/ n_oct = 4)%nat -> (forall row o, t row o = get_exp_Im_alpha f (fun o => cis (alpha o)) junk row o) ->
  fst (batch_loop k npts n_oct f eb R2 R4 todo t) =
    flat_map (fun j => map (fun o => (firstn 3 (rotation k 2 (alpha o - INR j * (PI / 2)) (eb o) 0 R2),
                                      if f then firstn 5 (rotation k 4 (alpha o - INR j * (PI / 2)) (eb o) 0 R4) else [])) (seq 0 npts)) (seq 0 todo) /\
  (forall row o, snd (batch_loop k npts n_oct f eb R2 R4 todo t) row o =
     get_exp_Im_alpha f (fun o => cis (alpha o - if Nat.eqb n_oct 1 then 0 else INR todo * (PI / 2))) junk row o).
Proof.
  intros HN H2 H4. induction todo as [|todo IH]; intros alpha t HT Ht; [cbn [batch_loop fst snd INR seq flat_map]; split; auto|].
  - intros row o. rewrite Ht. replace (if (n_oct =? 1)%nat then 0 else 0 * (PI / 2)) with 0 by (destruct (n_oct =? 1)%nat; ring).
    unfold get_exp_Im_alpha. rewrite Rminus_0_r. auto.
  - cbn [batch_loop].
    assert (HH : map (fun o => (rotation_2 k 2 (fun m => t (4 - m)%nat o) (eb o) R2, if f then rotation_2 k 4 (fun m => t (4 - m)%nat o) (eb o) R4 else [])) (seq 0 npts)
      = map (fun o => (firstn 3 (rotation k 2 (alpha o - INR 0 * (PI / 2)) (eb o) 0 R2), if f then firstn 5 (rotation k 4 (alpha o - INR 0 * (PI / 2)) (eb o) 0 R4) else [])) (seq 0 npts)).
    { apply map_ext. intros o. replace (alpha o - INR 0 * (PI / 2)) with (alpha o) by (cbn; ring). f_equal.
      - rewrite (rotation_2_ext k 2 _ (fun m => cpow (cis (alpha o)) m)).
        + apply (rotation_2_full k 2 (alpha o) (eb o) R2); [left; auto|auto].
        + intros m Hm. rewrite Ht. apply table_phase; [lia|right; lia].
      - destruct f; auto. rewrite (rotation_2_ext k 4 _ (fun m => cpow (cis (alpha o)) m)).
        + apply (rotation_2_full k 4 (alpha o) (eb o) R4); [right; auto|auto].
        + intros m Hm. rewrite Ht. apply table_phase; [lia|left; auto]. }
    rewrite HH. clear HH.
    destruct (Nat.eq_dec n_oct 1) as [->|N1].
    + assert (todo = 0)%nat by lia. subst todo. cbn [batch_loop fst snd]. split; [reflexivity|].
      intros row o. unfold step_alpha. cbn [Nat.eqb]. rewrite Ht. unfold get_exp_Im_alpha. rewrite Rminus_0_r. auto.
    + assert (n_oct = 4)%nat by lia. subst n_oct.
      destruct (IH (fun o => alpha o - PI / 2) (step_alpha f 4 t) ltac:(right; auto)) as [A B].
      { intros row o. rewrite (step_ext f 4 t _ row o Ht). apply quarter. }
      destruct (batch_loop k npts 4 f eb R2 R4 todo (step_alpha f 4 t)) as [rest t'] eqn:EB. cbn [fst snd] in *. split.
      * cbn [seq flat_map]. f_equal. rewrite A. rewrite <- seq_shift, flat_map_concat_map, flat_map_concat_map, map_map. f_equal. apply map_ext. intros j.
        apply map_ext. intros o. rewrite S_INR. replace (alpha o - (INR j + 1) * (PI / 2)) with (alpha o - PI / 2 - INR j * (PI / 2)) by ring. auto.
      * intros row o. rewrite B. cbn [Nat.eqb]. unfold get_exp_Im_alpha. rewrite S_INR.
        replace (alpha o - (INR todo + 1) * (PI / 2)) with (alpha o - PI / 2 - INR todo * (PI / 2)) by ring. auto.
Qed.
Lemma full_turn a : cis (a - 4 * (PI / 2)) = cis a.
Proof.
  rewrite <- (Cmult_1_r (cis (a - 4 * (PI / 2)))), <- (cis_2PI_nat 1), <- cis_add. f_equal. cbn. field.
Qed.

(** ** The row used for the rotor angle *)
Lemma dm0_row k l b m : rank l -> (m < 2 * l + 1)%nat -> nth m (wigner_dm0 k l b) 0 = ent k l (cis b) l m.
Proof.
  intros [->| ->] Hm; rewrite ?ent_2, ?ent_4; unfold ent2, ent4, cis, wigner_dm0; cbn [fst snd].
  - do 5 (destruct m as [|m]; [wig; field|]); lia.
  - assert (E : 1 - sin b * sin b = cos b * cos b) by (pose proof (sin2_cos2 b); unfold Rsqr in *; lra).
    rewrite E. do 9 (destruct m as [|m]; [wig; field|]); lia.
Qed.
