(** Proofs that the two dimensional powder interpolation is exact: each cell gets the share of the amplitude that
    corresponds to the area of the triangle inside it. *)
From Coq Require Import ZArith QArith Qabs Bool List Lia Permutation Setoid Morphisms Qfield Reals Qreals Lra Psatz.
From Coquelicot Require Import Coquelicot.
From Verif Require Import InterpModel InterpSpec InterpProofs DeltaProofs Interp2DModel Interp2DSpec Interp2DProofs TentReal AreaSpec AreaProofs.
Import ListNotations.
Open Scope R_scope.

(** ** From rational to real numbers *)
Lemma Q2R_0 : Q2R 0 = 0. Proof. unfold Q2R. cbn. lra. Qed.
Lemma Q2R_1 : Q2R 1 = 1. Proof. unfold Q2R. cbn. lra. Qed.
Lemma Q2R_half : Q2R half = 1 / 2. Proof. unfold Q2R, half. cbn. lra. Qed.
Lemma Q2R_2 : Q2R (2 # 1) = 2. Proof. unfold Q2R. cbn. lra. Qed.
Lemma Q2R_zq k : Q2R (zq k) = IZR k. Proof. unfold Q2R, zq, inject_Z. cbn. lra. Qed.
Lemma Q2R_zqn n : Q2R (zqn n) = INR n. Proof. unfold zqn. rewrite Q2R_zq. symmetry. apply INR_IZR_INZ. Qed.
Lemma Q2R_Qabs x : Q2R (Qabs x) = Rabs (Q2R x).
Proof.
  destruct (Qlt_le_dec x 0) as [H|H].
  - rewrite (Qeq_eqR _ _ (Qabs_neg x (Qlt_le_weak _ _ H))), Q2R_opp. apply Qlt_Rlt in H. rewrite Q2R_0 in H. rewrite Rabs_left; auto.
  - rewrite (Qeq_eqR _ _ (Qabs_pos x H)). apply Qle_Rle in H. rewrite Q2R_0 in H. rewrite Rabs_pos_eq; auto.
Qed.
Lemma Q2R_frac x y : (~ y == 0)%Q -> Q2R (x / y) = Q2R x / Q2R y.
Proof. apply Q2R_div. Qed.
Lemma Q2R_ne0 y : (~ y == 0)%Q -> Q2R y <> 0.
Proof. intros H E. apply H. apply eqR_Qeq. rewrite E, Q2R_0. reflexivity. Qed.
Lemma ne0_Q y : Q2R y <> 0 -> (~ y == 0)%Q.
Proof. intros H E. apply H. rewrite (Qeq_eqR _ _ E). apply Q2R_0. Qed.
Ltac q2r := repeat progress rewrite ?Q2R_plus, ?Q2R_minus, ?Q2R_mult, ?Q2R_opp, ?Q2R_zq, ?Q2R_0, ?Q2R_1, ?Q2R_half, ?Q2R_2, ?Q2R_Qabs, ?Q2R_zqn.

(** ** The mass of a call below a line *)
Definition thin (c : call) : Prop := (Qabs (ya c - yb c) < TOL /\ Qabs (ya c - yc c) < TOL)%Q.
Definition below_line (e : R) (c : call) : R := Q2R (amount c) * tentS (Q2R (ya c)) (Q2R (yb c)) (Q2R (yc c)) e.
Fixpoint row_below (k : Z) (e : R) (cs : list call) : R :=
  match cs with [] => 0 | c :: cs => (if (row c =? k)%Z then below_line e c else 0) + row_below k e cs end.
Lemma row_below_app k e a b : row_below k e (a ++ b) = row_below k e a + row_below k e b.
Proof. induction a as [|c a IH]; cbn [app row_below]; [lra|]. rewrite IH. lra. Qed.

Lemma tent_Q2R a b c x : (a < c)%Q -> (a <= b)%Q -> (b <= c)%Q -> Q2R (tent_cdf a b c x) = tentR (Q2R a) (Q2R b) (Q2R c) (Q2R x).
Proof.
  intros H H0 H1. unfold tent_cdf, tentR.
  assert (N : (~ (c - a) == 0)%Q) by (intros E; apply (Qlt_irrefl a); apply Qlt_le_trans with c; auto; apply Qle_lteq; right; apply (Qplus_inj_r _ _ (- a)%Q); rewrite Qplus_opp_r; exact E).
  destruct (Qle_bool_spec x a) as [L|L].
  { apply Qle_Rle in L. destruct (Rle_dec (Q2R x) (Q2R a)); [apply Q2R_0|contradiction]. }
  apply Qnot_le_lt in L. apply Qlt_Rlt in L as L'. destruct (Rle_dec (Q2R x) (Q2R a)); [lra|].
  destruct (Qltb_spec x b) as [B|B].
  { apply Qlt_Rlt in B as B'. destruct (Rlt_dec (Q2R x) (Q2R b)); [|contradiction].
    apply Qlt_Rlt in H. rewrite Q2R_frac; [q2r; reflexivity|]. apply ne0_Q. q2r. apply Rmult_integral_contrapositive_currified; lra. }
  apply Qnot_lt_le in B. apply Qle_Rle in B as B'. destruct (Rlt_dec (Q2R x) (Q2R b)); [lra|].
  destruct (Qltb_spec x c) as [C|C].
  { apply Qlt_Rlt in C as C'. destruct (Rlt_dec (Q2R x) (Q2R c)); [|contradiction].
    apply Qlt_Rlt in H. rewrite Q2R_minus, Q2R_frac; [q2r; reflexivity|]. apply ne0_Q. q2r. apply Rmult_integral_contrapositive_currified; lra. }
  apply Qnot_lt_le in C. apply Qle_Rle in C. destruct (Rlt_dec (Q2R x) (Q2R c)); [lra|]. apply Q2R_1.
Qed.

Lemma tentS_perm a b c x y z e : Permutation [a; b; c] [x; y; z] -> tentS (Q2R a) (Q2R b) (Q2R c) e = tentS (Q2R x) (Q2R y) (Q2R z) e.
Proof.
  intros P. destruct (perm3 _ _ _ _ _ _ P) as [[? [? ?]]|[[? [? ?]]|[[? [? ?]]|[[? [? ?]]|[[? [? ?]]|[? [? ?]]]]]]]; subst.
  all: first [reflexivity | apply tentS_swap12 | apply tentS_swap23
    | rewrite tentS_swap12; apply tentS_swap23 | rewrite tentS_swap23; apply tentS_swap12
    | rewrite tentS_swap12, tentS_swap23; apply tentS_swap12].
Qed.

Lemma deposit_zero_amounts w k : List.Forall (fun a => (snd a == 0)%Q) w -> (deposit w k == 0)%Q.
Proof.
  induction 1 as [|[i v] w H _ IH]; [reflexivity|]. rewrite deposit_cons, IH. cbn [snd] in H. destruct (i =? k)%Z; [rewrite H|]; reflexivity.
Qed.
Lemma delta_zero_amount f m k amp : (amp == 0)%Q -> (deposit (delta_fn f m amp) k == 0)%Q.
Proof.
  intros E. apply deposit_zero_amounts. unfold delta_fn. destruct (_ || _); [constructor|]. cbv zeta.
  destruct (Qltb _ TOL); [repeat constructor; exact E|].
  destruct (Qltb _ half); [destruct (negb _); repeat constructor; cbn [snd]; rewrite E; ring|].
  destruct (Qltb half _); [destruct (negb _); repeat constructor; cbn [snd]; rewrite E; ring|constructor].
Qed.

Definition column_ok (q : Z) (c : call) : Prop := (0 < q)%Z \/ (q = 0%Z /\ (0 <= ya c)%Q /\ (0 <= yb c)%Q /\ (0 <= yc c)%Q).

Lemma call_below m1 c q : (q < m1)%Z -> column_ok q c -> (amount c == 0)%Q \/ ~ thin c ->
  Q2R (call_deposit m1 c q) = below_line (IZR q + 1) c - below_line (IZR q) c.
Proof.
  intros Hq Hc H. unfold call_deposit, triangle_interpolation.
  destruct (Qltb_spec (Qabs (ya c - yb c)) TOL) as [T1|T1]; [destruct (Qltb_spec (Qabs (ya c - yc c)) TOL) as [T2|T2]|]; cbn [andb].
  1:{ destruct H as [H|H]; [|exfalso; apply H; split; auto].
      rewrite (Qeq_eqR _ _ (delta_zero_amount _ _ _ _ H)). unfold below_line. rewrite (Qeq_eqR _ _ H), !Q2R_0. lra. }
  all: clear H.
  all: pose proof (sort3_spec (ya c) (yb c) (yc c)) as S; destruct (sort3 (ya c) (yb c) (yc c)) as [[x y] z]; destruct S as [S1 [S2 S3]].
  all: assert (X : (x < z)%Q).
  1,3: destruct (Qlt_le_dec x z) as [X|X]; [exact X|exfalso].
  1,2: assert (F : forall t, In t [ya c; yb c; yc c] -> (t == x)%Q)
    by (intros t Ht; apply (Permutation_in _ S3) in Ht; destruct Ht as [<-|[<-|[<-|[]]]]; [reflexivity| |]; apply Qle_antisym; eauto using Qle_trans).
  { apply T2. rewrite (F (ya c)), (F (yc c)) by (cbn; auto). setoid_replace (x - x)%Q with 0%Q by ring. reflexivity. }
  { apply T1. rewrite (F (ya c)), (F (yb c)) by (cbn; auto). setoid_replace (x - x)%Q with 0%Q by ring. reflexivity. }
  all: assert (X0 : exact_bin x q).
  1,3: destruct Hc as [Hc|[Hc [A [B C]]]]; [left; exact Hc|right; split; [exact Hc|]].
  1,2: assert (I : In x [ya c; yb c; yc c]) by (apply (Permutation_in _ (Permutation_sym S3)); cbn; auto).
  1,2: destruct I as [<-|[<-|[<-|[]]]]; assumption.
  all: rewrite (Qeq_eqR _ _ (triangle_exact_sorted _ _ _ x y z (amount c) m1 q S3 S1 S2 X X0 Hq)), Q2R_mult, Q2R_minus, !tent_Q2R by assumption.
  all: unfold below_line; rewrite !(tentS_perm _ _ _ _ _ _ _ S3), !tentS_123 by (apply Qle_Rle; assumption).
  all: q2r; ring.
Qed.

Lemma row_cell m1 cs k q : (0 <= q < m1)%Z ->
  (forall c, In c cs -> row c = k -> column_ok q c /\ ((amount c == 0)%Q \/ ~ thin c)) ->
  Q2R (cell (flat_map (call_writes m1) cs) m1 k q) = row_below k (IZR q + 1) cs - row_below k (IZR q) cs.
Proof.
  intros Hq H. rewrite (Qeq_eqR _ _ (calls_cell m1 cs k q Hq)).
  induction cs as [|c cs IH]; [cbn; rewrite Q2R_0; lra|]. cbn [map qsum fold_right row_below]. fold (qsum (map (fun c => if (row c =? k)%Z then call_deposit m1 c q else 0%Q) cs)).
  rewrite Q2R_plus, IH by (intros c' Hc'; apply H; cbn; auto). destruct (Z.eqb_spec (row c) k) as [E|E].
  - destruct (H c ltac:(cbn; auto) E) as [A B]. rewrite call_below by (auto; lia). lra.
  - rewrite Q2R_0. lra.
Qed.

(** Calls on a triangle narrower than TOL are put down by the delta rule instead: the amplitude involved. *)
Definition thinb (c : call) : bool := Qltb (Qabs (ya c - yb c)) TOL && Qltb (Qabs (ya c - yc c)) TOL.
Fixpoint row_thin (k : Z) (cs : list call) : R :=
  match cs with [] => 0 | c :: cs => (if (row c =? k)%Z && thinb c then Rabs (Q2R (amount c)) else 0) + row_thin k cs end.
Lemma row_thin_app k a b : row_thin k (a ++ b) = row_thin k a + row_thin k b.
Proof. induction a as [|c a IH]; cbn [app row_thin]; [lra|]. rewrite IH. lra. Qed.
Lemma row_thin_none k cs : List.Forall (fun c => row c <> k) cs -> row_thin k cs = 0.
Proof. induction 1 as [|c cs H _ IH]; cbn [row_thin]; auto. destruct (Z.eqb_spec (row c) k); [contradiction|]. cbn [andb]. rewrite IH. lra. Qed.
Lemma thin_gap c : thinb c = true -> Rabs (Q2R (ya c) - Q2R (yb c)) <= 2 * Q2R TOL /\ Rabs (Q2R (ya c) - Q2R (yc c)) <= 2 * Q2R TOL /\ Rabs (Q2R (yb c) - Q2R (yc c)) <= 2 * Q2R TOL.
Proof.
  unfold thinb. intros H. apply andb_prop in H. destruct H as [H1 H2].
  destruct (Qltb_spec (Qabs (ya c - yb c)) TOL) as [T1|]; [|discriminate]. destruct (Qltb_spec (Qabs (ya c - yc c)) TOL) as [T2|]; [|discriminate].
  apply Qlt_Rlt in T1, T2. revert T1 T2. q2r. intros T1 T2.
  pose proof (Rabs_pos (Q2R (ya c) - Q2R (yb c))). split; [lra|]. split; [lra|].
  replace (Q2R (yb c) - Q2R (yc c)) with (- (Q2R (ya c) - Q2R (yb c)) + (Q2R (ya c) - Q2R (yc c))) by ring.
  eapply Rle_trans; [apply Rabs_triang|]. rewrite Rabs_Ropp. lra.
Qed.

Lemma scale_abs a r : -1 <= r <= 1 -> Rabs (a * r) <= Rabs a.
Proof. intros H. rewrite Rabs_mult. pose proof (Rabs_pos a). assert (Rabs r <= 1) by (apply Rabs_le; lra). nra. Qed.
Lemma delta_share f m amp k : Rabs (Q2R (deposit (delta_fn f m amp) k)) <= Rabs (Q2R amp).
Proof.
  pose proof (Rabs_pos (Q2R amp)) as A0.
  unfold delta_fn. destruct (Z.ltb_spec (trunc f) 0) as [P0|P0]; [rewrite orb_true_r, deposit_nil, Q2R_0, Rabs_R0; auto|].
  destruct (_ || _); [rewrite deposit_nil, Q2R_0, Rabs_R0; auto|]. cbv zeta.
  set (p := trunc f). set (d := (f - zq p)%Q).
  assert (D : -1 < Q2R d < 1).
  { unfold d, p. destruct (Qlt_le_dec f 0) as [F|F].
    - destruct (trunc_neg f (Qlt_le_weak _ _ F)) as [A [B _]]. apply Qle_Rle in A; apply Qlt_Rlt in B; revert A B; q2r; lra.
    - destruct (trunc_nonneg f F) as [A [B _]]. apply Qle_Rle in A; apply Qlt_Rlt in B; revert A B; q2r; lra. }
  assert (Z : Rabs (Q2R 0) <= Rabs (Q2R amp)) by (rewrite Q2R_0, Rabs_R0; auto).
  assert (S : forall t, -1 <= Q2R t <= 1 -> Rabs (Q2R (amp * t)) <= Rabs (Q2R amp)) by (intros t Ht; rewrite Q2R_mult; apply scale_abs; auto).
  assert (One : forall i v, Rabs (Q2R v) <= Rabs (Q2R amp) -> Rabs (Q2R (deposit [(i, v)] k)) <= Rabs (Q2R amp)).
  { intros i v Hv. unfold deposit. cbn [fold_right fst snd]. destruct (i =? k)%Z; auto. rewrite Q2R_plus, Q2R_0, Rplus_0_r. auto. }
  assert (Two : forall i j v w, (i <> j)%Z -> Rabs (Q2R v) <= Rabs (Q2R amp) -> Rabs (Q2R w) <= Rabs (Q2R amp) -> Rabs (Q2R (deposit [(i, v); (j, w)] k)) <= Rabs (Q2R amp)).
  { intros i j v w N Hv Hw. unfold deposit. cbn [fold_right fst snd]. destruct (Z.eqb_spec i k), (Z.eqb_spec j k); try lia; auto; rewrite Q2R_plus, Q2R_0, Rplus_0_r; auto. }
  destruct (Qltb _ TOL); [apply One; lra|].
  destruct (Qltb_spec d half) as [E|E].
  - apply Qlt_Rlt in E. rewrite Q2R_half in E. assert (S1 : Rabs (Q2R (amp * (half + d))) <= Rabs (Q2R amp)) by (apply S; q2r; lra).
    destruct (Z.eqb_spec p 0) as [PZ|PZ]; cbn [negb app]; [apply One; exact S1|].
    assert (P : 0 <= Q2R d).
    { unfold d. destruct (Qlt_le_dec f 0) as [F|F].
      - exfalso. destruct (trunc_neg f (Qlt_le_weak _ _ F)) as [_ [_ A]]. unfold p in *. lia.
      - destruct (trunc_nonneg f F) as [A _]. apply Qle_Rle in A. revert A. q2r. unfold p. lra. }
    apply Two; auto; [lia|apply S; q2r; lra].
  - apply Qnot_lt_le, Qle_Rle in E. rewrite Q2R_half in E. assert (S1 : Rabs (Q2R (amp * (1 + half - d))) <= Rabs (Q2R amp)) by (apply S; q2r; lra).
    destruct (Qltb half d); [|rewrite deposit_nil; exact Z].
    destruct (negb _); cbn [app]; [|apply One; exact S1]. apply Two; auto; [lia|]. apply S; q2r; lra.
Qed.

Lemma tentR_range u v w x : u <= v -> v <= w -> 0 <= tentR u v w x <= 1.
Proof.
  intros H1 H2. unfold tentR. destruct (Rle_dec x u); [lra|]. destruct (Rlt_dec x v).
  - assert (D : 0 < (v - u) * (w - u)) by nra. split.
    + apply Rmult_le_pos; [nra|]. left. apply Rinv_0_lt_compat. nra.
    + apply (Rmult_le_reg_r ((w - u) * (v - u))); [nra|]. unfold Rdiv. rewrite Rmult_assoc, Rinv_l by nra. nra.
  - destruct (Rlt_dec x w); [|lra]. assert (D : 0 < (w - v) * (w - u)) by nra.
    assert (Q : 0 <= (w - x) * (w - x) / ((w - u) * (w - v)) <= 1).
    { split.
      + apply Rmult_le_pos; [nra|]. left. apply Rinv_0_lt_compat. nra.
      + apply (Rmult_le_reg_r ((w - u) * (w - v))); [nra|]. unfold Rdiv. rewrite Rmult_assoc, Rinv_l by nra. nra. }
    lra.
Qed.
Lemma tentS_range u v w x : 0 <= tentS u v w x <= 1.
Proof.
  unfold tentS. apply tentR_range; unfold Rmin, Rmax; repeat destruct (Rle_dec _ _); lra.
Qed.

Lemma call_close m1 c q : (q < m1)%Z -> column_ok q c ->
  Rabs (Q2R (call_deposit m1 c q) - (below_line (IZR q + 1) c - below_line (IZR q) c)) <= if thinb c then 2 * Rabs (Q2R (amount c)) else 0.
Proof.
  intros Hq Hc. destruct (thinb c) eqn:T.
  - unfold call_deposit, triangle_interpolation. unfold thinb in T. rewrite T. unfold below_line.
    set (tS := tentS (Q2R (ya c)) (Q2R (yb c)) (Q2R (yc c))).
    pose proof (tentS_range (Q2R (ya c)) (Q2R (yb c)) (Q2R (yc c)) (IZR q + 1)) as R1. pose proof (tentS_range (Q2R (ya c)) (Q2R (yb c)) (Q2R (yc c)) (IZR q)) as R2.
    fold tS in R1, R2.
    pose proof (delta_share (ya c) m1 (amount c) q) as S. pose proof (scale_abs (Q2R (amount c)) (tS (IZR q + 1) - tS (IZR q)) ltac:(lra)) as S2.
    eapply Rle_trans; [apply Rabs_triang|]. rewrite Rabs_Ropp, <- Rmult_minus_distr_l. lra.
  - rewrite call_below; auto; [rewrite Rminus_diag_eq, Rabs_R0 by reflexivity; lra|]. right. intros [H1 H2]. unfold thinb in T.
    destruct (Qltb_spec (Qabs (ya c - yb c)) TOL); [|contradiction]. destruct (Qltb_spec (Qabs (ya c - yc c)) TOL); [discriminate|contradiction].
Qed.
Lemma row_close m1 cs k q : (0 <= q < m1)%Z -> (forall c, In c cs -> row c = k -> column_ok q c) ->
  Rabs (Q2R (cell (flat_map (call_writes m1) cs) m1 k q) - (row_below k (IZR q + 1) cs - row_below k (IZR q) cs)) <= 2 * row_thin k cs.
Proof.
  intros Hq H. rewrite (Qeq_eqR _ _ (calls_cell m1 cs k q Hq)).
  induction cs as [|c cs IH]; [cbn; rewrite Q2R_0; rewrite Rminus_diag_eq, Rabs_R0 by lra; lra|].
  cbn [map qsum fold_right row_below row_thin]. fold (qsum (map (fun c => if (row c =? k)%Z then call_deposit m1 c q else 0%Q) cs)).
  specialize (IH (fun c' Hc' => H c' (or_intror Hc'))). rewrite Q2R_plus. destruct (Z.eqb_spec (row c) k) as [E|E]; cbn [andb].
  - pose proof (call_close m1 c q ltac:(lia) (H c (or_introl eq_refl) E)) as C.
    match goal with |- Rabs (?a + ?b - (?u + ?v - (?x + ?y))) <= _ => replace (a + b - (u + v - (x + y))) with ((a - (u - x)) + (b - (v - y))) by ring end.
    eapply Rle_trans; [apply Rabs_triang|]. destruct (thinb c); lra.
  - rewrite Q2R_0. match goal with |- Rabs ?a <= _ => match type of IH with Rabs ?b <= _ => replace a with b by ring end end. lra.
Qed.

(** ** Sections *)
Lemma tent_difference_all u v w c : (w - v) * tentS u v w c / 2 = mean_pos (c - u) (c - v) - mean_pos (c - u) (c - w).
Proof.
  destruct (Req_EM_T u v) as [E|E]; [destruct (Req_EM_T v w) as [F|F]|].
  - subst. lra.
  - symmetry. apply tent_difference. tauto.
  - symmetry. apply tent_difference. tauto.
Qed.

Section Exact.
Variables (x0 y0 x1 y1 x2 y2 amp : Q).
Hypothesis H01 : (x0 <= x1)%Q.
Hypothesis H12 : (x1 <= x2)%Q.
Hypothesis H02 : (x0 < x2)%Q.
Local Notation X0 := (Q2R x0). Local Notation Y0 := (Q2R y0).
Local Notation X1 := (Q2R x1). Local Notation Y1 := (Q2R y1).
Local Notation X2 := (Q2R x2). Local Notation Y2 := (Q2R y2).
Local Notation L := (edge X0 Y0 X2 Y2).
Local Notation h := (height X0 Y0 X1 Y1 X2 Y2).
Local Notation sg := (sgn X0 Y0 X1 Y1 X2 Y2).
Local Notation up_line := (rise X0 Y0 X1 Y1 X2 Y2).
Local Notation down_line := (fall X0 Y0 X1 Y1 X2 Y2).
Local Notation strip' := (strip X0 Y0 X1 Y1 X2 Y2).
Hypothesis Hh : h <> 0.
(** The amplitude per area. *)
Definition density : R := 2 * Q2R amp / ((X2 - X0) * (sg * h)).
Local Notation K := density.

Lemma R01 : X0 <= X1. Proof. apply Qle_Rle; exact H01. Qed.
Lemma R12 : X1 <= X2. Proof. apply Qle_Rle; exact H12. Qed.
Lemma R02 : X0 < X2. Proof. apply Qlt_Rlt; exact H02. Qed.
Lemma sgh : 0 < sg * h.
Proof. unfold sgn. destruct (Rle_dec 0 h); [|lra]. destruct (Req_EM_T h 0); [contradiction|lra]. Qed.
Lemma sg_sq : sg * sg = 1.
Proof. unfold sgn. destruct (Rle_dec 0 h); ring. Qed.
Lemma abs_h r : 0 <= r -> Rabs (r * h) = r * (sg * h).
Proof. intros H. rewrite Rabs_mult, (Rabs_pos_eq r) by auto. f_equal. unfold sgn. destruct (Rle_dec 0 h); [rewrite Rabs_pos_eq|rewrite Rabs_left]; lra. Qed.

Lemma section_row k e p y00 y01 y10 y11 up down denom v a b Ma La Mb Lb :
  Q2R y00 = Ma -> Q2R y01 = La -> Q2R y10 = Mb -> Q2R y11 = Lb ->
  Q2R up = sg * (Ma - La) -> Q2R down = sg * (Mb - Lb) -> Q2R denom = Q2R up + Q2R down -> Q2R denom <> 0 ->
  Q2R v = K * (b - a) / 2 * (Q2R up + Q2R down) ->
  row_below k e (section p y00 y01 y10 y11 up down denom v) = if (p =? k)%Z then K * strip' La Lb Ma Mb a b e else 0.
Proof.
  intros E0 E1 E2 E3 U D N Z V. unfold section.
  destruct (Qeq_bool denom 0) eqn:B.
  { exfalso. apply Z. apply Qeq_bool_iff in B. rewrite (Qeq_eqR _ _ B). apply Q2R_0. }
  assert (NQ : (~ denom == 0)%Q) by (apply ne0_Q; auto).
  cbn [row_below row]. destruct (p =? k)%Z; [|lra]. unfold below_line. cbn [ya yb yc amount]. rewrite !Q2R_mult, !Q2R_frac by auto.
  rewrite E0, E1, E2, E3, V, <- N.
  pose proof (tent_difference_all Ma Lb Mb e) as T1. pose proof (tent_difference_all Lb La Ma e) as T2.
  replace (tentS Lb La Ma e) with (tentS Ma Lb La e) in T2 by (rewrite (tentS_swap12 Ma Lb La), (tentS_swap23 Lb Ma La); reflexivity).
  rewrite (mean_pos_sym (e - Lb) (e - La)), (mean_pos_sym (e - Lb) (e - Ma)) in T2.
  unfold strip.
  transitivity (K * (b - a) * (Q2R down * tentS Ma Lb Mb e / 2 + Q2R up * tentS Ma Lb La e / 2)); [field; auto|].
  rewrite U, D.
  transitivity (K * (b - a) * sg * ((Mb - Lb) * tentS Ma Lb Mb e / 2 + (Ma - La) * tentS Ma Lb La e / 2)); [field|].
  rewrite T1, T2. ring.
Qed.

(** A single triangle that starts in a point (Ma = La) or ends in one (Mb = Lb). *)
Lemma start_row e p ya yb yc v a b Ma La Mb Lb : Ma = La ->
  Q2R ya = Ma -> Q2R yb = Lb -> Q2R yc = Mb -> Q2R v = K * (b - a) / 2 * (sg * (Mb - Lb)) ->
  below_line e (Call p ya yb yc v) = K * strip' La Lb Ma Mb a b e.
Proof.
  intros E0 E1 E2 E3 V. unfold below_line. cbn [Interp2DModel.ya Interp2DModel.yb Interp2DModel.yc amount]. rewrite E1, E2, E3, V.
  pose proof (tent_difference_all Ma Lb Mb e) as T1. unfold strip.
  transitivity (K * (b - a) * sg * ((Mb - Lb) * tentS Ma Lb Mb e / 2)); [field|]. rewrite T1. subst La. ring.
Qed.
Lemma end_row e p ya yb yc v a b Ma La Mb Lb : Mb = Lb ->
  Q2R ya = Ma -> Q2R yb = Lb -> Q2R yc = La -> Q2R v = K * (b - a) / 2 * (sg * (Ma - La)) ->
  below_line e (Call p ya yb yc v) = K * strip' La Lb Ma Mb a b e.
Proof.
  intros E0 E1 E2 E3 V. unfold below_line. cbn [Interp2DModel.ya Interp2DModel.yb Interp2DModel.yc amount]. rewrite E1, E2, E3, V.
  pose proof (tent_difference_all Lb La Ma e) as T2.
  replace (tentS Lb La Ma e) with (tentS Ma Lb La e) in T2 by (rewrite (tentS_swap12 Ma Lb La), (tentS_swap23 Lb Ma La); reflexivity).
  rewrite (mean_pos_sym (e - Lb) (e - La)), (mean_pos_sym (e - Lb) (e - Ma)) in T2. unfold strip.
  transitivity (K * (b - a) * sg * ((Ma - La) * tentS Ma Lb La e / 2)); [field|]. rewrite T2. subst Mb. ring.
Qed.

(** The amplitude of the thin calls. *)
Definition thin_bound : R := Rabs K * Q2R TOL.
Lemma thin_bound_nonneg : 0 <= thin_bound.
Proof. unfold thin_bound. apply Rmult_le_pos; [apply Rabs_pos|]. unfold TOL, Q2R. cbn. lra. Qed.
Lemma thin_amount c a b g : 0 <= b - a <= 1 -> Q2R (amount c) = K * (b - a) / 2 * g ->
  Rabs g <= Rabs (Q2R (ya c) - Q2R (yb c)) \/ Rabs g <= Rabs (Q2R (ya c) - Q2R (yc c)) \/ Rabs g <= Rabs (Q2R (yb c) - Q2R (yc c)) ->
  (if thinb c then Rabs (Q2R (amount c)) else 0) <= thin_bound.
Proof.
  intros W V G. destruct (thinb c) eqn:T; [|apply thin_bound_nonneg]. destruct (thin_gap c T) as [T1 [T2 T3]].
  assert (Hg : Rabs g <= 2 * Q2R TOL) by (destruct G as [G|[G|G]]; lra).
  rewrite V. unfold thin_bound. replace (K * (b - a) / 2 * g) with (K * ((b - a) * (g / 2))) by field. rewrite Rabs_mult. apply Rmult_le_compat_l; [apply Rabs_pos|].
  rewrite Rabs_mult, (Rabs_pos_eq (b - a)) by lra. assert (E : Rabs (g / 2) = Rabs g / 2).
  { unfold Rdiv. rewrite Rabs_mult. f_equal. apply Rabs_pos_eq. lra. }
  rewrite E. pose proof (Rabs_pos g). nra.
Qed.
Lemma sg_abs x : Rabs (sg * x) = Rabs x.
Proof. unfold sgn. destruct (Rle_dec 0 h); rewrite Rabs_mult; [rewrite Rabs_R1|rewrite (Rabs_left (-1)) by lra]; ring. Qed.

Lemma section_thin k p y00 y01 y10 y11 up down denom v a b Ma La Mb Lb :
  Q2R y00 = Ma -> Q2R y01 = La -> Q2R y10 = Mb -> Q2R y11 = Lb ->
  Q2R up = sg * (Ma - La) -> Q2R down = sg * (Mb - Lb) -> Q2R denom = Q2R up + Q2R down -> Q2R denom <> 0 ->
  Q2R v = K * (b - a) / 2 * (Q2R up + Q2R down) -> 0 <= b - a <= 1 ->
  row_thin k (section p y00 y01 y10 y11 up down denom v) <= if (p =? k)%Z then 2 * thin_bound else 0.
Proof.
  intros E0 E1 E2 E3 U D N Z V W. unfold section.
  destruct (Qeq_bool denom 0) eqn:B.
  { exfalso. apply Z. apply Qeq_bool_iff in B. rewrite (Qeq_eqR _ _ B). apply Q2R_0. }
  assert (NQ : (~ denom == 0)%Q) by (apply ne0_Q; auto).
  cbn [row_thin row]. destruct (p =? k)%Z; cbn [andb]; [|lra].
  pose proof (thin_amount (Call p y00 y11 y10 (down / denom * v)) a b (Q2R down) W) as T1. cbn [amount] in T1.
  pose proof (thin_amount (Call p y00 y11 y01 (up / denom * v)) a b (Q2R up) W) as T2. cbn [amount] in T2.
  cbn [Interp2DModel.ya Interp2DModel.yb Interp2DModel.yc amount] in *.
  lapply T1; clear T1; [intros T1|rewrite Q2R_mult, Q2R_frac, V, <- N by auto; field; auto].
  lapply T1; clear T1; [intros T1|right; right; rewrite D, sg_abs, E2, E3, Rabs_minus_sym; lra].
  lapply T2; clear T2; [intros T2|rewrite Q2R_mult, Q2R_frac, V, <- N by auto; field; auto].
  lapply T2; clear T2; [intros T2|right; left; rewrite U, sg_abs, E0, E1; lra].
  lra.
Qed.
Lemma start_thin p ya yb yc v a b Mb Lb : Q2R yb = Lb -> Q2R yc = Mb -> Q2R v = K * (b - a) / 2 * (sg * (Mb - Lb)) -> 0 <= b - a <= 1 ->
  (if thinb (Call p ya yb yc v) then Rabs (Q2R v) else 0) <= 2 * thin_bound.
Proof.
  intros E2 E3 V W. pose proof (thin_amount (Call p ya yb yc v) a b (sg * (Mb - Lb)) W V) as T. cbn [Interp2DModel.ya Interp2DModel.yb Interp2DModel.yc amount] in T.
  pose proof thin_bound_nonneg. lapply T; [lra|]. right; right. rewrite sg_abs, E2, E3, Rabs_minus_sym. lra.
Qed.
Lemma end_thin p ya yb yc v a b Ma La : Q2R ya = Ma -> Q2R yc = La -> Q2R v = K * (b - a) / 2 * (sg * (Ma - La)) -> 0 <= b - a <= 1 ->
  (if thinb (Call p ya yb yc v) then Rabs (Q2R v) else 0) <= 2 * thin_bound.
Proof.
  intros E2 E3 V W. pose proof (thin_amount (Call p ya yb yc v) a b (sg * (Ma - La)) W V) as T. cbn [Interp2DModel.ya Interp2DModel.yb Interp2DModel.yc amount] in T.
  pose proof thin_bound_nonneg. lapply T; [lra|]. right; left. rewrite sg_abs, E2, E3. lra.
Qed.

(** Whole rows between two lines M and N. *)
Lemma rows_row k e (M N : R -> R) n : forall p diff df s1 s2 step y10 y11 up down denom,
  (forall x, M (x + 1) = M x + Q2R s1) -> (forall x, N (x + 1) = N x + Q2R s2) ->
  Q2R y10 = M (IZR p) -> Q2R y11 = N (IZR p) ->
  Q2R up = sg * (M (IZR p) - N (IZR p)) -> Q2R down = sg * (M (IZR p + 1) - N (IZR p + 1)) -> Q2R denom = Q2R up + Q2R down ->
  Q2R step = sg * (Q2R s1 - Q2R s2) -> Q2R df = K * Q2R step -> Q2R diff + Q2R df = K / 2 * (Q2R up + Q2R down) ->
  (forall i, (i < n)%nat -> Q2R up + Q2R down + 2 * INR i * Q2R step <> 0) ->
  row_below k e (fst (rows n p diff df s1 s2 step y10 y11 up down denom)) =
    if (p <=? k)%Z && (k <? p + Z.of_nat n)%Z then K * strip' (N (IZR k)) (N (IZR k + 1)) (M (IZR k)) (M (IZR k + 1)) (IZR k) (IZR k + 1) e else 0.
Proof.
  induction n as [|n IH]; intros p diff df s1 s2 step y10 y11 up down denom HM HN E1 E2 U D Z S F V NZ.
  - cbn [rows fst row_below]. destruct (Z.leb_spec p k), (Z.ltb_spec k (p + Z.of_nat 0)); cbn [andb]; try reflexivity. lia.
  - cbn [rows]. cbv zeta.
    specialize (IH (p + 1)%Z (diff + df)%Q df s1 s2 step (y10 + s1)%Q (y11 + s2)%Q (up + step)%Q (down + step)%Q (denom + 2 * step)%Q HM HN).
    destruct (rows n _ _ _ _ _ _ _ _ _ _ _) as [cs r]. cbn [fst] in *. rewrite row_below_app.
    assert (P1 : IZR (p + 1) = IZR p + 1) by (rewrite plus_IZR; reflexivity).
    rewrite IH.
    + rewrite (section_row k e p y10 y11 (y10 + s1)%Q (y11 + s2)%Q up down denom (diff + df)%Q (IZR p) (IZR p + 1)
                 (M (IZR p)) (N (IZR p)) (M (IZR p + 1)) (N (IZR p + 1))); auto.
      * destruct (Z.eqb_spec p k) as [E|E].
        { subst k. destruct (Z.leb_spec (p + 1) p); [lia|]. cbn [andb].
          destruct (Z.leb_spec p p), (Z.ltb_spec p (p + Z.of_nat (Datatypes.S n))); cbn [andb]; try lia. lra. }
        destruct (Z.leb_spec (p + 1) k), (Z.ltb_spec k (p + 1 + Z.of_nat n)), (Z.leb_spec p k), (Z.ltb_spec k (p + Z.of_nat (Datatypes.S n))); cbn [andb]; try lia; lra.
      * q2r. rewrite HM. lra.
      * q2r. rewrite HN. lra.
      * specialize (NZ 0%nat ltac:(lia)). cbn [INR] in NZ. lra.
      * q2r. lra.
    + q2r. rewrite P1, HM. lra.
    + q2r. rewrite P1, HN. lra.
    + q2r. rewrite P1, HM, HN, U, S. ring.
    + q2r. rewrite P1, !HM, !HN, D, S, HM, HN. ring.
    + q2r. replace (Q2R 2) with 2 by (unfold Q2R; cbn; lra). lra.
    + exact S.
    + exact F.
    + q2r. rewrite F in *. lra.
    + intros i Hi. specialize (NZ (Datatypes.S i) ltac:(lia)). rewrite S_INR in NZ. q2r. lra.
Qed.

Lemma rows_thin k (M N : R -> R) n : forall p diff df s1 s2 step y10 y11 up down denom,
  (forall x, M (x + 1) = M x + Q2R s1) -> (forall x, N (x + 1) = N x + Q2R s2) ->
  Q2R y10 = M (IZR p) -> Q2R y11 = N (IZR p) ->
  Q2R up = sg * (M (IZR p) - N (IZR p)) -> Q2R down = sg * (M (IZR p + 1) - N (IZR p + 1)) -> Q2R denom = Q2R up + Q2R down ->
  Q2R step = sg * (Q2R s1 - Q2R s2) -> Q2R df = K * Q2R step -> Q2R diff + Q2R df = K / 2 * (Q2R up + Q2R down) ->
  (forall i, (i < n)%nat -> Q2R up + Q2R down + 2 * INR i * Q2R step <> 0) ->
  row_thin k (fst (rows n p diff df s1 s2 step y10 y11 up down denom)) <= if (p <=? k)%Z && (k <? p + Z.of_nat n)%Z then 2 * thin_bound else 0.
Proof.
  induction n as [|n IH]; intros p diff df s1 s2 step y10 y11 up down denom HM HN E1 E2 U D Z S F V NZ.
  - cbn [rows fst row_thin]. destruct (Z.leb_spec p k), (Z.ltb_spec k (p + Z.of_nat 0)); cbn [andb]; try lia; lra.
  - cbn [rows]. cbv zeta.
    specialize (IH (p + 1)%Z (diff + df)%Q df s1 s2 step (y10 + s1)%Q (y11 + s2)%Q (up + step)%Q (down + step)%Q (denom + 2 * step)%Q HM HN).
    destruct (rows n _ _ _ _ _ _ _ _ _ _ _) as [cs r]. cbn [fst] in *. rewrite row_thin_app.
    assert (P1 : IZR (p + 1) = IZR p + 1) by (rewrite plus_IZR; reflexivity).
    lapply IH; clear IH; [intros IH|].
    lapply IH; clear IH; [intros IH|].
    lapply IH; clear IH; [intros IH|].
    lapply IH; clear IH; [intros IH|].
    lapply IH; clear IH; [intros IH|].
    lapply IH; clear IH; [intros IH|].
    lapply IH; clear IH; [intros IH|].
    lapply IH; clear IH; [intros IH|].
    lapply IH; clear IH; [intros IH|].
    + eapply Rle_trans; [apply Rplus_le_compat; [|exact IH]; apply (section_thin k p y10 y11 (y10 + s1)%Q (y11 + s2)%Q up down denom (diff + df)%Q (IZR p) (IZR p + 1)
                 (M (IZR p)) (N (IZR p)) (M (IZR p + 1)) (N (IZR p + 1))); auto|].
      * q2r. rewrite HM. lra.
      * q2r. rewrite HN. lra.
      * specialize (NZ 0%nat ltac:(lia)). cbn [INR] in NZ. lra.
      * q2r. lra.
      * lra.
      * destruct (Z.eqb_spec p k), (Z.leb_spec (p + 1) k), (Z.ltb_spec k (p + 1 + Z.of_nat n)), (Z.leb_spec p k), (Z.ltb_spec k (p + Z.of_nat (Datatypes.S n))); cbn [andb]; try lia; lra.
    + intros i Hi. specialize (NZ (Datatypes.S i) ltac:(lia)). rewrite S_INR in NZ. q2r. lra.
    + q2r. rewrite F in *. lra.
    + exact F.
    + exact S.
    + q2r. replace (Q2R 2) with 2 by (unfold Q2R; cbn; lra). lra.
    + q2r. rewrite P1, !HM, !HN, D, S, HM, HN. ring.
    + q2r. rewrite P1, HM, HN, U, S. ring.
    + q2r. rewrite P1, HN. lra.
    + q2r. rewrite P1, HM. lra.
Qed.

Lemma section_both k e p y00 y01 y10 y11 up down denom v a b Ma La Mb Lb :
  Q2R y00 = Ma -> Q2R y01 = La -> Q2R y10 = Mb -> Q2R y11 = Lb ->
  Q2R up = sg * (Ma - La) -> Q2R down = sg * (Mb - Lb) -> Q2R denom = Q2R up + Q2R down -> Q2R denom <> 0 ->
  Q2R v = K * (b - a) / 2 * (Q2R up + Q2R down) -> 0 <= b - a <= 1 ->
  row_below k e (section p y00 y01 y10 y11 up down denom v) = (if (p =? k)%Z then K * strip' La Lb Ma Mb a b e else 0) /\
  row_thin k (section p y00 y01 y10 y11 up down denom v) <= (if (p =? k)%Z then 2 * thin_bound else 0).
Proof. intros. split; [apply section_row|eapply section_thin]; eauto. Qed.
Lemma start_both k e p ya yb yc v a b Ma La Mb Lb : Ma = La ->
  Q2R ya = Ma -> Q2R yb = Lb -> Q2R yc = Mb -> Q2R v = K * (b - a) / 2 * (sg * (Mb - Lb)) -> 0 <= b - a <= 1 ->
  row_below k e [Call p ya yb yc v] = (if (p =? k)%Z then K * strip' La Lb Ma Mb a b e else 0) /\
  row_thin k [Call p ya yb yc v] <= (if (p =? k)%Z then 2 * thin_bound else 0).
Proof.
  intros. cbn [row_below row_thin row amount]. destruct (p =? k)%Z; cbn [andb]; [|lra]. rewrite !Rplus_0_r.
  split; [apply start_row|eapply start_thin]; eauto.
Qed.
Lemma end_both k e p ya yb yc v a b Ma La Mb Lb : Mb = Lb ->
  Q2R ya = Ma -> Q2R yb = Lb -> Q2R yc = La -> Q2R v = K * (b - a) / 2 * (sg * (Ma - La)) -> 0 <= b - a <= 1 ->
  row_below k e [Call p ya yb yc v] = (if (p =? k)%Z then K * strip' La Lb Ma Mb a b e else 0) /\
  row_thin k [Call p ya yb yc v] <= (if (p =? k)%Z then 2 * thin_bound else 0).
Proof.
  intros. cbn [row_below row_thin row amount]. destruct (p =? k)%Z; cbn [andb]; [|lra]. rewrite !Rplus_0_r.
  split; [apply end_row|eapply end_thin]; eauto.
Qed.
Lemma rows_both k e (M N : R -> R) n p diff df s1 s2 step y10 y11 up down denom :
  (forall x, M (x + 1) = M x + Q2R s1) -> (forall x, N (x + 1) = N x + Q2R s2) ->
  Q2R y10 = M (IZR p) -> Q2R y11 = N (IZR p) ->
  Q2R up = sg * (M (IZR p) - N (IZR p)) -> Q2R down = sg * (M (IZR p + 1) - N (IZR p + 1)) -> Q2R denom = Q2R up + Q2R down ->
  Q2R step = sg * (Q2R s1 - Q2R s2) -> Q2R df = K * Q2R step -> Q2R diff + Q2R df = K / 2 * (Q2R up + Q2R down) ->
  (forall i, (i < n)%nat -> Q2R up + Q2R down + 2 * INR i * Q2R step <> 0) ->
  row_below k e (fst (rows n p diff df s1 s2 step y10 y11 up down denom)) =
    (if (p <=? k)%Z && (k <? p + Z.of_nat n)%Z then K * strip' (N (IZR k)) (N (IZR k + 1)) (M (IZR k)) (M (IZR k + 1)) (IZR k) (IZR k + 1) e else 0) /\
  row_thin k (fst (rows n p diff df s1 s2 step y10 y11 up down denom)) <= (if (p <=? k)%Z && (k <? p + Z.of_nat n)%Z then 2 * thin_bound else 0).
Proof. intros. split; [apply rows_row|apply (rows_thin k M N)]; auto. Qed.

Local Notation s02 := ((y2 - y0) / (x2 - x0))%Q.
Local Notation top := (amp * (2 # 1) / (x2 - x0))%Q.
Local Notation s01 := ((y1 - y0) / (x1 - x0))%Q.
Local Notation s12 := ((y2 - y1) / (x2 - x1))%Q.

Lemma lt_ne a b : (a < b)%Q -> (~ b - a == 0)%Q.
Proof. intros H. apply ne0_Q. apply Qlt_Rlt in H. q2r. lra. Qed.
Lemma top_R : Q2R top = K * (sg * h).
Proof. rewrite Q2R_frac by (apply lt_ne; auto). q2r. unfold density. pose proof sgh. pose proof R02. pose proof sg_sq. field. repeat split; try lra; try exact Hh; intros E; rewrite E in *; lra. Qed.
Lemma edge_R x : L x = Q2R s02 * (x - X0) + Y0.
Proof. rewrite Q2R_frac by (apply lt_ne; auto). q2r. unfold edge. ring. Qed.
Lemma rise_R x : X0 < X1 -> up_line x = Q2R s01 * (x - X0) + Y0.
Proof.
  intros H. assert (H' : (x0 < x1)%Q) by (apply Rlt_Qlt; auto). rewrite Q2R_frac by (apply lt_ne; auto). q2r. pose proof R02. unfold rise, height, edge. field. split; lra.
Qed.
Lemma fall_R x : X1 < X2 -> down_line x = Q2R s12 * (x - X1) + Y1.
Proof.
  intros H. assert (H' : (x1 < x2)%Q) by (apply Rlt_Qlt; auto). rewrite Q2R_frac by (apply lt_ne; auto). q2r. pose proof R02. unfold fall, height, edge. field. split; lra.
Qed.
Lemma rise_gap x : sg * (up_line x - L x) = (x - X0) / (X1 - X0) * (sg * h).
Proof. unfold rise. ring. Qed.
Lemma fall_gap x : sg * (down_line x - L x) = (X2 - x) / (X2 - X1) * (sg * h).
Proof. unfold fall. ring. Qed.
Lemma gap_abs u v w : 0 <= w -> v - u = w * h \/ u - v = w * h -> Rabs (u - v) = w * (sg * h).
Proof.
  intros W [E|E]; [rewrite Rabs_minus_sym|]; rewrite E; apply abs_h; auto.
Qed.

Lemma before_row_exact k e p pmid cl1 cr1 : (p < pmid)%Z -> X0 < X1 -> X0 < IZR p + 1 -> (cl1 = true -> X0 <= IZR p) ->
  IZR pmid <= X1 -> (cr1 = false -> X1 <= IZR pmid + 1) -> (cr1 = true -> (k < pmid)%Z) ->
  ((k < p)%Z -> IZR k + 1 <= X0) -> (k = p -> cl1 = false -> IZR p <= X0) ->
  row_below k e (fst (before_mid p pmid cl1 cr1 false top x0 y0 x1 y1 s02)) = K * rise_strip X0 Y0 X1 Y1 X2 Y2 (IZR k) (IZR k + 1) e /\
  row_thin k (fst (before_mid p pmid cl1 cr1 false top x0 y0 x1 y1 s02)) <= 2 * thin_bound.
Proof.
  intros Hp HX HXp Hl Hm Hr Hk Hkp Hkl. assert (HXQ : (x0 < x1)%Q) by (apply Rlt_Qlt; auto).
  pose proof sgh as G. pose proof R02 as H02R.
  unfold before_mid. destruct (Z.eqb_spec p pmid) as [?|_]; [lia|]. cbv zeta.
  set (diff := (zq p + 1 - x0)%Q). set (sd := (s02 - s01)%Q).
  assert (DR : Q2R diff = IZR p + 1 - X0) by (unfold diff; q2r; ring).
  assert (TR : Q2R (top / (x1 - x0)) = K * (sg * h) / (X1 - X0)) by (rewrite Q2R_frac by (apply lt_ne; auto); rewrite top_R; q2r; reflexivity).
  assert (SD : Q2R sd = - (/ (X1 - X0) * h)).
  { unfold sd. rewrite Q2R_minus, !Q2R_frac by (apply lt_ne; auto). q2r. unfold height, edge. field. lra. }
  assert (Inv : 0 < / (X1 - X0)) by (apply Rinv_0_lt_compat; lra).
  assert (AS : Q2R (Qabs sd) = / (X1 - X0) * (sg * h)).
  { q2r. rewrite SD, Rabs_Ropp. apply abs_h. lra. }
  assert (Y10 : Q2R (s01 * diff + y0) = up_line (IZR p + 1)) by (rewrite rise_R by auto; rewrite Q2R_plus, Q2R_mult, DR; ring).
  assert (Y11 : Q2R (s02 * diff + y0) = L (IZR p + 1)) by (rewrite edge_R; rewrite Q2R_plus, Q2R_mult, DR; ring).
  assert (UP : Q2R (Qabs (diff * sd)) = (IZR p + 1 - X0) / (X1 - X0) * (sg * h)).
  { rewrite Q2R_Qabs, Q2R_mult, SD, DR. replace (_ * - _) with (- ((IZR p + 1 - X0) / (X1 - X0) * h)) by (field; lra). rewrite Rabs_Ropp. apply abs_h. unfold Rdiv. nra. }
  assert (DOWN : Q2R (Qabs (diff * sd + sd)) = (IZR p + 1 + 1 - X0) / (X1 - X0) * (sg * h)).
  { rewrite Q2R_Qabs, Q2R_plus, Q2R_mult, SD, DR. replace (_ * - _ + - _) with (- ((IZR p + 1 + 1 - X0) / (X1 - X0) * h)) by (field; lra). rewrite Rabs_Ropp. apply abs_h. unfold Rdiv. nra. }
  set (n := Z.to_nat (pmid - (p + 1))).
  assert (PN : IZR p + 1 + INR n = IZR pmid).
  { rewrite INR_IZR_INZ. unfold n. rewrite Z2Nat.id by lia. rewrite minus_IZR, plus_IZR. lra. }
  pose proof (rows_both k e up_line L n (p + 1)%Z ((diff - half) * (top / (x1 - x0)))%Q (top / (x1 - x0))%Q s01 s02 (Qabs sd)
    (s01 * diff + y0)%Q (s02 * diff + y0)%Q (Qabs (diff * sd)) (Qabs (diff * sd + sd)) (Qabs (diff * sd) + Qabs (diff * sd + sd))%Q) as RR.
  pose proof (rows_final n (p + 1)%Z ((diff - half) * (top / (x1 - x0)))%Q (top / (x1 - x0))%Q s01 s02 (Qabs sd)
    (s01 * diff + y0)%Q (s02 * diff + y0)%Q (Qabs (diff * sd)) (Qabs (diff * sd + sd)) (Qabs (diff * sd) + Qabs (diff * sd + sd))%Q) as RF.
  destruct (rows n _ _ _ _ _ _ _ _ _ _ _) as [part2 [[[a b] u] d]]. cbn [fst snd] in RR, RF. destruct RF as [Fa [Fb [Fu Fd]]].
  apply Qeq_eqR in Fa, Fb, Fu, Fd.
  assert (GP : 0 < (IZR p + 1 - X0) / (X1 - X0) * (sg * h)) by (apply Rmult_lt_0_compat; auto; unfold Rdiv; nra).
  assert (GP2 : 0 < (IZR p + 1 + 1 - X0) / (X1 - X0) * (sg * h)) by (apply Rmult_lt_0_compat; auto; unfold Rdiv; nra).
  rewrite plus_IZR in RR. lapply RR; clear RR; [intros RR|intros x; rewrite !rise_R by auto; ring].
  lapply RR; clear RR; [intros RR|intros x; rewrite !edge_R; ring].
  lapply RR; clear RR; [intros RR|exact Y10].
  lapply RR; clear RR; [intros RR|exact Y11].
  lapply RR; clear RR; [intros RR|rewrite UP, rise_gap; reflexivity].
  lapply RR; clear RR; [intros RR|rewrite DOWN, rise_gap; reflexivity].
  lapply RR; clear RR; [intros RR|apply Q2R_plus].
  lapply RR; clear RR; [intros RR|rewrite AS; assert (E : Q2R s01 - Q2R s02 = - Q2R sd) by (unfold sd; rewrite Q2R_minus; ring); rewrite E, SD; ring].
  lapply RR; clear RR; [intros RR|rewrite AS, TR; field; lra].
  lapply RR; clear RR; [intros RR|rewrite Q2R_mult, TR, UP, DOWN, Q2R_minus, DR, Q2R_half; field; lra].
  lapply RR; clear RR; [intros RR|intros i Hi; rewrite UP, DOWN, AS; pose proof (pos_INR i); assert (0 < / (X1 - X0) * (sg * h)) by nra; nra].
  assert (PL : forall x, clampR X0 X1 x = if Rle_dec x X0 then X0 else if Rle_dec X1 x then X1 else x).
  { intros x. unfold clampR, Rmax, Rmin. repeat destruct (Rle_dec _ _); lra. }
  unfold rise_strip.
  set (part1 := if negb cl1 then [Call p y0 (s02 * diff + y0) (s01 * diff + y0) (half * diff * diff * (top / (x1 - x0)))]
        else section p (s01 * diff + y0 - s01) (s02 * diff + y0 - s02) (s01 * diff + y0) (s02 * diff + y0)
               (Qabs (s02 * diff + y0 - s02 - (s01 * diff + y0 - s01))) (Qabs (s02 * diff + y0 - (s01 * diff + y0)))
               (Qabs (s02 * diff + y0 - (s01 * diff + y0)) + Qabs (s02 * diff + y0 - s02 - (s01 * diff + y0 - s01)))
               ((diff - half) * (top / (x1 - x0)))).
  assert (R1 : row_below k e part1 = (if (p =? k)%Z then K * strip' (L (clampR X0 X1 (IZR p))) (L (IZR p + 1)) (up_line (clampR X0 X1 (IZR p))) (up_line (IZR p + 1)) (clampR X0 X1 (IZR p)) (IZR p + 1) e else 0) /\
    row_thin k part1 <= (if (p =? k)%Z then 2 * thin_bound else 0)).
  { unfold part1. assert (PM : IZR p + 1 <= X1) by (pose proof (pos_INR n); lra). destruct cl1; cbn [negb].
    - specialize (Hl eq_refl). assert (EC : clampR X0 X1 (IZR p) = IZR p) by (rewrite PL; repeat destruct (Rle_dec _ _); lra). rewrite EC.
      assert (Y00 : Q2R (s01 * diff + y0 - s01) = up_line (IZR p)) by (rewrite Q2R_minus, Y10, !rise_R by auto; ring).
      assert (Y01 : Q2R (s02 * diff + y0 - s02) = L (IZR p)) by (rewrite Q2R_minus, Y11, !edge_R by auto; ring).
      assert (A1 : Q2R (Qabs (s02 * diff + y0 - s02 - (s01 * diff + y0 - s01))) = sg * (up_line (IZR p) - L (IZR p))).
      { rewrite Q2R_Qabs, Q2R_minus, Y00, Y01, rise_gap. apply gap_abs; [unfold Rdiv; nra|]. left. unfold rise. ring. }
      assert (A2 : Q2R (Qabs (s02 * diff + y0 - (s01 * diff + y0))) = sg * (up_line (IZR p + 1) - L (IZR p + 1))).
      { rewrite Q2R_Qabs, Q2R_minus, Y10, Y11, rise_gap. apply gap_abs; [unfold Rdiv; nra|]. left. unfold rise. ring. }
      apply section_both; auto.
      + rewrite Q2R_plus. ring.
      + rewrite Q2R_plus, A1, A2, !rise_gap. assert (0 <= (IZR p - X0) / (X1 - X0) * (sg * h)); [|lra].
        apply Rmult_le_pos; [unfold Rdiv; nra|lra].
      + rewrite A1, A2, !rise_gap, Q2R_mult, TR, Q2R_minus, DR, Q2R_half. field. lra.
      + lra.
    - destruct (Z.eqb_spec p k) as [E|E]; [|cbn [row_below row_thin row]; destruct (Z.eqb_spec p k); [contradiction|]; cbn [andb]; lra].
      specialize (Hkl (eq_sym E) eq_refl).
      assert (EC : clampR X0 X1 (IZR p) = X0) by (rewrite PL; repeat destruct (Rle_dec _ _); lra). rewrite EC.
      replace (K * strip' (L X0) (L (IZR p + 1)) (up_line X0) (up_line (IZR p + 1)) X0 (IZR p + 1) e)
        with (if (p =? k)%Z then K * strip' (L X0) (L (IZR p + 1)) (up_line X0) (up_line (IZR p + 1)) X0 (IZR p + 1) e else 0)
        by (destruct (Z.eqb_spec p k); [reflexivity|contradiction]).
      replace (2 * thin_bound) with (if (p =? k)%Z then 2 * thin_bound else 0) by (destruct (Z.eqb_spec p k); [reflexivity|contradiction]).
      apply start_both; auto.
      + unfold rise. field. lra.
      + unfold rise, edge. field. lra.
      + rewrite rise_gap, !Q2R_mult, TR, DR, Q2R_half. field. lra.
      + lra. }
  assert (R3 : cr1 = false -> forall y01 y11 y10 y00 u' v, Q2R y00 = up_line (IZR pmid) -> Q2R y01 = L (IZR pmid) -> Q2R y10 = Y1 -> Q2R y11 = L X1 ->
     Q2R u' = sg * (up_line (IZR pmid) - L (IZR pmid)) -> Q2R v = K * (X1 - IZR pmid) / 2 * (sg * (up_line (IZR pmid) - L (IZR pmid)) + sg * (up_line X1 - L X1)) ->
     row_below k e [Call pmid y00 y11 y10 (Qabs (y11 - y10) / (Qabs (y11 - y10) + u') * v); Call pmid y00 y11 y01 (u' / (Qabs (y11 - y10) + u') * v)] =
     (if (pmid =? k)%Z then K * strip' (L (IZR pmid)) (L X1) (up_line (IZR pmid)) (up_line X1) (IZR pmid) X1 e else 0) /\
     row_thin k [Call pmid y00 y11 y10 (Qabs (y11 - y10) / (Qabs (y11 - y10) + u') * v); Call pmid y00 y11 y01 (u' / (Qabs (y11 - y10) + u') * v)] <= (if (pmid =? k)%Z then 2 * thin_bound else 0)).
  { assert (HPn : IZR p + 1 <= IZR pmid) by (pose proof (pos_INR n); lra). intros HC y01 y11 y10 y00 u' v V0 V1 V2 V3 VU VV.
    assert (U1 : up_line X1 = Y1) by (unfold rise, height; field; lra).
    assert (A : Q2R (Qabs (y11 - y10)) = sg * (up_line X1 - L X1)).
    { assert (V2' : Q2R y10 = up_line X1) by (rewrite V2, U1; reflexivity). rewrite Q2R_Qabs, Q2R_minus, V2', V3, rise_gap. apply gap_abs; [unfold Rdiv; nra|]. left. unfold rise. ring. }
    assert (NZ : Q2R (Qabs (y11 - y10) + u') <> 0).
    { rewrite Q2R_plus, A, VU, !rise_gap. assert (0 <= (IZR pmid - X0) / (X1 - X0) * (sg * h)) by (apply Rmult_le_pos; [unfold Rdiv; nra|lra]).
      replace ((X1 - X0) / (X1 - X0)) with 1 by (field; lra). lra. }
    pose proof (section_both k e pmid y00 y01 y10 y11 u' (Qabs (y11 - y10)) (Qabs (y11 - y10) + u')%Q v (IZR pmid) X1 (up_line (IZR pmid)) (L (IZR pmid)) (up_line X1) (L X1)) as S.
    assert (SE : section pmid y00 y01 y10 y11 u' (Qabs (y11 - y10)) (Qabs (y11 - y10) + u') v = [Call pmid y00 y11 y10 (Qabs (y11 - y10) / (Qabs (y11 - y10) + u') * v); Call pmid y00 y11 y01 (u' / (Qabs (y11 - y10) + u') * v)]).
    { unfold section. destruct (Qeq_bool (Qabs (y11 - y10) + u') 0) eqn:B; [|reflexivity].
      exfalso. apply NZ. apply Qeq_bool_iff in B. rewrite (Qeq_eqR _ _ B). apply Q2R_0. }
    rewrite SE in S. apply S; auto.
    - rewrite V2. auto.
    - rewrite Q2R_plus. ring.
    - rewrite VV, A, VU. ring.
    - specialize (Hr HC). lra. }
  assert (Dn : Qeq_bool d 0 = false).
  { destruct (Qeq_bool d 0) eqn:B; auto. exfalso. apply Qeq_bool_iff in B. rewrite (Qeq_eqR _ _ B), Q2R_0 in Fd. revert Fd. q2r.
    rewrite Q2R_plus in *. pose proof (pos_INR n). intros Fd. pose proof UP as UP'. pose proof DOWN as DOWN'. pose proof AS as AS'. revert UP' DOWN' AS'. q2r. intros UP' DOWN' AS'.
    revert Fd. q2r. intros Fd. rewrite UP', DOWN', AS' in Fd. assert (0 < / (X1 - X0) * (sg * h)) by nra.
    replace (Q2R 2) with 2 in Fd by (unfold Q2R; cbn; lra). nra. }
  rewrite Dn.
  assert (FaR : Q2R a = up_line (IZR pmid)).
  { rewrite Fa, Q2R_plus, Q2R_mult, Q2R_zqn, Y10, !rise_R by auto. rewrite <- PN. ring. }
  assert (FbR : Q2R b = L (IZR pmid)).
  { rewrite Fb, Q2R_plus, Q2R_mult, Q2R_zqn, Y11, !edge_R. rewrite <- PN. ring. }
  assert (FuR : Q2R u = sg * (up_line (IZR pmid) - L (IZR pmid))).
  { rewrite Fu, Q2R_plus, Q2R_mult, Q2R_zqn, UP, AS, rise_gap. rewrite <- PN. field. lra. }
  destruct cr1; cbn [negb fst].
  - specialize (Hk eq_refl). destruct R1 as [R1 R1t], RR as [RR RRt]. split.
    2:{ rewrite row_thin_app. pose proof thin_bound_nonneg. assert (NZ' : (p + 1 + Z.of_nat n = pmid)%Z) by (unfold n; lia). rewrite NZ' in RRt.
      destruct (Z.eqb_spec p k), (Z.leb_spec (p + 1) k), (Z.ltb_spec k pmid); cbn [andb] in RRt; try lia; lra. }
    rewrite row_below_app, R1, RR. clear R1 R3 RR R1t RRt.
    assert (HPn : IZR p + 1 <= IZR pmid) by (pose proof (pos_INR n); lra).
    assert (NZ' : (p + 1 + Z.of_nat n = pmid)%Z) by (unfold n; lia). rewrite NZ'.
    destruct (Z_lt_le_dec k p) as [C1|C1]; [|destruct (Z.eq_dec k p) as [C2|C2]; [|destruct (Z_lt_le_dec k pmid) as [C3|C3]]].
    { specialize (Hkp C1). assert (E1 : clampR X0 X1 (IZR k) = X0) by (rewrite PL; repeat destruct (Rle_dec _ _); lra).
      assert (E2 : clampR X0 X1 (IZR k + 1) = X0) by (rewrite PL; repeat destruct (Rle_dec _ _); lra). rewrite E1, E2, strip_empty.
      destruct (Z.eqb_spec p k), (Z.leb_spec (p + 1) k), (Z.ltb_spec k pmid), (Z.eqb_spec pmid k); cbn [andb]; try lia; lra. }
    { subst k. assert (E2 : clampR X0 X1 (IZR p + 1) = IZR p + 1) by (rewrite PL; repeat destruct (Rle_dec _ _); lra). rewrite E2.
      destruct (Z.eqb_spec p p), (Z.leb_spec (p + 1) p), (Z.ltb_spec p pmid), (Z.eqb_spec pmid p); cbn [andb]; try lia; lra. }
    { assert (G1 : IZR p + 1 <= IZR k) by (rewrite <- plus_IZR; apply IZR_le; lia).
      assert (G2 : IZR k + 1 <= IZR pmid) by (rewrite <- plus_IZR; apply IZR_le; lia).
      assert (E1 : clampR X0 X1 (IZR k) = IZR k) by (rewrite PL; repeat destruct (Rle_dec _ _); lra).
      assert (E2 : clampR X0 X1 (IZR k + 1) = IZR k + 1) by (rewrite PL; repeat destruct (Rle_dec _ _); lra). rewrite E1, E2.
      destruct (Z.eqb_spec p k), (Z.leb_spec (p + 1) k), (Z.ltb_spec k pmid), (Z.eqb_spec pmid k); cbn [andb]; try lia; lra. }
    { lia. }
  - specialize (Hr eq_refl). destruct R1 as [R1 R1t], RR as [RR RRt].
    match goal with |- context [part1 ++ part2 ++ ?c3] => destruct (R3 eq_refl b (s02 * (x1 - x0) + y0)%Q y1 a u ((x1 - zq pmid) * (x1 - x0 + (zq pmid - x0)) * half * (top / (x1 - x0)))%Q) as [R3' R3t] end; auto; clear R3.
    3:{ split.
      2:{ rewrite !row_thin_app. pose proof thin_bound_nonneg. assert (NZ' : (p + 1 + Z.of_nat n = pmid)%Z) by (unfold n; lia). rewrite NZ' in RRt.
        destruct (Z.eqb_spec p k), (Z.leb_spec (p + 1) k), (Z.ltb_spec k pmid), (Z.eqb_spec pmid k); cbn [andb] in RRt; try lia; lra. }
      rewrite !row_below_app, R1, RR, R3'. clear R1 R1t RR RRt R3' R3t.
      assert (HPn : IZR p + 1 <= IZR pmid) by (pose proof (pos_INR n); lra).
      assert (NZ' : (p + 1 + Z.of_nat n = pmid)%Z) by (unfold n; lia). rewrite NZ'.
      destruct (Z_lt_le_dec k p) as [C1|C1]; [|destruct (Z.eq_dec k p) as [C2|C2]; [|destruct (Z_lt_le_dec k pmid) as [C3|C3]]].
      { specialize (Hkp C1). assert (E1 : clampR X0 X1 (IZR k) = X0) by (rewrite PL; repeat destruct (Rle_dec _ _); lra).
        assert (E2 : clampR X0 X1 (IZR k + 1) = X0) by (rewrite PL; repeat destruct (Rle_dec _ _); lra). rewrite E1, E2, strip_empty.
        destruct (Z.eqb_spec p k), (Z.leb_spec (p + 1) k), (Z.ltb_spec k pmid), (Z.eqb_spec pmid k); cbn [andb]; try lia; lra. }
      { subst k. assert (E2 : clampR X0 X1 (IZR p + 1) = IZR p + 1) by (rewrite PL; repeat destruct (Rle_dec _ _); lra). rewrite E2.
        destruct (Z.eqb_spec p p), (Z.leb_spec (p + 1) p), (Z.ltb_spec p pmid), (Z.eqb_spec pmid p); cbn [andb]; try lia; lra. }
      { assert (G1 : IZR p + 1 <= IZR k) by (rewrite <- plus_IZR; apply IZR_le; lia).
        assert (G2 : IZR k + 1 <= IZR pmid) by (rewrite <- plus_IZR; apply IZR_le; lia).
        assert (E1 : clampR X0 X1 (IZR k) = IZR k) by (rewrite PL; repeat destruct (Rle_dec _ _); lra).
        assert (E2 : clampR X0 X1 (IZR k + 1) = IZR k + 1) by (rewrite PL; repeat destruct (Rle_dec _ _); lra). rewrite E1, E2.
        destruct (Z.eqb_spec p k), (Z.leb_spec (p + 1) k), (Z.ltb_spec k pmid), (Z.eqb_spec pmid k); cbn [andb]; try lia; lra. }
      { destruct (Z.eq_dec k pmid) as [C4|C4].
        - subst k. assert (E1 : clampR X0 X1 (IZR pmid) = IZR pmid) by (rewrite PL; repeat destruct (Rle_dec _ _); lra).
          assert (E2 : clampR X0 X1 (IZR pmid + 1) = X1) by (rewrite PL; repeat destruct (Rle_dec _ _); lra). rewrite E1, E2.
          destruct (Z.eqb_spec p pmid), (Z.leb_spec (p + 1) pmid), (Z.ltb_spec pmid pmid), (Z.eqb_spec pmid pmid); cbn [andb]; try lia; lra.
        - assert (G1 : IZR pmid + 1 <= IZR k) by (rewrite <- plus_IZR; apply IZR_le; lia).
          assert (E1 : clampR X0 X1 (IZR k) = X1) by (rewrite PL; repeat destruct (Rle_dec _ _); lra).
          assert (E2 : clampR X0 X1 (IZR k + 1) = X1) by (rewrite PL; repeat destruct (Rle_dec _ _); lra). rewrite E1, E2, strip_empty.
          destruct (Z.eqb_spec p k), (Z.leb_spec (p + 1) k), (Z.ltb_spec k pmid), (Z.eqb_spec pmid k); cbn [andb]; try lia; lra. }
    }
    + rewrite edge_R. q2r. ring.
    + rewrite !rise_gap, !Q2R_mult, TR. q2r. field. lra.
Qed.

(** The values handed on to the part after the middle vertex. *)
Lemma before_mid_value p pmid cl1 y10 y11 : snd (before_mid p pmid cl1 false false top x0 y0 x1 y1 s02) = Some (y10, y11) ->
  Q2R y10 = Y1 /\ Q2R y11 = L X1.
Proof.
  unfold before_mid. cbv zeta. destruct (p =? pmid)%Z.
  - destruct (negb false && negb cl1); cbn [snd]; intros E; inversion E. split; auto. rewrite edge_R. q2r. reflexivity.
  - destruct (rows _ _ _ _ _ _ _ _ _ _ _ _) as [part2 [[[a b] u] d]]. cbn [negb snd]. intros E; inversion E. split; auto. rewrite edge_R. q2r. reflexivity.
Qed.

Lemma row_below_none k e cs : List.Forall (fun c => row c <> k) cs -> row_below k e cs = 0.
Proof. induction 1 as [|c cs H _ IH]; cbn [row_below]; auto. destruct (Z.eqb_spec (row c) k); [contradiction|]. rewrite IH. lra. Qed.

Lemma some4 {A B C D} (a a' : A) (b b' : B) (c c' : C) (d d' : D) : Some (a, (b, c, d)) = Some (a', (b', c', d')) -> a = a' /\ b = b' /\ c = c' /\ d = d'.
Proof. intros E; inversion E; auto. Qed.
Lemma after_row_exact k e p pmax cl2 cr2 mid cs : (p < pmax)%Z -> X1 < X2 -> X1 < IZR p + 1 -> (cl2 = true -> X1 <= IZR p) ->
  IZR pmax <= X2 -> (cr2 = false -> X2 <= IZR pmax + 1) -> (cr2 = true -> (k < pmax)%Z) ->
  ((k < p)%Z -> IZR k + 1 <= X1) -> (k = p -> cl2 = false -> IZR p <= X1) ->
  (cl2 = false -> forall y10 y11, mid = Some (y10, y11) -> Q2R y10 = Y1 /\ Q2R y11 = L X1) ->
  (cl2 = true -> h < 0 \/ (k <= p)%Z \/ (pmax <= k)%Z) ->
  after_mid p pmax cl2 cr2 top x0 y0 x1 y1 x2 y2 s02 mid = Some cs ->
  row_below k e cs = K * fall_strip X0 Y0 X1 Y1 X2 Y2 (IZR k) (IZR k + 1) e /\ row_thin k cs <= 2 * thin_bound.
Proof.
  intros Hp HX HXp Hl Hm Hr Hk Hkp Hkl Hmid Hneg. assert (HXQ : (x1 < x2)%Q) by (apply Rlt_Qlt; auto).
  pose proof sgh as G. pose proof R02 as H02R.
  unfold after_mid. destruct (Z.eqb_spec p pmax) as [?|_]; [lia|]. cbv zeta.
  set (diff := (x2 - zq p - 1)%Q). set (sd := (s02 - s12)%Q).
  assert (DR : Q2R diff = X2 - IZR p - 1) by (unfold diff; q2r; ring).
  assert (TR : Q2R (top / (x2 - x1)) = K * (sg * h) / (X2 - X1)) by (rewrite Q2R_frac by (apply lt_ne; auto); rewrite top_R; q2r; reflexivity).
  assert (SD : Q2R sd = / (X2 - X1) * h).
  { unfold sd. rewrite Q2R_minus, !Q2R_frac by (apply lt_ne; auto). q2r. unfold height, edge. field. lra. }
  assert (Inv : 0 < / (X2 - X1)) by (apply Rinv_0_lt_compat; lra).
  assert (AS : Q2R (Qabs sd) = / (X2 - X1) * (sg * h)).
  { q2r. rewrite SD. apply abs_h. lra. }
  assert (HPn : IZR p + 1 <= IZR pmax) by (rewrite <- plus_IZR; apply IZR_le; lia).
  assert (P1 : IZR (p + 1) = IZR p + 1) by (rewrite plus_IZR; reflexivity).
  assert (PL : forall x, clampR X1 X2 x = if Rle_dec x X1 then X1 else if Rle_dec X2 x then X2 else x).
  { intros x. unfold clampR, Rmax, Rmin. repeat destruct (Rle_dec _ _); lra. }
  match goal with |- match ?t with _ => _ end = _ -> _ => set (part4 := t) end.
  assert (R4 : forall c4 y10 y11 down, part4 = Some (c4, (y10, y11, down)) ->
    Q2R y10 = down_line (IZR p + 1) /\ Q2R y11 = L (IZR p + 1) /\
    (Q2R down = - (X2 - IZR p - 1) / (X2 - X1) * h \/ (cl2 = true /\ Q2R down = (X2 - IZR p - 1) / (X2 - X1) * (sg * h))) /\
    row_below k e c4 = (if (p =? k)%Z then K * strip' (L (clampR X1 X2 (IZR p))) (L (IZR p + 1)) (down_line (clampR X1 X2 (IZR p))) (down_line (IZR p + 1)) (clampR X1 X2 (IZR p)) (IZR p + 1) e else 0) /\
    row_thin k c4 <= (if (p =? k)%Z then 2 * thin_bound else 0)).
  { intros c4 y10 y11 down. unfold part4. destruct cl2; cbn [negb].
    - specialize (Hl eq_refl). intros E; destruct (some4 _ _ _ _ _ _ _ _ E) as [<- [<- [<- <-]]]; clear E.
      assert (EC : clampR X1 X2 (IZR p) = IZR p) by (rewrite PL; repeat destruct (Rle_dec _ _); lra). rewrite EC.
      assert (Y00 : Q2R (s12 * (zq p - x1) + y1) = down_line (IZR p)) by (rewrite fall_R by auto; q2r; ring).
      assert (Y01 : Q2R (s02 * (zq p - x0) + y0) = L (IZR p)) by (rewrite edge_R; q2r; ring).
      assert (Y10 : Q2R (s12 * (zq p - x1) + y1 + s12) = down_line (IZR p + 1)) by (rewrite Q2R_plus, Y00, !fall_R by auto; ring).
      assert (Y11 : Q2R (s02 * (zq p - x0) + y0 + s02) = L (IZR p + 1)) by (rewrite Q2R_plus, Y01, !edge_R by auto; ring).
      assert (A1 : Q2R (Qabs (s02 * (zq p - x0) + y0 - (s12 * (zq p - x1) + y1))) = sg * (down_line (IZR p) - L (IZR p))).
      { rewrite Q2R_Qabs, Q2R_minus, Y00, Y01, fall_gap. apply gap_abs; [unfold Rdiv; nra|]. left. unfold fall. ring. }
      assert (A2 : Q2R (Qabs (s02 * (zq p - x0) + y0 + s02 - (s12 * (zq p - x1) + y1 + s12))) = sg * (down_line (IZR p + 1) - L (IZR p + 1))).
      { rewrite Q2R_Qabs, Q2R_minus, Y10, Y11, fall_gap. apply gap_abs; [unfold Rdiv; nra|]. left. unfold fall. ring. }
      split; [exact Y10|]. split; [exact Y11|]. split; [right; split; [reflexivity|rewrite A2, fall_gap; f_equal; f_equal; ring]|].
      apply section_both; auto.
      + rewrite Q2R_plus. ring.
      + rewrite Q2R_plus, A1, A2, !fall_gap. assert (0 <= (X2 - (IZR p + 1)) / (X2 - X1) * (sg * h)).
        { apply Rmult_le_pos; [unfold Rdiv; nra|lra]. }
        assert (0 < (X2 - IZR p) / (X2 - X1) * (sg * h)); [|lra]. apply Rmult_lt_0_compat; auto. unfold Rdiv. nra.
      + rewrite A1, A2, !fall_gap, Q2R_mult, TR, Q2R_plus, DR, Q2R_half. field. lra.
      + lra.
    - destruct mid as [[m10 m11]|]; [|discriminate]. destruct (Hmid eq_refl m10 m11 eq_refl) as [M10 M11]. intros E; destruct (some4 _ _ _ _ _ _ _ _ E) as [<- [<- [<- <-]]]; clear E.
      assert (Y10 : Q2R (s12 * (zq (p + 1) - x1) + y1) = down_line (IZR p + 1)) by (rewrite fall_R by auto; q2r; rewrite P1; ring).
      assert (Y11 : Q2R (s02 * (zq (p + 1) - x0) + y0) = L (IZR p + 1)) by (rewrite edge_R; q2r; rewrite P1; ring).
      split; [exact Y10|]. split; [exact Y11|]. split; [left; rewrite Q2R_minus, Y10, Y11; unfold fall; field; lra|].
      assert (U1 : down_line X1 = Y1) by (unfold fall, height; field; lra).
      assert (A1 : Q2R (Qabs (m11 - m10)) = sg * (down_line X1 - L X1)).
      { assert (M10' : Q2R m10 = down_line X1) by (rewrite M10, U1; reflexivity). rewrite Q2R_Qabs, Q2R_minus, M10', M11, fall_gap. apply gap_abs; [unfold Rdiv; nra|]. left. unfold fall. ring. }
      assert (A2 : Q2R (Qabs (s02 * (zq (p + 1) - x0) + y0 - (s12 * (zq (p + 1) - x1) + y1))) = sg * (down_line (IZR p + 1) - L (IZR p + 1))).
      { rewrite Q2R_Qabs, Q2R_minus, Y10, Y11, fall_gap. apply gap_abs; [unfold Rdiv; nra|]. left. unfold fall. ring. }
      destruct (Z.eqb_spec p k) as [E|E].
      + specialize (Hkl (eq_sym E) eq_refl).
        assert (EC : clampR X1 X2 (IZR p) = X1) by (rewrite PL; repeat destruct (Rle_dec _ _); lra). rewrite EC.
        replace (K * strip' (L X1) (L (IZR p + 1)) (down_line X1) (down_line (IZR p + 1)) X1 (IZR p + 1) e)
          with (if (p =? k)%Z then K * strip' (L X1) (L (IZR p + 1)) (down_line X1) (down_line (IZR p + 1)) X1 (IZR p + 1) e else 0)
          by (destruct (Z.eqb_spec p k); [reflexivity|contradiction]).
        replace (2 * thin_bound) with (if (p =? k)%Z then 2 * thin_bound else 0) by (destruct (Z.eqb_spec p k); [reflexivity|contradiction]).
        apply section_both; auto.
        * rewrite M10. auto.
        * rewrite Q2R_plus. ring.
        * rewrite Q2R_plus, A1, A2, !fall_gap. assert (0 <= (X2 - (IZR p + 1)) / (X2 - X1) * (sg * h)).
          { apply Rmult_le_pos; [unfold Rdiv; nra|lra]. }
          replace ((X2 - X1) / (X2 - X1)) with 1 by (field; lra). lra.
        * rewrite A1, A2, !fall_gap, !Q2R_mult, TR. q2r. rewrite DR. field. lra.
        * lra.
      + rewrite row_thin_none; [split; [|lra]; apply row_below_none|]; apply (section_rows (fun r => r <> k)); exact E. }
  destruct part4 as [[c4 [[y10 y11] down]]|]; [|discriminate]. destruct (R4 _ _ _ _ eq_refl) as [Y10 [Y11 [DW [R4' R4t]]]]. clear R4.
  set (n := Z.to_nat (pmax - (p + 1))).
  assert (PN : IZR p + 1 + INR n = IZR pmax).
  { rewrite INR_IZR_INZ. unfold n. rewrite Z2Nat.id by lia. rewrite minus_IZR, plus_IZR. lra. }
  assert (NZ' : (p + 1 + Z.of_nat n = pmax)%Z) by (unfold n; lia).
  pose proof (rows_both k e down_line L n (p + 1)%Z ((diff + half) * (top / (x2 - x1)))%Q (- (top / (x2 - x1)))%Q s12 s02 (- Qabs sd)%Q
    y10 y11 (Qabs down) (Qabs (down + sd)) (Qabs down + Qabs (down + sd))%Q) as RR.
  pose proof (rows_final n (p + 1)%Z ((diff + half) * (top / (x2 - x1)))%Q (- (top / (x2 - x1)))%Q s12 s02 (- Qabs sd)%Q
    y10 y11 (Qabs down) (Qabs (down + sd)) (Qabs down + Qabs (down + sd))%Q) as RF.
  pose proof (rows_rows (fun r => (p + 1 <= r < pmax)%Z) n (p + 1)%Z ((diff + half) * (top / (x2 - x1)))%Q (- (top / (x2 - x1)))%Q s12 s02 (- Qabs sd)%Q
    y10 y11 (Qabs down) (Qabs (down + sd)) (Qabs down + Qabs (down + sd))%Q) as RW.
  destruct (rows n _ _ _ _ _ _ _ _ _ _ _) as [part6 [[[a b] u] d]]. cbn [fst snd] in RR, RF, RW. destruct RF as [Fa [Fb _]].
  apply Qeq_eqR in Fa, Fb.
  assert (FaR : Q2R a = down_line (IZR pmax)).
  { rewrite Fa, Q2R_plus, Q2R_mult, Q2R_zqn, Y10, !fall_R by auto. rewrite <- PN. ring. }
  assert (FbR : Q2R b = L (IZR pmax)).
  { rewrite Fb, Q2R_plus, Q2R_mult, Q2R_zqn, Y11, !edge_R. rewrite <- PN. ring. }
  assert (R6 : row_below k e part6 = (if (p + 1 <=? k)%Z && (k <? pmax)%Z then K * strip' (L (IZR k)) (L (IZR k + 1)) (down_line (IZR k)) (down_line (IZR k + 1)) (IZR k) (IZR k + 1) e else 0) /\
    row_thin k part6 <= (if (p + 1 <=? k)%Z && (k <? pmax)%Z then 2 * thin_bound else 0)).
  { rewrite NZ' in RR. destruct (Z_lt_le_dec k (p + 1)) as [C|C]; [|destruct (Z_lt_le_dec k pmax) as [C'|C']].
    - assert (FW : List.Forall (fun c => row c <> k) part6) by (eapply Forall_impl; [|apply RW; intros; lia]; cbn beta; intros; lia).
      rewrite row_below_none, row_thin_none by auto. destruct (Z.leb_spec (p + 1) k); [lia|cbn [andb]; lra].
    - assert (X2k : IZR k + 1 <= IZR pmax) by (rewrite <- plus_IZR; apply IZR_le; lia).
      assert (pk : IZR p + 1 <= IZR k) by (rewrite <- plus_IZR; apply IZR_le; lia).
      assert (DN : Q2R (Qabs down) = (X2 - (IZR p + 1)) / (X2 - X1) * (sg * h) /\ Q2R (Qabs (down + sd)) = (X2 - (IZR p + 1 + 1)) / (X2 - X1) * (sg * h)).
      { rewrite !Q2R_Qabs, Q2R_plus, SD. destruct DW as [DW|[CL DW]].
        - split.
          + rewrite DW. replace (_ / _ * h) with (- ((X2 - (IZR p + 1)) / (X2 - X1) * h)) by (field; lra). rewrite Rabs_Ropp. apply abs_h. unfold Rdiv. nra.
          + rewrite DW. replace (_ / _ * h + _) with (- ((X2 - (IZR p + 1 + 1)) / (X2 - X1) * h)) by (field; lra). rewrite Rabs_Ropp. apply abs_h. unfold Rdiv. nra.
        - destruct (Hneg CL) as [N|[N|N]]; [|lia|lia].
          assert (SG : sg = -1) by (unfold sgn; destruct (Rle_dec 0 h); lra). rewrite DW.
          split.
          + rewrite Rabs_pos_eq; [f_equal; f_equal; ring|]. apply Rmult_le_pos; [unfold Rdiv; nra|lra].
          + replace (_ / _ * _ + _) with ((X2 - (IZR p + 1 + 1)) / (X2 - X1) * (sg * h)) by (rewrite SG; field; lra).
            rewrite Rabs_pos_eq; [reflexivity|]. apply Rmult_le_pos; [unfold Rdiv; nra|lra]. }
      destruct DN as [UP DOWN]. rewrite plus_IZR in RR.
      apply RR; auto; clear RR RW.
      + intros x. rewrite !fall_R by auto. ring.
      + intros x. rewrite !edge_R. ring.
      + rewrite UP, fall_gap. reflexivity.
      + rewrite DOWN, fall_gap. reflexivity.
      + apply Q2R_plus.
      + rewrite Q2R_opp, AS. assert (E : Q2R s12 - Q2R s02 = - Q2R sd) by (unfold sd; rewrite Q2R_minus; ring). rewrite E, SD. ring.
      + rewrite !Q2R_opp, AS, TR. field. lra.
      + rewrite Q2R_opp, Q2R_mult, TR, UP, DOWN, Q2R_plus, DR, Q2R_half. field. lra.
      + intros i Hi. rewrite UP, DOWN, Q2R_opp, AS.
        assert (IN : INR i + 1 <= INR n) by (rewrite <- S_INR; apply le_INR; lia).
        replace (_ + _) with ((2 * (X2 - (IZR p + 1) - INR i) - 1) * (/ (X2 - X1) * (sg * h))) by (field; lra).
        apply Rmult_integral_contrapositive_currified; nra.
    - assert (FW : List.Forall (fun c => row c <> k) part6) by (eapply Forall_impl; [|apply RW; intros; lia]; cbn beta; intros; lia).
      rewrite row_below_none, row_thin_none by auto. destruct (Z.leb_spec (p + 1) k), (Z.ltb_spec k pmax); cbn [andb]; try lia; lra. }
  clear RR RW. intros E. apply (f_equal (fun o => match o with Some l => l | None => [] end)) in E. cbn beta iota in E. subst cs.
  set (part7 := if negb cr2 then [Call pmax a y2 b ((x2 - zq pmax) * (x2 - zq pmax) * half * (top / (x2 - x1)))] else []).
  assert (R7 : row_below k e part7 = (if negb cr2 && (pmax =? k)%Z then K * strip' (L (IZR pmax)) (L X2) (down_line (IZR pmax)) (down_line X2) (IZR pmax) X2 e else 0) /\
    row_thin k part7 <= (if negb cr2 && (pmax =? k)%Z then 2 * thin_bound else 0)).
  { unfold part7. destruct cr2; cbn [negb andb]; [cbn [row_below row_thin]; lra|].
    apply end_both; auto.
    - unfold fall. field. lra.
    - unfold edge. field. lra.
    - rewrite fall_gap, !Q2R_mult, TR. q2r. field. lra.
    - specialize (Hr eq_refl). lra. }
  destruct R6 as [R6 R6t], R7 as [R7 R7t]. split.
  2:{ rewrite !row_thin_app. pose proof thin_bound_nonneg.
    destruct cr2, (Z.eqb_spec p k), (Z.leb_spec (p + 1) k), (Z.ltb_spec k pmax), (Z.eqb_spec pmax k); cbn [negb andb] in *; try lia; lra. }
  rewrite !row_below_app, R4', R6, R7. unfold fall_strip.
  clear R4' R6 R7 R4t R6t R7t Hneg Hmid.
  destruct (Z_lt_le_dec k p) as [C1|C1]; [|destruct (Z.eq_dec k p) as [C2|C2]; [|destruct (Z_lt_le_dec k pmax) as [C3|C3]]].
  { specialize (Hkp C1). assert (E1 : clampR X1 X2 (IZR k) = X1) by (rewrite PL; repeat destruct (Rle_dec _ _); lra).
    assert (E2 : clampR X1 X2 (IZR k + 1) = X1) by (rewrite PL; repeat destruct (Rle_dec _ _); lra). rewrite E1, E2, strip_empty.
    destruct (Z.eqb_spec p k), (Z.leb_spec (p + 1) k), (Z.ltb_spec k pmax), (Z.eqb_spec pmax k); rewrite ?andb_false_r; cbn [andb]; try lia; lra. }
  { subst k. assert (E2 : clampR X1 X2 (IZR p + 1) = IZR p + 1) by (rewrite PL; repeat destruct (Rle_dec _ _); lra). rewrite E2.
    destruct (Z.eqb_spec p p), (Z.leb_spec (p + 1) p), (Z.ltb_spec p pmax), (Z.eqb_spec pmax p); rewrite ?andb_false_r; cbn [andb]; try lia; lra. }
  { assert (G1 : IZR p + 1 <= IZR k) by (rewrite <- plus_IZR; apply IZR_le; lia).
    assert (G2 : IZR k + 1 <= IZR pmax) by (rewrite <- plus_IZR; apply IZR_le; lia).
    assert (E1 : clampR X1 X2 (IZR k) = IZR k) by (rewrite PL; repeat destruct (Rle_dec _ _); lra).
    assert (E2 : clampR X1 X2 (IZR k + 1) = IZR k + 1) by (rewrite PL; repeat destruct (Rle_dec _ _); lra). rewrite E1, E2.
    destruct (Z.eqb_spec p k), (Z.leb_spec (p + 1) k), (Z.ltb_spec k pmax), (Z.eqb_spec pmax k); rewrite ?andb_false_r; cbn [andb]; try lia; lra. }
  destruct cr2; [specialize (Hk eq_refl); lia|]. specialize (Hr eq_refl). cbn [negb andb].
  destruct (Z.eq_dec k pmax) as [C4|C4].
  - subst k. assert (E1 : clampR X1 X2 (IZR pmax) = IZR pmax) by (rewrite PL; repeat destruct (Rle_dec _ _); lra).
    assert (E2 : clampR X1 X2 (IZR pmax + 1) = X2) by (rewrite PL; repeat destruct (Rle_dec _ _); lra). rewrite E1, E2.
    destruct (Z.eqb_spec p pmax), (Z.leb_spec (p + 1) pmax), (Z.ltb_spec pmax pmax), (Z.eqb_spec pmax pmax); cbn [andb]; try lia; lra.
  - assert (G1 : IZR pmax + 1 <= IZR k) by (rewrite <- plus_IZR; apply IZR_le; lia).
    assert (E1 : clampR X1 X2 (IZR k) = X2) by (rewrite PL; repeat destruct (Rle_dec _ _); lra).
    assert (E2 : clampR X1 X2 (IZR k + 1) = X2) by (rewrite PL; repeat destruct (Rle_dec _ _); lra). rewrite E1, E2, strip_empty.
    destruct (Z.eqb_spec p k), (Z.leb_spec (p + 1) k), (Z.ltb_spec k pmax), (Z.eqb_spec pmax k); cbn [andb]; try lia; lra.
Qed.

(** ** The whole triangle, sorted by its first frequency *)
Lemma tr_ge k x : (0 < k)%Z -> (k <= trunc x)%Z -> IZR k <= Q2R x.
Proof. intros H1 H2. pose proof (Qle_Rle _ _ (trunc_ge_pos k x H1 H2)) as H. rewrite Q2R_zq in H. exact H. Qed.
Lemma tr_lt k x : (0 <= k)%Z -> (trunc x <= k)%Z -> Q2R x < IZR k + 1.
Proof. intros H1 H2. pose proof (Qlt_Rlt _ _ (trunc_lt_pos k x H1 H2)) as H. rewrite Q2R_plus, Q2R_zq, Q2R_1 in H. exact H. Qed.
Lemma tr_neg x : (trunc x < 0)%Z -> Q2R x <= -1.
Proof. intros H1. pose proof (Qle_Rle _ _ (trunc_lt_0 x H1)) as H. rewrite Q2R_opp, Q2R_1 in H. lra. Qed.
Lemma clamp_low lo hi u v : lo <= hi -> u <= lo -> v <= lo -> clampR lo hi u = lo /\ clampR lo hi v = lo.
Proof. intros. unfold clampR, Rmax, Rmin. repeat destruct (Rle_dec _ _); lra. Qed.
Lemma clamp_high lo hi u v : lo <= hi -> hi <= u -> hi <= v -> clampR lo hi u = hi /\ clampR lo hi v = hi.
Proof. intros. unfold clampR, Rmax, Rmin. repeat destruct (Rle_dec _ _); lra. Qed.
Lemma clamp_both lo hi u v : lo <= hi -> u <= lo -> hi <= v -> clampR lo hi u = lo /\ clampR lo hi v = hi.
Proof. intros. unfold clampR, Rmax, Rmin. repeat destruct (Rle_dec _ _); lra. Qed.

Lemma sorted_row_exact k e m0 cs : (0 <= k < m0)%Z -> calls_sorted x0 y0 x1 y1 x2 y2 amp m0 = Some cs ->
  ((1 <= k)%Z \/ 0 <= X0 \/ X0 <= -1) -> (X1 <= -1 -> h < 0 \/ (k = 0)%Z \/ (trunc x2 <= k)%Z) ->
  row_below k e cs = K * (rise_strip X0 Y0 X1 Y1 X2 Y2 (IZR k) (IZR k + 1) e + fall_strip X0 Y0 X1 Y1 X2 Y2 (IZR k) (IZR k + 1) e) /\
  row_thin k cs <= 4 * thin_bound.
Proof.
  intros Hk HS Hrow Hclip. pose proof thin_bound_nonneg as TB. pose proof R01 as A01. pose proof R12 as A12. pose proof R02 as A02.
  pose proof (trunc_mono _ _ H01) as M0. pose proof (trunc_mono _ _ H12) as M1.
  assert (K0 : 0 <= IZR k) by (apply IZR_le; lia).
  assert (NN : ~ ((trunc x0 < 0 <= trunc x2)%Z /\ (trunc x1 = 0%Z \/ (trunc x1 < 0 /\ trunc x2 = 0))%Z)).
  { intros C. apply (calls_sorted_none x0 y0 x1 y1 x2 y2 amp m0 H01 H12 ltac:(lia)) in C. congruence. }
  assert (KM : IZR k + 1 <= IZR m0) by (rewrite <- plus_IZR; apply IZR_le; lia).
  unfold calls_sorted in HS.
  destruct (Z.ltb_spec m0 (trunc x0)) as [L0|L0].
  { assert (E : cs = []) by congruence. subst cs. pose proof (tr_ge m0 x0 ltac:(lia) ltac:(lia)).
    unfold rise_strip, fall_strip. destruct (clamp_low X0 X1 (IZR k) (IZR k + 1) A01) as [-> ->]; try lra.
    destruct (clamp_low X1 X2 (IZR k) (IZR k + 1) A12) as [-> ->]; try lra. rewrite !strip_empty. cbn [row_below row_thin]. lra. }
  destruct (Z.ltb_spec (trunc x2) 0) as [L2|L2].
  { assert (E : cs = []) by congruence. subst cs. pose proof (tr_neg x2 L2).
    unfold rise_strip, fall_strip. destruct (clamp_high X0 X1 (IZR k) (IZR k + 1) A01) as [-> ->]; try lra.
    destruct (clamp_high X1 X2 (IZR k) (IZR k + 1) A12) as [-> ->]; try lra. rewrite !strip_empty. cbn [row_below row_thin]. lra. }
  cbv zeta in HS.
  destruct (before_conditions x0 x1 x2 m0 H01 H12 ltac:(lia) L0 L2) as [Hpm [Hlt _]].
  set (cl2 := (rclip m0 x1 <? 0)%Z) in *.
  assert (CL2 : cl2 = (trunc x1 <? 0)%Z).
  { unfold cl2, rclip. destruct (Z.leb_spec m0 (trunc x1)), (Z.ltb_spec (trunc x1) 0); try lia. all: destruct (Z.ltb_spec m0 0); lia. }
  clearbody cl2.
  assert (RB : row_below k e (fst (before_mid (lclip x0) (mclip m0 x1) (trunc x0 <? 0)%Z (m0 <=? trunc x1)%Z cl2 top x0 y0 x1 y1 s02)) =
    K * rise_strip X0 Y0 X1 Y1 X2 Y2 (IZR k) (IZR k + 1) e /\
    row_thin k (fst (before_mid (lclip x0) (mclip m0 x1) (trunc x0 <? 0)%Z (m0 <=? trunc x1)%Z cl2 top x0 y0 x1 y1 s02)) <= 2 * thin_bound).
  { destruct (Z.ltb_spec (trunc x1) 0) as [T1|T1]; subst cl2.
    { unfold before_mid. cbn [fst row_below row_thin]. pose proof (tr_neg x1 T1). unfold rise_strip.
      destruct (clamp_high X0 X1 (IZR k) (IZR k + 1) A01) as [-> ->]; try lra. rewrite strip_empty. lra. }
    destruct (Z.eq_dec (lclip x0) (mclip m0 x1)) as [Ep|Ep].
    - unfold before_mid. destruct (Z.eqb_spec (lclip x0) (mclip m0 x1)); [|contradiction]. cbv zeta.
      unfold lclip, mclip, rclip in *. destruct (Z.leb_spec m0 (trunc x1)) as [R1|R1], (Z.ltb_spec (trunc x0) 0) as [R0|R0]; cbn [negb andb fst row_below row_thin row amount].
      + destruct (Z.ltb_spec m0 0); lia.
      + destruct (Z.ltb_spec m0 0); try lia. pose proof (tr_ge m0 x0 ltac:(lia) ltac:(lia)).
        unfold rise_strip. destruct (clamp_low X0 X1 (IZR k) (IZR k + 1) A01) as [-> ->]; try lra. rewrite strip_empty. lra.
      + exfalso. destruct (Z.ltb_spec (trunc x1) 0); lia.
      + destruct (Z.ltb_spec (trunc x1) 0); [lia|]. rewrite Ep in *.
        pose proof (tr_lt (trunc x1) x1 ltac:(lia) ltac:(lia)) as B1.
        destruct (Z.eqb_spec (trunc x1) k) as [E|E]; cbn [andb].
        * rewrite E in *. assert (B0 : IZR k <= X0).
          { destruct (Z.eq_dec k 0) as [->|]; [destruct Hrow as [?|[?|Hrow]]; [lia|auto|]|].
            - exfalso. destruct (trunc_neg x0) as [_ [V _]]; [apply Rle_Qle; rewrite Q2R_0; lra|].
              apply Qlt_Rlt in V. rewrite Q2R_minus, Q2R_zq, Q2R_1, Ep in V. lra.
            - apply tr_ge; lia. }
          unfold rise_strip. destruct (clamp_both X0 X1 (IZR k) (IZR k + 1) A01) as [-> ->]; try lra. rewrite Rplus_0_r.
          destruct (Req_EM_T X0 X1) as [Q|Q].
          { assert (V : Q2R ((x1 - x0) * top * half) = 0) by (rewrite !Q2R_mult, Q2R_minus, <- Q; ring).
            rewrite <- Q, strip_empty. unfold below_line. cbn [amount]. rewrite V, Rabs_R0. destruct (thinb _); lra. }
          assert (U1 : up_line X1 = Y1) by (unfold rise, height; field; lra).
          assert (EL : Q2R (s02 * (x1 - x0) + y0) = L X1) by (rewrite edge_R; q2r; reflexivity).
          assert (VR : Q2R ((x1 - x0) * top * half) = K * (X1 - X0) / 2 * (sg * (up_line X1 - L X1))).
          { rewrite rise_gap, !Q2R_mult, top_R. q2r. field. lra. }
          split.
          { transitivity (below_line e (Call k y0 (s02 * (x1 - x0) + y0) y1 ((x1 - x0) * top * half))).
            { unfold below_line. cbn [Interp2DModel.ya Interp2DModel.yb Interp2DModel.yc amount]. rewrite tentS_swap23. reflexivity. }
            apply start_row; auto.
            { unfold rise. field. lra. }
            { unfold rise, edge. field. lra. } }
          { rewrite Rplus_0_r. eapply Rle_trans; [apply (thin_amount (Call k y0 y1 (s02 * (x1 - x0) + y0) ((x1 - x0) * top * half)) X0 X1 (sg * (up_line X1 - L X1)))|lra]; auto; [lra|].
            right; right. cbn [Interp2DModel.ya Interp2DModel.yb Interp2DModel.yc amount]. rewrite sg_abs, EL, U1. lra. }
        * rewrite !Rplus_0_r. unfold rise_strip. destruct (Z_lt_le_dec k (trunc x1)).
          { assert (IZR k + 1 <= IZR (trunc x1)) by (rewrite <- plus_IZR; apply IZR_le; lia).
            pose proof (tr_ge (trunc x1) x0 ltac:(lia) ltac:(lia)).
            destruct (clamp_low X0 X1 (IZR k) (IZR k + 1) A01) as [-> ->]; try lra. rewrite strip_empty. lra. }
          { assert (IZR (trunc x1) + 1 <= IZR k) by (rewrite <- plus_IZR; apply IZR_le; lia).
            destruct (clamp_high X0 X1 (IZR k) (IZR k + 1) A01) as [-> ->]; try lra. rewrite strip_empty. lra. }
    - destruct (Hlt ltac:(lia)) as [W1 W2]. apply Qlt_Rlt in W1, W2. revert W2. q2r. intros W2. apply before_row_exact; auto; try lia.
      + intros C. apply Z.ltb_lt in C. unfold lclip. destruct (Z.ltb_spec (trunc x0) 0); [|lia]. pose proof (tr_neg x0 C). lra.
      + assert (P0 : (0 <= lclip x0)%Z) by (unfold lclip; destruct (Z.ltb_spec (trunc x0) 0); lia).
        pose proof (Qle_Rle _ _ (mclip_le m0 x1 ltac:(lia) ltac:(lia))) as V. rewrite Q2R_zq in V. exact V.
      + intros C. apply Z.leb_gt in C. unfold mclip, rclip. destruct (Z.leb_spec m0 (trunc x1)); [lia|]. destruct (Z.ltb_spec (trunc x1) 0); [lia|].
        left. apply tr_lt; lia.
      + intros C. apply Z.leb_le in C. unfold mclip, rclip. destruct (Z.leb_spec m0 (trunc x1)); [|lia]. destruct (Z.ltb_spec m0 0); lia.
      + intros C. unfold lclip in C. destruct (Z.ltb_spec (trunc x0) 0); [lia|].
        pose proof (tr_ge (trunc x0) x0 ltac:(lia) ltac:(lia)). assert (IZR k + 1 <= IZR (trunc x0)) by (rewrite <- plus_IZR; apply IZR_le; lia). lra.
      + intros C1 C2. rewrite <- C1. apply Z.ltb_ge in C2. unfold lclip in C1. destruct (Z.ltb_spec (trunc x0) 0); [lia|].
        destruct (Z.eq_dec k 0) as [->|]; [destruct Hrow as [?|[?|Hrow]]; [lia|auto|]|].
        * exfalso. destruct (trunc_neg x0) as [_ [V _]]; [apply Rle_Qle; rewrite Q2R_0; lra|].
          apply Qlt_Rlt in V. rewrite Q2R_minus, Q2R_zq, Q2R_1, <- C1 in V. lra.
        * apply tr_ge; lia. }
  assert (MV : (trunc x1 < m0)%Z -> cl2 = false -> forall y10 y11,
    snd (before_mid (lclip x0) (mclip m0 x1) (trunc x0 <? 0)%Z (m0 <=? trunc x1)%Z cl2 top x0 y0 x1 y1 s02) = Some (y10, y11) -> Q2R y10 = Y1 /\ Q2R y11 = L X1).
  { intros T1 C y10 y11. rewrite C. destruct (Z.leb_spec m0 (trunc x1)); [lia|]. apply before_mid_value. }
  destruct (before_mid _ _ _ _ _ _ _ _ _ _ _) as [before mid]. cbn [fst snd] in RB, MV.
  destruct (after_mid _ _ _ _ _ _ _ _ _ _ _ _ _) as [after|] eqn:EA; [|discriminate].
  assert (E : cs = before ++ after) by congruence. subst cs. destruct RB as [RB RBt]. rewrite row_below_app, row_thin_app, RB, Rmult_plus_distr_l.
  enough (RA : row_below k e after = K * fall_strip X0 Y0 X1 Y1 X2 Y2 (IZR k) (IZR k + 1) e /\ row_thin k after <= 2 * thin_bound) by (split; [rewrite (proj1 RA)|]; lra).
  clear HS RB RBt.
  assert (PX : (mclip m0 x1 <= rclip m0 x2)%Z).
  { unfold mclip, rclip. repeat match goal with |- context [if (?a <=? ?b)%Z then _ else _] => destruct (Z.leb_spec a b)
                         | |- context [if (?a <? ?b)%Z then _ else _] => destruct (Z.ltb_spec a b) end; lia. }
  destruct (Z.eq_dec (mclip m0 x1) (rclip m0 x2)) as [Ep|Ep].
  - unfold after_mid in EA. destruct (Z.eqb_spec (mclip m0 x1) (rclip m0 x2)); [|contradiction]. cbv zeta in EA.
    unfold mclip, rclip in *. destruct (Z.leb_spec m0 (trunc x2)) as [R2|R2]; cbn [negb] in EA.
    + assert (E : after = []) by congruence. subst after. cbn [row_below row_thin].
      assert (T1 : (m0 <= trunc x1)%Z).
      { destruct (Z.leb_spec m0 (trunc x1)); auto. destruct (Z.ltb_spec (trunc x1) 0); lia. }
      pose proof (tr_ge m0 x1 ltac:(lia) ltac:(lia)). unfold fall_strip. destruct (clamp_low X1 X2 (IZR k) (IZR k + 1) A12) as [-> ->]; try lra. rewrite strip_empty. lra.
    + destruct mid as [[m10 m11]|]; [|discriminate].
      apply (f_equal (fun o => match o with Some l => l | None => [] end)) in EA. cbn beta iota in EA. subst after.
      destruct (Z.leb_spec m0 (trunc x1)) as [T1|T1]; [lia|]. destruct (Z.ltb_spec (trunc x1) 0) as [T0|T0].
      { exfalso. apply NN. lia. }
      destruct (MV T1 CL2 m10 m11 eq_refl) as [Y10 Y11]. rewrite Ep. clear MV.
      pose proof (tr_lt (trunc x2) x2 ltac:(lia) ltac:(lia)) as B2. cbn [row_below row_thin row amount].
      destruct (Z.eqb_spec (trunc x2) k) as [E|E]; cbn [andb].
      * assert (B1 : IZR k <= X1).
        { destruct (Z.eq_dec k 0) as [->|]; [destruct Hrow as [?|[?|Hrow]]; [lia|lra|]|].
          - exfalso. apply NN. destruct (Z_lt_le_dec (trunc x0) 0); [lia|].
            destruct (trunc_neg x0) as [_ [V _]]; [apply Rle_Qle; rewrite Q2R_0; lra|].
            assert (T : trunc x0 = 0%Z) by lia. apply Qlt_Rlt in V. rewrite Q2R_minus, Q2R_zq, Q2R_1, T in V. lra.
          - apply tr_ge; lia. }
        rewrite E in *. unfold fall_strip. destruct (clamp_both X1 X2 (IZR k) (IZR k + 1) A12) as [-> ->]; try lra. rewrite Rplus_0_r.
        destruct (Req_EM_T X1 X2) as [Q|Q].
        { assert (V : Q2R ((x2 - x1) * top * half) = 0) by (rewrite !Q2R_mult, Q2R_minus, <- Q; ring).
          rewrite <- Q, strip_empty. unfold below_line. cbn [amount]. rewrite V, Rabs_R0. destruct (thinb _); lra. }
        assert (U1 : down_line X1 = Y1) by (unfold fall, height; field; lra).
        assert (VR : Q2R ((x2 - x1) * top * half) = K * (X2 - X1) / 2 * (sg * (down_line X1 - L X1))).
        { rewrite fall_gap, !Q2R_mult, top_R. q2r. field. lra. }
        split.
        { transitivity (below_line e (Call k y1 y2 m11 ((x2 - x1) * top * half))).
          { unfold below_line. cbn [Interp2DModel.ya Interp2DModel.yb Interp2DModel.yc amount]. rewrite tentS_swap12, tentS_swap23. reflexivity. }
          apply end_row; auto.
          { unfold fall. field. lra. }
          { unfold edge. field. lra. } }
        { rewrite Rplus_0_r. eapply Rle_trans; [apply (thin_amount (Call k m11 y1 y2 ((x2 - x1) * top * half)) X1 X2 (sg * (down_line X1 - L X1)))|lra]; auto; [lra|].
          left. cbn [Interp2DModel.ya Interp2DModel.yb Interp2DModel.yc amount]. rewrite sg_abs, Y11, U1, Rabs_minus_sym. lra. }
      * rewrite !Rplus_0_r. unfold fall_strip. destruct (Z_lt_le_dec k (trunc x2)).
        { assert (IZR k + 1 <= IZR (trunc x2)) by (rewrite <- plus_IZR; apply IZR_le; lia).
          pose proof (tr_ge (trunc x2) x1 ltac:(lia) ltac:(lia)).
          destruct (clamp_low X1 X2 (IZR k) (IZR k + 1) A12) as [-> ->]; try lra. rewrite strip_empty. lra. }
        { assert (IZR (trunc x2) + 1 <= IZR k) by (rewrite <- plus_IZR; apply IZR_le; lia).
          destruct (clamp_high X1 X2 (IZR k) (IZR k + 1) A12) as [-> ->]; try lra. rewrite strip_empty. lra. }
  - assert (Plt : (mclip m0 x1 < rclip m0 x2)%Z) by lia.
    assert (T1 : (trunc x1 < m0)%Z).
    { unfold mclip, rclip in Plt. destruct (Z.leb_spec m0 (trunc x1)), (Z.leb_spec m0 (trunc x2)); try lia. destruct (Z.ltb_spec m0 0); lia. }
    assert (MC : mclip m0 x1 = if (trunc x1 <? 0)%Z then 0%Z else trunc x1).
    { unfold mclip, rclip. destruct (Z.leb_spec m0 (trunc x1)); [lia|]. reflexivity. }
    assert (P0 : (0 <= mclip m0 x1)%Z) by (rewrite MC; destruct (Z.ltb_spec (trunc x1) 0); lia).
    eapply after_row_exact; try exact EA; auto.
    + destruct (Rle_lt_or_eq_dec _ _ A12) as [?|Q]; auto. exfalso.
      assert (TE : trunc x2 = trunc x1) by (apply trunc_proper; apply Qeq_sym, eqR_Qeq; auto). unfold mclip, rclip in Plt. rewrite TE in *.
      destruct (Z.leb_spec m0 (trunc x1)); [lia|]. destruct (Z.ltb_spec (trunc x1) 0); lia.
    + apply tr_lt; auto. rewrite MC. destruct (Z.ltb_spec (trunc x1) 0); lia.
    + intros C. rewrite C in CL2. symmetry in CL2. apply Z.ltb_lt in CL2. rewrite MC. destruct (Z.ltb_spec (trunc x1) 0); [|lia]. pose proof (tr_neg x1 CL2). lra.
    + pose proof (Qle_Rle _ _ (rclip_le m0 x2 ltac:(lia) ltac:(lia))) as V. rewrite Q2R_zq in V. exact V.
    + intros C. apply Z.leb_gt in C. unfold rclip. destruct (Z.leb_spec m0 (trunc x2)); [lia|]. left. apply tr_lt; lia.
    + intros C. apply Z.leb_le in C. unfold rclip. destruct (Z.leb_spec m0 (trunc x2)); lia.
    + intros C. rewrite MC in C. destruct (Z.ltb_spec (trunc x1) 0); [lia|].
      pose proof (tr_ge (trunc x1) x1 ltac:(lia) ltac:(lia)). assert (IZR k + 1 <= IZR (trunc x1)) by (rewrite <- plus_IZR; apply IZR_le; lia). lra.
    + intros C1 C2. rewrite <- C1. rewrite C2 in CL2. symmetry in CL2. apply Z.ltb_ge in CL2. rewrite MC in C1. destruct (Z.ltb_spec (trunc x1) 0); [lia|].
      destruct (Z.eq_dec k 0) as [->|]; [destruct Hrow as [?|[?|Hrow]]; [lia|lra|]|].
      * exfalso. apply NN. destruct (Z_lt_le_dec (trunc x0) 0); [lia|].
        destruct (trunc_neg x0) as [_ [V _]]; [apply Rle_Qle; rewrite Q2R_0; lra|].
        assert (T : trunc x0 = 0%Z) by lia. apply Qlt_Rlt in V. rewrite Q2R_minus, Q2R_zq, Q2R_1, T in V. lra.
      * apply tr_ge; lia.
    + intros C. rewrite C in CL2. symmetry in CL2. apply Z.ltb_lt in CL2. destruct (Hclip (tr_neg x1 CL2)) as [N|[N|N]]; auto.
      * right; left. lia.
      * right; right. unfold rclip. destruct (Z.leb_spec m0 (trunc x2)); lia.
Qed.
End Exact.

(** ** Exactness of a cell *)
Lemma Q2R_TOL : Q2R TOL = 1 / 1000000. Proof. unfold Q2R, TOL. cbn. lra. Qed.

Lemma density_area x0 y0 x1 y1 x2 y2 amp : (x0 < x2)%Q ->
  height (Q2R x0) (Q2R y0) (Q2R x1) (Q2R y1) (Q2R x2) (Q2R y2) <> 0 ->
  0 < triangle_area (Q2R x0, Q2R y0) (Q2R x1, Q2R y1) (Q2R x2, Q2R y2) /\
  density x0 y0 x1 y1 x2 y2 amp = Q2R amp / triangle_area (Q2R x0, Q2R y0) (Q2R x1, Q2R y1) (Q2R x2, Q2R y2).
Proof.
  intros H02 Hh. apply Qlt_Rlt in H02. rewrite sorted_triangle_area by auto.
  pose proof (sgh x0 y0 x1 y1 x2 y2 Hh) as G. split; [nra|]. unfold density.
  set (g := sgn _ _ _ _ _ _ * _) in *. field. split; lra.
Qed.

Lemma share_of_rows x0 y0 x1 y1 x2 y2 amp cs m1 k q : (x0 <= x1)%Q -> (x1 <= x2)%Q -> (x0 < x2)%Q ->
  height (Q2R x0) (Q2R y0) (Q2R x1) (Q2R y1) (Q2R x2) (Q2R y2) <> 0 ->
  (forall e, row_below k e cs = density x0 y0 x1 y1 x2 y2 amp *
     (rise_strip (Q2R x0) (Q2R y0) (Q2R x1) (Q2R y1) (Q2R x2) (Q2R y2) (IZR k) (IZR k + 1) e + fall_strip (Q2R x0) (Q2R y0) (Q2R x1) (Q2R y1) (Q2R x2) (Q2R y2) (IZR k) (IZR k + 1) e)) ->
  row_thin k cs <= 4 * thin_bound x0 y0 x1 y1 x2 y2 amp ->
  (0 <= q < m1)%Z -> (forall c, In c cs -> row c = k -> column_ok q c) ->
  share_close (Q2R amp) (Q2R x0, Q2R y0) (Q2R x1, Q2R y1) (Q2R x2, Q2R y2) k q (Q2R (cell (flat_map (call_writes m1) cs) m1 k q)).
Proof.
  intros H01 H12 H02 Hh RB RT Hq Hc. destruct (density_area x0 y0 x1 y1 x2 y2 amp H02 Hh) as [AP DE].
  eexists. split; [apply sorted_area; try (apply Qle_Rle; auto); try (apply Qlt_Rlt; auto); lra|].
  pose proof (row_close m1 cs k q Hq Hc) as C. rewrite !RB in C.
  set (Ar := triangle_area _ _ _) in *.
  match goal with |- Rabs (_ - Q2R amp * (?part / Ar)) <= _ => replace (Q2R amp * (part / Ar)) with (density x0 y0 x1 y1 x2 y2 amp * part) by (rewrite DE; field; lra) end.
  match goal with |- Rabs ?a <= _ => match type of C with Rabs ?b <= _ => replace a with b by ring end end.
  eapply Rle_trans; [exact C|]. unfold thin_bound in RT. rewrite DE in RT.
  assert (E : Rabs (Q2R amp / Ar) = Rabs (Q2R amp) / Ar).
  { unfold Rdiv. rewrite Rabs_mult. f_equal. apply Rabs_pos_eq. left. apply Rinv_0_lt_compat. auto. }
  rewrite E, Q2R_TOL in RT. lra.
Qed.

Lemma columns_inside lo hi q cs : List.Forall (inside_y lo hi) cs -> ((0 < q)%Z \/ (q = 0%Z /\ (0 <= lo)%Q)) -> forall c, In c cs -> column_ok q c.
Proof.
  intros F H c I. rewrite Forall_forall in F. destruct (F c I) as [[A _] [[B _] [D _]]]. destruct H as [H|[H L]]; [left; auto|right].
  split; [exact H|]. repeat split; eapply Qle_trans; eauto.
Qed.

Theorem sorted_cell x0 y0 x1 y1 x2 y2 amp m0 m1 cs k q : (x0 <= x1)%Q -> (x1 <= x2)%Q -> (x0 < x2)%Q ->
  height (Q2R x0) (Q2R y0) (Q2R x1) (Q2R y1) (Q2R x2) (Q2R y2) <> 0 ->
  (0 <= k < m0)%Z -> (0 <= q < m1)%Z -> calls_sorted x0 y0 x1 y1 x2 y2 amp m0 = Some cs ->
  ((1 <= k)%Z \/ (0 <= x0)%Q \/ (x0 <= -(1))%Q) ->
  ((x1 <= -(1))%Q -> height (Q2R x0) (Q2R y0) (Q2R x1) (Q2R y1) (Q2R x2) (Q2R y2) < 0 \/ (k = 0)%Z \/ (trunc x2 <= k)%Z) ->
  ((1 <= q)%Z \/ (0 <= y0 /\ 0 <= y1 /\ 0 <= y2)%Q) ->
  share_close (Q2R amp) (Q2R x0, Q2R y0) (Q2R x1, Q2R y1) (Q2R x2, Q2R y2) k q (Q2R (cell (flat_map (call_writes m1) cs) m1 k q)).
Proof.
  intros H01 H12 H02 Hh Hk Hq HS Hrow Hclip Hcol.
  assert (HR : (1 <= k)%Z \/ 0 <= Q2R x0 \/ Q2R x0 <= -1).
  { destruct Hrow as [?|[H|H]]; auto; apply Qle_Rle in H; revert H; q2r; lra. }
  assert (HC : Q2R x1 <= -1 -> height (Q2R x0) (Q2R y0) (Q2R x1) (Q2R y1) (Q2R x2) (Q2R y2) < 0 \/ (k = 0)%Z \/ (trunc x2 <= k)%Z).
  { intros H. apply Hclip. apply Rle_Qle. q2r. lra. }
  apply share_of_rows; auto.
  - intros e. eapply sorted_row_exact; eauto.
  - eapply (sorted_row_exact x0 y0 x1 y1 x2 y2 amp H01 H12 H02 Hh k 0); eauto.
  - set (lo := Qminmax.Qmin y0 (Qminmax.Qmin y1 y2)). set (hi := Qminmax.Qmax y0 (Qminmax.Qmax y1 y2)).
    assert (B0 : between lo hi y0) by (split; [apply Qminmax.Q.le_min_l|apply Qminmax.Q.le_max_l]).
    assert (B1 : between lo hi y1).
    { split; [eapply Qle_trans; [apply Qminmax.Q.le_min_r|apply Qminmax.Q.le_min_l]|eapply Qle_trans; [apply Qminmax.Q.le_max_l|apply Qminmax.Q.le_max_r]]. }
    assert (B2 : between lo hi y2).
    { split; [eapply Qle_trans; [apply Qminmax.Q.le_min_r|apply Qminmax.Q.le_min_r]|eapply Qle_trans; [apply Qminmax.Q.le_max_r|apply Qminmax.Q.le_max_r]]. }
    pose proof (calls_sorted_inside lo hi x0 y0 x1 y1 x2 y2 amp m0 cs H01 H12 H02 ltac:(lia) B0 B1 B2 HS) as F.
    intros c Ic _. eapply (columns_inside lo hi); [exact F| |exact Ic].
    destruct Hcol as [?|[A [B C]]]; [left; lia|]. destruct (Z.eq_dec q 0); [right|left; lia]. split; auto.
    unfold lo. apply Qminmax.Q.min_glb; auto. apply Qminmax.Q.min_glb; auto.
Qed.

(** ** A triangle inside one row *)
Lemma mean_split g k l1 l2 : l1 * mean_pos g (g + k * l1) + l2 * mean_pos (g + k * l1) (g + k * (l1 + l2)) = (l1 + l2) * mean_pos g (g + k * (l1 + l2)).
Proof.
  destruct (Req_EM_T l1 0) as [E1|E1]; [subst; replace (g + k * 0) with g by ring; rewrite Rplus_0_l; ring|].
  destruct (Req_EM_T l2 0) as [E2|E2]; [subst; rewrite Rplus_0_r; ring|].
  destruct (Req_EM_T (l1 + l2) 0) as [E3|E3].
  { rewrite E3. replace (g + k * 0) with g by ring. replace l2 with (- l1) by lra. rewrite (mean_pos_sym (g + k * l1) g). ring. }
  destruct (Req_EM_T k 0) as [K0|K0]; [subst; rewrite !Rmult_0_l, Rplus_0_r, mean_pos_eq; ring|].
  assert (N1 : k * l1 <> 0) by (apply Rmult_integral_contrapositive_currified; auto).
  assert (N2 : k * l2 <> 0) by (apply Rmult_integral_contrapositive_currified; auto).
  assert (N3 : k * (l1 + l2) <> 0) by (apply Rmult_integral_contrapositive_currified; auto).
  rewrite !mean_pos_ne by lra. field. repeat split; lra.
Qed.

Lemma whole_strips X0 Y0 X1 Y1 X2 Y2 u v e : X0 <= X1 -> X1 <= X2 -> X0 < X2 -> u <= X0 -> X2 <= v ->
  rise_strip X0 Y0 X1 Y1 X2 Y2 u v e + fall_strip X0 Y0 X1 Y1 X2 Y2 u v e =
  (X2 - X0) * (sgn X0 Y0 X1 Y1 X2 Y2 * height X0 Y0 X1 Y1 X2 Y2) / 2 * tentS Y0 Y1 Y2 e.
Proof.
  intros H01 H12 H02 Hu Hv. unfold rise_strip, fall_strip.
  destruct (clamp_both X0 X1 u v H01) as [-> ->]; try lra. destruct (clamp_both X1 X2 u v H12) as [-> ->]; try lra.
  set (L := edge X0 Y0 X2 Y2). set (s := sgn X0 Y0 X1 Y1 X2 Y2). set (h := height X0 Y0 X1 Y1 X2 Y2).
  assert (L0 : L X0 = Y0) by (unfold L, edge; field; lra). assert (L2 : L X2 = Y2) by (unfold L, edge; field; lra).
  assert (A1 : strip X0 Y0 X1 Y1 X2 Y2 (L X0) (L X1) (rise X0 Y0 X1 Y1 X2 Y2 X0) (rise X0 Y0 X1 Y1 X2 Y2 X1) X0 X1 e =
    s * ((X1 - X0) * mean_pos (e - L X0) (e - L X1) - (X1 - X0) * mean_pos (e - Y0) (e - Y1))).
  { unfold strip. fold s. destruct (Req_EM_T X0 X1) as [Q|Q]; [rewrite <- Q; ring|].
    assert (E1 : rise X0 Y0 X1 Y1 X2 Y2 X0 = Y0) by (unfold rise, edge; field; lra).
    assert (E2 : rise X0 Y0 X1 Y1 X2 Y2 X1 = Y1) by (unfold rise, height; field; lra). rewrite E1, E2. ring. }
  assert (A2 : strip X0 Y0 X1 Y1 X2 Y2 (L X1) (L X2) (fall X0 Y0 X1 Y1 X2 Y2 X1) (fall X0 Y0 X1 Y1 X2 Y2 X2) X1 X2 e =
    s * ((X2 - X1) * mean_pos (e - L X1) (e - L X2) - (X2 - X1) * mean_pos (e - Y1) (e - Y2))).
  { unfold strip. fold s. destruct (Req_EM_T X1 X2) as [Q|Q]; [rewrite <- Q; ring|].
    assert (E1 : fall X0 Y0 X1 Y1 X2 Y2 X1 = Y1) by (unfold fall, height; field; lra).
    assert (E2 : fall X0 Y0 X1 Y1 X2 Y2 X2 = Y2) by (unfold fall, edge; field; lra). rewrite E1, E2. ring. }
  rewrite A1, A2.
  pose proof (mean_split (e - Y0) (- ((Y2 - Y0) / (X2 - X0))) (X1 - X0) (X2 - X1)) as M.
  replace (e - Y0 + - ((Y2 - Y0) / (X2 - X0)) * (X1 - X0)) with (e - L X1) in M by (unfold L, edge; ring).
  replace (X1 - X0 + (X2 - X1)) with (X2 - X0) in M by ring.
  replace (e - Y0 + - ((Y2 - Y0) / (X2 - X0)) * (X2 - X0)) with (e - Y2) in M by (field; lra).
  rewrite L0, L2.
  pose proof (tent_difference_all Y0 Y1 Y2 e) as T1. pose proof (tent_difference_all Y2 Y1 Y0 e) as T2.
  assert (TT : tentS Y2 Y1 Y0 e = tentS Y0 Y1 Y2 e) by (rewrite (tentS_swap12 Y2 Y1), (tentS_swap23 Y1 Y2), (tentS_swap12 Y1 Y0); reflexivity).
  rewrite TT, (mean_pos_sym (e - Y2) (e - Y1)), (mean_pos_sym (e - Y2) (e - Y0)) in T2.
  set (T := tentS Y0 Y1 Y2 e) in *.
  transitivity (s * ((X2 - X0) * mean_pos (e - Y0) (e - Y2) - (X1 - X0) * mean_pos (e - Y0) (e - Y1) - (X2 - X1) * mean_pos (e - Y1) (e - Y2))); [rewrite <- M; ring|].
  transitivity (s * (- (X1 - X0) * ((Y2 - Y1) * T / 2) - (X2 - X1) * ((Y0 - Y1) * T / 2))); [rewrite T1, T2; ring|].
  assert (HH : (X2 - X0) * h = (X2 - X0) * Y1 - (X1 - X0) * Y2 - (X2 - X1) * Y0) by (unfold h, height, edge; field; lra).
  transitivity (s * T / 2 * ((X2 - X0) * h)); [rewrite HH; field|field].
Qed.

Lemma height_between X0 Y0 X1 Y1 X2 Y2 d : X0 <= X1 -> X1 <= X2 -> X0 < X2 -> Rabs (Y1 - Y0) <= d -> Rabs (Y1 - Y2) <= d -> Rabs (height X0 Y0 X1 Y1 X2 Y2) <= d.
Proof.
  intros H01 H12 H02 A B.
  assert (E : height X0 Y0 X1 Y1 X2 Y2 = (X2 - X1) / (X2 - X0) * (Y1 - Y0) + (X1 - X0) / (X2 - X0) * (Y1 - Y2)) by (unfold height, edge; field; lra).
  rewrite E. eapply Rle_trans; [apply Rabs_triang|]. rewrite !Rabs_mult.
  assert (I : 0 < / (X2 - X0)) by (apply Rinv_0_lt_compat; lra).
  rewrite (Rabs_pos_eq ((X2 - X1) / (X2 - X0))), (Rabs_pos_eq ((X1 - X0) / (X2 - X0))) by (unfold Rdiv; apply Rmult_le_pos; lra).
  assert (S : (X2 - X1) / (X2 - X0) + (X1 - X0) / (X2 - X0) = 1) by (field; lra).
  assert (0 <= (X2 - X1) / (X2 - X0)) by (unfold Rdiv; apply Rmult_le_pos; lra).
  assert (0 <= (X1 - X0) / (X2 - X0)) by (unfold Rdiv; apply Rmult_le_pos; lra).
  apply Rle_trans with ((X2 - X1) / (X2 - X0) * d + (X1 - X0) / (X2 - X0) * d); [apply Rplus_le_compat; apply Rmult_le_compat_l; auto|].
  rewrite <- Rmult_plus_distr_r, S. lra.
Qed.

(** [ya yb yc]: the second frequencies in the order of the call, any permutation of y0 y1 y2. *)
Theorem one_row_cell x0 y0 x1 y1 x2 y2 ya yb yc amp p m0 m1 k q : (x0 <= x1)%Q -> (x1 <= x2)%Q -> (x0 < x2)%Q ->
  height (Q2R x0) (Q2R y0) (Q2R x1) (Q2R y1) (Q2R x2) (Q2R y2) <> 0 ->
  Permutation [ya; yb; yc] [y0; y1; y2] ->
  trunc x0 = p -> trunc x2 = p -> (0 <= k < m0)%Z -> (0 <= q < m1)%Z ->
  ((1 <= k)%Z \/ (0 <= x0)%Q \/ (x0 <= -(1))%Q) ->
  ((1 <= q)%Z \/ (0 <= y0 /\ 0 <= y1 /\ 0 <= y2)%Q) ->
  share_close (Q2R amp) (Q2R x0, Q2R y0) (Q2R x1, Q2R y1) (Q2R x2, Q2R y2) k q
    (Q2R (cell (flat_map (call_writes m1) (if (m0 <=? p)%Z || (p <? 0)%Z then [] else [Call p ya yb yc amp])) m1 k q)).
Proof.
  intros H01 H12 H02 Hh HP T0 T2 Hk Hq Hrow Hcol.
  pose proof (Qle_Rle _ _ H01) as A01. pose proof (Qle_Rle _ _ H12) as A12. pose proof (Qlt_Rlt _ _ H02) as A02.
  assert (K0 : 0 <= IZR k) by (apply IZR_le; lia).
  assert (KM : IZR k + 1 <= IZR m0) by (rewrite <- plus_IZR; apply IZR_le; lia).
  assert (EMPTY : (Q2R x2 <= IZR k \/ IZR k + 1 <= Q2R x0) -> forall e,
     rise_strip (Q2R x0) (Q2R y0) (Q2R x1) (Q2R y1) (Q2R x2) (Q2R y2) (IZR k) (IZR k + 1) e + fall_strip (Q2R x0) (Q2R y0) (Q2R x1) (Q2R y1) (Q2R x2) (Q2R y2) (IZR k) (IZR k + 1) e = 0).
  { intros [C|C] e; unfold rise_strip, fall_strip.
    - destruct (clamp_high (Q2R x0) (Q2R x1) (IZR k) (IZR k + 1) A01) as [-> ->]; try lra. destruct (clamp_high (Q2R x1) (Q2R x2) (IZR k) (IZR k + 1) A12) as [-> ->]; try lra. rewrite !strip_empty. lra.
    - destruct (clamp_low (Q2R x0) (Q2R x1) (IZR k) (IZR k + 1) A01) as [-> ->]; try lra. destruct (clamp_low (Q2R x1) (Q2R x2) (IZR k) (IZR k + 1) A12) as [-> ->]; try lra. rewrite !strip_empty. lra. }
  assert (TB := thin_bound_nonneg x0 y0 x1 y1 x2 y2 amp).
  destruct (Z.leb_spec m0 p) as [L|L]; cbn [orb].
  { apply share_of_rows; auto; [|cbn [row_thin]; lra|intros c []]. intros e. rewrite EMPTY; [cbn [row_below]; lra|].
    right. pose proof (tr_ge m0 x0 ltac:(lia) ltac:(lia)). lra. }
  destruct (Z.ltb_spec p 0) as [L'|L'].
  { apply share_of_rows; auto; [|cbn [row_thin]; lra|intros c []]. intros e. rewrite EMPTY; [cbn [row_below]; lra|].
    left. pose proof (tr_neg x2 ltac:(lia)). lra. }
  assert (B2 : Q2R x2 < IZR p + 1) by (apply tr_lt; lia).
  assert (CO : forall c, In c [Call p ya yb yc amp] -> row c = k -> column_ok q c).
  { intros c [<-|[]] _. destruct (Z.eq_dec q 0) as [Q0|Q0]; [right|left; lia]. split; auto. cbn [Interp2DModel.ya Interp2DModel.yb Interp2DModel.yc].
    destruct Hcol as [?|[C0 [C1 C2]]]; [lia|].
    repeat split; (match goal with |- (0 <= ?y)%Q => assert (I : In y [y0; y1; y2]) by (apply (Permutation_in _ HP); cbn; auto) end; destruct I as [<-|[<-|[<-|[]]]]; auto). }
  destruct (Z.eq_dec p k) as [E|E].
  - assert (T0' : trunc x0 = k) by lia. rewrite E in B2, CO |- *. assert (B0 : IZR k <= Q2R x0).
    { destruct (Z.eq_dec k 0) as [Z0|Z0]; [|apply tr_ge; lia].
      destruct Hrow as [?|[H|H]]; [lia| |].
      - apply Qle_Rle in H. rewrite Q2R_0 in H. rewrite Z0. auto.
      - exfalso. destruct (trunc_neg x0) as [_ [V _]]; [eapply Qle_trans; [exact H|discriminate]|].
        apply Qlt_Rlt in V. apply Qle_Rle in H. revert V H. rewrite T0', Z0. q2r. lra. }
    destruct (density_area x0 y0 x1 y1 x2 y2 amp H02 Hh) as [AP DE]. rewrite sorted_triangle_area in AP, DE by auto.
    apply share_of_rows; auto.
    + intros e. rewrite whole_strips by lra. cbn [row_below row]. rewrite Z.eqb_refl. unfold below_line. cbn [Interp2DModel.ya Interp2DModel.yb Interp2DModel.yc amount].
      rewrite (tentS_perm _ _ _ _ _ _ _ HP), DE. set (g := sgn _ _ _ _ _ _ * _) in *. field. nra.
    + cbn [row_thin row]. rewrite Z.eqb_refl. cbn [andb amount]. destruct (thinb _) eqn:T; [|lra].
      destruct (thin_gap _ T) as [G1 [G2 G3]]. cbn [Interp2DModel.ya Interp2DModel.yb Interp2DModel.yc] in G1, G2, G3.
      assert (G : Rabs (Q2R y1 - Q2R y0) <= 2 * Q2R TOL /\ Rabs (Q2R y1 - Q2R y2) <= 2 * Q2R TOL).
      { destruct (perm3 _ _ _ _ _ _ HP) as [[? [? ?]]|[[? [? ?]]|[[? [? ?]]|[[? [? ?]]|[[? [? ?]]|[? [? ?]]]]]]]; subst;
          split; first [exact G1|exact G2|exact G3|rewrite Rabs_minus_sym; first [exact G1|exact G2|exact G3]]. }
      pose proof (height_between _ _ _ _ _ _ _ A01 A12 A02 (proj1 G) (proj2 G)) as HB.
      pose proof (sg_abs x0 y0 x1 y1 x2 y2 (height (Q2R x0) (Q2R y0) (Q2R x1) (Q2R y1) (Q2R x2) (Q2R y2))) as SA.
      pose proof (sgh x0 y0 x1 y1 x2 y2 Hh) as SH. rewrite Rabs_pos_eq in SA by lra. unfold thin_bound. rewrite DE.
      set (g := sgn _ _ _ _ _ _ * _) in *. unfold Rdiv at 1. rewrite Rabs_mult, (Rabs_pos_eq (/ _)) by (left; apply Rinv_0_lt_compat; auto).
      assert (AR : (Q2R x2 - Q2R x0) * g / 2 <= Q2R TOL) by nra.
      pose proof (Rabs_pos (Q2R amp)) as AA. set (ar := (Q2R x2 - Q2R x0) * g / 2) in *.
      assert (1 <= / ar * Q2R TOL).
      { apply (Rmult_le_reg_l ar); auto. rewrite <- Rmult_assoc, Rinv_r by lra. lra. }
      nra.
  - apply share_of_rows; auto; [|cbn [row_thin row]; destruct (Z.eqb_spec p k); [contradiction|]; cbn [andb]; lra].
    intros e. cbn [row_below row]. destruct (Z.eqb_spec p k); [contradiction|]. rewrite EMPTY; [lra|].
    destruct (Z_lt_le_dec k p).
    + right. assert (IZR k + 1 <= IZR p) by (rewrite <- plus_IZR; apply IZR_le; lia). pose proof (tr_ge p x0 ltac:(lia) ltac:(lia)). lra.
    + left. assert (IZR p + 1 <= IZR k) by (rewrite <- plus_IZR; apply IZR_le; lia). lra.
Qed.

(** ** Any triangle *)
Definition vert (a : Q * Q) : R * R := (Q2R (fst a), Q2R (snd a)).
Lemma share_swap12 amp A B C k q v : share_close amp A B C k q v -> share_close amp B A C k q v.
Proof. intros [s [H1 H2]]. exists s. rewrite triangle_area_swap12. split; auto. apply area_swap12; auto. Qed.
Lemma share_swap23 amp A B C k q v : share_close amp A B C k q v -> share_close amp A C B k q v.
Proof. intros [s [H1 H2]]. exists s. rewrite triangle_area_swap23. split; auto. apply area_swap23; auto. Qed.
Lemma share_sort amp a b c k q z : let '(u, v, w) := sort3_pairs a b c in
  (share_close amp (vert u) (vert v) (vert w) k q z -> share_close amp (vert a) (vert b) (vert c) k q z) /\
  triangle_area (vert u) (vert v) (vert w) = triangle_area (vert a) (vert b) (vert c) /\
  Permutation [a; b; c] [u; v; w] /\ (fst u <= fst v)%Q /\ (fst v <= fst w)%Q.
Proof.
  unfold sort3_pairs. destruct (Qltb_spec (fst b) (fst a)) as [L1|L1].
  - destruct (Qltb_spec (fst c) (fst a)) as [L2|L2].
    + destruct (Qltb_spec (fst c) (fst b)) as [L3|L3].
      * split; [intros H; apply share_swap23, share_swap12, share_swap23; exact H|].
        split; [rewrite triangle_area_swap12, triangle_area_swap23, triangle_area_swap12, triangle_area_swap23, triangle_area_swap12, triangle_area_swap23, triangle_area_swap12; reflexivity|].
        split; [|split; apply Qlt_le_weak; auto]. apply perm_trans with [b; a; c]; [constructor|]. apply perm_trans with [b; c; a]; [repeat constructor|constructor].
      * split; [intros H; apply share_swap12, share_swap23; exact H|].
        split; [rewrite triangle_area_swap23, triangle_area_swap12; reflexivity|].
        split; [|split; [apply Qnot_lt_le; auto|apply Qlt_le_weak; auto]]. apply perm_trans with [b; a; c]; repeat constructor.
    + split; [intros H; apply share_swap12; exact H|]. split; [rewrite triangle_area_swap12; reflexivity|].
      split; [constructor|split; [apply Qlt_le_weak; auto|apply Qnot_lt_le; auto]].
  - apply Qnot_lt_le in L1. destruct (Qltb_spec (fst c) (fst b)) as [L2|L2].
    + destruct (Qltb_spec (fst c) (fst a)) as [L3|L3].
      * split; [intros H; apply share_swap23, share_swap12; exact H|].
        split; [rewrite triangle_area_swap12, triangle_area_swap23; reflexivity|].
        split; [|split; [apply Qlt_le_weak; auto|auto]]. apply perm_trans with [a; c; b]; repeat constructor.
      * split; [intros H; apply share_swap23; exact H|]. split; [rewrite triangle_area_swap23; reflexivity|].
        split; [repeat constructor|split; [apply Qnot_lt_le; auto|apply Qlt_le_weak; auto]].
    + split; [auto|]. split; [reflexivity|]. split; [apply Permutation_refl|split; [auto|apply Qnot_lt_le; auto]].
Qed.

Theorem cell_share x1 x2 x3 y1 y2 y3 amp m0 m1 w k q : (0 <= k < m0)%Z -> (0 <= q < m1)%Z ->
  triangle_interpolation2D x1 x2 x3 y1 y2 y3 amp m0 m1 = Some w ->
  triangle_area (Q2R x1, Q2R y1) (Q2R x2, Q2R y2) (Q2R x3, Q2R y3) <> 0 ->
  ~ (Qabs (x1 - x2) < TOL /\ Qabs (x1 - x3) < TOL)%Q ->
  (1 <= k)%Z \/ (0 <= x1 /\ 0 <= x2 /\ 0 <= x3)%Q \/ (x1 <= -(1) \/ x2 <= -(1) \/ x3 <= -(1))%Q ->
  ((-(1) < x1 /\ -(1) < x2) \/ (-(1) < x1 /\ -(1) < x3) \/ (-(1) < x2 /\ -(1) < x3))%Q \/ k = 0%Z ->
  (1 <= q)%Z \/ (0 <= y1 /\ 0 <= y2 /\ 0 <= y3)%Q ->
  share_close (Q2R amp) (Q2R x1, Q2R y1) (Q2R x2, Q2R y2) (Q2R x3, Q2R y3) k q (Q2R (cell w m1 k q)).
Proof.
  intros Hk Hq HW HA HT Hrow Hclip Hcol. unfold triangle_interpolation2D in HW.
  destruct (calls2D x1 x2 x3 y1 y2 y3 amp m0) as [cs|] eqn:EC; [|discriminate].
  apply (f_equal (fun o => match o with Some l => l | None => [] end)) in HW. cbn beta iota in HW. subst w.
  rewrite calls2D_unfold in EC.
  destruct (Qltb_spec (Qabs (x1 - x2)) TOL) as [T1|T1]; [destruct (Qltb_spec (Qabs (x1 - x3)) TOL) as [T2|T2]; [exfalso; apply HT; auto|]|]; cbn [andb] in EC.
  all: clear HT T1; try clear T2.
  all: pose proof (share_sort (Q2R amp) (x1, y1) (x2, y2) (x3, y3) k q (Q2R (cell (flat_map (call_writes m1) cs) m1 k q))) as S.
  all: destruct (sort3_pairs (x1, y1) (x2, y2) (x3, y3)) as [[[u yu] [v yv]] [w yw]]; destruct S as [S1 [S2 [S3 [S4 S5]]]].
  all: unfold vert in S1, S2; cbn [fst snd] in S1, S2, S4, S5; rewrite <- S2 in HA.
  all: assert (H02 : (u < w)%Q).
  1,3: destruct (Qlt_le_dec u w) as [L|L]; auto; exfalso; apply HA; assert (E1 : Q2R u = Q2R w) by (apply Qeq_eqR, Qle_antisym; auto; eapply Qle_trans; eauto);
       assert (E2 : Q2R v = Q2R w) by (apply Qeq_eqR, Qle_antisym; [exact S5|eapply Qle_trans; eauto]);
       unfold triangle_area; cbn [fst snd]; rewrite E1, E2; replace (_ - _) with 0 by ring; rewrite Rabs_R0; lra.
  all: assert (Hh : height (Q2R u) (Q2R yu) (Q2R v) (Q2R yv) (Q2R w) (Q2R yw) <> 0)
      by (intros Z; apply HA; rewrite sorted_triangle_area by (apply Qlt_Rlt; auto); rewrite Z; lra).
  all: assert (PX : Permutation [x1; x2; x3] [u; v; w]) by exact (Permutation_map fst S3).
  all: assert (PY : Permutation [y1; y2; y3] [yu; yv; yw]) by exact (Permutation_map snd S3).
  all: assert (PXi : forall P : Q -> Prop, P x1 /\ P x2 /\ P x3 -> P u /\ P v /\ P w)
      by (intros P [P1 [P2 P3]]; assert (F : forall z, In z [u; v; w] -> P z) by (intros z I; apply (Permutation_in _ (Permutation_sym PX)) in I; destruct I as [<-|[<-|[<-|[]]]]; auto); repeat split; apply F; cbn; auto).
  all: assert (PYi : forall P : Q -> Prop, P y1 /\ P y2 /\ P y3 -> P yu /\ P yv /\ P yw)
      by (intros P [P1 [P2 P3]]; assert (F : forall z, In z [yu; yv; yw] -> P z) by (intros z I; apply (Permutation_in _ (Permutation_sym PY)) in I; destruct I as [<-|[<-|[<-|[]]]]; auto); repeat split; apply F; cbn; auto).
  all: assert (HR : (1 <= k)%Z \/ (0 <= u)%Q \/ (u <= -(1))%Q).
  1,3: destruct Hrow as [H|[H|H]]; [left; auto|right; left; apply (PXi (fun z => 0 <= z)%Q H)|right; right];
       assert (F : forall z, In z [x1; x2; x3] -> (u <= z)%Q)
         by (intros z I; apply (Permutation_in _ PX) in I; destruct I as [<-|[<-|[<-|[]]]]; [apply Qle_refl|auto|eapply Qle_trans; eauto]);
       destruct H as [H|[H|H]]; (eapply Qle_trans; [apply F|exact H]); cbn; auto.
  all: assert (HC : (1 <= q)%Z \/ (0 <= yu /\ 0 <= yv /\ 0 <= yw)%Q)
      by (destruct Hcol as [H|H]; [left; auto|right; apply (PYi (fun z => 0 <= z)%Q H)]).
  all: assert (HL : (v <= -(1))%Q -> k = 0%Z).
  1,3: intros V; destruct Hclip as [H|H]; auto; exfalso; assert (U : (u <= -(1))%Q) by (eapply Qle_trans; eauto);
       assert (N : forall z, (-(1) < z)%Q -> (z <= -(1))%Q -> False) by (intros z Z1 Z2; exact (Qlt_not_le _ _ Z1 Z2));
       destruct (perm3 _ _ _ _ _ _ PX) as [[? [? ?]]|[[? [? ?]]|[[? [? ?]]|[[? [? ?]]|[[? [? ?]]|[? [? ?]]]]]]]; subst;
       destruct H as [[? ?]|[[? ?]|[? ?]]]; eauto.
  all: apply S1.
  all: destruct (Z.eqb_spec (trunc x1) (trunc x2)) as [E1|E1]; [destruct (Z.eqb_spec (trunc x1) (trunc x3)) as [E2|E2]|]; cbn [andb] in EC.
  all: try (eapply sorted_cell; eauto; intros V; right; left; apply HL; auto).
  all: assert (PT : trunc u = trunc x1 /\ trunc v = trunc x1 /\ trunc w = trunc x1) by (apply (PXi (fun z => trunc z = trunc x1)); auto).
  all: destruct PT as [PT1 [PT2 PT3]].
  all: assert (EQ : cs = if (m0 <=? trunc x1)%Z || (trunc x1 <? 0)%Z then [] else [Call (trunc x1) y1 y2 y3 amp]) by (destruct (_ || _); congruence).
  all: rewrite EQ; eapply one_row_cell; eauto.
Qed.
