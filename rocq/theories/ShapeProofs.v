(** Proofs about the shape of a spectrum. *)
From Coq Require Import Reals QArith Qabs Qreals List ZArith Lia Lqa Bool Permutation.
From Verif Require Import InterpModel InterpSpec PowderModel InterpProofs WalkProofs DeltaProofs PowderProofs PowderMoment ShapeSpec DftModel DftProofs WignerNorm AverageSpec AverageProofs AverageCentre.
From Coq Require Import Lra.
Import ListNotations.
Open Scope R_scope.

(** ** One triangle *)
Section Fractions.
Local Open Scope Q_scope.
Lemma triangle_fractions a b c amp points : 0 <= a -> 0 <= b -> 0 <= c -> a < zq points -> b < zq points -> c < zq points ->
  exists (lo hi : Q) (frac : Z -> Q), (lo == a \/ lo == b \/ lo == c) /\ (hi == a \/ hi == b \/ hi == c) /\
  forall k, In k (bins points) -> deposit (triangle a b c amp points) k == amp * frac k /\ 0 <= frac k /\ (frac k == 0 \/ lo - (1 # 2) <= centre k /\ centre k <= hi + (1 # 2)).
Proof.
  intros Ha Hb Hc La Lb Lc. pose proof (sort3_spec a b c) as S. destruct (sort3 a b c) as [[x y] z]. destruct S as [S1 [S2 S3]].
  assert (B : 0 <= x /\ z < zq points) by (destruct (perm3 _ _ _ _ _ _ S3) as [[? [? ?]]|[[? [? ?]]|[[? [? ?]]|[[? [? ?]]|[[? [? ?]]|[? [? ?]]]]]]]; subst; split; Lqa.lra).
  assert (IX : x == a \/ x == b \/ x == c) by (destruct (perm3 _ _ _ _ _ _ S3) as [[? [? ?]]|[[? [? ?]]|[[? [? ?]]|[[? [? ?]]|[[? [? ?]]|[? [? ?]]]]]]]; subst; auto using Qeq_refl).
  assert (IZ : z == a \/ z == b \/ z == c) by (destruct (perm3 _ _ _ _ _ _ S3) as [[? [? ?]]|[[? [? ?]]|[[? [? ?]]|[[? [? ?]]|[[? [? ?]]|[? [? ?]]]]]]]; subst; auto using Qeq_refl).
  exists x, z. destruct (Qlt_le_dec x z) as [Hxz|Hxz].
  - exists (fun k => tent_cdf x y z (zq k + 1) - tent_cdf x y z (zq k)). split; auto. split; auto. intros k Hk. apply bins_in in Hk. split; [|split].
    + apply triangle_exact_sorted; auto; [|lia]. destruct (Z.eq_dec k 0); [right|left]; [split; [auto|Lqa.lra]|lia].
    + destruct (between_all x y z S1 S2 Hxz (zq k) (zq k + 1) ltac:(Lqa.lra)) as [B1 _]. Lqa.lra.
    + unfold centre, half. destruct (Qlt_le_dec x (zq k + 1)) as [A1|A1]; [|left; rewrite !tent_low by Lqa.lra; reflexivity].
      destruct (Qlt_le_dec (zq k) z) as [A2|A2]; [|left; rewrite !tent_high by Lqa.lra; reflexivity]. right. split; Lqa.lra.
  - assert (E : x == y /\ y == z) by (split; Lqa.lra). destruct E as [E1 E2].
    assert (T : trunc b = trunc a /\ trunc c = trunc a /\ b == a /\ c == a /\ x == a /\ z == a).
    { assert (trunc x = trunc y) by (rewrite E1; auto). assert (trunc y = trunc z) by (rewrite E2; auto).
      destruct (perm3 _ _ _ _ _ _ S3) as [[? [? ?]]|[[? [? ?]]|[[? [? ?]]|[[? [? ?]]|[[? [? ?]]|[? [? ?]]]]]]]; subst; repeat split; congruence || Lqa.lra. }
    destruct T as [T1 [T2 [T3 [T4 [T5 T6]]]]]. exists (fun k => if Z.eqb (trunc a) k then 1 else 0). split; auto. split; auto. intros k Hk.
    rewrite (triangle_same_bin a b c amp points (trunc a)) by auto. destruct (trunc_nonneg a Ha) as [N1 [N2 N3]]. assert (trunc a < points)%Z by (apply (proj2 (zq_lt _ _)); Lqa.lra).
    destruct (Z.leb_spec points (trunc a)); [lia|]. destruct (Z.ltb_spec (trunc a) 0); [lia|]. cbn [orb]. rewrite deposit_cons, deposit_nil.
    destruct (Z.eqb_spec (trunc a) k) as [<-|NE]; [|split; [ring|split; [Lqa.lra|left; reflexivity]]]. split; [ring|]. split; [Lqa.lra|]. right. unfold centre, half. split; Lqa.lra.
Qed.
End Fractions.
Lemma half_R : Q2R (1 # 2) = / 2. Proof. unfold Q2R. cbn. field. Qed.
Lemma Q2R_0 : Q2R 0 = 0. Proof. unfold Q2R. cbn. field. Qed.
Lemma Q2R_abs q : Q2R (Qabs q) = Rabs (Q2R q).
Proof. destruct (Qlt_le_dec q 0) as [Lq|Lq]; [rewrite Qabs_neg, Q2R_opp by (apply Qlt_le_weak; auto); apply Qlt_Rlt in Lq|rewrite Qabs_pos by auto; apply Qle_Rle in Lq]; rewrite Q2R_0 in Lq; [rewrite Rabs_left|rewrite Rabs_right]; lra. Qed.
(** The content of a triangle, weighed with F, against F at a position v no further than d from the vertices. *)
Lemma triangle_weighed F lam a b c amp points v d : gentle F lam -> 0 <= lam -> (0 <= a)%Q -> (0 <= b)%Q -> (0 <= c)%Q -> (a < zq points)%Q -> (b < zq points)%Q -> (c < zq points)%Q ->
  Rabs (Q2R a - v) <= d -> Rabs (Q2R b - v) <= d -> Rabs (Q2R c - v) <= d ->
  Rabs (weighed F (triangle a b c amp points) points - Q2R amp * F v) <= Rabs (Q2R amp) * (lam * (/ 2 + d)).
Proof.
  intros G L0 Ha Hb Hc La Lb Lc Da Db Dc. destruct (triangle_fractions a b c amp points Ha Hb Hc La Lb Lc) as (lo & hi & frac & IL & IH & FR).
  assert (DL : v - d <= Q2R lo) by (apply Rcomplements.Rabs_le_between in Da, Db, Dc; destruct IL as [E|[E|E]]; apply Qeq_eqR in E; rewrite E; lra).
  assert (DH : Q2R hi <= v + d) by (apply Rcomplements.Rabs_le_between in Da, Db, Dc; destruct IH as [E|[E|E]]; apply Qeq_eqR in E; rewrite E; lra).
  set (l := bins points) in *. set (w := fun k => Q2R (frac k)).
  assert (ONE : Q2R amp * lsum w l = Q2R amp).
  { pose proof (triangle_total a b c amp points Ha Hb Hc La Lb Lc) as T. unfold total in T. fold l in T. apply Qeq_eqR in T. rewrite Q2R_qsum, map_map in T. rewrite <- T at 2. rewrite <- lsum_scal. unfold lsum. apply fold_ext. intros k Hk. destruct (FR k Hk) as [E _]. apply Qeq_eqR in E. rewrite E, Q2R_mult. reflexivity. }
  assert (W : weighed F (triangle a b c amp points) points = lsum (fun k => Q2R amp * (F (Q2R (centre k)) * w k)) l).
  { unfold weighed, lsum. fold l. apply fold_ext. intros k Hk. destruct (FR k Hk) as [E _]. apply Qeq_eqR in E. rewrite E, Q2R_mult. unfold w. ring. }
  rewrite W. replace (Q2R amp * F v) with (F v * (Q2R amp * lsum w l)) by (rewrite ONE; ring).
  replace (F v * (Q2R amp * lsum w l)) with (lsum (fun k => Q2R amp * (F v * w k)) l) by (rewrite !lsum_scal; ring).
  replace (lsum (fun k => Q2R amp * (F (Q2R (centre k)) * w k)) l - lsum (fun k => Q2R amp * (F v * w k)) l) with (Q2R amp * lsum (fun k => (F (Q2R (centre k)) - F v) * w k) l).
  2:{ rewrite !lsum_scal. rewrite <- Rmult_minus_distr_l. f_equal. transitivity (lsum (fun k => F (Q2R (centre k)) * w k + - F v * w k) l); [unfold lsum; apply fold_ext; intros; ring|]. rewrite lsum_plus, lsum_scal. ring. }
  rewrite Rabs_mult. replace (Rabs (Q2R amp) * (lam * (/ 2 + d))) with (lam * (/ 2 + d) * Rabs (Q2R amp * lsum w l)) by (rewrite ONE; ring).
  assert (P : forall k, In k l -> 0 <= w k) by (intros k Hk; destruct (FR k Hk) as (_ & E & _); apply Qle_Rle in E; rewrite Q2R_0 in E; exact E).
  rewrite Rabs_mult. rewrite (Rabs_pos_eq (lsum w l)). 2:{ clear - P. unfold lsum. induction l as [|k l I]; cbn; [lra|]. pose proof (P k (or_introl eq_refl)). specialize (I (fun x H => P x (or_intror H))). lra. }
  replace (lam * (/ 2 + d) * (Rabs (Q2R amp) * lsum w l)) with (Rabs (Q2R amp) * lsum (fun k => lam * (/ 2 + d) * w k) l) by (rewrite lsum_scal; ring). apply Rmult_le_compat_l; [apply Rabs_pos|].
  apply lsum_abs. intros k Hk. destruct (FR k Hk) as (_ & _ & [Z0|[C1 C2]]).
  - apply Qeq_eqR in Z0. unfold w. rewrite Z0, Q2R_0. rewrite !Rmult_0_r, Rabs_R0. lra.
  - apply Qle_Rle in C1, C2. rewrite Q2R_minus in C1. rewrite Q2R_plus in C2. rewrite half_R in C1, C2. rewrite Rabs_mult, (Rabs_pos_eq (w k)) by (apply P; auto). apply Rmult_le_compat_r; [apply P; auto|].
    eapply Rle_trans; [apply G|]. apply Rmult_le_compat_l; auto. apply Rcomplements.Rabs_le_between. lra.
Qed.
Lemma triangle_shape F lam f t freq amp points d e : gentle F lam -> 0 <= lam -> let '(a, b, c) := t in
  (forall p, p = a \/ p = b \/ p = c -> (0 <= freq p)%Q /\ (freq p < zq points)%Q /\ Rabs (Q2R (freq p) - f p) <= e) -> narrow f d t -> 0 <= d ->
  Rabs (weighed F (triangle (freq a) (freq b) (freq c) amp points) points - Q2R amp * vertex_mean F f t) <= Rabs (Q2R amp) * (lam * (/ 2 + (d + e))).
Proof.
  intros G L0. destruct t as [[a b] c]. intros H (N1 & N2 & N3) D0. destruct (H a) as (A0 & A1 & A2); auto. destruct (H b) as (B0 & B1 & B2); auto. destruct (H c) as (C0 & C1 & C2); auto.
  assert (V : forall v, v = f a \/ v = f b \/ v = f c -> Rabs (weighed F (triangle (freq a) (freq b) (freq c) amp points) points - Q2R amp * F v) <= Rabs (Q2R amp) * (lam * (/ 2 + (d + e)))).
  { intros v Hv. apply Rcomplements.Rabs_le_between in N1, N2, N3, A2, B2, C2. apply triangle_weighed; auto; apply Rcomplements.Rabs_le_between; destruct Hv as [->|[->| ->]]; lra. }
  pose proof (V (f a) ltac:(auto)) as VA. pose proof (V (f b) ltac:(auto)) as VB. pose proof (V (f c) ltac:(auto)) as VC. unfold vertex_mean. set (x := weighed _ _ _) in *. set (q := Q2R amp) in *. set (B := Rabs q * _) in *.
  apply Rcomplements.Rabs_le_between in VA, VB, VC. apply Rcomplements.Rabs_le_between. replace (x - q * ((F (f a) + F (f b) + F (f c)) / 3)) with (((x - q * F (f a)) + (x - q * F (f b)) + (x - q * F (f c))) / 3) by field. lra.
Qed.
(** ** The whole pattern *)
Lemma weighed_app F u v points : weighed F (u ++ v) points = weighed F u points + weighed F v points.
Proof.
  unfold weighed. fold (lsum (fun k => F (Q2R (centre k)) * Q2R (deposit (u ++ v) k)) (bins points)). fold (lsum (fun k => F (Q2R (centre k)) * Q2R (deposit u k)) (bins points)). fold (lsum (fun k => F (Q2R (centre k)) * Q2R (deposit v k)) (bins points)).
  rewrite <- lsum_plus. unfold lsum. apply fold_ext. intros k _. rewrite (Qeq_eqR _ _ (deposit_app u v k)), Q2R_plus. ring. Qed.
Lemma weighed_nil F points : weighed F [] points = 0.
Proof. unfold weighed. induction (bins points) as [|k l IH]; cbn [map fold_right]; auto. rewrite IH, (Qeq_eqR _ _ (deposit_nil k)), Q2R_0. ring. Qed.
Lemma add_close a b c d e f : Rabs (a - b) <= e -> Rabs (c - d) <= f -> Rabs (a + c - (b + d)) <= e + f.
Proof. intros A B. apply Rcomplements.Rabs_le_between in A, B. apply Rcomplements.Rabs_le_between. lra. Qed.
Lemma octahedron_shape F lam nt f freq amp m w d e : gentle F lam -> 0 <= lam -> 0 <= d ->
  octahedron_interpolation nt freq amp m = Some w ->
  (forall i, (i < n_pts nt)%nat -> (0 <= freq i)%Q /\ (freq i < zq m)%Q /\ Rabs (Q2R (freq i) - f i) <= e) ->
  (forall t, In t (grid_tris nt) -> narrow f d t) ->
  Rabs (weighed F w m - fold_right Rplus 0 (map (fun t => Q2R (vertex_sum amp t) * vertex_mean F f t) (grid_tris nt))) <= fold_right Rplus 0 (map (fun t => Rabs (Q2R (vertex_sum amp t)) * (lam * (/ 2 + (d + e)))) (grid_tris nt)).
Proof.
  intros G L0 D0. unfold octahedron_interpolation. rewrite triangles_grid. intros E H. injection E as <-.
  assert (B : forall t, In t (grid_tris nt) -> let '(a, b, c) := t in (a < n_pts nt)%nat /\ (b < n_pts nt)%nat /\ (c < n_pts nt)%nat).
  { intros t Ht. apply grid_in in Ht. destruct Ht as [r [c [Hr [[Hc ->]|[Hc ->]]]]]; unfold up, down; repeat split; apply point_bound; lia. }
  induction (grid_tris nt) as [|t l IH]; intros N; [cbn [flat_map map fold_right]; rewrite weighed_nil, Rminus_0_r, Rabs_R0; lra|].
  cbn [flat_map map fold_right]. rewrite weighed_app. apply add_close; [|apply IH; intros; [apply B|apply N]; simpl; auto].
  specialize (B t (or_introl eq_refl)). specialize (N t (or_introl eq_refl)). rewrite <- (Qeq_eqR _ _ (tri_vertex amp t)). pose proof (triangle_shape F lam f t freq (tri_amp amp t) m d e G L0) as T. destruct t as [[a b] c]. destruct B as [Ba [Bb Bc]]. apply T; auto. intros p [->|[->| ->]]; auto.
Qed.
Lemma pattern_shape F lam nt n_oct nsb offset_0 vr freq norm sb count w f d e : gentle F lam -> 0 <= lam -> 0 <= d ->
  averaging_1d nt n_oct nsb offset_0 vr freq norm sb count = Some w ->
  is_delta nt (n_pts nt) freq = false ->
  (forall i, (i < nsb)%nat -> in_window (offset_0 + vr i) count = true) ->
  (forall i p, (i < nsb)%nat -> (p < n_oct * n_pts nt)%nat -> (0 <= freq p + (offset_0 + vr i))%Q /\ (freq p + (offset_0 + vr i) < zq count)%Q) ->
  (forall o, (o < n_oct * n_pts nt)%nat -> Rabs (Q2R (freq o) - f o) <= e) ->
  (forall j t, (j < n_oct)%nat -> In t (grid_tris nt) -> narrow (fun p => f (j * n_pts nt + p)%nat) d t) ->
  let amp i j p := amps_1d nsb (n_pts nt) norm sb (i * (n_oct * n_pts nt) + j * n_pts nt + p)%nat in
  Rabs (weighed F w count - over_all nt n_oct nsb (fun i j t => Q2R (vertex_sum (amp i j) t) * vertex_mean F (fun p => Q2R (offset_0 + vr i) + f (j * n_pts nt + p)%nat) t))
  <= over_all nt n_oct nsb (fun i j t => Rabs (Q2R (vertex_sum (amp i j) t)) * (lam * (/ 2 + (d + e)))).
Proof.
  intros G L0 D0. unfold averaging_1d, over_all. cbn zeta. set (amps := amps_1d nsb (n_pts nt) norm sb). intros H D HW HF HE HN. rewrite D in H.
  assert (L : forall i, In i (seq 0 nsb) -> (i < nsb)%nat) by (intros i Hi; apply in_seq in Hi; lia).
  revert w H. induction (seq 0 nsb) as [|i l IH]; intros w E.
  { simpl in E. injection E as <-. rewrite weighed_nil. cbn. rewrite Rminus_0_r, Rabs_R0. lra. }
  cbn [flat_map] in E. apply opt_concat_app in E. destruct E as [x [y [Ex [Ey ->]]]].
  rewrite weighed_app. cbn [map fold_right]. apply add_close; [|apply IH; auto; intros; apply L; simpl; auto].
  assert (Hi : (i < nsb)%nat) by (apply L; simpl; auto). rewrite HW in Ex by auto. clear IH Ey y HW L.
  assert (Lj : forall j, In j (seq 0 n_oct) -> (j < n_oct)%nat) by (intros j Hj; apply in_seq in Hj; lia).
  revert x Ex. induction (seq 0 n_oct) as [|j js IHj]; intros x Ex.
  { simpl in Ex. injection Ex as <-. rewrite weighed_nil. cbn. rewrite Rminus_0_r, Rabs_R0. lra. }
  change (map ?g (j :: js)) with ([g j] ++ map g js) in Ex at 1. apply opt_concat_app in Ex. destruct Ex as [u [v [Eu [Ev ->]]]].
  rewrite weighed_app. cbn [map fold_right]. apply add_close; [|apply IHj; auto; intros; apply Lj; simpl; auto].
  assert (Hj : (j < n_oct)%nat) by (apply Lj; simpl; auto). cbn [opt_concat] in Eu.
  destruct (octahedron_interpolation _ _ _ _) as [z|] eqn:Z0; [|discriminate]. injection Eu as <-. rewrite app_nil_r.
  apply (octahedron_shape F lam nt (fun p => Q2R (offset_0 + vr i) + f (j * n_pts nt + p)%nat) _ _ _ _ d e G L0 D0 Z0).
  - intros p Hp. destruct (HF i (j * n_pts nt + p)%nat Hi ltac:(nia)) as [F0 F1]. split; auto. split; auto. rewrite Q2R_plus. pose proof (HE (j * n_pts nt + p)%nat ltac:(nia)) as Q. replace (Q2R (freq (j * n_pts nt + p)%nat) + Q2R (offset_0 + vr i) - (Q2R (offset_0 + vr i) + f (j * n_pts nt + p)%nat)) with (Q2R (freq (j * n_pts nt + p)%nat) - f (j * n_pts nt + p)%nat) by ring. exact Q.
  - intros t Ht. specialize (HN j t Hj Ht). destruct t as [[a b] c]. unfold narrow in *. set (s := Q2R (offset_0 + vr i)). assert (K : forall x y, s + x - (s + y) = x - y) by (intros; ring). rewrite !K. exact HN.
Qed.
