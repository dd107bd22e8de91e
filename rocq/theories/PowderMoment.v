(** The centre of gravity of an interpolated powder pattern. *)
From Coq Require Import ZArith QArith Qabs Bool List Lia Lqa Qfield Setoid Morphisms Permutation.
From Verif Require Import InterpModel InterpSpec InterpProofs WalkProofs DeltaProofs PowderModel PowderProofs.
Import ListNotations.
Open Scope Q_scope.

(** ** The moment of a tent left of a position *)
Definition tent_moment (a b c x : Q) : Q :=
  if Qle_bool x a then 0
  else if Qltb x b then (x - a) * (x - a) * (2 * x + a) / (3 * ((c - a) * (b - a)))
  else if Qltb x c then (a + b + c) / 3 - (c - x) * (c - x) * (2 * x + c) / (3 * ((c - a) * (c - b)))
  else (a + b + c) / 3.
Global Instance tent_moment_proper : Proper (Qeq ==> Qeq ==> Qeq ==> Qeq ==> Qeq) tent_moment.
Proof.
  intros a a' Ea b b' Eb c c' Ec x x' Ex. unfold tent_moment.
  replace (Qle_bool x a) with (Qle_bool x' a') by (rewrite Ea, Ex; auto). replace (Qltb x b) with (Qltb x' b') by (unfold Qltb; rewrite Eb, Ex; auto).
  replace (Qltb x c) with (Qltb x' c') by (unfold Qltb; rewrite Ec, Ex; auto).
  destruct (Qle_bool x' a'); [reflexivity|]. destruct (Qltb x' b'); [rewrite Ea, Eb, Ec, Ex; reflexivity|]. destruct (Qltb x' c'); rewrite Ea, Eb, Ec, ?Ex; reflexivity.
Qed.
Section Tent.
Variables a b c : Q.
Hypothesis ab : a <= b.
Hypothesis bc : b <= c.
Hypothesis ac : a < c.
Lemma cdf_up x : a < b -> a <= x -> x <= b -> tent_cdf a b c x == (x - a) * (x - a) / ((c - a) * (b - a)).
Proof.
  intros H L U. unfold tent_cdf. destruct (Qle_bool_spec x a); [assert (E : x == a) by lra; rewrite E; field; split; lra|].
  destruct (Qltb_spec x b); [reflexivity|]. assert (E : x == b) by lra. destruct (Qltb_spec x c); rewrite E; [field; split; lra|]. assert (F : c == b) by lra. rewrite F. field. lra.
Qed.
Lemma cdf_down x : b < c -> b <= x -> x <= c -> tent_cdf a b c x == 1 - (c - x) * (c - x) / ((c - a) * (c - b)).
Proof.
  intros H L U. unfold tent_cdf. destruct (Qle_bool_spec x a); [assert (E : x == a) by lra; assert (F : b == a) by lra; rewrite E, F; field; lra|].
  destruct (Qltb_spec x b); [lra|]. destruct (Qltb_spec x c); [reflexivity|]. assert (E : x == c) by lra. rewrite E. field. split; lra.
Qed.
Lemma moment_up x : a < b -> a <= x -> x <= b -> tent_moment a b c x == (x - a) * (x - a) * (2 * x + a) / (3 * ((c - a) * (b - a))).
Proof.
  intros H L U. unfold tent_moment. destruct (Qle_bool_spec x a); [assert (E : x == a) by lra; rewrite E; field; split; lra|].
  destruct (Qltb_spec x b); [reflexivity|]. assert (E : x == b) by lra. destruct (Qltb_spec x c); rewrite E; [field; split; lra|]. assert (F : c == b) by lra. rewrite F. field. lra.
Qed.
Lemma moment_down x : b < c -> b <= x -> x <= c -> tent_moment a b c x == (a + b + c) / 3 - (c - x) * (c - x) * (2 * x + c) / (3 * ((c - a) * (c - b))).
Proof.
  intros H L U. unfold tent_moment. destruct (Qle_bool_spec x a); [assert (E : x == a) by lra; assert (F : b == a) by lra; rewrite E, F; field; lra|].
  destruct (Qltb_spec x b); [lra|]. destruct (Qltb_spec x c); [reflexivity|]. assert (E : x == c) by lra. rewrite E. field. split; lra.
Qed.
Lemma moment_low x : x <= a -> tent_moment a b c x == 0.
Proof. intros H. unfold tent_moment. destruct (Qle_bool_spec x a); [reflexivity|lra]. Qed.
Lemma moment_high x : c <= x -> tent_moment a b c x == (a + b + c) / 3.
Proof. intros H. unfold tent_moment. destruct (Qle_bool_spec x a); [lra|]. destruct (Qltb_spec x b); [lra|]. destruct (Qltb_spec x c); [lra|reflexivity]. Qed.
(** The moment between two positions lies between those of its mass at the two ends. *)
Definition between (u v : Q) : Prop :=
  let F := tent_cdf a b c in let M := tent_moment a b c in F u <= F v /\ u * (F v - F u) <= M v - M u /\ M v - M u <= v * (F v - F u).
Lemma between_same u v : u == v -> between u v.
Proof. intros E. unfold between. rewrite E. repeat split; lra. Qed.
Lemma between_trans u m v : u <= m -> m <= v -> between u m -> between m v -> between u v.
Proof.
  intros H1 H2 [A1 [A2 A3]] [B1 [B2 B3]]. unfold between. set (Fu := tent_cdf a b c u) in *. set (Fm := tent_cdf a b c m) in *. set (Fv := tent_cdf a b c v) in *.
  set (Mu := tent_moment a b c u) in *. set (Mm := tent_moment a b c m) in *. set (Mv := tent_moment a b c v) in *. clearbody Fu Fm Fv Mu Mm Mv.
  split; [lra|]. assert (0 <= (m - u) * (Fv - Fm)) by (apply Qmult_le_0_compat; lra). assert (0 <= (v - m) * (Fm - Fu)) by (apply Qmult_le_0_compat; lra). split; lra.
Qed.
Lemma between_split m : (forall u v, u <= v -> v <= m -> between u v) -> (forall u v, m <= u -> u <= v -> between u v) -> forall u v, u <= v -> between u v.
Proof.
  intros L R u v H. destruct (Qlt_le_dec m v) as [A|A]; [|apply L; auto]. destruct (Qlt_le_dec u m) as [B|B]; [|apply R; auto].
  apply (between_trans u m v); try lra; [apply L|apply R]; lra.
Qed.
Lemma pos_div x y : 0 <= x -> 0 < y -> 0 <= x / y.
Proof. intros Hx Hy. unfold Qdiv. apply Qmult_le_0_compat; auto. apply Qlt_le_weak, Qinv_lt_0_compat; auto. Qed.
Lemma between_all u v : u <= v -> between u v.
Proof.
  revert u v. apply (between_split a).
  { intros u v H1 H2. unfold between. rewrite !tent_low, !moment_low by lra. repeat split; lra. }
  intros u0 v0 Hu0 Hv0. revert u0 v0 Hv0 Hu0. cut (forall u v, u <= v -> a <= u -> between u v); [auto|].
  intros u v H1 H2. destruct (Qlt_le_dec u c) as [UC|UC].
  2:{ unfold between. rewrite !tent_high, !moment_high by lra. repeat split; lra. }
  assert (UP : forall u v, a <= u -> u <= v -> v <= b -> between u v).
  { clear u v H1 H2 UC. intros u v H0 H1 H2. destruct (Qlt_le_dec a b) as [AB|AB]; [|apply between_same; lra]. unfold between. rewrite !cdf_up, !moment_up by lra.
    assert (D : 0 < 3 * ((c - a) * (b - a))) by (assert (0 < (c - a) * (b - a)) by (apply Qmult_lt_0_compat; lra); lra).
    set (p := u - a) in *. set (q := v - a) in *. assert (Ep : u == a + p) by (unfold p; lra). assert (Eq : v == a + q) by (unfold q; lra). assert (P0 : 0 <= p) by lra. assert (PQ : p <= q) by lra. clearbody p q.
    set (E := 3 * ((c - a) * (b - a))) in *. assert (EE : (c - a) * (b - a) == E / 3) by (unfold E; field). rewrite EE. assert (NE : ~ E == 0) by lra. clearbody E.
    assert (SQ : 0 <= (q - p) * (q - p)) by (apply Qmult_le_0_compat; lra).
    split; [|split].
    - assert (X : 0 <= (q - p) * (q + p) * 3 / E) by (apply pos_div; auto; apply Qmult_le_0_compat; [apply Qmult_le_0_compat; lra|lra]).
      setoid_replace ((q - p) * (q + p) * 3 / E) with (q * q / (E / 3) - p * p / (E / 3)) in X by (field; auto). lra.
    - assert (X : 0 <= (q - p) * (q - p) * (2 * q + p) / E) by (apply pos_div; auto; apply Qmult_le_0_compat; lra).
      setoid_replace ((q - p) * (q - p) * (2 * q + p) / E) with (q * q * (2 * v + a) / E - p * p * (2 * u + a) / E - u * (q * q / (E / 3) - p * p / (E / 3))) in X by (rewrite Ep, Eq; field; auto). lra.
    - assert (X : 0 <= (q - p) * (q - p) * (q + 2 * p) / E) by (apply pos_div; auto; apply Qmult_le_0_compat; lra).
      setoid_replace ((q - p) * (q - p) * (q + 2 * p) / E) with (v * (q * q / (E / 3) - p * p / (E / 3)) - (q * q * (2 * v + a) / E - p * p * (2 * u + a) / E)) in X by (rewrite Ep, Eq; field; auto). lra. }
  assert (DN : forall u v, b <= u -> u <= v -> v <= c -> between u v).
  { clear u v H1 H2 UC UP. intros u v H0 H1 H2. destruct (Qlt_le_dec b c) as [BC|BC]; [|apply between_same; lra]. unfold between. rewrite !cdf_down, !moment_down by lra.
    assert (D : 0 < 3 * ((c - a) * (c - b))) by (assert (0 < (c - a) * (c - b)) by (apply Qmult_lt_0_compat; lra); lra).
    set (p := c - u) in *. set (q := c - v) in *. assert (Ep : u == c - p) by (unfold p; lra). assert (Eq : v == c - q) by (unfold q; lra). assert (P0 : 0 <= q) by lra. assert (PQ : q <= p) by lra. clearbody p q.
    set (E := 3 * ((c - a) * (c - b))) in *. assert (EE : (c - a) * (c - b) == E / 3) by (unfold E; field). rewrite EE. assert (NE : ~ E == 0) by lra. clearbody E.
    assert (SQ : 0 <= (q - p) * (q - p)) by (assert (0 <= (p - q) * (p - q)) by (apply Qmult_le_0_compat; lra); lra).
    split; [|split].
    - assert (X : 0 <= (p - q) * (q + p) * 3 / E) by (apply pos_div; auto; apply Qmult_le_0_compat; [apply Qmult_le_0_compat; lra|lra]).
      setoid_replace ((p - q) * (q + p) * 3 / E) with (p * p / (E / 3) - q * q / (E / 3)) in X by (field; auto). lra.
    - assert (X : 0 <= (q - p) * (q - p) * (p + 2 * q) / E) by (apply pos_div; auto; apply Qmult_le_0_compat; lra).
      setoid_replace ((q - p) * (q - p) * (p + 2 * q) / E) with ((p * p * (2 * u + c) / E - q * q * (2 * v + c) / E) - u * (p * p / (E / 3) - q * q / (E / 3))) in X by (rewrite Ep, Eq; field; auto). lra.
    - assert (X : 0 <= (q - p) * (q - p) * (2 * p + q) / E) by (apply pos_div; auto; apply Qmult_le_0_compat; lra).
      setoid_replace ((q - p) * (q - p) * (2 * p + q) / E) with (v * (p * p / (E / 3) - q * q / (E / 3)) - (p * p * (2 * u + c) / E - q * q * (2 * v + c) / E)) in X by (rewrite Ep, Eq; field; auto). lra. }
  assert (HI : forall u v, c <= u -> u <= v -> between u v) by (clear u v H1 H2 UC UP DN; intros u v H1 H2; unfold between; rewrite !tent_high, !moment_high by lra; repeat split; lra).
  assert (BD : forall u v, b <= u -> u <= v -> between u v).
  { clear u v H1 H2 UC UP. intros u v H1 H2. destruct (Qlt_le_dec c v) as [A|A]; [|apply DN; auto]. destruct (Qlt_le_dec u c) as [B|B]; [|apply HI; auto]. apply (between_trans u c v); try lra; [apply DN|apply HI]; lra. }
  destruct (Qlt_le_dec b v) as [A|A]; [|apply UP; auto]. destruct (Qlt_le_dec u b) as [B|B]; [|apply BD; auto]. apply (between_trans u b v); try lra; [apply UP|apply BD]; lra.
Qed.
End Tent.

(** ** The moment of one triangle *)
Lemma qsum_abs {A} (f g e : A -> Q) l : (forall x, In x l -> Qabs (f x - g x) <= e x) -> Qabs (qsum (map f l) - qsum (map g l)) <= qsum (map e l).
Proof.
  unfold qsum. induction l as [|x l IH]; intros H; cbn [map fold_right]; [apply Qabs_Qle_condition; lra|].
  assert (A1 : Qabs (f x - g x) <= e x) by (apply H; left; auto). assert (A2 := IH (fun y Hy => H y (or_intror Hy))). apply Qabs_Qle_condition in A1, A2. apply Qabs_Qle_condition. lra.
Qed.
Lemma moment_app g u v points : moment g (u ++ v) points == moment g u points + moment g v points.
Proof.
  unfold moment. generalize (bins points). intros l. unfold qsum. induction l as [|k l IH]; cbn [map fold_right]; [lra|]. rewrite IH, deposit_app. ring.
Qed.
Lemma moment_nil g points : moment g [] points == 0.
Proof. unfold moment. generalize (bins points). intros l. unfold qsum. induction l as [|k l IH]; cbn [map fold_right]; [reflexivity|]. rewrite IH, deposit_nil. ring. Qed.
Lemma single_moment p amp points : (0 <= p < points)%Z -> moment centre [(p, amp)] points == centre p * amp.
Proof.
  intros H. unfold moment, bins. rewrite map_map.
  assert (Z0 : forall n s, (Z.to_nat p < s)%nat -> qsum (map (fun i => centre (Z.of_nat i) * deposit [(p, amp)] (Z.of_nat i)) (seq s n)) == 0).
  { unfold qsum. induction n as [|n IH]; intros s Hs; cbn [seq map fold_right]; [reflexivity|]. rewrite IH by lia. rewrite deposit_cons, deposit_nil. destruct (Z.eqb_spec p (Z.of_nat s)); [lia|]. ring. }
  assert (G : forall n s, (s <= Z.to_nat p)%nat -> (Z.to_nat p < s + n)%nat -> qsum (map (fun i => centre (Z.of_nat i) * deposit [(p, amp)] (Z.of_nat i)) (seq s n)) == centre p * amp).
  { induction n as [|n IH]; intros s G1 G2; [lia|]. unfold qsum in *. cbn [seq map fold_right]. rewrite deposit_cons, deposit_nil. destruct (Z.eqb_spec p (Z.of_nat s)).
    - rewrite Z0 by lia. subst p. ring.
    - rewrite IH by lia. ring. }
  apply G; lia.
Qed.
Theorem triangle_moment a b c amp points : 0 <= a -> 0 <= b -> 0 <= c -> a < zq points -> b < zq points -> c < zq points ->
  Qabs (moment centre (triangle a b c amp points) points - amp * ((a + b + c) / 3)) <= Qabs amp * half.
Proof.
  intros Ha Hb Hc La Lb Lc. pose proof (sort3_spec a b c) as S. destruct (sort3 a b c) as [[x y] z]. destruct S as [S1 [S2 S3]].
  assert (B : 0 <= x /\ z < zq points).
  { destruct (perm3 _ _ _ _ _ _ S3) as [[? [? ?]]|[[? [? ?]]|[[? [? ?]]|[[? [? ?]]|[[? [? ?]]|[? [? ?]]]]]]]; subst; split; lra. }
  assert (SUM : a + b + c == x + y + z).
  { destruct (perm3 _ _ _ _ _ _ S3) as [[? [? ?]]|[[? [? ?]]|[[? [? ?]]|[[? [? ?]]|[[? [? ?]]|[? [? ?]]]]]]]; subst; ring. }
  assert (Hpos : (0 < points)%Z) by (apply (proj2 (zq_lt 0 points)); change (zq 0) with 0; lra).
  destruct (Qlt_le_dec x z) as [Hxz|Hxz].
  - rewrite SUM. set (F := tent_cdf x y z). set (M := tent_moment x y z).
    assert (E : moment centre (triangle a b c amp points) points == qsum (map (fun k => centre k * (amp * (F (zq k + 1) - F (zq k)))) (bins points))).
    { unfold moment. apply fold_plus_ext. intros k Hk. apply bins_in in Hk. rewrite triangle_exact_sorted with (x := x) (y := y) (z := z); auto; [reflexivity| |lia].
      destruct (Z.eq_dec k 0); [right|left]; [split; [auto|lra]|lia]. }
    assert (T : amp * ((x + y + z) / 3) == qsum (map (fun k => amp * M (zq k + 1) - amp * M (zq k)) (bins points))).
    { unfold qsum, bins. rewrite (telescope (fun q => amp * M q)); [|intros u v EV; unfold M; rewrite EV; reflexivity]. rewrite Z2Nat.id by lia.
      unfold M. rewrite moment_high, moment_low by lra. ring. }
    assert (O : Qabs amp * half == qsum (map (fun k => Qabs amp * half * F (zq k + 1) - Qabs amp * half * F (zq k)) (bins points))).
    { unfold qsum, bins. rewrite (telescope (fun q => Qabs amp * half * F q)); [|intros u v EV; unfold F; rewrite EV; reflexivity]. rewrite Z2Nat.id by lia.
      unfold F. rewrite tent_high, tent_low by lra. ring. }
    rewrite E, T, O. apply qsum_abs. intros k Hk. destruct (between_all x y z S1 S2 Hxz (zq k) (zq k + 1) ltac:(lra)) as [B1 [B2 B3]]. fold F M in B1, B2, B3.
    set (f := F (zq k + 1) - F (zq k)) in *. set (m := M (zq k + 1) - M (zq k)) in *.
    setoid_replace (centre k * (amp * f) - (amp * M (zq k + 1) - amp * M (zq k))) with (amp * (centre k * f - m)) by (unfold m; ring). rewrite Qabs_Qmult.
    setoid_replace (Qabs amp * half * F (zq k + 1) - Qabs amp * half * F (zq k)) with (Qabs amp * (half * f)) by (unfold f; ring).
    rewrite !(Qmult_comm (Qabs amp)). apply Qmult_le_compat_r; [|apply Qabs_nonneg]. apply Qabs_Qle_condition. unfold centre, half. clearbody f m. lra.
  - assert (E : x == y /\ y == z) by (split; lra). destruct E as [E1 E2].
    assert (T : trunc b = trunc a /\ trunc c = trunc a /\ b == a /\ c == a).
    { assert (trunc x = trunc y) by (rewrite E1; auto). assert (trunc y = trunc z) by (rewrite E2; auto).
      destruct (perm3 _ _ _ _ _ _ S3) as [[? [? ?]]|[[? [? ?]]|[[? [? ?]]|[[? [? ?]]|[[? [? ?]]|[? [? ?]]]]]]]; subst; repeat split; congruence || lra. }
    destruct T as [T1 [T2 [T3 T4]]]. rewrite (triangle_same_bin a b c amp points (trunc a)) by auto.
    destruct (trunc_nonneg a Ha) as [N1 [N2 N3]]. assert (trunc a < points)%Z by (apply (proj2 (zq_lt _ _)); lra).
    destruct (Z.leb_spec points (trunc a)); [lia|]. destruct (Z.ltb_spec (trunc a) 0); [lia|]. cbn [orb]. rewrite single_moment by lia. rewrite T3, T4.
    setoid_replace (centre (trunc a) * amp - amp * ((a + a + a) / 3)) with (amp * (centre (trunc a) - a)) by field. rewrite Qabs_Qmult, !(Qmult_comm (Qabs amp)).
    apply Qmult_le_compat_r; [|apply Qabs_nonneg]. apply Qabs_Qle_condition. unfold centre, half. lra.
Qed.

(** ** Specification: where the weight of a pattern lies *)
Definition triangle_mean (f : nat -> Q) (t : tri) : Q := let '(a, b, c) := t in (f a + f b + f c) / 3.
(** A sum over sidebands, octants and triangles. *)
Definition over_pattern (nt n_oct nsb : nat) (g : nat -> nat -> tri -> Q) : Q :=
  qsum (map (fun i => qsum (map (fun j => qsum (map (g i j) (grid_tris nt))) (seq 0 n_oct))) (seq 0 nsb)).

(** ** The moment over the face *)
Lemma tri_vertex w t : tri_amp w t == vertex_sum w t.
Proof. destruct t as [[a b] c]. unfold tri_amp, vertex_sum. ring. Qed.
Lemma close_add a b c d e f : Qabs (a - b) <= e -> Qabs (c - d) <= f -> Qabs (a + c - (b + d)) <= e + f.
Proof. intros A B. apply Qabs_Qle_condition in A, B. apply Qabs_Qle_condition. lra. Qed.
Lemma octahedron_interpolation_moment nt freq amp m w :
  octahedron_interpolation nt freq amp m = Some w ->
  (forall i, (i < n_pts nt)%nat -> 0 <= freq i /\ freq i < zq m) ->
  Qabs (moment centre w m - qsum (map (fun t => vertex_sum amp t * triangle_mean freq t) (grid_tris nt))) <= qsum (map (fun t => half * Qabs (vertex_sum amp t)) (grid_tris nt)).
Proof.
  unfold octahedron_interpolation. rewrite triangles_grid. intros E H. injection E as <-.
  assert (B : forall t, In t (grid_tris nt) -> let '(a, b, c) := t in (a < n_pts nt)%nat /\ (b < n_pts nt)%nat /\ (c < n_pts nt)%nat).
  { intros t Ht. apply grid_in in Ht. destruct Ht as [r [c [Hr [[Hc ->]|[Hc ->]]]]]; unfold up, down; repeat split; apply point_bound; lia. }
  induction (grid_tris nt) as [|t l IH]; [cbn [flat_map map qsum fold_right]; rewrite moment_nil; apply Qabs_Qle_condition; lra|].
  cbn [flat_map map]. rewrite moment_app. unfold qsum at 1 2. cbn [fold_right]. apply close_add; [|apply IH; intros; apply B; simpl; auto].
  specialize (B t (or_introl eq_refl)). rewrite <- tri_vertex. destruct t as [[a b] c]. destruct B as [Ba [Bb Bc]]. unfold triangle_mean.
  destruct (H a Ba), (H b Bb), (H c Bc). rewrite (Qmult_comm half). apply triangle_moment; auto.
Qed.
Lemma qsum_abs_le {A} (f : A -> Q) l : Qabs (qsum (map f l)) <= qsum (map (fun x => Qabs (f x)) l).
Proof.
  unfold qsum. induction l as [|x l IH]; cbn [map fold_right]; [apply Qabs_Qle_condition; lra|]. eapply Qle_trans; [apply Qabs_triangle|]. lra.
Qed.
Lemma octahedron_delta_moment nt x amp m w :
  octahedron_delta nt x amp m = Some w -> interior x m ->
  Qabs (moment centre w m - qsum (map (fun t => vertex_sum amp t * x) (grid_tris nt))) <= qsum (map (fun t => TOL * Qabs (vertex_sum amp t)) (grid_tris nt)).
Proof.
  unfold octahedron_delta. rewrite triangles_grid. intros E [H0 H1]. injection E as <-.
  set (s := fold_left (fun s t => s + tri_amp amp t) (grid_tris nt) 0). assert (Es : s == qsum (map (vertex_sum amp) (grid_tris nt))) by (unfold s; rewrite fold_left_qsum, vertex_sums; ring).
  destruct (delta_conserved x m s H0 H1) as [_ [D _]]. assert (Q : qsum (map (fun t => vertex_sum amp t * x) (grid_tris nt)) == s * x).
  { rewrite Es. rewrite (Qmult_comm _ x), <- qsum_scale. apply qsum_ext. intros t _. ring. }
  rewrite Q. eapply Qle_trans; [exact D|]. rewrite qsum_scale, (Qmult_comm TOL). apply Qmult_le_compat_r; [rewrite Es; apply qsum_abs_le|unfold TOL; lra].
Qed.
Lemma averaging_moment nt n_oct nsb offset_0 vr freq norm sb count w :
  averaging_1d nt n_oct nsb offset_0 vr freq norm sb count = Some w ->
  let delta := is_delta nt (n_pts nt) freq in
  (forall i, (i < nsb)%nat -> in_window ((if delta then offset_0 + freq 0%nat else offset_0) + vr i) count = true) ->
  (if delta
   then forall i, (i < nsb)%nat -> interior (offset_0 + freq 0%nat + vr i) count
   else forall i p, (i < nsb)%nat -> (p < n_oct * n_pts nt)%nat -> 0 <= freq p + (offset_0 + vr i) /\ freq p + (offset_0 + vr i) < zq count) ->
  let amp i j p := amps_1d nsb (n_pts nt) norm sb (i * (n_oct * n_pts nt) + j * n_pts nt + p)%nat in
  Qabs (moment centre w count - over_pattern nt n_oct nsb (fun i j t => vertex_sum (amp i j) t * (if delta then offset_0 + freq 0%nat + vr i else triangle_mean (fun p => freq (j * n_pts nt + p)%nat + (offset_0 + vr i)) t)))
  <= over_pattern nt n_oct nsb (fun i j t => (if delta then TOL else half) * Qabs (vertex_sum (amp i j) t)).
Proof.
  unfold averaging_1d, over_pattern. cbn zeta. set (amps := amps_1d nsb (n_pts nt) norm sb). intros H HW HF.
  assert (L : forall i, In i (seq 0 nsb) -> (i < nsb)%nat) by (intros i Hi; apply in_seq in Hi; lia).
  revert w H. induction (seq 0 nsb) as [|i l IH]; intros w E.
  { simpl in E. injection E as <-. rewrite moment_nil. apply Qabs_Qle_condition. cbn. lra. }
  cbn [flat_map] in E. apply opt_concat_app in E. destruct E as [x [y [Ex [Ey ->]]]].
  rewrite moment_app. cbn [map]. unfold qsum at 1 4. cbn [fold_right]. apply close_add; [|apply IH; auto; intros; apply L; simpl; auto].
  assert (Hi : (i < nsb)%nat) by (apply L; simpl; auto). rewrite HW in Ex by auto. clear IH Ey y HW L.
  assert (Lj : forall j, In j (seq 0 n_oct) -> (j < n_oct)%nat) by (intros j Hj; apply in_seq in Hj; lia).
  revert x Ex. induction (seq 0 n_oct) as [|j js IHj]; intros x Ex.
  { simpl in Ex. injection Ex as <-. rewrite moment_nil. apply Qabs_Qle_condition. cbn. lra. }
  change (map ?f (j :: js)) with ([f j] ++ map f js) in Ex at 1. apply opt_concat_app in Ex. destruct Ex as [u [v [Eu [Ev ->]]]].
  rewrite moment_app. cbn [map]. unfold qsum at 1 3. cbn [fold_right]. apply close_add; [|apply IHj; auto; intros; apply Lj; simpl; auto].
  assert (Hj : (j < n_oct)%nat) by (apply Lj; simpl; auto). cbn [opt_concat] in Eu. destruct (is_delta nt (n_pts nt) freq).
  - destruct (octahedron_delta _ _ _ _) as [z|] eqn:Z; [|discriminate]. injection Eu as <-. rewrite app_nil_r. apply (octahedron_delta_moment nt _ _ _ _ Z). apply HF; auto.
  - destruct (octahedron_interpolation _ _ _ _) as [z|] eqn:Z; [|discriminate]. injection Eu as <-. rewrite app_nil_r.
    apply (octahedron_interpolation_moment nt _ _ _ _ Z). intros p Hp. apply HF; auto. nia.
Qed.
