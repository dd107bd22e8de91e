(** Delta peaks, and totals over the octahedron face. *)
From Coq Require Import ZArith QArith Qabs Bool List Lia Lqa Qfield Setoid Morphisms Permutation.
From Verif Require Import InterpModel InterpSpec InterpProofs WalkProofs.
Import ListNotations.
Open Scope Q_scope.

(** ** Sums over the bins *)
Lemma qsum_ext {A} (f g : A -> Q) l : (forall x, In x l -> f x == g x) -> qsum (map f l) == qsum (map g l).
Proof. exact (fold_plus_ext f g l). Qed.
Lemma qsum_app a b : qsum (a ++ b) == qsum a + qsum b.
Proof. induction a as [|x a IH]; simpl; [ring|]. unfold qsum in *. rewrite IH. ring. Qed.
Lemma qsum_plus {A} (f g : A -> Q) l : qsum (map (fun x => f x + g x) l) == qsum (map f l) + qsum (map g l).
Proof. induction l as [|x l IH]; simpl; [ring|]. unfold qsum in *. rewrite IH. ring. Qed.
Lemma qsum_scale {A} (f : A -> Q) a l : qsum (map (fun x => a * f x) l) == a * qsum (map f l).
Proof. induction l as [|x l IH]; simpl; [ring|]. unfold qsum in *. rewrite IH. ring. Qed.
Lemma qsum_zero {A} (f : A -> Q) l : (forall x, In x l -> f x == 0) -> qsum (map f l) == 0.
Proof. intros H. rewrite (qsum_ext f (fun _ => 0)) by auto. clear. induction l as [|x l IH]; simpl; [reflexivity|]. unfold qsum in *. rewrite IH. ring. Qed.

Lemma bins_in points k : In k (bins points) <-> (0 <= k < points)%Z.
Proof.
  unfold bins. rewrite in_map_iff. split.
  - intros [i [<- H]]. apply in_seq in H. lia.
  - intros H. exists (Z.to_nat k). split; [lia|]. apply in_seq. lia.
Qed.
Lemma bins_NoDup points : NoDup (bins points).
Proof. unfold bins. apply FinFun.Injective_map_NoDup; [intros a b; lia | apply seq_NoDup]. Qed.

(** A weighted sum over the bins picks the value at the address of a write. *)
Lemma pick (g : Z -> Q) p v l : NoDup l -> In p l -> qsum (map (fun k => g k * (if Z.eqb p k then v else 0)) l) == g p * v.
Proof.
  induction 1 as [|x l Hx N IH]; intros H; [destruct H|]. simpl. destruct H as [->|H].
  - rewrite Z.eqb_refl. rewrite (qsum_zero _ l); [ring|]. intros y Hy. destruct (Z.eqb_spec p y); [subst; tauto|ring].
  - destruct (Z.eqb_spec p x); [subst; tauto|]. fold (qsum (map (fun k => g k * (if Z.eqb p k then v else 0)) l)). rewrite IH by auto. ring.
Qed.
Lemma moment_in_range g w points : Forall (fun a => (0 <= fst a < points)%Z) w ->
  moment g w points == qsum (map (fun a => g (fst a) * snd a) w).
Proof.
  induction 1 as [|[p v] w Hp Hw IH].
  - unfold moment. simpl. apply qsum_zero. intros k _. simpl. ring.
  - unfold moment. rewrite (qsum_ext _ (fun k => g k * (if Z.eqb p k then v else 0) + g k * deposit w k)).
    + rewrite qsum_plus. rewrite pick; [|apply bins_NoDup|apply bins_in; auto]. unfold moment in IH. rewrite IH. simpl. reflexivity.
    + intros k _. rewrite deposit_cons. destruct (Z.eqb_spec p k); ring.
Qed.
Lemma total_moment w points : total w points == moment (fun _ => 1) w points.
Proof. unfold total, moment. apply qsum_ext. intros; ring. Qed.
Lemma total_app a b points : total (a ++ b) points == total a points + total b points.
Proof. unfold total. fold (qsum (map (deposit (a ++ b)) (bins points))). rewrite (qsum_ext _ (fun k => deposit a k + deposit b k)); [apply qsum_plus|]. intros k _. apply deposit_app. Qed.

(** ** Delta peaks *)

Lemma hat_in d : -(1) <= d -> d <= 1 -> hat d == 1 - Qabs d.
Proof. intros. unfold hat. destruct (Qlt_le_dec (Qabs d) 1); [reflexivity|]. assert (Qabs d <= 1) by (apply Qabs_Qle_condition; lra). lra. Qed.
Lemma hat_out d : d <= -(1) \/ 1 <= d -> hat d == 0.
Proof.
  intros H. unfold hat. destruct (Qlt_le_dec (Qabs d) 1) as [L|L]; [|reflexivity]. apply Qabs_Qlt_condition in L. lra.
Qed.
Lemma hat_nonneg d : 0 <= hat d.
Proof. unfold hat. destruct (Qlt_le_dec (Qabs d) 1); lra. Qed.

Ltac ctr := unfold centre, half in *.
Lemma zq_add a b : zq (a + b) == zq a + zq b.
Proof. unfold zq. rewrite inject_Z_plus. reflexivity. Qed.
Lemma zq_lt_1 a b : (a < b)%Z -> zq a + 1 <= zq b.
Proof. intros H. change 1 with (zq 1). rewrite <- zq_add. apply (proj1 (zq_le _ _)). lia. Qed.
Lemma zq_sub1 p : zq (p - 1) == zq p - 1.
Proof. unfold zq, Z.sub. rewrite inject_Z_plus. reflexivity. Qed.
Lemma zq_add1 p : zq (p + 1) == zq p + 1.
Proof. unfold zq. rewrite inject_Z_plus. reflexivity. Qed.

Theorem delta_hat f points amp k : 0 <= f -> f < zq points -> (0 <= k < points)%Z ->
  Qabs (deposit (delta_fn f points amp) k - amp * hat (f - centre k)) <= Qabs amp * TOL /\
  (TOL <= Qabs (f - zq (trunc f) - half) -> deposit (delta_fn f points amp) k == amp * hat (f - centre k)).
Proof.
  intros H0 H1 Hk. destruct (trunc_nonneg f H0) as [N1 [N2 N3]]. unfold delta_fn. set (p := trunc f) in *.
  assert (Hp : (p < points)%Z) by (apply (proj2 (zq_lt _ _)); lra).
  destruct (Z.leb_spec points p); [lia|]. destruct (Z.ltb_spec p 0); [lia|]. cbn [orb].
  assert (TP : 0 <= Qabs amp * TOL) by (unfold TOL; pose proof (Qabs_nonneg amp); lra).
  destruct (Qltb_spec (Qabs (f - zq p - half)) TOL) as [A|A].
  - split; [|intros; lra]. rewrite deposit_cons, deposit_nil. destruct (Z.eqb_spec p k) as [<-|NE].
    + rewrite hat_in by (ctr; lra).
      setoid_replace (amp + 0 - amp * (1 - Qabs (f - centre p))) with (amp * Qabs (f - centre p)) by ring. rewrite Qabs_Qmult, (Qabs_pos (Qabs _)) by apply Qabs_nonneg.
      setoid_replace (f - centre p) with (f - zq p - half) by (ctr; ring). unfold TOL in *.
      pose proof (Qabs_nonneg amp). nra.
    + apply Qabs_Qlt_condition in A.
      assert (hat (f - centre k) <= TOL /\ 0 <= hat (f - centre k)) as [B1 B2].
      { split; [|apply hat_nonneg]. destruct (Z.lt_trichotomy p k) as [L|[L|L]]; [|congruence|].
        - pose proof (zq_lt_1 _ _ L). destruct (Qlt_le_dec (-(1)) (f - centre k)).
          + rewrite hat_in by (ctr; lra). rewrite Qabs_neg by (ctr; lra). ctr. unfold TOL in *. lra.
          + rewrite hat_out by (left; auto). unfold TOL. lra.
        - pose proof (zq_lt_1 _ _ L). destruct (Qlt_le_dec (f - centre k) 1).
          + rewrite hat_in by (ctr; lra). rewrite Qabs_pos by (ctr; lra). ctr. unfold TOL in *. lra.
          + rewrite hat_out by (right; auto). unfold TOL. lra. }
      setoid_replace (0 - amp * hat (f - centre k)) with (- (amp * hat (f - centre k))) by ring.
      rewrite Qabs_opp, Qabs_Qmult, (Qabs_pos (hat _)) by auto. pose proof (Qabs_nonneg amp). nra.
  - assert (E : deposit (if Qltb (f - zq p) half then (if negb (p =? 0)%Z then [((p - 1)%Z, amp * (half - (f - zq p)))] else []) ++ [(p, amp * (half + (f - zq p)))]
      else if Qltb half (f - zq p) then (if negb (p + 1 =? points)%Z then [((p + 1)%Z, amp * (f - zq p - half))] else []) ++ [(p, amp * (1 + half - (f - zq p)))] else []) k
      == amp * hat (f - centre k)).
    2:{ split; auto. intros. setoid_rewrite E. setoid_replace (amp * hat (f - centre k) - amp * hat (f - centre k)) with 0 by ring. auto. }
    destruct (Qltb_spec (f - zq p) half) as [B|B].
    + rewrite deposit_app, deposit_cons, deposit_nil. destruct (Z.eqb_spec p k) as [<-|NE].
      * assert (X : deposit (if negb (p =? 0)%Z then [((p - 1)%Z, amp * (half - (f - zq p)))] else []) p == 0).
        { destruct (Z.eqb_spec p 0); cbn [negb]; [reflexivity|]. rewrite deposit_cons, deposit_nil. destruct (Z.eqb_spec (p - 1) p); [lia|reflexivity]. }
        rewrite X, hat_in, Qabs_neg by (ctr; lra). ctr. ring.
      * destruct (Z.eq_dec k (p - 1)) as [->|NE'].
        -- destruct (Z.eqb_spec p 0); [lia|]. cbn [negb]. rewrite deposit_cons, deposit_nil, Z.eqb_refl.
           assert (C : centre (p - 1) == zq p - half) by (unfold centre; rewrite zq_sub1; unfold half; lra).
           rewrite hat_in, Qabs_pos by (unfold half in *; lra). rewrite C. unfold half. ring.
        -- assert (X : deposit (if negb (p =? 0)%Z then [((p - 1)%Z, amp * (half - (f - zq p)))] else []) k == 0).
           { destruct (Z.eqb_spec p 0); cbn [negb]; [reflexivity|]. rewrite deposit_cons, deposit_nil. destruct (Z.eqb_spec (p - 1) k); [lia|reflexivity]. }
           rewrite X, hat_out; [ring|]. destruct (Z.lt_trichotomy p k) as [L|[L|L]]; [left|congruence|right].
           ++ pose proof (zq_lt_1 _ _ L). ctr. lra.
           ++ assert (L' : (k < p - 1)%Z) by lia. apply zq_lt_1 in L'. rewrite zq_sub1 in L'. ctr. lra.
    + destruct (Qltb_spec half (f - zq p)) as [B'|B'].
      2:{ exfalso. assert (X : f - zq p - half == 0) by lra. rewrite X in A. unfold TOL in A. simpl in A. lra. }
      rewrite deposit_app, deposit_cons, deposit_nil. destruct (Z.eqb_spec p k) as [<-|NE].
      * assert (X : deposit (if negb (p + 1 =? points)%Z then [((p + 1)%Z, amp * (f - zq p - half))] else []) p == 0).
        { destruct (Z.eqb_spec (p + 1) points); cbn [negb]; [reflexivity|]. rewrite deposit_cons, deposit_nil. destruct (Z.eqb_spec (p + 1) p); [lia|reflexivity]. }
        rewrite X, hat_in, Qabs_pos by (ctr; lra). ctr. ring.
      * destruct (Z.eq_dec k (p + 1)) as [->|NE'].
        -- destruct (Z.eqb_spec (p + 1) points); [lia|]. cbn [negb]. rewrite deposit_cons, deposit_nil, Z.eqb_refl.
           assert (C : centre (p + 1) == zq p + 1 + half) by (unfold centre; rewrite zq_add1; reflexivity).
           rewrite hat_in, Qabs_neg by (unfold half in *; lra). rewrite C. unfold half. ring.
        -- assert (X : deposit (if negb (p + 1 =? points)%Z then [((p + 1)%Z, amp * (f - zq p - half))] else []) k == 0).
           { destruct (Z.eqb_spec (p + 1) points); cbn [negb]; [reflexivity|]. rewrite deposit_cons, deposit_nil. destruct (Z.eqb_spec (p + 1) k); [lia|reflexivity]. }
           rewrite X, hat_out; [ring|]. destruct (Z.lt_trichotomy p k) as [L|[L|L]]; [left|congruence|right].
           ++ assert (L' : (p + 1 < k)%Z) by lia. apply zq_lt_1 in L'. rewrite zq_add1 in L'. ctr. lra.
           ++ pose proof (zq_lt_1 _ _ L). ctr. lra.
Qed.

(** In the interior the two moments are conserved. *)
Theorem delta_conserved f points amp : half <= f -> f <= zq points - half ->
  total (delta_fn f points amp) points == amp /\
  Qabs (moment centre (delta_fn f points amp) points - amp * f) <= Qabs amp * TOL /\
  (TOL <= Qabs (f - zq (trunc f) - half) -> moment centre (delta_fn f points amp) points == amp * f).
Proof.
  intros H0 H1. assert (H0' : 0 <= f) by (unfold half in *; lra). destruct (trunc_nonneg f H0') as [N1 [N2 N3]].
  assert (R : Forall (fun a => (0 <= fst a < points)%Z) (delta_fn f points amp)).
  { apply Forall_forall. intros w. apply delta_safe. }
  rewrite total_moment, !moment_in_range by auto. unfold delta_fn in *. set (p := trunc f) in *.
  assert (Hp : (p < points)%Z) by (apply (proj2 (zq_lt _ _)); unfold half in *; lra).
  destruct (Z.leb_spec points p); [lia|]. destruct (Z.ltb_spec p 0); [lia|]. cbn [orb] in *.
  assert (TP : 0 <= Qabs amp * TOL) by (unfold TOL; pose proof (Qabs_nonneg amp); lra).
  destruct (Qltb_spec (Qabs (f - zq p - half)) TOL) as [A|A].
  - cbn [map qsum fold_right fst snd]. split; [ring|]. split; [|intros; lra].
    setoid_replace (centre p * amp + 0 - amp * f) with (- (amp * (f - zq p - half))) by (ctr; ring).
    rewrite Qabs_opp, Qabs_Qmult. pose proof (Qabs_nonneg amp). nra.
  - match goal with |- ?T == amp /\ _ => assert (M : T == amp) end.
    2: match goal with |- _ /\ Qabs (?T - amp * f) <= _ /\ _ => assert (C : T == amp * f) end.
    3:{ split; auto. split; auto. rewrite C. setoid_replace (amp * f - amp * f) with 0 by ring. auto. }
    + destruct (Qltb_spec (f - zq p) half) as [B|B].
      * destruct (Z.eqb_spec p 0) as [Z0|Z0]; cbn [negb app map qsum fold_right fst snd].
        { exfalso. rewrite Z0 in B. change (zq 0) with 0 in B. lra. }
        unfold half. ring.
      * destruct (Qltb_spec half (f - zq p)) as [B'|B'].
        -- destruct (Z.eqb_spec (p + 1) points) as [Z0|Z0]; cbn [negb app map qsum fold_right fst snd].
           { exfalso. rewrite <- Z0, zq_add1 in H1. unfold half in *. lra. }
           unfold half. ring.
        -- exfalso. assert (X : f - zq p - half == 0) by lra. rewrite X in A. unfold TOL in A. simpl in A. lra.
    + destruct (Qltb_spec (f - zq p) half) as [B|B].
      * destruct (Z.eqb_spec p 0) as [Z0|Z0]; cbn [negb app map qsum fold_right fst snd].
        { exfalso. rewrite Z0 in B. change (zq 0) with 0 in B. lra. }
        unfold centre. rewrite zq_sub1. unfold half. ring.
      * destruct (Qltb_spec half (f - zq p)) as [B'|B'].
        -- destruct (Z.eqb_spec (p + 1) points) as [Z0|Z0]; cbn [negb app map qsum fold_right fst snd].
           { exfalso. rewrite <- Z0, zq_add1 in H1. unfold half in *. lra. }
           unfold centre. rewrite zq_add1. unfold half. ring.
        -- exfalso. assert (X : f - zq p - half == 0) by lra. rewrite X in A. unfold TOL in A. simpl in A. lra.
Qed.

Lemma deposit_zero w k : (forall a, In a w -> fst a <> k) -> deposit w k == 0.
Proof.
  induction w as [|[a v] w IH]; intros R; [reflexivity|]. rewrite deposit_cons, IH by (intros; apply R; simpl; auto).
  specialize (R (a, v) (or_introl eq_refl)). cbn [fst] in R. destruct (Z.eqb_spec a k); [congruence|ring].
Qed.
Lemma delta_support f points amp k : 0 <= f -> f < zq points -> ~ deposit (delta_fn f points amp) k == 0 -> Qabs (f - centre k) < 1.
Proof.
  intros H0 H1 H. destruct (trunc_nonneg f H0) as [N1 [N2 N3]].
  assert (Hk : (0 <= k < points)%Z).
  { destruct (Z_le_gt_dec 0 k); [destruct (Z_lt_ge_dec k points); [lia|]|]; exfalso; apply H; apply deposit_zero;
    intros a Ha; apply delta_safe in Ha; lia. }
  destruct (Qlt_le_dec (Qabs (f - centre k)) 1) as [L|L]; auto. exfalso. apply H. clear H.
  unfold delta_fn. set (p := trunc f) in *.
  assert (Hp : (p < points)%Z) by (apply (proj2 (zq_lt _ _)); lra).
  destruct (Z.leb_spec points p); [lia|]. destruct (Z.ltb_spec p 0); [lia|]. cbn [orb].
  destruct (Qltb_spec (Qabs (f - zq p - half)) TOL) as [A|A].
  - rewrite deposit_cons, deposit_nil. destruct (Z.eqb_spec p k) as [<-|]; [|reflexivity]. exfalso.
    setoid_replace (f - centre p) with (f - zq p - half) in L by (ctr; ring). unfold TOL in A. lra.
  - assert (TH : deposit (delta_fn f points amp) k == amp * hat (f - centre k)) by (exact (proj2 (delta_hat f points amp k H0 H1 Hk) (Qnot_lt_le _ _ A))).
    unfold delta_fn in TH. fold p in TH.
    destruct (Z.leb_spec points p); [lia|]. destruct (Z.ltb_spec p 0); [lia|]. cbn [orb] in TH.
    destruct (Qltb_spec (Qabs (f - zq p - half)) TOL); [lra|]. rewrite TH.
    unfold hat. destruct (Qlt_le_dec (Qabs (f - centre k)) 1); [lra|ring].
Qed.

Lemma delta_nonneg f points amp k : 0 <= f -> f < zq points -> 0 <= amp -> 0 <= deposit (delta_fn f points amp) k.
Proof.
  intros H0 H1 Ha. destruct (trunc_nonneg f H0) as [N1 [N2 N3]]. unfold delta_fn. set (p := trunc f) in *.
  assert (P : forall w, Forall (fun a => 0 <= snd a) w -> 0 <= deposit w k).
  { induction 1 as [|[a v] w Hv Hw IH]; [rewrite deposit_nil; lra|]. rewrite deposit_cons. cbn [snd] in Hv. destruct (a =? k)%Z; lra. }
  apply P. destruct ((points <=? p)%Z || (p <? 0)%Z); [constructor|].
  destruct (Qltb _ TOL); [repeat constructor; auto|].
  destruct (Qltb_spec (f - zq p) half) as [B|B].
  - apply Forall_app. split; [destruct (negb _); constructor|]; repeat constructor; cbn [snd]; unfold half in *; nra.
  - destruct (Qltb_spec half (f - zq p)) as [B'|B']; [|constructor].
    apply Forall_app. split; [destruct (negb _); constructor|]; repeat constructor; cbn [snd]; unfold half in *; nra.
Qed.

(** ** Totals over the face *)
Lemma octahedron_interpolation_total nt freq amp m w :
  octahedron_interpolation nt freq amp m = Some w ->
  (forall i, (i < n_pts nt)%nat -> 0 <= freq i /\ freq i < zq m) ->
  total w m == qsum (map (tri_amp amp) (grid_tris nt)).
Proof.
  unfold octahedron_interpolation. rewrite triangles_grid. intros E H. injection E as <-.
  assert (B : forall t, In t (grid_tris nt) -> let '(a, b, c) := t in (a < n_pts nt)%nat /\ (b < n_pts nt)%nat /\ (c < n_pts nt)%nat).
  { intros t Ht. apply grid_in in Ht. destruct Ht as [r [c [Hr [[Hc ->]|[Hc ->]]]]]; unfold up, down; repeat split; apply point_bound; lia. }
  induction (grid_tris nt) as [|t l IH]; [simpl; apply qsum_zero; intros; reflexivity|].
  cbn [flat_map map]. rewrite total_app, IH by (intros; apply B; simpl; auto).
  specialize (B t (or_introl eq_refl)). destruct t as [[a b] c]. destruct B as [Ba [Bb Bc]].
  destruct (H a Ba), (H b Bb), (H c Bc). rewrite triangle_total by auto. reflexivity.
Qed.
Lemma fold_left_qsum {A} (f : A -> Q) l : forall s, fold_left (fun s t => s + f t) l s == s + qsum (map f l).
Proof. induction l as [|x l IH]; intros s; simpl; [ring|]. rewrite IH. unfold qsum. ring. Qed.
Lemma delta_fn_proper_total f points a b : a == b -> half <= f -> f <= zq points - half -> total (delta_fn f points a) points == b.
Proof. intros E H0 H1. rewrite <- E. apply delta_conserved; auto. Qed.
Lemma octahedron_delta_total nt freq amp m w :
  octahedron_delta nt freq amp m = Some w -> half <= freq -> freq <= zq m - half ->
  total w m == qsum (map (tri_amp amp) (grid_tris nt)).
Proof.
  unfold octahedron_delta. rewrite triangles_grid. intros E H0 H1. injection E as <-.
  apply delta_fn_proper_total; auto. rewrite fold_left_qsum. ring.
Qed.
