(** Proofs about the two dimensional powder interpolation: rows, amounts and positions of the calls. *)
From Coq Require Import ZArith QArith Qabs Bool List Lia Lqa Qfield Morphisms Setoid Permutation.
From Verif Require Import InterpModel InterpSpec InterpProofs DeltaProofs Interp2DModel Interp2DSpec.
Import ListNotations.
Open Scope Q_scope.

(** ** Calls and cells *)
Definition amounts (cs : list call) : writes := map (fun c => (row c, amount c)) cs.
Definition call_deposit (m1 : Z) (c : call) (q : Z) : Q := deposit (triangle_interpolation (ya c) (yb c) (yc c) (amount c) m1) q.

Lemma amounts_app a b : amounts (a ++ b) = amounts a ++ amounts b.
Proof. apply map_app. Qed.

Lemma shifted_deposit w m1 r p q : Forall (safe_write m1) w -> (0 <= q < m1)%Z ->
  deposit (map (fun a => ((r * m1 + fst a)%Z, snd a)) w) (p * m1 + q) == if (r =? p)%Z then deposit w q else 0.
Proof.
  intros H Hq. induction H as [|[i v] w Hw H IH].
  - cbn. destruct (r =? p)%Z; reflexivity.
  - cbn [map fst snd]. rewrite !deposit_cons, IH. cbn [safe_write] in Hw. unfold safe_write in Hw. cbn [fst snd] in Hw.
    destruct (Z.eqb_spec r p) as [E|E].
    + subst r. rewrite deposit_cons. destruct (Z.eqb_spec (p * m1 + i) (p * m1 + q)), (Z.eqb_spec i q); try lia; ring.
    + destruct (Z.eqb_spec (r * m1 + i) (p * m1 + q)) as [F|F]; [|ring].
      destruct Hw as [Hw|[Hw1 Hw2]].
      * exfalso. apply E. assert ((r - p) * m1 = q - i)%Z by lia. nia.
      * rewrite Hw2. ring.
Qed.

Lemma call_cell m1 c p q : (0 <= q < m1)%Z ->
  deposit (call_writes m1 c) (p * m1 + q) == if (row c =? p)%Z then call_deposit m1 c q else 0.
Proof. intros Hq. apply shifted_deposit; auto. apply triangle_interpolation_safe. lia. Qed.

Lemma calls_cell m1 cs p q : (0 <= q < m1)%Z ->
  cell (flat_map (call_writes m1) cs) m1 p q == qsum (map (fun c => if (row c =? p)%Z then call_deposit m1 c q else 0) cs).
Proof.
  intros Hq. unfold cell. induction cs as [|c cs IH]; [reflexivity|].
  cbn [flat_map map qsum fold_right]. rewrite deposit_app, IH, call_cell by auto. reflexivity.
Qed.

(** ** A call at least half a bin away from the ends conserves its amount *)
Lemma interior_window x m : interior x m -> 0 <= x /\ x < zq m.
Proof. unfold interior, half. intros [A B]. split; lra. Qed.
Lemma call_total a b c v m : interior a m -> interior b m -> interior c m ->
  total (triangle_interpolation a b c v m) m == v.
Proof.
  intros A B C. unfold triangle_interpolation. destruct (_ && _).
  - destruct A as [A1 A2]. apply delta_conserved; auto.
  - apply interior_window in A, B, C. apply triangle_total; tauto.
Qed.

Definition inside_y (lo hi : Q) (c : call) : Prop := (lo <= ya c /\ ya c <= hi) /\ (lo <= yb c /\ yb c <= hi) /\ (lo <= yc c /\ yc c <= hi).

Lemma rows_total m1 cs p : Forall (inside_y half (zq m1 - half)) cs ->
  row_total (flat_map (call_writes m1) cs) m1 p == deposit (amounts cs) p.
Proof.
  intros H. unfold row_total.
  transitivity (qsum (map (fun q => qsum (map (fun c => if (row c =? p)%Z then call_deposit m1 c q else 0) cs)) (bins m1))).
  { apply qsum_ext. intros q Hq. apply bins_in in Hq. apply calls_cell; auto. }
  induction H as [|c cs Hc H IH].
  - cbn [map qsum fold_right]. apply qsum_zero. reflexivity.
  - cbn [amounts map]. rewrite deposit_cons. fold (amounts cs). rewrite <- IH.
    transitivity (qsum (map (fun q => (if (row c =? p)%Z then call_deposit m1 c q else 0) + qsum (map (fun c => if (row c =? p)%Z then call_deposit m1 c q else 0) cs)) (bins m1))).
    { apply qsum_ext. intros q Hq. reflexivity. }
    rewrite qsum_plus. apply Qplus_comp; [|reflexivity].
    destruct (row c =? p)%Z.
    + destruct Hc as [A [B C]]. rewrite <- (call_total (ya c) (yb c) (yc c) (amount c) m1) by assumption. reflexivity.
    + apply qsum_zero. reflexivity.
Qed.

(** ** Sections and rows *)
Lemma section_amounts p y00 y01 y10 y11 up down denom v k : denom == up + down ->
  deposit (amounts (section p y00 y01 y10 y11 up down denom v)) k == if (p =? k)%Z then v else 0.
Proof.
  intros E. unfold section. destruct (Qeq_bool denom 0) eqn:D.
  - cbn [amounts map row amount]. rewrite deposit_cons, deposit_nil. ring.
  - cbn [amounts map row amount]. rewrite !deposit_cons, deposit_nil. destruct (p =? k)%Z; [|ring].
    assert (N : ~ denom == 0) by (intros F; apply Qeq_bool_iff in F; congruence).
    transitivity ((up + down) / denom * v); [field; auto|]. rewrite <- E. field. auto.
Qed.

Lemma rows_amounts n : forall p diff df s1 s2 step y10 y11 up down denom k, denom == up + down ->
  deposit (amounts (fst (rows n p diff df s1 s2 step y10 y11 up down denom))) k == deposit (ramp n p diff df) k.
Proof.
  induction n as [|n IH]; intros p diff df s1 s2 step y10 y11 up down denom k E; [reflexivity|].
  cbn [rows ramp]. cbv zeta.
  specialize (IH (p + 1)%Z (diff + df) df s1 s2 step (y10 + s1) (y11 + s2) (up + step) (down + step) (denom + 2 * step) k).
  destruct (rows n _ _ _ _ _ _ _ _ _ _ _) as [cs r]. cbn [fst] in *.
  rewrite amounts_app, deposit_app, section_amounts, deposit_cons, IH by (rewrite ?E; ring). reflexivity.
Qed.

Definition zqn (n : nat) : Q := zq (Z.of_nat n).
Lemma zqn_S n : zqn (S n) == zqn n + 1.
Proof. unfold zqn. rewrite Nat2Z.inj_succ, <- Z.add_1_r, zq_plus. reflexivity. Qed.
Lemma zqn_pos n : 0 <= zqn n.
Proof. unfold zqn. apply (proj1 (zq_le 0 _)). lia. Qed.

Lemma rows_final n : forall p diff df s1 s2 step y10 y11 up down denom,
  let '(a, b, u, d) := snd (rows n p diff df s1 s2 step y10 y11 up down denom) in
  a == y10 + zqn n * s1 /\ b == y11 + zqn n * s2 /\ u == up + zqn n * step /\ d == denom + 2 * zqn n * step.
Proof.
  induction n as [|n IH]; intros p diff df s1 s2 step y10 y11 up down denom.
  - cbn [rows snd]. change (zqn 0) with 0. repeat split; ring.
  - cbn [rows]. cbv zeta.
    specialize (IH (p + 1)%Z (diff + df) df s1 s2 step (y10 + s1) (y11 + s2) (up + step) (down + step) (denom + 2 * step)).
    destruct (rows n _ _ _ _ _ _ _ _ _ _ _) as [cs [[[a b] u] d]]. cbn [snd] in *.
    destruct IH as [A [B [U D]]]. rewrite A, B, U, D, zqn_S. repeat split; ring.
Qed.

Lemma section_inside lo hi p y00 y01 y10 y11 up down denom v :
  lo <= y00 /\ y00 <= hi -> lo <= y01 /\ y01 <= hi -> lo <= y10 /\ y10 <= hi -> lo <= y11 /\ y11 <= hi ->
  Forall (inside_y lo hi) (section p y00 y01 y10 y11 up down denom v).
Proof.
  intros A B C D. unfold section. destruct (Qeq_bool denom 0); repeat apply Forall_cons; try apply Forall_nil;
    unfold inside_y; cbn [ya yb yc]; tauto.
Qed.
Lemma rows_inside lo hi n : forall p diff df s1 s2 step y10 y11 up down denom,
  (forall i, (i <= n)%nat -> lo <= y10 + zqn i * s1 /\ y10 + zqn i * s1 <= hi) ->
  (forall i, (i <= n)%nat -> lo <= y11 + zqn i * s2 /\ y11 + zqn i * s2 <= hi) ->
  Forall (inside_y lo hi) (fst (rows n p diff df s1 s2 step y10 y11 up down denom)).
Proof.
  induction n as [|n IH]; intros p diff df s1 s2 step y10 y11 up down denom H1 H2; [constructor|].
  cbn [rows]. cbv zeta.
  specialize (IH (p + 1)%Z (diff + df) df s1 s2 step (y10 + s1) (y11 + s2) (up + step) (down + step) (denom + 2 * step)).
  destruct (rows n _ _ _ _ _ _ _ _ _ _ _) as [cs r]. cbn [fst] in *.
  assert (Z0 : zqn 0 == 0) by reflexivity. assert (Z1 : zqn 1 == 1) by reflexivity.
  apply Forall_app. split.
  - apply section_inside.
    + specialize (H1 0%nat ltac:(lia)). rewrite Z0 in H1. lra.
    + specialize (H2 0%nat ltac:(lia)). rewrite Z0 in H2. lra.
    + specialize (H1 1%nat ltac:(lia)). rewrite Z1 in H1. lra.
    + specialize (H2 1%nat ltac:(lia)). rewrite Z1 in H2. lra.
  - apply IH; intros i Hi.
    + specialize (H1 (S i) ltac:(lia)). rewrite zqn_S in H1. lra.
    + specialize (H2 (S i) ltac:(lia)). rewrite zqn_S in H2. lra.
Qed.

(** ** The part before the middle vertex *)
Lemma Qabs_scale d s : 0 <= d -> Qabs (d * s) == d * Qabs s.
Proof. intros H. rewrite Qabs_Qmult, (Qabs_pos d) by auto. reflexivity. Qed.
Lemma Qeq_bool_false a : Qeq_bool a 0 = false -> ~ a == 0.
Proof. intros H F. apply Qeq_bool_iff in F. congruence. Qed.

Lemma before_amounts p pmid cl1 cr1 cl2 top x0 y0 x1 y1 s02 k :
  (p <= pmid)%Z -> ((p < pmid)%Z -> x0 < x1 /\ x0 < zq p + 1) -> (cl2 = true -> cl1 = true /\ p = pmid) ->
  deposit (amounts (fst (before_mid p pmid cl1 cr1 cl2 top x0 y0 x1 y1 s02))) k == deposit (left_tri p pmid cl1 cr1 top x0 x1) k.
Proof.
  intros Hp Hx H2. unfold before_mid, left_tri. cbv zeta. destruct cl2.
  { destruct (H2 eq_refl) as [-> ->]. rewrite Z.eqb_refl, andb_false_r. cbn [fst amounts map]. rewrite deposit_cons, deposit_nil.
    destruct (pmid =? k)%Z; ring. }
  clear H2. destruct (Z.eqb_spec p pmid) as [E|E].
  - destruct (negb cr1 && negb cl1); cbn [fst amounts map row amount]; rewrite ?deposit_cons, ?deposit_nil; destruct (p =? k)%Z; ring.
  - destruct (Hx ltac:(lia)) as [X1 X2]. clear Hx.
    set (sd := s02 - (y1 - y0) / (x1 - x0)). set (diff := zq p + 1 - x0). set (s01 := (y1 - y0) / (x1 - x0)).
    assert (D0 : 0 < diff) by (unfold diff; lra).
    set (n := Z.to_nat (pmid - (p + 1))).
    pose proof (rows_amounts n (p + 1) ((diff - half) * (top / (x1 - x0))) (top / (x1 - x0)) s01 s02 (Qabs sd) (s01 * diff + y0) (s02 * diff + y0)
      (Qabs (diff * sd)) (Qabs (diff * sd + sd)) (Qabs (diff * sd) + Qabs (diff * sd + sd)) k ltac:(ring)) as RA.
    pose proof (rows_final n (p + 1) ((diff - half) * (top / (x1 - x0))) (top / (x1 - x0)) s01 s02 (Qabs sd) (s01 * diff + y0) (s02 * diff + y0)
      (Qabs (diff * sd)) (Qabs (diff * sd + sd)) (Qabs (diff * sd) + Qabs (diff * sd + sd))) as RF.
    destruct (rows n _ _ _ _ _ _ _ _ _ _ _) as [part2 [[[a b] u] d]]. cbn [fst snd] in RA, RF.
    destruct RF as [Fa [Fb [Fu Fd]]].
    assert (P1 : deposit (amounts (if negb cl1 then [Call p y0 (s02 * diff + y0) (s01 * diff + y0) (half * diff * diff * (top / (x1 - x0)))]
        else section p (s01 * diff + y0 - s01) (s02 * diff + y0 - s02) (s01 * diff + y0) (s02 * diff + y0)
               (Qabs (s02 * diff + y0 - s02 - (s01 * diff + y0 - s01))) (Qabs (s02 * diff + y0 - (s01 * diff + y0)))
               (Qabs (s02 * diff + y0 - (s01 * diff + y0)) + Qabs (s02 * diff + y0 - s02 - (s01 * diff + y0 - s01)))
               ((diff - half) * (top / (x1 - x0))))) k ==
        if (p =? k)%Z then (if negb cl1 then half * diff * diff * (top / (x1 - x0)) else (diff - half) * (top / (x1 - x0))) else 0).
    { destruct (negb cl1).
      - cbn [amounts map row amount]. rewrite deposit_cons, deposit_nil. ring.
      - apply section_amounts. ring. }
    rewrite deposit_cons, deposit_app, deposit_cons, deposit_nil, <- RA.
    destruct (negb cr1) eqn:R; cbn [fst].
    + rewrite !amounts_app, !deposit_app, P1. apply Qplus_comp; [reflexivity|]. apply Qplus_comp; [reflexivity|].
      set (v := (x1 - zq pmid) * (x1 - x0 + (zq pmid - x0)) * half * (top / (x1 - x0))).
      destruct (Qeq_bool d 0) eqn:D; cbn [amounts map row amount]; rewrite !deposit_cons, deposit_nil.
      * ring.
      * apply Qeq_bool_false in D. destruct (pmid =? k)%Z; [|ring].
        assert (U : 0 < u).
        { rewrite Qabs_scale in Fu, Fd by lra. assert (G : Qabs (diff * sd + sd) == (diff + 1) * Qabs sd).
          { rewrite <- Qabs_scale by lra. apply Qabs_wd. ring. }
          rewrite G in Fd. pose proof (zqn_pos n) as N. pose proof (Qabs_nonneg sd) as S.
          destruct (Qlt_le_dec 0 (Qabs sd)) as [S'|S'].
          - rewrite Fu. nra.
          - exfalso. apply D. rewrite Fd. assert (S0 : Qabs sd == 0) by lra. rewrite S0. ring. }
        pose proof (Qabs_nonneg (s02 * (x1 - x0) + y0 - y1)). field. lra.
    + rewrite !amounts_app, !deposit_app, P1. destruct (pmid =? k)%Z; ring.
Qed.

Lemma after_amounts p pmax cl2 cr2 top x0 y0 x1 y1 x2 y2 s02 mid cs k :
  after_mid p pmax cl2 cr2 top x0 y0 x1 y1 x2 y2 s02 mid = Some cs ->
  deposit (amounts cs) k == deposit (right_tri p pmax cl2 cr2 top x1 x2) k.
Proof.
  unfold after_mid, right_tri. cbv zeta. destruct (Z.eqb_spec p pmax) as [E|E].
  - destruct (negb cr2).
    + destruct mid as [[a b]|]; [|discriminate]. intros H; injection H as <-. cbn [amounts map row amount]. rewrite !deposit_cons, deposit_nil. reflexivity.
    + intros H; injection H as <-. cbn [amounts map]. rewrite deposit_cons, deposit_nil. destruct (p =? k)%Z; ring.
  - set (s12 := (y2 - y1) / (x2 - x1)). set (sd := s02 - s12). set (diff := x2 - zq p - 1). set (df := top / (x2 - x1)).
    set (part4 := if negb cl2 then _ else _).
    assert (P4 : forall c4 a b d, part4 = Some (c4, (a, b, d)) ->
      deposit (amounts c4) k == if (p =? k)%Z then (if negb cl2 then (x2 - x1 - diff) * (diff + (x2 - x1)) * half * df else (diff + half) * df) else 0).
    { intros c4 a b d. unfold part4. destruct (negb cl2).
      - destruct mid as [[a' b']|]; [|discriminate]. intros H. injection H as <- _ _ _. apply section_amounts. ring.
      - intros H. injection H as <- _ _ _. apply section_amounts. ring. }
    destruct part4 as [[c4 [[a b] dn]]|]; [|discriminate]. specialize (P4 c4 a b dn eq_refl).
    set (n := Z.to_nat (pmax - (p + 1))).
    pose proof (rows_amounts n (p + 1) ((diff + half) * df) (- df) s12 s02 (- Qabs sd) a b (Qabs dn) (Qabs (dn + sd)) (Qabs dn + Qabs (dn + sd)) k ltac:(ring)) as RA.
    destruct (rows n _ _ _ _ _ _ _ _ _ _ _) as [c6 [[[a' b'] u'] d']]. cbn [fst] in RA.
    intros H; injection H as <-. rewrite !amounts_app, !deposit_app, P4, RA, deposit_cons, deposit_app.
    apply Qplus_comp; [reflexivity|]. apply Qplus_comp; [reflexivity|].
    destruct (negb cr2); [|reflexivity]. cbn [amounts map row amount]. rewrite !deposit_cons, deposit_nil. reflexivity.
Qed.

(** ** The whole triangle *)
Lemma sort3_pairs_fst a b c : let '(u, v, w) := sort3_pairs a b c in
  sort3 (fst a) (fst b) (fst c) = (fst u, fst v, fst w) /\ Permutation [a; b; c] [u; v; w].
Proof.
  unfold sort3_pairs, sort3. destruct (Qltb (fst b) (fst a)).
  - destruct (Qltb (fst c) (fst a)); [destruct (Qltb (fst c) (fst b))|]; split; try reflexivity.
    + apply (perm_trans (l' := [b; a; c])); [constructor|]. apply (perm_trans (l' := [b; c; a])); [constructor; constructor|constructor].
    + apply (perm_trans (l' := [b; a; c])); [constructor|]. constructor; constructor.
    + constructor.
  - destruct (Qltb (fst c) (fst b)); [destruct (Qltb (fst c) (fst a))|]; split; try reflexivity.
    + apply (perm_trans (l' := [a; c; b])); [constructor; constructor|constructor].
    + constructor; constructor.
Qed.

(** The sorted triangle. *)
Definition calls_sorted (x0 y0 x1 y1 x2 y2 amp : Q) (m0 : Z) : option (list call) :=
  if (m0 <? trunc x0)%Z then Some [] else
  if (trunc x2 <? 0)%Z then Some [] else
  let top := amp * (2 # 1) / (x2 - x0) in
  let s02 := (y2 - y0) / (x2 - x0) in
  let '(before, mid) := before_mid (lclip x0) (mclip m0 x1) (trunc x0 <? 0)%Z (m0 <=? trunc x1)%Z (rclip m0 x1 <? 0)%Z top x0 y0 x1 y1 s02 in
  match after_mid (mclip m0 x1) (rclip m0 x2) (rclip m0 x1 <? 0)%Z (m0 <=? trunc x2)%Z top x0 y0 x1 y1 x2 y2 s02 mid with
  | None => None
  | Some after => Some (before ++ after)
  end.

Lemma calls2D_unfold x1 x2 x3 y1 y2 y3 amp m0 : calls2D x1 x2 x3 y1 y2 y3 amp m0 =
  if Qltb (Qabs (x1 - x2)) TOL && Qltb (Qabs (x1 - x3)) TOL then
    Some (map (fun w => Call (fst w) y1 y2 y3 (snd w)) (delta_fn x1 m0 amp))
  else if (trunc x1 =? trunc x2)%Z && (trunc x1 =? trunc x3)%Z then
    if (m0 <=? trunc x1)%Z || (trunc x1 <? 0)%Z then Some [] else Some [Call (trunc x1) y1 y2 y3 amp]
  else let '((u, yu), (v, yv), (w, yw)) := sort3_pairs (x1, y1) (x2, y2) (x3, y3) in calls_sorted u yu v yv w yw amp m0.
Proof.
  unfold calls2D, delta_fn. cbv zeta. destruct (_ && _); [|reflexivity].
  destruct (_ || _); [reflexivity|]. destruct (Qltb _ TOL); [reflexivity|].
  destruct (Qltb _ half); [destruct (negb _); reflexivity|]. destruct (Qltb half _); [destruct (negb _); reflexivity|reflexivity].
Qed.

Lemma before_conditions x0 x1 x2 m0 : x0 <= x1 -> x1 <= x2 -> (0 <= m0)%Z -> (trunc x0 <= m0)%Z -> (0 <= trunc x2)%Z ->
  (lclip x0 <= mclip m0 x1)%Z /\ ((lclip x0 < mclip m0 x1)%Z -> x0 < x1 /\ x0 < zq (lclip x0) + 1) /\
  ((rclip m0 x1 <? 0)%Z = true -> (trunc x0 <? 0)%Z = true /\ lclip x0 = mclip m0 x1).
Proof.
  intros H0 H1 Hm Hp Hx. pose proof (trunc_mono _ _ H0) as M.
  split; [apply order_pm; auto|]. split.
  - intros L. split.
    + destruct (Qlt_le_dec x0 x1) as [X|X]; auto. exfalso. assert (E : trunc x1 = trunc x0) by (apply trunc_proper; lra).
      unfold lclip, mclip, rclip in L. rewrite E in L. destruct (Z.leb_spec m0 (trunc x0)), (Z.ltb_spec (trunc x0) 0);
        repeat match goal with H : context [if ?b then _ else _] |- _ => destruct b eqn:?; rewrite ?Z.ltb_lt, ?Z.ltb_ge in * end; lia.
    + unfold lclip. destruct (Z.ltb_spec (trunc x0) 0) as [T|T].
      * apply trunc_lt_0 in T. change (zq 0) with 0. lra.
      * apply trunc_lt_pos; lia.
  - intros L. apply Z.ltb_lt in L. unfold rclip in L. destruct (Z.leb_spec m0 (trunc x1)) as [T|T]; [lia|].
    assert (T0 : (trunc x0 < 0)%Z) by lia. split; [apply Z.ltb_lt; auto|].
    unfold lclip, mclip, rclip. destruct (Z.ltb_spec (trunc x0) 0); [|lia]. destruct (Z.leb_spec m0 (trunc x1)); [lia|].
    destruct (Z.ltb_spec (trunc x1) 0); lia.
Qed.

Lemma calls_sorted_amounts x0 y0 x1 y1 x2 y2 amp m0 cs k : x0 <= x1 -> x1 <= x2 -> (0 <= m0)%Z ->
  calls_sorted x0 y0 x1 y1 x2 y2 amp m0 = Some cs ->
  deposit (amounts cs) k == deposit (triangle_sorted x0 x1 x2 amp m0) k.
Proof.
  intros H0 H1 Hm. unfold calls_sorted, triangle_sorted.
  destruct (Z.ltb_spec m0 (trunc x0)) as [L|L]; [intros H; injection H as <-; reflexivity|].
  destruct (Z.ltb_spec (trunc x2) 0) as [L'|L']; [intros H; injection H as <-; reflexivity|]. cbv zeta.
  destruct (before_conditions x0 x1 x2 m0 H0 H1 Hm L L') as [C1 [C2 C3]].
  pose proof (before_amounts (lclip x0) (mclip m0 x1) (trunc x0 <? 0)%Z (m0 <=? trunc x1)%Z (rclip m0 x1 <? 0)%Z
    (amp * (2 # 1) / (x2 - x0)) x0 y0 x1 y1 ((y2 - y0) / (x2 - x0)) k C1 C2 C3) as B.
  destruct (before_mid _ _ _ _ _ _ _ _ _ _ _) as [before mid]. cbn [fst] in B.
  destruct (after_mid _ _ _ _ _ _ _ _ _ _ _ _ _) as [after|] eqn:A; [|discriminate].
  intros H; injection H as <-. rewrite amounts_app, !deposit_app, B. apply after_amounts with (k := k) in A. rewrite A. reflexivity.
Qed.

Lemma amounts_delta y1 y2 y3 w : amounts (map (fun w => Call (fst w) y1 y2 y3 (snd w)) w) = w.
Proof. unfold amounts. rewrite map_map. cbn [row amount]. rewrite <- (map_id w) at 2. apply map_ext. intros [a b]; reflexivity. Qed.

Theorem calls2D_amounts x1 x2 x3 y1 y2 y3 amp m0 cs k : (0 <= m0)%Z -> calls2D x1 x2 x3 y1 y2 y3 amp m0 = Some cs ->
  deposit (amounts cs) k == deposit (triangle_interpolation x1 x2 x3 amp m0) k.
Proof.
  intros Hm. rewrite calls2D_unfold. unfold triangle_interpolation. destruct (_ && _).
  - intros H; injection H as <-. rewrite amounts_delta. reflexivity.
  - rewrite triangle_unfold. destruct (_ && _).
    + destruct (_ || _); intros H; injection H as <-; reflexivity.
    + pose proof (sort3_pairs_fst (x1, y1) (x2, y2) (x3, y3)) as S. destruct (sort3_pairs _ _ _) as [[[u yu] [v yv]] [w yw]].
      destruct S as [S _]. cbn [fst] in S. pose proof (sort3_spec x1 x2 x3) as T. rewrite S in *. destruct T as [T1 [T2 _]].
      apply calls_sorted_amounts; auto.
Qed.

(** ** The positions of the calls lie between those of the vertices *)
Definition between (lo hi y : Q) : Prop := lo <= y /\ y <= hi.
Lemma line_between lo hi ya yb s T t y : between lo hi ya -> between lo hi yb -> s * T == yb - ya -> 0 <= t -> t <= T -> y == ya + s * t ->
  between lo hi y.
Proof.
  intros [A1 A2] [B1 B2] E T0 T1 Y. unfold between. rewrite Y. clear Y y. destruct (Qlt_le_dec s 0) as [S|S].
  - assert (s * T <= s * t) by nra. assert (s * t <= 0) by nra. split; lra.
  - assert (s * t <= s * T) by nra. assert (0 <= s * t) by nra. split; lra.
Qed.

Lemma before_inside lo hi p pmid cl1 cr1 cl2 top x0 y0 x1 y1 x2 y2 :
  between lo hi y0 -> between lo hi y1 -> between lo hi y2 -> x0 <= x1 -> x1 <= x2 -> x0 < x2 -> (p <= pmid)%Z ->
  ((p < pmid)%Z -> zq pmid <= x1 /\ x0 < zq p + 1 /\ (cl1 = true -> x0 <= zq p)) ->
  let '(cs, mid) := before_mid p pmid cl1 cr1 cl2 top x0 y0 x1 y1 ((y2 - y0) / (x2 - x0)) in
  Forall (inside_y lo hi) cs /\ match mid with Some (a, b) => between lo hi a /\ between lo hi b | None => True end.
Proof.
  intros B0 B1 B2 X0 X1 X2 Hp Hx. set (s02 := (y2 - y0) / (x2 - x0)).
  assert (S02 : s02 * (x2 - x0) == y2 - y0) by (unfold s02; field; lra).
  assert (L : forall t y, 0 <= t -> t <= x2 - x0 -> y == y0 + s02 * t -> between lo hi y).
  { intros t y T0 T1. apply (line_between lo hi y0 y2 s02 (x2 - x0) t y); auto. }
  unfold before_mid. cbv zeta. destruct cl2; [split; [constructor|exact I]|].
  destruct (Z.eqb_spec p pmid) as [E|E].
  - destruct (negb cr1 && negb cl1); [|split; [constructor|exact I]].
    assert (M : between lo hi (s02 * (x1 - x0) + y0)) by (apply (L (x1 - x0)); lra).
    split; [|split; auto]. constructor; [|constructor]. unfold inside_y. cbn [ya yb yc]. repeat split; try apply B0; try apply B1; apply M.
  - destruct (Hx ltac:(lia)) as [X3 [X4 X5]]. clear Hx.
    assert (X6 : zq p + 1 <= zq pmid) by (apply zq_succ_le; lia).
    set (s01 := (y1 - y0) / (x1 - x0)).
    assert (S01 : s01 * (x1 - x0) == y1 - y0) by (unfold s01; field; lra).
    assert (M : forall t y, 0 <= t -> t <= x1 - x0 -> y == y0 + s01 * t -> between lo hi y).
    { intros t y T0 T1. apply (line_between lo hi y0 y1 s01 (x1 - x0) t y); auto. }
    set (diff := zq p + 1 - x0). set (n := Z.to_nat (pmid - (p + 1))).
    assert (NN : zqn n == zq pmid - zq p - 1).
    { unfold zqn, n. rewrite Z2Nat.id by lia. unfold zq, Z.sub. rewrite !inject_Z_plus, !inject_Z_opp, inject_Z_plus. change (inject_Z 1) with 1. ring. }
    assert (II : forall i, (i <= n)%nat -> 0 <= zqn i /\ zqn i <= zq pmid - zq p - 1).
    { intros i Hi. split; [apply zqn_pos|]. rewrite <- NN. unfold zqn. apply (proj1 (zq_le _ _)). lia. }
    assert (P1 : Forall (inside_y lo hi) (if negb cl1 then [Call p y0 (s02 * diff + y0) (s01 * diff + y0) (half * diff * diff * (top / (x1 - x0)))]
        else section p (s01 * diff + y0 - s01) (s02 * diff + y0 - s02) (s01 * diff + y0) (s02 * diff + y0)
               (Qabs (s02 * diff + y0 - s02 - (s01 * diff + y0 - s01))) (Qabs (s02 * diff + y0 - (s01 * diff + y0)))
               (Qabs (s02 * diff + y0 - (s01 * diff + y0)) + Qabs (s02 * diff + y0 - s02 - (s01 * diff + y0 - s01)))
               ((diff - half) * (top / (x1 - x0))))).
    { destruct cl1; cbn [negb].
      - specialize (X5 eq_refl). apply section_inside.
        + apply (M (diff - 1)); [unfold diff; lra|unfold diff; lra|ring].
        + apply (L (diff - 1)); [unfold diff; lra|unfold diff; lra|ring].
        + apply (M diff); [unfold diff; lra|unfold diff; lra|ring].
        + apply (L diff); [unfold diff; lra|unfold diff; lra|ring].
      - constructor; [|constructor]. unfold inside_y. cbn [ya yb yc]. split; [exact B0|]. split.
        + apply (L diff); [unfold diff; lra|unfold diff; lra|ring].
        + apply (M diff); [unfold diff; lra|unfold diff; lra|ring]. }
    pose proof (rows_inside lo hi n (p + 1) ((diff - half) * (top / (x1 - x0))) (top / (x1 - x0)) s01 s02 (Qabs (s02 - s01)) (s01 * diff + y0) (s02 * diff + y0)
      (Qabs (diff * (s02 - s01))) (Qabs (diff * (s02 - s01) + (s02 - s01))) (Qabs (diff * (s02 - s01)) + Qabs (diff * (s02 - s01) + (s02 - s01)))) as RI.
    pose proof (rows_final n (p + 1) ((diff - half) * (top / (x1 - x0))) (top / (x1 - x0)) s01 s02 (Qabs (s02 - s01)) (s01 * diff + y0) (s02 * diff + y0)
      (Qabs (diff * (s02 - s01))) (Qabs (diff * (s02 - s01) + (s02 - s01))) (Qabs (diff * (s02 - s01)) + Qabs (diff * (s02 - s01) + (s02 - s01)))) as RF.
    destruct (rows n _ _ _ _ _ _ _ _ _ _ _) as [part2 [[[a b] u] d]]. cbn [fst snd] in RI, RF.
    destruct RF as [Fa [Fb _]].
    assert (P2 : Forall (inside_y lo hi) part2).
    { apply RI; intros i Hi; destruct (II i Hi) as [I1 I2].
      - apply (M (diff + zqn i)); [unfold diff; lra|unfold diff; lra|ring].
      - apply (L (diff + zqn i)); [unfold diff; lra|unfold diff; lra|ring]. }
    assert (Ba : between lo hi a). { apply (M (zq pmid - x0)); [lra|lra|]. rewrite Fa, NN. unfold diff. ring. }
    assert (Bb : between lo hi b). { apply (L (zq pmid - x0)); [lra|lra|]. rewrite Fb, NN. unfold diff. ring. }
    destruct (negb cr1).
    + assert (Bm : between lo hi (s02 * (x1 - x0) + y0)) by (apply (L (x1 - x0)); lra).
      split; [|split; auto]. rewrite !Forall_app. split; [exact P1|]. split; [exact P2|].
      destruct (Qeq_bool d 0); repeat apply Forall_cons; try apply Forall_nil; unfold inside_y; cbn [ya yb yc]; unfold between in *; tauto.
    + split; [|split; auto]. rewrite Forall_app. split; [exact P1|exact P2].
Qed.

Lemma after_inside lo hi p pmax cl2 cr2 top x0 y0 x1 y1 x2 y2 mid cs :
  between lo hi y0 -> between lo hi y1 -> between lo hi y2 -> x0 <= x1 -> x1 <= x2 -> x0 < x2 -> (p <= pmax)%Z ->
  ((p < pmax)%Z -> zq pmax <= x2 /\ x1 < zq p + 1 /\ (cl2 = true -> x1 <= zq p)) ->
  match mid with Some (a, b) => between lo hi a /\ between lo hi b | None => True end ->
  after_mid p pmax cl2 cr2 top x0 y0 x1 y1 x2 y2 ((y2 - y0) / (x2 - x0)) mid = Some cs ->
  Forall (inside_y lo hi) cs.
Proof.
  intros B0 B1 B2 X0 X1 X2 Hp Hx Hm. set (s02 := (y2 - y0) / (x2 - x0)).
  assert (S02 : s02 * (x2 - x0) == y2 - y0) by (unfold s02; field; lra).
  assert (L : forall t y, 0 <= t -> t <= x2 - x0 -> y == y0 + s02 * t -> between lo hi y).
  { intros t y T0 T1. apply (line_between lo hi y0 y2 s02 (x2 - x0) t y); auto. }
  unfold after_mid. cbv zeta. destruct (Z.eqb_spec p pmax) as [E|E].
  - destruct (negb cr2).
    + destruct mid as [[a b]|]; [|discriminate]. intros H; injection H as <-. constructor; [|constructor].
      unfold inside_y. cbn [ya yb yc]. unfold between in *; tauto.
    + intros H; injection H as <-. constructor.
  - destruct (Hx ltac:(lia)) as [X3 [X4 X5]]. clear Hx.
    assert (X6 : zq p + 1 <= zq pmax) by (apply zq_succ_le; lia).
    assert (ZP : zq (p + 1) == zq p + 1) by (rewrite zq_plus; reflexivity).
    set (s12 := (y2 - y1) / (x2 - x1)). set (sd := s02 - s12). set (diff := x2 - zq p - 1). set (df := top / (x2 - x1)).
    assert (S12 : s12 * (x2 - x1) == y2 - y1) by (unfold s12; field; lra).
    assert (M : forall t y, 0 <= t -> t <= x2 - x1 -> y == y1 + s12 * t -> between lo hi y).
    { intros t y T0 T1. apply (line_between lo hi y1 y2 s12 (x2 - x1) t y); auto. }
    set (part4 := if negb cl2 then _ else _).
    assert (P4 : forall c4 a b d, part4 = Some (c4, (a, b, d)) ->
      Forall (inside_y lo hi) c4 /\ a == y1 + s12 * (zq p + 1 - x1) /\ b == y0 + s02 * (zq p + 1 - x0)).
    { intros c4 a b d. unfold part4. destruct cl2; cbn [negb].
      - specialize (X5 eq_refl). intros H. injection H as <- <- <- _.
        split; [|split; ring]. apply section_inside.
        + apply (M (zq p - x1)); [lra|lra|ring].
        + apply (L (zq p - x0)); [lra|lra|ring].
        + apply (M (zq p + 1 - x1)); [lra|lra|ring].
        + apply (L (zq p + 1 - x0)); [lra|lra|ring].
      - destruct mid as [[a' b']|]; [|discriminate]. intros H. injection H as <- <- <- _.
        split; [|split; rewrite ZP; ring]. destruct Hm as [Ma Mb]. apply section_inside; auto.
        + apply (M (zq p + 1 - x1)); [lra|lra|rewrite ZP; ring].
        + apply (L (zq p + 1 - x0)); [lra|lra|rewrite ZP; ring]. }
    destruct part4 as [[c4 [[a b] dn]]|]; [|discriminate]. destruct (P4 c4 a b dn eq_refl) as [Q4 [Qa Qb]]. clear P4.
    set (n := Z.to_nat (pmax - (p + 1))).
    assert (NN : zqn n == zq pmax - zq p - 1).
    { unfold zqn, n. rewrite Z2Nat.id by lia. unfold zq, Z.sub. rewrite !inject_Z_plus, !inject_Z_opp, inject_Z_plus. change (inject_Z 1) with 1. ring. }
    assert (II : forall i, (i <= n)%nat -> 0 <= zqn i /\ zqn i <= zq pmax - zq p - 1).
    { intros i Hi. split; [apply zqn_pos|]. rewrite <- NN. unfold zqn. apply (proj1 (zq_le _ _)). lia. }
    pose proof (rows_inside lo hi n (p + 1) ((diff + half) * df) (- df) s12 s02 (- Qabs sd) a b (Qabs dn) (Qabs (dn + sd)) (Qabs dn + Qabs (dn + sd))) as RI.
    pose proof (rows_final n (p + 1) ((diff + half) * df) (- df) s12 s02 (- Qabs sd) a b (Qabs dn) (Qabs (dn + sd)) (Qabs dn + Qabs (dn + sd))) as RF.
    destruct (rows n _ _ _ _ _ _ _ _ _ _ _) as [c6 [[[a' b'] u'] d']]. cbn [fst snd] in RI, RF. destruct RF as [Fa [Fb _]].
    assert (P6 : Forall (inside_y lo hi) c6).
    { apply RI; intros i Hi; destruct (II i Hi) as [I1 I2].
      - apply (M (zq p + 1 - x1 + zqn i)); [lra|lra|rewrite Qa; ring].
      - apply (L (zq p + 1 - x0 + zqn i)); [lra|lra|rewrite Qb; ring]. }
    assert (Ba : between lo hi a'). { apply (M (zq pmax - x1)); [lra|lra|]. rewrite Fa, Qa, NN. ring. }
    assert (Bb : between lo hi b'). { apply (L (zq pmax - x0)); [lra|lra|]. rewrite Fb, Qb, NN. ring. }
    intros H; injection H as <-. rewrite !Forall_app. split; [exact Q4|]. split; [exact P6|].
    destruct (negb cr2); [|constructor]. constructor; [|constructor]. unfold inside_y. cbn [ya yb yc]. unfold between in *; tauto.
Qed.

Lemma mclip_le m0 x : (0 <= m0)%Z -> (0 < mclip m0 x)%Z -> zq (mclip m0 x) <= x.
Proof.
  intros Hm H. unfold mclip, rclip in *. destruct (Z.leb_spec m0 (trunc x)).
  - destruct (Z.ltb_spec m0 0); [lia|]. apply trunc_ge_pos; lia.
  - destruct (Z.ltb_spec (trunc x) 0); [lia|]. apply trunc_ge_pos; lia.
Qed.
Lemma rclip_le m0 x : (0 <= m0)%Z -> (0 < rclip m0 x)%Z -> zq (rclip m0 x) <= x.
Proof.
  intros Hm H. unfold rclip in *. destruct (Z.leb_spec m0 (trunc x)); apply trunc_ge_pos; lia.
Qed.

Lemma calls_sorted_inside lo hi x0 y0 x1 y1 x2 y2 amp m0 cs : x0 <= x1 -> x1 <= x2 -> x0 < x2 -> (0 <= m0)%Z ->
  between lo hi y0 -> between lo hi y1 -> between lo hi y2 ->
  calls_sorted x0 y0 x1 y1 x2 y2 amp m0 = Some cs -> Forall (inside_y lo hi) cs.
Proof.
  intros H0 H1 H2 Hm B0 B1 B2. unfold calls_sorted.
  destruct (Z.ltb_spec m0 (trunc x0)) as [L|L]; [intros H; injection H as <-; constructor|].
  destruct (Z.ltb_spec (trunc x2) 0) as [L'|L']; [intros H; injection H as <-; constructor|]. cbv zeta.
  destruct (before_conditions x0 x1 x2 m0 H0 H1 Hm L L') as [C1 [C2 C3]].
  pose proof (order_mx x1 x2 m0 H1) as O2. pose proof (order_px x0 x1 x2 m0 H0 H1 L L' Hm) as [O3 [O4 O5]].
  specialize (O2 ltac:(lia) ltac:(lia)).
  pose proof (before_inside lo hi (lclip x0) (mclip m0 x1) (trunc x0 <? 0)%Z (m0 <=? trunc x1)%Z (rclip m0 x1 <? 0)%Z
    (amp * (2 # 1) / (x2 - x0)) x0 y0 x1 y1 x2 y2 B0 B1 B2 H0 H1 H2 C1) as B.
  destruct (before_mid _ _ _ _ _ _ _ _ _ _ _) as [before mid]. destruct B as [B M].
  { intros Hlt. destruct (C2 Hlt) as [D1 D2]. split; [apply mclip_le; lia|]. split; auto.
    intros E. apply Z.ltb_lt in E. unfold lclip. destruct (Z.ltb_spec (trunc x0) 0); [|lia]. apply trunc_lt_0 in E. change (zq 0) with 0. lra. }
  destruct (after_mid _ _ _ _ _ _ _ _ _ _ _ _ _) as [after|] eqn:A; [|discriminate].
  intros H; injection H as <-. apply Forall_app. split; auto.
  eapply (after_inside lo hi); [exact B0|exact B1|exact B2|exact H0|exact H1|exact H2|exact O2| |exact M|exact A].
  intros Hlt. split; [apply rclip_le; lia|]. split.
  - unfold mclip. destruct (Z.ltb_spec (rclip m0 x1) 0) as [T|T].
    + unfold rclip in T. destruct (Z.leb_spec m0 (trunc x1)); [lia|]. apply trunc_lt_0 in T. change (zq 0) with 0. lra.
    + unfold rclip in *. unfold mclip, rclip in Hlt. destruct (Z.leb_spec m0 (trunc x1)).
      * destruct (Z.leb_spec m0 (trunc x2)); destruct (Z.ltb_spec m0 0); lia.
      * apply trunc_lt_pos; lia.
  - intros E. apply Z.ltb_lt in E. unfold mclip. destruct (Z.ltb_spec (rclip m0 x1) 0) as [T|T]; [|lia].
    unfold rclip in T. destruct (Z.leb_spec m0 (trunc x1)); [lia|]. apply trunc_lt_0 in T. change (zq 0) with 0. lra.
Qed.

Theorem calls2D_inside lo hi x1 x2 x3 y1 y2 y3 amp m0 cs : (0 <= m0)%Z ->
  between lo hi y1 -> between lo hi y2 -> between lo hi y3 ->
  calls2D x1 x2 x3 y1 y2 y3 amp m0 = Some cs -> Forall (inside_y lo hi) cs.
Proof.
  intros Hm B1 B2 B3. rewrite calls2D_unfold. destruct (_ && _).
  - intros H; injection H as <-. apply Forall_forall. intros c Hc. apply in_map_iff in Hc. destruct Hc as [w [<- _]].
    unfold inside_y. cbn [ya yb yc]. auto.
  - destruct (_ && _) eqn:E.
    + destruct (_ || _); intros H; injection H as <-; [constructor|]. constructor; [|constructor]. unfold inside_y. cbn [ya yb yc]. auto.
    + pose proof (sort3_pairs_fst (x1, y1) (x2, y2) (x3, y3)) as S. destruct (sort3_pairs _ _ _) as [[[u yu] [v yv]] [w yw]].
      destruct S as [S P]. cbn [fst] in S. pose proof (sort3_spec x1 x2 x3) as T. rewrite S in T. destruct T as [T1 [T2 T3]].
      assert (Hlt : u < w).
      { destruct (Qlt_le_dec u w) as [X|X]; auto. exfalso.
        assert (F : forall z, In z [x1; x2; x3] -> z == u).
        { intros z Hz. apply (Permutation_in _ T3) in Hz. destruct Hz as [<-|[<-|[<-|[]]]]; lra. }
        apply andb_false_iff in E. rewrite !Z.eqb_neq in E.
        destruct E as [E|E]; apply E; apply trunc_proper; rewrite (F x1), ?(F x2), ?(F x3); cbn [In]; auto; reflexivity. }
      assert (G : forall x y, In (x, y) [(u, yu); (v, yv); (w, yw)] -> between lo hi y).
      { intros x y Hxy. apply (Permutation_in _ (Permutation_sym P)) in Hxy. destruct Hxy as [Hxy|[Hxy|[Hxy|[]]]]; injection Hxy as _ <-; auto. }
      apply calls_sorted_inside; auto.
      * apply (G u). cbn; auto.
      * apply (G v). cbn; auto.
      * apply (G w). cbn; auto.
Qed.

(** ** Projection *)
Theorem projection x1 x2 x3 y1 y2 y3 amp m0 m1 w p : (0 <= m0)%Z -> interior y1 m1 -> interior y2 m1 -> interior y3 m1 ->
  triangle_interpolation2D x1 x2 x3 y1 y2 y3 amp m0 m1 = Some w ->
  row_total w m1 p == deposit (triangle_interpolation x1 x2 x3 amp m0) p.
Proof.
  intros Hm I1 I2 I3. unfold triangle_interpolation2D. destruct (calls2D _ _ _ _ _ _ _ _) as [cs|] eqn:E; [|discriminate].
  intros H; injection H as <-. rewrite rows_total; [eapply calls2D_amounts; eauto|].
  eapply calls2D_inside; [exact Hm|exact I1|exact I2|exact I3|exact E].
Qed.

Theorem total2D_conserved x1 x2 x3 y1 y2 y3 amp m0 m1 w :
  interior x1 m0 -> interior x2 m0 -> interior x3 m0 -> interior y1 m1 -> interior y2 m1 -> interior y3 m1 ->
  triangle_interpolation2D x1 x2 x3 y1 y2 y3 amp m0 m1 = Some w -> total2D w m0 m1 == amp.
Proof.
  intros X1 X2 X3 Y1 Y2 Y3 H.
  assert (Hm : (0 <= m0)%Z). { apply interior_window in X1. apply (proj2 (zq_le 0 m0)). change (zq 0) with 0. lra. }
  transitivity (total (triangle_interpolation x1 x2 x3 amp m0) m0); [|apply call_total; assumption].
  apply qsum_ext. intros p Hp. apply (projection x1 x2 x3 y1 y2 y3); assumption.
Qed.

(** ** Which rows are written *)
Lemma section_rows (P : Z -> Prop) p y00 y01 y10 y11 up down denom v : P p -> Forall (fun c => P (row c)) (section p y00 y01 y10 y11 up down denom v).
Proof. intros H. unfold section. destruct (Qeq_bool denom 0); repeat constructor; auto. Qed.
Lemma rows_rows (P : Z -> Prop) n : forall p diff df s1 s2 step y10 y11 up down denom,
  (forall k, (p <= k < p + Z.of_nat n)%Z -> P k) ->
  Forall (fun c => P (row c)) (fst (rows n p diff df s1 s2 step y10 y11 up down denom)).
Proof.
  induction n as [|n IH]; intros p diff df s1 s2 step y10 y11 up down denom H; [constructor|].
  cbn [rows]. cbv zeta.
  specialize (IH (p + 1)%Z (diff + df) df s1 s2 step (y10 + s1) (y11 + s2) (up + step) (down + step) (denom + 2 * step)).
  destruct (rows n _ _ _ _ _ _ _ _ _ _ _) as [cs r]. cbn [fst] in *. apply Forall_app. split.
  - apply (section_rows P). apply H. lia.
  - apply IH. intros k Hk. apply H. lia.
Qed.
Lemma before_rows (P : Z -> Prop) p pmid cl1 cr1 cl2 top x0 y0 x1 y1 s02 : (p <= pmid)%Z ->
  (forall k, (p <= k < pmid)%Z -> P k) -> (cr1 = false -> P pmid) ->
  Forall (fun c => P (row c)) (fst (before_mid p pmid cl1 cr1 cl2 top x0 y0 x1 y1 s02)).
Proof.
  intros Hp H1 H2. unfold before_mid. cbv zeta. destruct cl2; [constructor|]. destruct (Z.eqb_spec p pmid) as [E|E].
  - destruct cr1, cl1; cbn [negb andb fst]; repeat constructor. subst; auto.
  - pose proof (rows_rows P (Z.to_nat (pmid - (p + 1))) (p + 1) ((zq p + 1 - x0 - half) * (top / (x1 - x0))) (top / (x1 - x0)) ((y1 - y0) / (x1 - x0)) s02
      (Qabs (s02 - (y1 - y0) / (x1 - x0))) ((y1 - y0) / (x1 - x0) * (zq p + 1 - x0) + y0) (s02 * (zq p + 1 - x0) + y0)
      (Qabs ((zq p + 1 - x0) * (s02 - (y1 - y0) / (x1 - x0)))) (Qabs ((zq p + 1 - x0) * (s02 - (y1 - y0) / (x1 - x0)) + (s02 - (y1 - y0) / (x1 - x0))))
      (Qabs ((zq p + 1 - x0) * (s02 - (y1 - y0) / (x1 - x0))) + Qabs ((zq p + 1 - x0) * (s02 - (y1 - y0) / (x1 - x0)) + (s02 - (y1 - y0) / (x1 - x0)))))
      as R.
    destruct (rows _ _ _ _ _ _ _ _ _ _ _ _) as [part2 [[[a b] u] d]]. cbn [fst] in R.
    assert (R' : Forall (fun c => P (row c)) part2) by (apply R; intros k Hk; apply H1; lia).
    destruct cr1; cbn [negb fst]; rewrite ?Forall_app; repeat split; auto.
    + destruct cl1; cbn [negb]; [apply (section_rows P), H1; lia|]. repeat constructor. apply (H1 p); lia.
    + destruct cl1; cbn [negb]; [apply (section_rows P), H1; lia|]. repeat constructor. apply (H1 p); lia.
    + destruct (Qeq_bool d 0); repeat constructor; auto.
Qed.
Lemma after_rows (P : Z -> Prop) p pmax cl2 cr2 top x0 y0 x1 y1 x2 y2 s02 mid cs : (p <= pmax)%Z ->
  (forall k, (p <= k < pmax)%Z -> P k) -> (cr2 = false -> P pmax) ->
  after_mid p pmax cl2 cr2 top x0 y0 x1 y1 x2 y2 s02 mid = Some cs -> Forall (fun c => P (row c)) cs.
Proof.
  intros Hp H1 H2. unfold after_mid. cbv zeta. destruct (Z.eqb_spec p pmax) as [E|E].
  - destruct cr2; cbn [negb].
    + intros H; injection H as <-. constructor.
    + destruct mid as [[a b]|]; [|discriminate]. intros H; injection H as <-. repeat constructor. subst; auto.
  - set (s12 := (y2 - y1) / (x2 - x1)). set (sd := s02 - s12). set (diff := x2 - zq p - 1). set (df := top / (x2 - x1)).
    set (part4 := if negb cl2 then _ else _).
    assert (P4 : forall c4 a b d, part4 = Some (c4, (a, b, d)) -> Forall (fun c => P (row c)) c4).
    { intros c4 a b d. unfold part4. destruct (negb cl2).
      - destruct mid as [[a' b']|]; [|discriminate]. intros H. injection H as <- _ _ _. apply (section_rows P), H1; lia.
      - intros H. injection H as <- _ _ _. apply (section_rows P), H1; lia. }
    destruct part4 as [[c4 [[a b] dn]]|]; [|discriminate]. specialize (P4 c4 a b dn eq_refl).
    set (n := Z.to_nat (pmax - (p + 1))).
    pose proof (rows_rows P n (p + 1) ((diff + half) * df) (- df) s12 s02 (- Qabs sd) a b (Qabs dn) (Qabs (dn + sd)) (Qabs dn + Qabs (dn + sd))) as R.
    destruct (rows n _ _ _ _ _ _ _ _ _ _ _) as [c6 [[[a' b'] u'] d']]. cbn [fst] in R.
    intros H; injection H as <-. rewrite !Forall_app. split; auto. split.
    + apply R. intros k Hk. apply H1. lia.
    + destruct cr2; cbn [negb]; repeat constructor. auto.
Qed.

Theorem calls2D_rows x1 x2 x3 y1 y2 y3 amp m0 cs : (0 < m0)%Z ->
  calls2D x1 x2 x3 y1 y2 y3 amp m0 = Some cs -> Forall (fun c => (0 <= row c < m0)%Z) cs.
Proof.
  intros Hm. rewrite calls2D_unfold. destruct (_ && _).
  - intros H; injection H as <-. apply Forall_forall. intros c Hc. apply in_map_iff in Hc. destruct Hc as [w [<- Hw]].
    cbn [row]. eapply delta_safe; eauto.
  - destruct (_ && _) eqn:E.
    + destruct (_ || _) eqn:F; intros H; injection H as <-; [constructor|]. apply orb_false_iff in F. destruct F as [F1 F2].
      apply Z.leb_gt in F1. apply Z.ltb_ge in F2. repeat constructor; cbn [row]; lia.
    + pose proof (sort3_pairs_fst (x1, y1) (x2, y2) (x3, y3)) as S. destruct (sort3_pairs _ _ _) as [[[u yu] [v yv]] [w yw]].
      destruct S as [S P]. cbn [fst] in S. pose proof (sort3_spec x1 x2 x3) as T. rewrite S in T. destruct T as [T1 [T2 T3]].
      unfold calls_sorted.
      destruct (Z.ltb_spec m0 (trunc u)) as [L|L]; [intros H; injection H as <-; constructor|].
      destruct (Z.ltb_spec (trunc w) 0) as [L'|L']; [intros H; injection H as <-; constructor|]. cbv zeta.
      destruct (before_conditions u v w m0 T1 T2 ltac:(lia) L L') as [C1 _].
      pose proof (order_mx v w m0 T2) as O2. pose proof (order_px u v w m0 T1 T2 L L' ltac:(lia)) as [O3 [O4 O5]].
      specialize (O2 ltac:(lia) ltac:(lia)).
      pose proof (before_rows (fun k => (0 <= k < m0)%Z) (lclip u) (mclip m0 v) (trunc u <? 0)%Z (m0 <=? trunc v)%Z (rclip m0 v <? 0)%Z
        (amp * (2 # 1) / (w - u)) u yu v yv ((yw - yu) / (w - u)) C1) as B.
      destruct (before_mid _ _ _ _ _ _ _ _ _ _ _) as [before mid]. cbn [fst] in B.
      destruct (after_mid _ _ _ _ _ _ _ _ _ _ _ _ _) as [after|] eqn:A; [|discriminate].
      intros H; injection H as <-. apply Forall_app. split.
      * apply B; [intros; lia|]. intros F. apply Z.leb_gt in F. unfold mclip, rclip in *. destruct (Z.leb_spec m0 (trunc v)); [lia|].
        destruct (Z.ltb_spec (trunc v) 0); lia.
      * eapply (after_rows (fun k => (0 <= k < m0)%Z)); [exact O2| | |exact A]; [intros; lia|].
        intros F. apply Z.leb_gt in F. unfold rclip in *. destruct (Z.leb_spec m0 (trunc w)); lia.
Qed.

(** Every addition is inside the array, or adds zero one past the end of a row. *)
Theorem writes2D_safe x1 x2 x3 y1 y2 y3 amp m0 m1 w : (0 < m0)%Z -> (0 <= m1)%Z ->
  triangle_interpolation2D x1 x2 x3 y1 y2 y3 amp m0 m1 = Some w -> Forall (safe_write (m0 * m1)) w.
Proof.
  intros H0 H1. unfold triangle_interpolation2D. destruct (calls2D _ _ _ _ _ _ _ _) as [cs|] eqn:E; [|discriminate].
  intros H; injection H as <-. apply calls2D_rows in E; auto. apply Forall_flat_map. eapply Forall_impl; [|exact E].
  intros c Hc. cbn beta in Hc. unfold call_writes. apply Forall_map. eapply Forall_impl; [|apply triangle_interpolation_safe, H1].
  intros [i v] [S|[S1 S2]]; unfold safe_write; cbn [fst snd] in *.
  - left. nia.
  - subst i. destruct (Z.eq_dec (row c * m1 + m1) (m0 * m1)) as [F|F]; [right; auto|left]. nia.
Qed.

(** ** Which triangles make the code read a variable that was not set *)
Lemma before_mid_none p pmid cl1 cr1 cl2 top x0 y0 x1 y1 s02 :
  snd (before_mid p pmid cl1 cr1 cl2 top x0 y0 x1 y1 s02) = None <-> cl2 = true \/ (p = pmid /\ (cl1 = true \/ cr1 = true)).
Proof.
  unfold before_mid. cbv zeta. destruct cl2; cbn [snd]; [tauto|]. destruct (Z.eqb_spec p pmid) as [E|E].
  - destruct cr1, cl1; cbn; split; auto; try discriminate; intros [F|[_ [F|F]]]; congruence.
  - destruct (rows _ _ _ _ _ _ _ _ _ _ _ _) as [part2 [[[a b] u] d]]. destruct (negb cr1); cbn [snd]; split; try discriminate; intros [F|[F _]]; congruence.
Qed.
Lemma after_mid_none p pmax cl2 cr2 top x0 y0 x1 y1 x2 y2 s02 mid :
  after_mid p pmax cl2 cr2 top x0 y0 x1 y1 x2 y2 s02 mid = None <->
  mid = None /\ ((p = pmax /\ cr2 = false) \/ (p <> pmax /\ cl2 = false)).
Proof.
  unfold after_mid. cbv zeta. destruct (Z.eqb_spec p pmax) as [E|E].
  - destruct cr2; cbn [negb]; [split; [discriminate|intros [_ [[_ F]|[F _]]]; congruence]|].
    destruct mid as [[a b]|]; split; try discriminate; auto; intros [F _]; discriminate.
  - destruct cl2; cbn [negb].
    + destruct (rows _ _ _ _ _ _ _ _ _ _ _ _) as [c6 [[[a' b'] u'] d']]. split; [discriminate|]. intros [_ [[F _]|[_ F]]]; congruence.
    + destruct mid as [[a b]|].
      * destruct (rows _ _ _ _ _ _ _ _ _ _ _ _) as [c6 [[[a' b'] u'] d']]. split; [discriminate|]. intros [F _]; discriminate.
      * split; auto.
Qed.
Lemma calls_sorted_none x0 y0 x1 y1 x2 y2 amp m0 : x0 <= x1 -> x1 <= x2 -> (0 < m0)%Z ->
  calls_sorted x0 y0 x1 y1 x2 y2 amp m0 = None <->
  (trunc x0 < 0 <= trunc x2)%Z /\ (trunc x1 = 0%Z \/ (trunc x1 < 0 /\ trunc x2 = 0))%Z.
Proof.
  intros H0 H1 Hm. pose proof (trunc_mono _ _ H0) as M0. pose proof (trunc_mono _ _ H1) as M1.
  unfold calls_sorted.
  destruct (Z.ltb_spec m0 (trunc x0)) as [L|L]; [split; [discriminate|lia]|].
  destruct (Z.ltb_spec (trunc x2) 0) as [L'|L']; [split; [discriminate|lia]|]. cbv zeta.
  pose proof (before_mid_none (lclip x0) (mclip m0 x1) (trunc x0 <? 0)%Z (m0 <=? trunc x1)%Z (rclip m0 x1 <? 0)%Z
    (amp * (2 # 1) / (x2 - x0)) x0 y0 x1 y1 ((y2 - y0) / (x2 - x0))) as B.
  destruct (before_mid _ _ _ _ _ _ _ _ _ _ _) as [before mid]. cbn [snd] in B.
  pose proof (after_mid_none (mclip m0 x1) (rclip m0 x2) (rclip m0 x1 <? 0)%Z (m0 <=? trunc x2)%Z
    (amp * (2 # 1) / (x2 - x0)) x0 y0 x1 y1 x2 y2 ((y2 - y0) / (x2 - x0)) mid) as A.
  destruct (after_mid _ _ _ _ _ _ _ _ _ _ _ _ _) as [after|].
  - split; [discriminate|]. intros HH. exfalso. enough (@Some (list call) after = None) by discriminate.
    apply A. split; [apply B|]; unfold lclip, mclip, rclip in *;
    repeat match goal with |- context [if (?a <=? ?b)%Z then _ else _] => destruct (Z.leb_spec a b)
                         | |- context [if (?a <? ?b)%Z then _ else _] => destruct (Z.ltb_spec a b) end;
    rewrite ?Z.ltb_lt, ?Z.ltb_ge, ?Z.leb_gt, ?Z.leb_le; try lia.
  - split; [intros _|auto]. destruct (proj1 A eq_refl) as [A1 A2]. apply B in A1. clear A B.
    unfold lclip, mclip, rclip in *.
    repeat match goal with _ : context [if (?a <=? ?b)%Z then _ else _] |- _ => destruct (Z.leb_spec a b)
                         | _ : context [if (?a <? ?b)%Z then _ else _] |- _ => destruct (Z.ltb_spec a b) end;
    rewrite ?Z.ltb_lt, ?Z.ltb_ge, ?Z.leb_gt, ?Z.leb_le in *; try lia.
Qed.
