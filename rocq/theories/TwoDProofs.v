(** Proofs about the two dimensional interpolation of a face of the octahedron and the two dimensional averaging. *)
From Coq Require Import ZArith QArith Qabs Bool List Lia Lqa Permutation Setoid.
From Verif Require Import InterpModel InterpSpec InterpProofs WalkProofs DeltaProofs PowderModel PowderProofs AxisModel.
From Verif Require Import Interp2DModel Interp2DSpec Interp2DProofs TwoDModel.
Import ListNotations.
Open Scope Q_scope.

Lemma row_total_app a b m1 p : row_total (a ++ b) m1 p == row_total a m1 p + row_total b m1 p.
Proof. unfold row_total. rewrite <- qsum_plus. apply qsum_ext. intros q _. unfold cell. apply deposit_app. Qed.
Lemma row_total_nil m1 p : row_total [] m1 p == 0.
Proof. apply qsum_zero. reflexivity. Qed.
Lemma total2D_app a b m0 m1 : total2D (a ++ b) m0 m1 == total2D a m0 m1 + total2D b m0 m1.
Proof. unfold total2D. rewrite <- qsum_plus. apply qsum_ext. intros p _. apply row_total_app. Qed.
Lemma total2D_nil m0 m1 : total2D [] m0 m1 == 0.
Proof. apply qsum_zero. intros. apply row_total_nil. Qed.

Lemma grid_points nt a b c : In (a, b, c) (grid_tris nt) -> (a < n_pts nt)%nat /\ (b < n_pts nt)%nat /\ (c < n_pts nt)%nat.
Proof.
  intros Ht. apply grid_in in Ht. destruct Ht as [r [k [Hr [[Hc E]|[Hc E]]]]]; unfold up, down in E; injection E as -> -> ->; repeat split; apply point_bound; lia.
Qed.

(** The additions of one triangle of a face in one dimension. *)
Definition tri1D (freq amp : nat -> Q) (m : Z) (t : tri) : writes :=
  let '(a, b, c) := t in triangle_interpolation (freq a) (freq b) (freq c) (tri_amp amp t) m.

Lemma triangles2D_inv t ts f1 f2 amp m0 m1 w : triangles2D (t :: ts) f1 f2 amp m0 m1 = Some w ->
  exists x y, (let '(a, b, c) := t in triangle_interpolation2D (f1 a) (f1 b) (f1 c) (f2 a) (f2 b) (f2 c) (tri_amp amp t) m0 m1) = Some x /\
    triangles2D ts f1 f2 amp m0 m1 = Some y /\ w = x ++ y.
Proof.
  cbn [triangles2D]. destruct t as [[a b] c]. destruct (triangle_interpolation2D _ _ _ _ _ _ _ _ _) as [x|]; [|discriminate].
  destruct (triangles2D _ _ _ _ _ _) as [y|]; [|discriminate]. intros H; injection H as <-. eauto.
Qed.

Theorem face_rows nt f1 f2 amp m0 m1 w p : (0 <= m0)%Z -> (forall k, (k < n_pts nt)%nat -> interior (f2 k) m1) ->
  octahedron_interpolation2D nt f1 f2 amp m0 m1 = Some w ->
  row_total w m1 p == deposit (flat_map (tri1D f1 amp m0) (grid_tris nt)) p.
Proof.
  intros Hm HF. unfold octahedron_interpolation2D. rewrite triangles_grid.
  assert (B : forall a b c, In (a, b, c) (grid_tris nt) -> (a < n_pts nt)%nat /\ (b < n_pts nt)%nat /\ (c < n_pts nt)%nat) by (apply grid_points).
  revert w. induction (grid_tris nt) as [|t ts IH]; intros w H.
  - injection H as <-. rewrite row_total_nil. reflexivity.
  - apply triangles2D_inv in H. destruct H as [x [y [Hx [Hy ->]]]]. cbn [flat_map]. rewrite row_total_app, deposit_app.
    rewrite (IH (fun a b c h => B a b c (or_intror h)) y Hy). apply Qplus_comp; [|reflexivity].
    destruct t as [[a b] c]. destruct (B a b c (or_introl eq_refl)) as [Ba [Bb Bc]].
    unfold tri1D. eapply projection; [exact Hm| | | |exact Hx]; auto.
Qed.
Theorem face_total nt f1 f2 amp m0 m1 w : (forall k, (k < n_pts nt)%nat -> interior (f1 k) m0 /\ interior (f2 k) m1) ->
  octahedron_interpolation2D nt f1 f2 amp m0 m1 = Some w ->
  total2D w m0 m1 == qsum (map (vertex_sum amp) (grid_tris nt)).
Proof.
  intros HF. unfold octahedron_interpolation2D. rewrite triangles_grid.
  assert (B : forall a b c, In (a, b, c) (grid_tris nt) -> (a < n_pts nt)%nat /\ (b < n_pts nt)%nat /\ (c < n_pts nt)%nat) by (apply grid_points).
  revert w. induction (grid_tris nt) as [|t ts IH]; intros w H.
  - injection H as <-. rewrite total2D_nil. reflexivity.
  - apply triangles2D_inv in H. destruct H as [x [y [Hx [Hy ->]]]]. rewrite total2D_app.
    rewrite (IH (fun a b c h => B a b c (or_intror h)) y Hy). cbn [map qsum fold_right]. apply Qplus_comp; [|reflexivity].
    destruct t as [[a b] c]. destruct (B a b c (or_introl eq_refl)) as [Ba [Bb Bc]].
    destruct (HF a Ba), (HF b Bb), (HF c Bc).
    rewrite (total2D_conserved (f1 a) (f1 b) (f1 c) (f2 a) (f2 b) (f2 c) (tri_amp amp (a, b, c)) m0 m1 x) by assumption.
    unfold tri_amp, vertex_sum. ring.
Qed.
Theorem face_safe nt f1 f2 amp m0 m1 w : (0 < m0)%Z -> (0 <= m1)%Z ->
  octahedron_interpolation2D nt f1 f2 amp m0 m1 = Some w -> Forall (safe_write (m0 * m1)) w.
Proof.
  intros H0 H1. unfold octahedron_interpolation2D. rewrite triangles_grid.
  revert w. induction (grid_tris nt) as [|t ts IH]; intros w H.
  - injection H as <-. constructor.
  - apply triangles2D_inv in H. destruct H as [x [y [Hx [Hy ->]]]]. apply Forall_app. split; auto.
    destruct t as [[a b] c]. eapply writes2D_safe; eauto.
Qed.

(** ** Which triangles make the interpolation read a variable that was never set *)
Lemma trunc_neg_iff x : (trunc x < 0)%Z <-> x <= -(1).
Proof.
  split; [apply trunc_lt_0|]. intros H. destruct (trunc_neg x) as [A [B C]]; [lra|].
  destruct (Z_lt_le_dec (trunc x) 0) as [L|L]; auto. exfalso.
  apply (zq_le 0) in L. change (zq 0) with 0 in L. lra.
Qed.
Lemma trunc_zero_iff x : trunc x = 0%Z <-> -(1) < x /\ x < 1.
Proof.
  split.
  - intros E. split.
    + apply Qnot_le_lt. intros H. apply trunc_neg_iff in H. lia.
    + pose proof (trunc_lt_pos 0 x). change (zq 0) with 0 in H. assert (x < 0 + 1) by (apply H; lia). lra.
  - intros [A B]. assert (~ (trunc x < 0)%Z) by (rewrite trunc_neg_iff; lra).
    destruct (Z_le_gt_dec (trunc x) 0) as [L|L]; [lia|]. exfalso. assert (zq 1 <= x) by (apply trunc_ge_pos; lia). change (zq 1) with 1 in *. lra.
Qed.
Definition thin (x1 x2 x3 : Q) : Prop := Qabs (x1 - x2) < TOL /\ Qabs (x1 - x3) < TOL.
Lemma sorted_eq (x y z u v w : Q) : Permutation [x; y; z] [u; v; w] -> x <= y -> y <= z -> u <= v -> v <= w -> x == u /\ y == v /\ z == w.
Proof.
  intros P A B C D.
  assert (I : forall t, In t [x; y; z] <-> In t [u; v; w]) by (intros t; split; apply Permutation_in; [|symmetry]; exact P).
  assert (S : x + y + z == u + v + w).
  { change (qsum [x; y; z] == qsum [u; v; w]) || (transitivity (qsum [x; y; z]); [cbn; ring|transitivity (qsum [u; v; w]); [|cbn; ring]]).
    clear -P. set (l := [x; y; z]) in *. set (l' := [u; v; w]) in *. clearbody l l'. induction P; cbn; [reflexivity|unfold qsum in IHP; rewrite IHP; reflexivity|ring|etransitivity; eauto]. }
  assert (Xu : u <= x). { destruct (proj1 (I x)) as [->|[->|[->|[]]]]; cbn; auto; lra. }
  assert (Ux : x <= u). { destruct (proj2 (I u)) as [->|[->|[->|[]]]]; cbn; auto; lra. }
  assert (Zw : z <= w). { destruct (proj1 (I z)) as [->|[->|[->|[]]]]; cbn; auto; lra. }
  assert (Wz : w <= z). { destruct (proj2 (I w)) as [->|[->|[->|[]]]]; cbn; auto; lra. }
  repeat split; lra.
Qed.
Theorem unset_read x1 x2 x3 y1 y2 y3 amp m0 m1 : (0 < m0)%Z ->
  triangle_interpolation2D x1 x2 x3 y1 y2 y3 amp m0 m1 = None <->
  ~ thin x1 x2 x3 /\ exists a b c, Permutation [x1; x2; x3] [a; b; c] /\ a <= b /\ b <= c /\
    a <= -(1) /\ -(1) < c /\ ((-(1) < b /\ b < 1) \/ (b <= -(1) /\ c < 1)).
Proof.
  intros Hm. unfold triangle_interpolation2D. rewrite calls2D_unfold. unfold thin.
  destruct (Qltb_spec (Qabs (x1 - x2)) TOL) as [T1|T1]; [destruct (Qltb_spec (Qabs (x1 - x3)) TOL) as [T2|T2]|]; cbn [andb].
  { split; [discriminate|tauto]. }
  all: assert (NT : ~ (Qabs (x1 - x2) < TOL /\ Qabs (x1 - x3) < TOL)) by tauto; clear T1; try clear T2.
  all: destruct ((_ =? _)%Z && (_ =? _)%Z) eqn:E.
  1,3: apply andb_true_iff in E; rewrite !Z.eqb_eq in E; destruct E as [E1 E2]; split; [destruct (_ || _); discriminate|];
    intros [_ [a [b [c [P [_ [_ [A [C _]]]]]]]]]; exfalso;
    assert (F : forall t, In t [a; b; c] -> trunc t = trunc x1) by (intros t Ht; apply (Permutation_in _ (Permutation_sym P)) in Ht; destruct Ht as [<-|[<-|[<-|[]]]]; auto);
    apply trunc_neg_iff in A; rewrite (F a) in A by (cbn; auto); rewrite <- (F c) in A by (cbn; auto); apply trunc_neg_iff in A; lra.
  all: pose proof (sort3_pairs_fst (x1, y1) (x2, y2) (x3, y3)) as S; destruct (sort3_pairs _ _ _) as [[[u yu] [v yv]] [w yw]];
    destruct S as [S _]; cbn [fst] in S; pose proof (sort3_spec x1 x2 x3) as T; rewrite S in T; destruct T as [T1 [T2 T3]].
  all: pose proof (calls_sorted_none u yu v yv w yw amp m0 T1 T2 Hm) as N; destruct (calls_sorted _ _ _ _ _ _ _ _) as [cs|].
  1,3: split; [discriminate|]; intros [_ [a [b [c [P [Hab [Hbc [A [C M]]]]]]]]]; exfalso; enough (Some cs = None) by discriminate; apply N;
    destruct (sorted_eq u v w a b c ltac:(transitivity [x1; x2; x3]; auto using Permutation_sym)) as [E1 [E2 E3]]; auto;
    rewrite <- E1 in A; rewrite <- E3 in C; rewrite <- E2, <- E3 in M;
    (split; [split; [apply trunc_neg_iff; auto|destruct (Z_lt_le_dec (trunc w) 0) as [L|L]; auto; apply trunc_neg_iff in L; exfalso; lra]|];
     destruct M as [M|[M1 M2]]; [left; apply trunc_zero_iff; auto|right; split; [apply trunc_neg_iff; auto|apply trunc_zero_iff; split; auto]]).
  all: split; [intros _|auto]; split; auto; exists u, v, w; destruct (proj1 N eq_refl) as [[N1 N2] N3];
    (split; [auto|]; split; [auto|]; split; [auto|]; split; [apply trunc_neg_iff; auto|];
     split; [apply Qnot_le_lt; intros L; apply trunc_neg_iff in L; lia|]);
    destruct N3 as [N3|[N3 N4]]; [left; apply trunc_zero_iff; auto|right; split; [apply trunc_neg_iff; auto|apply trunc_zero_iff; auto]].
Qed.

(** ** The averaging *)
Definition call_amps (n_oct npts : nat) (ampA ampB norm : nat -> Q) (i k j p : nat) : Q :=
  ampA (i * (n_oct * npts) + j * npts + p)%nat * (ampB (k * (n_oct * npts) + j * npts + p)%nat * norm p).
Section Averaging.
Variables (nt n_oct nsb : nat) (a : Q * Q * Q * Q) (gamma : Q) (d0 d1 : sdim) (R0 R1 : Q) (vrA vrB freq0 freq1 : nat -> Q)
  (ev0 ev1 : list (nat -> Q)) (norm : nat -> Q).
Let calls := averaging_2d a gamma d0 d1 (n_pts nt) n_oct nsb R0 R1 vrA vrB freq0 freq1 (event_product ev0) (event_product ev1) norm.
Let m0 := sd_count d0.
Let m1 := sd_count d1.
Lemma spectrum_parts w : spectrum_2d nt n_oct nsb a gamma d0 d1 R0 R1 vrA vrB freq0 freq1 ev0 ev1 norm = Some w ->
  exists ls, w = concat ls /\ Forall2 (fun call x => octahedron_interpolation2D nt (c_f0 (snd call)) (c_f1 (snd call)) (c_amp (snd call)) m0 m1 = Some x) calls ls.
Proof.
  unfold spectrum_2d. fold calls m0 m1. intros H. destruct (opt_concat_some _ _ H) as [ls [E ->]]. exists ls. split; auto.
  clear H. revert ls E. induction calls as [|c cs IH]; intros [|x ls] E; cbn [map] in E; try discriminate; constructor.
  - destruct c as [l c]. cbn [snd]. apply (f_equal (fun l => match l with o :: _ => o | [] => None end)) in E. exact E.
  - apply IH. apply (f_equal (fun l => match l with _ :: r => r | [] => [] end)) in E. exact E.
Qed.
Lemma row_total_concat ls p : row_total (concat ls) m1 p == qsum (map (fun x => row_total x m1 p) ls).
Proof. induction ls as [|x ls IH]; cbn [concat map qsum fold_right]; [apply row_total_nil|]. rewrite row_total_app, IH. reflexivity. Qed.
Lemma total2D_concat ls : total2D (concat ls) m0 m1 == qsum (map (fun x => total2D x m0 m1) ls).
Proof. induction ls as [|x ls IH]; cbn [concat map qsum fold_right]; [apply total2D_nil|]. rewrite total2D_app, IH. reflexivity. Qed.

Theorem spectrum_total w : spectrum_2d nt n_oct nsb a gamma d0 d1 R0 R1 vrA vrB freq0 freq1 ev0 ev1 norm = Some w ->
  (forall l c p, In (l, c) calls -> (p < n_pts nt)%nat -> interior (c_f0 c p) m0 /\ interior (c_f1 c p) m1) ->
  total2D w m0 m1 == qsum (map (fun call => qsum (map (vertex_sum (c_amp (snd call))) (grid_tris nt))) calls).
Proof.
  intros H HI. destruct (spectrum_parts w H) as [ls [-> F]]. rewrite total2D_concat. clear H. revert HI. induction F as [|[l c] x cs ls Hx F IH]; intros HI; [reflexivity|].
  cbn [map qsum fold_right]. apply Qplus_comp.
  - cbn [snd] in *. eapply face_total; [|exact Hx]. intros k Hk. apply (HI l c k); cbn; auto.
  - apply IH. intros l' c' p Hc Hp. apply (HI l' c' p); cbn; auto.
Qed.
Theorem spectrum_rows w p : spectrum_2d nt n_oct nsb a gamma d0 d1 R0 R1 vrA vrB freq0 freq1 ev0 ev1 norm = Some w -> (0 <= m0)%Z ->
  (forall l c p, In (l, c) calls -> (p < n_pts nt)%nat -> interior (c_f1 c p) m1) ->
  row_total w m1 p == qsum (map (fun call => deposit (flat_map (tri1D (c_f0 (snd call)) (c_amp (snd call)) m0) (grid_tris nt)) p) calls).
Proof.
  intros H Hm HI. destruct (spectrum_parts w H) as [ls [-> F]]. rewrite row_total_concat. clear H. revert HI. induction F as [|[l c] x cs ls Hx F IH]; intros HI; [reflexivity|].
  cbn [map qsum fold_right]. apply Qplus_comp.
  - cbn [snd] in *. eapply face_rows; [exact Hm| |exact Hx]. intros k Hk. apply (HI l c k); cbn; auto.
  - apply IH. intros l' c' k Hc Hk. apply (HI l' c' k); cbn; auto.
Qed.
Theorem spectrum_safe w : spectrum_2d nt n_oct nsb a gamma d0 d1 R0 R1 vrA vrB freq0 freq1 ev0 ev1 norm = Some w ->
  (0 < m0)%Z -> (0 <= m1)%Z -> Forall (safe_write (m0 * m1)) w.
Proof.
  intros H H0 H1. destruct (spectrum_parts w H) as [ls [-> F]]. clear H. induction F as [|[l c] x cs ls Hx F IH]; [constructor|].
  cbn [concat]. apply Forall_app. split; auto. eapply face_safe; eauto.
Qed.

Lemma in_calls i k j c : In (i, k, j, c) calls -> (i < nsb)%nat /\ (k < nsb)%nat /\ (j < n_oct)%nat /\
  forall p, c_amp c p = call_amps n_oct (n_pts nt) (event_product ev0) (event_product ev1) norm i k j p.
Proof.
  unfold calls, averaging_2d. intros H. apply in_flat_map in H. destruct H as [i' [Hi H]]. apply in_flat_map in H. destruct H as [k' [Hk H]].
  destruct (affine_offsets _ _ _ _ _) as [n0 n1]. destruct (_ && _); [|destruct H]. apply in_map_iff in H. destruct H as [j' [E Hj]].
  apply in_seq in Hi, Hk, Hj. injection E as -> -> -> <-. repeat split; try lia.
Qed.
(** Every pair of sidebands is interpolated when every offset is in its window. *)
Lemma all_calls (f : (nat -> Q) -> Q) :
  (forall g h, (forall p, g p == h p) -> f g == f h) ->
  (forall i k, (i < nsb)%nat -> (k < nsb)%nat ->
     let '(n0, n1) := affine_offsets a (R0 + vrA i * inverse_increment d0) (R1 + vrB k * inverse_increment d1) (normalize_offset gamma d0) (normalize_offset gamma d1) in
     in_range n0 m0 = true /\ in_range n1 m1 = true) ->
  qsum (map (fun call => f (c_amp (snd call))) calls) ==
  qsum (map (fun i => qsum (map (fun k => qsum (map (fun j => f (call_amps n_oct (n_pts nt) (event_product ev0) (event_product ev1) norm i k j)) (seq 0 n_oct))) (seq 0 nsb))) (seq 0 nsb)).
Proof.
  intros Hf HW. unfold calls, averaging_2d. fold m0 m1.
  assert (Q : forall (A B : Type) (g : B -> Q) (h : A -> list B) l, qsum (map g (flat_map h l)) == qsum (map (fun x => qsum (map g (h x))) l)).
  { intros A B g h l. induction l as [|x l IH]; [reflexivity|]. cbn [flat_map map]. rewrite map_app, qsum_app, IH. reflexivity. }
  rewrite Q. apply qsum_ext. intros i Hi. apply in_seq in Hi. rewrite Q. apply qsum_ext. intros k Hk. apply in_seq in Hk.
  specialize (HW i k ltac:(lia) ltac:(lia)). destruct (affine_offsets _ _ _ _ _) as [n0 n1]. destruct HW as [-> ->]. cbn [andb].
  rewrite map_map. apply qsum_ext. intros j _. cbn [snd c_amp]. reflexivity.
Qed.
End Averaging.

Lemma fold_product events k : forall x, fold_left (fun a e => a * e k) events x == x * product events k.
Proof. induction events as [|e l IH]; intros x; cbn [fold_left product fold_right]; [ring|]. rewrite IH. unfold product. ring. Qed.
Lemma event_product_eq events k : event_product events k == product events k.
Proof. unfold event_product. rewrite fold_product. ring. Qed.
Lemma vertex_sum_ext f g t : (forall p, f p == g p) -> vertex_sum f t == vertex_sum g t.
Proof. intros H. destruct t as [[a b] c]. cbn. rewrite !H. reflexivity. Qed.
