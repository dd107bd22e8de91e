From Coq Require Import ZArith QArith Qabs Bool List Lia Lqa Qfield Setoid Morphisms.
From Verif Require Import Base BaseProofs InterpModel InterpSpec PowderModel InterpProofs WalkProofs DeltaProofs PowderProofs AxisModel AxisSpec AxisProofs.
Import ListNotations.
Open Scope Q_scope.

(** A pattern without dispersion whose single position is the centre of bin k. *)
Lemma fold_delta_sum (amp : nat -> Q) ts s : fold_left (fun s t => s + tri_amp amp t) ts s == s + qsum (map (tri_amp amp) ts).
Proof. revert s. induction ts; intros s; cbn; [ring|]. rewrite IHts. unfold qsum. ring. Qed.

Lemma peak_oct nt offset (amps : nat -> nat -> Q) count k js out : (0 <= k < count)%Z -> offset == zq k + half ->
  opt_concat (map (fun j => octahedron_delta nt offset (amps j) count) js) = Some out ->
  Forall (fun w => fst w = k) out /\ deposit out k == qsum (map (fun j => qsum (map (tri_amp (amps j)) (grid_tris nt))) js).
Proof.
  intros Hk HO. revert out. induction js; intros out E; cbn [map opt_concat] in E.
  - injection E as <-. split; [constructor|]. reflexivity.
  - unfold octahedron_delta at 1 in E. rewrite triangles_grid in E. rewrite (delta_centre _ _ _ _ Hk HO) in E.
    destruct (opt_concat (map (fun j => octahedron_delta nt offset (amps j) count) js)) as [o|] eqn:EO; [|discriminate].
    injection E as <-. destruct (IHjs o eq_refl) as [F D]. split.
    + constructor; auto.
    + unfold deposit. cbn [app fold_right fst snd map]. rewrite Z.eqb_refl. fold (deposit o k). rewrite D.
      rewrite fold_delta_sum. unfold qsum. cbn [fold_right]. ring.
Qed.

Lemma zq_nonneg k : (0 <= k)%Z -> 0 <= zq k.
Proof. intros H. exact (proj1 (zq_le 0 k) H). Qed.

Lemma peak_pattern nt n_oct offset_0 (vr w sb : nat -> Q) count k out : (1 <= n_oct)%nat -> (0 <= k < count)%Z ->
  vr 0%nat == 0 -> offset_0 == zq k + half ->
  averaging_1d nt n_oct 1 offset_0 vr (fun _ => 0) (norm_amplitudes 1 n_oct w) sb count = Some out ->
  (forall b a, In (b, a) out -> b = k) /\ deposit out k == qsum (map (tri_amp w) (grid_tris nt)).
Proof.
  intros Ho Hk Hv HO E. unfold averaging_1d in E.
  assert (D : is_delta nt (n_pts nt) (fun _ => 0) = true) by reflexivity. rewrite D in E.
  cbn [seq flat_map] in E. rewrite app_nil_r in E.
  assert (OF : offset_0 + 0 + vr 0%nat == zq k + half) by (rewrite HO, Hv; ring).
  assert (W : in_window (offset_0 + 0 + vr 0%nat) count = true).
  { unfold in_window. rewrite (trunc_spec _ k); [|rewrite OF; unfold half; lra|rewrite OF; unfold half; lra|].
    destruct (Z.leb_spec 0 k); [|lia]. destruct (Z.leb_spec k count); [auto|lia].
    rewrite OF. pose proof (zq_nonneg k ltac:(lia)). unfold half; lra. }
  rewrite W in E.
  destruct (peak_oct nt _ _ count k _ out Hk OF E) as [F S]. split.
  - intros b a Hin. rewrite Forall_forall in F. apply (F (b, a) Hin).
  - rewrite S. pose proof (pattern_static nt n_oct w sb Ho) as PS. unfold pattern_tri in PS. rewrite <- PS.
    cbn [seq map qsum fold_right]. ring_simplify. reflexivity.
Qed.
