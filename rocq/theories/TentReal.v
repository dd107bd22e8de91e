(** The tent of a triangle in real numbers: the fraction of a triangle's area below a line. *)
From Coq Require Import Reals Lra Lia Psatz.
From Coquelicot Require Import Coquelicot.
Open Scope R_scope.

Definition pos (x : R) : R := Rmax 0 x.
Lemma pos_pos x : 0 <= x -> pos x = x. Proof. intros H. unfold pos. apply Rmax_right; auto. Qed.
Lemma pos_neg x : x <= 0 -> pos x = 0. Proof. intros H. unfold pos. apply Rmax_left; auto. Qed.
Lemma pos_abs x : pos x = (x + Rabs x) / 2.
Proof. destruct (Rle_dec 0 x); [rewrite pos_pos, Rabs_pos_eq by lra|rewrite pos_neg, Rabs_left by lra]; lra. Qed.
Lemma pos_cont x : continuous pos x.
Proof.
  apply (continuous_ext (fun x => (x + Rabs x) / 2)); [intros; symmetry; apply pos_abs|].
  apply (continuous_mult (fun x => x + Rabs x) (fun _ => / 2)).
  - apply (continuous_plus (fun x => x) Rabs); [apply continuous_id|apply continuous_Rabs].
  - apply continuous_const.
Qed.

Lemma pos_sq_derive x : is_derive (fun t => pos t * pos t / 2) x (pos x).
Proof.
  destruct (Rtotal_order x 0) as [H|[H|H]].
  - rewrite pos_neg by lra. apply (is_derive_ext_loc (fun _ => 0)).
    + exists (mkposreal (- x) ltac:(lra)). intros y Hy. unfold ball in Hy. cbn in Hy. unfold AbsRing_ball, abs, minus, plus, opp in Hy. cbn in Hy.
      apply Rabs_def2 in Hy. rewrite pos_neg by lra. lra.
    + apply is_derive_Reals. apply derivable_pt_lim_const.
  - subst x. rewrite pos_neg by lra. apply is_derive_Reals. intros eps He. exists (mkposreal eps He). intros h Hh Hd. cbn in Hd.
    rewrite Rplus_0_l, (pos_neg 0) by lra. apply Rabs_def2 in Hd.
    destruct (Rle_dec 0 h).
    + rewrite pos_pos by lra. replace ((h * h / 2 - 0 * 0 / 2) / h - 0) with (h / 2) by (field; lra). apply Rabs_def1; lra.
    + rewrite pos_neg by lra. replace ((0 * 0 / 2 - 0 * 0 / 2) / h - 0) with 0 by (field; lra). rewrite Rabs_R0. lra.
  - rewrite pos_pos by lra. apply (is_derive_ext_loc (fun t => t * t / 2)).
    + exists (mkposreal x ltac:(lra)). intros y Hy. unfold ball in Hy. cbn in Hy. unfold AbsRing_ball, abs, minus, plus, opp in Hy. cbn in Hy.
      apply Rabs_def2 in Hy. rewrite pos_pos by lra. lra.
    + auto_derive; auto. lra.
Qed.

(** The mean of the positive part of a linear function that runs from s to t. *)
Definition mean_pos (s t : R) : R := if Req_EM_T s t then pos s else (pos s * pos s - pos t * pos t) / (2 * (s - t)).

Lemma mean_pos_ne s t : s <> t -> mean_pos s t = (pos s * pos s - pos t * pos t) / (2 * (s - t)).
Proof. intros H. unfold mean_pos. destruct (Req_EM_T s t); [contradiction|reflexivity]. Qed.
Lemma mean_pos_eq s : mean_pos s s = pos s.
Proof. unfold mean_pos. destruct (Req_EM_T s s); [reflexivity|contradiction]. Qed.
Lemma mean_pos_sym s t : mean_pos s t = mean_pos t s.
Proof.
  destruct (Req_EM_T s t) as [E|E]; [subst; reflexivity|]. rewrite !mean_pos_ne by auto. field. lra.
Qed.
Lemma mean_pos_high s t : 0 <= s -> 0 <= t -> mean_pos s t = (s + t) / 2.
Proof.
  intros H1 H2. destruct (Req_EM_T s t) as [E|E].
  - subst. rewrite mean_pos_eq, pos_pos by auto. field.
  - rewrite mean_pos_ne, !pos_pos by auto. field. lra.
Qed.
Lemma mean_pos_low s t : s <= 0 -> t <= 0 -> mean_pos s t = 0.
Proof.
  intros H1 H2. destruct (Req_EM_T s t) as [E|E].
  - subst. rewrite mean_pos_eq, pos_neg by auto. reflexivity.
  - rewrite mean_pos_ne, !pos_neg by auto. field. lra.
Qed.
Lemma mean_pos_cross s t : 0 <= s -> t <= 0 -> s <> t -> mean_pos s t = s * s / (2 * (s - t)).
Proof. intros H1 H2 E. rewrite mean_pos_ne, pos_pos, pos_neg by auto. field. lra. Qed.

Lemma pos_affine_integral a b g k : a < b -> is_RInt (fun x => pos (g + k * (x - a))) a b ((b - a) * mean_pos g (g + k * (b - a))).
Proof.
  intros H. destruct (Req_EM_T k 0) as [E|E].
  - subst k. rewrite Rmult_0_l, Rplus_0_r, mean_pos_eq. apply (is_RInt_ext (fun _ => pos g)); [intros; f_equal; ring|].
    apply (is_RInt_const a b (pos g)).
  - assert (KB : k * (b - a) <> 0) by (apply Rmult_integral_contrapositive_currified; lra).
    rewrite mean_pos_ne by (intros F; apply KB; lra).
    replace ((b - a) * ((pos g * pos g - pos (g + k * (b - a)) * pos (g + k * (b - a))) / (2 * (g - (g + k * (b - a))))))
      with (minus (pos (g + k * (b - a)) * pos (g + k * (b - a)) / 2 / k) (pos (g + k * (a - a)) * pos (g + k * (a - a)) / 2 / k)).
    2:{ unfold minus, plus, opp. cbn. replace (g + k * (a - a)) with g by ring. field. repeat split; lra. }
    apply (is_RInt_derive (fun x => pos (g + k * (x - a)) * pos (g + k * (x - a)) / 2 / k)).
    + intros x _.
      assert (D : is_derive (fun x => pos (g + k * (x - a)) * pos (g + k * (x - a)) / 2) x (scal k (pos (g + k * (x - a))))).
      { apply (is_derive_comp (fun t => pos t * pos t / 2) (fun x => g + k * (x - a))).
        - apply pos_sq_derive.
        - auto_derive; auto. ring. }
      apply (is_derive_scal _ _ (/ k)) in D.
      assert (V : / k * scal k (pos (g + k * (x - a))) = pos (g + k * (x - a))) by (unfold scal; cbn; unfold mult; cbn; field; auto).
      rewrite V in D. revert D. apply is_derive_ext. intros t. cbn. field. auto.
    + intros x _. apply (continuous_comp (fun x => g + k * (x - a)) pos).
      * apply (continuous_plus (fun _ => g) (fun x => k * (x - a))); [apply continuous_const|].
        apply (continuous_mult (fun _ => k) (fun x => x - a)); [apply continuous_const|].
        apply (continuous_minus (fun x => x) (fun _ => a)); [apply continuous_id|apply continuous_const].
      * apply pos_cont.
Qed.

(** The tent (InterpSpec.tent_cdf) over the reals. *)
Definition tentR (f0 f1 f2 x : R) : R :=
  if Rle_dec x f0 then 0
  else if Rlt_dec x f1 then (x - f0) * (x - f0) / ((f2 - f0) * (f1 - f0))
  else if Rlt_dec x f2 then 1 - (f2 - x) * (f2 - x) / ((f2 - f0) * (f2 - f1))
  else 1.

Lemma tent_means f0 f1 f2 c : f0 <= f1 -> f1 <= f2 -> f0 < f2 ->
  mean_pos (c - f0) (c - f1) - mean_pos (c - f0) (c - f2) = (f2 - f1) * tentR f0 f1 f2 c / 2 /\
  mean_pos (c - f0) (c - f1) - mean_pos (c - f1) (c - f2) = (f2 - f0) * tentR f0 f1 f2 c / 2 /\
  mean_pos (c - f0) (c - f2) - mean_pos (c - f1) (c - f2) = (f1 - f0) * tentR f0 f1 f2 c / 2.
Proof.
  intros H0 H1 H2. unfold tentR.
  destruct (Rle_dec c f0).
  { rewrite !mean_pos_low by lra. lra. }
  destruct (Rlt_dec c f1).
  { rewrite (mean_pos_low (c - f1) (c - f2)) by lra. rewrite !mean_pos_cross by lra. repeat split; field; lra. }
  destruct (Rlt_dec c f2).
  { rewrite (mean_pos_high (c - f0) (c - f1)) by lra. rewrite !mean_pos_cross by lra. repeat split; field; lra. }
  rewrite !mean_pos_high by lra. repeat split; field.
Qed.

(** The fraction of the area of a triangle below the line y = c, from the heights of its vertices in any order. *)
Definition tentS (u v w c : R) : R :=
  tentR (Rmin u (Rmin v w)) (u + v + w - Rmin u (Rmin v w) - Rmax u (Rmax v w)) (Rmax u (Rmax v w)) c.

Lemma tentS_123 u v w c : u <= v -> v <= w -> tentS u v w c = tentR u v w c.
Proof.
  intros A B. unfold tentS. rewrite (Rmin_left v w), (Rmin_left u v), (Rmax_right v w), (Rmax_right u w) by lra.
  replace (u + v + w - u - w) with v by ring. reflexivity.
Qed.
Lemma tentS_swap12 u v w c : tentS u v w c = tentS v u w c.
Proof.
  unfold tentS. rewrite (Rmin_assoc u v w), (Rmin_comm u v), <- Rmin_assoc, (Rmax_assoc u v w), (Rmax_comm u v), <- Rmax_assoc, (Rplus_comm u v).
  reflexivity.
Qed.
Lemma tentS_swap23 u v w c : tentS u v w c = tentS u w v c.
Proof. unfold tentS. rewrite (Rmin_comm v w), (Rmax_comm v w). f_equal. ring. Qed.

Lemma tent_difference u v w c : ~ (u = v /\ v = w) ->
  mean_pos (c - u) (c - v) - mean_pos (c - u) (c - w) = (w - v) * tentS u v w c / 2.
Proof.
  intros N.
  assert (X : forall u v w, ~ (u = v /\ v = w) -> v <= w ->
    mean_pos (c - u) (c - v) - mean_pos (c - u) (c - w) = (w - v) * tentS u v w c / 2).
  { clear. intros u v w N H. destruct (Rle_dec u v) as [A|A]; [|destruct (Rle_dec u w) as [B|B]].
    - rewrite tentS_123 by lra. apply tent_means; lra.
    - rewrite tentS_swap12, tentS_123 by lra. rewrite (mean_pos_sym (c - u) (c - v)).
      destruct (tent_means v u w c ltac:(lra) ltac:(lra) ltac:(lra)) as [_ [E _]]. exact E.
    - rewrite tentS_swap12, tentS_swap23, tentS_123 by lra. rewrite (mean_pos_sym (c - u) (c - v)), (mean_pos_sym (c - u) (c - w)).
      destruct (tent_means v w u c ltac:(lra) ltac:(lra) ltac:(lra)) as [_ [_ E]]. exact E. }
  destruct (Rle_dec v w) as [H|H]; [apply X; auto|].
  assert (E := X u w v ltac:(intros [? ?]; subst; lra) ltac:(lra)). rewrite (tentS_swap23 u v w). lra.
Qed.
