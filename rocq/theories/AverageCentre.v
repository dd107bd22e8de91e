(** The centre of gravity of the spectrum of averaging_1d against the powder average in the reals. *)
From Coq Require Import Reals QArith Qabs Qreals List ZArith Lia Bool.
From Verif Require Import InterpModel InterpSpec PowderModel InterpProofs WalkProofs DeltaProofs PowderProofs PowderMoment PropMoment DftModel DftProofs WignerNorm AverageSpec AverageProofs.
From Coq Require Import Lra.
Import ListNotations.
Open Scope R_scope.

Lemma Q2R_qsum (l : list Q) : Q2R (qsum l) = fold_right Rplus 0 (map Q2R l).
Proof. induction l as [|x l IH]; cbn [qsum fold_right map]; [unfold Q2R; cbn; field|]. fold (qsum l). rewrite Q2R_plus, IH. reflexivity. Qed.
Lemma fold_ext {A} (f g : A -> R) l : (forall x, In x l -> f x = g x) -> fold_right Rplus 0 (map f l) = fold_right Rplus 0 (map g l).
Proof. intros H. f_equal. apply map_ext_in. exact H. Qed.
Definition lsum {A} (f : A -> R) (l : list A) : R := fold_right Rplus 0 (map f l).
Lemma lsum_plus {A} (f g : A -> R) l : lsum (fun x => f x + g x) l = lsum f l + lsum g l.
Proof. unfold lsum. induction l as [|x l IH]; cbn; [ring|]. rewrite IH. ring. Qed.
Lemma lsum_scal {A} q (f : A -> R) l : lsum (fun x => q * f x) l = q * lsum f l.
Proof. unfold lsum. induction l as [|x l IH]; cbn; [ring|]. rewrite IH. ring. Qed.
Lemma lsum_abs {A} (f e : A -> R) l : (forall x, In x l -> Rabs (f x) <= e x) -> Rabs (lsum f l) <= lsum e l.
Proof.
  unfold lsum. induction l as [|x l IH]; intros H; cbn; [rewrite Rabs_R0; lra|]. eapply Rle_trans; [apply Rabs_triang|]. apply Rplus_le_compat; [apply H; left; auto|apply IH; intros; apply H; right; auto].
Qed.
Lemma lsum_le {A} (f g : A -> R) l : (forall x, In x l -> f x <= g x) -> lsum f l <= lsum g l.
Proof. unfold lsum. induction l as [|x l IH]; intros H; cbn; [lra|]. apply Rplus_le_compat; [apply H; left; auto|apply IH; intros; apply H; right; auto]. Qed.
(** All the octants and triangles as one list. *)
Definition cells (nt n_oct : nat) : list (nat * tri) := flat_map (fun j => map (pair j) (grid_tris nt)) (seq 0 n_oct).
Lemma lsum_cells nt n_oct (g : nat -> tri -> R) : lsum (fun x => g (fst x) (snd x)) (cells nt n_oct) = rsum n_oct (fun j => over_triangles nt (g j)).
Proof.
  assert (G : forall n s, lsum (fun x => g (fst x) (snd x)) (flat_map (fun j => map (pair j) (grid_tris nt)) (seq s n)) = rsum n (fun j => over_triangles nt (g (s + j)%nat))).
  { induction n as [|n IH]; intros s; [reflexivity|]. rewrite seq_S, flat_map_app. unfold lsum in *. rewrite map_app, fold_app, IH. cbn [rsum flat_map]. rewrite app_nil_r, map_map. reflexivity. }
  apply (G n_oct O).
Qed.
Lemma pattern_cells nt n_oct (g : nat -> nat -> tri -> Q) : Q2R (over_pattern nt n_oct 1 g) = lsum (fun x => Q2R (g O (fst x) (snd x))) (cells nt n_oct).
Proof.
  unfold over_pattern. rewrite (lsum_cells nt n_oct (fun j t => Q2R (g O j t))). cbn [seq map qsum fold_right]. rewrite Q2R_plus. replace (Q2R 0) with 0 by (unfold Q2R; cbn; field). rewrite Rplus_0_r.
  fold (qsum (map (fun j => qsum (map (g 0%nat j) (grid_tris nt))) (seq 0 n_oct))). rewrite Q2R_qsum, map_map. rewrite fold_seq. apply rsum_ext. intros j _. rewrite Q2R_qsum, map_map. reflexivity.
Qed.
Lemma cells_in nt n_oct x : In x (cells nt n_oct) -> (fst x < n_oct)%nat /\ let '(a, b, c) := snd x in (a < n_pts nt)%nat /\ (b < n_pts nt)%nat /\ (c < n_pts nt)%nat.
Proof.
  intros H. apply in_flat_map in H. destruct H as (j & J & H). apply in_map_iff in H. destruct H as (t & <- & T). apply in_seq in J. split; [cbn; lia|]. cbn [snd].
  apply grid_in in T. destruct T as [r [c [Hr [[Hc ->]|[Hc ->]]]]]; unfold up, down; repeat split; apply point_bound; lia.
Qed.
Lemma amplitude_pos nt p : (1 <= nt)%nat -> (p < n_pts nt)%nat -> 0 < nth p (amplitudes nt) 0.
Proof. intros N P. destruct (point_triple nt p N P) as (x & y & z & E & ->). rewrite amplitude_at by auto. apply W3_pos; auto. Qed.
Lemma n_pts_pos nt : (0 < n_pts nt)%nat. Proof. rewrite n_pts_T. replace (nt + 1)%nat with (S nt) by lia. cbn [T]. lia. Qed.
Lemma Q2R_3 : Q2R 3 = 3. Proof. unfold Q2R. cbn. field. Qed.

Theorem centre_close : forall (nt n_oct : nat) (offset_0 : Q) (vr freq norm sb : nat -> Q) (count : Z) (out : writes) (f : nat -> R) (kappa eta eps M : R),
  (1 <= nt)%nat -> (1 <= n_oct)%nat ->
  averaging_1d nt n_oct 1 offset_0 vr freq norm sb count = Some out ->
  is_delta nt (n_pts nt) freq = false ->
  in_window (offset_0 + vr 0%nat) count = true ->
  (forall p, (p < n_oct * n_pts nt)%nat -> (0 <= freq p + (offset_0 + vr 0%nat) /\ freq p + (offset_0 + vr 0%nat) < zq count)%Q) ->
  0 < kappa -> 0 <= eta < 1 ->
  (forall p, (p < n_pts nt)%nat -> Rabs (Q2R (norm p) - kappa * nth p (amplitudes nt) 0) <= eta * (kappa * nth p (amplitudes nt) 0)) ->
  (forall o, (o < n_oct * n_pts nt)%nat -> Rabs (Q2R (freq o) - f o) <= eps) ->
  (forall o, (o < n_oct * n_pts nt)%nat -> Rabs (f o - powder_average nt n_oct f) <= M) ->
  (0 < total out count)%Q /\
  Rabs (Q2R (moment centre out count) / Q2R (total out count) - (Q2R (offset_0 + vr 0%nat) + powder_average nt n_oct f)) <= / 2 + eps + eta / (1 - eta) * M.
Proof.
  intros nt n_oct o vr freq norm sb count out f kappa eta eps M N1 O1 H D HW HF K [E0 E1] HN HQ HM.
  set (W' := fun x : nat * tri => Q2R (vertex_sum (fun p => norm ((0 * (n_oct * n_pts nt) + fst x * n_pts nt + p) mod n_pts nt)%nat) (snd x))).
  set (P' := fun x : nat * tri => Q2R (triangle_mean (fun p => o + vr 0%nat + freq (fst x * n_pts nt + p)%nat)%Q (snd x))).
  set (L := cells nt n_oct). set (W := fun x : nat * tri => weight_of nt (snd x)). set (F := fun x : nat * tri => mean_of (fun p => f (fst x * n_pts nt + p)%nat) (snd x)). set (A := powder_average nt n_oct f) in *.
  assert (HW1 : forall i, (i < 1)%nat -> in_window (o + vr i) count = true) by (intros i Hi; replace i with O by lia; auto).
  assert (HF1 : forall i p, (i < 1)%nat -> (p < n_oct * n_pts nt)%nat -> (0 <= freq p + (o + vr i) /\ freq p + (o + vr i) < zq count)%Q) by (intros i p Hi Hp; replace i with O by lia; auto).
  pose proof (C112_pattern_partial nt n_oct 1 o vr freq norm sb count out H D HW1 HF1) as MO. cbn zeta in MO. cbn [Nat.eqb] in MO.
  apply Qle_Rle in MO. rewrite Q2R_mult in MO. replace (Q2R (1 # 2)) with (/ 2) in MO by (unfold Q2R; cbn; field).
  assert (QA : forall q, Q2R (Qabs q) = Rabs (Q2R q)).
  { intros q. destruct (Qlt_le_dec q 0) as [Lq|Lq]; [rewrite Qabs_neg, Q2R_opp by (apply Qlt_le_weak; auto); apply Qlt_Rlt in Lq|rewrite Qabs_pos by auto; apply Qle_Rle in Lq]; replace (Q2R 0) with 0 in Lq by (unfold Q2R; cbn; field); [rewrite Rabs_left|rewrite Rabs_right]; lra. }
  rewrite QA, Q2R_minus, !pattern_cells in MO.
  assert (T : (total out count == over_pattern nt n_oct 1 (fun _ j t => vertex_sum (fun p => norm ((0 * (n_oct * n_pts nt) + j * n_pts nt + p) mod n_pts nt)%nat) t))%Q).
  { pose proof (averaging_total nt n_oct 1 o vr freq norm sb count out H) as Xx. rewrite D in Xx. rewrite (Xx HW1 HF1). rewrite (pattern_eq _ _ _ _ (fun k => norm (k mod n_pts nt)%nat)) by (intros; reflexivity). reflexivity. }
  apply Qeq_eqR in T. rewrite pattern_cells in T.
  assert (WP : forall x, In x L -> 0 < W x /\ Rabs (W' x - kappa * W x) <= eta * (kappa * W x)).
  { intros [j [[a b] c]] I. destruct (cells_in nt n_oct _ I) as [J [Ha [Hb Hc]]]. unfold W, W', weight_of, vertex_sum. cbn [fst snd].
    assert (MD : forall p, (p < n_pts nt)%nat -> ((0 * (n_oct * n_pts nt) + j * n_pts nt + p) mod n_pts nt = p)%nat) by (intros p Hp; rewrite Nat.mul_0_l, Nat.add_0_l, Nat.add_comm, Nat.mod_add by lia; apply Nat.mod_small; auto).
    rewrite !MD by auto. rewrite !Q2R_plus. pose proof (amplitude_pos nt a N1 Ha). pose proof (amplitude_pos nt b N1 Hb). pose proof (amplitude_pos nt c N1 Hc). pose proof (HN a Ha) as Na. pose proof (HN b Hb) as Nb. pose proof (HN c Hc) as Nc.
    split; [lra|]. apply Rcomplements.Rabs_le_between in Na, Nb, Nc. apply Rcomplements.Rabs_le_between. lra. }
  assert (W0 : forall x, In x L -> (1 - eta) * (kappa * W x) <= W' x).
  { intros x I. destruct (WP x I) as [_ B]. apply Rcomplements.Rabs_le_between in B. lra. }
  assert (W'0 : forall x, In x L -> 0 <= W' x).
  { intros x I. eapply Rle_trans; [|apply W0; exact I]. destruct (WP x I). apply Rmult_le_pos; [lra|]. apply Rmult_le_pos; lra. }
  assert (SW : powder_sum nt n_oct (fun _ => 1) = lsum W L).
  { unfold powder_sum. rewrite <- (lsum_cells nt n_oct (fun j t => weight_of nt t * mean_of (fun p => 1) t)). apply fold_ext. intros [j [[a b] c]] _. unfold W, mean_of. cbn [fst snd]. field. }
  assert (SF : powder_sum nt n_oct f = lsum (fun x => W x * F x) L) by (unfold powder_sum; rewrite <- (lsum_cells nt n_oct (fun j t => weight_of nt t * mean_of (fun p => f (j * n_pts nt + p)%nat) t)); reflexivity).
  assert (SP : 0 < lsum W L) by (rewrite <- SW, powder_one by auto; apply Rmult_lt_0_compat; [apply lt_0_INR; lia|apply S3_one_pos; auto]).
  assert (AF : lsum (fun x => W x * (F x - A)) L = 0).
  { replace (lsum (fun x => W x * (F x - A)) L) with (lsum (fun x => W x * F x + (- A) * W x) L) by (apply fold_ext; intros; ring). rewrite lsum_plus, lsum_scal, <- SF, <- SW. unfold A, powder_average. field. rewrite SW. lra. }
  set (S' := lsum W' L) in *. assert (ST : Q2R (total out count) = S') by (rewrite T; reflexivity).
  assert (LS : (1 - eta) * (kappa * lsum W L) <= S') by (rewrite <- !lsum_scal; apply lsum_le; exact W0).
  assert (PS : 0 < S') by (eapply Rlt_le_trans; [|exact LS]; apply Rmult_lt_0_compat; [lra|]; apply Rmult_lt_0_compat; auto).
  assert (MO' : Rabs (Q2R (moment centre out count) - lsum (fun x => W' x * P' x) L) <= / 2 * S').
  { eapply Rle_trans; [|eapply Rle_trans; [exact MO|]].
    - right. do 2 f_equal. apply fold_ext. intros x _. unfold W', P'. rewrite Q2R_mult. reflexivity.
    - right. f_equal. unfold S'. apply fold_ext. intros x I. cbv beta. rewrite QA. apply Rabs_right, Rle_ge, (W'0 x I). }
  set (off := Q2R (o + vr 0%nat)) in *.
  assert (PF : forall x, In x L -> Rabs (P' x - off - F x) <= eps /\ Rabs (F x - A) <= M).
  { intros [j [[a b] c]] I. destruct (cells_in nt n_oct _ I) as [J [Ha [Hb Hc]]]. cbn [fst] in J. unfold P', F, triangle_mean, mean_of. cbn [fst snd]. rewrite Q2R_div by (intros Z0; discriminate Z0). rewrite !Q2R_plus, Q2R_3.
    pose proof (HQ (j * n_pts nt + a)%nat ltac:(nia)) as Qa. pose proof (HQ (j * n_pts nt + b)%nat ltac:(nia)) as Qb. pose proof (HQ (j * n_pts nt + c)%nat ltac:(nia)) as Qc.
    pose proof (HM (j * n_pts nt + a)%nat ltac:(nia)) as Ma. pose proof (HM (j * n_pts nt + b)%nat ltac:(nia)) as Mb. pose proof (HM (j * n_pts nt + c)%nat ltac:(nia)) as Mc.
    unfold off. rewrite Q2R_plus. apply Rcomplements.Rabs_le_between in Qa, Qb, Qc, Ma, Mb, Mc. split; apply Rcomplements.Rabs_le_between; lra. }
  assert (X1 : Rabs (lsum (fun x => W' x * (P' x - off - F x)) L) <= eps * S').
  { unfold S'. rewrite <- lsum_scal. apply lsum_abs. intros x I. rewrite Rabs_mult, (Rabs_right (W' x)) by (apply Rle_ge, W'0, I). rewrite Rmult_comm. apply Rmult_le_compat_r; [apply W'0, I|]. apply PF, I. }
  assert (X2 : Rabs (lsum (fun x => (W' x - kappa * W x) * (F x - A)) L) <= eta * kappa * M * lsum W L).
  { rewrite <- lsum_scal. apply lsum_abs. intros x I. destruct (WP x I) as [Px Bx]. destruct (PF x I) as [_ Mx]. rewrite Rabs_mult. replace (eta * kappa * M * W x) with (eta * (kappa * W x) * M) by ring. apply Rmult_le_compat; auto using Rabs_pos. }
  assert (X3 : lsum (fun x => W' x * P' x) L - (off + A) * S' = lsum (fun x => W' x * (P' x - off - F x)) L + lsum (fun x => (W' x - kappa * W x) * (F x - A)) L).
  { rewrite <- lsum_plus. replace (lsum (fun x => W' x * (P' x - off - F x) + (W' x - kappa * W x) * (F x - A)) L) with (lsum (fun x => (W' x * P' x + - (off + A) * W' x) + - kappa * (W x * (F x - A))) L) by (apply fold_ext; intros; ring).
    rewrite !lsum_plus, !lsum_scal, AF. fold S'. ring. }
  assert (M0 : 0 <= M) by (eapply Rle_trans; [apply Rabs_pos|apply (HM O)]; pose proof (n_pts_pos nt); nia).
  split; [apply Rlt_Qlt; rewrite ST; replace (Q2R 0) with 0 by (unfold Q2R; cbn; field); exact PS|]. rewrite ST.
  replace (Q2R (moment centre out count) / S' - (off + A)) with ((Q2R (moment centre out count) - (off + A) * S') / S') by (field; lra). unfold Rdiv at 1. rewrite Rabs_mult, (Rabs_right (/ S')) by (apply Rle_ge, Rlt_le, Rinv_0_lt_compat; auto).
  apply (Rmult_le_reg_r S'); auto. rewrite Rmult_assoc, Rinv_l, Rmult_1_r by lra.
  assert (Y : eta * kappa * M * lsum W L <= eta / (1 - eta) * M * S').
  { replace (eta * kappa * M * lsum W L) with (eta / (1 - eta) * M * ((1 - eta) * (kappa * lsum W L))) by (field; lra). apply Rmult_le_compat_l; auto. apply Rmult_le_pos; auto. apply Rle_mult_inv_pos; lra. }
  replace (Q2R (moment centre out count) - (off + A) * S') with ((Q2R (moment centre out count) - lsum (fun x => W' x * P' x) L) + (lsum (fun x => W' x * P' x) L - (off + A) * S')) by ring. rewrite X3.
  eapply Rle_trans; [apply Rabs_triang|]. eapply Rle_trans; [apply Rplus_le_compat; [exact MO'|apply Rabs_triang]|]. rewrite !Rmult_plus_distr_r. lra.
Qed.
