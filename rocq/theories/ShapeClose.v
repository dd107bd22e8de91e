(** The shape of the spectrum of averaging_1d against the distribution of the frequencies over the directions. *)
From Coq Require Import Reals QArith Qabs Qreals List ZArith Lia Bool.
From Verif Require Import InterpModel InterpSpec PowderModel InterpProofs WalkProofs DeltaProofs PowderProofs PowderMoment DftModel DftProofs WignerNorm PhysSpec FreqSpec AverageSpec AverageProofs AverageCentre SphereSpec SphereChange SphereProofs ShapeSpec ShapeProofs.
From Coq Require Import Lra.
Import ListNotations.
Open Scope R_scope.

Lemma average_near nt k f c B : (1 <= nt)%nat -> (1 <= k)%nat -> (forall o, (o < k * n_pts nt)%nat -> Rabs (f o - c) <= B) -> Rabs (powder_average nt k f - c) <= B.
Proof.
  intros N K H. set (L := cells nt k). set (W := fun x : nat * tri => weight_of nt (snd x)). set (F := fun x : nat * tri => mean_of (fun p => f (fst x * n_pts nt + p)%nat) (snd x)).
  assert (SW : powder_sum nt k (fun _ => 1) = lsum W L).
  { unfold powder_sum. rewrite <- (lsum_cells nt k (fun j t => weight_of nt t * mean_of (fun p => 1) t)). apply fold_ext. intros [j [[a b] c0]] _. unfold W, mean_of. cbn [fst snd]. field. }
  assert (SF : powder_sum nt k f = lsum (fun x => W x * F x) L) by (unfold powder_sum; rewrite <- (lsum_cells nt k (fun j t => weight_of nt t * mean_of (fun p => f (j * n_pts nt + p)%nat) t)); reflexivity).
  assert (SP : 0 < lsum W L) by (rewrite <- SW, powder_one by auto; apply Rmult_lt_0_compat; [apply lt_0_INR; lia|apply S3_one_pos; auto]).
  unfold powder_average. rewrite SW, SF. replace (lsum (fun x => W x * F x) L / lsum W L - c) with (lsum (fun x => W x * (F x - c)) L / lsum W L).
  2:{ replace (lsum (fun x => W x * (F x - c)) L) with (lsum (fun x => W x * F x + - c * W x) L) by (apply fold_ext; intros; ring). rewrite lsum_plus, lsum_scal. field. lra. }
  unfold Rdiv. rewrite Rabs_mult, (Rabs_pos_eq (/ lsum W L)) by (apply Rlt_le, Rinv_0_lt_compat; auto). apply (Rmult_le_reg_r (lsum W L)); auto. rewrite Rmult_assoc, Rinv_l, Rmult_1_r by lra. rewrite <- lsum_scal. apply lsum_abs.
  intros [j [[a b] c0]] I. destruct (cells_in nt k _ I) as [J [Ha [Hb Hc]]]. cbn [fst] in J. unfold W, F, weight_of, mean_of. cbn [fst snd]. pose proof (amplitude_pos nt a N Ha). pose proof (amplitude_pos nt b N Hb). pose proof (amplitude_pos nt c0 N Hc).
  rewrite Rabs_mult, (Rabs_pos_eq (_ + _ + _)) by lra. rewrite Rmult_comm. apply Rmult_le_compat_r; [lra|].
  pose proof (H (j * n_pts nt + a)%nat ltac:(nia)) as Qa. pose proof (H (j * n_pts nt + b)%nat ltac:(nia)) as Qb. pose proof (H (j * n_pts nt + c0)%nat ltac:(nia)) as Qc. apply Rcomplements.Rabs_le_between in Qa, Qb, Qc. apply Rcomplements.Rabs_le_between. lra.
Qed.
Lemma over_all_1 nt n_oct g : over_all nt n_oct 1 g = lsum (fun x => g O (fst x) (snd x)) (cells nt n_oct).
Proof. unfold over_all. rewrite (lsum_cells nt n_oct (g O)). cbn [seq map fold_right]. rewrite Rplus_0_r, fold_seq. reflexivity. Qed.
Theorem shape_close : forall (F : R -> R) (lam : R) (nt n_oct : nat) (offset_0 : Q) (vr freq norm sb : nat -> Q) (count : BinNums.Z) (out : writes) (f : nat -> R) (kappa eta eps d M : R),
  gentle F lam -> 0 <= lam -> (1 <= nt)%nat -> (1 <= n_oct)%nat -> 0 <= d ->
  averaging_1d nt n_oct 1 offset_0 vr freq norm sb count = Some out ->
  is_delta nt (n_pts nt) freq = false ->
  in_window (offset_0 + vr 0%nat) count = true ->
  (forall p, (p < n_oct * n_pts nt)%nat -> (0 <= freq p + (offset_0 + vr 0%nat) /\ freq p + (offset_0 + vr 0%nat) < zq count)%Q) ->
  0 < kappa -> 0 <= eta < 1 ->
  (forall p, (p < n_pts nt)%nat -> Rabs (Q2R (norm p) - kappa * nth p (amplitudes nt) 0) <= eta * (kappa * nth p (amplitudes nt) 0)) ->
  (forall o, (o < n_oct * n_pts nt)%nat -> Rabs (Q2R (freq o) - f o) <= eps) ->
  (forall j t, (j < n_oct)%nat -> In t (grid_tris nt) -> narrow (fun p => f (j * n_pts nt + p)%nat) d t) ->
  (forall o o', (o < n_oct * n_pts nt)%nat -> (o' < n_oct * n_pts nt)%nat -> Rabs (f o - f o') <= M) ->
  (0 < InterpSpec.total out count)%Q /\
  Rabs (weighed F out count / Q2R (InterpSpec.total out count) - powder_average nt n_oct (fun o => F (Q2R (offset_0 + vr 0%nat) + f o))) <= lam * (/ 2 + (d + eps) + eta / (1 - eta) * M).
Proof.
  intros F lam nt n_oct o vr freq norm sb count out f kappa eta eps d M G L0 N1 O1 D0 H D HW HF K [E0 E1] HN HQ HD HM.
  set (off := Q2R (o + vr 0%nat)) in *. set (phi := fun p => F (off + f p)). set (A := powder_average nt n_oct phi).
  set (W' := fun x : nat * tri => Q2R (vertex_sum (fun p => norm ((0 * (n_oct * n_pts nt) + fst x * n_pts nt + p) mod n_pts nt)%nat) (snd x))).
  set (L := cells nt n_oct). set (W := fun x : nat * tri => weight_of nt (snd x)). set (Fx := fun x : nat * tri => mean_of (fun p => phi (fst x * n_pts nt + p)%nat) (snd x)).
  assert (HW1 : forall i, (i < 1)%nat -> in_window (o + vr i) count = true) by (intros i Hi; replace i with O by lia; auto).
  assert (HF1 : forall i p, (i < 1)%nat -> (p < n_oct * n_pts nt)%nat -> (0 <= freq p + (o + vr i))%Q /\ (freq p + (o + vr i) < zq count)%Q) by (intros i p Hi Hp; replace i with O by lia; auto).
  pose proof (pattern_shape F lam nt n_oct 1 o vr freq norm sb count out f d eps G L0 D0 H D HW1 HF1 HQ HD) as MO. cbn zeta in MO. rewrite !over_all_1 in MO. cbn [amps_1d] in MO.
  assert (T : (InterpSpec.total out count == over_pattern nt n_oct 1 (fun _ j t => vertex_sum (fun p => norm ((0 * (n_oct * n_pts nt) + j * n_pts nt + p) mod n_pts nt)%nat) t))%Q).
  { pose proof (averaging_total nt n_oct 1 o vr freq norm sb count out H) as Xx. rewrite D in Xx. rewrite (Xx HW1 HF1). rewrite (pattern_eq _ _ _ _ (fun k => norm (k mod n_pts nt)%nat)) by (intros; reflexivity). reflexivity. }
  apply Qeq_eqR in T. rewrite pattern_cells in T.
  assert (WP : forall x, In x L -> 0 < W x /\ Rabs (W' x - kappa * W x) <= eta * (kappa * W x)).
  { intros [j [[a b] c]] I. destruct (cells_in nt n_oct _ I) as [J [Ha [Hb Hc]]]. unfold W, W', weight_of, vertex_sum. cbn [fst snd].
    assert (MD : forall p, (p < n_pts nt)%nat -> ((0 * (n_oct * n_pts nt) + j * n_pts nt + p) mod n_pts nt = p)%nat) by (intros p Hp; rewrite Nat.mul_0_l, Nat.add_0_l, Nat.add_comm, Nat.mod_add by lia; apply Nat.mod_small; auto).
    rewrite !MD by auto. rewrite !Q2R_plus. pose proof (amplitude_pos nt a N1 Ha). pose proof (amplitude_pos nt b N1 Hb). pose proof (amplitude_pos nt c N1 Hc). pose proof (HN a Ha) as Na. pose proof (HN b Hb) as Nb. pose proof (HN c Hc) as Nc.
    split; [lra|]. apply Rcomplements.Rabs_le_between in Na, Nb, Nc. apply Rcomplements.Rabs_le_between. lra. }
  assert (W0 : forall x, In x L -> (1 - eta) * (kappa * W x) <= W' x).
  { intros x I. destruct (WP x I) as [_ B]. apply Rcomplements.Rabs_le_between in B. lra. }
  assert (W'0 : forall x, In x L -> 0 <= W' x).
  { intros x I. eapply Rle_trans; [|apply W0; exact I]. destruct (WP x I). apply Rmult_le_pos; [lra|]. apply Rmult_le_pos; lra. }
  assert (SW : powder_sum nt n_oct (fun _ => 1) = lsum W L).
  { unfold powder_sum. rewrite <- (lsum_cells nt n_oct (fun j t => weight_of nt t * mean_of (fun p => 1) t)). apply fold_ext. intros [j [[a b] c]] _. unfold W, mean_of. cbn [fst snd]. field. }
  assert (SF : powder_sum nt n_oct phi = lsum (fun x => W x * Fx x) L) by (unfold powder_sum; rewrite <- (lsum_cells nt n_oct (fun j t => weight_of nt t * mean_of (fun p => phi (j * n_pts nt + p)%nat) t)); reflexivity).
  assert (SP : 0 < lsum W L) by (rewrite <- SW, powder_one by auto; apply Rmult_lt_0_compat; [apply lt_0_INR; lia|apply S3_one_pos; auto]).
  assert (AF : lsum (fun x => W x * (Fx x - A)) L = 0).
  { replace (lsum (fun x => W x * (Fx x - A)) L) with (lsum (fun x => W x * Fx x + (- A) * W x) L) by (apply fold_ext; intros; ring). rewrite lsum_plus, lsum_scal, <- SF, <- SW. unfold A, powder_average. field. rewrite SW. lra. }
  set (S' := lsum W' L) in *. assert (ST : Q2R (InterpSpec.total out count) = S') by (rewrite T; reflexivity).
  assert (LS : (1 - eta) * (kappa * lsum W L) <= S') by (rewrite <- !lsum_scal; apply lsum_le; exact W0).
  assert (PS : 0 < S') by (eapply Rlt_le_trans; [|exact LS]; apply Rmult_lt_0_compat; [lra|]; apply Rmult_lt_0_compat; auto).
  assert (MO' : Rabs (weighed F out count - lsum (fun x => W' x * Fx x) L) <= lam * (/ 2 + (d + eps)) * S').
  { eapply Rle_trans; [|eapply Rle_trans; [exact MO|]].
    - right. do 2 f_equal.
    - right. unfold S'. rewrite <- lsum_scal. apply fold_ext. intros x I. cbv beta. fold (W' x). rewrite (Rabs_pos_eq (W' x)) by (apply (W'0 x I)). ring. }
  assert (PF : forall p, (p < n_oct * n_pts nt)%nat -> Rabs (phi p - A) <= lam * M).
  { intros p Hp. rewrite Rabs_minus_sym. unfold A. apply average_near; auto. intros q Hq. unfold phi. eapply Rle_trans; [apply G|]. apply Rmult_le_compat_l; auto. replace (off + f q - (off + f p)) with (f q - f p) by ring. auto. }
  assert (X2 : Rabs (lsum (fun x => (W' x - kappa * W x) * (Fx x - A)) L) <= eta * kappa * (lam * M) * lsum W L).
  { rewrite <- lsum_scal. apply lsum_abs. intros x I. destruct (WP x I) as [Px Bx]. rewrite Rabs_mult. replace (eta * kappa * (lam * M) * W x) with (eta * (kappa * W x) * (lam * M)) by ring. apply Rmult_le_compat; auto using Rabs_pos.
    destruct x as [j [[a b] c]]. destruct (cells_in nt n_oct _ I) as [J [Ha [Hb Hc]]]. cbn [fst] in J. unfold Fx, mean_of. cbn [fst snd].
    pose proof (PF (j * n_pts nt + a)%nat ltac:(nia)) as Qa. pose proof (PF (j * n_pts nt + b)%nat ltac:(nia)) as Qb. pose proof (PF (j * n_pts nt + c)%nat ltac:(nia)) as Qc. apply Rcomplements.Rabs_le_between in Qa, Qb, Qc. apply Rcomplements.Rabs_le_between. lra. }
  assert (X3 : lsum (fun x => W' x * Fx x) L - A * S' = lsum (fun x => (W' x - kappa * W x) * (Fx x - A)) L).
  { replace (lsum (fun x => (W' x - kappa * W x) * (Fx x - A)) L) with (lsum (fun x => (W' x * Fx x + - A * W' x) + - kappa * (W x * (Fx x - A))) L) by (apply fold_ext; intros; ring). rewrite !lsum_plus, !lsum_scal, AF. fold S'. ring. }
  assert (M0 : 0 <= lam * M) by (eapply Rle_trans; [apply Rabs_pos|apply (PF O)]; pose proof (n_pts_pos nt); nia).
  split; [apply Rlt_Qlt; rewrite ST, Q2R_0; exact PS|]. rewrite ST. fold A.
  replace (weighed F out count / S' - A) with ((weighed F out count - A * S') / S') by (field; lra). unfold Rdiv at 1. rewrite Rabs_mult, (Rabs_right (/ S')) by (apply Rle_ge, Rlt_le, Rinv_0_lt_compat; auto).
  apply (Rmult_le_reg_r S'); auto. rewrite Rmult_assoc, Rinv_l, Rmult_1_r by lra.
  assert (Y : eta * kappa * (lam * M) * lsum W L <= eta / (1 - eta) * (lam * M) * S').
  { replace (eta * kappa * (lam * M) * lsum W L) with (eta / (1 - eta) * (lam * M) * ((1 - eta) * (kappa * lsum W L))) by (field; lra). apply Rmult_le_compat_l; auto. apply Rmult_le_pos; auto. apply Rle_mult_inv_pos; lra. }
  replace (weighed F out count - A * S') with ((weighed F out count - lsum (fun x => W' x * Fx x) L) + (lsum (fun x => W' x * Fx x) L - A * S')) by ring. rewrite X3.
  eapply Rle_trans; [apply Rabs_triang|]. eapply Rle_trans; [apply Rplus_le_compat; [exact MO'|exact X2]|]. replace (lam * (/ 2 + (d + eps) + eta / (1 - eta) * M) * S') with (lam * (/ 2 + (d + eps)) * S' + eta / (1 - eta) * (lam * M) * S') by ring. lra.
Qed.
(** ** The triangles are small *)
Lemma neighbours g L nt x y z x' y' z' : slope g L -> 0 <= L -> (1 <= nt)%nat -> (x + y + z = nt)%nat -> (x' + y' + z' = nt)%nat ->
  (y = y' \/ y = S y' \/ y' = S y)%nat -> (z = z' \/ z = S z' \/ z' = S z)%nat -> Rabs (g (along3 x y z) - g (along3 x' y' z')) <= 28 * L / INR nt.
Proof.
  intros H L0 N E E' Y Z0. rewrite !(psi_gf g L H nt) by auto. set (h := / INR nt). assert (H0 : 0 < h) by (apply Rinv_0_lt_compat, lt_0_INR; lia).
  assert (ST : forall a b, (a = b \/ a = S b \/ b = S a)%nat -> Rabs (INR a * h - INR b * h) <= h).
  { intros a b [->|[->| ->]]; rewrite ?S_INR; apply Rcomplements.Rabs_le_between; split; nra. }
  eapply Rle_trans; [apply (gf_lip g L H L0)|]. pose proof (ST _ _ Y) as A1. pose proof (ST _ _ Z0) as A2. replace (28 * L / INR nt) with (14 * L * (h + h)) by (unfold h, Rdiv; ring).
  apply Rmult_le_compat_l; [lra|]. apply Rplus_le_compat; assumption.
Qed.
Lemma cells_narrow g L nt alpha beta j t : slope g L -> 0 <= L -> (1 <= nt)%nat -> polar_angles nt alpha beta -> (j < 4)%nat -> In t (grid_tris nt) ->
  narrow (fun p => g (towards nt alpha beta (j * n_pts nt + p)%nat)) (28 * L / INR nt) t.
Proof.
  intros H L0 N P J I.
  assert (V : forall x y z, (x + y + z = nt)%nat -> g (towards nt alpha beta (j * n_pts nt + at3 nt x y z)) = g (turn j (along3 x y z))).
  { intros x y z E. pose proof (at3_bound nt x y z E) as Q. rewrite towards_at by auto. assert (D : forall i, direction (alpha (at3 nt x y z)) (beta (at3 nt x y z)) i = along3 x y z i) by (intros i; rewrite P by auto; apply cosine_at; auto).
    apply (g_ext g L H).
    - apply turn_unit. unfold unit_vector. rewrite <- !D. apply direction_unit.
    - intros i. rewrite turn_direction by lia. destruct j as [|[|[|j]]]; unfold turn; destruct i; rewrite ?D; reflexivity. }
  assert (NB : forall x y z x' y' z', (x + y + z = nt)%nat -> (x' + y' + z' = nt)%nat -> (y = y' \/ y = S y' \/ y' = S y)%nat -> (z = z' \/ z = S z' \/ z' = S z)%nat ->
    Rabs (g (towards nt alpha beta (j * n_pts nt + at3 nt x y z)) - g (towards nt alpha beta (j * n_pts nt + at3 nt x' y' z'))) <= 28 * L / INR nt).
  { intros. rewrite !V by auto. apply (neighbours (fun u => g (turn j u)) L); auto. apply turn_slope; auto. }
  apply grid_in in I. destruct I as [r [c [Hr [[Hc ->]|[Hc ->]]]]]; unfold up, down, narrow; rewrite !Nat.add_1_r.
  - change (point nt r c) with (at3 nt (nt - r - c) c r). change (point nt r (S c)) with (at3 nt (nt - r - S c) (S c) r). change (point nt (S r) c) with (at3 nt (nt - S r - c) c (S r)). repeat split; apply NB; lia.
  - change (point nt r (S c)) with (at3 nt (nt - r - S c) (S c) r). change (point nt (S r) c) with (at3 nt (nt - S r - c) c (S r)). change (point nt (S r) (S c)) with (at3 nt (nt - S r - S c) (S c) (S r)). repeat split; apply NB; lia.
Qed.
(** The spectrum of frequencies that are a function of the direction. *)
Lemma gentle_slope F lam g L c q : gentle F lam -> 0 <= lam -> slope g L -> slope (fun u => F (c + q * g u)) (lam * (Rabs q * L)).
Proof.
  intros G L0 H u v U V. eapply Rle_trans; [apply G|]. rewrite Rmult_assoc. apply Rmult_le_compat_l; auto. replace (c + q * g u - (c + q * g v)) with (q * (g u - g v)) by ring. rewrite Rabs_mult, Rmult_assoc. apply Rmult_le_compat_l; [apply Rabs_pos|]. apply H; auto.
Qed.
Theorem shape_limit : forall (F : R -> R) (lam : R) (g : (axis -> R) -> R) (L : R) (nt : nat) (offset_0 : Q) (vr freq norm sb : nat -> Q) (count : BinNums.Z) (out : writes) (alpha beta : nat -> R) (kappa eta eps : R),
  gentle F lam -> 0 <= lam -> slope g L -> 0 <= L -> (1 <= nt)%nat -> polar_angles nt alpha beta ->
  averaging_1d nt 4 1 offset_0 vr freq norm sb count = Some out ->
  is_delta nt (n_pts nt) freq = false ->
  in_window (offset_0 + vr 0%nat) count = true ->
  (forall p, (p < 4 * n_pts nt)%nat -> (0 <= freq p + (offset_0 + vr 0%nat) /\ freq p + (offset_0 + vr 0%nat) < zq count)%Q) ->
  0 < kappa -> 0 <= eta < 1 ->
  (forall p, (p < n_pts nt)%nat -> Rabs (Q2R (norm p) - kappa * nth p (amplitudes nt) 0) <= eta * (kappa * nth p (amplitudes nt) 0)) ->
  (forall o, (o < 4 * n_pts nt)%nat -> Rabs (Q2R (freq o) - g (towards nt alpha beta o)) <= eps) ->
  Rabs (weighed F out count / Q2R (InterpSpec.total out count) - hemisphere_average (fun u => F (Q2R (offset_0 + vr 0%nat) + g u))) <= lam * (/ 2 + eps + 4210 * L / INR nt + eta / (1 - eta) * (4 * L)).
Proof.
  intros F lam g L nt o vr freq norm sb count out al be kappa eta eps G L0 H LN N P HA D HW HF K E HN HQ.
  assert (I0 : 0 < / INR nt) by (apply Rinv_0_lt_compat, lt_0_INR; lia).
  assert (UT : forall o, unit_vector (towards nt al be o)) by (intros; apply direction_unit).
  destruct (shape_close F lam nt 4 o vr freq norm sb count out (fun p => g (towards nt al be p)) kappa eta eps (28 * L / INR nt) (4 * L) G L0 N ltac:(lia) ltac:(apply Rmult_le_pos; lra) HA D HW HF K E HN HQ) as [_ C].
  - intros j t J I. apply (cells_narrow g L); auto.
  - intros p q _ _. eapply Rle_trans; [apply H; apply UT|]. pose proof (dist_bound (towards nt al be p) (towards nt al be q) (UT p) (UT q)). nra.
  - set (off := Q2R (o + vr 0%nat)) in *. set (A := powder_average nt 4 _) in C.
    assert (SL : slope (fun u => F (off + g u)) (lam * L)).
    { intros u v U V. eapply Rle_trans; [apply G|]. rewrite Rmult_assoc. apply Rmult_le_compat_l; auto. replace (off + g u - (off + g v)) with (g u - g v) by ring. apply H; auto. }
    pose proof (hemisphere_conv (fun u => F (off + g u)) (lam * L) nt al be SL ltac:(nra) N P) as HC. fold A in HC. set (x := weighed F out count / _) in *. set (y := hemisphere_average _) in *.
    replace (x - y) with ((x - A) + (A - y)) by ring. eapply Rle_trans; [apply Rabs_triang|]. eapply Rle_trans; [apply Rplus_le_compat; [exact C|exact HC]|]. right. unfold Rdiv. ring.
Qed.
