(** The transform of nsb points of a phase that accumulates, against its Fourier coefficients. *)
From Coq Require Import Reals List ZArith Lia Bool Psatz.
From Coquelicot Require Import Coquelicot.
From Verif Require Import DftModel DftProofs WignerNorm WignerProofs AverageProofs TableProofs PhysClose PhysSide SphereRiemann.
From Coq Require Import Lra.
Open Scope R_scope.

Lemma cis_turns x (m : Z) : cis (x + 2 * IZR m * PI) = cis x.
Proof.
  destruct m as [|p|p].
  - f_equal. ring.
  - rewrite cis_add. replace (2 * IZR (Z.pos p) * PI) with (INR (Pos.to_nat p) * (2 * PI)) by (rewrite INR_IZR_INZ, positive_nat_Z; ring). rewrite cis_2PI_nat. ring.
  - rewrite cis_add. replace (2 * IZR (Z.neg p) * PI) with (- (INR (Pos.to_nat p) * (2 * PI))) by (rewrite INR_IZR_INZ, positive_nat_Z; change (Z.neg p) with (- Z.pos p)%Z; rewrite opp_IZR; ring). rewrite cis_opp, cis_2PI_nat. apply injective_projections; cbn; ring.
Qed.
Lemma mean_bound n (f : nat -> R) : (0 < n)%nat -> (forall i, Rabs (f i) <= 1) -> Rabs (rsum n f / INR n) <= 1.
Proof.
  intros N H. assert (PN : 0 < INR n) by (apply lt_0_INR; auto). unfold Rdiv. rewrite Rabs_mult, (Rabs_pos_eq (/ INR n)) by (left; apply Rinv_0_lt_compat; auto). apply (Rmult_le_reg_r (INR n)); auto. rewrite Rmult_assoc, Rinv_l, Rmult_1_r, Rmult_1_l by lra.
  eapply Rle_trans; [apply rsum_abs|]. rewrite <- (Rmult_1_r (INR n)), <- rsum_const. apply rsum_le. intros; apply H.
Qed.
Section Coefficient.
Variables (W Phi : R -> R) (vr : R) (k : Z).
Hypothesis V : 0 < vr.
Hypothesis HW : forall t, is_RInt W 0 t (Phi t).
Let ph t := Phi t - 2 * PI * IZR k * vr * t.
Lemma phase_continuous x : continuous ph x.
Proof.
  apply (continuous_minus (V := R_NormedModule)).
  - apply (continuous_RInt_1 W 0 x Phi). exists (mkposreal 1 Rlt_0_1). intros y _. apply HW.
  - apply (continuous_scal_r (K := R_AbsRing) (V := R_NormedModule) (2 * PI * IZR k * vr) (fun t => t)). apply continuous_id.
Qed.
Lemma cos_cont x : continuous (fun t => vr * cos (ph t)) x.
Proof. apply (continuous_scal_r (K := R_AbsRing) (V := R_NormedModule) vr). apply continuous_comp; [apply phase_continuous|]. apply continuity_pt_filterlim, continuity_cos. Qed.
Lemma sin_cont x : continuous (fun t => vr * sin (ph t)) x.
Proof. apply (continuous_scal_r (K := R_AbsRing) (V := R_NormedModule) vr). apply continuous_comp; [apply phase_continuous|]. apply continuity_pt_filterlim, continuity_sin. Qed.
Lemma coefficient_exists : exists re im, is_RInt (fun t => vr * cos (ph t)) 0 (/ vr) re /\ is_RInt (fun t => vr * sin (ph t)) 0 (/ vr) im.
Proof.
  destruct (continuous_ex (fun t => vr * cos (ph t)) 0 (/ vr)) as [re HR]; [intros; apply cos_cont|]. destruct (continuous_ex (fun t => vr * sin (ph t)) 0 (/ vr)) as [im HI]; [intros; apply sin_cont|]. exists re, im. auto.
Qed.
Section Sum.
Variables (M : R) (n : nat).
Hypothesis HM : forall t, 0 <= t <= / vr -> Rabs (W t) <= M.
Hypothesis N : (0 < n)%nat.
Let L := M + 2 * PI * Rabs (IZR k) * vr.
Lemma M0 : 0 <= M. Proof. assert (0 < / vr) by (apply Rinv_0_lt_compat; auto). eapply Rle_trans; [apply Rabs_pos|apply (HM 0)]. lra. Qed.
Lemma L0 : 0 <= L. Proof. pose proof M0. pose proof PI_RGT_0. unfold L. apply Rplus_le_le_0_compat; auto. apply Rmult_le_pos; [apply Rmult_le_pos; [lra|apply Rabs_pos]|lra]. Qed.
Lemma Phi_slope x y : 0 <= x -> x <= y -> y <= / vr -> Rabs (Phi y - Phi x) <= M * (y - x).
Proof.
  intros X XY Y. pose proof (is_RInt_Chasles (V := R_NormedModule) W x 0 y _ _ (is_RInt_swap _ _ _ _ (HW x)) (HW y)) as C.
  replace (Phi y - Phi x) with (plus (opp (Phi x)) (Phi y)) by (unfold plus, opp; cbn; ring). rewrite (Rmult_comm M). apply (norm_RInt_le_const (V := R_NormedModule) W x y); [auto| |exact C].
  intros t Ht. apply HM. lra.
Qed.
Lemma ph_slope x y : 0 <= x <= / vr -> 0 <= y <= / vr -> Rabs (ph x - ph y) <= L * Rabs (x - y).
Proof.
  intros X Y. assert (P : Rabs (Phi x - Phi y) <= M * Rabs (x - y)).
  { destruct (Rle_dec x y) as [H|H].
    - rewrite Rabs_minus_sym, (Rabs_minus_sym x y), (Rabs_pos_eq (y - x)) by lra. apply Phi_slope; lra.
    - rewrite (Rabs_pos_eq (x - y)) by lra. apply Phi_slope; lra. }
  unfold ph. replace (Phi x - 2 * PI * IZR k * vr * x - (Phi y - 2 * PI * IZR k * vr * y)) with ((Phi x - Phi y) + - (2 * PI * vr * IZR k * (x - y))) by ring.
  eapply Rle_trans; [apply Rabs_triang|]. rewrite Rabs_Ropp. unfold L. rewrite Rmult_plus_distr_r. apply Rplus_le_compat; auto. rewrite !Rabs_mult, (Rabs_pos_eq 2), (Rabs_pos_eq PI), (Rabs_pos_eq vr) by (pose proof PI_RGT_0; lra). apply Req_le. ring.
Qed.
Lemma sum_close (f : R -> R) v : (forall a b, Rabs (f a - f b) <= Rabs (a - b)) -> (forall x, continuous (fun t => vr * f (ph t)) x) -> is_RInt (fun t => vr * f (ph t)) 0 (/ vr) v ->
  Rabs (rsum n (fun s => f (ph (INR s / (INR n * vr)))) / INR n - v) <= (M / vr + 2 * PI * Rabs (IZR k)) / INR n.
Proof.
  intros Hf Cf I. assert (PN : 0 < INR n) by (apply lt_0_INR; auto). assert (IV : 0 < / vr) by (apply Rinv_0_lt_compat; auto). set (h := / (INR n * vr)). assert (H0 : 0 < h) by (apply Rinv_0_lt_compat, Rmult_lt_0_compat; auto).
  assert (NH : INR n * h = / vr) by (unfold h; field; lra).
  pose proof (left_sum (fun t => vr * f (ph t)) (vr * L) h n ltac:(lra) ltac:(intros; apply Cf)) as S. rewrite NH in S. specialize (S ltac:(intros x y X Y; rewrite <- Rmult_minus_distr_l, Rabs_mult, (Rabs_pos_eq vr), Rmult_assoc by lra; apply Rmult_le_compat_l; [lra|]; eapply Rle_trans; [apply Hf|apply ph_slope; auto]) ltac:(apply Rmult_le_pos; [lra|apply L0])).
  rewrite (is_RInt_unique (V := R_CompleteNormedModule) _ _ _ _ I) in S.
  replace (rsum n (fun s => f (ph (INR s / (INR n * vr)))) / INR n) with (rsum n (fun c => h * (vr * f (ph (INR c * h))))).
  2:{ unfold Rdiv at 1. rewrite Rmult_comm, <- rsum_scal. apply rsum_ext. intros i _. replace (INR i / (INR n * vr)) with (INR i * h) by reflexivity. rewrite <- Rmult_assoc. f_equal. unfold h. field. lra. }
  eapply Rle_trans; [exact S|]. apply Req_le. unfold L, h. field. lra.
Qed.
End Sum.
Lemma coefficient_close M n re im : (forall t, 0 <= t <= / vr -> Rabs (W t) <= M) -> (0 < n)%nat -> is_RInt (fun t => vr * cos (ph t)) 0 (/ vr) re -> is_RInt (fun t => vr * sin (ph t)) 0 (/ vr) im ->
  Rabs (abs2 (csum n (fun step => cis (- (2 * PI) * (INR step * INR (Z.to_nat (k mod Z.of_nat n))) / INR n) * cis (Phi (INR step / (INR n * vr))))%C) / INR n ^ 2 - (re * re + im * im)) <= 4 * ((M / vr + 2 * PI * Rabs (IZR k)) / INR n).
Proof.
  intros HM N HR HI. assert (PN : 0 < INR n) by (apply lt_0_INR; auto). assert (IV : 0 < / vr) by (apply Rinv_0_lt_compat; auto).
  assert (E : csum n (fun step => cis (- (2 * PI) * (INR step * INR (Z.to_nat (k mod Z.of_nat n))) / INR n) * cis (Phi (INR step / (INR n * vr))))%C = csum n (fun step => cis (ph (INR step / (INR n * vr))))).
  { apply csum_ext. intros s _. rewrite <- cis_add. assert (EZ : INR (Z.to_nat (k mod Z.of_nat n)) = IZR k - INR n * IZR (k / Z.of_nat n)).
    { rewrite INR_IZR_INZ, Z2Nat.id by (apply Z.mod_pos_bound; lia). rewrite INR_IZR_INZ, <- mult_IZR, <- minus_IZR. f_equal. pose proof (Z.div_mod k (Z.of_nat n) ltac:(lia)). lia. }
    rewrite EZ. unfold ph. set (x := Phi _). replace (- (2 * PI) * (INR s * (IZR k - INR n * IZR (k / Z.of_nat n))) / INR n + x) with (x - 2 * PI * IZR k * vr * (INR s / (INR n * vr)) + 2 * IZR (Z.of_nat s * (k / Z.of_nat n)) * PI) by (rewrite mult_IZR, <- INR_IZR_INZ; field; lra).
    apply cis_turns. }
  rewrite E. pose proof (sum_close M n HM N cos re cos_lip cos_cont HR) as C. pose proof (sum_close M n HM N sin im sin_lip sin_cont HI) as S.
  unfold abs2. rewrite csum_fst, FreqConst.csum_snd. unfold cis; cbn [fst snd]. set (a := rsum n (fun s => cos _)) in *. set (b := rsum n (fun s => sin _)) in *.
  assert (BA : Rabs (a / INR n) <= 1) by (apply mean_bound; [auto|intros; apply Rabs_le; apply COS_bound]). assert (BB : Rabs (b / INR n) <= 1) by (apply mean_bound; [auto|intros; apply Rabs_le; apply SIN_bound]).
  assert (RB : forall (f : R -> R) v, (forall x, Rabs (f x) <= 1) -> is_RInt (fun t => vr * f (ph t)) 0 (/ vr) v -> Rabs v <= 1).
  { intros f v Hf I. replace 1 with ((/ vr - 0) * vr) by (field; lra). apply (norm_RInt_le_const (V := R_NormedModule) (fun t => vr * f (ph t)) 0 (/ vr)); [lra| |exact I]. intros t _. change (Rabs (vr * f (ph t)) <= vr). rewrite Rabs_mult, (Rabs_pos_eq vr) by lra. specialize (Hf (ph t)). nra. }
  assert (BR : Rabs re <= 1) by (apply (RB cos); auto; intros; apply Rabs_le, COS_bound). assert (BI : Rabs im <= 1) by (apply (RB sin); auto; intros; apply Rabs_le, SIN_bound).
  replace ((a * a + b * b) / INR n ^ 2 - (re * re + im * im)) with ((a / INR n - re) * (a / INR n + re) + (b / INR n - im) * (b / INR n + im)) by (field; lra).
  set (e := (M / vr + 2 * PI * Rabs (IZR k)) / INR n) in *. eapply Rle_trans; [apply Rabs_triang|]. rewrite !Rabs_mult. pose proof (Rabs_triang (a / INR n) re). pose proof (Rabs_triang (b / INR n) im).
  pose proof (Rabs_pos (a / INR n - re)). pose proof (Rabs_pos (b / INR n - im)). pose proof (Rabs_pos (a / INR n + re)). pose proof (Rabs_pos (b / INR n + im)). nra.
Qed.
End Coefficient.
