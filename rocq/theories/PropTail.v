(** C125: how much of the intensity is in the sidebands of high order, and how many sidebands a simulation needs. *)
From Coq Require Import Reals List ZArith Lra Lia Bool Psatz.
From Coquelicot Require Import Coquelicot.
From Verif Require Import DftModel DftProofs WignerMatrix WignerModel WignerSpec WignerNorm FreqModel FreqSpec FreqProofs CoreProofs TableProofs PropFreq.
From Verif Require Import PhysSpec PhysLevels PhysEvent PhysSide PropPhys PropSide SphereRiemann InducedProofs SideLimit PropOrders SideTail.
From Coq Require Import Lra.
Import ListNotations.
Open Scope R_scope.

(** The difference of the energies of the two states over a turn of the rotor by phi, and in the time (C124); the signal of the transition, its intensities of all orders (C124) and a bound of how far
    the frequency goes from its mean. *)
Definition at_angle (fourth : bool) (B0 : R) (sites : list site) (couplings : list coupling) (ns levels levels' : list nat) (alpha beta theta phi : R) : R :=
  system_level fourth B0 sites couplings (rotor_frame alpha beta phi theta) ns levels' - system_level fourth B0 sites couplings (rotor_frame alpha beta phi theta) ns levels.
Definition signal (fourth : bool) (B0 : R) (sites : list site) (couplings : list coupling) (ns levels levels' : list nat) (alpha beta theta vr mean : R) (Phi : R -> R) (intensity : BinNums.Z -> R) (B : R) : Prop :=
  mean_over_turn (at_angle fourth B0 sites couplings ns levels levels' alpha beta theta) mean /\
  (forall t, is_RInt (fun t => 2 * PI * (turning fourth B0 sites couplings ns levels levels' alpha beta theta vr t - mean)) 0 t (Phi t)) /\
  (forall k, order_intensity Phi vr k (intensity k)) /\
  (forall t, 0 <= t <= / vr -> Rabs (turning fourth B0 sites couplings ns levels levels' alpha beta theta vr t - mean) <= B).
Definition together (intensity : BinNums.Z -> R) (orders : list BinNums.Z) : R := fold_right Rplus 0 (map intensity orders).

(** ** The energies come back after a turn *)
Lemma axes_turn a b g : euler_axes a b (g + 2 * PI) = euler_axes a b g.
Proof. unfold euler_axes, about_z at 1. rewrite cos_plus, sin_plus, cos_2PI, sin_2PI. unfold about_z at 2. rewrite !Rmult_1_r, !Rmult_0_r, Rminus_0_r, Rplus_0_r. reflexivity. Qed.
Lemma lab_turn al be phi th T : lab (rotor_frame al be (phi + 2 * PI) th) T = lab (rotor_frame al be phi th) T.
Proof. unfold lab, rotor_frame. cbn [fold_left turned]. rewrite axes_turn. reflexivity. Qed.
Lemma level_turn fourth B0 sites cps ns lv al be phi th : system_level fourth B0 sites cps (rotor_frame al be (phi + 2 * PI) th) ns lv = system_level fourth B0 sites cps (rotor_frame al be phi th) ns lv.
Proof.
  unfold system_level. f_equal; apply rtotal_ext; intros x; [unfold site_level|unfold coupling_level]; rewrite !lab_turn; reflexivity.
Qed.
Lemma closed_phase fourth B0 sites cps ns lv lv' al be th vr mean (Phi : R -> R) : 0 < vr -> mean_over_turn (at_angle fourth B0 sites cps ns lv lv' al be th) mean ->
  (forall t, is_RInt (fun t => 2 * PI * (turning fourth B0 sites cps ns lv lv' al be th vr t - mean)) 0 t (Phi t)) -> Phi (/ vr) = 0 /\ Phi 0 = 0.
Proof.
  intros V M I. pose proof PI_RGT_0 as PP. set (g := at_angle fourth B0 sites cps ns lv lv' al be th) in *. split.
  - pose proof (I (/ vr)) as J. unfold mean_over_turn in M.
    assert (G : is_RInt (fun phi => g phi - mean) 0 (2 * PI) 0).
    { pose proof (is_RInt_minus (V := R_NormedModule) _ _ _ _ _ _ M (is_RInt_const (V := R_NormedModule) 0 (2 * PI) mean)) as Q. eapply rint_eq; [|exact Q]. unfold minus, plus, opp, scal; cbn; unfold mult; cbn. ring. }
    assert (K : is_RInt (fun t => scal (- (2 * PI * vr)) (g (- (2 * PI * vr) * t + 2 * PI) - mean)) 0 (/ vr) (opp 0)).
    { apply (is_RInt_comp_lin (V := R_NormedModule) (fun phi => g phi - mean) (- (2 * PI * vr)) (2 * PI) 0 (/ vr)). replace (- (2 * PI * vr) * 0 + 2 * PI) with (2 * PI) by ring. replace (- (2 * PI * vr) * / vr + 2 * PI) with 0 by (field; lra). apply (is_RInt_swap (V := R_NormedModule)). exact G. }
    pose proof (is_RInt_scal (V := R_NormedModule) _ _ _ (- / vr) _ K) as K'.
    assert (J' : is_RInt (fun t => 2 * PI * (turning fourth B0 sites cps ns lv lv' al be th vr t - mean)) 0 (/ vr) 0).
    { eapply rint_eq; [|eapply is_RInt_ext; [|exact K']].
      - unfold opp, scal; cbn; unfold mult; cbn. ring.
      - intros t _. cbv beta. unfold scal; cbn; unfold mult; cbn. unfold turning, g, at_angle. cbv zeta. replace (- (2 * PI * vr) * t + 2 * PI) with (- (2 * PI * vr * t) + 2 * PI) by ring. rewrite !level_turn. match goal with |- ?x = ?y => change (@eq R x y) end. field. lra. }
    transitivity (RInt (fun t => 2 * PI * (turning fourth B0 sites cps ns lv lv' al be th vr t - mean)) 0 (/ vr)); [symmetry; apply (is_RInt_unique (V := R_CompleteNormedModule)); exact J|apply (is_RInt_unique (V := R_CompleteNormedModule)); exact J'].
  - transitivity (RInt (fun t => 2 * PI * (turning fourth B0 sites cps ns lv lv' al be th vr t - mean)) 0 0); [symmetry; apply (is_RInt_unique (V := R_CompleteNormedModule)); exact (I 0)|apply (RInt_point (V := R_CompleteNormedModule))].
Qed.

(** ** From n points to the limit *)
Lemma below_limit a b S n0 : (forall n, (n0 <= n)%nat -> (0 < n)%nat -> a <= b + S / INR n) -> a <= b.
Proof.
  intros H. destruct (Rle_lt_dec a b) as [|L]; auto. exfalso. set (T := Rmax S 0). assert (T0 : 0 <= T) by apply Rmax_r. assert (ST : S <= T) by apply Rmax_l. set (d := a - b).
  destruct (archimed_cor1 (d / (T + 1))) as (n & Hn & Hp); [apply Rdiv_lt_0_compat; unfold d; lra|]. set (m := (n + n0)%nat). specialize (H m ltac:(unfold m; lia) ltac:(unfold m; lia)).
  assert (I0 : 0 < / INR m) by (apply Rinv_0_lt_compat, lt_0_INR; unfold m; lia). assert (IM : / INR m <= / INR n) by (apply Rinv_le_contravar; [apply lt_0_INR; auto|apply le_INR; unfold m; lia]).
  assert (E : d / (T + 1) * (T + 1) = d) by (field; lra). set (y := d / (T + 1)) in *. assert (0 < y) by (apply Rdiv_lt_0_compat; unfold d; lra). unfold Rdiv in H. assert (S * / INR m <= T * / INR m) by (apply Rmult_le_compat_r; lra). assert (T * / INR m <= T * y) by (apply Rmult_le_compat_l; lra). unfold d in *. lra.
Qed.
Lemma sums_close (W Phi : R -> R) vr M (int : BinNums.Z -> R) ks : 0 < vr -> (forall t, is_RInt W 0 t (Phi t)) -> (forall t, 0 <= t <= / vr -> Rabs (W t) <= M) -> (forall k, order_intensity Phi vr k (int k)) ->
  exists S, forall n, (0 < n)%nat -> Rabs (together int ks - fold_right Rplus 0 (map (fun k => sideband_intensity n (fun s => cis (Phi (INR s / (INR n * vr))%R)) (Z.to_nat (k mod Z.of_nat n)) / INR n ^ 2) ks)) <= S / INR n.
Proof.
  intros V HW HM HI. induction ks as [|k ks (S & IH)].
  - exists 0. intros n N. unfold together. cbn [map fold_right]. rewrite Rminus_0_r, Rabs_R0. unfold Rdiv. lra.
  - exists (4 * (M / vr + 2 * PI * Rabs (IZR k)) + S). intros n N. specialize (IH n N). unfold together in *. cbn [map fold_right]. destruct (HI k) as (re & im & HR & HJ & Ek).
    pose proof (coefficient_close W Phi vr k V HW M n re im HM N HR HJ) as Q. rewrite <- Ek in Q. apply Rcomplements.Rabs_le_between in Q. apply Rcomplements.Rabs_le_between in IH. apply Rcomplements.Rabs_le_between.
    change (abs2 (csum n (fun step => (cis (- (2 * PI) * (INR step * INR (Z.to_nat (k mod Z.of_nat n))) / INR n) * cis (Phi (INR step / (INR n * vr))%R))%C))) with (sideband_intensity n (fun s => cis (Phi (INR s / (INR n * vr))%R)) (Z.to_nat (k mod Z.of_nat n))) in Q.
    unfold Rdiv in *. rewrite !Rmult_plus_distr_r in *. lra.
Qed.
Lemma points fourth B0 sites cps ns lv lv' al be th vr mean Phi int B n : 0 < vr -> (0 < n)%nat -> signal fourth B0 sites cps ns lv lv' al be th vr mean Phi int B ->
  cis (Phi (INR n / (INR n * vr))) = cis (Phi (INR 0 / (INR n * vr))) /\ forall j, (j < n)%nat -> Rabs (Phi (INR (S j) / (INR n * vr)) - Phi (INR j / (INR n * vr))) <= 2 * PI * B / vr / INR n.
Proof.
  intros V N (M & I & _ & HB). assert (PN : 0 < INR n) by (apply lt_0_INR; auto). pose proof PI_RGT_0 as PP. destruct (closed_phase _ _ _ _ _ _ _ _ _ _ _ _ _ V M I) as [P1 P0]. split.
  - replace (INR n / (INR n * vr)) with (/ vr) by (field; lra). replace (INR 0 / (INR n * vr)) with 0 by (cbn [INR]; unfold Rdiv; ring). rewrite P1, P0. reflexivity.
  - intros j Hj. assert (LE : INR (S j) <= INR n) by (apply le_INR; lia). rewrite S_INR in *. pose proof (pos_INR j) as J0. assert (H0 : 0 < / (INR n * vr)) by (apply Rinv_0_lt_compat, Rmult_lt_0_compat; auto).
    replace (2 * PI * B / vr / INR n) with (2 * PI * B * ((INR j + 1) / (INR n * vr) - INR j / (INR n * vr))) by (field; lra).
    apply (Phi_slope (fun t => 2 * PI * (turning fourth B0 sites cps ns lv lv' al be th vr t - mean)) Phi vr I (2 * PI * B)).
    + intros t Ht. rewrite Rabs_mult, (Rabs_pos_eq (2 * PI)) by lra. apply Rmult_le_compat_l; [lra|]. apply HB; auto.
    + apply Rle_mult_inv_pos; auto. apply Rmult_lt_0_compat; auto.
    + unfold Rdiv. apply Rmult_le_compat_r; lra.
    + apply (Rmult_le_reg_r (INR n * vr)); [apply Rmult_lt_0_compat; auto|]. unfold Rdiv. rewrite Rmult_assoc, Rinv_l, Rmult_1_r by (apply Rgt_not_eq, Rmult_lt_0_compat; auto). replace (/ vr * (INR n * vr)) with (INR n) by (field; lra). exact LE.
Qed.
Lemma scale_eq B vr m : 0 < vr -> (0 < m)%nat -> 2 * PI * B / vr / (PI * INR m) = 2 * B / (INR m * vr).
Proof. intros V M. assert (0 < INR m) by (apply lt_0_INR; auto). pose proof PI_RGT_0. field. lra. Qed.

(** ** C125 *)
(** Sidebands of order m and more: for any such orders, positive or negative. *)
Theorem C125_tail : forall (fourth : bool) (B0 : R) (sites : list site) (couplings : list coupling) (ns levels levels' : list nat) (alpha beta theta vr mean : R) (Phi : R -> R) (intensity : BinNums.Z -> R) (B : R) (m : nat) (orders : list BinNums.Z),
  0 < vr -> signal fourth B0 sites couplings ns levels levels' alpha beta theta vr mean Phi intensity B -> (0 < m)%nat -> NoDup orders -> (forall k, In k orders -> (Z.of_nat m <= Z.abs k)%Z) ->
  together intensity orders <= (2 * B / (INR m * vr)) ^ 2.
Proof.
  intros fourth B0 sites cps ns lv lv' al be th vr mean Phi int B m ks V Sg M ND H. destruct Sg as (Mn & I & HI & HB). pose proof PI_RGT_0 as PP.
  destruct (sums_close (fun t => 2 * PI * (turning fourth B0 sites cps ns lv lv' al be th vr t - mean)) Phi vr (2 * PI * B) int ks V I ltac:(intros t Ht; cbv beta; rewrite Rabs_mult, (Rabs_pos_eq (2 * PI)) by lra; apply Rmult_le_compat_l; [lra|apply HB; auto]) HI) as (S & HS).
  set (mx := fold_right (fun k q => (Z.abs k + q)%Z) 0%Z ks).
  assert (MX : forall k, In k ks -> (Z.abs k <= mx)%Z) by (unfold mx; clear; induction ks as [|k ks IH]; [contradiction|]; intros j [->|H]; cbn [fold_right]; [|specialize (IH j H)]; assert (0 <= fold_right (fun k m => (Z.abs k + m)%Z) 0%Z ks)%Z by (clear; induction ks; cbn [fold_right]; lia); lia).
  apply (below_limit _ _ S (Z.to_nat (2 * mx + 1))). intros n Hn N. specialize (HS n N). apply Rcomplements.Rabs_le_between in HS.
  destruct (points fourth B0 sites cps ns lv lv' al be th vr mean Phi int B n V N (conj Mn (conj I (conj HI HB)))) as [CL ST].
  pose proof (tail_bound n (fun s => Phi (INR s / (INR n * vr))) (2 * PI * B / vr) N CL ST m ks M ND ltac:(intros k Hk; split; [auto|specialize (MX k Hk); lia])) as T. rewrite scale_eq in T by auto. cbv beta in T, HS. lra.
Qed.
Print Assumptions C125_tail.
(** So the sidebands of order below m contain all the rest, and those of all orders the whole intensity. *)
Theorem C125_kept : forall (fourth : bool) (B0 : R) (sites : list site) (couplings : list coupling) (ns levels levels' : list nat) (alpha beta theta vr mean : R) (Phi : R -> R) (intensity : BinNums.Z -> R) (B : R) (m : nat) (orders : list BinNums.Z),
  0 < vr -> signal fourth B0 sites couplings ns levels levels' alpha beta theta vr mean Phi intensity B -> (0 < m)%nat -> NoDup orders -> (forall k, (Z.abs k < Z.of_nat m)%Z -> In k orders) ->
  1 - (2 * B / (INR m * vr)) ^ 2 <= together intensity orders <= 1.
Proof.
  intros fourth B0 sites cps ns lv lv' al be th vr mean Phi int B m ks V Sg M ND H. destruct Sg as (Mn & I & HI & HB). pose proof PI_RGT_0 as PP. assert (HM : forall t, 0 <= t <= / vr -> Rabs (2 * PI * (turning fourth B0 sites cps ns lv lv' al be th vr t - mean)) <= 2 * PI * B) by (intros t Ht; rewrite Rabs_mult, (Rabs_pos_eq (2 * PI)) by lra; apply Rmult_le_compat_l; [lra|apply HB; auto]).
  split; [|apply (C124_total _ Phi vr (2 * PI * B) int ks V I HM HI ND)].
  destruct (sums_close (fun t => 2 * PI * (turning fourth B0 sites cps ns lv lv' al be th vr t - mean)) Phi vr (2 * PI * B) int ks V I HM HI) as (S & HS).
  apply (below_limit _ _ S (2 * m)). intros n Hn N. specialize (HS n N). apply Rcomplements.Rabs_le_between in HS.
  destruct (points fourth B0 sites cps ns lv lv' al be th vr mean Phi int B n V N (conj Mn (conj I (conj HI HB)))) as [CL ST].
  pose proof (kept_bound n (fun s => Phi (INR s / (INR n * vr))) (2 * PI * B / vr) N CL ST m ks M ltac:(lia) H) as T. rewrite scale_eq in T by auto. cbv beta in T, HS. lra.
Qed.
Print Assumptions C125_kept.
Theorem C125_all : forall (fourth : bool) (B0 : R) (sites : list site) (couplings : list coupling) (ns levels levels' : list nat) (alpha beta theta vr mean : R) (Phi : R -> R) (intensity : BinNums.Z -> R) (B : R),
  0 < vr -> signal fourth B0 sites couplings ns levels levels' alpha beta theta vr mean Phi intensity B ->
  forall eps, 0 < eps -> exists m : nat, forall orders : list BinNums.Z, NoDup orders -> (forall k, (Z.abs k < Z.of_nat m)%Z -> In k orders) -> Rabs (together intensity orders - 1) <= eps.
Proof.
  intros fourth B0 sites cps ns lv lv' al be th vr mean Phi int B V Sg eps He.
  assert (D0 : 0 < eps / ((2 * B / vr) ^ 2 + 1)) by (apply Rdiv_lt_0_compat; [auto|]; pose proof (pow2_ge_0 (2 * B / vr)); lra). destruct (archimed_cor1 _ D0) as (m & Hm & M). exists m. intros ks ND H.
  destruct (C125_kept fourth B0 sites cps ns lv lv' al be th vr mean Phi int B m ks V Sg M ND H) as [L U]. apply Rcomplements.Rabs_le_between. split; [|lra].
  enough ((2 * B / (INR m * vr)) ^ 2 <= eps) by lra. assert (PM : 1 <= INR m) by (change 1 with (INR 1); apply le_INR; lia). replace ((2 * B / (INR m * vr)) ^ 2) with ((2 * B / vr) ^ 2 * / INR m * / INR m) by (field; lra).
  set (q := (2 * B / vr) ^ 2) in *. assert (Q0 : 0 <= q) by apply pow2_ge_0. assert (I1 : / INR m <= 1) by (rewrite <- Rinv_1; apply Rinv_le_contravar; lra). assert (I0 : 0 < / INR m) by (apply Rinv_0_lt_compat; lra).
  assert (E : eps / (q + 1) * (q + 1) = eps) by (field; lra). set (y := eps / (q + 1)) in *. assert (q * / INR m <= q * y) by (apply Rmult_le_compat_l; lra). assert (0 <= q * / INR m) by (apply Rmult_le_pos; lra). assert (q * / INR m * / INR m <= q * / INR m * 1) by (apply Rmult_le_compat_l; lra). lra.
Qed.
Print Assumptions C125_all.
(** The simulation: the orders below m are among the sidebands it computes when 2 m - 1 <= nsb, and what it puts there is at least the whole intensity less the tail, and less the tolerance of the constants for each. *)
Theorem C125_code_partial : forall (sc : scheme) (B0 : R) (sites : list site) (couplings : list coupling) (ns levels levels' : list nat) (more : list R) (flags : list bool) (alpha beta theta vr : R),
  sites_fine (sc_fourth sc) B0 sites ns levels levels' -> couplings_fine couplings (length sites) ->
  (forall b, In b flags -> b = true) -> (flags_needed (sc_fourth sc) sites (states ns levels) (states ns levels') <= length flags)%nat -> 0 < vr ->
  exists (c : comps) (mean : R) (Phi : R -> R) (intensity : BinNums.Z -> R) (B : R),
    event_components decimal_f (sc_fourth sc) B0 sites couplings (states ns levels ++ states ns levels' ++ more) flags = Some c /\
    signal (sc_fourth sc) B0 sites couplings ns levels levels' alpha beta theta vr mean Phi intensity B /\
    forall (B' : R) (nsb m : nat) (orders : list BinNums.Z), signal (sc_fourth sc) B0 sites couplings ns levels levels' alpha beta theta vr mean Phi intensity B' -> (0 < m)%nat -> (2 * m <= nsb + 1)%nat -> (forall k, (Z.abs k < Z.of_nat m)%Z -> In k orders) ->
    1 - (2 * B' / (INR m * vr)) ^ 2 - INR (length orders) * (4.4e-5 + 40 * PI * system_tolerance (sc_fourth sc) B0 sites couplings ns levels levels' / vr) <=
    together (fun k => event_amplitude (create_plan sc nsb vr theta) (in_rotor 2 alpha beta (r2 c)) (in_rotor 4 alpha beta (r4 c)) (Z.to_nat (k mod Z.of_nat nsb)) / INR nsb ^ 2) orders.
Proof.
  intros sc B0 sites cps ns lv lv' more flags al be th vr F G T NF V.
  destruct (C124_intensity_partial sc B0 sites cps ns lv lv' more flags al be th vr F G T NF V) as (c & mean & Phi & int & CA & M & I & HI & _). cbv zeta in M, I.
  destruct (C124_bounded (sc_fourth sc) B0 sites cps ns lv lv' al be th vr mean F G V) as (B & _ & HB). exists c, mean, Phi, int, B. split; [exact CA|]. split; [exact (conj M (conj I (conj HI HB)))|].
  intros B' nsb m ks Sg Hm Hn H. assert (N : (0 < nsb)%nat) by lia.
  destruct (points _ _ _ _ _ _ _ _ _ _ _ _ _ _ _ nsb V N Sg) as [CL ST].
  pose proof (kept_bound nsb (fun s => Phi (INR s / (INR nsb * vr))) (2 * PI * B' / vr) N CL ST m ks Hm ltac:(lia) H) as K. rewrite scale_eq in K by auto. cbv beta in K.
  destruct (C111_intensity_partial sc B0 sites cps ns lv lv' more flags al be th vr nsb F G T NF V N) as (c' & mean' & Phi' & CA' & M' & I' & D).
  assert (c' = c) by congruence. subst c'. cbv zeta in M', I'. assert (mean' = mean) by (eapply mean_unique; eauto). subst mean'.
  assert (EP : forall s, Phi' s = Phi (INR s / (INR nsb * vr))).
  { intros s. transitivity (RInt (fun t => 2 * PI * (turning (sc_fourth sc) B0 sites cps ns lv lv' al be th vr t - mean)) 0 (INR s / (INR nsb * vr))); [symmetry; apply (is_RInt_unique (V := R_CompleteNormedModule)); exact (I' s)|apply (is_RInt_unique (V := R_CompleteNormedModule)); exact (I _)]. }
  set (tol := 4.4e-5 + 40 * PI * system_tolerance (sc_fourth sc) B0 sites cps ns lv lv' / vr) in *.
  assert (D' : forall i, sideband_intensity nsb (fun s => cis (Phi (INR s / (INR nsb * vr)))) i / INR nsb ^ 2 - tol <= event_amplitude (create_plan sc nsb vr th) (in_rotor 2 al be (r2 c)) (in_rotor 4 al be (r4 c)) i / INR nsb ^ 2).
  { intros i. specialize (D i). apply Rcomplements.Rabs_le_between in D. change (abs2 (csum nsb (fun step => (cis (- (2 * PI) * (INR step * INR i) / INR nsb) * cis (Phi' step))%C))) with (sideband_intensity nsb (fun s => cis (Phi' s)) i) in D.
    replace (sideband_intensity nsb (fun s => cis (Phi (INR s / (INR nsb * vr)))) i) with (sideband_intensity nsb (fun s => cis (Phi' s)) i) by (unfold sideband_intensity; f_equal; apply csum_ext; intros; rewrite EP; reflexivity). lra. }
  clearbody tol. clear - K D'. eapply Rle_trans; [apply Rplus_le_compat_r, K|]. clear K. unfold together. induction ks as [|k ks IH]; cbn [map fold_right length]; [cbn [INR]; lra|]. rewrite S_INR. specialize (D' (Z.to_nat (k mod Z.of_nat nsb))). unfold Rminus in *. rewrite Rmult_plus_distr_r. lra.
Qed.
Print Assumptions C125_code_partial.
(** The hypotheses are met: two spins with a quadrupolar tensor, a shift and a coupling at 10 kHz have such a signal, and 7 orders are those below 4. *)
Example C125_example : 0 < 10000 /\ (exists mean Phi intensity B, signal true (94 / 10) [sodium; proton 1] [bond] [3; 1]%nat [2; 0]%nat [1; 0]%nat 1 1 1 10000 mean Phi intensity B) /\
  NoDup [-3; -2; -1; 0; 1; 2; 3]%Z /\ (forall k, (Z.abs k < Z.of_nat 4)%Z -> In k [-3; -2; -1; 0; 1; 2; 3]%Z) /\ NoDup [-9; 4; 5]%Z /\ (forall k, In k [-9; 4; 5]%Z -> (Z.of_nat 4 <= Z.abs k)%Z) /\ (2 * 4 <= 8 + 1)%nat.
Proof.
  destruct C111_example as (F & G & N & V & _). split; [lra|]. split.
  - destruct (C125_code_partial {| sc_npts := 1; sc_octants := 1; sc_fourth := true; sc_weights := fun _ => 1; sc_beta := fun _ => RtoC 1 |} (94 / 10) [sodium; proton 1] [bond] [3; 1]%nat [2; 0]%nat [1; 0]%nat [] (repeat true 20) 1 1 1 10000 F G ltac:(intros b Hb; apply repeat_spec in Hb; auto) N V) as (c & mean & Phi & int & B & _ & Sg & _). exists mean, Phi, int, B. exact Sg.
  - split; [repeat constructor; cbn; lia|]. split; [intros k Hk; cbn; lia|]. split; [repeat constructor; cbn; lia|]. split; [intros k [<-|[<-|[<-|[]]]]; lia|lia].
Qed.
