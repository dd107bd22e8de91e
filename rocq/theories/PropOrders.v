(** C124: as their number grows, the intensities of the spinning sidebands go to the Fourier coefficients of the signal of the turning rotor. *)
From Coq Require Import Reals List ZArith Lra Lia Bool Psatz.
From Coquelicot Require Import Coquelicot.
From Verif Require Import DftModel DftProofs WignerMatrix WignerModel WignerSpec WignerNorm FreqModel FreqSpec FreqProofs CoreProofs TableProofs PropFreq.
From Verif Require Import PhysSpec PhysLevels PhysEvent PhysSide PropPhys PropSide SphereRiemann InducedProofs SideLimit.
From Coq Require Import Lra.
Import ListNotations.
Open Scope R_scope.

(** The energies while the rotor turns, as a function of the time: the rotor of frequency vr has turned by - 2 pi vr t. *)
Definition turning (fourth : bool) (B0 : R) (sites : list site) (couplings : list coupling) (ns levels levels' : list nat) (alpha beta theta vr t : R) : R :=
  let phi := - (2 * PI * vr * t) in
  system_level fourth B0 sites couplings (rotor_frame alpha beta phi theta) ns levels' - system_level fourth B0 sites couplings (rotor_frame alpha beta phi theta) ns levels.
(** The intensity of the sideband of order k of a signal exp (i Phi t) of period 1 / vr: the square of the modulus of its Fourier coefficient. *)
Definition order_intensity (Phi : R -> R) (vr : R) (k : BinNums.Z) (v : R) : Prop :=
  exists re im, is_RInt (fun t => vr * cos (Phi t - 2 * PI * IZR k * vr * t)) 0 (/ vr) re /\ is_RInt (fun t => vr * sin (Phi t - 2 * PI * IZR k * vr * t)) 0 (/ vr) im /\ v = re * re + im * im.

Lemma turning_integrable fourth B0 sites cps ns lv lv' al be th vr mean a b : sites_fine fourth B0 sites ns lv lv' -> couplings_fine cps (length sites) ->
  ex_RInt (fun t => 2 * PI * (turning fourth B0 sites cps ns lv lv' al be th vr t - mean)) a b.
Proof.
  intros F G. pose proof (side_int_system fourth B0 sites cps ns lv lv' al be th vr F G a b) as I. cbv zeta in I. match type of I with ex_RInt (fun t => 2 * PI * (_ - _ - ?m)) _ _ => set (m0 := m) in * end.
  eapply ex_RInt_ext; [|exact (ex_RInt_plus (V := R_NormedModule) _ _ _ _ I (ex_RInt_const (V := R_NormedModule) a b (2 * PI * (m0 - mean))))]. intros t _. unfold turning. unfold plus; cbn. match goal with |- ?x = ?y => change (@eq R x y) end. ring.
Qed.
Lemma rint_eq (f : R -> R) a b (v w : R) : v = w -> is_RInt f a b v -> is_RInt f a b w. Proof. intros ->. auto. Qed.
Lemma filter_all (p : nat -> bool) l : (forall j, In j l -> p j = true) -> filter p l = l.
Proof. induction l as [|i l IH]; intros H; [reflexivity|]. cbn [filter]. rewrite H by (left; auto). f_equal. apply IH. intros; apply H; right; auto. Qed.
Lemma nodup_map {A} (f : A -> nat) l : (forall a b, In a l -> In b l -> f a = f b -> a = b) -> NoDup l -> NoDup (map f l).
Proof.
  induction l as [|a l IH]; intros H ND; [constructor|]. apply NoDup_cons_iff in ND as [NI ND]. cbn [map]. constructor.
  - intros Hin. apply in_map_iff in Hin as (b & E & Hb). apply NI. rewrite (H a b) by (cbn; auto). exact Hb.
  - apply IH; auto. intros; apply H; cbn; auto.
Qed.
Lemma some_of_all (f : nat -> R) n : forall l, (forall i, 0 <= f i) -> (forall i, In i l -> (i < n)%nat) -> NoDup l -> fold_right Rplus 0 (map f l) <= rsum n f.
Proof.
  induction n as [|n IH]; intros l P L ND.
  - destruct l as [|i l]; [cbn; lra|]. specialize (L i (or_introl eq_refl)). lia.
  - cbn [rsum]. assert (A : fold_right Rplus 0 (map f l) <= fold_right Rplus 0 (map f (filter (fun i => negb (Nat.eqb i n)) l)) + f n).
    { clear IH L. induction l as [|i l IH]; cbn [map fold_right filter]; [pose proof (P n); lra|]. apply NoDup_cons_iff in ND as [NI ND]. destruct (Nat.eqb_spec i n) as [->|NE]; cbn [negb map fold_right]; [|specialize (IH ND); lra].
      rewrite (filter_all (fun i => negb (Nat.eqb i n)) l); [lra|]. intros j Hj. destruct (Nat.eqb_spec j n); [subst; contradiction|reflexivity]. }
    eapply Rle_trans; [exact A|]. apply Rplus_le_compat_r. apply IH; auto; [|apply NoDup_filter; auto]. intros i Hi. apply filter_In in Hi as [Hi E]. specialize (L i Hi). destruct (Nat.eqb_spec i n); [discriminate|lia].
Qed.
(** For the sideband of order k, at place k mod nsb of the transform of nsb points; B is a bound of how far the difference of the energies goes from its mean in a turn. *)
Theorem C124_intensity_partial : forall (sc : scheme) (B0 : R) (sites : list site) (couplings : list coupling) (ns levels levels' : list nat) (more : list R) (flags : list bool) (alpha beta theta vr : R),
  sites_fine (sc_fourth sc) B0 sites ns levels levels' -> couplings_fine couplings (length sites) ->
  (forall b, In b flags -> b = true) -> (flags_needed (sc_fourth sc) sites (states ns levels) (states ns levels') <= length flags)%nat -> 0 < vr ->
  exists (c : comps) (mean : R) (Phi : R -> R) (intensity : BinNums.Z -> R),
    event_components decimal_f (sc_fourth sc) B0 sites couplings (states ns levels ++ states ns levels' ++ more) flags = Some c /\
    let E := turning (sc_fourth sc) B0 sites couplings ns levels levels' alpha beta theta vr in
    mean_over_turn (fun phi => system_level (sc_fourth sc) B0 sites couplings (rotor_frame alpha beta phi theta) ns levels' - system_level (sc_fourth sc) B0 sites couplings (rotor_frame alpha beta phi theta) ns levels) mean /\
    (forall t, is_RInt (fun t => 2 * PI * (E t - mean)) 0 t (Phi t)) /\ (forall k, order_intensity Phi vr k (intensity k)) /\
    forall (B : R) (nsb : nat) (k : BinNums.Z), (forall t, 0 <= t <= / vr -> Rabs (E t - mean) <= B) -> (0 < nsb)%nat ->
    Rabs (event_amplitude (create_plan sc nsb vr theta) (in_rotor 2 alpha beta (r2 c)) (in_rotor 4 alpha beta (r4 c)) (Z.to_nat (k mod Z.of_nat nsb)) / INR nsb ^ 2 - intensity k)
    <= 4.4e-5 + 40 * PI * system_tolerance (sc_fourth sc) B0 sites couplings ns levels levels' / vr + 8 * PI * (B / vr + Rabs (IZR k)) / INR nsb.
Proof.
  intros sc B0 sites cps ns lv lv' more flags al be th vr F G T NF V. assert (IV : 0 < / vr) by (apply Rinv_0_lt_compat; auto). pose proof PI_RGT_0 as PP.
  destruct (C111_intensity_partial sc B0 sites cps ns lv lv' more flags al be th vr 1 F G T NF V ltac:(lia)) as (c & mean & _ & CA & M & _ & _).
  set (W := fun t => 2 * PI * (turning (sc_fourth sc) B0 sites cps ns lv lv' al be th vr t - mean)).
  assert (IW : forall t, is_RInt W 0 t (RInt W 0 t)) by (intros t; apply (RInt_correct (V := R_CompleteNormedModule)), turning_integrable; auto). set (Phi := fun t => RInt W 0 t) in *.
  assert (EX : forall k, exists v, order_intensity Phi vr k v) by (intros k; destruct (coefficient_exists W Phi vr k IW) as (re & im & HR & HI); exists (re * re + im * im), re, im; auto).
  set (int (k : BinNums.Z) := RInt (fun t => vr * cos (Phi t - 2 * PI * IZR k * vr * t)) 0 (/ vr) * RInt (fun t => vr * cos (Phi t - 2 * PI * IZR k * vr * t)) 0 (/ vr) + RInt (fun t => vr * sin (Phi t - 2 * PI * IZR k * vr * t)) 0 (/ vr) * RInt (fun t => vr * sin (Phi t - 2 * PI * IZR k * vr * t)) 0 (/ vr)).
  exists c, mean, Phi, int. split; [exact CA|]. cbv zeta. split; [|split; [exact IW|split]].
  - exact M.
  - intros k. destruct (EX k) as (v & re & im & HR & HI & ->). exists re, im. split; auto. split; auto. unfold int. rewrite (is_RInt_unique (V := R_CompleteNormedModule) _ _ _ _ HR), (is_RInt_unique (V := R_CompleteNormedModule) _ _ _ _ HI). reflexivity.
  - intros B nsb k HB N. destruct (C111_intensity_partial sc B0 sites cps ns lv lv' more flags al be th vr nsb F G T NF V N) as (c' & mean' & Phi' & CA' & M' & I' & D).
    assert (c' = c) by congruence. subst c'. cbv zeta in M, M', I'. assert (mean' = mean) by (eapply mean_unique; eauto). subst mean'.
    assert (EP : forall s, Phi' s = Phi (INR s / (INR nsb * vr))). { intros s. symmetry. apply (is_RInt_unique (V := R_CompleteNormedModule)). exact (I' s). }
    specialize (D (Z.to_nat (k mod Z.of_nat nsb))).
    assert (EC : csum nsb (fun step => cis (- (2 * PI) * (INR step * INR (Z.to_nat (k mod Z.of_nat nsb))) / INR nsb) * cis (Phi' step))%C = csum nsb (fun step => cis (- (2 * PI) * (INR step * INR (Z.to_nat (k mod Z.of_nat nsb))) / INR nsb) * cis (Phi (INR step / (INR nsb * vr))%R))%C) by (apply csum_ext; intros; rewrite EP; reflexivity).
    rewrite EC in D. destruct (EX k) as (v & re & im & HR & HI & Ev).
    pose proof (coefficient_close W Phi vr k V IW (2 * PI * B) nsb re im ltac:(intros t Ht; unfold W; rewrite Rabs_mult, (Rabs_pos_eq (2 * PI)) by lra; apply Rmult_le_compat_l; [lra|apply HB; auto]) N HR HI) as Q.
    unfold int. rewrite (is_RInt_unique (V := R_CompleteNormedModule) _ _ _ _ HR), (is_RInt_unique (V := R_CompleteNormedModule) _ _ _ _ HI).
    match type of D with Rabs (?a - ?b) <= ?e => match type of Q with Rabs (_ - ?d) <= ?f => replace (a - d) with ((a - b) + (b - d)) by ring; eapply Rle_trans; [apply Rabs_triang|]; replace (8 * PI * (B / vr + Rabs (IZR k)) / INR nsb) with f by (assert (0 < INR nsb) by (apply lt_0_INR; auto); field; lra) end end.
    apply Rplus_le_compat; assumption.
Qed.
Print Assumptions C124_intensity_partial.
(** Such a bound exists, so that the sideband of every order converges as one over the number of sidebands, to the tolerance of the constants. *)
Theorem C124_bounded : forall (fourth : bool) (B0 : R) (sites : list site) (couplings : list coupling) (ns levels levels' : list nat) (alpha beta theta vr mean : R),
  sites_fine fourth B0 sites ns levels levels' -> couplings_fine couplings (length sites) -> 0 < vr ->
  exists B, 0 <= B /\ forall t, 0 <= t <= / vr -> Rabs (turning fourth B0 sites couplings ns levels levels' alpha beta theta vr t - mean) <= B.
Proof.
  intros fourth B0 sites cps ns lv lv' al be th vr mean F G V. destruct (ex_RInt_ub (V := R_NormedModule) _ 0 (/ vr) (turning_integrable fourth B0 sites cps ns lv lv' al be th vr mean 0 (/ vr) F G)) as [M HM].
  assert (IV : 0 < / vr) by (apply Rinv_0_lt_compat; auto). rewrite Rmin_left, Rmax_right in HM by lra. pose proof PI_RGT_0 as PP.
  assert (Q : forall t, 0 <= t <= / vr -> Rabs (turning fourth B0 sites cps ns lv lv' al be th vr t - mean) <= M / (2 * PI)).
  { intros t Ht. specialize (HM t Ht). change (Rabs (2 * PI * (turning fourth B0 sites cps ns lv lv' al be th vr t - mean)) <= M) in HM. rewrite Rabs_mult, (Rabs_pos_eq (2 * PI)) in HM by lra. apply Rle_div_r; [lra|]. lra. }
  exists (M / (2 * PI)). split; auto. eapply Rle_trans; [apply Rabs_pos|apply (Q 0)]. lra.
Qed.
Print Assumptions C124_bounded.
(** The intensities of the specification are functions of the signal, lie from 0 to 1, and those of any orders are at most 1 together. *)
Theorem C124_unique : forall (Phi : R -> R) (vr : R) (k : BinNums.Z) (v v' : R), order_intensity Phi vr k v -> order_intensity Phi vr k v' -> v = v'.
Proof.
  intros Phi vr k v v' (re & im & HR & HI & ->) (re' & im' & HR' & HI' & ->). rewrite <- (is_RInt_unique (V := R_CompleteNormedModule) _ _ _ _ HR), <- (is_RInt_unique (V := R_CompleteNormedModule) _ _ _ _ HI), <- (is_RInt_unique (V := R_CompleteNormedModule) _ _ _ _ HR'), <- (is_RInt_unique (V := R_CompleteNormedModule) _ _ _ _ HI'). reflexivity.
Qed.
Print Assumptions C124_unique.
Theorem C124_total : forall (W Phi : R -> R) (vr M : R) (intensity : BinNums.Z -> R) (orders : list BinNums.Z), 0 < vr -> (forall t, is_RInt W 0 t (Phi t)) -> (forall t, 0 <= t <= / vr -> Rabs (W t) <= M) ->
  (forall k, order_intensity Phi vr k (intensity k)) -> NoDup orders -> 0 <= fold_right Rplus 0 (map intensity orders) <= 1.
Proof.
  intros W Phi vr M int ks V HW HM HI ND. split.
  - induction ks as [|k ks IH]; cbn [map fold_right]; [lra|]. apply NoDup_cons_iff in ND as [_ ND]. specialize (IH ND). destruct (HI k) as (re & im & _ & _ & ->). nra.
  - set (S := fold_right (fun k r => 4 * (M / vr + 2 * PI * Rabs (IZR k)) + r) 0 ks). set (mx := fold_right (fun k m => (Z.abs k + m)%Z) 0%Z ks).
    assert (MX : forall k, In k ks -> (Z.abs k <= mx)%Z) by (unfold mx; clear; induction ks as [|k ks IH]; [contradiction|]; intros j [->|H]; cbn [fold_right]; [|specialize (IH j H)]; assert (0 <= fold_right (fun k m => (Z.abs k + m)%Z) 0%Z ks)%Z by (clear; induction ks; cbn [fold_right]; lia); lia).
    assert (Q : forall n, (2 * mx < Z.of_nat n)%Z -> (0 < n)%nat -> fold_right Rplus 0 (map int ks) <= 1 + S / INR n).
    { intros n Hn N. assert (PN : 0 < INR n) by (apply lt_0_INR; auto). set (x := fun s : nat => cis (Phi (INR s / (INR n * vr))%R)). set (ix := fun k => Z.to_nat (k mod Z.of_nat n)).
      assert (A : fold_right Rplus 0 (map int ks) <= fold_right Rplus 0 (map (fun i => sideband_intensity n x i / INR n ^ 2) (map ix ks)) + S / INR n).
      { unfold S. clear ND MX S. clearbody mx. induction ks as [|k ks IH]; cbn [map fold_right]; [unfold Rdiv; lra|]. destruct (HI k) as (re & im & HR & HJ & Ek).
        pose proof (coefficient_close W Phi vr k V HW M n re im HM N HR HJ) as C. rewrite <- Ek in C. change (Rabs (sideband_intensity n x (ix k) / INR n ^ 2 - int k) <= 4 * ((M / vr + 2 * PI * Rabs (IZR k)) / INR n)) in C. apply Rcomplements.Rabs_le_between in C.
        unfold Rdiv in *. rewrite Rmult_plus_distr_r. lra. }
      assert (B : fold_right Rplus 0 (map (fun i => sideband_intensity n x i / INR n ^ 2) (map ix ks)) <= rsum n (fun i => sideband_intensity n x i / INR n ^ 2)).
      { apply some_of_all.
        - intros i. unfold sideband_intensity, abs2. apply Rle_mult_inv_pos; [nra|]. nra.
        - intros i Hi. apply in_map_iff in Hi as (k & <- & _). unfold ix. pose proof (Z.mod_pos_bound k (Z.of_nat n) ltac:(lia)). lia.
        - apply nodup_map; [|exact ND]. intros a b Ha Hb E. unfold ix in E. apply Z2Nat.inj in E; [|apply Z.mod_pos_bound; lia..]. pose proof (MX a Ha). pose proof (MX b Hb).
          pose proof (Z.div_mod a (Z.of_nat n) ltac:(lia)). pose proof (Z.div_mod b (Z.of_nat n) ltac:(lia)). assert (D : (a - b = Z.of_nat n * (a / Z.of_nat n - b / Z.of_nat n))%Z) by lia. assert (a / Z.of_nat n - b / Z.of_nat n = 0)%Z by nia. lia. }
      assert (P : rsum n (fun i => sideband_intensity n x i / INR n ^ 2) = 1).
      { unfold Rdiv. rewrite (rsum_ext n _ (fun i => / INR n ^ 2 * sideband_intensity n x i)) by (intros; ring). rewrite rsum_scal, parseval by auto. rewrite (rsum_ext n _ (fun _ => 1)) by (intros; apply cis_unit). rewrite rsum_const. field. lra. }
      lra. }
    destruct (Rle_lt_dec (fold_right Rplus 0 (map int ks)) 1) as [|LT]; auto. exfalso. set (d := fold_right Rplus 0 (map int ks) - 1).
    assert (S0 : 0 <= S). { unfold S. clear - HM V. assert (0 < / vr) by (apply Rinv_0_lt_compat; auto). assert (0 <= M) by (eapply Rle_trans; [apply Rabs_pos|apply (HM 0)]; lra). induction ks as [|k ks IH]; cbn [fold_right]; [lra|]. pose proof PI_RGT_0. pose proof (Rabs_pos (IZR k)). assert (0 <= M / vr) by (apply Rle_mult_inv_pos; auto). nra. }
    destruct (archimed_cor1 (d / (S + 1))) as (n & Hn & Hp); [apply Rdiv_lt_0_compat; unfold d; lra|]. set (m := (n + Z.to_nat (2 * mx + 1))%nat). specialize (Q m ltac:(unfold m; lia) ltac:(unfold m; lia)).
    assert (In0 : 0 < INR n) by (apply lt_0_INR; auto). assert (IM : / INR m <= / INR n) by (apply Rinv_le_contravar; [auto|apply le_INR; unfold m; lia]). assert (E : d / (S + 1) * (S + 1) = d) by (field; lra).
    assert (S * / INR m <= S * / INR n) by (apply Rmult_le_compat_l; auto). assert (S * / INR n <= S * (d / (S + 1))) by (apply Rmult_le_compat_l; lra). assert (0 < d / (S + 1)) by (apply Rdiv_lt_0_compat; unfold d; lra). unfold Rdiv at 1 in Q. unfold d in *. nra.
Qed.
Print Assumptions C124_total.
Lemma derive_sin (vr w t : R) : w <> 0 -> is_derive (fun t => - (vr / w) * sin (0 - w * t)) t (vr * cos (0 - w * t)).
Proof. intros H. auto_derive; auto. unfold Rminus, Rdiv. field. auto. Qed.
Lemma derive_cos (vr w t : R) : w <> 0 -> is_derive (fun t => vr / w * cos (0 - w * t)) t (vr * sin (0 - w * t)).
Proof. intros H. auto_derive; auto. unfold Rminus, Rdiv. field. auto. Qed.
(** When the energies do not change as the rotor turns, all intensity is in the centreband. *)
Theorem C124_still : forall (vr : R) (k : BinNums.Z), 0 < vr -> order_intensity (fun _ => 0) vr k (if Z.eqb k 0 then 1 else 0).
Proof.
  intros vr k V. destruct (Z.eqb_spec k 0) as [->|NZ].
  - exists 1, 0. split; [|split; [|ring]].
    + apply (rint_eq _ _ _ (scal (/ vr - 0) vr)); [unfold scal; cbn; unfold mult; cbn; field; lra|]. eapply is_RInt_ext; [|apply (is_RInt_const (V := R_NormedModule) 0 (/ vr) vr)]. intros t _. replace (0 - 2 * PI * 0 * vr * t) with 0 by ring. rewrite cos_0. match goal with |- ?x = ?y => change (@eq R x y) end. ring.
    + apply (rint_eq _ _ _ (scal (/ vr - 0) 0)); [unfold scal; cbn; unfold mult; cbn; ring|]. eapply is_RInt_ext; [|apply (is_RInt_const (V := R_NormedModule) 0 (/ vr) 0)]. intros t _. replace (0 - 2 * PI * 0 * vr * t) with 0 by ring. rewrite sin_0. match goal with |- ?x = ?y => change (@eq R x y) end. ring.
  - assert (KZ : IZR k <> 0) by (apply not_0_IZR; auto). pose proof PI_RGT_0 as PP. set (w := 2 * PI * IZR k * vr). assert (W0 : w <> 0) by (unfold w; apply Rmult_integral_contrapositive_currified; [apply Rmult_integral_contrapositive_currified; [lra|exact KZ]|lra]).
    assert (T : w * / vr = 2 * IZR k * PI) by (unfold w; field; lra).
    assert (ZI : forall t, is_RInt (fun _ => 0) 0 t 0) by (intros t; apply (rint_eq _ _ _ (scal (t - 0) 0)); [unfold scal; cbn; unfold mult; cbn; ring|apply (is_RInt_const (V := R_NormedModule))]).
    exists 0, 0. split; [|split; [|ring]].
    + apply (rint_eq _ _ _ (minus (- (vr / w) * sin (0 - w * / vr)) (- (vr / w) * sin (0 - w * 0)))); cycle 1.
      * apply (is_RInt_derive (V := R_CompleteNormedModule) (fun t => - (vr / w) * sin (0 - w * t))); intros t _; [apply derive_sin; auto|]. apply (cos_cont (fun _ => 0) (fun _ => 0) vr k ZI).
      * rewrite T. unfold minus, plus, opp; cbn. replace (0 - 2 * IZR k * PI) with (0 + 2 * IZR (- k) * PI) by (rewrite opp_IZR; ring). pose proof (cis_turns 0 (- k)) as C. apply (f_equal snd) in C. cbn [cis snd] in C. rewrite C. rewrite Rmult_0_r, Rminus_0_r. ring.
    + apply (rint_eq _ _ _ (minus (vr / w * cos (0 - w * / vr)) (vr / w * cos (0 - w * 0)))); cycle 1.
      * apply (is_RInt_derive (V := R_CompleteNormedModule) (fun t => vr / w * cos (0 - w * t))); intros t _; [apply derive_cos; auto|]. apply (sin_cont (fun _ => 0) (fun _ => 0) vr k ZI).
      * rewrite T. unfold minus, plus, opp; cbn. replace (0 - 2 * IZR k * PI) with (0 + 2 * IZR (- k) * PI) by (rewrite opp_IZR; ring). pose proof (cis_turns 0 (- k)) as C. apply (f_equal fst) in C. cbn [cis fst] in C. rewrite C. rewrite Rmult_0_r, Rminus_0_r. ring.
Qed.
Print Assumptions C124_still.
(** Cases: the sodium and proton of C109, coupled, at a rotor frequency of 10 kHz; and a signal that does not change, whose orders -1, 0 and 1 have the intensity 1 together. *)
Example C124_example : sites_fine true (94 / 10) [sodium; proton 1] [3; 1]%nat [2; 0]%nat [1; 0]%nat /\ couplings_fine [bond] (length [sodium; proton 1]) /\
  (forall b, In b (repeat true 20) -> b = true) /\ (flags_needed true [sodium; proton 1] (states [3; 1]%nat [2; 0]%nat) (states [3; 1]%nat [1; 0]%nat) <= length (repeat true 20))%nat /\ 0 < 10000 /\
  (exists B, forall t, 0 <= t <= / 10000 -> Rabs (turning true (94 / 10) [sodium; proton 1] [bond] [3; 1]%nat [2; 0]%nat [1; 0]%nat 1 1 1 10000 t - 0) <= B).
Proof.
  destruct C111_example as (F & G & N & V & _). split; [exact F|]. split; [exact G|]. split; [intros b Hb; apply repeat_spec in Hb; auto|]. split; [exact N|]. split; [exact V|].
  destruct (C124_bounded true (94 / 10) [sodium; proton 1] [bond] [3; 1]%nat [2; 0]%nat [1; 0]%nat 1 1 1 10000 0 F G V) as (B & _ & HB). exists B. exact HB.
Qed.
Example C124_total_example : let intensity (k : BinNums.Z) := if Z.eqb k 0 then 1 else 0 in (forall t, is_RInt (fun _ => 0) 0 t 0) /\ (forall k, order_intensity (fun _ => 0) 2 k (intensity k)) /\ NoDup [-1; 0; 1]%Z /\ fold_right Rplus 0 (map intensity [-1; 0; 1]%Z) = 1.
Proof.
  cbv zeta. split; [intros t; apply (rint_eq _ _ _ (scal (t - 0) 0)); [unfold scal; cbn; unfold mult; cbn; ring|apply (is_RInt_const (V := R_NormedModule))]|]. split; [intros k; apply C124_still; lra|]. split; [repeat constructor; cbn; lia|cbn; lra].
Qed.
