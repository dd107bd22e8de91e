(** C123: the shape of a pattern of spinning sidebands goes to that of the intensities and frequencies over all directions. *)
From Coq Require Import Reals QArith Qreals List ZArith Lia Bool.
From Coquelicot Require Import Coquelicot.
From Verif Require PropFreq PropAverage.
From Verif Require Import InterpModel InterpSpec PowderModel WalkProofs DftModel DftProofs FreqModel PhysSpec PhysLevels FreqSpec.
From Verif Require Import AverageSpec AverageProofs AverageCentre SphereSpec SphereChange SphereProofs SpherePhys PropSphere InducedSpec InducedProofs PropInduced ShapeSpec ShapeProofs ShapeClose PropShape SidebandLimit.
From Coq Require Import Lra.
Import ListNotations.
Open Scope R_scope.

(** The pattern of the specification: sideband i has the intensity w i u at the direction u, at the position offset i + g u.  Seen through F, averaged over the directions of the upper half of the sphere. *)
Definition sideband_shape (nsb : nat) (F : R -> R) (w : nat -> (axis -> R) -> R) (offset : nat -> R) (g : (axis -> R) -> R) : R :=
  fold_right Rplus 0 (map (fun i => hemisphere_average (fun u => w i u * F (offset i + g u))) (seq 0 nsb)).
(** Intensities: not negative, one together, and of slope at most M. *)
Definition intensities (nsb : nat) (w : nat -> (axis -> R) -> R) (M : R) : Prop :=
  (forall i, (i < nsb)%nat -> slope (w i) M) /\ (forall i u, (i < nsb)%nat -> unit_vector u -> 0 <= w i u) /\ (forall u, unit_vector u -> fold_right Rplus 0 (map (fun i => w i u) (seq 0 nsb)) = 1).
(** A run of the averaging with nsb sidebands that lies in the window, with the weights of the scheme to eta, frequencies to eps and intensities to epsw. *)
Definition sideband_run (nt nsb : nat) (alpha beta : nat -> R) (g : (axis -> R) -> R) (w : nat -> (axis -> R) -> R) (offset_0 : Q) (vr freq norm sb : nat -> Q) (count : BinNums.Z) (kappa eta eps epsw : R) (out : writes) : Prop :=
  (1 <= nt)%nat /\ polar_angles nt alpha beta /\ averaging_1d nt 4 nsb offset_0 vr freq norm sb count = Some out /\ is_delta nt (n_pts nt) freq = false /\
  (forall i, (i < nsb)%nat -> in_window (offset_0 + vr i) count = true) /\
  (forall i p, (i < nsb)%nat -> (p < 4 * n_pts nt)%nat -> (0 <= freq p + (offset_0 + vr i))%Q /\ (freq p + (offset_0 + vr i) < zq count)%Q) /\
  0 < kappa /\ (forall p, (p < n_pts nt)%nat -> Rabs (Q2R (norm p) - kappa * nth p (amplitudes nt) 0) <= eta * (kappa * nth p (amplitudes nt) 0)) /\
  (forall o, (o < 4 * n_pts nt)%nat -> Rabs (Q2R (freq o) - g (towards nt alpha beta o)) <= eps) /\
  (forall i o, (i < nsb)%nat -> (o < 4 * n_pts nt)%nat -> Rabs (Q2R (sb (i * (4 * n_pts nt) + o)%nat) - w i (towards nt alpha beta o)) <= epsw).

Theorem C123_limit : forall (F : R -> R) (lam B : R) (g : (axis -> R) -> R) (w : nat -> (axis -> R) -> R) (L M : R) (nt nsb : nat) (offset_0 : Q) (vr freq norm sb : nat -> Q) (count : BinNums.Z) (out : writes) (alpha beta : nat -> R) (kappa eta eps epsw : R),
  gentle F lam -> 0 <= lam -> (forall x, Rabs (F x) <= B) -> slope g L -> 0 <= L -> intensities nsb w M -> 0 <= M -> nsb <> 1%nat -> 0 <= eta < 1 -> 0 <= epsw ->
  sideband_run nt nsb alpha beta g w offset_0 vr freq norm sb count kappa eta eps epsw out ->
  let E := eta + 2 * INR nsb * (epsw + 28 * M / INR nt) in E < 1 ->
  (0 < InterpSpec.total out count)%Q /\
  Rabs (weighed F out count / Q2R (InterpSpec.total out count) - sideband_shape nsb F w (fun i => Q2R (offset_0 + vr i)) g)
  <= (B * (2 * E + INR nsb * (28 * M / INR nt)) + lam * (/ 2 + (28 * L / INR nt + eps)) * (1 + E)) / (1 - E) + INR nsb * (4182 * (M * B + lam * L) / INR nt).
Proof.
  intros F lam B g w L M nt nsb o vr freq norm sb count out al be ka eta eps epsw G L0 HB Sg LN (Sw & Wp & W1) MN NS E01 EW (N & P & HA & D & HW & HF & K & HN & HQ & HS) E EL.
  apply (sideband_limit F lam B g w L M nt nsb o vr freq norm sb count out al be ka eta eps epsw); auto.
Qed.
Print Assumptions C123_limit.
(** With numbers that are exact, the error goes to that of half a bin as one over the density. *)
Theorem C123_converges : forall (F : R -> R) (lam B : R) (g : (axis -> R) -> R) (w : nat -> (axis -> R) -> R) (L M : R) (nsb : nat),
  gentle F lam -> 0 <= lam -> (forall x, Rabs (F x) <= B) -> slope g L -> 0 <= L -> intensities nsb w M -> 0 <= M -> nsb <> 1%nat ->
  exists (K : R) (N : nat), 0 <= K /\ forall (nt : nat) (offset_0 : Q) (vr freq norm sb : nat -> Q) (count : BinNums.Z) (out : writes) (alpha beta : nat -> R) (kappa : R), (N <= nt)%nat ->
  sideband_run nt nsb alpha beta g w offset_0 vr freq norm sb count kappa 0 0 0 out ->
  Rabs (weighed F out count / Q2R (InterpSpec.total out count) - sideband_shape nsb F w (fun i => Q2R (offset_0 + vr i)) g) <= lam / 2 + K / INR nt.
Proof.
  intros F lam B g w L M nsb G L0 HB Sg LN HI MN NS. assert (B0 : 0 <= B) by (eapply Rle_trans; [apply Rabs_pos|apply (HB 0)]). pose proof (pos_INR nsb) as I0.
  set (e := 2 * INR nsb * (28 * M)). assert (e0 : 0 <= e) by (unfold e; repeat apply Rmult_le_pos; lra).
  set (K1 := B * (2 * e + INR nsb * (28 * M)) * 2 + lam * (2 * e + 28 * L * 4)). set (K := K1 + INR nsb * (4182 * (M * B + lam * L))).
  assert (PM : 0 <= INR nsb * (28 * M)) by (apply Rmult_le_pos; lra). assert (PB : 0 <= B * (2 * e + INR nsb * (28 * M))) by (apply Rmult_le_pos; lra). assert (PL : 0 <= lam * (2 * e + 28 * L * 4)) by (apply Rmult_le_pos; lra). assert (PK : 0 <= INR nsb * (4182 * (M * B + lam * L))) by (apply Rmult_le_pos; [auto|]; apply Rmult_le_pos; [lra|]; apply Rplus_le_le_0_compat; apply Rmult_le_pos; auto).
  destruct (archimed_cor1 (/ (2 * e + 2))) as (N & HN & NP); [apply Rinv_0_lt_compat; lra|]. exists K, N. split; [unfold K, K1; lra|].
  intros nt o vr freq norm sb count out al be ka LE R.
  assert (I : 0 < / INR nt) by (apply Rinv_0_lt_compat, lt_0_INR; lia). assert (I2 : / INR nt <= / INR N) by (apply Rinv_le_contravar; [apply lt_0_INR; lia|apply le_INR; auto]).
  set (h := / INR nt) in *. assert (eh : e * h <= / 2). { assert (Q : h <= / (2 * e + 2)) by lra. apply (Rmult_le_compat_l e) in Q; auto. assert (e * / (2 * e + 2) <= / 2) by (apply (Rmult_le_reg_r (2 * e + 2)); [lra|]; rewrite Rmult_assoc, Rinv_l by lra; lra). lra. }
  assert (eh0 : 0 <= e * h) by (apply Rmult_le_pos; lra).
  pose proof (C123_limit F lam B g w L M nt nsb o vr freq norm sb count out al be ka 0 0 0 G L0 HB Sg LN HI MN NS ltac:(lra) ltac:(lra) R) as C. cbv zeta in C.
  replace (0 + 2 * INR nsb * (0 + 28 * M / INR nt)) with (e * h) in C by (unfold e, h, Rdiv; ring). destruct (C ltac:(lra)) as [_ C']. eapply Rle_trans; [exact C'|].
  replace (28 * M / INR nt) with (28 * M * h) by reflexivity. replace (28 * L / INR nt) with (28 * L * h) by reflexivity. replace (4182 * (M * B + lam * L) / INR nt) with (4182 * (M * B + lam * L) * h) by reflexivity. replace (K / INR nt) with (K * h) by reflexivity.
  set (num := B * (2 * (e * h) + INR nsb * (28 * M * h)) + lam * (/ 2 + (28 * L * h + 0)) * (1 + e * h)).
  assert (h1 : h <= 1) by (unfold h; rewrite <- Rinv_1; apply Rinv_le_contravar; [lra|]; change 1 with (INR 1); apply le_INR; lia).
  assert (Q : num / (1 - e * h) <= lam / 2 + K1 * h).
  { apply (Rmult_le_reg_r (1 - e * h)); [lra|]. unfold Rdiv at 1. rewrite Rmult_assoc, Rinv_l, Rmult_1_r by lra. unfold num, K1. set (x := e * h) in *. set (q := B * (2 * e + INR nsb * (28 * M))) in *.
    replace (B * (2 * x + INR nsb * (28 * M * h))) with (q * h) by (unfold q, x; ring). replace ((q * 2 + lam * (2 * e + 28 * L * 4)) * h) with (2 * (q * h) + lam * (2 * x + 112 * (L * h))) by (unfold x; ring). replace (28 * L * h) with (28 * (L * h)) by ring.
    assert (qh : 0 <= q * h) by (apply Rmult_le_pos; lra). assert (lh : 0 <= L * h) by (apply Rmult_le_pos; lra). set (y := L * h) in *. set (z := q * h) in *. 
    assert (A1 : z <= 2 * z * (1 - x)) by nra. assert (A2 : (/ 2 + (28 * y + 0)) * (1 + x) <= (/ 2 + (2 * x + 112 * y)) * (1 - x)) by nra. apply (Rmult_le_compat_l lam) in A2; auto. lra. }
  unfold K. rewrite Rmult_plus_distr_r. assert (INR nsb * (4182 * (M * B + lam * L)) * h = INR nsb * (4182 * (M * B + lam * L) * h)) by ring. lra.
Qed.
Print Assumptions C123_converges.
(** The intensity of one sideband: F singles out sideband i when it is 1 at its positions and 0 at those of the others; the integral goes to the mean intensity over the directions. *)
Theorem C123_sideband : forall (F : R -> R) (nsb i : nat) (w : nat -> (axis -> R) -> R) (offset : nat -> R) (g : (axis -> R) -> R), (i < nsb)%nat ->
  (forall k al be, (k < nsb)%nat -> F (offset k + g (direction al be)) = if Nat.eqb k i then 1 else 0) -> sideband_shape nsb F w offset g = hemisphere_average (w i).
Proof.
  intros F nsb i w off g Hi HF. unfold sideband_shape.
  assert (V : forall k, (k < nsb)%nat -> hemisphere_average (fun u => w k u * F (off k + g u)) = if Nat.eqb k i then hemisphere_average (w i) else 0).
  { intros k Hk. destruct (Nat.eqb_spec k i) as [->|Ne].
    - unfold hemisphere_average, over_directions. f_equal. apply RInt_ext. intros a _. apply RInt_ext. intros b _. rewrite HF, Nat.eqb_refl by auto. match goal with |- ?x = ?y => change (@eq R x y) end. ring.
    - rewrite <- (proj1 (C117_constant 0)). unfold hemisphere_average, over_directions. f_equal. apply RInt_ext. intros a _. apply RInt_ext. intros b _. rewrite HF by auto. destruct (Nat.eqb_spec k i); [congruence|]. match goal with |- ?x = ?y => change (@eq R x y) end. ring. }
  rewrite (fold_ext _ (fun k => if Nat.eqb k i then hemisphere_average (w i) else 0)) by (intros k Hk; apply V; apply in_seq in Hk; lia). rewrite fold_seq. clear V HF.
  assert (Q : forall n, rsum n (fun k => if Nat.eqb (0 + k) i then hemisphere_average (w i) else 0) = if Nat.ltb i n then hemisphere_average (w i) else 0).
  { induction n as [|n IH]; [reflexivity|]. cbn [rsum]. rewrite IH, Nat.add_0_l. destruct (Nat.ltb_spec i n), (Nat.eqb_spec n i), (Nat.ltb_spec i (S n)); try lia; ring. }
  rewrite Q. destruct (Nat.ltb_spec i nsb); [reflexivity|lia].
Qed.
Print Assumptions C123_sideband.
(** With one sideband of intensity one this is the shape of C119. *)
Theorem C123_one : forall (F : R -> R) (offset : R) (g : (axis -> R) -> R), sideband_shape 1 F (fun _ _ => 1) (fun _ => offset) g = hemisphere_average (fun u => F (offset + g u)).
Proof.
  intros. unfold sideband_shape. cbn [seq map fold_right]. rewrite Rplus_0_r. unfold hemisphere_average, over_directions. f_equal. apply RInt_ext. intros a _. apply RInt_ext. intros b _. match goal with |- ?x = ?y => change (@eq R x y) end. ring.
Qed.
Print Assumptions C123_one.

(** *** Spin systems that spin: the frequencies are the means over the turn (C110) *)
Theorem C123_spinning_partial : forall (second : bool) (B0 : R) (sites : list site) (couplings : list coupling) (ns levels levels' : list nat) (theta increment c : R), sites_fine second B0 sites ns levels levels' -> increment <> 0 ->
  exists (g : (axis -> R) -> R) (L : R), 0 <= L /\ slope g L /\ (forall al be mean, mean_over_turn (rotor_difference second B0 sites couplings ns levels levels' al be theta) mean -> g (direction al be) = mean / increment - c) /\
  forall (F : R -> R) (lam B : R) (w : nat -> (axis -> R) -> R) (M : R) (nsb : nat), gentle F lam -> 0 <= lam -> (forall x, Rabs (F x) <= B) -> intensities nsb w M -> 0 <= M -> nsb <> 1%nat ->
  exists (K : R) (N : nat), 0 <= K /\ forall (nt : nat) (offset_0 : Q) (vr freq norm sb : nat -> Q) (count : BinNums.Z) (out : writes) (alpha beta : nat -> R) (kappa : R), (N <= nt)%nat ->
  sideband_run nt nsb alpha beta g w offset_0 vr freq norm sb count kappa 0 0 0 out ->
  Rabs (weighed F out count / Q2R (InterpSpec.total out count) - sideband_shape nsb F w (fun i => Q2R (offset_0 + vr i)) g) <= lam / 2 + K / INR nt.
Proof.
  intros second B0 sites cps ns lv lv' th inc c Fi IN. destruct (change_settles second B0 sites cps ns lv lv' Fi) as [_ S]. destruct (S th) as (g & [(L & L0 & HS) _] & M).
  assert (SL : slope (fun u => g u / inc - c) (L * Rabs (/ inc))).
  { intros u v U V. replace (g u / inc - c - (g v / inc - c)) with (/ inc * (g u - g v)) by (unfold Rdiv; ring). rewrite Rabs_mult. pose proof (HS u v U V). pose proof (Rabs_pos (/ inc)). nra. }
  exists (fun u => g u / inc - c), (L * Rabs (/ inc)). split; [apply Rmult_le_pos; auto using Rabs_pos|]. split; [exact SL|]. split.
  - intros al be mean HM. f_equal. f_equal. eapply mean_unique; [apply (M al be)|exact HM].
  - intros F lam B w M' nsb G L1 HB HI MN NS. apply (C123_converges F lam B (fun u => g u / inc - c) w (L * Rabs (/ inc)) M' nsb); auto. apply Rmult_le_pos; auto using Rabs_pos.
Qed.
Print Assumptions C123_spinning_partial.
(** What is missing: intensities of spin systems, which the code takes from a transform of nsb points (C111), are not functions of the direction alone, so that the intensities w of the statement are given.
    A case: two sidebands, of intensities 1/2 -+ u_z^2 / 1000, and the frequencies of C116_centre_example. *)
Definition tilted_w (i : nat) (u : axis -> R) : R := match i with O => / 2 - u Z * u Z / 1000 | _ => / 2 + u Z * u Z / 1000 end.
Definition tilted_sb (k : nat) : Q := if Nat.eqb (k mod 3) 2 then (if Nat.ltb k 12 then 499 # 1000 else 501 # 1000)%Q else (1 # 2)%Q.
Example C123_example : intensities 2 tilted_w (2 / 1000) /\ slope (fun u => 2 * (3 * (u Z * u Z) - 1)) 12 /\ 0 + 2 * INR 2 * (0 + 28 * (2 / 1000) / INR 1) < 1 /\
  exists alpha beta out, sideband_run 1 2 alpha beta (fun u => 2 * (3 * (u Z * u Z) - 1)) tilted_w 5 (fun i => if Nat.eqb i 0 then 0%Q else 10%Q) PropAverage.shielded_freq (fun _ => 1%Q) tilted_sb 20 1 0 0 0 out.
Proof.
  assert (ZB : forall u, unit_vector u -> Rabs (u Z) <= 1 /\ u Z * u Z <= 1) by (intros u U; unfold unit_vector in U; split; [apply Rabs_le|]; nra).
  assert (ZS : forall u v, unit_vector u -> unit_vector v -> Rabs (u Z * u Z - v Z * v Z) <= 2 * dist3 u v).
  { intros u v U V. replace (u Z * u Z - v Z * v Z) with ((u Z + v Z) * (u Z - v Z)) by ring. rewrite Rabs_mult. destruct (ZB u U), (ZB v V). pose proof (Rabs_triang (u Z) (v Z)). unfold dist3. pose proof (Rabs_pos (u X - v X)). pose proof (Rabs_pos (u Y - v Y)). apply Rmult_le_compat; auto using Rabs_pos; lra. }
  split; [|split; [|split]].
  - split; [|split].
    + intros i Hi u v U V. pose proof (ZS u v U V) as Q. apply Rcomplements.Rabs_le_between in Q. apply Rcomplements.Rabs_le_between. destruct i as [|i]; unfold tilted_w; lra.
    + intros i u Hi U. destruct (ZB u U). pose proof (Rle_0_sqr (u Z)) as S. unfold Rsqr in S. destruct i as [|i]; unfold tilted_w; lra.
    + intros u U. cbn [seq map fold_right tilted_w]. lra.
  - intros u v U V. pose proof (ZS u v U V) as Q. apply Rcomplements.Rabs_le_between in Q. apply Rcomplements.Rabs_le_between. lra.
  - cbn [INR]. lra.
  - destruct PropAverage.C116_centre_example as (al & be & out & P & S & A & D & W & R & Nn & Q & _). exists al, be. eexists. split; [lia|]. split; [exact P|]. split; [vm_compute; reflexivity|]. split; [exact D|].
    split; [intros [|[|i]] Hi; [vm_compute; reflexivity|vm_compute; reflexivity|lia]|].
    split; [intros i p _ _; unfold PropAverage.shielded_freq; destruct (Nat.eqb (p mod 3) 2), (Nat.eqb i 0); split; vm_compute; congruence|]. split; [lra|]. split; [exact Nn|].
    assert (TZ : forall o, towards 1 al be o Z * towards 1 al be o Z = if Nat.eqb (o mod 3) 2 then 1 else 0).
    { intros o. assert (H := Q (o mod 12)%nat (Nat.mod_upper_bound o 12 ltac:(lia))). assert (E3 : ((o mod 12) mod 3 = o mod 3)%nat) by (rewrite (Nat.div_mod o 12) at 2 by lia; replace (12 * (o / 12) + o mod 12)%nat with (o mod 12 + (4 * (o / 12)) * 3)%nat by lia; rewrite Nat.mod_add by lia; reflexivity).
      change (n_pts 1) with 3%nat in H. rewrite PropAverage.shielded_difference in H. unfold PropAverage.shielded_freq in H. rewrite E3 in H. unfold towards, direction. change (n_pts 1) with 3%nat. set (x := cos (be (o mod 3)%nat)) in *. clearbody x. destruct (Nat.eqb (o mod 3) 2); unfold Q2R in H; cbn in H; apply Rcomplements.Rabs_le_between in H; lra. }
    split.
    + intros o Ho. rewrite TZ. unfold PropAverage.shielded_freq. destruct (Nat.eqb (o mod 3) 2); unfold Q2R; cbn; apply Rcomplements.Rabs_le_between; lra.
    + intros i o Hi Ho. change (n_pts 1) with 3%nat in *. unfold tilted_sb. assert (E3 : ((i * (4 * 3) + o) mod 3 = o mod 3)%nat) by (replace (i * (4 * 3) + o)%nat with (o + (i * 4) * 3)%nat by lia; rewrite Nat.mod_add by lia; reflexivity). rewrite E3.
      destruct i as [|[|i]]; [| |lia]; unfold tilted_w; rewrite TZ; [destruct (Nat.ltb_spec (0 * (4 * 3) + o) 12); [|lia]|destruct (Nat.ltb_spec (1 * (4 * 3) + o) 12); [lia|]]; destruct (Nat.eqb (o mod 3) 2); unfold Q2R; cbn; apply Rcomplements.Rabs_le_between; lra.
Qed.
