(** C119: the shape of the simulated spectrum goes to the distribution of the frequencies over the directions. *)
From Coq Require Import Reals QArith Qreals List ZArith Lia Bool.
From Coquelicot Require Import Coquelicot.
From Verif Require PropFreq PropAverage.
From Verif Require Import InterpModel InterpSpec PowderModel WalkProofs DftModel DftProofs FreqModel PhysSpec PhysLevels FreqSpec.
From Verif Require Import AverageSpec AverageProofs AverageCentre SphereSpec SphereChange SphereProofs SpherePhys PropSphere InducedSpec InducedProofs PropInduced ShapeSpec ShapeProofs ShapeClose.
From Coq Require Import Lra.
Import ListNotations.
Open Scope R_scope.

(** The spectrum is seen through functions F of the position (in bins) of slope at most lam: [weighed F out count] is the sum over the bins of F at the
    centre of the bin times the content of the bin.  Such functions tell any two distributions of intensity apart.  [nu alpha beta] is the frequency,
    as a position, at the direction with polar angles alpha and beta; the average of F over the directions: *)
Definition mean_shape (F : R -> R) (nu : R -> R -> R) : R := RInt (fun alpha => RInt (fun beta => F (nu alpha beta) * sin beta) 0 (PI / 2)) 0 (2 * PI) / (2 * PI).

(** One pattern, any number of sidebands and weights of either sign: every triangle acts, to half a bin and its width d, as weight at the positions of its vertices. *)
Theorem C119_pattern : forall (F : R -> R) (lam : R) (nt n_oct nsb : nat) (offset_0 : Q) (vr freq norm sb : nat -> Q) (count : BinNums.Z) (out : writes) (f : nat -> R) (d eps : R),
  gentle F lam -> 0 <= lam -> 0 <= d ->
  averaging_1d nt n_oct nsb offset_0 vr freq norm sb count = Some out ->
  is_delta nt (n_pts nt) freq = false ->
  (forall i, (i < nsb)%nat -> in_window (offset_0 + vr i) count = true) ->
  (forall i p, (i < nsb)%nat -> (p < n_oct * n_pts nt)%nat -> (0 <= freq p + (offset_0 + vr i))%Q /\ (freq p + (offset_0 + vr i) < zq count)%Q) ->
  (forall o, (o < n_oct * n_pts nt)%nat -> Rabs (Q2R (freq o) - f o) <= eps) ->
  (forall j t, (j < n_oct)%nat -> In t (grid_tris nt) -> narrow (fun p => f (j * n_pts nt + p)%nat) d t) ->
  let weight i j t := Q2R (vertex_sum (fun p => let k := (i * (n_oct * n_pts nt) + j * n_pts nt + p)%nat in if Nat.eqb nsb 1 then norm (k mod n_pts nt)%nat else (norm (k mod n_pts nt)%nat * sb k)%Q) t) in
  Rabs (weighed F out count - over_all nt n_oct nsb (fun i j t => weight i j t * vertex_mean F (fun p => Q2R (offset_0 + vr i) + f (j * n_pts nt + p)%nat) t))
  <= lam * (/ 2 + d + eps) * over_all nt n_oct nsb (fun i j t => Rabs (weight i j t)).
Proof.
  intros F lam nt n_oct nsb o vr freq norm sb count out f d eps G L0 D0 H D HW HF HE HN weight. pose proof (pattern_shape F lam nt n_oct nsb o vr freq norm sb count out f d eps G L0 D0 H D HW HF HE HN) as M. cbn zeta in M.
  assert (W : forall i j t, Q2R (vertex_sum (fun p => amps_1d nsb (n_pts nt) norm sb (i * (n_oct * n_pts nt) + j * n_pts nt + p)%nat) t) = weight i j t).
  { intros i j [[a b] c]. unfold weight, vertex_sum, amps_1d. cbn zeta. destruct nsb as [|[|n]]; cbn [Nat.eqb]; reflexivity. }
  assert (C : forall g g', (forall i j t, g i j t = g' i j t) -> over_all nt n_oct nsb g = over_all nt n_oct nsb g').
  { intros g g' E. unfold over_all. apply fold_ext; intros i _. apply fold_ext; intros j _. apply fold_ext; intros t _. apply E. }
  assert (S : forall q g, over_all nt n_oct nsb (fun i j t => q * g i j t) = q * over_all nt n_oct nsb g).
  { intros q g. assert (S1 : forall A (h : A -> R) l, fold_right Rplus 0 (map (fun x => q * h x) l) = q * fold_right Rplus 0 (map h l)) by (intros; apply (lsum_scal q)). unfold over_all. rewrite <- S1. apply fold_ext; intros i _. rewrite <- S1. apply fold_ext; intros j _. apply S1. }
  erewrite (C (fun i j t => Q2R _ * _)) in M by (intros; rewrite W; reflexivity). erewrite (C (fun i j t => Rabs _ * _)) in M by (intros; rewrite W, Rmult_comm; reflexivity). rewrite S in M. rewrite Rplus_assoc. exact M.
Qed.
Print Assumptions C119_pattern.
(** Frequencies g of slope at most L along the sphere: to half a bin and the rounding of the numbers (C116), the spectrum shows the distribution of g over the
    directions, with an error that falls like the inverse of the density. *)
Theorem C119_limit : forall (F : R -> R) (lam : R) (g : (axis -> R) -> R) (L : R) (nt : nat) (offset_0 : Q) (vr freq norm sb : nat -> Q) (count : BinNums.Z) (out : writes) (alpha beta : nat -> R) (kappa eta eps : R),
  gentle F lam -> 0 <= lam -> slope g L -> 0 <= L -> (1 <= nt)%nat -> polar_angles nt alpha beta ->
  averaging_1d nt 4 1 offset_0 vr freq norm sb count = Some out ->
  is_delta nt (n_pts nt) freq = false ->
  in_window (offset_0 + vr 0%nat) count = true ->
  (forall p, (p < 4 * n_pts nt)%nat -> (0 <= freq p + (offset_0 + vr 0%nat) /\ freq p + (offset_0 + vr 0%nat) < zq count)%Q) ->
  0 < kappa -> 0 <= eta < 1 ->
  (forall p, (p < n_pts nt)%nat -> Rabs (Q2R (norm p) - kappa * nth p (amplitudes nt) 0) <= eta * (kappa * nth p (amplitudes nt) 0)) ->
  (forall o, (o < 4 * n_pts nt)%nat -> Rabs (Q2R (freq o) - g (towards nt alpha beta o)) <= eps) ->
  Rabs (weighed F out count / Q2R (InterpSpec.total out count) - hemisphere_average (fun u => F (Q2R (offset_0 + vr 0%nat) + g u))) <= lam * (/ 2 + eps + 4210 * L / INR nt + eta / (1 - eta) * (4 * L)).
Proof. exact shape_limit. Qed.
Print Assumptions C119_limit.
(** With F the position itself this is the centre of gravity. *)
Theorem C119_centre : forall (out : writes) (count : BinNums.Z), gentle (fun x => x) 1 /\ weighed (fun x => x) out count = Q2R (moment centre out count).
Proof.
  intros out count. split; [intros x y; lra|]. unfold weighed, moment. rewrite Q2R_qsum, map_map. apply fold_ext. intros k _. rewrite Q2R_mult. reflexivity.
Qed.
Print Assumptions C119_centre.

(** *** Spin systems *)
Lemma shape_system (G : R -> R -> R) (g : (axis -> R) -> R) (L inc : R) (F : R -> R) (lam : R) (nt : nat) (offset_0 : Q) (vr freq norm sb : nat -> Q) (count : BinNums.Z) (out : writes) (alpha beta : nat -> R) (c kappa eta eps : R) :
  inc <> 0 -> slope g L -> 0 <= L -> (forall al be, G al be = g (direction al be)) ->
  gentle F lam -> 0 <= lam -> (1 <= nt)%nat -> polar_angles nt alpha beta ->
  averaging_1d nt 4 1 offset_0 vr freq norm sb count = Some out -> is_delta nt (n_pts nt) freq = false -> in_window (offset_0 + vr 0%nat) count = true ->
  (forall p, (p < 4 * n_pts nt)%nat -> (0 <= freq p + (offset_0 + vr 0%nat) /\ freq p + (offset_0 + vr 0%nat) < zq count)%Q) ->
  0 < kappa -> 0 <= eta < 1 ->
  (forall p, (p < n_pts nt)%nat -> Rabs (Q2R (norm p) - kappa * nth p (amplitudes nt) 0) <= eta * (kappa * nth p (amplitudes nt) 0)) ->
  (forall o, (o < 4 * n_pts nt)%nat -> Rabs (Q2R (freq o) - (G (orientation (n_pts nt) alpha o) (beta (o mod n_pts nt)%nat) / inc - c)) <= eps) ->
  Rabs (weighed F out count / Q2R (InterpSpec.total out count) - mean_shape F (fun al be => Q2R (offset_0 + vr 0%nat) + (G al be / inc - c)))
    <= lam * (/ 2 + eps + 4210 * L * Rabs (/ inc) / INR nt + eta / (1 - eta) * (4210 * L * Rabs (/ inc))).
Proof.
  intros IN HS L0 E HG Hl N P HA D HW HF K HE HN HQ. set (L' := L * Rabs (/ inc)). assert (L'0 : 0 <= L') by (apply Rmult_le_pos; auto using Rabs_pos).
  assert (S' : slope (fun u => g u / inc - c) L').
  { intros u v U V. replace (g u / inc - c - (g v / inc - c)) with (/ inc * (g u - g v)) by (unfold Rdiv; ring). rewrite Rabs_mult. unfold L'. rewrite (Rmult_comm L), Rmult_assoc. apply Rmult_le_compat_l; auto using Rabs_pos. }
  pose proof (shape_limit F lam (fun u => g u / inc - c) L' nt offset_0 vr freq norm sb count out alpha beta kappa eta eps HG Hl S' L'0 N P HA D HW HF K HE HN) as C.
  assert (HQ' : forall o, (o < 4 * n_pts nt)%nat -> Rabs (Q2R (freq o) - (g (towards nt alpha beta o) / inc - c)) <= eps) by (intros o Ho; unfold towards; rewrite <- E; apply HQ; auto). specialize (C HQ').
  assert (M : mean_shape F (fun al be => Q2R (offset_0 + vr 0%nat) + (G al be / inc - c)) = hemisphere_average (fun u => F (Q2R (offset_0 + vr 0%nat) + (g u / inc - c)))).
  { unfold mean_shape, hemisphere_average, over_directions. f_equal. apply RInt_ext. intros a _. apply RInt_ext. intros b _. rewrite E. reflexivity. }
  rewrite M. eapply Rle_trans; [exact C|]. apply Rmult_le_compat_l; auto. replace (4210 * L * Rabs (/ inc)) with (4210 * L') by (unfold L'; ring). assert (0 <= eta / (1 - eta)) by (apply Rle_mult_inv_pos; lra).
  assert (eta / (1 - eta) * (4 * L') <= eta / (1 - eta) * (4210 * L')) by (apply Rmult_le_compat_l; lra). lra.
Qed.
(** Static sample: [level_difference] is the frequency of the transition for the field along the direction (C117), of all the interactions of the sites and couplings. *)
Theorem C119_static_partial : forall (second : bool) (B0 : R) (sites : list site) (couplings : list coupling) (ns levels levels' : list nat) (increment : R), sites_fine second B0 sites ns levels levels' -> increment <> 0 ->
  exists K, 0 <= K /\ forall (F : R -> R) (lam : R) (nt : nat) (offset_0 : Q) (vr freq norm sb : nat -> Q) (count : BinNums.Z) (out : writes) (alpha beta : nat -> R) (c kappa eta eps : R),
  gentle F lam -> 0 <= lam -> (1 <= nt)%nat -> polar_angles nt alpha beta ->
  averaging_1d nt 4 1 offset_0 vr freq norm sb count = Some out ->
  is_delta nt (n_pts nt) freq = false -> in_window (offset_0 + vr 0%nat) count = true ->
  (forall p, (p < 4 * n_pts nt)%nat -> (0 <= freq p + (offset_0 + vr 0%nat) /\ freq p + (offset_0 + vr 0%nat) < zq count)%Q) ->
  0 < kappa -> 0 <= eta < 1 ->
  (forall p, (p < n_pts nt)%nat -> Rabs (Q2R (norm p) - kappa * nth p (amplitudes nt) 0) <= eta * (kappa * nth p (amplitudes nt) 0)) ->
  let nu al be := level_difference second B0 sites couplings ns levels levels' al be / increment - c in
  (forall o, (o < 4 * n_pts nt)%nat -> Rabs (Q2R (freq o) - nu (orientation (n_pts nt) alpha o) (beta (o mod n_pts nt)%nat)) <= eps) ->
  Rabs (weighed F out count / Q2R (InterpSpec.total out count) - mean_shape F (fun al be => Q2R (offset_0 + vr 0%nat) + nu al be)) <= lam * (/ 2 + eps + K / INR nt + eta / (1 - eta) * K).
Proof.
  intros second B0 sites cps ns lv lv' inc Fi IN. destruct (difference_sloped second B0 sites cps ns lv lv' Fi) as (g & (L & L0 & HS) & E). exists (4210 * L * Rabs (/ inc)). split; [apply Rmult_le_pos; [lra|apply Rabs_pos]|].
  intros F lam nt o vr freq norm sb count out al be c kappa eta eps HG Hl N P HA D HW HF K HE HN nu HQ. apply (shape_system (level_difference second B0 sites cps ns lv lv') g L inc F lam nt o vr freq norm sb count out al be c kappa eta eps); auto.
Qed.
Print Assumptions C119_static_partial.
(** At infinite rotor frequency, at any angle: the frequencies are the means over a turn of the rotor. *)
Theorem C119_spinning_partial : forall (second : bool) (B0 : R) (sites : list site) (couplings : list coupling) (ns levels levels' : list nat) (theta increment : R), sites_fine second B0 sites ns levels levels' -> increment <> 0 ->
  exists K, 0 <= K /\ forall (F : R -> R) (lam : R) (nt : nat) (offset_0 : Q) (vr freq norm sb : nat -> Q) (count : BinNums.Z) (out : writes) (alpha beta : nat -> R) (mean : R -> R -> R) (c kappa eta eps : R),
  gentle F lam -> 0 <= lam -> (1 <= nt)%nat -> polar_angles nt alpha beta ->
  (forall al be, mean_over_turn (rotor_difference second B0 sites couplings ns levels levels' al be theta) (mean al be)) ->
  averaging_1d nt 4 1 offset_0 vr freq norm sb count = Some out ->
  is_delta nt (n_pts nt) freq = false -> in_window (offset_0 + vr 0%nat) count = true ->
  (forall p, (p < 4 * n_pts nt)%nat -> (0 <= freq p + (offset_0 + vr 0%nat) /\ freq p + (offset_0 + vr 0%nat) < zq count)%Q) ->
  0 < kappa -> 0 <= eta < 1 ->
  (forall p, (p < n_pts nt)%nat -> Rabs (Q2R (norm p) - kappa * nth p (amplitudes nt) 0) <= eta * (kappa * nth p (amplitudes nt) 0)) ->
  let nu al be := mean al be / increment - c in
  (forall o, (o < 4 * n_pts nt)%nat -> Rabs (Q2R (freq o) - nu (orientation (n_pts nt) alpha o) (beta (o mod n_pts nt)%nat)) <= eps) ->
  Rabs (weighed F out count / Q2R (InterpSpec.total out count) - mean_shape F (fun al be => Q2R (offset_0 + vr 0%nat) + nu al be)) <= lam * (/ 2 + eps + K / INR nt + eta / (1 - eta) * K).
Proof.
  intros second B0 sites cps ns lv lv' th inc Fi IN. destruct (change_settles second B0 sites cps ns lv lv' Fi) as [_ S]. destruct (S th) as (g & [(L & L0 & HS) _] & M). exists (4210 * L * Rabs (/ inc)). split; [apply Rmult_le_pos; [lra|apply Rabs_pos]|].
  intros F lam nt o vr freq norm sb count out al be mean c kappa eta eps HG Hl N P HM HA D HW HF K HE HN nu HQ. apply (shape_system mean g L inc F lam nt o vr freq norm sb count out al be c kappa eta eps); auto.
  intros a b. eapply mean_unique; [apply HM|]. apply (M a b).
Qed.
Print Assumptions C119_spinning_partial.
(** Cases: the spectrum and the frequencies of C116_centre_example, a function that is not the position, and the systems of C117_example and C118_example. *)
Example C119_example : gentle (fun x => Rabs (x - 3)) 1 /\ sites_fine false 1 [PropAverage.shielded] [1]%nat [0]%nat [1]%nat /\ exists alpha beta out, polar_angles 1 alpha beta /\
  averaging_1d 1 4 1 5 (fun _ => 0%Q) PropAverage.shielded_freq (fun _ => 1%Q) (fun _ => 0%Q) 10 = Some out /\ is_delta 1 (n_pts 1) PropAverage.shielded_freq = false /\ in_window (5 + 0) 10 = true /\
  (forall p, (p < 4 * n_pts 1)%nat -> (0 <= PropAverage.shielded_freq p + (5 + 0) /\ PropAverage.shielded_freq p + (5 + 0) < zq 10)%Q) /\
  (forall p, (p < n_pts 1)%nat -> Rabs (Q2R 1 - 1 * nth p (amplitudes 1) 0) <= 0 * (1 * nth p (amplitudes 1) 0)) /\
  (forall o, (o < 4 * n_pts 1)%nat -> Rabs (Q2R (PropAverage.shielded_freq o) - (level_difference false 1 [PropAverage.shielded] [] [1]%nat [0]%nat [1]%nat (orientation (n_pts 1) alpha o) (beta (o mod n_pts 1)%nat) / 1 - - 3)) <= 0) /\
  narrow (fun p => Q2R (PropAverage.shielded_freq (0 * n_pts 1 + p)%nat)) 6 (0, 1, 2)%nat.
Proof.
  split; [intros x y; rewrite Rmult_1_l; replace (x - y) with ((x - 3) - (y - 3)) by ring; apply Rabs_triang_inv2|].
  destruct PropAverage.C116_centre_example as (al & be & out & P & S & A & D & W & R & Nn & Q & _). split; auto. exists al, be, out. split; auto. split; auto. split; auto. split; auto. split; auto. split; auto. split; auto.
  unfold narrow, PropAverage.shielded_freq. cbn. unfold Q2R. cbn. repeat split; apply Rcomplements.Rabs_le_between; lra.
Qed.
