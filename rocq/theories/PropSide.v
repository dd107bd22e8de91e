(** C111: the spinning sidebands are those of the energies as the rotor turns. *)
From Coq Require Import Reals List ZArith Lra Lia Bool Psatz.
From Coquelicot Require Import Coquelicot.
From Verif Require Import DftModel DftProofs WignerMatrix WignerModel WignerSpec WignerOrtho WignerNorm WignerProofs FreqModel FreqSpec FreqProofs FreqConst CoreProofs TableProofs PropDft PropFreq.
From Verif Require Import PhysSpec PhysLevels PhysRot PhysCouple PhysSpin PhysExact PhysClose PhysRotor PhysEvent PhysRead PhysSide PropPhys.
Import ListNotations.
Open Scope R_scope.

(** ** C111 *)
(** The components of an event turned into the frame of the rotor, as the code turns them. *)
Definition in_rotor (l : nat) (alpha beta : R) (v : list C) (i : nat) : C := nth i (rotation_2 decimal l (fun m => cpow (cis alpha) m) (cis beta) v) (RtoC 0).
(** The phase the code has at a step of the turn. *)
Definition phase_at (fourth : bool) (nsb : nat) (vr theta alpha beta : R) (c : comps) (step : nat) : R :=
  sideband_phase nsb vr (fun i => nth i (wigner_dm0 decimal 2 theta) 0) (fun i => nth i (wigner_dm0 decimal 4 theta) 0) (in_rotor 2 alpha beta (r2 c)) (in_rotor 4 alpha beta (r4 c)) fourth step.
Lemma in_rotor_full l alpha beta v i : rank l -> real_tensor l v -> (i < l)%nat -> in_rotor l alpha beta v i = nth i (rotation decimal l alpha (cis beta) 0 v) (RtoC 0).
Proof.
  intros H R L. unfold in_rotor. rewrite rotation_2_full by auto. generalize (rotation decimal l alpha (cis beta) 0 v). intros u. assert (L' : (i < l + 1)%nat) by lia. revert L'. generalize (l + 1)%nat. clear.
  intros n. revert i u. induction n as [|n IH]; intros i u H; [lia|]. destruct u as [|x u]; [destruct i; reflexivity|]. destruct i as [|i]; [reflexivity|]. cbn [firstn nth]. apply IH. lia.
Qed.
Lemma phase_at_full fourth nsb vr theta alpha beta c step : creal c -> phase_at fourth nsb vr theta alpha beta c step =
  sideband_phase nsb vr (fun i => nth i (wigner_dm0 decimal 2 theta) 0) (fun i => nth i (wigner_dm0 decimal 4 theta) 0)
    (fun i => nth i (rotation decimal 2 alpha (cis beta) 0 (r2 c)) (RtoC 0)) (fun i => nth i (rotation decimal 4 alpha (cis beta) 0 (r4 c)) (RtoC 0)) fourth step.
Proof.
  intros [R2 R4]. unfold phase_at, sideband_phase. f_equal. f_equal.
  - apply csum_ext. intros i Hi. rewrite in_rotor_full by (auto; left; auto). reflexivity.
  - destruct fourth; [|reflexivity]. apply csum_ext. intros i Hi. rewrite in_rotor_full by (auto; right; auto). reflexivity.
Qed.
(** The phase at step s of nsb is 2 pi times the integral, over s/nsb of the rotor period, of how far the difference of the energies of the
    two states is from its mean, as the rotor turns: for every spin system, transition, orientation, rotor angle and rotor frequency. *)
Theorem C111_phase_partial : forall (fourth : bool) (B0 : R) (sites : list site) (couplings : list coupling) (ns levels levels' : list nat) (more : list R) (flags : list bool) (alpha beta theta vr : R) (nsb : nat),
  sites_fine fourth B0 sites ns levels levels' -> couplings_fine couplings (length sites) ->
  (forall b, In b flags -> b = true) -> (flags_needed fourth sites (states ns levels) (states ns levels') <= length flags)%nat ->
  0 < vr -> (0 < nsb)%nat ->
  exists (c : comps) (mean : R) (Phi : nat -> R),
    event_components decimal_f fourth B0 sites couplings (states ns levels ++ states ns levels' ++ more) flags = Some c /\
    let E phi := system_level fourth B0 sites couplings (rotor_frame alpha beta phi theta) ns in
    mean_over_turn (fun phi => E phi levels' - E phi levels) mean /\
    (forall step, is_RInt (fun t => let phi := - (2 * PI * vr * t) in 2 * PI * (E phi levels' - E phi levels - mean)) 0 (INR step / (INR nsb * vr)) (Phi step)) /\
    (forall step, Rabs (phase_at fourth nsb vr theta alpha beta c step - Phi step) <=
       INR step / (INR nsb * vr) * (20 * PI * system_tolerance fourth B0 sites couplings ns levels levels')).
Proof.
  intros fourth B0 sites cps ns lv lv' more flags al be th vr nsb F G T N V P. destruct (sites_length _ _ _ _ _ _ F) as [L1 [L2 _]].
  pose proof (components_all decimal_f fourth B0 sites cps (states ns lv) (states ns lv') more flags L1 L2 (fun cp H => conj (proj1 (G cp H)) (proj1 (proj2 (G cp H)))) T N) as CA.
  pose proof (components_real _ _ _ _ _ _ _ _ CA) as CR. match type of CA with _ = Some ?x => set (c := x) in * end.
  pose proof (phase_close fourth B0 sites cps ns lv lv' al be th vr nsb F G CR V P) as PC. fold c in PC.
  set (E t levels := system_level fourth B0 sites cps (rotor_frame al be (- (2 * PI * vr * t)) th) ns levels). set (mean := exact_system (fun c => exact_mean c al be th) fourth B0 sites cps ns lv lv').
  exists c, mean, (fun step => RInt (fun t => 2 * PI * (E t lv' - E t lv - mean)) 0 (INR step / (INR nsb * vr))). split; [exact CA|]. cbv zeta. split; [|split].
  - pose proof (system_mean fourth B0 sites cps ns lv lv' al be th) as M. unfold mean_over_turn in *. eapply is_RInt_ext; [|exact M]. intros p _. cbv beta. apply (system_exact fourth B0 sites cps ns lv lv' (rotor_frame al be p th) F G).
  - intros step. destruct (PC step) as [Phi [I _]]. apply (RInt_correct (V := R_CompleteNormedModule)). exists Phi. exact I.
  - intros step. destruct (PC step) as [Phi [I D]]. rewrite phase_at_full by auto.
    pose proof (is_RInt_unique (V := R_CompleteNormedModule) _ _ _ _ I) as U. unfold E, mean in *. cbv beta in U. rewrite U. exact D.
Qed.
Print Assumptions C111_phase_partial.
(** The intensities of the sidebands, relative to the whole: those of the exponential of this phase at nsb times of the turn, to within
    4.4e-5 for the tables of cosines plus the tolerance of the frequencies over the rotor frequency. *)
Theorem C111_intensity_partial : forall (sc : scheme) (B0 : R) (sites : list site) (couplings : list coupling) (ns levels levels' : list nat) (more : list R) (flags : list bool) (alpha beta theta vr : R) (nsb : nat),
  sites_fine (sc_fourth sc) B0 sites ns levels levels' -> couplings_fine couplings (length sites) ->
  (forall b, In b flags -> b = true) -> (flags_needed (sc_fourth sc) sites (states ns levels) (states ns levels') <= length flags)%nat ->
  0 < vr -> (0 < nsb)%nat ->
  exists (c : comps) (mean : R) (Phi : nat -> R),
    event_components decimal_f (sc_fourth sc) B0 sites couplings (states ns levels ++ states ns levels' ++ more) flags = Some c /\
    let E phi := system_level (sc_fourth sc) B0 sites couplings (rotor_frame alpha beta phi theta) ns in
    mean_over_turn (fun phi => E phi levels' - E phi levels) mean /\
    (forall step, is_RInt (fun t => let phi := - (2 * PI * vr * t) in 2 * PI * (E phi levels' - E phi levels - mean)) 0 (INR step / (INR nsb * vr)) (Phi step)) /\
    (forall sideband, Rabs (event_amplitude (create_plan sc nsb vr theta) (in_rotor 2 alpha beta (r2 c)) (in_rotor 4 alpha beta (r4 c)) sideband / INR nsb ^ 2 -
         abs2 (csum nsb (fun step => cis (- (2 * PI) * (INR step * INR sideband) / INR nsb) * cis (Phi step))%C) / INR nsb ^ 2) <=
       4.4e-5 + 40 * PI * system_tolerance (sc_fourth sc) B0 sites couplings ns levels levels' / vr).
Proof.
  intros sc B0 sites cps ns lv lv' more flags al be th vr nsb F G T N V P.
  destruct (C111_phase_partial (sc_fourth sc) B0 sites cps ns lv lv' more flags al be th vr nsb F G T N V P) as [c [mean [Phi [CA [M [I D]]]]]].
  exists c, mean, Phi. split; [exact CA|]. cbv zeta in *. split; [exact M|]. split; [exact I|]. intros sb. rewrite C68_plan_phase.
  set (tol := system_tolerance (sc_fourth sc) B0 sites cps ns lv lv') in *. assert (PN : 0 < INR nsb) by (apply lt_0_INR; auto).
  assert (T0 : 0 <= tol). { pose proof (D 1%nat) as H. pose proof (Rabs_pos (phase_at (sc_fourth sc) nsb vr th al be c 1 - Phi 1%nat)) as H0. cbn [INR] in H.
    assert (Q : 0 < 1 / (INR nsb * vr) * (20 * PI)) by (apply Rmult_lt_0_compat; [apply Rdiv_lt_0_compat; [lra|apply Rmult_lt_0_compat; auto]|pose proof PI_RGT_0; lra]).
    assert (0 <= 1 / (INR nsb * vr) * (20 * PI) * tol) by lra. destruct (Rle_lt_dec 0 tol) as [|L]; auto. exfalso. pose proof (Rmult_lt_compat_l _ _ _ Q L). lra. }
  assert (EQ : 2 * (2.2e-5 + 20 * PI * tol / vr) = 4.4e-5 + 40 * PI * tol / vr) by (unfold Rdiv; generalize (/ vr); intros; lra). rewrite <- EQ. clear EQ.
  change (abs2 (csum nsb (fun step => (cis (- (2 * PI) * (INR step * INR sb) / INR nsb) * cis (Phi step))%C))) with (sideband_intensity nsb (fun step => cis (Phi step)) sb).
  assert (A2 : forall z : C, Cmod z ^ 2 = abs2 z) by (intros z; unfold Cmod, abs2; rewrite pow2_sqrt by nra; ring).
  apply intensity_close; auto.
  - intros j _. pose proof (exp_imag_modulus (phase_at (sc_fourth sc) nsb vr th al be c j)) as [_ H]. rewrite <- A2 in H. change (Cmod (exp_imag_only (phase_at (sc_fourth sc) nsb vr th al be c j)) <= 1).
    pose proof (Cmod_ge_0 (exp_imag_only (phase_at (sc_fourth sc) nsb vr th al be c j))). nra.
  - intros j _. rewrite Cmod_unit by apply cis_unit. lra.
  - intros j Hj. change (Cmod (exp_imag_only (phase_at (sc_fourth sc) nsb vr th al be c j) - cis (Phi j))%C <= 2.2e-5 + 20 * PI * tol / vr).
    specialize (D j). set (ph := phase_at (sc_fourth sc) nsb vr th al be c j) in *.
    replace (exp_imag_only ph - cis (Phi j))%C with ((exp_imag_only ph - cis ph) + (cis ph - cis (Phi j)))%C by ring. eapply Rle_trans; [apply Cmod_triangle|]. apply Rplus_le_compat.
    + destruct (C64_phase_factor_partial ph) as [H1 [H2 _]]. apply Rsqr_incr_0_var; [|lra]. unfold Rsqr. replace (Cmod (exp_imag_only ph - cis ph)%C * Cmod (exp_imag_only ph - cis ph)%C) with (Cmod (exp_imag_only ph - cis ph)%C ^ 2) by ring.
      rewrite A2. unfold abs2. cbn [fst snd Cminus Cplus Copp cis]. unfold Rminus in H1, H2. set (x := fst (exp_imag_only ph) + - cos ph) in *. set (y := snd (exp_imag_only ph) + - sin ph) in *. clearbody x y.
      apply Rabs_le_between in H1, H2. nra.
    + eapply Rle_trans; [apply cis_lipschitz|]. eapply Rle_trans; [exact D|]. replace (20 * PI * tol / vr) with (1 / vr * (20 * PI * tol)) by (field; lra). apply Rmult_le_compat_r; [apply Rmult_le_pos; [pose proof PI_RGT_0; lra|auto]|].
      apply Rle_div_l; [apply Rmult_lt_0_compat; auto|]. replace (1 / vr * (INR nsb * vr)) with (INR nsb) by (field; lra). apply le_INR. lia.
Qed.
Print Assumptions C111_intensity_partial.
(** A case: the sodium and proton of C109, coupled, at the magic angle with 16 sidebands. *)
Example C111_example : sites_fine true (94 / 10) [sodium; proton 1] [3; 1]%nat [2; 0]%nat [1; 0]%nat /\ couplings_fine [bond] 2 /\
  (flags_needed true [sodium; proton 1] (states [3; 1]%nat [2; 0]%nat) (states [3; 1]%nat [1; 0]%nat) <= length (repeat true 20))%nat /\ 0 < 10000 /\ (0 < 16)%nat.
Proof.
  split; [apply C109_example|]. split; [apply C109_example|]. split; [|split; [lra|lia]]. unfold flags_needed, states. cbn [repeat length].
  assert (L : forall s, (length (existing true s) <= 6)%nat) by (intros s; unfold existing, freq_list_all; cbn [filter exists_forb]; destruct (Req_EM_T (s_spin s) (1 / 2)); cbn; lia).
  pose proof (L sodium). pose proof (L (proton 1)). repeat destruct (Req_EM_T _ _); lia.
Qed.
