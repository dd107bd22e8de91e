(** The first order energies are linear in the tensors: the powder average leaves the isotropic part. *)
From Coq Require Import Reals List ZArith Lra Lia Bool.
From Coquelicot Require Import Coquelicot.
From Verif Require Import InterpModel InterpSpec PowderModel DftModel DftProofs WignerMatrix WignerModel WignerNorm WignerProofs FreqModel FreqSpec FreqProofs.
From Verif Require Import PhysSpec PhysLevels PhysRot PhysCouple PhysSpin PhysExact PhysRotor PhysEvent AverageSpec AverageProofs.
Import ListNotations.
Open Scope R_scope.

Definition tplus (A B : tensor3) : tensor3 := fun i j => A i j + B i j.
Definition tscal (q : R) (A : tensor3) : tensor3 := fun i j => q * A i j.
Definition traceless (T : tensor3) : Prop := symmetric T /\ trace T = 0.
Lemma traceless_plus A B : traceless A -> traceless B -> traceless (tplus A B).
Proof. intros [SA TA] [SB TB]. split; [intros i j; unfold tplus; rewrite SA, SB; reflexivity|]. unfold trace, asum, tplus in *. lra. Qed.
Lemma traceless_scal q A : traceless A -> traceless (tscal q A).
Proof. intros [SA TA]. split; [intros i j; unfold tscal; rewrite SA; reflexivity|]. unfold trace, asum, tscal in *. replace (q * A X X + q * A Y Y + q * A Z Z) with (q * (A X X + A Y Y + A Z Z)) by ring. rewrite TA. ring. Qed.
Lemma traceless_turned th z e : traceless (turned th (principal z e)).
Proof. split; [apply turned_sym, principal_sym|]. rewrite turned_trace. apply principal_trace. Qed.
Lemma along_plus M A B i j : along M (tplus A B) i j = along M A i j + along M B i j.
Proof. unfold along, tplus, asum. ring. Qed.
Lemma lab_ext fr : forall A B, (forall i j, A i j = B i j) -> forall i j, lab fr A i j = lab fr B i j.
Proof.
  induction fr as [|th fr IH]; intros A B H i j; [apply H|]. cbn [lab fold_left]. apply (IH (turned th A) (turned th B)). intros k l. destruct th as [[a b] g]. unfold turned, along, asum. rewrite !H. reflexivity.
Qed.
Lemma lab_plus fr : forall A B i j, lab fr (tplus A B) i j = lab fr A i j + lab fr B i j.
Proof.
  induction fr as [|th fr IH]; intros A B i j; [reflexivity|]. change (lab (th :: fr) (tplus A B) i j) with (lab fr (turned th (tplus A B)) i j). change (lab (th :: fr) A i j) with (lab fr (turned th A) i j). change (lab (th :: fr) B i j) with (lab fr (turned th B) i j).
  rewrite <- IH. apply lab_ext. intros k l. destruct th as [[a b] g]. apply along_plus.
Qed.
Lemma lab_tscal fr q : forall A i j, lab fr (tscal q A) i j = q * lab fr A i j.
Proof.
  induction fr as [|th fr IH]; intros A i j; [reflexivity|]. change (lab (th :: fr) (tscal q A) i j) with (lab fr (turned th (tscal q A)) i j). change (lab (th :: fr) A i j) with (lab fr (turned th A) i j).
  rewrite <- IH. apply lab_ext. intros k l. destruct th as [[a b] g]. apply along_scale. reflexivity.
Qed.
Lemma lab_principal0 fr th e i j : lab fr (turned th (principal 0 e)) i j = 0.
Proof. rewrite lab_scale. ring. Qed.

(** A site and a coupling without their anisotropies: in AverageSpec's terms, [isotropic_site] and [isotropic_coupling]. *)
Lemma site_split B0 s n a : (a <= n)%nat -> exists T, traceless T /\ forall fr, site_level false B0 s fr n a = site_level false B0 (isotropic_site s) fr n a + lab fr T Z Z.
Proof.
  intros L. set (m := quantum n a). set (k := - (B0 * s_gamma s)).
  exists (tplus (tscal (- (k * m)) (turned (s_theta s) (principal (s_zeta s) (s_eta s))))
    (tscal (if Nat.ltb n 2 then 0 else kq n (s_Cq s) * ((3 * (m * m) - spin n * (spin n + 1)) / 2)) (turned (s_qtheta s) (principal 1 (s_qeta s))))).
  split; [apply traceless_plus; apply traceless_scal, traceless_turned|]. intros fr. unfold site_level. cbv zeta. cbn [isotropic_site s_gamma s_iso s_zeta s_eta s_theta s_Cq s_qeta s_qtheta]. rewrite lab_plus, !lab_tscal, lab_principal0. fold k m.
  destruct (Nat.ltb n 2); [ring|].
  assert (V : traceless (lab fr (turned (s_qtheta s) (principal 1 (s_qeta s))))) by (split; [apply lab_sym, turned_sym, principal_sym|rewrite lab_trace, turned_trace; apply principal_trace]). destruct V as [V1 V2].
  rewrite !energy1_quad by auto. fold m. assert (K0 : kq n 0 = 0) by (unfold kq, Rdiv; ring). rewrite K0. field.
Qed.
Lemma coupling_split cp mA mX : exists T, traceless T /\ forall fr, coupling_level cp fr mA mX = coupling_level (isotropic_coupling cp) fr mA mX + lab fr T Z Z.
Proof.
  exists (tscal (mA * mX) (tplus (turned (c_theta cp) (principal (c_zeta cp) (c_eta cp))) (tscal (2 * c_D cp) (turned (c_dtheta cp) (principal 1 0))))).
  split; [apply traceless_scal, traceless_plus; [|apply traceless_scal]; apply traceless_turned|]. intros fr. unfold coupling_level. cbn [isotropic_coupling c_J c_zeta c_eta c_theta c_D c_dtheta]. rewrite lab_tscal, lab_plus, lab_tscal, lab_principal0. ring.
Qed.
Lemma traceless_0 : traceless (fun _ _ => 0).
Proof. split; [intros i j; reflexivity|]. unfold trace, asum. ring. Qed.
Lemma lab_0 fr i j : lab fr (fun _ _ => 0) i j = 0.
Proof. rewrite (lab_ext fr _ (tscal 0 (fun _ _ => 0))) by (intros; unfold tscal; ring). rewrite lab_tscal. ring. Qed.
Lemma system_split B0 sites cps ns lv : (forall s n a, In (s, (n, a)) (combine sites (combine ns lv)) -> (a <= n)%nat) -> exists T, traceless T /\
  forall fr, system_level false B0 sites cps fr ns lv = system_level false B0 (map isotropic_site sites) (map isotropic_coupling cps) fr ns lv + lab fr T Z Z.
Proof.
  intros H. unfold system_level.
  assert (A : exists T, traceless T /\ forall fr, rtotal (fun x => site_level false B0 (fst x) fr (fst (snd x)) (snd (snd x))) (combine sites (combine ns lv)) =
    rtotal (fun x => site_level false B0 (fst x) fr (fst (snd x)) (snd (snd x))) (combine (map isotropic_site sites) (combine ns lv)) + lab fr T Z Z).
  { revert H. generalize (combine ns lv) as l. induction sites as [|s sites IH]; intros l H; [exists (fun _ _ => 0); split; [apply traceless_0|intros; rewrite lab_0; cbn; ring]|].
    destruct l as [|[n a] l]; [exists (fun _ _ => 0); split; [apply traceless_0|intros; rewrite lab_0; cbn; ring]|]. cbn [combine map] in *.
    destruct (IH l (fun s' n' a' I => H s' n' a' (or_intror I))) as (T & HT & E). destruct (site_split B0 s n a (H s n a (or_introl eq_refl))) as (T' & HT' & E').
    exists (tplus T' T). split; [apply traceless_plus; auto|]. intros fr. rewrite !(rtotal_cons (A := site * _)). rewrite lab_plus, E. cbn [fst snd]. rewrite E'. ring. }
  assert (B : exists T, traceless T /\ forall fr, rtotal (fun cp => coupling_level cp fr (state_of ns lv (c_A cp)) (state_of ns lv (c_X cp))) cps =
    rtotal (fun cp => coupling_level cp fr (state_of ns lv (c_A cp)) (state_of ns lv (c_X cp))) (map isotropic_coupling cps) + lab fr T Z Z).
  { clear. induction cps as [|cp cps IH]; [exists (fun _ _ => 0); split; [apply traceless_0|intros; rewrite lab_0; cbn; ring]|].
    destruct IH as (T & HT & E). destruct (coupling_split cp (state_of ns lv (c_A cp)) (state_of ns lv (c_X cp))) as (T' & HT' & E').
    exists (tplus T' T). split; [apply traceless_plus; auto|]. intros fr. cbn [map]. rewrite !(rtotal_cons (A := coupling)). rewrite lab_plus, E. cbn [isotropic_coupling c_A c_X]. rewrite E'. ring. }
  destruct A as (T & HT & E), B as (T' & HT' & E'). exists (tplus T T'). split; [apply traceless_plus; auto|]. intros fr. rewrite E, E', lab_plus. ring.
Qed.
(** The isotropic part does not depend on the orientation. *)
Lemma isotropic_site_level B0 s fr fr' n a : (a <= n)%nat -> site_level false B0 (isotropic_site s) fr n a = site_level false B0 (isotropic_site s) fr' n a.
Proof.
  intros L. unfold site_level. cbv zeta. cbn [isotropic_site s_gamma s_iso s_zeta s_eta s_theta s_Cq s_qeta s_qtheta]. rewrite !lab_principal0. destruct (Nat.ltb n 2); [reflexivity|].
  assert (K0 : kq n 0 = 0) by (unfold kq, Rdiv; ring). rewrite !energy1_quad by (auto; try (apply lab_sym, turned_sym, principal_sym); rewrite lab_trace, turned_trace; apply principal_trace). rewrite K0. ring.
Qed.
Lemma isotropic_coupling_level cp fr fr' mA mX : coupling_level (isotropic_coupling cp) fr mA mX = coupling_level (isotropic_coupling cp) fr' mA mX.
Proof. unfold coupling_level. cbn [isotropic_coupling c_J c_zeta c_eta c_theta c_D c_dtheta]. rewrite !lab_principal0. ring. Qed.
Lemma isotropic_level B0 sites cps fr fr' ns lv : (forall s n a, In (s, (n, a)) (combine sites (combine ns lv)) -> (a <= n)%nat) ->
  system_level false B0 (map isotropic_site sites) (map isotropic_coupling cps) fr ns lv = system_level false B0 (map isotropic_site sites) (map isotropic_coupling cps) fr' ns lv.
Proof.
  intros H. unfold system_level. f_equal.
  - revert H. generalize (combine ns lv) as l. induction sites as [|s sites IH]; intros [|[n a] l] H; try reflexivity. cbn [combine map] in *. rewrite !(rtotal_cons (A := site * _)).
    rewrite (IH l (fun s' n' a' I => H s' n' a' (or_intror I))). cbn [fst snd]. rewrite (isotropic_site_level B0 s fr fr' n a (H s n a (or_introl eq_refl))). reflexivity.
  - clear. induction cps as [|cp cps IH]; [reflexivity|]. cbn [map]. rewrite !(rtotal_cons (A := coupling)). rewrite IH, (isotropic_coupling_level cp fr fr'). reflexivity.
Qed.
(** Static samples and the mean over a turn of a rotor *)
Lemma lab_static al be T : lab (static_frame al be) T Z Z = element T (direction al be).
Proof. unfold static_frame. cbn [lab fold_left turned]. apply along_element. Qed.
Lemma lab_exact fr T : traceless T -> lab fr T Z Z = exact_frequency (only2 (spherical T)) fr.
Proof. intros [Sy Tr]. rewrite exact_only2, through_spherical by auto. reflexivity. Qed.
Lemma lab_rotor al be th T : traceless T -> mean_over_turn (fun p => lab (rotor_frame al be p th) T Z Z) (P2 (cos th) * element T (direction al be)).
Proof.
  intros H. unfold mean_over_turn. pose proof (rotor_mean (only2 (spherical T)) al be th) as M. rewrite mean2 in M. rewrite <- (lab_exact [(al, be, 0)] T H) in M. change [(al, be, 0)] with (static_frame al be) in M. rewrite lab_static in M.
  eapply is_RInt_ext; [|exact M]. intros p _. cbv beta. symmetry. apply lab_exact. exact H.
Qed.
