(** The energies of a spin system whose frame is turned. *)
From Coq Require Import Reals List Lia Psatz.
From Coquelicot Require Import Coquelicot.
From Verif Require PropAverage PhysEvent.
From Verif Require Import InterpModel DftModel DftProofs FreqModel FreqSpec PhysSpec PhysLevels PhysRot PhysSpin PhysExact PowderModel AverageSpec AverageProofs AveragePhys SphereSpec SphereChange SphereProofs SpherePhys InducedSpec InducedProofs FrameSpec FrameProofs.
From Coq Require Import Lra.
Import ListNotations.
Open Scope R_scope.

Lemma element_z a T u : element (along (about_z a) T) u = element T (zback a u).
Proof. unfold element, along, asum. cbn [about_z zback]. ring. Qed.
Lemma element_y b T u : element (along (about_y b) T) u = element T (yback b u).
Proof. unfold element, along, asum. cbn [about_y yback swap zback]. rewrite cos_neg, sin_neg. ring. Qed.
Lemma element_turned th T u : element (turned th T) u = element T (back1 th u).
Proof. destruct th as [[a b] g]. cbn [turned back1]. rewrite (element_same _ _ _ (along_euler a b g T)). rewrite element_z, element_y, element_z. reflexivity. Qed.
Lemma element_lab pre : forall T u, element (lab pre T) u = element T (back pre u).
Proof. induction pre as [|th pre IH]; intros T u; [reflexivity|]. change (lab (th :: pre) T) with (lab pre (turned th T)). rewrite IH, element_turned. reflexivity. Qed.
Lemma lab_app pre fr T : lab (pre ++ fr) T = lab fr (lab pre T). Proof. apply fold_left_app. Qed.
Lemma square_lab pre : forall T i j, lab pre (product T T) i j = product (lab pre T) (lab pre T) i j.
Proof.
  induction pre as [|th pre IH]; intros T i j; [reflexivity|]. change (lab (th :: pre) (product T T)) with (lab pre (turned th (product T T))). change (lab (th :: pre) T) with (lab pre (turned th T)). rewrite <- IH. apply lab_ext. intros. destruct th as [[a b] g]. apply square_euler.
Qed.
Lemma square_trace pre T : trace (product (lab pre T) (lab pre T)) = trace (product T T).
Proof. rewrite <- (lab_trace pre (product T T)). unfold trace, asum. rewrite !square_lab. reflexivity. Qed.
Lemma square_back pre T u : element (product (lab pre T) (lab pre T)) u = element (product T T) (back pre u).
Proof. rewrite <- element_lab. apply element_same. intros. symmetry. apply square_lab. Qed.

(** Energies that turn with the frame *)
Definition follows (lev : list euler -> R) : Prop :=
  (exists g, tame g /\ forall pre al be, lev (pre ++ static_frame al be) = g (back pre (direction al be))) /\
  forall th, exists g, tame g /\ forall pre al be, mean_over_turn (fun p => lev (pre ++ rotor_frame al be p th)) (g (back pre (direction al be))).
Lemma follows_plus f g : follows f -> follows g -> follows (fun fr => f fr + g fr).
Proof.
  intros [(a & A & E) F] [(b & B & E') G]. split.
  - exists (fun u => a u + b u). split; [apply tame_plus; auto|]. intros. rewrite E, E'. reflexivity.
  - intros th. destruct (F th) as (c & C & Ec), (G th) as (d & D & Ed). exists (fun u => c u + d u). split; [apply tame_plus; auto|]. intros. apply (mean_plus (fun p => f (pre ++ rotor_frame al be p th))); auto.
Qed.
Lemma follows_scal k f : follows f -> follows (fun fr => k * f fr).
Proof.
  intros [(a & A & E) F]. split.
  - exists (fun u => k * a u). split; [apply tame_scal; auto|]. intros. rewrite E. reflexivity.
  - intros th. destruct (F th) as (c & C & Ec). exists (fun u => k * c u). split; [apply tame_scal; auto|]. intros. apply (mean_scal k (fun p => f (pre ++ rotor_frame al be p th))); auto.
Qed.
Lemma follows_const c : follows (fun _ => c).
Proof. split; [|intros _]; exists (fun _ => c); (split; [apply tame_const|]); intros; [reflexivity|apply mean_const]. Qed.
Lemma follows_ext f g : (forall fr, f fr = g fr) -> follows f -> follows g.
Proof.
  intros H [(a & A & E) F]. split; [exists a; split; auto; intros; rewrite <- H; auto|]. intros th. destruct (F th) as (c & C & Ec). exists c. split; auto. intros. eapply mean_ext; [| |apply Ec]; auto. intros. apply H.
Qed.
Lemma traceless_lab pre T : traceless T -> traceless (lab pre T).
Proof. intros [Sy Tr]. split; [apply lab_sym; auto|rewrite lab_trace; auto]. Qed.
Lemma follows_tensor T : traceless T -> follows (fun fr => lab fr T Z Z).
Proof.
  intros H. split.
  - exists (element T). split; [apply tame_element|]. intros. rewrite lab_app, lab_static, element_lab. reflexivity.
  - intros th. exists (fun u => P2 (cos th) * element T u). split; [apply tame_scal, tame_element|]. intros pre al be. rewrite <- element_lab. eapply mean_ext; [| |apply (lab_rotor al be th (lab pre T) (traceless_lab pre T H))]; [|reflexivity]. intros p. cbv beta. rewrite lab_app. reflexivity.
Qed.
Lemma tame_form1 T : tame (form1 T).
Proof. unfold form1. apply tame_plus; [apply tame_element|apply tame_scal, tame_mult; apply tame_element]. Qed.
Lemma tame_form2 T : tame (form2 T).
Proof. unfold form2. apply tame_plus; [apply tame_const|apply tame_plus; apply tame_scal; [apply tame_mult; apply tame_element|apply tame_form1]]. Qed.
Lemma form1_back pre T u : form1 (lab pre T) u = form1 T (back pre u). Proof. unfold form1. rewrite square_back, element_lab. reflexivity. Qed.
Lemma form2_back pre T u : form2 (lab pre T) u = form2 T (back pre u). Proof. unfold form2. rewrite form1_back, element_lab, square_trace. reflexivity. Qed.
Lemma tame_e2 T th : tame (mean_e2 T th).
Proof. unfold mean_e2. apply tame_plus; [apply tame_scal, tame_mult; apply tame_element|apply tame_plus; apply tame_scal; [apply tame_form1|apply tame_form2]]. Qed.
Lemma tame_q T th : tame (mean_q T th).
Proof. unfold mean_q. apply tame_plus; [apply tame_scal, tame_element|apply tame_const]. Qed.
Lemma e2_back pre T th u : mean_e2 (lab pre T) th u = mean_e2 T th (back pre u). Proof. unfold mean_e2. rewrite form1_back, form2_back, element_lab. reflexivity. Qed.
Lemma q_back pre T th u : mean_q (lab pre T) th u = mean_q T th (back pre u). Proof. unfold mean_q. rewrite square_back, square_trace. reflexivity. Qed.
(** The means of the two forms over a turn, as functions of the tensor *)
Definition turn1 (T : tensor3) (th : R) (u : axis -> R) : R := mean_q T th u + -1 * mean_e2 T th u.
Definition turn2 (T : tensor3) (th : R) (u : axis -> R) : R := 2 * trace (product T T) + (-3 * mean_e2 T th u + -4 * turn1 T th u).
Lemma rotor_turns T th : traceless T -> forall al be,
  mean_over_turn (fun p => W1 (lab (rotor_frame al be p th) T)) (turn1 T th (direction al be)) /\ mean_over_turn (fun p => W2 (lab (rotor_frame al be p th) T)) (turn2 T th (direction al be)).
Proof.
  intros [Sy Tr] al be. assert (M1 := mean_plus _ _ _ _ (rotor_q T Sy al be th) (mean_scal (-1) _ _ (rotor_e2 T Sy Tr al be th))). cbv beta zeta in M1. split.
  - eapply mean_ext; [| |exact M1]; [|reflexivity]. intros p. cbv beta. rewrite (proj1 (rotor_W T Sy Tr al be p th)). cbv zeta. ring.
  - eapply mean_ext; [| |exact (mean_plus _ _ _ _ (mean_const (2 * trace (product T T))) (mean_plus _ _ _ _ (mean_scal (-3) _ _ (rotor_e2 T Sy Tr al be th)) (mean_scal (-4) _ _ M1)))]; [|reflexivity].
    intros p. cbv beta zeta. rewrite (proj2 (rotor_W T Sy Tr al be p th)). cbv zeta. ring.
Qed.
Lemma follows_W T : traceless T -> follows (fun fr => W1 (lab fr T)) /\ follows (fun fr => W2 (lab fr T)).
Proof.
  intros H. assert (HL := fun pre => traceless_lab pre T H). split; split.
  - exists (form1 T). split; [apply tame_form1|]. intros pre al be. rewrite lab_app. destruct (HL pre) as [Sy Tr]. rewrite (proj1 (static_W (lab pre T) Sy Tr al be)). apply form1_back.
  - intros th. exists (turn1 T th). split; [apply tame_plus; [apply tame_q|apply tame_scal, tame_e2]|]. intros pre al be. eapply mean_ext; [| |exact (proj1 (rotor_turns (lab pre T) th (HL pre) al be))]; [intros p; cbv beta; rewrite lab_app; reflexivity|]. unfold turn1. rewrite q_back, e2_back. reflexivity.
  - exists (form2 T). split; [apply tame_form2|]. intros pre al be. rewrite lab_app. destruct (HL pre) as [Sy Tr]. rewrite (proj2 (static_W (lab pre T) Sy Tr al be)). apply form2_back.
  - intros th. exists (turn2 T th). split; [apply tame_plus; [apply tame_const|apply tame_plus; apply tame_scal; [apply tame_e2|apply tame_plus; [apply tame_q|apply tame_scal, tame_e2]]]|]. intros pre al be. eapply mean_ext; [| |exact (proj2 (rotor_turns (lab pre T) th (HL pre) al be))]; [intros p; cbv beta; rewrite lab_app; reflexivity|]. unfold turn2, turn1. rewrite q_back, e2_back, square_trace. reflexivity.
Qed.
Lemma follows_energy2 n nu0 Cq th e a : nu0 <> 0 -> (a <= n)%nat -> follows (fun fr => energy2 n nu0 (H_quad n Cq (lab fr (turned th (principal 1 e)))) a).
Proof.
  intros N A. set (T := turned th (principal 1 e)). pose proof (traceless_turned th 1 e) as HT. fold T in HT. destruct (follows_W T HT) as [S1 S2]. destruct HT as [Sy Tr].
  set (m := quantum n a). set (k := kq n Cq). set (c1 := fun m => k * k / 4 * rho2 n m * ((2 * m + 1) * (2 * m + 1))). set (c2 := fun m => k * k / 16 * rho2 n m * rho2 n (m + 1)).
  set (p := (c1 (m - 1) - c1 m) / nu0). set (q := (c2 (m - 2) - c2 m) / 2 / nu0).
  eapply follows_ext; [|apply follows_plus; [apply (follows_scal p); exact S1|apply (follows_scal q); exact S2]].
  intros fr. cbv beta. rewrite energy2_quad by (auto; apply lab_sym; auto). fold m k. unfold U1, U2, p, q, c1, c2. field. auto.
Qed.
Lemma follows_system second B0 sites cps ns lv : (forall s n a, In (s, (n, a)) (combine sites (combine ns lv)) -> (a <= n)%nat /\ (second = true -> B0 * s_gamma s <> 0)) ->
  follows (fun fr => system_level second B0 sites cps fr ns lv).
Proof.
  intros H. destruct (system_split B0 sites cps ns lv ltac:(intros; eapply H; eauto)) as (T & HT & E).
  assert (S2 : follows (fun fr => rtotal (fun x => site_level second B0 (fst x) fr (fst (snd x)) (snd (snd x))) (combine sites (combine ns lv)) - rtotal (fun x => site_level false B0 (fst x) fr (fst (snd x)) (snd (snd x))) (combine sites (combine ns lv)))).
  { destruct second; [|eapply follows_ext; [|apply (follows_const 0)]; intros; cbv beta; ring]. clear E T HT. revert H. generalize (combine sites (combine ns lv)) as l. induction l as [|[s [n a]] l IH]; intros H.
    { eapply follows_ext; [|apply (follows_const 0)]; intros; cbv beta; cbn [rtotal fold_right]; ring. }
    destruct (H s n a ltac:(left; reflexivity)) as [A NZ]. specialize (NZ eq_refl).
    assert (ONE : follows (fun fr => site_level true B0 s fr n a - site_level false B0 s fr n a)).
    { unfold site_level. cbv zeta. destruct (Nat.ltb n 2); [eapply follows_ext; [|apply (follows_const 0)]; intros; cbv beta; ring|].
      eapply follows_ext; [|apply (follows_energy2 n (- (B0 * s_gamma s) * 1000000) (s_Cq s) (s_qtheta s) (s_qeta s) a); [lra|exact A]]. intros fr. cbv beta. ring. }
    eapply follows_ext; [|apply follows_plus; [exact ONE|apply IH; intros; apply H; right; auto]]. intros fr. cbv beta. rewrite !(PhysEvent.rtotal_cons (A := site * (nat * nat))). cbn [fst snd]. ring. }
  set (c := system_level false B0 (map isotropic_site sites) (map isotropic_coupling cps) [] ns lv).
  eapply follows_ext; [|apply follows_plus; [apply follows_plus; [apply (follows_const c)|apply follows_tensor; exact HT]|exact S2]].
  intros fr. cbv beta. specialize (E fr). rewrite (isotropic_level B0 sites cps fr [] ns lv ltac:(intros; eapply H; eauto)) in E. fold c in E. unfold system_level at 1 in E. unfold system_level at 1. lra.
Qed.

(** The turned spin system has the energies of the first one in the turned frame *)
Lemma lab_turned r th th' fr z e i j : z = 0 \/ turned_by r th th' -> lab fr (turned th' (principal z e)) i j = lab (r :: fr) (turned th (principal z e)) i j.
Proof.
  intros [-> | H]; [rewrite !lab_principal0; reflexivity|]. change (lab (r :: fr) (turned th (principal z e))) with (lab fr (turned r (turned th (principal z e)))). apply lab_ext. intros. apply H.
Qed.
Lemma quad_ext n Cq V V' a b : (forall i j, V i j = V' i j) -> H_quad n Cq V a b = H_quad n Cq V' a b.
Proof. intros H. unfold H_quad. f_equal. unfold quadratic. cbv zeta. rewrite !H. reflexivity. Qed.
Lemma quad_0 n V a b : H_quad n 0 V a b = RtoC 0.
Proof. unfold H_quad. unfold Rdiv. rewrite Rmult_0_l, Cmult_0_l. reflexivity. Qed.
Lemma energy1_ext H H' a : (forall a b, H a b = H' a b) -> energy1 H a = energy1 H' a.
Proof. intros E. unfold energy1. rewrite E. reflexivity. Qed.
Lemma energy2_ext n nu0 H H' a : (forall a b, H a b = H' a b) -> energy2 n nu0 H a = energy2 n nu0 H' a.
Proof. intros E. unfold energy2. apply rsum_ext. intros b _. rewrite E. reflexivity. Qed.
Lemma site_turned_level second B0 r s s' fr n a : site_turned r s s' -> site_level second B0 s' fr n a = site_level second B0 s (r :: fr) n a.
Proof.
  intros (_ & G & I & Ze & Et & Cq & Qe & T & Q). unfold site_level. cbv zeta. rewrite G, I, Ze, Et, Cq, Qe. rewrite (lab_turned r (s_theta s) (s_theta s') fr _ _ Z Z T). f_equal.
  assert (E : forall x y, H_quad n (s_Cq s) (lab fr (turned (s_qtheta s') (principal 1 (s_qeta s)))) x y = H_quad n (s_Cq s) (lab (r :: fr) (turned (s_qtheta s) (principal 1 (s_qeta s)))) x y).
  { intros x y. destruct Q as [-> | Q]; [rewrite !quad_0; reflexivity|]. apply quad_ext. intros. apply lab_turned. auto. }
  rewrite (energy1_ext _ _ a E), (energy2_ext n (- (B0 * s_gamma s) * 1000000) _ _ a E). reflexivity.
Qed.
Lemma coupling_turned_level r c c' fr mA mX : coupling_turned r c c' -> coupling_level c' fr mA mX = coupling_level c (r :: fr) mA mX.
Proof.
  intros (_ & _ & J & Ze & Et & D & T & Q). unfold coupling_level. rewrite J, Ze, Et, D, (lab_turned r (c_theta c) (c_theta c') fr _ _ Z Z T). destruct Q as [-> | Q]; [ring|]. rewrite (lab_turned r (c_dtheta c) (c_dtheta c') fr 1 0 Z Z (or_intror Q)). reflexivity.
Qed.
Lemma system_turned_level second B0 r sites sites' cps cps' fr ns lv : system_turned r sites sites' cps cps' -> system_level second B0 sites' cps' fr ns lv = system_level second B0 sites cps (r :: fr) ns lv.
Proof.
  intros [S C]. unfold system_level. f_equal.
  - generalize (combine ns lv) as l. induction S as [|s s' sites sites' H S IH]; intros [|[n a] l]; try reflexivity. cbn [combine]. rewrite !(PhysEvent.rtotal_cons (A := site * (nat * nat))). rewrite IH. cbn [fst snd]. rewrite (site_turned_level second B0 r s s' fr n a H). reflexivity.
  - induction C as [|c c' cps cps' H C IH]; [reflexivity|]. rewrite !(PhysEvent.rtotal_cons (A := coupling)). rewrite IH, (coupling_turned_level r c c' fr _ _ H). destruct H as (-> & -> & _). reflexivity.
Qed.

(** Two turns one after the other are one turn *)
Lemma circle x y : x * x + y * y = 1 -> exists a, cos a = x /\ sin a = y.
Proof.
  intros H. assert (B : -1 <= x <= 1) by nra. assert (S : sin (acos x) = sqrt (y * y)) by (rewrite sin_acos by auto; f_equal; unfold Rsqr; lra).
  destruct (Rle_dec 0 y) as [P|P].
  - exists (acos x). rewrite cos_acos by auto. rewrite S, sqrt_square by auto. auto.
  - exists (- acos x). rewrite cos_neg, sin_neg, cos_acos by auto. rewrite S. replace (y * y) with (- y * - y) by ring. rewrite sqrt_square by lra. split; [auto|ring].
Qed.
Lemma polar_direction u : unit_vector u -> exists al be, 0 <= be <= PI /\ forall i, direction al be i = u i.
Proof.
  unfold unit_vector. intros U. assert (B : -1 <= u Z <= 1) by nra. set (s := sqrt (1 - u Z * u Z)). assert (S : s * s = u X * u X + u Y * u Y) by (unfold s; rewrite sqrt_sqrt by nra; lra).
  assert (Sb : sin (acos (u Z)) = s) by (rewrite sin_acos by auto; reflexivity). destruct (Req_dec s 0) as [E|E].
  - exists 0, (acos (u Z)). split; [apply acos_bound|]. assert (u X = 0 /\ u Y = 0) as [X0 Y0] by (rewrite E in S; split; nra). intros i. destruct i; cbn; rewrite ?Sb, ?E, ?cos_acos by auto; lra.
  - destruct (circle (u X / s) (u Y / s)) as (al & C1 & S1). { replace (u X / s * (u X / s) + u Y / s * (u Y / s)) with ((u X * u X + u Y * u Y) / (s * s)) by (field; auto). rewrite <- S. field. auto. }
    exists al, (acos (u Z)). split; [apply acos_bound|]. intros i. destruct i; cbn; rewrite ?Sb, ?C1, ?S1, ?cos_acos by auto; field; auto.
Qed.
(** Axes: orthogonal, of determinant 1 *)
Definition det3 (M : tensor3) : R := M X X * (M Y Y * M Z Z - M Y Z * M Z Y) - M X Y * (M Y X * M Z Z - M Y Z * M Z X) + M X Z * (M Y X * M Z Y - M Y Y * M Z X).
Definition rotation (M : tensor3) : Prop := (forall i j, asum (fun k => M i k * M j k) = match i, j with X, X | Y, Y | Z, Z => 1 | _, _ => 0 end) /\ det3 M = 1.
Lemma rotation_product A B : rotation A -> rotation B -> rotation (product A B).
Proof.
  intros [OA DA] [OB DB]. split.
  - intros i j. rewrite <- (OA i j). unfold product, asum in *. pose proof (OB X X) as b1. pose proof (OB X Y) as b2. pose proof (OB X Z) as b3. pose proof (OB Y Y) as b4. pose proof (OB Y Z) as b5. pose proof (OB Z Z) as b6. cbn in b1, b2, b3, b4, b5, b6.
    match goal with |- ?l = ?r => replace l with (A i X * A j X * (B X X * B X X + B X Y * B X Y + B X Z * B X Z) + A i Y * A j Y * (B Y X * B Y X + B Y Y * B Y Y + B Y Z * B Y Z) + A i Z * A j Z * (B Z X * B Z X + B Z Y * B Z Y + B Z Z * B Z Z)
      + (A i X * A j Y + A i Y * A j X) * (B X X * B Y X + B X Y * B Y Y + B X Z * B Y Z) + (A i X * A j Z + A i Z * A j X) * (B X X * B Z X + B X Y * B Z Y + B X Z * B Z Z) + (A i Y * A j Z + A i Z * A j Y) * (B Y X * B Z X + B Y Y * B Z Y + B Y Z * B Z Z)) by ring end.
    rewrite b1, b2, b3, b4, b5, b6. ring.
  - transitivity (det3 A * det3 B); [unfold det3, product, asum; ring|]. rewrite DA, DB. ring.
Qed.
Lemma rotation_z a : rotation (about_z a).
Proof. pose proof (sin2_cos2 a) as S. unfold Rsqr in S. split; [intros i j; destruct i, j; unfold asum; cbn; lra|]. unfold det3. cbn. lra. Qed.
Lemma rotation_y a : rotation (about_y a).
Proof. pose proof (sin2_cos2 a) as S. unfold Rsqr in S. split; [intros i j; destruct i, j; unfold asum; cbn; lra|]. unfold det3. cbn. lra. Qed.
Lemma rotation_euler a b g : rotation (euler_axes a b g).
Proof. unfold euler_axes. auto using rotation_product, rotation_z, rotation_y. Qed.
Lemma rotation_pole N : rotation N -> N Z X = 0 -> N Z Y = 0 -> N Z Z = 1 -> exists g, forall i j, N i j = about_z g i j.
Proof.
  intros [O D] A B C. pose proof (O X X) as o1. pose proof (O X Z) as o2. pose proof (O Y Z) as o3. pose proof (O X Y) as o4. pose proof (O Y Y) as o5. unfold asum, det3 in *. rewrite A, B, C in *.
  assert (XZ : N X Z = 0) by lra. assert (YZ : N Y Z = 0) by lra. rewrite XZ, YZ in *. destruct (circle (N X X) (N X Y)) as (g & Cg & Sg); [lra|]. exists g.
  assert (q1 : N X X * N X X + N X Y * N X Y = 1) by lra. assert (q2 : N X X * N Y X + N X Y * N Y Y = 0) by lra. assert (q3 : N X X * N Y Y - N X Y * N Y X = 1) by lra.
  assert (E1 : N Y X = - N X Y). { transitivity (N Y X * (N X X * N X X + N X Y * N X Y)); [rewrite q1; ring|]. transitivity (N X X * (N X X * N Y X + N X Y * N Y Y) - N X Y * (N X X * N Y Y - N X Y * N Y X)); [ring|rewrite q2, q3; ring]. }
  assert (E2 : N Y Y = N X X). { transitivity (N Y Y * (N X X * N X X + N X Y * N X Y)); [rewrite q1; ring|]. transitivity (N X Y * (N X X * N Y X + N X Y * N Y Y) + N X X * (N X X * N Y Y - N X Y * N Y X)); [ring|rewrite q2, q3; ring]. }
  intros i j. destruct i, j; cbn; lra.
Qed.
Lemma euler_rotation M : rotation M -> exists al be g, 0 <= be <= PI /\ forall i j, M i j = euler_axes al be g i j.
Proof.
  intros RM. pose proof RM as [O D]. destruct (polar_direction (M Z)) as (al & be & Hb & E); [pose proof (O Z Z) as H; unfold asum in H; exact H|].
  set (P := product (about_y be) (about_z al)). assert (RP : rotation P) by (apply rotation_product; auto using rotation_z, rotation_y).
  set (tP := fun i j => P j i : R). assert (RT : rotation tP).
  { pose proof (sin2_cos2 al) as S1. pose proof (sin2_cos2 be) as S2. unfold Rsqr in S1, S2. assert (Q1 : sin al * sin al = 1 - cos al * cos al) by lra. assert (Q2 : sin be * sin be = 1 - cos be * cos be) by lra.
    split; [intros i j; destruct i, j; unfold tP, P, product, asum; cbn; ring [Q1 Q2]|]. unfold det3, tP, P, product, asum; cbn. ring [Q1 Q2]. }
  set (N := product M tP). assert (RN : rotation N) by (apply rotation_product; auto).
  assert (PZ : forall j, P Z j = M Z j) by (intros j; rewrite <- E; destruct j; unfold P, product, asum; cbn; ring).
  destruct RP as [OP DP]. destruct (rotation_pole N RN) as (g & G).
  - pose proof (OP Z X) as H. unfold N, product, tP, asum in *. rewrite !PZ in H. exact H.
  - pose proof (OP Z Y) as H. unfold N, product, tP, asum in *. rewrite !PZ in H. exact H.
  - pose proof (OP Z Z) as H. unfold N, product, tP, asum in *. rewrite !PZ in *. exact H.
  - exists al, be, g. split; auto. intros i j. unfold euler_axes. fold P.
    assert (I : M i j = product N P i j).
    { destruct RT as [OT _]. unfold N, product, asum. unfold tP at 1 2 3 4 5 6 7 8 9. pose proof (OT X j) as t1. pose proof (OT Y j) as t2. pose proof (OT Z j) as t3. unfold asum, tP in t1, t2, t3.
      match goal with |- _ = ?r => replace r with (M i X * (P X X * P X j + P Y X * P Y j + P Z X * P Z j) + M i Y * (P X Y * P X j + P Y Y * P Y j + P Z Y * P Z j) + M i Z * (P X Z * P X j + P Y Z * P Y j + P Z Z * P Z j)) by ring end.
      rewrite t1, t2, t3. destruct j; ring. }
    rewrite I. unfold product at 1 2, asum. rewrite !G. reflexivity.
Qed.
Lemma along_product A B T i j : along A (along B T) i j = along (product A B) T i j.
Proof. unfold along, product, asum. ring. Qed.
Lemma turned_exists r th : exists a b g, 0 <= b <= PI /\ turned_by r th (a, b, g).
Proof.
  destruct r as [[a1 b1] g1], th as [[a2 b2] g2]. destruct (euler_rotation (product (euler_axes a1 b1 g1) (euler_axes a2 b2 g2))) as (a & b & g & Hb & E); [apply rotation_product; apply rotation_euler|].
  exists a, b, g. split; auto. intros T i j. cbn [turned]. rewrite along_product. unfold along at 1 2, asum. rewrite <- !E. reflexivity.
Qed.
