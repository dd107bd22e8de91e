(** C108-C110: the frequencies are those of quantum mechanics. *)
From Coq Require Import Reals List ZArith Lra Lia Bool Psatz.
From Coquelicot Require Import Coquelicot.
From Verif Require Import DftModel DftProofs WignerMatrix WignerModel WignerSpec WignerOrtho WignerNorm WignerProofs FreqModel FreqSpec FreqProofs CoreProofs PropFreq.
From Verif Require Import PhysSpec PhysLevels PhysRot PhysCouple PhysSpin PhysExact PhysClose PhysRotor PhysEvent.
Import ListNotations.
Open Scope R_scope.

(** ** C108 *)
(** The specification's axes are orthogonal, of unit length, with z along the direction (alpha, beta); the spherical components
    determine a traceless tensor. *)
Theorem C108_axes : forall a b g : R,
  (forall i j, asum (fun k => euler_axes a b g i k * euler_axes a b g j k) = match i, j with X, X | Y, Y | Z, Z => 1 | _, _ => 0 end) /\
  (forall i, euler_axes a b g Z i = direction a b i).
Proof.
  intros a b g. pose proof (sin2_cos2 a) as Ha. pose proof (sin2_cos2 b) as Hb. pose proof (sin2_cos2 g) as Hg. unfold Rsqr in *.
  assert (Ca : cos a * cos a = 1 - sin a * sin a) by lra. assert (Cb : cos b * cos b = 1 - sin b * sin b) by lra. assert (Cg : cos g * cos g = 1 - sin g * sin g) by lra. clear Ha Hb Hg.
  split.
  - intros [] []; unfold euler_axes, product, asum, about_y, about_z; ring [Ca Cb Cg].
  - intros []; unfold euler_axes, product, asum, about_y, about_z, direction; ring.
Qed.
Print Assumptions C108_axes.
Theorem C108_components : forall T T', symmetric T -> symmetric T' -> trace T = 0 -> trace T' = 0 -> spherical T = spherical T' -> forall i j, T i j = T' i j.
Proof.
  intros T T' S S' Tr Tr' E i j. unfold trace, asum in *. destruct sqrt_consts as [_ [_ [H3 [_ P]]]]. unfold spherical in E. injection E as E1 E2 E3 E4 E5 E6 E7 E8 E9.
  assert (P3 : 0 < sqrt (2 / 3)) by (apply sqrt_lt_R0; lra).
  assert (A1 : T X X - T Y Y = T' X X - T' Y Y) by (apply (Rmult_eq_reg_r (/ sqrt 6)); [exact E1|apply Rinv_neq_0_compat; lra]).
  assert (A2 : T X Y = T' X Y) by (apply Ropp_eq_compat in E2; rewrite !Ropp_involutive in E2; apply (Rmult_eq_reg_r (/ sqrt 6)) in E2; [lra|apply Rinv_neq_0_compat; lra]).
  assert (A3 : T X Z = T' X Z) by (apply (Rmult_eq_reg_l (sqrt (2 / 3))); [exact E3|lra]).
  assert (A4 : T Y Z = T' Y Z) by (apply Ropp_eq_compat in E4; rewrite !Ropp_involutive in E4; apply (Rmult_eq_reg_l (sqrt (2 / 3))); [exact E4|lra]).
  assert (A5 : T Z Z = T' Z Z) by exact E5.
  destruct i, j; rewrite ?(S Y X), ?(S Z X), ?(S Z Y), ?(S' Y X), ?(S' Z X), ?(S' Z Y); lra.
Qed.
Print Assumptions C108_components.
(** The code's rotation of the components of any traceless symmetric tensor by Euler angles gives those of the tensor along the turned
    axes, to 1.1e-7 of the sum of their moduli, for every alpha, gamma and 0 <= beta < 2 pi. *)
Theorem C108_rotation : forall (a b g : R) (T : tensor3) (i : nat), symmetric T -> trace T = 0 -> 0 <= b < 6.2831 -> (i < 5)%nat ->
  Cmod (nth i (single_wigner_rotation decimal 2 a b g (spherical T)) (RtoC 0) - nth i (spherical (along (euler_axes a b g) T)) (RtoC 0))%C <=
  1.1e-7 * rsum 5 (fun j => Cmod (nth j (spherical T) (RtoC 0))).
Proof.
  intros a b g T i S Tr B Hi. rewrite <- rotation_spherical by auto. unfold single_wigner_rotation.
  assert (RK : rank 2) by (left; reflexivity). assert (T0 : 0 <= tol_table 2) by (unfold tol_table; cbn; lra).
  pose proof (row_diff 2 a g (cos_sin_from_table b) (cis b) (tol_table 2) (spherical T) (spherical T) i RK (cis_unit b) T0 (fun i j Hi Hj => tol_tables 2 b i j RK B Hi Hj) Hi) as H.
  unfold tol_table, size, gap in H. cbn [Nat.eqb] in H. change (2 * 2 + 1)%nat with 5%nat in H.
  assert (Z0 : rsum 5 (fun i => Cmod (nth i (spherical T) (RtoC 0) - nth i (spherical T) (RtoC 0))%C) = 0).
  { rewrite (rsum_ext 5 _ (fun _ => 0)) by (intros; replace (nth j (spherical T) (RtoC 0) - nth j (spherical T) (RtoC 0))%C with (RtoC 0) by ring; apply Cmod_0). rewrite rsum_const. ring. }
  rewrite Z0, Rplus_0_r in H. exact H.
Qed.
Print Assumptions C108_rotation.
(** With exact constants and cosines it is exact. *)
Theorem C108_exact : forall (a b g : R) (T : tensor3), symmetric T -> trace T = 0 -> rotation ideal 2 a (cis b) g (spherical T) = spherical (along (euler_axes a b g) T).
Proof. intros. apply rotation_spherical; auto. Qed.
Print Assumptions C108_exact.
(** What the sites give: the principal values in the convention of Haeberlen. *)
Theorem C108_principal : forall zeta eta : R, let T := principal zeta eta in
  symmetric T /\ trace T = 0 /\ T Z Z = zeta /\ T Y Y - T X X = eta * zeta /\ spherical T = pas2 (- (zeta * eta / sqrt 6)) zeta.
Proof.
  intros zeta eta T. split; [apply principal_sym|]. split; [apply principal_trace|]. split; [reflexivity|]. split; [unfold T; cbn; field|].
  destruct sqrt_consts as [_ [_ [_ [_ P]]]]. unfold T, pas2, spherical, principal.
  repeat match goal with |- cons _ _ = cons _ _ => apply (f_equal2 cons) end; try reflexivity; apply C_ext; cbn; field; lra.
Qed.
Print Assumptions C108_principal.
Example C108_example : symmetric (principal 7 (1 / 2)) /\ trace (principal 7 (1 / 2)) = 0 /\ 0 <= 1 < 6.2831 /\ along (euler_axes 0 (PI / 2) 0) (principal 7 (1 / 2)) Z Z = - 21 / 4.
Proof.
  split; [apply principal_sym|]. split; [apply principal_trace|]. split; [lra|]. rewrite along_element. unfold element, asum, direction, principal. rewrite cos_PI2, sin_PI2, cos_0, sin_0. field.
Qed.

(** ** C109 *)
(** The specification's spin matrices are those of a spin n/2. *)
Definition next_axis (i : axis) : axis := match i with X => Y | Y => Z | Z => X end.
Theorem C109_spin_matrices : forall (n a b : nat), (a <= n)%nat -> (b <= n)%nat ->
  (forall i, compose n (spin_op n i) (spin_op n (next_axis i)) a b - compose n (spin_op n (next_axis i)) (spin_op n i) a b = Ci * spin_op n (next_axis (next_axis i)) a b)%C /\
  (compose n (spin_op n X) (spin_op n X) a b + compose n (spin_op n Y) (spin_op n Y) a b + compose n (spin_op n Z) (spin_op n Z) a b =
     if Nat.eqb a b then RtoC (spin n * (spin n + 1)) else RtoC 0)%C /\
  spin_op n Z a b = (if Nat.eqb a b then RtoC (quantum n a) else RtoC 0).
Proof.
  intros n a b La Lb. split; [|split; [apply casimir; auto|reflexivity]]. intros i. pose proof (commutator n i a b La Lb) as H. destruct i; exact H.
Qed.
Print Assumptions C109_spin_matrices.

(** The components of an event and its frequency in an orientation of the crystallite (the field at alpha, beta) with rotor angle theta. *)
Definition event_frequency (fourth : bool) (B0 : R) (sites : list site) (couplings : list coupling) (mi mf more : list R) (flags : list bool) (alpha beta theta : R) : option R :=
  option_map (fun c => isotropic c + anisotropic fourth c alpha (cis beta) theta) (event_components decimal_f fourth B0 sites couplings (mi ++ mf ++ more) flags).
(** Static samples: for every spin system, every transition, every orientation, the frequency of an event with all the contributions
    is the difference of the energies of the two states. *)
Theorem C109_static_partial : forall (fourth : bool) (B0 : R) (sites : list site) (couplings : list coupling) (ns levels levels' : list nat) (more : list R) (flags : list bool) (alpha beta : R),
  sites_fine fourth B0 sites ns levels levels' -> couplings_fine couplings (length sites) ->
  (forall b, In b flags -> b = true) -> (flags_needed fourth sites (states ns levels) (states ns levels') <= length flags)%nat ->
  exists nu, event_frequency fourth B0 sites couplings (states ns levels) (states ns levels') more flags alpha beta 0 = Some nu /\
    let E := system_level fourth B0 sites couplings (static_frame alpha beta) ns in
    Rabs (nu - (E levels' - E levels)) <= system_tolerance fourth B0 sites couplings ns levels levels'.
Proof.
  intros fourth B0 sites cps ns lv lv' more flags al be F G T N. destruct (sites_length _ _ _ _ _ _ F) as [L1 [L2 _]]. unfold event_frequency.
  rewrite (components_all decimal_f fourth B0 sites cps (states ns lv) (states ns lv') more flags L1 L2 (fun cp H => conj (proj1 (G cp H)) (proj1 (proj2 (G cp H)))) T N). cbn [option_map]. eexists. split; [reflexivity|].
  cbv zeta. rewrite <- (system_exact fourth B0 sites cps ns lv lv' (static_frame al be) F G). pose proof (system_close fourth B0 sites cps ns lv lv' al be 0 F G) as H.
  assert (E : exact_system (fun c => exact_mean c al be 0) fourth B0 sites cps ns lv lv' = exact_system (fun c => exact_frequency c (static_frame al be)) fourth B0 sites cps ns lv lv').
  { unfold exact_system, rtotal. f_equal.
    - induction (combine sites (combine ns (combine lv lv'))) as [|[s [n [a a']]] l IH]; [reflexivity|]. cbn [fold_right]. rewrite IH. f_equal. induction (existing fourth s) as [|c l' IH']; [reflexivity|]. cbn [fold_right]. rewrite IH'. f_equal. apply mean_static.
    - clear. induction cps as [|cp l IH]; [reflexivity|]. cbn [fold_right]. rewrite IH. f_equal. cbn [seq fold_right]. rewrite !mean_static. reflexivity. }
  rewrite <- E. exact H.
Qed.
Print Assumptions C109_static_partial.
(** A case: sodium (spin 3/2) and a proton with J and dipolar coupling in a field of 9.4 T; the central transition, all the flags of two events. *)
Definition bond : coupling := {| c_A := 0; c_X := 1; c_J := 10; c_zeta := 3; c_eta := 1 / 3; c_theta := (1, 2, 3); c_D := 500; c_dtheta := (0, 1, 0) |}.
Example C109_example : sites_fine true (94 / 10) [sodium; proton 1] [3; 1]%nat [2; 0]%nat [1; 0]%nat /\ couplings_fine [bond] 2 /\
  (flags_needed true [sodium; proton 1] (states [3; 1]%nat [2; 0]%nat) (states [3; 1]%nat [1; 0]%nat) <= length (repeat true 12))%nat /\
  states [3; 1]%nat [2; 0]%nat = [1 / 2; - (1 / 2)] /\ states [3; 1]%nat [1; 0]%nat = [- (1 / 2); - (1 / 2)].
Proof.
  assert (S1 : states [3; 1]%nat [2; 0]%nat = [1 / 2; - (1 / 2)]) by (unfold states, quantum, spin; cbn; repeat (apply (f_equal2 cons); [lra|]); reflexivity).
  assert (S2 : states [3; 1]%nat [1; 0]%nat = [- (1 / 2); - (1 / 2)]) by (unfold states, quantum, spin; cbn; repeat (apply (f_equal2 cons); [lra|]); reflexivity).
  split; [|split; [|split; [|auto]]].
  - cbn [sites_fine]. unfold site_fine, spin, covered. cbn. repeat split; try lia; try lra; intros; lra.
  - intros cp [<-|[]]. cbn. repeat split; try lia; lra.
  - rewrite S1, S2. cbn [flags_needed hd tl]. destruct (Req_EM_T (1 / 2) (- (1 / 2))); [lra|]. destruct (Req_EM_T (- (1 / 2)) (- (1 / 2))); [|contradiction].
    rewrite (existing_more true sodium 3) by (auto; unfold spin; cbn; lra). cbn. lia.
Qed.
(** The levels are those of the textbooks: deuterium (spin 1) in an axial field gradient along the field has lines 3/4 Cq from the centre; *)
Example C109_deuterium : forall Cq, let E a := energy1 (H_quad 2 Cq (principal 1 0)) a in E 2%nat - E 1%nat = 3 / 4 * Cq /\ E 1%nat - E 0%nat = - (3 / 4 * Cq).
Proof.
  intros Cq E. unfold E. rewrite !energy1_quad by (auto using principal_sym, principal_trace). unfold kq, quantum, spin. cbn. split; field.
Qed.
(** and the second order shifts the central line of a spin n/2, averaged over all the directions, by
    - (nuq^2 / 30 nu0) (I (I + 1) - 3/4) (1 + eta^2 / 3); here nu0 = B0 gamma is the frequency of the line 1/2 -> -1/2. *)
Theorem C109_central_shift : forall (B0 : R) (s : site) (n : nat), (2 <= n)%nat -> s_spin s = spin n -> B0 * s_gamma s <> 0 ->
  let I := spin n in let nuq := 3 * s_Cq s / (2 * I * (2 * I - 1)) in
  let shift := - (nuq ^ 2 / (30 * (B0 * s_gamma s * 1000000))) * (I * (I + 1) - 3 / 4) * (1 + s_qeta s ^ 2 / 3) in
  Rabs (isotropic (contribution decimal_f B0 s (1 / 2) (- (1 / 2)) Quad2_0) - shift) <= 1e-7 * Rabs shift.
Proof.
  intros B0 s n L Sp NB I nuq shift. destruct all_within as [Wd [Wf [W0p [W0f [_ [_ [_ [_ [_ [_ [W3 [W00 _]]]]]]]]]]]].
  pose proof (tf_c_within I (1 / 2) (- (1 / 2)) c0p c0f _ _ W0p W0f ltac:(lra) ltac:(lra)) as T0.
  set (X := I * (I + 1) - 3 / 4). assert (PX : 0 < X) by (unfold X, I, spin; apply le_INR in L; cbn in L; nra).
  assert (SZ : second_order_size I (1 / 2) (- (1 / 2)) = 4 * X).
  { unfold second_order_size. fold X. rewrite (Rabs_left (X * (- (1 / 2) - 1 / 2))) by lra. rewrite Rabs_right by (unfold X in *; lra). unfold X. field. }
  rewrite SZ in T0. set (e := s_qeta s) in *. set (k := nuq ^ 2 / (- (B0 * s_gamma s) * 1000000)).
  assert (P2 : 0 <= e ^ 2) by apply pow2_ge_0. assert (Wk : within 0 k k (Rabs k)) by apply within_same.
  assert (We2 : within 0 (e ^ 2) (e ^ 2) (e ^ 2)) by (rewrite <- (Rabs_right (e ^ 2)) at 3 by (apply Rle_ge, pow2_ge_0); apply within_same).
  assert (W1 : within 4e-10 1 1 1) by (split; [rewrite Rminus_eq_0|]; rewrite ?Rabs_R0, ?Rabs_R1; lra).
  assert (S3 : within 4e-10 (e ^ 2 * i3 decimal_f + 1) (e ^ 2 * i3 ideal_f + 1) (0.334 * e ^ 2 + 1)).
  { apply within_add; auto. eapply within_weak; [| | |apply within_mul; [| |exact We2|exact W3]]; lra. }
  assert (R0 : within 3e-9 (k * q00 decimal_f * (e ^ 2 * i3 decimal_f + 1) * tf_c (c0p decimal_f) (c0f decimal_f) decimal_f I (1 / 2) (- (1 / 2)))
    (k * q00 ideal_f * (e ^ 2 * i3 ideal_f + 1) * tf_c (c0p ideal_f) (c0f ideal_f) ideal_f I (1 / 2) (- (1 / 2))) (Rabs k * 0.075 * (0.334 * e ^ 2 + 1) * (0.41 * (4 * X)))).
  { eapply within_weak; [| | |apply within_mul; [| |apply within_mul; [| |apply within_mul; [| |exact Wk|exact W00]|exact S3]|exact T0]]; lra. }
  assert (EX : k * q00 ideal_f * (e ^ 2 * i3 ideal_f + 1) * tf_c (c0p ideal_f) (c0f ideal_f) ideal_f I (1 / 2) (- (1 / 2)) = shift).
  { unfold shift, k, tf_c, tf_f, tf_p, rho2. fold e X. cbn [ideal_f c0p c0f f_f q00 i3]. destruct sqrt_more as [S1 [S2 [S3' _]]]. rewrite ?S1, ?S2, ?S3'. fold X.
    pose proof (sqrt_sqrt 2 ltac:(lra)) as Ha. pose proof (sqrt_sqrt 5 ltac:(lra)) as Hb.
    assert (N2 : sqrt 2 <> 0) by (apply Rgt_not_eq, sqrt_lt_R0; lra). assert (N5 : sqrt 5 <> 0) by (apply Rgt_not_eq, sqrt_lt_R0; lra).
    replace (I * (I + 1)) with (X + 3 / 4) by (unfold X; ring). field [Ha Hb]. repeat split; auto; intros Z0; apply NB; rewrite Z0; ring. }
  assert (ID : isotropic (contribution decimal_f B0 s (1 / 2) (- (1 / 2)) Quad2_0) = k * q00 decimal_f * (e ^ 2 * i3 decimal_f + 1) * tf_c (c0p decimal_f) (c0f decimal_f) decimal_f I (1 / 2) (- (1 / 2))).
  { unfold isotropic. cbn [contribution only0 r0]. rewrite Sp. reflexivity. }
  rewrite EX in R0. rewrite ID. destruct R0 as [R0 _]. eapply Rle_trans; [exact R0|].
  assert (AS : Rabs shift = Rabs k / 30 * X * (1 + e ^ 2 / 3)).
  { replace shift with (k / 30 * X * (1 + e ^ 2 / 3)) by (unfold shift, k; fold X e; field; repeat split; auto; intros Z0; apply NB; rewrite Z0; ring). unfold Rdiv. rewrite !Rabs_mult. rewrite (Rabs_right X), (Rabs_right (/ 30)), (Rabs_right (1 + e ^ 2 * / 3)) by lra. reflexivity. }
  rewrite AS. assert (PK : 0 <= Rabs k * X) by (apply Rmult_le_pos; [apply Rabs_pos|lra]).
  replace (3e-9 * (Rabs k * 0.075 * (0.334 * e ^ 2 + 1) * (0.41 * (4 * X)))) with (3e-9 * 0.075 * 0.41 * 4 * (0.334 * e ^ 2 + 1) * (Rabs k * X)) by ring.
  replace (1e-7 * (Rabs k / 30 * X * (1 + e ^ 2 / 3))) with (1e-7 / 30 * (1 + e ^ 2 / 3) * (Rabs k * X)) by field. apply Rmult_le_compat_r; auto. lra.
Qed.
Print Assumptions C109_central_shift.
Example C109_central_example : (2 <= 3)%nat /\ s_spin sodium = spin 3 /\ 94 / 10 * s_gamma sodium <> 0. Proof. unfold spin. cbn. repeat split; try lia; lra. Qed.

(** ** C110 *)
(** Spinning samples: the frequency of an event is the mean, over a turn of the rotor, of the difference of the energies. *)
Theorem C110_spinning_partial : forall (fourth : bool) (B0 : R) (sites : list site) (couplings : list coupling) (ns levels levels' : list nat) (more : list R) (flags : list bool) (alpha beta theta : R),
  sites_fine fourth B0 sites ns levels levels' -> couplings_fine couplings (length sites) ->
  (forall b, In b flags -> b = true) -> (flags_needed fourth sites (states ns levels) (states ns levels') <= length flags)%nat ->
  exists nu mean, event_frequency fourth B0 sites couplings (states ns levels) (states ns levels') more flags alpha beta theta = Some nu /\
    let E phi := system_level fourth B0 sites couplings (rotor_frame alpha beta phi theta) ns in
    mean_over_turn (fun phi => E phi levels' - E phi levels) mean /\
    Rabs (nu - mean) <= system_tolerance fourth B0 sites couplings ns levels levels'.
Proof.
  intros fourth B0 sites cps ns lv lv' more flags al be th F G T N. destruct (sites_length _ _ _ _ _ _ F) as [L1 [L2 _]]. unfold event_frequency.
  rewrite (components_all decimal_f fourth B0 sites cps (states ns lv) (states ns lv') more flags L1 L2 (fun cp H => conj (proj1 (G cp H)) (proj1 (proj2 (G cp H)))) T N). cbn [option_map].
  eexists. exists (exact_system (fun c => exact_mean c al be th) fourth B0 sites cps ns lv lv'). split; [reflexivity|]. split; [|apply system_close; auto].
  pose proof (system_mean fourth B0 sites cps ns lv lv' al be th) as M. unfold mean_over_turn in *. eapply is_RInt_ext; [|exact M]. intros p _. cbv beta. apply (system_exact fourth B0 sites cps ns lv lv' (rotor_frame al be p th) F G).
Qed.
Print Assumptions C110_spinning_partial.
(** The whole core: in a method whose events list all the contributions and change at most one site, the frequency of dimension d in
    every orientation of the powder is the sum over its events of the means over a turn of the rotor of the differences of the
    energies, weighted with the fractions, in units of the increment.  [lv k], [lv' k]: the states before and after in event k. *)
Theorem C110_core_partial : forall (sc : scheme) (nsb : nat) (sites : list site) (couplings : list coupling) (dims : list dimension) (ns : list nat) (lv lv' : nat -> list nat)
    (alpha beta : nat -> R) (junk t : exp_table) (fqs : list freqs),
  let K := first_event dims (length dims) in
  let listed := repeat freq_list_all K in
  let trs := map (fun k => (states ns (lv k), states ns (lv' k))) (seq 0 K) in
  method_ok sc dims listed -> length fqs = length dims ->
  (forall row o, t row o = get_exp_Im_alpha (sc_fourth sc) (fun o => cis (alpha o)) junk row o) ->
  (forall k, (k < K)%nat -> sites_fine (sc_fourth sc) (ev_B0 (event_no dims k)) sites ns (lv k) (lv' k) /\ one_site_flips (states ns (lv k)) (states ns (lv' k))) ->
  couplings_fine couplings (length sites) -> (forall o, sc_beta sc o = cis (beta o)) ->
  exists t' out, core decimal_f sc nsb sites couplings dims (flat_map freq_contrib_flags listed) (flatten trs) t fqs = Some (t', out) /\ length out = length dims /\
  forall d o, (d < length dims)%nat -> (o < sc_npts sc * sc_octants sc)%nat ->
    let dim := nth_dim dims d in let fq := nth d out {| fq_R0 := 0; fq_local := fun _ => 0 |} in
    exists mean : nat -> R,
      (forall e, (e < length (dm_events dim))%nat -> let k := (first_event dims d + e)%nat in
         let E phi := system_level (sc_fourth sc) (ev_B0 (nth_event dim e)) sites couplings
           (rotor_frame (orientation (sc_npts sc) alpha o) (beta (o mod sc_npts sc)%nat) phi (ev_angle (nth_event dim e))) ns in
         mean_over_turn (fun phi => E phi (lv' k) - E phi (lv k)) (mean e)) /\
      Rabs (fq_R0 fq + fq_local fq o - rsum (length (dm_events dim)) (fun e => ev_fraction (nth_event dim e) * mean e / dm_increment dim)) <=
      rsum (length (dm_events dim)) (fun e => Rabs (ev_fraction (nth_event dim e) / dm_increment dim) *
        system_tolerance (sc_fourth sc) (ev_B0 (nth_event dim e)) sites couplings ns (lv (first_event dims d + e)%nat) (lv' (first_event dims d + e)%nat)).
Proof.
  intros sc nsb sites cps dims ns lv lv' alpha beta junk t fqs K listed trs M LF T HK G HB.
  assert (TK : forall k, (k < K)%nat -> trans trs k = (states ns (lv k), states ns (lv' k))).
  { intros k Hk. unfold trans, trs. rewrite (nth_indep _ ([], []) (states ns (lv O), states ns (lv' O))) by (rewrite map_length, seq_length; auto).
    change (states ns (lv 0%nat), states ns (lv' 0%nat)) with ((fun k => (states ns (lv k), states ns (lv' k))) O). rewrite map_nth, seq_nth by auto. reflexivity. }
  assert (IT : forall tr, In tr trs -> exists k, (k < K)%nat /\ tr = (states ns (lv k), states ns (lv' k))).
  { intros tr H. apply in_map_iff in H. destruct H as [k [<- Hk]]. apply in_seq in Hk. exists k. split; [lia|reflexivity]. }
  destruct (C34_closed_form_partial decimal_f sc nsb sites cps dims listed trs alpha junk t fqs M) as [t' [out [E [_ [L W]]]]]; auto.
  - intros cp Hc. destruct (G cp Hc) as [A [B _]]. auto.
  - split; [unfold trs; rewrite map_length, seq_length; reflexivity|]. intros tr Ht. destruct (IT tr Ht) as [k [Hk ->]]. destruct (HK k Hk) as [F _]. destruct (sites_length _ _ _ _ _ _ F) as [L1 [L2 _]]. split; auto.
  - intros tr Ht. destruct (IT tr Ht) as [k [Hk ->]]. apply HK; auto.
  - exists t', out. split; [exact E|]. split; [exact L|]. intros d o Hd Ho dim fq. destruct (W d Hd) as [W0 W1]. specialize (W1 o Ho). cbv zeta in W0, W1. fold dim fq in W0, W1.
    set (al := orientation (sc_npts sc) alpha o) in *. set (be := beta (o mod sc_npts sc)%nat).
    exists (fun e => exact_system (fun c => exact_mean c al be (ev_angle (nth_event dim e))) (sc_fourth sc) (ev_B0 (nth_event dim e)) sites cps ns (lv (first_event dims d + e)%nat) (lv' (first_event dims d + e)%nat)).
    assert (FE : forall e, (e < length (dm_events dim))%nat -> (first_event dims d + e < K)%nat /\ sites_fine (sc_fourth sc) (ev_B0 (nth_event dim e)) sites ns (lv (first_event dims d + e)%nat) (lv' (first_event dims d + e)%nat)).
    { intros e He. pose proof (first_lt dims d e Hd He) as H. split; [exact H|]. destruct (HK _ H) as [F _]. rewrite event_no_spec in F by auto. exact F. }
    split.
    + intros e He k E'. destruct (FE e He) as [_ F]. pose proof (system_mean (sc_fourth sc) (ev_B0 (nth_event dim e)) sites cps ns (lv k) (lv' k) al be (ev_angle (nth_event dim e))) as MM.
      unfold mean_over_turn in *. eapply is_RInt_ext; [|exact MM]. intros p _. cbv beta. apply (system_exact (sc_fourth sc) (ev_B0 (nth_event dim e)) sites cps ns (lv k) (lv' k) (rotor_frame al be p (ev_angle (nth_event dim e))) F G).
    + rewrite W0, W1. unfold dim_offset, dim_local. rewrite HB. fold be.
      assert (RS : forall N (g h q b : nat -> R), (forall e, (e < N)%nat -> Rabs (g e + h e - q e) <= b e) -> Rabs (rsum N g + rsum N h - rsum N q) <= rsum N b).
      { clear. induction N as [|N IH]; intros g h q b H; cbn [rsum]; [rewrite Rplus_0_r, Rminus_0_r, Rabs_R0; lra|].
        replace (rsum N g + g N + (rsum N h + h N) - (rsum N q + q N)) with ((rsum N g + rsum N h - rsum N q) + (g N + h N - q N)) by ring.
        eapply Rle_trans; [apply Rabs_triang|]. apply Rplus_le_compat; [apply IH; intros; apply H; lia|apply H; lia]. }
      apply RS. intros e He. destruct (FE e He) as [Hk F]. set (k := (first_event dims d + e)%nat) in *.
      assert (CF : closed_form decimal_f sc sites cps dims listed trs k =
        cadd (sites_total decimal_f (sc_fourth sc) (ev_B0 (nth_event dim e)) freq_list_all sites (states ns (lv k)) (states ns (lv' k))) (couplings_total decimal_f cps (states ns (lv k)) (states ns (lv' k)))).
      { unfold closed_form, event_total. unfold k at 1. rewrite event_no_spec by auto. fold k. rewrite TK by auto. cbn [fst snd]. unfold listed. rewrite (nth_indep _ [] freq_list_all), nth_repeat by (rewrite repeat_length; auto). reflexivity. }
      rewrite CF. clear CF. pose proof (system_close (sc_fourth sc) (ev_B0 (nth_event dim e)) sites cps ns (lv k) (lv' k) al be (ev_angle (nth_event dim e)) F G) as SC. unfold code_at in SC.
      match type of SC with Rabs (?a + ?b - ?c) <= ?t => set (x := a) in *; set (y := b) in *; set (z := c) in *; set (tt := t) in * end.
      replace (ev_fraction (nth_event dim e) * x / dm_increment dim + ev_fraction (nth_event dim e) * y / dm_increment dim - ev_fraction (nth_event dim e) * z / dm_increment dim)
        with (ev_fraction (nth_event dim e) / dm_increment dim * (x + y - z)) by (unfold Rdiv; ring).
      rewrite Rabs_mult. apply Rmult_le_compat_l; [apply Rabs_pos|exact SC].
Qed.
Print Assumptions C110_core_partial.
(** A case: a dimension with one event at the magic angle, for the sodium and proton above. *)
Definition mas_event : event := {| ev_fraction := 1; ev_B0 := 94 / 10; ev_vr := 10000; ev_angle := 0.9553166181245 |}.
Definition mas_dimension : dimension := {| dm_increment := 100; dm_events := [mas_event] |}.
Example C110_example : method_ok {| sc_npts := 10; sc_octants := 4; sc_fourth := true; sc_weights := fun _ => 1; sc_beta := fun o => cis (INR o) |} [mas_dimension] (repeat freq_list_all 1) /\
  sites_fine true (ev_B0 (event_no [mas_dimension] 0)) [sodium; proton 1] [3; 1]%nat [2; 0]%nat [1; 0]%nat /\ couplings_fine [bond] 2 /\
  one_site_flips (states [3; 1]%nat [2; 0]%nat) (states [3; 1]%nat [1; 0]%nat).
Proof.
  split; [|split; [apply C109_example|split; [apply C109_example|]]].
  - split; [right; reflexivity|]. split; [|reflexivity]. intros d [<-|[]]. split; [|discriminate]. intros e He. cbn in He. assert (e = 0)%nat by lia. subst e. left. reflexivity.
  - destruct C109_example as [_ [_ [_ [-> ->]]]]. intros i j Hi Hj A B. cbn in Hi, Hj. destruct i as [|[|i]], j as [|[|j]]; try lia; cbn in A, B; exfalso; auto.
Qed.
