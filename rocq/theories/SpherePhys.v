(** The energies of a spin system as a function of the direction of the field. *)
From Coq Require Import Reals List Lia Psatz.
From Coquelicot Require Import Coquelicot.
From Verif Require Import DftModel DftProofs FreqModel FreqSpec PhysSpec PhysLevels PhysRot PhysSpin PhysExact AverageSpec AverageProofs AveragePhys SphereSpec SphereChange SphereProofs.
From Coq Require Import Lra.
Import ListNotations.
Open Scope R_scope.

Definition sloped (g : (axis -> R) -> R) : Prop := exists L, 0 <= L /\ slope g L.
Lemma sloped_const c : sloped (fun _ => c). Proof. exists 0. split; [lra|apply slope_const]. Qed.
Lemma sloped_coord i : sloped (fun u => u i).
Proof. exists 1. split; [lra|]. intros u v _ _. unfold dist3. pose proof (Rabs_pos (u X - v X)). pose proof (Rabs_pos (u Y - v Y)). pose proof (Rabs_pos (u Z - v Z)). destruct i; lra. Qed.
Lemma sloped_plus f g : sloped f -> sloped g -> sloped (fun u => f u + g u).
Proof.
  intros (L & L0 & H) (K & K0 & G). exists (L + K). split; [lra|]. intros u v U V. replace (f u + g u - (f v + g v)) with ((f u - f v) + (g u - g v)) by ring. eapply Rle_trans; [apply Rabs_triang|]. pose proof (H u v U V). pose proof (G u v U V). lra.
Qed.
Lemma pole_unit : unit_vector (fun i => match i with Z => 1 | _ => 0 end). Proof. unfold unit_vector. ring. Qed.
Lemma sloped_bounded f : sloped f -> exists B, forall u, unit_vector u -> Rabs (f u) <= B.
Proof.
  intros (L & L0 & H). set (e := fun i : axis => match i with Z => 1 | _ => 0 end). exists (Rabs (f e) + L * 4). intros u U. pose proof (H u e U pole_unit) as D. pose proof (dist_bound u e U pole_unit) as Q.
  replace (f u) with (f e + (f u - f e)) by ring. eapply Rle_trans; [apply Rabs_triang|]. nra.
Qed.
Lemma sloped_mult f g : sloped f -> sloped g -> sloped (fun u => f u * g u).
Proof.
  intros F G. destruct (sloped_bounded f F) as (A & HA), (sloped_bounded g G) as (B & HB). destruct F as (L & L0 & H), G as (K & K0 & G).
  assert (A0 : 0 <= A) by (eapply Rle_trans; [apply Rabs_pos|apply (HA _ pole_unit)]). assert (B0 : 0 <= B) by (eapply Rle_trans; [apply Rabs_pos|apply (HB _ pole_unit)]).
  exists (A * K + B * L). split; [nra|]. intros u v U V. replace (f u * g u - f v * g v) with (f u * (g u - g v) + g v * (f u - f v)) by ring. eapply Rle_trans; [apply Rabs_triang|]. rewrite !Rabs_mult, Rmult_plus_distr_r, !Rmult_assoc.
  apply Rplus_le_compat; apply Rmult_le_compat; auto using Rabs_pos.
Qed.
Lemma sloped_element T : sloped (element T).
Proof. unfold element, asum. repeat apply sloped_plus; repeat apply sloped_mult; auto using sloped_coord, sloped_const. Qed.

(** Squares of tensors turn as the tensors do. *)
Lemma square_z a T i j : along (about_z a) (product T T) i j = product (along (about_z a) T) (along (about_z a) T) i j.
Proof. pose proof (sin2_cos2 a) as H. unfold Rsqr in H. assert (Hs : sin a * sin a = 1 - cos a * cos a) by lra. unfold along, product, asum. destruct i, j; cbn [about_z]; ring [Hs]. Qed.
Lemma square_y a T i j : along (about_y a) (product T T) i j = product (along (about_y a) T) (along (about_y a) T) i j.
Proof. pose proof (sin2_cos2 a) as H. unfold Rsqr in H. assert (Hs : sin a * sin a = 1 - cos a * cos a) by lra. unfold along, product, asum. destruct i, j; cbn [about_y]; ring [Hs]. Qed.
Lemma along_same A T T' i j : (forall k l, T k l = T' k l) -> along A T i j = along A T' i j.
Proof. intros H. unfold along, asum. rewrite !H. reflexivity. Qed.
Lemma product_same A A' i j : (forall k l, A k l = A' k l) -> product A A i j = product A' A' i j.
Proof. intros H. unfold product, asum. rewrite !H. reflexivity. Qed.
Lemma square_euler a b g T i j : along (euler_axes a b g) (product T T) i j = product (along (euler_axes a b g) T) (along (euler_axes a b g) T) i j.
Proof.
  rewrite along_euler. rewrite (product_same _ (along (about_z g) (along (about_y b) (along (about_z a) T)))) by (intros; apply along_euler).
  rewrite <- square_z. apply along_same. intros k l. rewrite <- square_y. apply along_same. intros. apply square_z.
Qed.
Lemma W_static al be T : symmetric T -> trace T = 0 -> let V := along (euler_axes al be 0) T in let u := direction al be in
  V Z Z = element T u /\ W1 V = element (product T T) u - element T u * element T u /\ W2 V = 2 * trace (product T T) - 3 * (element T u * element T u) - 4 * (element (product T T) u - element T u * element T u).
Proof.
  intros Sy Tr V u. assert (VZ : V Z Z = element T u) by apply along_element. assert (SV : symmetric V) by (apply along_sym; auto). assert (TV : trace V = 0) by (unfold V; rewrite trace_euler; auto).
  assert (S1 : product V V Z Z = element (product T T) u) by (unfold V; rewrite <- square_euler; apply along_element).
  assert (S2 : trace (product V V) = trace (product T T)) by (rewrite <- (trace_euler al be 0 (product T T)); unfold trace, asum; unfold V; rewrite !square_euler; reflexivity).
  assert (E1 : W1 V = element (product T T) u - element T u * element T u) by (rewrite <- S1, <- VZ; unfold W1, product, asum; rewrite (SV Z X), (SV Z Y); ring).
  split; auto. split; auto. rewrite <- E1, <- S2, <- VZ. unfold W1, W2, product, trace, asum in *. rewrite (SV Z X), (SV Z Y), (SV Y X). assert (Q : V Z Z = - V X X - V Y Y) by lra. rewrite Q. ring.
Qed.

(** The second order of a site. *)
Lemma energy2_sloped n nu0 Cq th e a : nu0 <> 0 -> (a <= n)%nat -> exists g, sloped g /\
  forall al be, energy2 n nu0 (H_quad n Cq (lab (static_frame al be) (turned th (principal 1 e)))) a = g (direction al be).
Proof.
  intros N A. set (T := turned th (principal 1 e)). assert (Sy : symmetric T) by apply turned_sym, principal_sym. assert (Tr : trace T = 0) by (unfold T; rewrite turned_trace; apply principal_trace).
  set (m := quantum n a). set (k := kq n Cq). set (c1 := fun m => k * k / 4 * rho2 n m * ((2 * m + 1) * (2 * m + 1))). set (c2 := fun m => k * k / 16 * rho2 n m * rho2 n (m + 1)).
  set (p := (c1 (m - 1) - c1 m) / nu0). set (q := (c2 (m - 2) - c2 m) / 2 / nu0).
  exists (fun u => p * (element (product T T) u + (-1) * (element T u * element T u)) + q * (2 * trace (product T T) + (-3) * (element T u * element T u) + (-4) * (element (product T T) u + (-1) * (element T u * element T u)))). split.
  - repeat first [apply sloped_element | apply sloped_const | apply sloped_plus | apply sloped_mult | apply sloped_coord].
  - intros al be. change (lab (static_frame al be) T) with (along (euler_axes al be 0) T). rewrite energy2_quad by (auto; apply along_sym; auto). fold m k. destruct (W_static al be T Sy Tr) as (_ & E1 & E2). unfold U1, U2. rewrite E1, E2. unfold p, q, c1, c2. field. auto.
Qed.
Lemma system_sloped second B0 sites cps ns lv : (forall s n a, In (s, (n, a)) (combine sites (combine ns lv)) -> (a <= n)%nat /\ (second = true -> B0 * s_gamma s <> 0)) ->
  exists g, sloped g /\ forall al be, system_level second B0 sites cps (static_frame al be) ns lv = g (direction al be).
Proof.
  intros H. destruct (system_split B0 sites cps ns lv ltac:(intros; eapply H; eauto)) as (T & [Sy Tr] & E).
  assert (S2 : exists g, sloped g /\ forall al be, rtotal (fun x => site_level second B0 (fst x) (static_frame al be) (fst (snd x)) (snd (snd x))) (combine sites (combine ns lv)) =
    rtotal (fun x => site_level false B0 (fst x) (static_frame al be) (fst (snd x)) (snd (snd x))) (combine sites (combine ns lv)) + g (direction al be)).
  { clear E. revert H. generalize (combine sites (combine ns lv)) as l. induction l as [|[s [n a]] l IH]; intros H; [exists (fun _ => 0); split; [apply sloped_const|intros; cbn; ring]|].
    destruct IH as (g & G & Eg); [intros; apply H; right; auto|]. destruct (H s n a ltac:(left; reflexivity)) as [A NZ].
    assert (ONE : exists g1, sloped g1 /\ forall al be, site_level second B0 s (static_frame al be) n a = site_level false B0 s (static_frame al be) n a + g1 (direction al be)).
    { unfold site_level. cbv zeta. destruct (Nat.ltb n 2); [exists (fun _ => 0); split; [apply sloped_const|intros; ring]|]. destruct second; [|exists (fun _ => 0); split; [apply sloped_const|intros; ring]].
      destruct (energy2_sloped n (- (B0 * s_gamma s) * 1000000) (s_Cq s) (s_qtheta s) (s_qeta s) a) as (g1 & G1 & E1); [specialize (NZ eq_refl); lra|auto|]. exists g1. split; auto. intros al be. rewrite E1. ring. }
    destruct ONE as (g1 & G1 & E1). exists (fun u => g1 u + g u). split; [apply sloped_plus; auto|]. intros al be. cbn [rtotal fold_right fst snd]. fold (rtotal (fun x => site_level second B0 (fst x) (static_frame al be) (fst (snd x)) (snd (snd x))) l). fold (rtotal (fun x => site_level false B0 (fst x) (static_frame al be) (fst (snd x)) (snd (snd x))) l).
    rewrite E1, Eg. ring. }
  destruct S2 as (g & G & Eg). set (c := system_level false B0 (map isotropic_site sites) (map isotropic_coupling cps) [] ns lv).
  exists (fun u => c + element T u + g u). split; [repeat first [exact G | apply sloped_element | apply sloped_const | apply sloped_plus]|]. intros al be.
  specialize (E (static_frame al be)). unfold system_level at 1 in E. unfold system_level at 1. rewrite Eg. rewrite (isotropic_level B0 sites cps (static_frame al be) [] ns lv ltac:(intros; eapply H; eauto)) in E. rewrite lab_static in E. fold c in E. lra.
Qed.
