(** The frequency of an event as the difference of two energies. *)
From Coq Require Import Reals List ZArith Lra Lia Psatz.
From Coquelicot Require Import Coquelicot.
From Verif Require Import DftModel DftProofs WignerMatrix WignerModel WignerSpec WignerOrtho WignerNorm WignerProofs FreqModel FreqSpec FreqProofs PhysSpec PhysLevels PhysRot PhysCouple PhysSpin PhysExact PhysClose PhysRotor.
Import ListNotations.
Open Scope R_scope.

(** ** Linearity *)
Definition code_at (fourth : bool) (c : comps) (al be th : R) : R := isotropic c + anisotropic fourth c al (cis be) th.
Lemma scale_vadd l e a b : length a = (2 * l + 1)%nat -> length b = (2 * l + 1)%nat -> scale_phases l e (vadd a b) = vadd (scale_phases l e a) (scale_phases l e b).
Proof.
  intros La Lb. apply list_eq_C; [rewrite vadd_length, !scale_length; rewrite ?scale_length; auto|]. rewrite scale_length. intros i Hi. rewrite nth_vadd by (rewrite !scale_length; auto).
  rewrite !scale_nth by auto. rewrite nth_vadd by congruence. destruct (i <? l)%nat; [ring|]. destruct (l <? i)%nat; [ring|reflexivity].
Qed.
Lemma mat_vadd r n w a b : length a = length b -> mat_vec r n w (vadd a b) = vadd (mat_vec r n w a) (mat_vec r n w b).
Proof.
  intros L. apply list_eq_C; [rewrite vadd_length, !mat_vec_length; rewrite ?mat_vec_length; auto|]. rewrite mat_vec_length. intros i Hi. rewrite nth_vadd by (rewrite !mat_vec_length; auto).
  rewrite !mat_vec_nth by auto. rewrite <- csum_plus. apply csum_ext. intros j Hj. rewrite nth_vadd by auto. ring.
Qed.
Lemma rotation_vadd k l al e ga a b : length a = (2 * l + 1)%nat -> length b = (2 * l + 1)%nat -> rotation k l al e ga (vadd a b) = vadd (rotation k l al e ga a) (rotation k l al e ga b).
Proof.
  intros La Lb. unfold rotation. rewrite scale_vadd, mat_vadd, scale_vadd by (rewrite ?mat_vec_length, ?scale_length; auto). reflexivity.
Qed.
Lemma code_add fourth a b al be th : wf a -> wf b -> code_at fourth (cadd a b) al be th = code_at fourth a al be th + code_at fourth b al be th.
Proof.
  intros [A2 A4] [B2 B4]. unfold code_at, isotropic, anisotropic. cbn [cadd r0 r2 r4].
  rewrite (rotation_vadd _ 2), (rotation_vadd _ 4), !nth_vadd by (rewrite ?rotation_length; auto). destruct fourth; cbn [fst Cplus]; ring.
Qed.
Lemma code_zero fourth al be th : code_at fourth zero_comps al be th = 0.
Proof. unfold code_at, isotropic, anisotropic, zero_comps. cbn [r0 r2 r4]. rewrite (zero_rotation decimal 2), (zero_rotation decimal 4). destruct fourth; ring. Qed.
Lemma code_total fourth l al be th : (forall c, In c l -> wf c) -> code_at fourth (total l) al be th = rtotal (fun c => code_at fourth c al be th) l.
Proof.
  induction l as [|c l IH]; intros W; [apply code_zero|]. cbn [total fold_right rtotal]. fold (total l). rewrite code_add; [|apply W; left; auto|apply total_wf; intros; apply W; right; auto].
  rewrite IH by (intros; apply W; right; auto). reflexivity.
Qed.
Lemma code_at0 fourth x al be th : code_at fourth (only0 x) al be th = code_frequency (only0 x) al be.
Proof. rewrite code_only0. unfold code_at, isotropic, anisotropic, only0. cbn [r0 r2 r4]. rewrite (zero_rotation decimal 2), (zero_rotation decimal 4). destruct fourth; ring. Qed.
Lemma code_at2 fourth v al be th : code_at fourth (only2 v) al be th = P2 (cos th) * code_frequency (only2 v) al be.
Proof. rewrite code_only2. unfold code_at, isotropic, anisotropic, only2. cbn [r0 r2 r4]. rewrite (zero_rotation decimal 4). destruct fourth; ring. Qed.
Lemma code_at4 v al be th : code_at true (only4 v) al be th = P4 (cos th) * code_frequency (only4 v) al be.
Proof. rewrite code_only4. unfold code_at, isotropic, anisotropic, only4. cbn [r0 r2 r4]. rewrite (zero_rotation decimal 2). ring. Qed.
Lemma mean0 x al be th : exact_mean (only0 x) al be th = exact_frequency (only0 x) [(al, be, 0)].
Proof. rewrite exact_only0. unfold exact_mean, only0. cbn [r0 r2 r4]. rewrite (zero_rotation ideal 2), (zero_rotation ideal 4). ring. Qed.
Lemma mean2 v al be th : exact_mean (only2 v) al be th = P2 (cos th) * exact_frequency (only2 v) [(al, be, 0)].
Proof. rewrite exact_only2. unfold exact_mean, only2. cbn [r0 r2 r4 through fold_left exact_turn]. rewrite (zero_rotation ideal 4). ring. Qed.
Lemma mean4 v al be th : exact_mean (only4 v) al be th = P4 (cos th) * exact_frequency (only4 v) [(al, be, 0)].
Proof. rewrite exact_only4. unfold exact_mean, only4. cbn [r0 r2 r4 through fold_left exact_turn]. rewrite (zero_rotation ideal 2). ring. Qed.
Lemma mean_static c al be : exact_mean c al be 0 = exact_frequency c [(al, be, 0)].
Proof. unfold exact_mean, exact_frequency, P2, P4. cbn [through fold_left exact_turn]. rewrite cos_0. field. Qed.
Lemma P2_1 x : Rabs (P2 (cos x)) <= 1.
Proof. unfold P2. pose proof (COS_bound x) as B. set (c := cos x) in *. assert (0 <= c ^ 2 <= 1) by nra. apply Rabs_le. lra. Qed.
Lemma P4_1 x : Rabs (P4 (cos x)) <= 1.
Proof.
  unfold P4. pose proof (COS_bound x) as B. set (c := cos x) in *. assert (H : 0 <= c ^ 2 <= 1) by nra. replace (c ^ 4) with (c ^ 2 * c ^ 2) by ring. generalize dependent (c ^ 2). intros y H. apply Rabs_le. nra.
Qed.
Lemma weight p x y B : Rabs p <= 1 -> Rabs (x - y) <= B -> Rabs (p * x - p * y) <= B.
Proof.
  intros Hp Hx. replace (p * x - p * y) with (p * (x - y)) by ring. rewrite Rabs_mult. pose proof (Rabs_pos (x - y)). apply Rle_trans with (1 * Rabs (x - y)); [apply Rmult_le_compat_r; auto|lra].
Qed.

(** ** A site *)
Definition exact_part B0 s m m' c : comps := contribution_with exact_turn ideal_f B0 s m m' c.
Lemma existing_half fourth s : s_spin s = spin 1 -> existing fourth s = [Shielding1_0; Shielding1_2].
Proof. intros H. unfold existing, freq_list_all. cbn [filter exists_forb]. assert (E : s_spin s = 1 / 2) by (rewrite H; unfold spin; cbn; lra). destruct (Req_EM_T (s_spin s) (1 / 2)); [reflexivity|contradiction]. Qed.
Lemma existing_more fourth s n : s_spin s = spin n -> (2 <= n)%nat -> existing fourth s = [Shielding1_0; Shielding1_2; Quad1_2] ++ (if fourth then [Quad2_0; Quad2_2; Quad2_4] else []).
Proof.
  intros H L. unfold existing, freq_list_all. cbn [filter exists_forb]. assert (E : s_spin s <> 1 / 2) by (rewrite H; unfold spin; apply le_INR in L; cbn in L; lra). destruct (Req_EM_T (s_spin s) (1 / 2)); [contradiction|].
  destruct fourth; reflexivity.
Qed.
Lemma covered_beta th : covered th -> 0 <= beta_of th < 6.2831. Proof. destruct th as [[a b] g]. auto. Qed.
Lemma site_close fourth B0 s n a a' al be th : site_fine fourth B0 s n a a' -> let m := quantum n a in let m' := quantum n a' in
  Rabs (code_at fourth (site_total decimal_f fourth B0 freq_list_all s m m') al be th - rtotal (fun c => exact_mean (exact_part B0 s m m' c) al be th) (existing fourth s)) <= site_tolerance fourth B0 s n m m'.
Proof.
  intros [N1 [Sp [_ [_ [C1 [C2 _]]]]]] m m'. unfold site_total. rewrite existing_all. rewrite code_total by (intros c Hc; apply in_map_iff in Hc; destruct Hc as [k [<- _]]; apply contribution_wf).
  assert (MR : forall {A B} (g : B -> R) (h : A -> B) l, rtotal g (map h l) = rtotal (fun x => g (h x)) l) by (intros; unfold rtotal; induction l; cbn; congruence). rewrite MR.
  apply covered_beta in C1, C2.
  assert (Z0 : code_at fourth (contribution decimal_f B0 s m m' Shielding1_0) al be th - exact_mean (exact_part B0 s m m' Shielding1_0) al be th = 0).
  { unfold exact_part. rewrite contribution_turn. cbn [contribution_with]. rewrite code_at0, mean0, code_only0, exact_only0. ring. }
  assert (Z1 : Rabs (code_at fourth (contribution decimal_f B0 s m m' Shielding1_2) al be th - exact_mean (exact_part B0 s m m' Shielding1_2) al be th) <= 1e-6 * (Rabs (- (B0 * s_gamma s) * s_zeta s * (m' - m)) * (1 + Rabs (s_eta s)))).
  { pose proof (shielding_close B0 s m m' al be C1) as H. replace (- (B0 * s_gamma s) * s_zeta s * (m' - m)) with (- (B0 * s_gamma s * s_zeta s * (m' - m))) by ring. rewrite Rabs_Ropp.
    unfold exact_part. rewrite contribution_turn in *. cbn [contribution_with] in *. rewrite code_at2, mean2. apply weight; [apply P2_1|exact H]. }
  unfold site_tolerance. cbv zeta. set (x0 := code_at fourth (contribution decimal_f B0 s m m' Shielding1_0) al be th) in *. set (y0 := exact_mean (exact_part B0 s m m' Shielding1_0) al be th) in *.
  set (x1 := code_at fourth (contribution decimal_f B0 s m m' Shielding1_2) al be th) in *. set (y1 := exact_mean (exact_part B0 s m m' Shielding1_2) al be th) in *.
  destruct (Nat.ltb_spec n 2) as [L|L].
  - assert (n = 1)%nat by lia. subst n. rewrite existing_half by auto. cbn [rtotal fold_right]. fold x0 x1 y0 y1. replace (x0 + (x1 + 0) - (y0 + (y1 + 0))) with ((x0 - y0) + (x1 - y1)) by ring. rewrite Z0, Rplus_0_l, Rplus_0_r. exact Z1.
  - rewrite (existing_more fourth s n) by auto. rewrite <- Sp.
    assert (Z2 : Rabs (code_at fourth (contribution decimal_f B0 s m m' Quad1_2) al be th - exact_mean (exact_part B0 s m m' Quad1_2) al be th) <=
      1e-6 * (Rabs (3 * s_Cq s / (2 * s_spin s * (2 * s_spin s - 1)) * (m' ^ 2 - m ^ 2)) * (1 + Rabs (s_qeta s)))).
    { pose proof (quad1_close B0 s m m' al be C2) as H. cbv zeta in H. unfold exact_part. rewrite contribution_turn in *. cbn [contribution_with] in *. rewrite code_at2, mean2. apply weight; [apply P2_1|exact H]. }
    set (x2 := code_at fourth (contribution decimal_f B0 s m m' Quad1_2) al be th) in *. set (y2 := exact_mean (exact_part B0 s m m' Quad1_2) al be th) in *.
    destruct fourth.
    + pose proof (quad2_close B0 s m m' al be (P2 (cos th)) (P4 (cos th)) C2 (P2_1 th) (P4_1 th)) as H. cbv zeta in H.
      cbn [app rtotal fold_right]. fold x0 x1 x2 y0 y1 y2.
      assert (E0 : code_at true (contribution decimal_f B0 s m m' Quad2_0) al be th = code_frequency (contribution decimal_f B0 s m m' Quad2_0) al be) by (rewrite contribution_turn; cbn [contribution_with]; apply code_at0).
      assert (E2 : code_at true (contribution decimal_f B0 s m m' Quad2_2) al be th = P2 (cos th) * code_frequency (contribution decimal_f B0 s m m' Quad2_2) al be) by (rewrite contribution_turn; cbn [contribution_with]; apply code_at2).
      assert (E4 : code_at true (contribution decimal_f B0 s m m' Quad2_4) al be th = P4 (cos th) * code_frequency (contribution decimal_f B0 s m m' Quad2_4) al be) by (rewrite contribution_turn; cbn [contribution_with]; apply code_at4).
      assert (F0 : exact_mean (exact_part B0 s m m' Quad2_0) al be th = exact_frequency (contribution_with exact_turn ideal_f B0 s m m' Quad2_0) [(al, be, 0)]) by (unfold exact_part; cbn [contribution_with]; apply mean0).
      assert (F2 : exact_mean (exact_part B0 s m m' Quad2_2) al be th = P2 (cos th) * exact_frequency (contribution_with exact_turn ideal_f B0 s m m' Quad2_2) [(al, be, 0)]) by (unfold exact_part; cbn [contribution_with]; apply mean2).
      assert (F4 : exact_mean (exact_part B0 s m m' Quad2_4) al be th = P4 (cos th) * exact_frequency (contribution_with exact_turn ideal_f B0 s m m' Quad2_4) [(al, be, 0)]) by (unfold exact_part; cbn [contribution_with]; apply mean4).
      rewrite E0, E2, E4, F0, F2, F4. clear E0 E2 E4 F0 F2 F4. match type of H with Rabs (?p - ?q) <= _ => set (P := p) in *; set (Q := q) in * end.
      match goal with |- Rabs ?t <= _ => replace t with ((x0 - y0) + (x1 - y1) + ((x2 - y2) + (P - Q))) by (unfold P, Q; ring) end. rewrite Z0, Rplus_0_l.
      eapply Rle_trans; [apply Rabs_triang|]. apply Rplus_le_compat; [exact Z1|]. eapply Rle_trans; [apply Rabs_triang|]. apply Rplus_le_compat; [exact Z2|exact H].
    + cbn [app rtotal fold_right]. fold x0 x1 x2 y0 y1 y2. replace (x0 + (x1 + (x2 + 0)) - (y0 + (y1 + (y2 + 0)))) with ((x0 - y0) + (x1 - y1) + (x2 - y2)) by ring. rewrite Z0, Rplus_0_l, Rplus_0_r.
      eapply Rle_trans; [apply Rabs_triang|]. apply Rplus_le_compat; [exact Z1|exact Z2].
Qed.
(** The element zz of a tensor is proportional to its anisotropy. *)
Lemma along_scale A T T' z i j : (forall i j, T i j = z * T' i j) -> along A T i j = z * along A T' i j.
Proof. intros H. unfold along, asum. rewrite !H. ring. Qed.
Lemma lab_scale fr th z e i j : lab fr (turned th (principal z e)) i j = z * lab fr (turned th (principal 1 e)) i j.
Proof.
  assert (G : forall fr T T', (forall i j, T i j = z * T' i j) -> forall i j, lab fr T i j = z * lab fr T' i j).
  { clear. induction fr as [|th fr IH]; intros T T' H i j; [apply H|]. cbn [lab fold_left]. apply (IH (turned th T) (turned th T')). intros. destruct th as [[a b] g]. apply along_scale. auto. }
  apply G. intros. destruct th as [[a b] g]. apply along_scale. intros [] []; cbn; field.
Qed.
Lemma site_exact fourth B0 s n a a' fr : site_fine fourth B0 s n a a' ->
  rtotal (fun c => exact_frequency (exact_part B0 s (quantum n a) (quantum n a') c) fr) (existing fourth s) = site_level fourth B0 s fr n a' - site_level fourth B0 s fr n a.
Proof.
  intros [N1 [Sp [A1 [A2 [_ [_ NB]]]]]]. unfold site_level. cbv zeta. rewrite lab_scale.
  assert (Z0 : exact_frequency (exact_part B0 s (quantum n a) (quantum n a') Shielding1_0) fr = - (B0 * s_gamma s) * s_iso s * (quantum n a' - quantum n a)) by (unfold exact_part; cbn [contribution_with]; rewrite exact_only0; unfold tf_p; reflexivity).
  assert (Z1 := exact_shielding B0 s (quantum n a) (quantum n a') fr). change (contribution_with exact_turn ideal_f B0 s (quantum n a) (quantum n a') Shielding1_2) with (exact_part B0 s (quantum n a) (quantum n a') Shielding1_2) in Z1.
  destruct (Nat.ltb_spec n 2) as [L|L].
  - assert (n = 1)%nat by lia. subst n. rewrite existing_half by auto. cbn [rtotal fold_right]. rewrite Z0, Z1. ring.
  - rewrite (existing_more fourth s n) by auto.
    assert (Z2 := exact_quad1 n B0 s a a' fr Sp L A1 A2). cbv zeta in Z2. change (contribution_with exact_turn ideal_f B0 s (quantum n a) (quantum n a') Quad1_2) with (exact_part B0 s (quantum n a) (quantum n a') Quad1_2) in Z2.
    destruct fourth.
    + pose proof (exact_quad2 n B0 s a a' fr Sp L A1 A2 (NB eq_refl)) as H. cbv zeta in H.
      cbn [app rtotal fold_right]. rewrite Z0, Z1, Z2. unfold exact_part.
      repeat match type of H with context [exact_frequency ?c fr] => generalize dependent (exact_frequency c fr); intros ? H end. lra.
    + cbn [app rtotal fold_right]. rewrite Z0, Z1, Z2. ring.
Qed.

(** ** A coupling *)
Definition dIS (cp : coupling) (mi mf : list R) : R := nth (c_A cp) mf 0 * nth (c_X cp) mf 0 - nth (c_A cp) mi 0 * nth (c_X cp) mi 0.
Lemma coupling_close fourth cp mi mf al be th : covered (c_theta cp) -> covered (c_dtheta cp) ->
  Rabs (code_at fourth (coupling_total decimal_f cp mi mf) al be th - rtotal (fun k => exact_mean (coupling_part exact_turn ideal_f (dIS cp mi mf) cp k) al be th) (seq 0 3)) <= coupling_tolerance cp (dIS cp mi mf).
Proof.
  intros C1 C2. apply covered_beta in C1, C2. set (d := dIS cp mi mf).
  change (coupling_total decimal_f cp mi mf) with (total (map (coupling_part turn decimal_f d cp) (seq 0 3))).
  rewrite code_total.
  2:{ intros c Hc. cbn in Hc. destruct Hc as [<-|[<-|[<-|[]]]]; split; try reflexivity; cbn [only2 r2 coupling_part]; unfold vscale; rewrite map_length; apply turn_length. }
  cbn [seq map rtotal fold_right].
  assert (Z0 : code_at fourth (coupling_part turn decimal_f d cp 0) al be th - exact_mean (coupling_part exact_turn ideal_f d cp 0) al be th = 0).
  { cbn [coupling_part]. rewrite code_at0, mean0, code_only0, exact_only0. ring. }
  assert (Z1 : Rabs (code_at fourth (coupling_part turn decimal_f d cp 1) al be th - exact_mean (coupling_part exact_turn ideal_f d cp 1) al be th) <= 1e-6 * (Rabs (c_zeta cp * d) * (1 + Rabs (c_eta cp)))).
  { pose proof (J_close d cp al be C1) as H. cbn [coupling_part] in *. rewrite code_at2, mean2. apply weight; [apply P2_1|exact H]. }
  assert (Z2 : Rabs (code_at fourth (coupling_part turn decimal_f d cp 2) al be th - exact_mean (coupling_part exact_turn ideal_f d cp 2) al be th) <= 1e-6 * Rabs (2 * c_D cp * d)).
  { pose proof (D_close d cp al be C2) as H. cbn [coupling_part] in *. rewrite code_at2, mean2. apply weight; [apply P2_1|exact H]. }
  unfold coupling_tolerance. rewrite Rmult_plus_distr_l.
  match type of Z0 with ?p - ?q = _ => set (x0 := p) in *; set (y0 := q) in * end.
  match type of Z1 with Rabs (?p - ?q) <= _ => set (x1 := p) in *; set (y1 := q) in * end. match type of Z2 with Rabs (?p - ?q) <= _ => set (x2 := p) in *; set (y2 := q) in * end.
  clearbody x0 y0 x1 y1 x2 y2. match goal with |- Rabs ?t <= _ => replace t with ((x0 - y0) + ((x1 - y1) + (x2 - y2))) by ring end. rewrite Z0, Rplus_0_l.
  eapply Rle_trans; [apply Rabs_triang|]. apply Rplus_le_compat; [exact Z1|exact Z2].
Qed.
Lemma coupling_exact cp mi mf fr : rtotal (fun k => exact_frequency (coupling_part exact_turn ideal_f (dIS cp mi mf) cp k) fr) (seq 0 3) =
  coupling_level cp fr (nth (c_A cp) mf 0) (nth (c_X cp) mf 0) - coupling_level cp fr (nth (c_A cp) mi 0) (nth (c_X cp) mi 0).
Proof.
  cbn [seq rtotal fold_right]. rewrite exact_J, exact_D. cbn [coupling_part]. rewrite exact_only0. unfold coupling_level, dIS. rewrite (lab_scale fr (c_theta cp) (c_zeta cp)). ring.
Qed.

(** ** A spin system *)
Definition exact_system (g : comps -> R) (fourth : bool) (B0 : R) (sites : list site) (cps : list coupling) (ns lv lv' : list nat) : R :=
  rtotal (fun x => let '(s, (n, (a, a'))) := x in rtotal (fun c => g (exact_part B0 s (quantum n a) (quantum n a') c)) (existing fourth s)) (combine sites (combine ns (combine lv lv'))) +
  rtotal (fun cp => rtotal (fun k => g (coupling_part exact_turn ideal_f (dIS cp (states ns lv) (states ns lv')) cp k)) (seq 0 3)) cps.
Lemma sites_length second B0 sites ns lv lv' : sites_fine second B0 sites ns lv lv' -> length (states ns lv) = length sites /\ length (states ns lv') = length sites /\ length ns = length sites /\ length lv = length sites /\ length lv' = length sites.
Proof.
  intros H. assert (L : length ns = length sites /\ length lv = length sites /\ length lv' = length sites).
  { induction sites as [|s sites IH] in ns, lv, lv', H |- *; destruct ns, lv, lv'; cbn in H; try contradiction; auto. destruct H as [_ H]. apply IH in H. cbn. lia. }
  destruct L as [L1 [L2 L3]]. unfold states. rewrite !map_length, !combine_length. lia.
Qed.
Lemma state_nth ns lv i : length lv = length ns -> (i < length ns)%nat -> nth i (states ns lv) 0 = state_of ns lv i.
Proof.
  intros L H. unfold states, state_of. rewrite (nth_indep _ 0 (quantum (fst (O, O)) (snd (O, O)))) by (rewrite map_length, combine_length; lia).
  rewrite (map_nth (fun x => quantum (fst x) (snd x))), combine_nth by auto. reflexivity.
Qed.
Lemma Rabs_sum2 a b c d x y : Rabs (a - b) <= x -> Rabs (c - d) <= y -> Rabs (a + c - (b + d)) <= x + y.
Proof. intros. replace (a + c - (b + d)) with ((a - b) + (c - d)) by ring. eapply Rle_trans; [apply Rabs_triang|]. lra. Qed.
Lemma system_close fourth B0 sites cps ns lv lv' al be th : sites_fine fourth B0 sites ns lv lv' -> couplings_fine cps (length sites) ->
  Rabs (code_at fourth (cadd (sites_total decimal_f fourth B0 freq_list_all sites (states ns lv) (states ns lv')) (couplings_total decimal_f cps (states ns lv) (states ns lv'))) al be th -
        exact_system (fun c => exact_mean c al be th) fourth B0 sites cps ns lv lv') <= system_tolerance fourth B0 sites cps ns lv lv'.
Proof.
  intros F G. destruct (sites_length _ _ _ _ _ _ F) as [L1 [L2 [L3 [L4 L5]]]].
  rewrite code_add; [|apply sites_total_wf|apply total_wf; intros c Hc; apply in_map_iff in Hc; destruct Hc as [k [<- _]]; apply coupling_wf].
  unfold exact_system, system_tolerance. apply Rabs_sum2.
  - clear G cps L1 L2 L3 L4 L5. induction sites as [|s sites IH] in ns, lv, lv', F |- *; destruct ns as [|n ns], lv as [|a lv], lv' as [|a' lv']; cbn in F; try contradiction.
    + cbn [combine rtotal fold_right]. change (sites_total decimal_f fourth B0 freq_list_all [] (states [] []) (states [] [])) with zero_comps. rewrite code_zero, Rminus_0_r, Rabs_R0. lra.
    + destruct F as [F1 F2]. cbn [combine rtotal fold_right]. change (states (n :: ns) (a :: lv)) with (quantum n a :: states ns lv). change (states (n :: ns) (a' :: lv')) with (quantum n a' :: states ns lv').
      rewrite sites_total_cons, code_add by (apply site_total_wf || apply sites_total_wf). apply Rabs_sum2; [apply site_close; auto|apply IH; auto].
  - unfold couplings_total. rewrite code_total by (intros c Hc; apply in_map_iff in Hc; destruct Hc as [k [<- _]]; apply coupling_wf).
    induction cps as [|cp cps IH]; [cbn; rewrite Rminus_0_r, Rabs_R0; lra|]. cbn [map rtotal fold_right]. destruct (G cp (or_introl eq_refl)) as [A [X [C1 C2]]].
    apply Rabs_sum2; [|apply IH; intros c Hc; apply G; right; auto].
    pose proof (coupling_close fourth cp (states ns lv) (states ns lv') al be th C1 C2) as K. unfold dIS in K at 2. rewrite !state_nth in K by lia. exact K.
Qed.
Lemma rtotal_cons {A} (g : A -> R) x l : rtotal g (x :: l) = g x + rtotal g l. Proof. reflexivity. Qed.
Lemma system_exact fourth B0 sites cps ns lv lv' fr : sites_fine fourth B0 sites ns lv lv' -> couplings_fine cps (length sites) ->
  exact_system (fun c => exact_frequency c fr) fourth B0 sites cps ns lv lv' = system_level fourth B0 sites cps fr ns lv' - system_level fourth B0 sites cps fr ns lv.
Proof.
  intros F G. destruct (sites_length _ _ _ _ _ _ F) as [L1 [L2 [L3 [L4 L5]]]]. unfold exact_system, system_level.
  match goal with |- ?a + ?b = ?c + ?d - (?e + ?f) => cut (a = c - e /\ b = d - f); [intros [H1 H2]; rewrite H1, H2; ring|split] end.
  - clear G cps L1 L2 L3 L4 L5. induction sites as [|s sites IH] in ns, lv, lv', F |- *; destruct ns as [|n ns], lv as [|a lv], lv' as [|a' lv']; cbn in F; try contradiction; [cbn; ring|].
    destruct F as [F1 F2]. cbn [combine]. rewrite !(rtotal_cons (A := site * _)). rewrite IH by auto. rewrite (site_exact _ _ _ _ _ _ _ F1). cbn [fst snd]. ring.
  - induction cps as [|cp cps IH]; [cbn; ring|]. rewrite !(rtotal_cons (A := coupling)). destruct (G cp (or_introl eq_refl)) as [A [X _]].
    pose proof (coupling_exact cp (states ns lv) (states ns lv') fr) as K. rewrite !state_nth in K by lia. rewrite K.
    rewrite IH by (intros c Hc; apply G; right; auto). ring.
Qed.
Lemma mean_rtotal {A} (g : A -> R -> R) (v : A -> R) l : (forall x, In x l -> mean_over_turn (g x) (v x)) -> mean_over_turn (fun p => rtotal (fun x => g x p) l) (rtotal v l).
Proof.
  intros H. unfold mean_over_turn in *. induction l as [|x l IH]; cbn [rtotal fold_right].
  - replace (2 * PI * 0) with (scal (2 * PI - 0) 0) by (unfold scal; cbn; unfold mult; cbn; ring). apply (is_RInt_const (V := R_NormedModule)).
  - rewrite Rmult_plus_distr_l. apply (is_RInt_plus (V := R_NormedModule)); [apply H; left; auto|apply IH; intros; apply H; right; auto].
Qed.
Lemma system_mean fourth B0 sites cps ns lv lv' al be th :
  mean_over_turn (fun p => exact_system (fun c => exact_frequency c (rotor_frame al be p th)) fourth B0 sites cps ns lv lv') (exact_system (fun c => exact_mean c al be th) fourth B0 sites cps ns lv lv').
Proof.
  unfold exact_system. unfold mean_over_turn. rewrite Rmult_plus_distr_l. apply (is_RInt_plus (V := R_NormedModule)).
  - apply (mean_rtotal (fun x p => let '(s, (n, (a, a'))) := x in rtotal (fun c => exact_frequency (exact_part B0 s (quantum n a) (quantum n a') c) (rotor_frame al be p th)) (existing fourth s))
                       (fun x => let '(s, (n, (a, a'))) := x in rtotal (fun c => exact_mean (exact_part B0 s (quantum n a) (quantum n a') c) al be th) (existing fourth s))).
    intros [s [n [a a']]] _. apply (mean_rtotal (fun c p => exact_frequency (exact_part B0 s (quantum n a) (quantum n a') c) (rotor_frame al be p th)) (fun c => exact_mean (exact_part B0 s (quantum n a) (quantum n a') c) al be th)).
    intros c _. apply rotor_mean.
  - apply (mean_rtotal (fun cp p => rtotal (fun k => exact_frequency (coupling_part exact_turn ideal_f (dIS cp (states ns lv) (states ns lv')) cp k) (rotor_frame al be p th)) (seq 0 3))
                       (fun cp => rtotal (fun k => exact_mean (coupling_part exact_turn ideal_f (dIS cp (states ns lv) (states ns lv')) cp k) al be th) (seq 0 3))).
    intros cp _. apply (mean_rtotal (fun k p => exact_frequency (coupling_part exact_turn ideal_f (dIS cp (states ns lv) (states ns lv')) cp k) (rotor_frame al be p th)) (fun k => exact_mean (coupling_part exact_turn ideal_f (dIS cp (states ns lv) (states ns lv')) cp k) al be th)).
    intros k _. apply rotor_mean.
Qed.
