(** Spinning sidebands: the modulation of the frequency of an event as the rotor turns. *)
From Coq Require Import Reals List ZArith Lra Lia Psatz Bool.
From Coquelicot Require Import Coquelicot.
From Verif Require Import DftModel DftProofs DftSpec TableProofs WignerMatrix WignerModel WignerSpec WignerOrtho WignerClose WignerNorm WignerProofs FreqModel FreqSpec FreqProofs PhysSpec PhysLevels PhysRot PhysCouple PhysSpin PhysExact FreqConst PhysClose PhysRotor PhysEvent PhysRead.
Import ListNotations.
Open Scope R_scope.

(** ** The modulation is a linear reading *)
Definition side (k : wconst) (l : nat) (al be th vr t : R) (v : list C) : R := modulation l (fun j => nth j (wigner_dm0 k l th) 0) (rotation k l al (cis be) 0 v) vr t.
Lemma side_scale k l al be th vr t x v : side k l al be th vr t (vscale x v) = x * side k l al be th vr t v.
Proof.
  unfold side, modulation. rewrite rotation_vscale, <- rsum_scal. apply rsum_ext. intros j _. destruct (j =? l)%nat; [ring|]. rewrite nth_vscale.
  destruct (nth j (rotation k l al (cis be) 0 v) (RtoC 0)). unfold cis. cbn. ring.
Qed.
Lemma side_add k l al be th vr t a b : length a = (2 * l + 1)%nat -> length b = (2 * l + 1)%nat -> side k l al be th vr t (vadd a b) = side k l al be th vr t a + side k l al be th vr t b.
Proof.
  intros La Lb. unfold side, modulation. rewrite rotation_vadd, <- rsum_plus by auto. apply rsum_ext. intros j _. destruct (j =? l)%nat; [ring|]. rewrite nth_vadd by (rewrite !rotation_length; auto).
  destruct (nth j (rotation k l al (cis be) 0 a) (RtoC 0)), (nth j (rotation k l al (cis be) 0 b) (RtoC 0)). unfold cis. cbn. ring.
Qed.
Lemma side_zero k l al be th vr t : side k l al be th vr t (vzero (2 * l + 1)) = 0.
Proof. replace (vzero (2 * l + 1)) with (vscale 0 (vzero (2 * l + 1))) by (rewrite vscale_0; unfold vzero; rewrite repeat_length; reflexivity). rewrite side_scale. ring. Qed.
(** ** Nearby readings *)
Lemma rows_close l th al be p p' i : rank l -> 0 <= beta_of th < 6.2831 -> (i < 2 * l + 1)%nat ->
  Cmod (nth i (rotation decimal l al (cis be) 0 (turn l th p)) (RtoC 0) - nth i (rotation ideal l al (cis be) 0 (exact_turn l th p')) (RtoC 0))%C
  <= tol_both l * size l p + INR (2 * l + 1) * gap l p p' /\
  Cmod (nth i (rotation decimal l al (cis be) 0 (turn l th p)) (RtoC 0)) <= (if Nat.eqb l 2 then 5.1 else 9.1) * size l p.
Proof.
  intros H B Hi. destruct th as [[a b] g]. cbn [beta_of fst snd] in B. cbn [turn exact_turn]. unfold single_wigner_rotation.
  set (w := rotation decimal l a (cos_sin_from_table b) g p). set (w' := rotation ideal l a (cis b) g p').
  assert (T1 : 0 <= tol l) by (unfold tol; destruct (l =? 2)%nat; lra). assert (T2 : 0 <= tol_table l) by (unfold tol_table; destruct (l =? 2)%nat; lra).
  assert (G : gap l w w' <= INR (2 * l + 1) * (tol_table l * size l p + gap l p p')).
  { unfold gap at 1. rewrite <- rsum_const. apply rsum_le. intros j Hj. apply row_diff; auto using cis_unit. intros; apply tol_tables; auto. }
  assert (S : size l w <= INR (2 * l + 1) * ((1 + tol_table l) * size l p)).
  { unfold size at 1. rewrite <- rsum_const. apply rsum_le. intros j Hj. apply row_size; auto; [lra|]. intros i0 j0 Hi0 Hj0.
    pose proof (tol_tables l b i0 j0 H B Hi0 Hj0) as K1. pose proof (ent_le_1 l (cis b) i0 j0 H (cis_unit b) Hi0 Hj0) as K2.
    replace (ent decimal l (cos_sin_from_table b) i0 j0) with ((ent decimal l (cos_sin_from_table b) i0 j0 - ent ideal l (cis b) i0 j0) + ent ideal l (cis b) i0 j0) by ring.
    eapply Rle_trans; [apply Rabs_triang|]. lra. }
  pose proof (row_diff l al 0 (cis be) (cis be) (tol l) w w' i H (cis_unit be) T1 (fun i j Hi Hj => tol_exact l be i j H Hi Hj) Hi) as D.
  assert (Z : Cmod (nth i (rotation decimal l al (cis be) 0 w) (RtoC 0)) <= (1 + tol l) * size l w).
  { apply row_size; auto; [lra|]. intros i0 j0 Hi0 Hj0. pose proof (tol_exact l be i0 j0 H Hi0 Hj0) as K1. pose proof (ent_le_1 l (cis be) i0 j0 H (cis_unit be) Hi0 Hj0) as K2.
    replace (ent decimal l (cis be) i0 j0) with ((ent decimal l (cis be) i0 j0 - ent ideal l (cis be) i0 j0) + ent ideal l (cis be) i0 j0) by ring.
    eapply Rle_trans; [apply Rabs_triang|]. lra. }
  set (z := nth i (rotation decimal l al (cis be) 0 w) (RtoC 0)) in *. set (z' := nth i (rotation ideal l al (cis be) 0 w') (RtoC 0)) in *. clearbody z z'.
  pose proof (size_nonneg l p) as SP. pose proof (gap_nonneg l p p') as GP. pose proof (size_nonneg l w) as SW.
  set (sp := size l p) in *. set (gp := gap l p p') in *. set (sw := size l w) in *. set (gw := gap l w w') in *. clearbody sp gp sw gw.
  destruct H as [->| ->]; cbn in T1, T2, G, S, Z |- *; unfold tol, tol_table, tol_both in *; cbn [Nat.eqb] in *; split; lra.
Qed.
Lemma side_close l th al be rot vr t p p' : rank l -> 0 <= beta_of th < 6.2831 ->
  Rabs (side decimal l al be rot vr t (turn l th p) - side ideal l al be rot vr t (exact_turn l th p')) <= 10 * (tol_both l * size l p + INR (2 * l + 1) * gap l p p').
Proof.
  intros H B. unfold side, modulation.
  set (w := rotation decimal l al (cis be) 0 (turn l th p)). set (w' := rotation ideal l al (cis be) 0 (exact_turn l th p')).
  set (T := tol_both l * size l p + INR (2 * l + 1) * gap l p p'). set (M := (if Nat.eqb l 2 then 5.1 else 9.1) * size l p).
  assert (RC : forall j, (j < 2 * l + 1)%nat -> Cmod (nth j w (RtoC 0) - nth j w' (RtoC 0))%C <= T /\ Cmod (nth j w (RtoC 0)) <= M) by (intros j Hj; apply rows_close; auto).
  assert (T1 : 0 <= tol l) by (unfold tol; destruct (l =? 2)%nat; lra). pose proof (size_nonneg l p) as SP. pose proof (gap_nonneg l p p') as GP.
  assert (M0 : 0 <= M) by (unfold M; apply Rmult_le_pos; [destruct (l =? 2)%nat; lra|auto]).
  assert (T0 : 0 <= T) by (unfold T; pose proof (pos_INR (2 * l + 1)); apply Rplus_le_le_0_compat; apply Rmult_le_pos; auto; unfold tol_both; destruct (l =? 2)%nat; lra).
  match goal with |- Rabs (rsum ?N ?f - rsum ?N ?g) <= _ => assert (Q : Rabs (rsum N f - rsum N g) <= rsum N (fun j => if Nat.eqb j l then 0 else tol l * M + T)) end.
  { match goal with |- Rabs (rsum ?N ?f - rsum ?N ?g) <= _ => replace (rsum N f - rsum N g) with (rsum N (fun j => f j + - 1 * g j)) by (rewrite rsum_plus, rsum_scal; ring) end.
    eapply Rle_trans; [apply rsum_abs|]. apply rsum_le. intros j Hj. cbv beta. destruct (Nat.eqb_spec j l); [rewrite Rmult_0_r, Rplus_0_r, Rabs_R0; lra|].
    rewrite !dm0_row by auto. destruct (RC j Hj) as [R1 R2]. pose proof (tol_exact l rot l j H ltac:(lia) Hj) as K1. pose proof (ent_le_1 l (cis rot) l j H (cis_unit rot) ltac:(lia) Hj) as K2.
    set (d := ent decimal l (cis rot) l j) in *. set (d' := ent ideal l (cis rot) l j) in *. set (x := (INR j - INR l) * (vr * (2 * PI)) * t). set (z := nth j w (RtoC 0)) in *. set (z' := nth j w' (RtoC 0)) in *. clearbody d d' x z z'.
    replace (d * fst (z * cis x)%C + - 1 * (d' * fst (z' * cis x)%C)) with ((d - d') * fst (z * cis x)%C + d' * fst ((z - z') * cis x)%C) by (destruct z, z'; unfold cis; cbn; ring).
    assert (U : forall y, Rabs (fst (y * cis x)%C) <= Cmod y). { intros y. eapply Rle_trans; [eapply Rle_trans; [apply Rmax_l|apply Rmax_Cmod]|]. rewrite Cmod_mult, (Cmod_unit (cis x)) by apply cis_unit. lra. }
    apply b_add; [apply b_mul; auto|]. - eapply Rle_trans; [apply U|auto]. - rewrite <- (Rmult_1_l T). apply b_mul; auto. eapply Rle_trans; [apply U|auto]. }
  eapply Rle_trans; [exact Q|]. clear Q RC. clearbody w w'. destruct H as [->| ->]; cbn [Nat.mul Nat.add rsum Nat.eqb]; unfold tol, M, T, tol_both in *; cbn [Nat.eqb] in *; set (sp := size _ p) in *; set (gp := gap _ p p') in *; clearbody sp gp; cbn [INR Nat.mul Nat.add] in *; lra.
Qed.

(** ** The modulation of the exact frequency *)
Lemma csum_fst n g : fst (csum n g) = rsum n (fun i => fst (g i)).
Proof. induction n; cbn [csum rsum]; [reflexivity|]. rewrite <- IHn. reflexivity. Qed.
Lemma through_side l al be th vr t v : (l = 2 \/ l = 4)%nat ->
  fst (nth l (through l [(al, be, - (2 * PI * vr * t)); (0, th, 0)] v) (RtoC 0)) =
  side ideal l al be th vr t v + (if Nat.eqb l 2 then P2 (cos th) else P4 (cos th)) * fst (nth l (rotation ideal l al (cis be) 0 v) (RtoC 0)).
Proof.
  intros H. set (p := - (2 * PI * vr * t)). unfold side. set (u := rotation ideal l al (cis be) 0 v).
  assert (D : forall j, (j < 2 * l + 1)%nat -> nth j (wigner_dm0 ideal l th) 0 = nth (l * (2 * l + 1) + j) (wigner_d ideal false l (cis th)) 0) by (intros j Hj; rewrite (dm0_row ideal l th j H Hj); reflexivity).
  assert (W : (if Nat.eqb l 2 then P2 (cos th) else P4 (cos th)) = nth l (wigner_dm0 ideal l th) 0).
  { rewrite D by lia. assert (S : sin th * sin th = 1 - cos th * cos th) by (pose proof (sin2_cos2 th) as E; unfold Rsqr in E; lra).
    destruct H as [-> | ->]; cbn [Nat.eqb]; unfold P2, P4; cbn; field [S]. }
  rewrite W. clear W. cbn [through fold_left exact_turn].
  unfold rotation at 1. rewrite cis_0, !(scale_one l) by (rewrite ?mat_vec_length; auto using rotation_length). rewrite mat_vec_nth by lia. rewrite csum_fst.
  assert (V : rotation ideal l al (cis be) p v = scale_phases l (cis p) u) by (unfold u, rotation; rewrite cis_0, (scale_one l _ (mat_vec_length _ _ _ _)); reflexivity). rewrite V. clear V.
  unfold modulation.
  rewrite (rsum_ext (2 * l + 1) _ (fun j => (if Nat.eqb j l then 0 else nth j (wigner_dm0 ideal l th) 0 * fst (nth j u (RtoC 0) * cis ((INR j - INR l) * (vr * (2 * PI)) * t))%C) +
     (if Nat.eqb l j then 1 else 0) * (nth l (wigner_dm0 ideal l th) 0 * fst (nth l u (RtoC 0))))).
  - rewrite rsum_plus. f_equal. rewrite (rsum_delta _ l (fun _ => nth l (wigner_dm0 ideal l th) 0 * fst (nth l u (RtoC 0)))) by lia. reflexivity.
  - intros j Hj. rewrite <- D by auto. rewrite scale_nth by auto. destruct (Nat.lt_trichotomy j l) as [L|[L|L]].
    + destruct (Nat.eqb_spec j l); [lia|]. destruct (Nat.eqb_spec l j); [lia|]. destruct (Nat.ltb_spec j l); [|lia]. rewrite cpow_cis, minus_INR by lia.
      replace ((INR l - INR j) * p) with ((INR j - INR l) * (vr * (2 * PI)) * t) by (unfold p; ring). destruct (nth j u (RtoC 0)). unfold cis. cbn. ring.
    + subst j. rewrite Nat.eqb_refl, Nat.ltb_irrefl. cbn. ring.
    + destruct (Nat.eqb_spec j l); [lia|]. destruct (Nat.eqb_spec l j); [lia|]. destruct (Nat.ltb_spec j l); [lia|]. destruct (Nat.ltb_spec l j); [|lia]. rewrite cpow_cis, minus_INR by lia.
      replace ((INR j - INR l) * (vr * (2 * PI)) * t) with (- ((INR j - INR l) * p)) by (unfold p; ring). destruct (nth j u (RtoC 0)). unfold cis. rewrite cos_neg, sin_neg. cbn. ring.
Qed.
Lemma exact_side c al be th vr t : exact_frequency c (rotor_frame al be (- (2 * PI * vr * t)) th) - exact_mean c al be th =
  exact_read (side ideal 2 al be th vr t) (side ideal 4 al be th vr t) c.
Proof.
  unfold exact_frequency, exact_mean, exact_read, rotor_frame. rewrite !through_side by auto. cbn [Nat.eqb]. ring.
Qed.

(** ** Sums of readings *)
Lemma rtotal_ext {A} (g h : A -> R) l : (forall x, g x = h x) -> rtotal g l = rtotal h l.
Proof. intros H. unfold rtotal. induction l; cbn; congruence. Qed.
Lemma rtotal_minus {A} (g h : A -> R) l : rtotal (fun x => g x - h x) l = rtotal g l - rtotal h l.
Proof. induction l as [|x l IH]; [cbn; ring|]. rewrite !rtotal_cons, IH. ring. Qed.
Lemma system_minus (g h : comps -> R) fourth B0 sites cps ns lv lv' :
  exact_system (fun c => g c - h c) fourth B0 sites cps ns lv lv' = exact_system g fourth B0 sites cps ns lv lv' - exact_system h fourth B0 sites cps ns lv lv'.
Proof.
  unfold exact_system. match goal with |- ?a + ?b = ?c + ?d - (?e + ?f) => cut (a = c - e /\ b = d - f); [intros [H1 H2]; rewrite H1, H2; ring|split] end; rewrite <- rtotal_minus; apply rtotal_ext.
  - intros [s [n [a a']]]. apply rtotal_minus.
  - intros cp. apply rtotal_minus.
Qed.
Lemma system_ext (g h : comps -> R) fourth B0 sites cps ns lv lv' : (forall c, g c = h c) -> exact_system g fourth B0 sites cps ns lv lv' = exact_system h fourth B0 sites cps ns lv lv'.
Proof.
  intros H. unfold exact_system. f_equal; apply rtotal_ext; [intros [s [n [a a']]]|intros cp]; apply rtotal_ext; intros; apply H.
Qed.
Lemma int_rtotal {A} (g : A -> R -> R) l a b : (forall x, ex_RInt (g x) a b) -> ex_RInt (fun t => rtotal (fun x => g x t) l) a b.
Proof.
  intros H. induction l as [|x l IH]; [exact (ex_RInt_const (V := R_NormedModule) a b 0)|]. exact (ex_RInt_plus (V := R_NormedModule) (g x) (fun t => rtotal (fun x => g x t) l) a b (H x) IH).
Qed.
Lemma system_int (g : R -> comps -> R) fourth B0 sites cps ns lv lv' a b : (forall c, ex_RInt (fun t => g t c) a b) -> ex_RInt (fun t => exact_system (g t) fourth B0 sites cps ns lv lv') a b.
Proof.
  intros H. unfold exact_system. apply (ex_RInt_plus (V := R_NormedModule)).
  - apply (int_rtotal (fun x t => let '(s, (n, (a, a'))) := x in rtotal (fun c => g t (exact_part B0 s (quantum n a) (quantum n a') c)) (existing fourth s))).
    intros [s [n [i i']]]. apply (int_rtotal (fun c t => g t (exact_part B0 s (quantum n i) (quantum n i') c))). intros c. apply H.
  - apply (int_rtotal (fun cp t => rtotal (fun k => g t (coupling_part exact_turn ideal_f (dIS cp (states ns lv) (states ns lv')) cp k)) (seq 0 3))).
    intros cp. apply (int_rtotal (fun k t => g t (coupling_part exact_turn ideal_f (dIS cp (states ns lv) (states ns lv')) cp k))). intros k. apply H.
Qed.
Lemma side_int k l al be th vr v a b : ex_RInt (fun t => side k l al be th vr t v) a b.
Proof.
  unfold side, modulation. set (N := (2 * l + 1)%nat). clearbody N. induction N as [|N IH]; cbn [rsum]; [apply (ex_RInt_const (V := R_NormedModule))|].
  apply (ex_RInt_plus (V := R_NormedModule)); [exact IH|]. destruct (N =? l)%nat; [apply (ex_RInt_const (V := R_NormedModule))|].
  apply (ex_RInt_continuous (V := R_CompleteNormedModule)). intros t _. destruct (nth N (rotation k l al (cis be) 0 v) (RtoC 0)) as [x y]. unfold cis. cbn. apply continuity_pt_filterlim. reg.
Qed.
(** The contributions of rank four are absent when they are not asked for. *)
Lemma no_fourth_total l : (forall c, In c l -> r4 c = vzero 9) -> r4 (total l) = vzero 9.
Proof.
  induction l as [|c l IH]; intros H; [reflexivity|]. cbn [total fold_right cadd r4]. fold (total l). rewrite IH by (intros x Hx; apply H; right; auto). rewrite (H c (or_introl eq_refl)).
  unfold vzero. cbn. repeat f_equal; apply C_ext; cbn; ring.
Qed.
Lemma no_fourth_system B0 sites cps mi mf : length mi = length sites -> length mf = length sites ->
  r4 (cadd (sites_total decimal_f false B0 freq_list_all sites mi mf) (couplings_total decimal_f cps mi mf)) = vzero 9.
Proof.
  intros _ _. assert (Z : vadd (vzero 9) (vzero 9) = vzero 9) by (unfold vzero; cbn; repeat f_equal; apply C_ext; cbn; ring).
  cbn [cadd r4]. unfold sites_total, couplings_total. rewrite !no_fourth_total; auto.
  - intros c Hc. apply in_map_iff in Hc. destruct Hc as [cp [<- _]]. unfold coupling_total. apply no_fourth_total. intros c [<-|[<-|[<-|[]]]]; reflexivity.
  - intros c Hc. apply in_map_iff in Hc. destruct Hc as [i [<- _]]. unfold site_total. apply no_fourth_total. intros c Hc. apply in_map_iff in Hc. destruct Hc as [k [<- Hk]].
    apply filter_In in Hk. destruct Hk as [_ Hk]. apply andb_true_iff in Hk. destruct Hk as [_ Hk]. destruct k; try reflexivity; cbn in Hk; destruct (Req_EM_T _ _) in Hk; discriminate.
Qed.

(** ** The phase *)
Section Phase.
Variables (fourth : bool) (B0 : R) (sites : list site) (cps : list coupling) (ns lv lv' : list nat) (al be th vr : R) (nsb : nat).
Hypothesis F : sites_fine fourth B0 sites ns lv lv'.
Hypothesis G : couplings_fine cps (length sites).
Let c := cadd (sites_total decimal_f fourth B0 freq_list_all sites (states ns lv) (states ns lv')) (couplings_total decimal_f cps (states ns lv) (states ns lv')).
Hypothesis RT : creal c.
Hypothesis V : 0 < vr.
Hypothesis N : (0 < nsb)%nat.
Let mean := exact_system (fun c => exact_mean c al be th) fourth B0 sites cps ns lv lv'.
Let E t levels := system_level fourth B0 sites cps (rotor_frame al be (- (2 * PI * vr * t)) th) ns levels.
Let d l i := nth i (wigner_dm0 decimal l th) 0.
Lemma system_side t : E t lv' - E t lv - mean = exact_system (exact_read (side ideal 2 al be th vr t) (side ideal 4 al be th vr t)) fourth B0 sites cps ns lv lv'.
Proof.
  unfold E, mean. rewrite <- (system_exact fourth B0 sites cps ns lv lv' _ F G), <- system_minus. apply system_ext. intros x. apply exact_side.
Qed.
Lemma side_int_system a b : ex_RInt (fun t => 2 * PI * (E t lv' - E t lv - mean)) a b.
Proof.
  apply (ex_RInt_ext (fun t => scal (2 * PI) (exact_system (exact_read (side ideal 2 al be th vr t) (side ideal 4 al be th vr t)) fourth B0 sites cps ns lv lv'))).
  { intros t _. rewrite <- system_side. reflexivity. }
  apply (ex_RInt_scal (V := R_NormedModule)). apply (system_int (fun t => exact_read (side ideal 2 al be th vr t) (side ideal 4 al be th vr t))).
  intros x. unfold exact_read. apply (ex_RInt_plus (V := R_NormedModule)); apply side_int.
Qed.
Lemma side_read_close t : Rabs (code_read (side decimal 2 al be th vr t) (side decimal 4 al be th vr t) c - (E t lv' - E t lv - mean)) <= 10 * system_tolerance fourth B0 sites cps ns lv lv'.
Proof.
  rewrite system_side.
  assert (C2 : forall an p p', 0 <= beta_of an < 6.2831 -> Rabs (side decimal 2 al be th vr t (turn 2 an p) - side ideal 2 al be th vr t (exact_turn 2 an p')) <= 10 * (6e-7 * size 2 p + 5 * gap 2 p p')).
  { intros an p p' B. pose proof (side_close 2 an al be th vr t p p' (or_introl eq_refl) B) as H. unfold tol_both in H. cbn [Nat.eqb] in H. replace (INR (2 * 2 + 1)) with 5 in H by (cbn [INR Nat.mul Nat.add]; ring). exact H. }
  assert (C4 : forall an p p', 0 <= beta_of an < 6.2831 -> Rabs (side decimal 4 al be th vr t (turn 4 an p) - side ideal 4 al be th vr t (exact_turn 4 an p')) <= 10 * (6.1e-5 * size 4 p + 9 * gap 4 p p')).
  { intros an p p' B. pose proof (side_close 4 an al be th vr t p p' (or_intror eq_refl) B) as H. unfold tol_both in H. cbn [Nat.eqb] in H. replace (INR (2 * 4 + 1)) with 9 in H by (cbn [INR Nat.mul Nat.add]; ring). exact H. }
  exact (system_read (side decimal 2 al be th vr t) (side decimal 4 al be th vr t) (side ideal 2 al be th vr t) (side ideal 4 al be th vr t) 10 ltac:(lra)
    (side_scale decimal 2 al be th vr t) (side_scale decimal 4 al be th vr t) (side_add decimal 2 al be th vr t) (side_add decimal 4 al be th vr t) (side_scale ideal 2 al be th vr t) (side_scale ideal 4 al be th vr t)
    C2 C4 fourth B0 sites cps ns lv lv' F G).
Qed.
Lemma phase_close step : exists Phi,
  is_RInt (fun t => 2 * PI * (E t lv' - E t lv - mean)) 0 (INR step / (INR nsb * vr)) Phi /\
  Rabs (sideband_phase nsb vr (d 2%nat) (d 4%nat) (fun i => nth i (rotation decimal 2 al (cis be) 0 (r2 c)) (RtoC 0)) (fun i => nth i (rotation decimal 4 al (cis be) 0 (r4 c)) (RtoC 0)) fourth step - Phi)
  <= INR step / (INR nsb * vr) * (20 * PI * system_tolerance fourth B0 sites cps ns lv lv').
Proof.
  set (T := INR step / (INR nsb * vr)). destruct (side_int_system 0 T) as [Phi HP]. exists Phi. split; [exact HP|].
  assert (PN : 0 < INR nsb) by (apply lt_0_INR; auto). assert (T0 : 0 <= T) by (unfold T; apply Rdiv_le_0_compat; [apply pos_INR|apply Rmult_lt_0_compat; auto]).
  destruct RT as [R2 R4].
  pose proof (phase_integral decimal nsb vr th (rotation decimal 2 al (cis be) 0 (r2 c)) (rotation decimal 4 al (cis be) 0 (r4 c)) fourth step V N (rotation_real _ 2 _ _ _ _ (or_introl eq_refl) R2) (rotation_real _ 4 _ _ _ _ (or_intror eq_refl) R4)) as I.
  cbv zeta in I. fold T in I. change (fun i => nth i (wigner_dm0 decimal 2 th) 0) with (d 2%nat) in I. change (fun i => nth i (wigner_dm0 decimal 4 th) 0) with (d 4%nat) in I.
  match type of I with is_RInt _ _ _ ?v => set (ph := v) in * end.
  pose proof (is_RInt_minus (V := R_NormedModule) _ _ _ _ _ _ I HP) as D.
  change (norm (minus ph Phi) <= T * (20 * PI * system_tolerance fourth B0 sites cps ns lv lv')). replace (T * (20 * PI * system_tolerance fourth B0 sites cps ns lv lv')) with ((T - 0) * (20 * PI * system_tolerance fourth B0 sites cps ns lv lv')) by ring.
  eapply (norm_RInt_le_const (V := R_NormedModule)); [exact T0| |exact D]. intros t _. cbv beta.
  match goal with |- norm ?x <= ?y => change (Rabs x <= y); replace x with (2 * PI * (code_read (side decimal 2 al be th vr t) (side decimal 4 al be th vr t) c - (E t lv' - E t lv - mean))) end.
  2:{ match goal with |- _ = minus ?u ?v => change (minus u v) with (u - v) end. unfold code_read. match goal with |- context [modulation 2 ?f ?w vr t] => change (modulation 2 f w vr t) with (side decimal 2 al be th vr t (r2 c)) end.
      match goal with |- context [if fourth then ?m else 0] => assert (Q : (if fourth then m else 0) = side decimal 4 al be th vr t (r4 c)) end.
      { destruct (sites_length _ _ _ _ _ _ F) as [L1 [L2 _]]. destruct fourth; [reflexivity|]. unfold c. rewrite no_fourth_system by auto. symmetry. apply (side_zero decimal 4). }
      rewrite Q. ring. }
  rewrite Rabs_mult, (Rabs_right (2 * PI)) by (pose proof PI_RGT_0; lra). replace (20 * PI * system_tolerance fourth B0 sites cps ns lv lv') with (2 * PI * (10 * system_tolerance fourth B0 sites cps ns lv lv')) by ring.
  apply Rmult_le_compat_l; [pose proof PI_RGT_0; lra|apply side_read_close].
Qed.
End Phase.

(** ** Intensities *)
Lemma cis_lipschitz a b : Cmod (cis a - cis b)%C <= Rabs (a - b).
Proof.
  assert (S : Cmod (cis a - cis b)%C ^ 2 <= Rabs (a - b) ^ 2).
  { unfold Cmod. rewrite pow2_sqrt by nra. rewrite pow2_abs. unfold cis. cbn [fst snd Cminus Cplus Copp].
    replace ((cos a + - cos b) ^ 2 + (sin a + - sin b) ^ 2) with ((sin a * sin a + cos a * cos a) + (sin b * sin b + cos b * cos b) - 2 * (cos a * cos b + sin a * sin b)) by ring.
    pose proof (sin2_cos2 a) as Ha. pose proof (sin2_cos2 b) as Hb. unfold Rsqr in Ha, Hb. rewrite Ha, Hb, <- cos_minus.
    replace (a - b) with (2 * ((a - b) / 2)) at 1 by field. rewrite cos_2a_sin. set (x := (a - b) / 2).
    assert (X : sin x ^ 2 <= x ^ 2). { rewrite <- (pow2_abs x), <- (pow2_abs (sin x)). apply pow_incr. split; [apply Rabs_pos|]. apply Rsin_le. }
    replace ((a - b) ^ 2) with (4 * x ^ 2) by (unfold x; field). lra. }
  apply Rsqr_incr_0_var; [|apply Rabs_pos]. unfold Rsqr. lra.
Qed.
Lemma intensity_close n (x y : nat -> C) k eta : (0 < n)%nat -> (forall j, (j < n)%nat -> Cmod (x j) <= 1) -> (forall j, (j < n)%nat -> Cmod (y j) <= 1) -> (forall j, (j < n)%nat -> Cmod (x j - y j)%C <= eta) ->
  Rabs (sideband_intensity n x k / INR n ^ 2 - sideband_intensity n y k / INR n ^ 2) <= 2 * eta.
Proof.
  intros H X Y D. assert (PN : 0 < INR n) by (apply lt_0_INR; auto). unfold sideband_intensity, fft1.
  set (e j := cis (- (2 * PI) * (INR j * INR k) / INR n)). change (csum n (fun j => (cis (- (2 * PI) * (INR j * INR k) / INR n) * x j)%C)) with (csum n (fun j => (e j * x j)%C)). change (csum n (fun j => (cis (- (2 * PI) * (INR j * INR k) / INR n) * y j)%C)) with (csum n (fun j => (e j * y j)%C)).
  assert (U : forall j, Cmod (e j) = 1) by (intros j; apply Cmod_unit, cis_unit).
  assert (B : forall z : nat -> C, (forall j, (j < n)%nat -> Cmod (z j) <= 1) -> Cmod (csum n (fun j => e j * z j)%C) <= INR n).
  { intros z Hz. eapply Rle_trans; [apply Cmod_csum|]. replace (INR n) with (rsum n (fun _ => 1)) by (rewrite rsum_const; ring). apply rsum_le. intros j Hj. rewrite Cmod_mult, U. specialize (Hz j Hj). lra. }
  assert (Q : Cmod (csum n (fun j => e j * x j) - csum n (fun j => e j * y j))%C <= INR n * eta).
  { replace (csum n (fun j => e j * x j) - csum n (fun j => e j * y j))%C with (csum n (fun j => e j * (x j - y j))%C).
    2:{ clearbody e. clear. induction n as [|n IH]; cbn [csum]; [ring|]. rewrite IH. ring. }
    eapply Rle_trans; [apply Cmod_csum|]. rewrite <- rsum_const. apply rsum_le. intros j Hj. rewrite Cmod_mult, U. specialize (D j Hj). lra. }
  pose proof (B x X) as BX. pose proof (B y Y) as BY. set (a := csum n (fun j => (e j * x j)%C)) in *. set (b := csum n (fun j => (e j * y j)%C)) in *. clearbody a b.
  assert (A2 : forall z : C, abs2 z = Cmod z ^ 2) by (intros z; unfold Cmod, abs2; rewrite pow2_sqrt by nra; ring). rewrite !A2.
  assert (T : Rabs (Cmod a - Cmod b) <= INR n * eta).
  { eapply Rle_trans; [|exact Q]. apply Rabs_le. pose proof (Cmod_triangle (a - b)%C b) as T1. pose proof (Cmod_triangle (b - a)%C a) as T2.
    replace (a - b + b)%C with a in T1 by ring. replace (b - a + a)%C with b in T2 by ring. replace (b - a)%C with (- (a - b))%C in T2 by ring. rewrite Cmod_opp in T2. lra. }
  pose proof (Cmod_ge_0 a). pose proof (Cmod_ge_0 b).
  replace (Cmod a ^ 2 / INR n ^ 2 - Cmod b ^ 2 / INR n ^ 2) with ((Cmod a - Cmod b) / INR n * ((Cmod a + Cmod b) / INR n)) by (field; lra).
  rewrite Rmult_comm. apply b_mul.
  - rewrite Rabs_right by (apply Rle_ge, Rdiv_le_0_compat; lra). apply Rle_div_l; lra.
  - unfold Rdiv. rewrite Rabs_mult, (Rabs_right (/ INR n)) by (apply Rle_ge; left; apply Rinv_0_lt_compat; auto). apply Rle_div_l; lra.
Qed.
