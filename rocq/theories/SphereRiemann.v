(** Sums over the triangles of the face against integrals. *)
From Coq Require Import Reals List Lia Psatz.
From Coquelicot Require Import Coquelicot.
From Verif Require Import DftModel DftProofs WignerNorm WignerProofs AverageProofs.
From Coq Require Import Lra.
Open Scope R_scope.

Lemma lip_continuous (f : R -> R) M x : 0 <= M -> (forall y, Rabs (y - x) <= 1 -> Rabs (f y - f x) <= M * Rabs (y - x)) -> continuous f x.
Proof.
  intros HM H. apply continuity_pt_filterlim. intros eps He. exists (Rmin 1 (eps / (M + 1))). split.
  - apply Rmin_pos; [lra|]. apply Rdiv_lt_0_compat; lra.
  - intros y [_ Hy]. unfold dist in *. simpl in *. unfold R_dist in *. pose proof (Rmin_l 1 (eps / (M + 1))). pose proof (Rmin_r 1 (eps / (M + 1))). eapply Rle_lt_trans; [apply H; lra|].
    assert (Rabs (y - x) < eps / (M + 1)) by lra. assert (eps / (M + 1) * (M + 1) = eps) by (field; lra). pose proof (Rabs_pos (y - x)). nra.
Qed.
Lemma continuous_ex (f : R -> R) a b : (forall x, Rmin a b <= x <= Rmax a b -> continuous f x) -> ex_RInt f a b.
Proof. intros H. apply (ex_RInt_continuous (V := R_CompleteNormedModule)). exact H. Qed.
(** The left sum of a function with slope at most M. *)
Lemma left_sum (f : R -> R) M h n : 0 <= h -> (forall x, 0 <= x <= INR n * h -> continuous f x) -> (forall x y, 0 <= x <= INR n * h -> 0 <= y <= INR n * h -> Rabs (f x - f y) <= M * Rabs (x - y)) -> 0 <= M ->
  Rabs (rsum n (fun c => h * f (INR c * h)) - RInt f 0 (INR n * h)) <= INR n * (M * h * h).
Proof.
  intros Hh. induction n as [|n IH]; intros C L HM.
  - cbn [rsum INR]. rewrite Rmult_0_l, RInt_point. unfold zero; cbn. rewrite Rminus_0_r, Rabs_R0. lra.
  - cbn [rsum]. assert (N0 : 0 <= INR n * h) by (apply Rmult_le_pos; [apply pos_INR|auto]). rewrite S_INR in *. assert (E1 : ex_RInt f 0 (INR n * h)) by (apply continuous_ex; intros x; rewrite Rmin_left, Rmax_right by auto; intros; apply C; lra).
    assert (E2 : ex_RInt f (INR n * h) ((INR n + 1) * h)) by (apply continuous_ex; intros x; rewrite Rmin_left, Rmax_right by lra; intros; apply C; lra).
    assert (CH : RInt f 0 ((INR n + 1) * h) = RInt f 0 (INR n * h) + RInt f (INR n * h) ((INR n + 1) * h)) by (symmetry; apply (RInt_Chasles (V := R_CompleteNormedModule)); auto). rewrite CH.
    assert (A : Rabs (RInt (fun x => f x - f (INR n * h)) (INR n * h) ((INR n + 1) * h)) <= ((INR n + 1) * h - INR n * h) * (M * h)).
    { apply abs_RInt_le_const; [lra|apply (ex_RInt_minus (V := R_NormedModule)); auto; apply ex_RInt_const|]. intros t Ht. eapply Rle_trans; [apply L; lra|]. rewrite Rabs_pos_eq by lra. apply Rmult_le_compat_l; lra. }
    assert (E : RInt (fun x => f x - f (INR n * h)) (INR n * h) ((INR n + 1) * h) = RInt f (INR n * h) ((INR n + 1) * h) - h * f (INR n * h)).
    { rewrite (RInt_minus (V := R_CompleteNormedModule) f (fun _ => f (INR n * h))) by (auto; apply ex_RInt_const). rewrite RInt_const. unfold minus, plus, opp, scal; cbn. unfold mult; cbn. ring. }
    rewrite E in A. assert (IH' := IH (fun x (Hx : 0 <= x <= INR n * h) => C x ltac:(lra)) (fun x y (Hx : 0 <= x <= INR n * h) (Hy : 0 <= y <= INR n * h) => L x y ltac:(lra) ltac:(lra)) HM).
    replace (rsum n (fun c => h * f (INR c * h)) + h * f (INR n * h) - (RInt f 0 (INR n * h) + RInt f (INR n * h) ((INR n + 1) * h)))
      with ((rsum n (fun c => h * f (INR c * h)) - RInt f 0 (INR n * h)) + - (RInt f (INR n * h) ((INR n + 1) * h) - h * f (INR n * h))) by ring.
    eapply Rle_trans; [apply Rabs_triang|]. rewrite Rabs_Ropp. replace ((INR n + 1) * (M * h * h)) with (INR n * (M * h * h) + ((INR n + 1) * h - INR n * h) * (M * h)) by ring. apply Rplus_le_compat; assumption.
Qed.

Lemma rsum_sub n f f' : rsum n (fun i => f i - f' i) = rsum n f - rsum n f'.
Proof. induction n as [|n IH]; cbn [rsum]; [ring|]. rewrite IH. ring. Qed.

Section Face.
Variables w g : R -> R -> R.
Variables Wm Lw B Lg : R.
Hypothesis w_bound : forall y z, Rabs (w y z) <= Wm.
Hypothesis g_bound : forall y z, Rabs (g y z) <= B.
Hypothesis w_lip : forall y z y' z', Rabs (w y z - w y' z') <= Lw * (Rabs (y - y') + Rabs (z - z')).
Hypothesis g_lip : forall y z y' z', Rabs (g y z - g y' z') <= Lg * (Rabs (y - y') + Rabs (z - z')).
Hypothesis Lw_pos : 0 <= Lw.
Hypothesis Lg_pos : 0 <= Lg.
Let M := Wm * Lg + B * Lw.
Let P := Wm * B.
Let G y z := w y z * g y z.
Lemma Wm_pos : 0 <= Wm. Proof. eapply Rle_trans; [apply Rabs_pos|apply (w_bound 0 0)]. Qed.
Lemma B_pos : 0 <= B. Proof. eapply Rle_trans; [apply Rabs_pos|apply (g_bound 0 0)]. Qed.
Lemma M_pos : 0 <= M. Proof. pose proof Wm_pos. pose proof B_pos. unfold M. apply Rplus_le_le_0_compat; apply Rmult_le_pos; auto. Qed.
Lemma P_pos : 0 <= P. Proof. pose proof Wm_pos. pose proof B_pos. unfold P. apply Rmult_le_pos; auto. Qed.
Lemma G_bound y z : Rabs (G y z) <= P.
Proof. unfold G, P. rewrite Rabs_mult. apply Rmult_le_compat; auto using Rabs_pos. Qed.
Lemma G_lip y z y' z' : Rabs (G y z - G y' z') <= M * (Rabs (y - y') + Rabs (z - z')).
Proof.
  unfold G, M. replace (w y z * g y z - w y' z' * g y' z') with (w y z * (g y z - g y' z') + g y' z' * (w y z - w y' z')) by ring.
  eapply Rle_trans; [apply Rabs_triang|]. rewrite !Rabs_mult. set (d := Rabs (y - y') + Rabs (z - z')). replace ((Wm * Lg + B * Lw) * d) with (Wm * (Lg * d) + B * (Lw * d)) by ring.
  apply Rplus_le_compat; apply Rmult_le_compat; auto using Rabs_pos; [apply g_lip|apply w_lip].
Qed.
Lemma G_cont z y : continuous (fun y => G y z) y.
Proof. apply (lip_continuous _ M); [apply M_pos|]. intros y' _. eapply Rle_trans; [apply G_lip|]. replace (z - z) with 0 by ring. rewrite Rabs_R0, Rplus_0_r. lra. Qed.
Lemma G_ex z a b : ex_RInt (fun y => G y z) a b.
Proof. apply continuous_ex. intros. apply G_cont. Qed.
Definition inner (z : R) : R := RInt (fun y => G y z) 0 (1 - z).
Lemma RInt_bound (f : R -> R) a b K : (forall x, continuous f x) -> (forall x, Rabs (f x) <= K) -> Rabs (RInt f a b) <= Rabs (b - a) * K.
Proof.
  intros C H. destruct (Rle_dec a b) as [L|L].
  - rewrite (Rabs_pos_eq (b - a)) by lra. apply abs_RInt_le_const; auto. apply continuous_ex; auto.
  - rewrite <- (opp_RInt_swap (V := R_CompleteNormedModule)) by (apply continuous_ex; auto). unfold opp; cbn. rewrite Rabs_Ropp, (Rabs_left1 (b - a)) by lra. replace (- (b - a)) with (a - b) by ring. apply abs_RInt_le_const; auto; [lra|]. apply continuous_ex; auto.
Qed.
Lemma inner_lip_gen K z z' : Rabs (1 - z') <= K -> Rabs (inner z - inner z') <= (K * M + P) * Rabs (z - z').
Proof.
  intros HK. unfold inner. assert (E : RInt (fun y => G y z) 0 (1 - z) = RInt (fun y => G y z) 0 (1 - z') + RInt (fun y => G y z) (1 - z') (1 - z)) by (symmetry; apply (RInt_Chasles (V := R_CompleteNormedModule)); apply G_ex).
  rewrite E. replace (RInt (fun y => G y z) 0 (1 - z') + RInt (fun y => G y z) (1 - z') (1 - z) - RInt (fun y => G y z') 0 (1 - z')) with (RInt (fun y => G y z - G y z') 0 (1 - z') + RInt (fun y => G y z) (1 - z') (1 - z)).
  2:{ rewrite (RInt_minus (V := R_CompleteNormedModule) (fun y => G y z) (fun y => G y z')) by apply G_ex. unfold minus, plus, opp; cbn. ring. }
  eapply Rle_trans; [apply Rabs_triang|]. rewrite Rmult_plus_distr_r. apply Rplus_le_compat.
  - eapply Rle_trans; [apply (RInt_bound _ _ _ (M * Rabs (z - z')))|].
    + intros x. apply (continuous_minus (V := R_NormedModule)); apply G_cont.
    + intros x. eapply Rle_trans; [apply G_lip|]. replace (x - x) with 0 by ring. rewrite Rabs_R0, Rplus_0_l. lra.
    + rewrite Rminus_0_r, Rmult_assoc. apply Rmult_le_compat_r; [apply Rmult_le_pos; [apply M_pos|apply Rabs_pos]|auto].
  - eapply Rle_trans; [apply (RInt_bound _ _ _ P)|]. intros; apply G_cont. intros; apply G_bound. replace (1 - z - (1 - z')) with (- (z - z')) by ring. rewrite Rabs_Ropp. lra.
Qed.
Lemma inner_cont z : continuous inner z.
Proof. apply (lip_continuous _ (Rabs (1 - z) * M + P)). pose proof M_pos. pose proof P_pos. pose proof (Rabs_pos (1 - z)). nra. intros y _. apply inner_lip_gen. lra. Qed.
Lemma inner_ex a b : ex_RInt inner a b. Proof. apply continuous_ex. intros. apply inner_cont. Qed.

Definition term (h : R) (a b c : nat * nat) : R :=
  let at_ (f : R -> R -> R) (p : nat * nat) := f (INR (fst p) * h) (INR (snd p) * h) in
  (at_ w a + at_ w b + at_ w c) * ((at_ g a + at_ g b + at_ g c) / 3).
Definition up_term h (x y z : nat) : R := term h (y, z) (S y, z) (y, S z).
Definition down_term h (x y z : nat) : R := term h (S y, z) (y, S z) (S y, S z).
(** The sum over the triangles with corners at the multiples of h = 1 / nt. *)
Definition face_sum (nt : nat) : R := let h := / INR nt in h * h * (tri3 nt (up_term h) + tri3 (nt - 1) (down_term h)).

Lemma term_close y0 z0 d y1 z1 y2 z2 y3 z3 :
  Rabs (y1 - y0) + Rabs (z1 - z0) <= d -> Rabs (y2 - y0) + Rabs (z2 - z0) <= d -> Rabs (y3 - y0) + Rabs (z3 - z0) <= d ->
  Rabs ((w y1 z1 + w y2 z2 + w y3 z3) * ((g y1 z1 + g y2 z2 + g y3 z3) / 3) - 3 * G y0 z0) <= 3 * d * M.
Proof.
  intros D1 D2 D3. unfold G.
  assert (C : forall y z, Rabs (y - y0) + Rabs (z - z0) <= d -> Rabs (w y z - w y0 z0) <= Lw * d /\ Rabs (g y z - g y0 z0) <= Lg * d).
  { intros y z D. split; (eapply Rle_trans; [first [apply w_lip|apply g_lip]|]; apply Rmult_le_compat_l; auto). }
  destruct (C _ _ D1) as [W1 G1], (C _ _ D2) as [W2 G2], (C _ _ D3) as [W3 G3].
  pose proof (w_bound y1 z1) as B1. pose proof (w_bound y2 z2) as B2. pose proof (w_bound y3 z3) as B3. pose proof (g_bound y0 z0) as B0.
  set (a := w y0 z0) in *. set (e := g y0 z0) in *.
  replace ((w y1 z1 + w y2 z2 + w y3 z3) * ((g y1 z1 + g y2 z2 + g y3 z3) / 3) - 3 * (a * e)) with
    ((w y1 z1 + w y2 z2 + w y3 z3) * (((g y1 z1 - e) + (g y2 z2 - e) + (g y3 z3 - e)) / 3) + ((w y1 z1 - a) + (w y2 z2 - a) + (w y3 z3 - a)) * e) by field.
  eapply Rle_trans; [apply Rabs_triang|]. rewrite !Rabs_mult. unfold M. replace (3 * d * (Wm * Lg + B * Lw)) with (3 * Wm * (Lg * d) + 3 * (Lw * d) * B) by ring.
  assert (T3 : forall p q r k, Rabs p <= k -> Rabs q <= k -> Rabs r <= k -> Rabs (p + q + r) <= 3 * k).
  { intros p q r k H1 H2 H3. eapply Rle_trans; [apply Rabs_triang|]. eapply Rle_trans; [apply Rplus_le_compat_r, Rabs_triang|]. lra. }
  apply Rplus_le_compat; (apply Rmult_le_compat; [apply Rabs_pos|apply Rabs_pos| |]); auto.
  unfold Rdiv. rewrite Rabs_mult, (Rabs_pos_eq (/ 3)) by lra. pose proof (T3 _ _ _ _ G1 G2 G3). lra.
Qed.
Lemma tri3_count N : tri3 N (fun _ _ _ => 1) <= INR N * INR N.
Proof.
  unfold tri3. rewrite <- (rsum_const N (INR N)). apply rsum_le. intros r Hr. rewrite rsum_const, Rmult_1_r. apply le_INR. lia.
Qed.
Lemma tri3_minus N F F' : tri3 N F - tri3 N F' = tri3 N (fun x y z => F x y z - F' x y z).
Proof. replace (tri3 N F - tri3 N F') with (tri3 N F + -1 * tri3 N F') by ring. rewrite <- tri3_scal, <- tri3_plus. apply tri3_ext. intros. ring. Qed.
Lemma tri3_close N F F' k : 0 <= k -> (forall x y z, (x + y + z + 1 = N)%nat -> Rabs (F x y z - F' x y z) <= k) -> Rabs (tri3 N F - tri3 N F') <= INR N * INR N * k.
Proof.
  intros K H. rewrite tri3_minus. eapply Rle_trans; [apply tri3_abs|]. eapply Rle_trans; [apply (tri3_le _ _ (fun _ _ _ => k * 1)); intros; rewrite Rmult_1_r; auto|].
  rewrite (tri3_scal N k (fun _ _ _ => 1)). pose proof (tri3_count N). nra.
Qed.
(** The row of the longer sum that the shorter one misses. *)
Lemma tri3_less nt F k : (1 <= nt)%nat -> (forall x y z, Rabs (F x y z) <= k) -> (forall x x' y z, F x y z = F x' y z) -> Rabs (tri3 nt F - tri3 (nt - 1) F) <= INR nt * k.
Proof.
  intros N H I. destruct nt as [|n]; [lia|]. replace (S n - 1)%nat with n by lia.
  assert (E : tri3 (S n) F = rsum (S n) (fun r => rsum (n - r) (fun c => F (n - 1 - r - c)%nat c r)) + rsum (S n) (fun r => F O (n - r)%nat r)).
  { unfold tri3. rewrite <- rsum_plus. apply rsum_ext. intros r Hr. replace (S n - r)%nat with (S (n - r)) by lia. cbn [rsum]. f_equal; [|apply I]. apply rsum_ext. intros c Hc. apply I. }
  rewrite E. cbn [rsum]. replace (n - n)%nat with O by lia. cbn [rsum]. unfold tri3.
  match goal with |- Rabs (?a + 0 + ?b - ?a) <= _ => replace (a + 0 + b - a) with b by ring end.
  change (rsum n (fun r => F O (n - r)%nat r) + F O O n) with (rsum n (fun r => F O (n - r)%nat r) + F O O n). 
  replace (rsum n (fun r => F O (n - r)%nat r) + F O O n) with (rsum (S n) (fun r => F O (n - r)%nat r)) by (cbn [rsum]; rewrite Nat.sub_diag; reflexivity).
  eapply Rle_trans; [apply rsum_abs|]. rewrite <- (rsum_const (S n) k). apply rsum_le. intros. apply H.
Qed.
Theorem face_close nt : (1 <= nt)%nat -> Rabs (face_sum nt - 6 * RInt inner 0 1) <= (21 * M + 9 * P) / INR nt.
Proof.
  intros N. unfold face_sum. cbv zeta. set (h := / INR nt). assert (N0 : 0 < INR nt) by (apply lt_0_INR; lia). assert (H0 : 0 < h) by (apply Rinv_0_lt_compat; auto). assert (H1 : INR nt * h = 1) by (unfold h; field; lra).
  pose proof M_pos as M0. pose proof P_pos as P0.
  set (F := fun x y z : nat => 3 * G (INR y * h) (INR z * h)).
  assert (STEP : forall k, INR (S k) * h - INR k * h = h) by (intros; rewrite S_INR; ring).
  assert (ZERO : forall k, Rabs (INR k * h - INR k * h) = 0) by (intros; rewrite Rminus_diag_eq by auto; apply Rabs_R0).
  assert (AH : Rabs h = h) by (apply Rabs_pos_eq; lra).
  assert (U : Rabs (tri3 nt (up_term h) - tri3 nt F) <= INR nt * INR nt * (3 * h * M)).
  { apply tri3_close; [nra|]. intros x y z _. unfold up_term, term, F. cbn [fst snd]. apply term_close; rewrite ?STEP, ?ZERO, ?AH; lra. }
  assert (D : Rabs (tri3 (nt - 1) (down_term h) - tri3 (nt - 1) F) <= INR nt * INR nt * (3 * (2 * h) * M)).
  { eapply Rle_trans; [apply (tri3_close _ _ _ (3 * (2 * h) * M)); [nra|]|].
    - intros x y z _. unfold down_term, term, F. cbn [fst snd]. apply term_close; rewrite ?STEP, ?ZERO, ?AH; lra.
    - apply Rmult_le_compat_r; [nra|]. pose proof (le_INR (nt - 1) nt ltac:(lia)). pose proof (pos_INR (nt - 1)). nra. }
  assert (E : Rabs (tri3 nt F - tri3 (nt - 1) F) <= INR nt * (3 * P)).
  { apply tri3_less; auto. intros x y z. unfold F. rewrite Rabs_mult, (Rabs_pos_eq 3) by lra. pose proof (G_bound (INR y * h) (INR z * h)). lra. }
  (* the double sum *)
  assert (S1 : Rabs (h * h * tri3 nt F - 3 * rsum nt (fun r => h * inner (INR r * h))) <= 3 * (M * h)).
  { unfold tri3, F. rewrite <- !rsum_scal. replace (rsum nt (fun i => h * h * rsum (nt - i) (fun c => 3 * G (INR c * h) (INR i * h))) - rsum nt (fun i => 3 * (h * inner (INR i * h))))
      with (rsum nt (fun r => 3 * h * (rsum (nt - r) (fun c => h * G (INR c * h) (INR r * h)) - inner (INR r * h)))).
    2:{ rewrite <- rsum_sub. apply rsum_ext. intros r _. rewrite !rsum_scal. ring. }
    eapply Rle_trans; [apply rsum_abs|]. replace (3 * (M * h)) with (INR nt * (3 * h * (M * h))) by (replace (INR nt * (3 * h * (M * h))) with (INR nt * h * (3 * (M * h))) by ring; rewrite H1; ring).
    rewrite <- rsum_const. apply rsum_le. intros r Hr. rewrite Rabs_mult, (Rabs_pos_eq (3 * h)) by lra. apply Rmult_le_compat_l; [lra|].
    assert (Q : INR (nt - r) * h = 1 - INR r * h) by (rewrite minus_INR by lia; rewrite Rmult_minus_distr_r, H1; ring).
    unfold inner. rewrite <- Q. eapply Rle_trans; [apply (left_sum (fun y => G y (INR r * h)) M h (nt - r))|]; [lra|intros; apply G_cont| |auto|].
    - intros x y _ _. eapply Rle_trans; [apply G_lip|]. rewrite ZERO. lra.
    - pose proof (le_INR (nt - r) nt ltac:(lia)). pose proof (pos_INR (nt - r)). replace (INR (nt - r) * (M * h * h)) with (INR (nt - r) * h * (M * h)) by ring. rewrite Q. assert (0 <= INR r * h) by (apply Rmult_le_pos; [apply pos_INR|lra]). assert (MH : 0 <= M * h) by (apply Rmult_le_pos; lra). replace (M * h) with (1 * (M * h)) at 2 by ring. apply Rmult_le_compat_r; lra. }
  assert (S2 : Rabs (rsum nt (fun r => h * inner (INR r * h)) - RInt inner 0 1) <= (M + P) * h).
  { rewrite <- H1. eapply Rle_trans; [apply (left_sum inner (M + P) h nt)|]; [lra|intros; apply inner_cont| |lra|].
    - rewrite H1. intros x y Hx Hy. replace (M + P) with (1 * M + P) by ring. apply inner_lip_gen. apply Rabs_le. lra.
    - replace (INR nt * ((M + P) * h * h)) with (INR nt * h * ((M + P) * h)) by ring. rewrite H1. lra. }
  set (A := tri3 nt F) in *. set (A' := tri3 (nt - 1) F) in *. set (U0 := tri3 nt (up_term h)) in *. set (D0 := tri3 (nt - 1) (down_term h)) in *. set (J := rsum nt (fun r => h * inner (INR r * h))) in *. set (I := RInt inner 0 1) in *.
  assert (HH : h * h * (INR nt * INR nt) = 1) by (replace (h * h * (INR nt * INR nt)) with ((INR nt * h) * (INR nt * h)) by ring; rewrite H1; ring).
  assert (SC : forall a b, Rabs a <= b -> Rabs (h * h * a) <= h * h * b) by (intros a b L; rewrite Rabs_mult, (Rabs_pos_eq (h * h)) by nra; apply Rmult_le_compat_l; [nra|auto]).
  apply SC in U, D, E.
  replace (h * h * (INR nt * INR nt * (3 * h * M))) with (3 * h * M) in U by (rewrite <- Rmult_assoc, HH; ring).
  replace (h * h * (INR nt * INR nt * (3 * (2 * h) * M))) with (6 * h * M) in D by (rewrite <- Rmult_assoc, HH; ring).
  replace (h * h * (INR nt * (3 * P))) with (3 * h * P) in E by (replace (h * h * (INR nt * (3 * P))) with (INR nt * h * (h * (3 * P))) by ring; rewrite H1; ring).
  replace ((21 * M + 9 * P) / INR nt) with (3 * h * M + 6 * h * M + 3 * h * P + 2 * (3 * (M * h)) + 6 * ((M + P) * h)) by (unfold h; field; lra).
  replace (h * h * (U0 + D0) - 6 * I) with (h * h * (U0 - A) + h * h * (D0 - A') + - (h * h * (A - A')) + 2 * (h * h * A - 3 * J) + 6 * (J - I)) by ring.
  assert (R2 : Rabs (2 * (h * h * A - 3 * J)) <= 2 * (3 * (M * h))) by (rewrite Rabs_mult, (Rabs_pos_eq 2) by lra; lra).
  assert (R6 : Rabs (6 * (J - I)) <= 6 * ((M + P) * h)) by (rewrite Rabs_mult, (Rabs_pos_eq 6) by lra; lra).
  assert (R3 : Rabs (- (h * h * (A - A'))) <= 3 * h * P) by (rewrite Rabs_Ropp; auto).
  repeat (eapply Rle_trans; [apply Rabs_triang|]; apply Rplus_le_compat; auto).
Qed.
End Face.
