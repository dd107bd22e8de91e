(** Spinning samples: the average over a turn of the rotor. *)
From Coq Require Import Reals List ZArith Lra Lia Psatz.
From Coquelicot Require Import Coquelicot.
From Verif Require Import DftModel DftProofs WignerMatrix WignerModel WignerSpec WignerOrtho WignerNorm WignerProofs FreqModel FreqSpec FreqProofs PhysSpec PhysLevels PhysRot PhysExact.
Import ListNotations.
Open Scope R_scope.

Lemma turn_cos k x : (0 < k)%nat -> is_RInt (fun p => x * cos (INR k * p)) 0 (2 * PI) 0.
Proof.
  intros H. assert (N : INR k <> 0) by (apply not_0_INR; lia).
  replace 0 with (x * sin (INR k * (2 * PI)) / INR k - x * sin (INR k * 0) / INR k) at 2.
  2:{ rewrite Rmult_0_r, sin_0. pose proof (cis_2PI_nat k) as E. apply (f_equal snd) in E. cbn in E. rewrite E. field. auto. }
  apply (is_RInt_derive (fun p => x * sin (INR k * p) / INR k)).
  - intros p _. auto_derive; auto. field. auto.
  - intros p _. apply continuity_pt_filterlim. reg.
Qed.
Lemma turn_sin k x : (0 < k)%nat -> is_RInt (fun p => x * sin (INR k * p)) 0 (2 * PI) 0.
Proof.
  intros H. assert (N : INR k <> 0) by (apply not_0_INR; lia).
  replace 0 with (- x * cos (INR k * (2 * PI)) / INR k - - x * cos (INR k * 0) / INR k) at 2.
  2:{ rewrite Rmult_0_r, cos_0. pose proof (cis_2PI_nat k) as E. apply (f_equal fst) in E. cbn in E. rewrite E. field. auto. }
  apply (is_RInt_derive (fun p => - x * cos (INR k * p) / INR k)).
  - intros p _. auto_derive; auto. field. auto.
  - intros p _. apply continuity_pt_filterlim. reg.
Qed.
Lemma turn_component l u w j : (j < 2 * l + 1)%nat ->
  is_RInt (fun p => fst (RtoC w * nth j (scale_phases l (cis p) u) (RtoC 0))%C) 0 (2 * PI) (if Nat.eqb j l then 2 * PI * (w * fst (nth l u (RtoC 0))) else 0).
Proof.
  intros H. destruct (nth j u (RtoC 0)) as [x y] eqn:E.
  destruct (Nat.lt_trichotomy j l) as [L|[L|L]].
  - destruct (Nat.eqb_spec j l); [lia|].
    apply (is_RInt_ext (fun p => minus (w * x * cos (INR (l - j) * p)) (w * y * sin (INR (l - j) * p)))).
    { intros p _. rewrite scale_nth by auto. destruct (Nat.ltb_spec j l); [|lia]. rewrite cpow_cis, E. unfold minus, plus, opp. cbn. ring. }
    replace 0 with (minus 0 0) at 2 by (unfold minus, plus, opp; cbn; ring). apply (is_RInt_minus (V := R_NormedModule)); [apply turn_cos|apply turn_sin]; lia.
  - subst j. rewrite Nat.eqb_refl, E. cbn [fst].
    apply (is_RInt_ext (fun p => w * x)). { intros p _. rewrite scale_nth by auto. rewrite !Nat.ltb_irrefl, E. cbn. ring. }
    replace (2 * PI * (w * x)) with (scal (2 * PI - 0) (w * x)) by (unfold scal; cbn; unfold mult; cbn; ring). apply (is_RInt_const (V := R_NormedModule)).
  - destruct (Nat.eqb_spec j l); [lia|].
    apply (is_RInt_ext (fun p => plus (w * x * cos (INR (j - l) * p)) (w * y * sin (INR (j - l) * p)))).
    { intros p _. rewrite scale_nth by auto. destruct (Nat.ltb_spec j l); [lia|]. destruct (Nat.ltb_spec l j); [|lia]. rewrite cpow_cis, E. unfold plus. cbn. ring. }
    replace 0 with (plus 0 0) at 2 by (unfold plus; cbn; ring). apply (is_RInt_plus (V := R_NormedModule)); [apply turn_cos|apply turn_sin]; lia.
Qed.
Lemma turn_sum l u (w : nat -> R) N : (N <= 2 * l + 1)%nat ->
  is_RInt (fun p => fst (csum N (fun j => RtoC (w j) * nth j (scale_phases l (cis p) u) (RtoC 0))%C)) 0 (2 * PI) (if Nat.leb N l then 0 else 2 * PI * (w l * fst (nth l u (RtoC 0)))).
Proof.
  induction N as [|N IH]; intros H; cbn [csum].
  - cbn [Nat.leb]. apply (is_RInt_ext (fun p => 0)); [intros; reflexivity|]. replace 0 with (scal (2 * PI - 0) 0) at 2 by (unfold scal; cbn; unfold mult; cbn; ring). apply (is_RInt_const (V := R_NormedModule)).
  - specialize (IH ltac:(lia)). pose proof (turn_component l u (w N) N ltac:(lia)) as T.
    assert (V : (if Nat.leb (S N) l then 0 else 2 * PI * (w l * fst (nth l u (RtoC 0)))) =
      plus (if Nat.leb N l then 0 else 2 * PI * (w l * fst (nth l u (RtoC 0)))) (if Nat.eqb N l then 2 * PI * (w N * fst (nth l u (RtoC 0))) else 0)).
    { unfold plus. destruct (Nat.leb_spec (S N) l), (Nat.leb_spec N l), (Nat.eqb_spec N l); try lia; subst; cbn; ring. }
    match goal with |- is_RInt ?F ?a ?b ?v => cut (is_RInt F a b (plus (if Nat.leb N l then 0 else 2 * PI * (w l * fst (nth l u (RtoC 0)))) (if Nat.eqb N l then 2 * PI * (w N * fst (nth l u (RtoC 0))) else 0))); [intros G; rewrite <- V in G; exact G|] end.
    eapply is_RInt_ext; [|apply (is_RInt_plus (V := R_NormedModule)); [exact IH|exact T]]. intros p _. reflexivity.
Qed.
Lemma turn_rotor l al be th v : (l = 2 \/ l = 4)%nat ->
  is_RInt (fun p => fst (nth l (through l [(al, be, p); (0, th, 0)] v) (RtoC 0))) 0 (2 * PI)
    (2 * PI * ((if Nat.eqb l 2 then P2 (cos th) else P4 (cos th)) * fst (nth l (rotation ideal l al (cis be) 0 v) (RtoC 0)))).
Proof.
  intros H. set (u := rotation ideal l al (cis be) 0 v). set (w := wigner_d ideal false l (cis th)).
  assert (W : (if Nat.eqb l 2 then P2 (cos th) else P4 (cos th)) = nth (l * (2 * l + 1) + l) w 0).
  { assert (S : sin th * sin th = 1 - cos th * cos th) by (pose proof (sin2_cos2 th) as E; unfold Rsqr in E; lra).
    unfold w. destruct H as [-> | ->]; cbn [Nat.eqb]; unfold P2, P4; cbn; field [S]. }
  rewrite W. pose proof (turn_sum l u (fun j => nth (l * (2 * l + 1) + j) w 0) (2 * l + 1) (le_n _)) as T.
  assert (LE : Nat.leb (2 * l + 1) l = false) by (apply Nat.leb_gt; lia). rewrite LE in T.
  eapply is_RInt_ext; [|exact T]. intros p _. cbv beta. cbn [through fold_left exact_turn].
  unfold rotation at 1. rewrite cis_0, !(scale_one l) by (rewrite ?mat_vec_length; auto using rotation_length). rewrite mat_vec_nth by lia. f_equal. apply csum_ext. intros j Hj. f_equal.
  unfold u, rotation. rewrite cis_0, (scale_one l _ (mat_vec_length _ _ _ _)). reflexivity.
Qed.
(** The frequency of an event without sidebands: the average over the turn of the rotor. *)
Definition exact_mean (c : comps) (al be th : R) : R :=
  r0 c + P2 (cos th) * fst (nth 2 (rotation ideal 2 al (cis be) 0 (r2 c)) (RtoC 0)) + P4 (cos th) * fst (nth 4 (rotation ideal 4 al (cis be) 0 (r4 c)) (RtoC 0)).
Lemma rotor_mean c al be th : is_RInt (fun p => exact_frequency c [(al, be, p); (0, th, 0)]) 0 (2 * PI) (2 * PI * exact_mean c al be th).
Proof.
  replace (2 * PI * exact_mean c al be th) with (plus (plus (scal (2 * PI - 0) (r0 c)) (2 * PI * ((if Nat.eqb 2 2 then P2 (cos th) else P4 (cos th)) * fst (nth 2 (rotation ideal 2 al (cis be) 0 (r2 c)) (RtoC 0)))))
     (2 * PI * ((if Nat.eqb 4 2 then P2 (cos th) else P4 (cos th)) * fst (nth 4 (rotation ideal 4 al (cis be) 0 (r4 c)) (RtoC 0))))).
  2:{ unfold exact_mean, plus, scal. cbn -[nth rotation P2 P4 PI Rmult Rplus]. unfold mult. cbn. ring. }
  unfold exact_frequency. apply (is_RInt_plus (V := R_NormedModule)); [apply (is_RInt_plus (V := R_NormedModule)); [apply (is_RInt_const (V := R_NormedModule))|]|]; apply turn_rotor; auto.
Qed.
