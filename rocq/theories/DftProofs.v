From Coq Require Import Reals List ZArith Lra Lia Psatz.
From Coquelicot Require Import Complex.
From Verif Require Import DftModel DftSpec.
Import ListNotations.
Open Scope C_scope.

Lemma C_ext (a b : C) : fst a = fst b -> snd a = snd b -> a = b.
Proof. destruct a, b; cbn; intros; subst; auto. Qed.

Lemma Cconj_plus a b : Cconj (a + b) = Cconj a + Cconj b.
Proof. apply C_ext; cbn; ring. Qed.
Lemma Cconj_mult a b : Cconj (a * b) = Cconj a * Cconj b.
Proof. apply C_ext; cbn; ring. Qed.
Lemma cis_add a b : cis (a + b) = cis a * cis b.
Proof. apply C_ext; cbn; [rewrite cos_plus|rewrite sin_plus]; ring. Qed.
Lemma cis_0 : cis 0 = RtoC 1.
Proof. apply C_ext; cbn; [apply cos_0|apply sin_0]. Qed.
Lemma cis_opp a : cis (- a) = Cconj (cis a).
Proof. apply C_ext; cbn; [apply cos_neg|apply sin_neg]. Qed.
Lemma cis_2PI_nat k : cis (INR k * (2 * PI)) = RtoC 1.
Proof.
  induction k; [rewrite Rmult_0_l; apply cis_0|]. rewrite S_INR. replace ((INR k + 1) * (2 * PI))%R with (INR k * (2 * PI) + 2 * PI)%R by ring.
  rewrite cis_add, IHk. apply C_ext; cbn; rewrite ?cos_2PI, ?sin_2PI; ring.
Qed.
Lemma cis_unit a : abs2 (cis a) = 1%R.
Proof. unfold abs2, cis. cbn. pose proof (sin2_cos2 a). unfold Rsqr in H. lra. Qed.

Lemma csum_ext n f g : (forall j, (j < n)%nat -> f j = g j) -> csum n f = csum n g.
Proof. induction n; intros H; cbn; auto. rewrite IHn, H by (intros; auto with arith); auto. Qed.
Lemma csum_plus n f g : csum n (fun j => f j + g j) = csum n f + csum n g.
Proof. induction n; cbn; [ring|]. rewrite IHn. ring. Qed.
Lemma csum_scal n c f : csum n (fun j => c * f j) = c * csum n f.
Proof. induction n; cbn; [ring|]. rewrite IHn. ring. Qed.
Lemma csum_zero n : csum n (fun _ => RtoC 0) = RtoC 0.
Proof. induction n; cbn; [auto|]. rewrite IHn. ring. Qed.
Lemma csum_swap n m (f : nat -> nat -> C) : csum n (fun i => csum m (fun j => f i j)) = csum m (fun j => csum n (fun i => f i j)).
Proof. induction n; cbn; [rewrite csum_zero; auto|]. rewrite IHn, <- csum_plus. auto. Qed.
Lemma csum_conj n f : Cconj (csum n f) = csum n (fun j => Cconj (f j)).
Proof. induction n; cbn; [apply C_ext; cbn; ring|]. rewrite Cconj_plus, IHn. auto. Qed.
Lemma csum_single n f i : (i < n)%nat -> (forall j, (j < n)%nat -> j <> i -> f j = RtoC 0) -> csum n f = f i.
Proof.
  induction n; intros Hi H; [lia|]. cbn. destruct (Nat.eq_dec i n) as [->|Ne].
  - rewrite (csum_ext n f (fun _ => RtoC 0)), csum_zero by (intros; apply H; lia). ring.
  - rewrite IHn, (H n) by (try lia; intros; apply H; lia). ring.
Qed.
Lemma csum_const n c : csum n (fun _ => c) = RtoC (INR n) * c.
Proof. induction n; [cbn; ring|]. cbn [csum]. rewrite IHn, S_INR, RtoC_plus. ring. Qed.

(** Geometric sums of roots of unity. *)
Lemma geometric (w : R) n : (cis w - RtoC 1) * csum n (fun j => cis (INR j * w)) = cis (INR n * w) - RtoC 1.
Proof.
  induction n; [cbn [csum INR]; rewrite Rmult_0_l, cis_0; ring|]. cbn [csum]. rewrite Cmult_plus_distr_l, IHn.
  rewrite S_INR. replace ((INR n + 1) * w)%R with (w + INR n * w)%R by ring. rewrite cis_add. ring.
Qed.

Lemma INR_pos n : (0 < n)%nat -> (0 < INR n)%R.
Proof. intros. apply lt_0_INR; auto. Qed.

Lemma cis_root_not_1 n m : (0 < m < n)%nat -> cis (2 * PI * INR m / INR n) <> RtoC 1.
Proof.
  intros H E. assert (Hn : (0 < INR n)%R) by (apply INR_pos; lia). assert (Hm : (0 < INR m)%R) by (apply INR_pos; lia).
  assert (Hmn : (INR m < INR n)%R) by (apply lt_INR; lia). pose proof PI_RGT_0 as HP.
  apply (f_equal fst) in E as Ec. apply (f_equal snd) in E as Es. cbn in Ec, Es.
  set (x := (2 * PI * INR m / INR n)%R) in *.
  assert (X0 : (0 < x)%R) by (unfold x; apply Rdiv_lt_0_compat; nra).
  assert (X1 : (x < 2 * PI)%R). { unfold x. apply (Rmult_lt_reg_r (INR n)); auto. unfold Rdiv. rewrite Rmult_assoc, Rinv_l by lra. nra. }
  destruct (sin_eq_0_0 x Es) as [k Hk]. 
  assert (K0 : (0 < k)%Z). { apply lt_IZR. rewrite Hk in X0. nra. }
  assert (K1 : (k < 2)%Z). { apply lt_IZR. rewrite Hk in X1. nra. }
  assert (k = 1%Z) by lia. subst k. rewrite Hk, Rmult_1_l, cos_PI in Ec. lra.
Qed.

Lemma root_sum_small n m : (0 < n)%nat -> (m < n)%nat ->
  csum n (fun j => cis (INR j * (2 * PI * INR m / INR n))) = if Nat.eqb m 0 then RtoC (INR n) else RtoC 0.
Proof.
  intros Hn Hm. assert (N0 : (0 < INR n)%R) by (apply INR_pos; lia). destruct (Nat.eqb_spec m 0) as [->|Ne].
  - rewrite (csum_ext n _ (fun _ => RtoC 1)); [rewrite csum_const; ring|]. intros j _.
    replace (INR j * (2 * PI * INR 0 / INR n))%R with 0%R by (cbn; field; lra). apply cis_0.
  - pose proof (geometric (2 * PI * INR m / INR n) n) as G.
    replace (INR n * (2 * PI * INR m / INR n))%R with (INR m * (2 * PI))%R in G by (field; lra). rewrite cis_2PI_nat in G.
    assert (D : cis (2 * PI * INR m / INR n) - RtoC 1 <> RtoC 0).
    { intros D. apply (cis_root_not_1 n m); [lia|]. 
      replace (cis (2 * PI * INR m / INR n)) with (cis (2 * PI * INR m / INR n) - RtoC 1 + RtoC 1) by ring. rewrite D. ring. }
    replace (RtoC 1 - RtoC 1) with (RtoC 0) in G by ring.
    replace (csum n (fun j => cis (INR j * (2 * PI * INR m / INR n))))
      with (/ (cis (2 * PI * INR m / INR n) - RtoC 1) * ((cis (2 * PI * INR m / INR n) - RtoC 1) * csum n (fun j => cis (INR j * (2 * PI * INR m / INR n))))) by (field; auto).
    rewrite G. ring.
Qed.

Lemma root_sum n q : (0 < n)%nat ->
  csum n (fun j => cis (2 * PI * (INR j * INR q) / INR n)) = if Nat.eqb (q mod n) 0 then RtoC (INR n) else RtoC 0.
Proof.
  intros Hn. assert (N0 : (0 < INR n)%R) by (apply INR_pos; lia).
  rewrite <- (root_sum_small n (q mod n)) by (auto; apply Nat.mod_upper_bound; lia). apply csum_ext. intros j _.
  assert (E : INR q = (INR n * INR (q / n) + INR (q mod n))%R) by (rewrite <- mult_INR, <- plus_INR; f_equal; apply Nat.div_mod; lia).
  rewrite E. replace (2 * PI * (INR j * (INR n * INR (q / n) + INR (q mod n))) / INR n)%R
    with (INR (j * (q / n)) * (2 * PI) + INR j * (2 * PI * INR (q mod n) / INR n))%R by (rewrite mult_INR; field; lra).
  rewrite cis_add, cis_2PI_nat. ring.
Qed.

Lemma root_sum_neg n q : (0 < n)%nat ->
  csum n (fun j => cis (- (2 * PI * (INR j * INR q) / INR n))) = if Nat.eqb (q mod n) 0 then RtoC (INR n) else RtoC 0.
Proof.
  intros Hn. rewrite (csum_ext n _ (fun j => Cconj (cis (2 * PI * (INR j * INR q) / INR n)))) by (intros; apply cis_opp).
  rewrite <- csum_conj, root_sum by auto. destruct (Nat.eqb _ 0); apply C_ext; cbn; ring.
Qed.

(** Linearity of the transforms. *)
Lemma dftn_ext s sh x y ks : (forall js, x js = y js) -> dftn s sh x ks = dftn s sh y ks.
Proof.
  revert x y ks. induction sh; intros x y ks H; cbn; auto. destruct ks; auto. apply csum_ext. intros. f_equal. apply IHsh. auto.
Qed.
Lemma dftn_scal s sh c x ks : dftn s sh (fun js => c * x js) ks = c * dftn s sh x ks.
Proof.
  revert x ks. induction sh; intros x ks; cbn; auto. destruct ks; auto. rewrite <- csum_scal. apply csum_ext. intros.
  rewrite (IHsh (fun js => x (j :: js))). ring.
Qed.
Lemma dftn_csum s sh n (x : nat -> list nat -> C) ks : dftn s sh (fun js => csum n (fun i => x i js)) ks = csum n (fun i => dftn s sh (x i) ks).
Proof.
  revert x ks. induction sh; intros x ks; [destruct ks; reflexivity|]. destruct ks as [|k ks]; [reflexivity|]. cbn [dftn].
  rewrite csum_swap. apply csum_ext. intros j _. rewrite csum_scal. f_equal. rewrite (IHsh (fun i js => x i (j :: js))). reflexivity.
Qed.

Lemma size_pos sh : Forall (fun n => (0 < n)%nat) sh -> (0 < size sh)%nat.
Proof. induction 1; cbn; lia. Qed.

Lemma reversal_C sh x ks : valid_index sh ks ->
  fftn sh (fun js => Cconj (ifftn sh (fun is => RtoC (x is)) js)) ks = RtoC (x (flips sh ks)).
Proof.
  intros V. revert x. induction V as [|n k sh ks Hk V IH]; intros x.
  - cbn. unfold ifftn. cbn. apply C_ext; cbn; field.
  - unfold fftn in *. cbn [dftn flips]. assert (Hn : (0 < n)%nat) by lia. assert (N0 : (0 < INR n)%R) by (apply INR_pos; lia).
    assert (S0 : (0 < INR (size sh))%R).
    { apply INR_pos. apply size_pos. clear - V. induction V; constructor; auto; lia. }
    (* inner transform as a sum over the original first index *)
    assert (IN : forall j, dftn (-1) sh (fun js => Cconj (ifftn (n :: sh) (fun is => RtoC (x is)) (j :: js))) ks
      = csum n (fun i => RtoC (/ INR n) * cis (- (2 * PI * (INR i * INR j) / INR n)) * RtoC (x (i :: flips sh ks)))).
    { intros j. 
      rewrite (dftn_ext _ _ _ (fun js => csum n (fun i => (RtoC (/ INR n) * cis (- (2 * PI * (INR i * INR j) / INR n))) *
          Cconj (ifftn sh (fun is => RtoC (x (i :: is))) js)))).
      - rewrite dftn_csum. apply csum_ext. intros i _.
        rewrite (dftn_scal _ _ (RtoC (/ INR n) * cis (- (2 * PI * (INR i * INR j) / INR n)))). rewrite (IH (fun is => x (i :: is))). reflexivity.
      - intros js. unfold ifftn. cbn [dftn size]. rewrite <- csum_scal, csum_conj. apply csum_ext. intros i _.
        rewrite !Cconj_mult. rewrite cis_opp. rewrite mult_INR.
        replace (1 * (2 * PI) * (INR i * INR j) / INR n)%R with (2 * PI * (INR i * INR j) / INR n)%R by (field; lra).
        assert (Q : Cconj (RtoC (/ (INR n * INR (size sh)))) = RtoC (/ INR n) * Cconj (RtoC (/ INR (size sh)))).
        { apply C_ext; cbn; field; lra. }
        rewrite Q. ring. }
    rewrite (csum_ext n _ (fun j => csum n (fun i => RtoC (/ INR n) * RtoC (x (i :: flips sh ks)) * cis (- (2 * PI * (INR j * INR (i + k)) / INR n))))).
    2:{ intros j _. rewrite IN, <- csum_scal. apply csum_ext. intros i _.
        replace (- (2 * PI * (INR j * INR (i + k)) / INR n))%R with (-1 * (2 * PI) * (INR j * INR k) / INR n + - (2 * PI * (INR i * INR j) / INR n))%R
          by (rewrite plus_INR; field; lra). rewrite cis_add. ring. }
    rewrite csum_swap.
    rewrite (csum_ext n _ (fun i => RtoC (/ INR n) * RtoC (x (i :: flips sh ks)) * (if Nat.eqb ((i + k) mod n) 0 then RtoC (INR n) else RtoC 0))).
    2:{ intros i _. rewrite csum_scal, root_sum_neg by auto. reflexivity. }
    set (i0 := ((n - k) mod n)%nat). assert (I0 : (i0 < n)%nat) by (apply Nat.mod_upper_bound; lia).
    assert (I1 : ((i0 + k) mod n = 0)%nat). { unfold i0. rewrite Nat.add_mod_idemp_l by lia. replace (n - k + k)%nat with n by lia. apply Nat.mod_same. lia. }
    rewrite (csum_single n _ i0 I0).
    + rewrite I1. cbn [Nat.eqb]. apply C_ext; cbn; field; lra.
    + intros i Hi Ne. destruct (Nat.eqb_spec ((i + k) mod n) 0) as [Z|Z]; [|ring]. exfalso. apply Ne.
      (* i + k and i0 + k are both multiples of n *)
      assert (A : (i + k = n * ((i + k) / n))%nat) by (pose proof (Nat.div_mod (i + k) n ltac:(lia)); lia).
      assert (B : (i0 + k = n * ((i0 + k) / n))%nat) by (pose proof (Nat.div_mod (i0 + k) n ltac:(lia)); lia).
      set (a := ((i + k) / n)%nat) in *. set (b := ((i0 + k) / n)%nat) in *. clearbody a b. clear - A B Hi I0 Hk.
      assert (a <= 1)%nat by nia. assert (b <= 1)%nat by nia. assert (a = b) by nia. nia.
Qed.

Lemma reversal sh x ks : valid_index sh ks -> reverse_spectrum sh x ks = x (flips sh ks).
Proof. intros V. unfold reverse_spectrum. rewrite reversal_C by auto. reflexivity. Qed.

(** ** Parseval *)
Lemma rsum_ext n f g : (forall j, (j < n)%nat -> f j = g j) -> rsum n f = rsum n g.
Proof. induction n; intros H; cbn; auto. rewrite IHn, H by (intros; auto with arith); auto. Qed.
Lemma rsum_scal n c f : rsum n (fun j => c * f j)%R = (c * rsum n f)%R.
Proof. induction n; cbn; [ring|]. rewrite IHn. ring. Qed.
Lemma rsum_RtoC n f : RtoC (rsum n f) = csum n (fun j => RtoC (f j)).
Proof. induction n; cbn; auto. rewrite RtoC_plus, IHn. auto. Qed.
Lemma rsum_le n f g : (forall j, (j < n)%nat -> (f j <= g j)%R) -> (rsum n f <= rsum n g)%R.
Proof. induction n; intros H; cbn; [lra|]. assert (rsum n f <= rsum n g)%R by (apply IHn; intros; apply H; lia). pose proof (H n ltac:(lia)). lra. Qed.
Lemma rsum_const n c : rsum n (fun _ => c) = (INR n * c)%R.
Proof. induction n; [cbn; ring|]. cbn [rsum]. rewrite IHn, S_INR. ring. Qed.
Lemma abs2_conj z : RtoC (abs2 z) = z * Cconj z.
Proof. apply C_ext; unfold abs2; cbn; ring. Qed.

Lemma parseval n x : (0 < n)%nat -> rsum n (sideband_intensity n x) = (INR n * rsum n (fun j => abs2 (x j)))%R.
Proof.
  intros Hn. apply RtoC_inj. rewrite rsum_RtoC, RtoC_mult, rsum_RtoC.
  assert (N0 : (0 < INR n)%R) by (apply INR_pos; lia).
  rewrite (csum_ext n _ (fun k => csum n (fun j => csum n (fun l => x j * Cconj (x l) * cis (- (2 * PI * (INR k * INR (j + (n - l))) / INR n)))))).
  2:{ intros k _. unfold sideband_intensity. rewrite abs2_conj. unfold fft1 at 1. rewrite Cmult_comm, <- csum_scal. apply csum_ext. intros j _.
      unfold fft1. rewrite csum_conj, Cmult_comm, <- csum_scal. apply csum_ext. intros l Hl. rewrite Cconj_mult, <- cis_opp.
      replace (- (2 * PI * (INR k * INR (j + (n - l))) / INR n))%R
        with (- (2 * PI) * (INR j * INR k) / INR n + - (- (2 * PI) * (INR l * INR k) / INR n) + - (INR k * (2 * PI)))%R
        by (rewrite plus_INR, minus_INR by lia; field; lra).
      rewrite !cis_add, (cis_opp (INR k * (2 * PI))), cis_2PI_nat. apply C_ext; cbn; ring. }
  rewrite csum_swap, <- csum_scal. apply csum_ext. intros j Hj. rewrite csum_swap.
  rewrite (csum_ext n _ (fun l => x j * Cconj (x l) * (if Nat.eqb ((j + (n - l)) mod n) 0 then RtoC (INR n) else RtoC 0))).
  2:{ intros l Hl. rewrite csum_scal, root_sum_neg by auto. reflexivity. }
  rewrite (csum_single n _ j Hj).
  - replace (j + (n - j))%nat with n by lia. rewrite Nat.mod_same by lia. cbn [Nat.eqb]. rewrite abs2_conj. ring.
  - intros l Hl Ne. destruct (Nat.eqb_spec ((j + (n - l)) mod n) 0) as [Z|Z]; [|ring]. exfalso. apply Ne.
    pose proof (Nat.div_mod (j + (n - l)) n ltac:(lia)) as A. rewrite Z in A. set (a := ((j + (n - l)) / n)%nat) in *. clearbody a. clear - A Hj Hl.
    assert (a <= 1)%nat by nia. assert (1 <= a)%nat by nia. nia.
Qed.
