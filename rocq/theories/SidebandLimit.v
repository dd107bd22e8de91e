(** The shape of the spectrum of averaging_1d with spinning sidebands whose intensities and frequencies are functions of the direction. *)
From Coq Require Import Reals QArith Qabs Qreals List ZArith Lia Bool.
From Verif Require Import InterpModel InterpSpec PowderModel InterpProofs WalkProofs DeltaProofs PowderProofs PowderMoment DftModel DftProofs WignerNorm PhysSpec FreqSpec AverageSpec AverageProofs AverageCentre SphereSpec SphereChange SphereProofs ShapeSpec ShapeProofs ShapeClose.
From Coq Require Import Lra.
Import ListNotations.
Open Scope R_scope.

Lemma over_all_cells nt n_oct nsb g : over_all nt n_oct nsb g = lsum (fun i => lsum (fun x => g i (fst x) (snd x)) (cells nt n_oct)) (seq 0 nsb).
Proof. unfold over_all. apply fold_ext. intros i _. rewrite (lsum_cells nt n_oct (g i)), fold_seq. reflexivity. Qed.
Lemma lsum_swap {A B} (f : A -> B -> R) l m : lsum (fun a => lsum (f a) m) l = lsum (fun b => lsum (fun a => f a b) l) m.
Proof.
  induction l as [|a l IH]; [unfold lsum at 1; cbn [map fold_right]; symmetry; induction m as [|b m IH]; [reflexivity|]; unfold lsum in *; cbn [map fold_right] in *; lra|].
  change (lsum (fun a => lsum (f a) m) (a :: l)) with (lsum (f a) m + lsum (fun a => lsum (f a) m) l). rewrite IH, <- lsum_plus. apply fold_ext. intros b _. reflexivity.
Qed.
Lemma lsum_minus {A} (f g : A -> R) l : lsum f l - lsum g l = lsum (fun x => f x - g x) l.
Proof. replace (lsum (fun x => f x - g x) l) with (lsum (fun x => f x + (-1) * g x) l) by (apply fold_ext; intros; ring). rewrite lsum_plus, lsum_scal. ring. Qed.
Lemma lsum_const {A} c (l : list A) : lsum (fun _ => c) l = INR (length l) * c.
Proof. induction l as [|a l IH]; [cbn; ring|]. change (lsum (fun _ => c) (a :: l)) with (c + lsum (fun _ : A => c) l). rewrite IH. cbn [length]. rewrite S_INR. ring. Qed.

(** One triangle: the sum of the amplitudes is near the weight of the triangle times the intensity at a vertex. *)
Lemma vertex_near ka eta e de w0 n a s w : 0 <= ka * a -> 0 <= eta < 1 -> 0 <= e + de -> 0 <= w0 -> Rabs (n - ka * a) <= eta * (ka * a) -> Rabs (s - w) <= e -> Rabs (w - w0) <= de ->
  Rabs (n * s - ka * a * w0) <= ka * a * (2 * (e + de) + eta * w0).
Proof.
  intros K E ED W0 N S D. replace (n * s - ka * a * w0) with (n * ((s - w) + (w - w0)) + (n - ka * a) * w0) by ring. eapply Rle_trans; [apply Rabs_triang|]. rewrite !Rabs_mult, (Rabs_pos_eq w0) by auto.
  assert (Rabs n <= 2 * (ka * a)). { apply Rcomplements.Rabs_le_between in N. apply Rcomplements.Rabs_le_between. nra. }
  assert (Rabs (s - w + (w - w0)) <= e + de) by (eapply Rle_trans; [apply Rabs_triang|]; lra).
  replace (ka * a * (2 * (e + de) + eta * w0)) with (2 * (ka * a) * (e + de) + eta * (ka * a) * w0) by ring. apply Rplus_le_compat; [|apply Rmult_le_compat_r; auto]. apply Rmult_le_compat; auto using Rabs_pos.
Qed.
Theorem sideband_limit : forall (F : R -> R) (lam B : R) (g : (axis -> R) -> R) (w : nat -> (axis -> R) -> R) (L M : R) (nt nsb : nat) (offset_0 : Q) (vr freq norm sb : nat -> Q) (count : BinNums.Z) (out : writes) (alpha beta : nat -> R) (kappa eta eps epsw : R),
  gentle F lam -> 0 <= lam -> (forall x, Rabs (F x) <= B) ->
  slope g L -> 0 <= L -> 0 <= M ->
  (forall i, (i < nsb)%nat -> slope (w i) M) -> (forall i u, (i < nsb)%nat -> unit_vector u -> 0 <= w i u) -> (forall u, unit_vector u -> fold_right Rplus 0 (map (fun i => w i u) (seq 0 nsb)) = 1) ->
  (1 <= nt)%nat -> nsb <> 1%nat -> polar_angles nt alpha beta ->
  averaging_1d nt 4 nsb offset_0 vr freq norm sb count = Some out ->
  is_delta nt (n_pts nt) freq = false ->
  (forall i, (i < nsb)%nat -> in_window (offset_0 + vr i) count = true) ->
  (forall i p, (i < nsb)%nat -> (p < 4 * n_pts nt)%nat -> (0 <= freq p + (offset_0 + vr i))%Q /\ (freq p + (offset_0 + vr i) < zq count)%Q) ->
  0 < kappa -> 0 <= eta < 1 -> 0 <= epsw ->
  (forall p, (p < n_pts nt)%nat -> Rabs (Q2R (norm p) - kappa * nth p (amplitudes nt) 0) <= eta * (kappa * nth p (amplitudes nt) 0)) ->
  (forall o, (o < 4 * n_pts nt)%nat -> Rabs (Q2R (freq o) - g (towards nt alpha beta o)) <= eps) ->
  (forall i o, (i < nsb)%nat -> (o < 4 * n_pts nt)%nat -> Rabs (Q2R (sb (i * (4 * n_pts nt) + o)%nat) - w i (towards nt alpha beta o)) <= epsw) ->
  let E := eta + 2 * INR nsb * (epsw + 28 * M / INR nt) in E < 1 ->
  (0 < InterpSpec.total out count)%Q /\
  Rabs (weighed F out count / Q2R (InterpSpec.total out count) - fold_right Rplus 0 (map (fun i => hemisphere_average (fun u => w i u * F (Q2R (offset_0 + vr i) + g u))) (seq 0 nsb)))
  <= (B * (2 * E + INR nsb * (28 * M / INR nt)) + lam * (/ 2 + (28 * L / INR nt + eps)) * (1 + E)) / (1 - E) + INR nsb * (4182 * (M * B + lam * L) / INR nt).
Proof.
  intros F lam B g w L M nt nsb o vr freq norm sb count out al be ka eta eps epsw G L0 HB Sg LN MN Sw Wp W1 N NS P HA D HW HF K [E0 E1] EW HN HQ HS E EL.
  set (de := 28 * M / INR nt) in *. set (d := 28 * L / INR nt) in *.
  assert (I0 : 0 < / INR nt) by (apply Rinv_0_lt_compat, lt_0_INR; lia).
  assert (DE0 : 0 <= de) by (apply Rmult_le_pos; lra). assert (D0 : 0 <= d) by (apply Rmult_le_pos; lra).
  assert (B0 : 0 <= B) by (eapply Rle_trans; [apply Rabs_pos|apply (HB 0)]).
  assert (UT : forall o, unit_vector (towards nt al be o)) by (intros; apply direction_unit).
  set (T := towards nt al be) in *. set (I := seq 0 nsb). set (Lc := cells nt 4).
  assert (II : forall i, In i I -> (i < nsb)%nat) by (intros i Hi; apply in_seq in Hi; lia).
  set (off := fun i => Q2R (o + vr i)).
  set (W := fun x : nat * tri => weight_of nt (snd x)).
  set (amp := fun i j p => amps_1d nsb (n_pts nt) norm sb (i * (4 * n_pts nt) + j * n_pts nt + p)%nat).
  set (Aq := fun i (x : nat * tri) => Q2R (vertex_sum (amp i (fst x)) (snd x))).
  set (w0 := fun i (x : nat * tri) => w i (T (fst x * n_pts nt + fst (fst (snd x)))%nat)).
  set (Fm := fun i (x : nat * tri) => mean_of (fun p => F (off i + g (T (fst x * n_pts nt + p)%nat))) (snd x)).
  set (h := fun i u => w i u * F (off i + g u)).
  set (Hm := fun i (x : nat * tri) => mean_of (fun p => h i (T (fst x * n_pts nt + p)%nat)) (snd x)).
  assert (WL1 : forall i u, (i < nsb)%nat -> unit_vector u -> w i u <= 1).
  { intros i u Hi U. rewrite <- (W1 u U). assert (Hin : In i I) by (apply in_seq; lia). fold I. clear - Hin Wp U II. assert (PP : forall k, In k I -> 0 <= w k u) by (intros; apply Wp; auto). clear Wp II. induction I as [|k l IH]; [destruct Hin|].
    cbn [map fold_right]. assert (0 <= fold_right Rplus 0 (map (fun i => w i u) l)). { clear - PP. assert (PQ : forall k, In k l -> 0 <= w k u) by (intros; apply PP; simpl; auto). clear PP. induction l; cbn; [lra|]. pose proof (PQ a (or_introl eq_refl)). assert (0 <= fold_right Rplus 0 (map (fun i => w i u) l)) by (apply IHl; intros; apply PQ; simpl; auto). lra. }
    destruct Hin as [->|Hin]; [lra|]. pose proof (PP k (or_introl eq_refl)). assert (w i u <= fold_right Rplus 0 (map (fun i => w i u) l)) by (apply IH; auto; intros; apply PP; simpl; auto). lra. }
  (* the triangles *)
  assert (NR : forall i x, In i I -> In x Lc -> 0 < W x /\ 0 <= w0 i x /\ Rabs (Aq i x - ka * W x * w0 i x) <= ka * W x * (2 * (epsw + de) + eta * w0 i x) /\ Rabs (Fm i x) <= B /\ Rabs (w0 i x * Fm i x - Hm i x) <= de * B).
  { intros i [j [[a b] c]] Hi Hx. pose proof (II i Hi) as Hi'. destruct (cells_in nt 4 _ Hx) as [J [Ha [Hb Hc]]]. cbn [fst] in J.
    assert (TI : In (a, b, c) (grid_tris nt)). { unfold Lc, cells in Hx. apply in_flat_map in Hx. destruct Hx as (j' & _ & Hm'). apply in_map_iff in Hm'. destruct Hm' as (t & Et & Ht). injection Et as _ <-. exact Ht. }
    pose proof (cells_narrow (w i) M nt al be j (a, b, c) (Sw i Hi') MN N P J TI) as [Nab [Nbc Nca]]. fold T de in Nab, Nbc, Nca.
    pose proof (amplitude_pos nt a N Ha). pose proof (amplitude_pos nt b N Hb). pose proof (amplitude_pos nt c N Hc).
    assert (W0p : 0 <= w0 i (j, (a, b, c))) by (apply Wp; auto).
    assert (AM : forall p, (p < n_pts nt)%nat -> amp i j p = (norm p * sb (i * (4 * n_pts nt) + (j * n_pts nt + p))%nat)%Q).
    { intros p Hp. unfold amp, amps_1d. assert (MD : ((i * (4 * n_pts nt) + j * n_pts nt + p) mod n_pts nt = p)%nat) by (replace (i * (4 * n_pts nt) + j * n_pts nt + p)%nat with (p + (i * 4 + j) * n_pts nt)%nat by ring; rewrite Nat.mod_add by lia; apply Nat.mod_small; auto).
      rewrite MD, Nat.add_assoc. destruct nsb as [|[|m]]; [lia|congruence|reflexivity]. }
    assert (VN : forall p, (p < n_pts nt)%nat -> Rabs (w i (T (j * n_pts nt + p)%nat) - w0 i (j, (a, b, c))) <= de -> 0 < nth p (amplitudes nt) 0 -> Rabs (Q2R (amp i j p) - ka * nth p (amplitudes nt) 0 * w0 i (j, (a, b, c))) <= ka * nth p (amplitudes nt) 0 * (2 * (epsw + de) + eta * w0 i (j, (a, b, c)))).
    { intros p Hp Dp Ap. rewrite (AM p Hp), Q2R_mult. apply (vertex_near ka eta epsw de _ _ _ _ (w i (T (j * n_pts nt + p)%nat))); auto; [apply Rmult_le_pos; lra|lra|apply HS; [auto|nia]]. }
    assert (Va : Rabs (w i (T (j * n_pts nt + a)%nat) - w0 i (j, (a, b, c))) <= de) by (unfold w0; cbn [fst snd]; rewrite Rminus_diag_eq, Rabs_R0 by reflexivity; auto).
    assert (Vb : Rabs (w i (T (j * n_pts nt + b)%nat) - w0 i (j, (a, b, c))) <= de) by (unfold w0; cbn [fst snd]; rewrite Rabs_minus_sym; exact Nab).
    assert (Vc : Rabs (w i (T (j * n_pts nt + c)%nat) - w0 i (j, (a, b, c))) <= de) by (unfold w0; cbn [fst snd]; exact Nca).
    split; [unfold W, weight_of; cbn [snd]; lra|]. split; [auto|]. split; [|split].
    - pose proof (VN a Ha Va ltac:(lra)) as Qa. pose proof (VN b Hb Vb ltac:(lra)) as Qb. pose proof (VN c Hc Vc ltac:(lra)) as Qc. unfold Aq, W, weight_of, vertex_sum. cbn [fst snd]. rewrite !Q2R_plus. apply Rcomplements.Rabs_le_between in Qa, Qb, Qc. apply Rcomplements.Rabs_le_between. set (x0 := w0 i (j, (a, b, c))) in *. change (w0 i (j, (a, b, c) : tri)) with x0. lra.
    - unfold Fm, mean_of. cbn [fst snd]. pose proof (HB (off i + g (T (j * n_pts nt + a)%nat))) as Qa. pose proof (HB (off i + g (T (j * n_pts nt + b)%nat))) as Qb. pose proof (HB (off i + g (T (j * n_pts nt + c)%nat))) as Qc. apply Rcomplements.Rabs_le_between in Qa, Qb, Qc. apply Rcomplements.Rabs_le_between. lra.
    - set (x0 := w0 i (j, (a, b, c))) in *. change (w0 i (j, (a, b, c) : tri)) with x0. unfold Fm, Hm, mean_of, h. cbn [fst snd].
      assert (PR : forall p, Rabs (w i (T (j * n_pts nt + p)%nat) - x0) <= de -> Rabs (x0 * F (off i + g (T (j * n_pts nt + p)%nat)) - w i (T (j * n_pts nt + p)%nat) * F (off i + g (T (j * n_pts nt + p)%nat))) <= de * B).
      { intros p Dp. rewrite <- Rmult_minus_distr_r, Rabs_mult, Rabs_minus_sym. apply Rmult_le_compat; auto using Rabs_pos. }
      pose proof (PR a Va) as Qa. pose proof (PR b Vb) as Qb. pose proof (PR c Vc) as Qc. apply Rcomplements.Rabs_le_between in Qa, Qb, Qc. apply Rcomplements.Rabs_le_between. lra. }
  assert (SW1 : forall x, lsum (fun i => w0 i x) I = 1) by (intros x; unfold lsum, w0, I; apply W1; apply UT).
  set (S := lsum W Lc).
  assert (SW : powder_sum nt 4 (fun _ => 1) = S).
  { unfold powder_sum. rewrite <- (lsum_cells nt 4 (fun j t => weight_of nt t * mean_of (fun p => 1) t)). apply fold_ext. intros [j [[a b] c]] _. unfold W, mean_of. cbn [fst snd]. field. }
  assert (SP : 0 < S) by (rewrite <- SW, powder_one by (auto; lia); apply Rmult_lt_0_compat; [apply lt_0_INR; lia|apply S3_one_pos; auto]).
  assert (SF : forall i, powder_sum nt 4 (fun p => h i (T p)) = lsum (fun x => W x * Hm i x) Lc) by (intros i; unfold powder_sum; rewrite <- (lsum_cells nt 4 (fun j t => weight_of nt t * mean_of (fun p => h i (T (j * n_pts nt + p)%nat)) t)); reflexivity).
  set (A := lsum (fun i => powder_average nt 4 (fun p => h i (T p))) I).
  assert (AS : A * S = lsum (fun i => lsum (fun x => W x * Hm i x) Lc) I).
  { unfold A. rewrite Rmult_comm, <- lsum_scal. apply fold_ext. intros i _. unfold powder_average. rewrite SW, SF. field. lra. }
  assert (EN : 0 <= E) by (unfold E; pose proof (pos_INR nsb); assert (0 <= 2 * INR nsb * (epsw + de)) by (apply Rmult_le_pos; lra); lra).
  (* sums over the sidebands of the error of a triangle *)
  assert (SE : forall x, lsum (fun i => ka * W x * (2 * (epsw + de) + eta * w0 i x)) I = ka * W x * E).
  { intros x. rewrite lsum_scal, lsum_plus, lsum_const, lsum_scal, SW1. unfold I. rewrite seq_length. unfold E. ring. }
  set (Tq := Q2R (InterpSpec.total out count)).
  assert (TE : Tq = lsum (fun i => lsum (Aq i) Lc) I).
  { unfold Tq. pose proof (averaging_total nt 4 nsb o vr freq norm sb count out HA) as Xx. rewrite D in Xx. rewrite (Qeq_eqR _ _ (Xx HW HF)), (Qeq_eqR _ _ (pattern_eq nt 4 nsb _ (amps_1d nsb (n_pts nt) norm sb) ltac:(intros; reflexivity))). unfold pattern_amplitude. rewrite Q2R_qsum, map_map. apply fold_ext. intros i _. unfold Aq, amp, Lc. rewrite (lsum_cells nt 4 (fun j t => Q2R (vertex_sum (fun p => amps_1d nsb (n_pts nt) norm sb (i * (4 * n_pts nt) + j * n_pts nt + p)%nat) t))), Q2R_qsum, map_map, fold_seq. apply rsum_ext. intros j _. unfold over_triangles. rewrite Q2R_qsum, map_map. reflexivity. }
  assert (T1 : Rabs (Tq - ka * S) <= ka * S * E).
  { rewrite TE, lsum_swap. replace (ka * S) with (lsum (fun x => lsum (fun i => ka * W x * w0 i x) I) Lc) at 1 by (unfold S; rewrite <- lsum_scal; apply fold_ext; intros x _; rewrite lsum_scal, SW1; ring). rewrite lsum_minus.
    replace (ka * S * E) with (lsum (fun x => ka * W x * E) Lc) by (unfold S; rewrite Rmult_comm, <- Rmult_assoc, <- lsum_scal; apply fold_ext; intros; ring). apply lsum_abs. intros x Hx. rewrite lsum_minus, <- SE. apply lsum_abs. intros i Hi. apply (NR i x Hi Hx). }
  assert (AA : lsum (fun i => lsum (fun x => Rabs (Aq i x)) Lc) I <= ka * S * (1 + E)).
  { rewrite lsum_swap. replace (ka * S * (1 + E)) with (lsum (fun x => lsum (fun i => ka * W x * w0 i x + ka * W x * (2 * (epsw + de) + eta * w0 i x)) I) Lc).
    2:{ unfold S. replace (ka * lsum W Lc * (1 + E)) with ((ka * (1 + E)) * lsum W Lc) by ring. rewrite <- lsum_scal. apply fold_ext. intros x _. rewrite lsum_plus, SE, lsum_scal, SW1. ring. }
    apply lsum_le. intros x Hx. apply lsum_le. intros i Hi. destruct (NR i x Hi Hx) as (Wx & w0x & Q & _). assert (0 <= ka * W x * w0 i x) by (apply Rmult_le_pos; [apply Rmult_le_pos; lra|auto]). apply Rcomplements.Rabs_le_between in Q. apply Rcomplements.Rabs_le_between. lra. }
  pose proof (pattern_shape F lam nt 4 nsb o vr freq norm sb count out (fun p => g (T p)) d eps G L0 D0 HA D HW HF HQ ltac:(intros j t J Ht; apply (cells_narrow g L); auto)) as MO. cbn zeta in MO. rewrite !over_all_cells in MO.
  set (Xs := lsum (fun i => lsum (fun x => Aq i x * Fm i x) Lc) I).
  assert (MO' : Rabs (weighed F out count - Xs) <= lam * (/ 2 + (d + eps)) * (ka * S * (1 + E))).
  { eapply Rle_trans; [exact MO|]. assert (eps0 : 0 <= eps) by (eapply Rle_trans; [apply Rabs_pos|apply (HQ O)]; pose proof (n_pts_pos nt); lia). eapply Rle_trans; [|apply Rmult_le_compat_l; [apply Rmult_le_pos; [auto|lra]|exact AA]]. right. rewrite <- lsum_scal. apply fold_ext. intros i _. rewrite <- lsum_scal. apply fold_ext. intros x _. unfold Aq, amp. ring. }
  assert (XA : Rabs (Xs - A * (ka * S)) <= ka * S * (B * (E + INR nsb * de))).
  { replace (A * (ka * S)) with (lsum (fun i => lsum (fun x => ka * (W x * Hm i x)) Lc) I).
    2:{ replace (A * (ka * S)) with (ka * (A * S)) by ring. rewrite AS, <- lsum_scal. apply fold_ext. intros i _. rewrite lsum_scal. reflexivity. }
    unfold Xs. rewrite lsum_minus. replace (lsum _ I) with (lsum (fun i => lsum (fun x => Aq i x * Fm i x - ka * (W x * Hm i x)) Lc) I) by (apply fold_ext; intros i _; rewrite lsum_minus; reflexivity). rewrite lsum_swap.
    replace (ka * S * (B * (E + INR nsb * de))) with (lsum (fun x => lsum (fun i => B * (ka * W x * (2 * (epsw + de) + eta * w0 i x)) + ka * W x * (de * B)) I) Lc).
    2:{ unfold S. replace (ka * lsum W Lc * (B * (E + INR nsb * de))) with ((ka * (B * (E + INR nsb * de))) * lsum W Lc) by ring. rewrite <- lsum_scal. apply fold_ext. intros x _. rewrite lsum_plus, lsum_scal, SE, lsum_const. unfold I. rewrite seq_length. ring. }
    apply lsum_abs. intros x Hx. apply lsum_abs. intros i Hi. destruct (NR i x Hi Hx) as (Wx & w0x & Q1 & Q2 & Q3). replace (Aq i x * Fm i x - ka * (W x * Hm i x)) with ((Aq i x - ka * W x * w0 i x) * Fm i x + ka * W x * (w0 i x * Fm i x - Hm i x)) by ring.
    eapply Rle_trans; [apply Rabs_triang|]. rewrite !Rabs_mult. apply Rplus_le_compat; [rewrite Rmult_comm; apply Rmult_le_compat; auto using Rabs_pos|]. rewrite (Rabs_pos_eq ka), (Rabs_pos_eq (W x)) by lra. apply Rmult_le_compat_l; [apply Rmult_le_pos; lra|auto]. }
  assert (AB : Rabs A <= B).
  { apply (Rmult_le_reg_r S); auto. rewrite <- (Rabs_pos_eq S) at 1 by lra. rewrite <- Rabs_mult, AS, lsum_swap. unfold S. rewrite <- lsum_scal. apply lsum_abs. intros x Hx. rewrite lsum_scal, Rabs_mult, Rmult_comm. destruct x as [j [[a b] c]]. destruct (cells_in nt 4 _ Hx) as [J [Ha [Hb Hc]]].
    assert (PW : 0 < W (j, (a, b, c))). { unfold W, weight_of. cbn [snd]. pose proof (amplitude_pos nt a N Ha). pose proof (amplitude_pos nt b N Hb). pose proof (amplitude_pos nt c N Hc). lra. }
    rewrite (Rabs_pos_eq (W _)) by (apply Rlt_le; exact PW). apply Rmult_le_compat_r; [apply Rlt_le; exact PW|].
    assert (HV : forall p, Rabs (lsum (fun i => h i (T (j * n_pts nt + p)%nat)) I) <= B).
    { intros p. eapply Rle_trans; [apply (lsum_abs _ (fun i => B * w i (T (j * n_pts nt + p)%nat)))|rewrite lsum_scal; unfold lsum, I; rewrite W1 by apply UT; lra]. intros i Hi. unfold h. rewrite Rabs_mult, Rmult_comm, (Rabs_pos_eq (w i _)) by (apply Wp; auto). apply Rmult_le_compat_r; [apply Wp; auto|auto]. }
    replace (lsum (fun i => Hm i (j, (a, b, c) : tri)) I) with ((lsum (fun i => h i (T (j * n_pts nt + a)%nat)) I + lsum (fun i => h i (T (j * n_pts nt + b)%nat)) I + lsum (fun i => h i (T (j * n_pts nt + c)%nat)) I) * / 3).
    2:{ rewrite <- !lsum_plus, Rmult_comm, <- lsum_scal. apply fold_ext. intros i _. unfold Hm, mean_of. cbn [fst snd]. field. }
    pose proof (HV a) as Qa. pose proof (HV b) as Qb. pose proof (HV c) as Qc. apply Rcomplements.Rabs_le_between in Qa, Qb, Qc. apply Rcomplements.Rabs_le_between. lra. }
  assert (KS : 0 < ka * S) by (apply Rmult_lt_0_compat; auto).
  assert (TL : ka * S * (1 - E) <= Tq) by (apply Rcomplements.Rabs_le_between in T1; nra).
  assert (TP : 0 < Tq) by (eapply Rlt_le_trans; [|exact TL]; apply Rmult_lt_0_compat; lra).
  split; [apply Rlt_Qlt; rewrite Q2R_0; exact TP|]. fold Tq. set (Ys := fold_right Rplus 0 _).
  assert (C1 : Rabs (weighed F out count / Tq - A) <= (B * (2 * E + INR nsb * de) + lam * (/ 2 + (d + eps)) * (1 + E)) / (1 - E)).
  { set (Z0 := B * (2 * E + INR nsb * de) + lam * (/ 2 + (d + eps)) * (1 + E)).
    assert (Z1 : Rabs (weighed F out count - A * Tq) <= ka * S * Z0).
    { replace (weighed F out count - A * Tq) with ((weighed F out count - Xs) + ((Xs - A * (ka * S)) + A * (ka * S - Tq))) by ring. eapply Rle_trans; [apply Rabs_triang|]. 
      assert (Q : Rabs (A * (ka * S - Tq)) <= B * (ka * S * E)) by (rewrite Rabs_mult, (Rabs_minus_sym (ka * S)); apply Rmult_le_compat; auto using Rabs_pos).
      pose proof (Rabs_triang (Xs - A * (ka * S)) (A * (ka * S - Tq))). replace (ka * S * Z0) with (lam * (/ 2 + (d + eps)) * (ka * S * (1 + E)) + (ka * S * (B * (E + INR nsb * de)) + B * (ka * S * E))) by (unfold Z0; ring). lra. }
    replace (weighed F out count / Tq - A) with ((weighed F out count - A * Tq) / Tq) by (field; lra). unfold Rdiv at 1. rewrite Rabs_mult, (Rabs_pos_eq (/ Tq)) by (apply Rlt_le, Rinv_0_lt_compat; auto).
    apply (Rmult_le_reg_r Tq); auto. rewrite Rmult_assoc, Rinv_l, Rmult_1_r by lra. eapply Rle_trans; [exact Z1|]. replace (ka * S * Z0) with (Z0 / (1 - E) * (ka * S * (1 - E))) by (field; lra). apply Rmult_le_compat_l; auto.
    apply (Rmult_le_reg_l (ka * S)); auto. rewrite Rmult_0_r. apply Rmult_le_pos; [lra|]. apply Rmult_le_pos; [|apply Rlt_le, Rinv_0_lt_compat; lra]. pose proof (Rabs_pos (weighed F out count - A * Tq)). apply (Rmult_le_reg_l (ka * S)); auto. lra. }
  assert (C2 : Rabs (A - Ys) <= INR nsb * (4182 * (M * B + lam * L) / INR nt)).
  { replace Ys with (lsum (fun i => hemisphere_average (h i)) I) by reflexivity. unfold A. rewrite lsum_minus. replace (INR nsb * (4182 * (M * B + lam * L) / INR nt)) with (lsum (fun _ : nat => 4182 * (M * B + lam * L) / INR nt) I) by (rewrite lsum_const; unfold I; rewrite seq_length; reflexivity).
    apply lsum_abs. intros i Hi. apply (hemisphere_conv (h i) (M * B + lam * L) nt al be); auto; [|apply Rplus_le_le_0_compat; apply Rmult_le_pos; auto]. intros u v U V. unfold h.
    replace (w i u * F (off i + g u) - w i v * F (off i + g v)) with ((w i u - w i v) * F (off i + g u) + w i v * (F (off i + g u) - F (off i + g v))) by ring. eapply Rle_trans; [apply Rabs_triang|]. rewrite !Rabs_mult, Rmult_plus_distr_r.
    pose proof (Sw i (II i Hi) u v U V) as Q. pose proof (G (off i + g u) (off i + g v)) as Q'. replace (off i + g u - (off i + g v)) with (g u - g v) in Q' by ring. pose proof (Sg u v U V) as Q''. assert (DP : 0 <= dist3 u v) by (unfold dist3; pose proof (Rabs_pos (u X - v X)); pose proof (Rabs_pos (u Y - v Y)); pose proof (Rabs_pos (u Z - v Z)); lra).
    apply Rplus_le_compat.
    - replace (M * B * dist3 u v) with (M * dist3 u v * B) by ring. apply Rmult_le_compat; auto using Rabs_pos.
    - rewrite (Rabs_pos_eq (w i v)) by (apply Wp; auto). replace (lam * L * dist3 u v) with (1 * (lam * (L * dist3 u v))) by ring. apply Rmult_le_compat; auto using Rabs_pos. eapply Rle_trans; [exact Q'|]. apply Rmult_le_compat_l; auto. }
  replace (weighed F out count / Tq - Ys) with ((weighed F out count / Tq - A) + (A - Ys)) by ring. eapply Rle_trans; [apply Rabs_triang|]. apply Rplus_le_compat; auto.
Qed.
