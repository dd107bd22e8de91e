(** C49, C76 to C80: signal processing. *)
From Coq Require Import Reals ZArith Bool String List Lia Lra.
From Coquelicot Require Import Complex.
From Verif Require Import Base BaseProofs DftModel DftProofs FitModel FitProofs SigModel SigSpec SigProofs.
Import ListNotations.
Open Scope list_scope.
Open Scope R_scope.

(** A dataset for the examples: two dimensions of 3 and 2 points, two variables, the first of two components. *)
Definition t3 := mkDim 3 (1 / 2) 0 0 1 true.
Definition t2 := mkDim 2 1 0 0 (1 / 1000) false.
Definition sample : dataset :=
  mkData [t3; t2] [mkVar [2; 2; 3]%nat (fun _ => RtoC 1); mkVar [1; 2; 3]%nat (fun ix => RtoC (INR (nth 2 ix 0%nat)))].
Lemma sample_well_formed : well_formed sample.
Proof. repeat constructor; eexists; reflexivity. Qed.
Lemma sample_point : point (dims sample) [2; 1]%nat.
Proof. repeat constructor. Qed.

Lemma other_side a b k v : same_shape a b -> nth_error (dvs a) k = Some v -> exists w, nth_error (dvs b) k = Some w.
Proof.
  intros [_ F] E. destruct (nth_error (dvs b) k) as [w|] eqn:Ew; [now exists w|]. apply nth_error_None in Ew.
  assert (L : length (dvs a) = length (dvs b)) by (clear E Ew; induction F; cbn; congruence). assert (k < length (dvs a))%nat by (apply nth_error_Some; congruence). lia.
Qed.

(** ** C49 *)
(** Applying two lists of operations one after the other is applying their concatenation; an error of the first is an error of the whole. *)
Theorem C49_sequence fft a b data :
  apply_operations fft (a ++ b) data = (let* d := apply_operations fft a data in apply_operations fft b d) /\
  apply_operations fft [] data = Ok data /\ forall o, apply_operations fft [o] data = operate fft o data.
Proof.
  split; [apply for_each_app|]. split; [reflexivity|]. intros o. cbn. now destruct (operate fft o data).
Qed.
Print Assumptions C49_sequence.
Example C49_sequence_case fft : apply_operations fft ([Scale 2] ++ [AffineScale 0 1]) sample = Err OtherException /\
  exists d, apply_operations fft [Scale 2; AffineScale 3 1] sample = Ok d /\ d_increment (nth 1 (dims d) t3) = 3.
Proof.
  unfold apply_operations. cbn. unfold scale_dimension, scale_data. cbn. destruct (Req_EM_T 0 0) as [_|N]; [|now elim N].
  destruct (Req_EM_T 3 0) as [N|_]; [lra|]. split; [reflexivity|]. eexists. split; [reflexivity|]. change (1 * 3 = 3). ring.
Qed.

(** Scale: every entry of every variable is multiplied, nothing else changes. *)
Theorem C49_scale fft factor data : exists data', apply_operations fft [Scale factor] data = Ok data' /\ same_shape data data' /\
  forall k v v', nth_error (dvs data) k = Some v -> nth_error (dvs data') k = Some v' -> forall p ix, entry v' p ix = (entry v p ix * RtoC factor)%C.
Proof.
  exists (scale_data factor data). split; [reflexivity|]. split; [split; [reflexivity|]|].
  - cbn. induction (dvs data); cbn; constructor; auto.
  - intros k v v' E E' p ix. cbn in E'. rewrite nth_error_map, E in E'. cbn in E'. injection E' as <-. reflexivity.
Qed.
Print Assumptions C49_scale.
Example C49_scale_case fft : exists d v, apply_operations fft [Scale 3] sample = Ok d /\ nth_error (dvs d) 1 = Some v /\ entry v 0 [2; 1]%nat = RtoC (2 * 3).
Proof. eexists. eexists. split; [reflexivity|]. split; [reflexivity|]. unfold entry. cbn. apply C_ext; cbn; ring. Qed.

(** Exponential apodization, dimensions given by their positions: each entry of a variable is multiplied by the documented factor
    exp(-Γ π |x|) of every named dimension, once for each time the variable is selected; variables not selected keep their entries.
    Missing: negative positions, see C49_refuted. *)
Theorem C49_exponential_partial fft FWHM unit ns ms s data : well_formed data -> 0 <= unit -> map Z.of_nat ns = as_list ms ->
  (forall d, In d ns -> (d < length (dims data))%nat) -> valid_selection (length (dvs data)) s ->
  exists data', apply_operations fft [Exponential FWHM (Some unit) ms s] data = Ok data' /\ same_shape data data' /\
    forall k v v', nth_error (dvs data) k = Some v -> nth_error (dvs data') k = Some v' -> forall p ix, point (dims data) ix ->
      entry v' p ix = (entry v p ix *
        cpow (RtoC (rprod (map (fun d => exp (- (FWHM * unit) * PI * Rabs (coordinate (nth d (dims data) t3) (nth d ix 0%nat)))) ns)))
             (selected (length (dvs data)) k s))%C.
Proof.
  intros W U E L Hs. destruct (apodize_spec (exponential_fn FWHM (Some unit)) ns ms s data W E) as [data' [E1 [S1 P1]]]; [|exact Hs|].
  { intros d Hd. specialize (L d Hd). destruct (nth_error (dims data) d) as [dd|] eqn:Ed; [|apply nth_error_None in Ed; lia].
    destruct (exponential_ok FWHM unit dd) as [f [Ef [Lf _]]]. exists dd, f. auto. }
  exists data'. split; [cbn; rewrite E1; reflexivity|]. split; [exact S1|].
  intros k v v' Ek Ek' p ix Hp. rewrite (P1 k v v' Ek Ek' p ix Hp). do 3 f_equal. f_equal. apply map_ext_in. intros d Hd.
  specialize (L d Hd). destruct (nth_error (dims data) d) as [dd|] eqn:Ed; [|apply nth_error_None in Ed; lia].
  rewrite (nth_error_nth _ _ t3 Ed). unfold factor_at. rewrite Ed. destruct (exponential_ok FWHM unit dd) as [f [Ef [Lf Pf]]]. rewrite Ef.
  destruct (Pf (nth d ix 0%nat)) as [A|A]; [now apply (point_nth (dims data) ix d dd) | exact A | lra].
Qed.
Print Assumptions C49_exponential_partial.
Example C49_exponential_case fft : exists d v w, apply_operations fft [Exponential 2 (Some 1) (Many [0; 1]%Z) (Some (One (-1)))] sample = Ok d /\
  nth_error (dvs d) 0 = Some v /\ nth_error (dvs d) 1 = Some w /\ entry v 0 [2; 1]%nat = RtoC 1 /\
  entry w 0 [2; 1]%nat = (RtoC 2 * RtoC (exp (- (2 * 1) * PI * Rabs (1 / 2)) * exp (- (2 * 1) * PI * Rabs (1 / 1000))))%C.
Proof.
  destruct (C49_exponential_partial fft 2 1 [0; 1]%nat (Many [0; 1]%Z) (Some (One (-1))) sample sample_well_formed) as [d [E [Sh P]]]; try lra; try reflexivity.
  { intros d [<-|[<-|[]]]; cbn; lia. }
  { repeat constructor; cbn; lia. }
  destruct (other_side _ _ 0 _ Sh eq_refl) as [v Ev]. destruct (other_side _ _ 1 _ Sh eq_refl) as [w Ew].
  exists d, v, w. repeat split; try assumption.
  - rewrite (P 0%nat _ v eq_refl Ev 0%nat _ sample_point). cbn [selected as_list times names]. cbn. apply C_ext; cbn; ring.
  - rewrite (P 1%nat _ w eq_refl Ew 0%nat _ sample_point). cbn [selected as_list times]. unfold names.
    change (((-1 =? Z.of_nat 1)%Z || (-1 =? Z.of_nat 1 - Z.of_nat (length (dvs sample)))%Z)) with true. cbn [Nat.add cpow map rprod].
    rewrite Cmult_1_r, !Rmult_1_r. unfold entry, coordinate. cbn [nth dims sample v_at rev app].
    assert (A : nth 2 (coordinates t3) 0 * d_unit t3 = 1 / 2) by (rewrite coordinates_nth by (cbn; lia); cbn; field).
    assert (B : nth 1 (coordinates t2) 0 * d_unit t2 = 1 / 1000) by (rewrite coordinates_nth by (cbn; lia); cbn; field).
    rewrite A, B. replace (INR 2) with 2 by (cbn; lra). rewrite ?Rmult_1_r. reflexivity.
Qed.

(** A dimension named from the end is taken for the coordinates, and the entries are weighted along the dimension after it: position -k of n
    is dimension n-k, the weights vary with the index of dimension n-k+1.  Position -1 is an error. *)
Theorem C49_refuted fft FWHM unit k s data dd dd' : well_formed data -> 0 <= unit -> (2 <= k <= length (dims data))%nat ->
  nth_error (dims data) (length (dims data) - k) = Some dd -> nth_error (dims data) (length (dims data) - k + 1) = Some dd' -> d_count dd = d_count dd' ->
  valid_selection (length (dvs data)) s ->
  exists data', apply_operations fft [Exponential FWHM (Some unit) (One (- Z.of_nat k)) s] data = Ok data' /\ same_shape data data' /\
    forall j v v', nth_error (dvs data) j = Some v -> nth_error (dvs data') j = Some v' -> forall p ix, point (dims data) ix ->
      entry v' p ix = (entry v p ix *
        cpow (RtoC (exp (- (FWHM * unit) * PI * Rabs (coordinate dd (nth (length (dims data) - k + 1) ix 0%nat))))) (selected (length (dvs data)) j s))%C.
Proof.
  intros W U K Ed Ed' C Hs. destruct (exponential_ok FWHM unit dd) as [f [Ef [Lf Pf]]].
  destruct (apodize_negative (exponential_fn FWHM (Some unit)) k s data dd dd' f W K Ed Ef Ed' ltac:(congruence) Hs) as [data' [E1 [S1 P1]]].
  exists data'. split; [cbn; rewrite E1; reflexivity|]. split; [exact S1|]. intros j v v' Ej Ej' p ix Hp.
  rewrite (P1 j v v' Ej Ej' p ix Hp). do 3 f_equal.
  destruct (Pf (nth (length (dims data) - k + 1) ix 0%nat)) as [A|A]; [rewrite C; now apply (point_nth (dims data) ix _ dd') | exact A | lra].
Qed.
Print Assumptions C49_refuted.
(** In a square dataset with different coordinates the outcome differs from the one position 0 gives. *)
Example C49_refuted_case fft : exists data a b v w, well_formed data /\
  apply_operations fft [Exponential 1 (Some 1) (One 0) None] data = Ok a /\ apply_operations fft [Exponential 1 (Some 1) (One (-2)) None] data = Ok b /\
  nth_error (dvs a) 0 = Some v /\ nth_error (dvs b) 0 = Some w /\ entry v 0 [1; 0]%nat <> entry w 0 [1; 0]%nat.
Proof.
  set (d := mkDim 2 1 0 0 1 false). set (data := mkData [d; d] [mkVar [1; 2; 2]%nat (fun _ => RtoC 1)]).
  assert (W : well_formed data) by (repeat constructor; eexists; reflexivity).
  assert (Hp : point (dims data) [1; 0]%nat) by repeat constructor.
  destruct (C49_exponential_partial fft 1 1 [0]%nat (One 0) None data W) as [a [Ea [Fa Pa]]]; try lra; try reflexivity; try exact Logic.I.
  { intros k [<-|[]]; cbn; lia. }
  destruct (C49_refuted fft 1 1 2 None data d d W) as [b [Eb [Fb Pb]]]; try lra; try reflexivity; try exact Logic.I; try (cbn; lia).
  destruct (other_side _ _ 0 _ Fa eq_refl) as [v Ev]. destruct (other_side _ _ 0 _ Fb eq_refl) as [w Ew].
  exists data, a, b, v, w. repeat split; try assumption.
  rewrite (Pa 0%nat _ v eq_refl Ev 0%nat _ Hp), (Pb 0%nat _ w eq_refl Ew 0%nat _ Hp).
  unfold entry. cbn [selected cpow map rprod nth v_at]. change (length (dims data) - 2 + 1)%nat with 1%nat. cbn [nth dims data].
  unfold coordinate. rewrite !coordinates_nth by (cbn; lia). cbn. intros H. apply (f_equal fst) in H. cbn in H.
  assert (Z0 : Rabs ((1 * (0 - 0) + 0) * 1) = 0) by (replace ((1 * (0 - 0) + 0) * 1) with 0 by ring; apply Rabs_R0).
  assert (Z1 : Rabs ((1 * (1 - 0) + 0) * 1) = 1) by (replace ((1 * (1 - 0) + 0) * 1) with 1 by ring; apply Rabs_R1).
  rewrite Z0, Z1 in H. replace (- (1 * 1) * PI * 0) with 0 in H by ring. replace (- (1 * 1) * PI * 1) with (- PI) in H by ring. rewrite exp_0 in H.
  assert (P : exp (- PI) < exp 0) by (apply exp_increasing; pose proof PI_RGT_0; lra). rewrite exp_0 in P. lra.
Qed.

Theorem C49_last_refuted fft FWHM unit s data dd v p : nth_error (dims data) (length (dims data) - 1) = Some dd ->
  nth_error (dvs data) 0 = Some v -> v_shape v = p :: rev (map d_count (dims data)) -> d_count dd <> p -> d_count dd <> 1%nat ->
  (exists r, get_dv_indexes s (length (dvs data)) = 0%Z :: r) ->
  apply_operations fft [Exponential FWHM (Some unit) (One (-1)) s] data = Err ValueError.
Proof.
  intros Ed Ev Sv Np N1 Hs. destruct (exponential_ok FWHM unit dd) as [f [Ef [Lf _]]].
  unfold apply_operations. cbn [for_each operate]. rewrite (apodize_last _ data dd f v p s Ed Ef Ev Sv); [reflexivity | congruence | congruence | exact Hs].
Qed.
Print Assumptions C49_last_refuted.
Example C49_last_case fft : apply_operations fft [Exponential 1 (Some 1) (One (-1)) None] (mkData [t3] [mkVar [1; 3]%nat (fun _ => RtoC 1)]) = Err ValueError.
Proof. apply (C49_last_refuted fft 1 1 None _ t3 (mkVar [1; 3]%nat (fun _ => RtoC 1)) 1%nat); try reflexivity; try (cbn; lia). eexists. reflexivity. Qed.

(** A width given as a bare number, the default 0 included, has no unit and is refused when the operation is applied to some dimension. *)
Theorem C49_no_unit fft FWHM i s data : in_range (length (dims data)) i ->
  apply_operations fft [Exponential FWHM None (One i) s] data = Err TypeError /\ apply_operations fft [Gaussian FWHM None (One i) s] data = Err TypeError.
Proof.
  intros H. unfold apply_operations. cbn [for_each operate]. unfold apodize. cbn [as_list for_each]. rewrite py_index_wrap by exact H.
  destruct (nth_error (dims data) (wrap (length (dims data)) i)) eqn:E; [split; reflexivity|].
  apply nth_error_None in E. unfold wrap in E. unfold in_range in H. destruct (Z.ltb_spec i 0); lia.
Qed.
Print Assumptions C49_no_unit.
Example C49_no_unit_case fft : apply_operations fft [Exponential 0 None (One 0) None] sample = Err TypeError.
Proof. apply C49_no_unit. cbn. unfold in_range. cbn. lia. Qed.

(** ** C76 *)
(** The dataset passed in ends as the outcome of the operations before the first transform. *)
Theorem C76_given fft ops data r : apply_operations fft ops data = Ok r ->
  exists h, apply_on_objects fft ops data = Ok h /\ current h = r /\ apply_operations fft (before_transform ops) data = Ok (given h).
Proof.
  intros H. unfold apply_operations in H. destruct (objects_total fft ops data data true r H) as [h Eh]. exists h. split; [exact Eh|].
  destruct (objects_loop fft ops data data true h Eh) as [A [B _]]. split; [congruence|]. now apply B.
Qed.
Print Assumptions C76_given.
(** So it is unchanged when the first operation is a transform. *)
Theorem C76_unchanged_partial fft s ops data h : as_list s <> [] -> apply_on_objects fft (FFT s :: ops) data = Ok h -> given h = data.
Proof.
  intros N H. destruct (objects_loop fft _ data data true h H) as [_ [B _]]. specialize (B eq_refl eq_refl).
  cbn [before_transform new_object] in B. destruct (as_list s) as [|z l]; [congruence|]. cbn in B. congruence.
Qed.
Print Assumptions C76_unchanged_partial.
Example C76_unchanged_case : exists h, apply_on_objects (fun _ d => Ok d) [FFT (One 0); Scale 2] sample = Ok h /\ as_list (One 0) <> [].
Proof. eexists. split; [reflexivity | discriminate]. Qed.
(** It is not a copy that is processed otherwise: the data passed in are scaled. *)
Theorem C76_refuted : exists data ops, forall fft, exists h, apply_on_objects fft ops data = Ok h /\ given h = current h /\ given h <> data.
Proof.
  exists sample, [Scale 2]. intros fft. eexists. split; [reflexivity|]. split; [reflexivity|]. cbn. intros H.
  apply (f_equal dvs) in H. cbn in H. injection H as H _. apply (f_equal (fun f => fst (f []))) in H. cbn in H. lra.
Qed.
Print Assumptions C76_refuted.
Example C76_refuted_case fft : exists h, apply_on_objects fft [Scale 2; FFT (Many [])] sample = Ok h /\ given h = current h.
Proof. eexists. split; reflexivity. Qed.

(** ** C77 *)
(** The affine scale multiplies every coordinate of the dimension by the factor; the other dimensions and all entries stay. *)
Theorem C77_scale_dimension fft factor i data : in_range (length (dims data)) i -> factor <> 0 ->
  exists data', apply_operations fft [AffineScale factor i] data = Ok data' /\ dvs data' = dvs data /\ length (dims data') = length (dims data) /\
    forall k d d', nth_error (dims data) k = Some d -> nth_error (dims data') k = Some d' ->
      if names (length (dims data)) k i then coordinates d' = map (fun x => x * factor) (coordinates d) /\ d_unit d' = d_unit d else d' = d.
Proof.
  intros H F. unfold apply_operations. cbn [for_each operate]. unfold scale_dimension. rewrite py_index_wrap by exact H.
  set (w := wrap (length (dims data)) i). assert (Lw : (w < length (dims data))%nat) by (unfold w, wrap, in_range in *; destruct (Z.ltb_spec i 0); lia).
  destruct (nth_error (dims data) w) as [d|] eqn:E; [|apply nth_error_None in E; lia]. cbn [bind]. destruct (Req_EM_T factor 0); [contradiction|].
  rewrite py_assign_wrap by exact H. fold w. cbn [bind]. eexists. split; [reflexivity|]. split; [reflexivity|]. cbn [dims].
  split; [apply upd_nat_length|]. intros k d1 d2 E1 E2. rewrite upd_nth in E2. rewrite names_wrap by (auto; apply nth_error_Some; congruence). fold w.
  destruct (Nat.eqb_spec w k) as [<-|N].
  - rewrite E in E1. injection E1 as <-. rewrite E in E2. injection E2 as <-.
    split; [|reflexivity]. unfold coordinates. cbn [d_count d_increment d_offset d_fft]. rewrite map_map. apply map_ext. intros j. ring.
  - congruence.
Qed.
Print Assumptions C77_scale_dimension.
Example C77_case fft : exists d e, apply_operations fft [AffineScale 3 (-1)] sample = Ok d /\ nth_error (dims d) 1 = Some e /\ coordinates e = [0; 3] /\
  nth_error (dims d) 0 = Some t3.
Proof.
  unfold apply_operations. cbn. unfold scale_dimension. cbn. destruct (Req_EM_T 3 0) as [N|_]; [lra|]. eexists. eexists.
  split; [reflexivity|]. split; [reflexivity|]. split; [|reflexivity]. unfold coordinates. cbn [d_count d_increment d_offset d_fft seq map t2].
  f_equal; [|f_equal]; cbn; ring.
Qed.

(** ** C78 *)
(** The exponential is the documented function of the coordinates. *)
Theorem C78_exponential FWHM unit d : 0 <= unit ->
  exponential_fn FWHM (Some unit) d = Ok (map (fun i => documented_exponential (FWHM * unit) (coordinate d i)) (seq 0 (d_count d))).
Proof.
  intros U. destruct (exponential_ok FWHM unit d) as [f [Ef [Lf Pf]]]. rewrite Ef. f_equal. apply (nth_ext _ _ 0 0).
  - now rewrite map_length, seq_length.
  - intros i Hi. rewrite Lf in Hi. destruct (Pf i Hi) as [A|A]; [|lra]. rewrite A.
    rewrite (nth_map_in _ _ _ 0%nat) by (now rewrite seq_length). now rewrite seq_nth by exact Hi.
Qed.
Print Assumptions C78_exponential.
Example C78_exponential_case : exists f, exponential_fn 5 (Some 1) t3 = Ok f /\ nth 1 f 0 = 1.
Proof.
  rewrite C78_exponential by lra. eexists. split; [reflexivity|]. cbn [d_count t3 seq map nth]. unfold documented_exponential, coordinate.
  rewrite coordinates_nth by (cbn; lia). cbn. replace ((1 / 2 * (1 - 1) + 0) * 1) with 0 by field. rewrite Rabs_R0, Rmult_0_r. apply exp_0.
Qed.
(** The Gaussian is not.  At no point does it exceed 1 / (sigma sqrt (2 pi)), so when that is below 1 it differs from the documented function
    wherever a coordinate is zero. *)
Theorem C78_refuted FWHM unit d i : (2 <= d_count d)%nat -> d_increment d <> 0 -> d_unit d <> 0 -> unit <> 0 -> 1 <= FWHM ->
  (i < d_count d)%nat -> coordinate d i = 0 ->
  exists f, gaussian_fn FWHM (Some unit) d = Ok f /\ length f = d_count d /\ nth i f 0 < 1 /\ documented_gaussian (FWHM * unit / (2 * sqrt (2 * ln 2))) (coordinate d i) = 1.
Proof.
  intros Hn Hi Hd Hu HF H Z0. destruct (gaussian_ok FWHM unit d Hn Hi Hd Hu ltac:(lra)) as [g [f [E [L _]]]]. exists f. split; [exact E|]. split; [exact L|]. split.
  - eapply Rle_lt_trans; [exact (gaussian_bound FWHM unit d f i Hn Hi Hd Hu ltac:(lra) E H)|].
    rewrite <- Rinv_1. apply Rinv_lt_contravar; rewrite ?Rmult_1_l.
    + apply Rmult_lt_0_compat; [apply Rdiv_lt_0_compat; lra | apply sqrt_lt_R0; pose proof PI_RGT_0; lra].
    + assert (P : 3 < PI) by (pose proof PI2_3_2; lra).
      assert (Q : 12 / 5 < sqrt (2 * PI)). { replace (12 / 5) with (sqrt ((12 / 5) * (12 / 5))) by (apply sqrt_square; lra). apply sqrt_lt_1; lra. }
      assert (A : 42 / 100 < FWHM / (2354820045030949 / 1000000000000000)) by lra.
      apply Rlt_le_trans with (42 / 100 * (12 / 5)); [lra|]. apply Rmult_le_compat; lra.
  - rewrite Z0. unfold documented_gaussian. replace (-2 * PI ^ 2 * (FWHM * unit / (2 * sqrt (2 * ln 2))) ^ 2 * 0 ^ 2) with 0 by ring. apply exp_0.
Qed.
Print Assumptions C78_refuted.
(** And with an odd number of points its largest value is at the point after the one in the middle, which has the coordinate zero. *)
Theorem C78_shift_refuted FWHM unit d m : d_count d = (2 * m + 1)%nat -> (1 <= m)%nat -> d_increment d <> 0 -> d_unit d <> 0 -> unit <> 0 -> 0 < FWHM ->
  d_fft d = true -> d_offset d = 0 ->
  coordinate d m = 0 /\ exists f, gaussian_fn FWHM (Some unit) d = Ok f /\ nth m f 0 < nth (m + 1) f 0 /\ forall i, (i < d_count d)%nat -> nth i f 0 <= nth (m + 1) f 0.
Proof.
  intros En Hm Hi Hd Hu HF Hf Ho. split.
  - unfold coordinate. rewrite coordinates_nth by lia. rewrite Hf, Ho, En. replace ((2 * m + 1) / 2)%nat with m; [ring|].
    apply (Nat.div_unique _ _ _ 1); lia.
  - destruct (gaussian_ok FWHM unit d ltac:(lia) Hi Hd Hu ltac:(lra)) as [g [f [E _]]]. exists f. split; [exact E|].
    destruct (gaussian_odd FWHM unit d f m En Hm Hi Hd Hu HF E) as [A B]. split; assumption.
Qed.
Print Assumptions C78_shift_refuted.
Example C78_case : exists f, gaussian_fn 2 (Some 1) t3 = Ok f /\ nth 1 f 0 < nth 2 f 0 /\ coordinate t3 1 = 0.
Proof.
  destruct (C78_shift_refuted 2 1 t3 1) as [A [f [E [B _]]]]; try reflexivity; try lra; try lia; try (cbn; lra).
  exists f. auto.
Qed.

(** ** C79 *)
(** The phase the shear applies is the documented one divided by the square of the product of the three units: that of the factor and those
    of the two dimensions, in a coherent system.  The same for the powers when a variable is selected more than once. *)
Theorem C79_shear fft factor unit a b s data x y : well_formed data -> a <> b -> 0 < unit ->
  nth_error (dims data) a = Some x -> nth_error (dims data) b = Some y -> 0 < d_unit x -> 0 < d_unit y -> valid_selection (length (dvs data)) s ->
  exists data', apply_operations fft [Shear factor unit (Z.of_nat a) (Z.of_nat b) s] data = Ok data' /\ same_shape data data' /\
    forall j v v', nth_error (dvs data) j = Some v -> nth_error (dvs data') j = Some v' -> forall p ix, point (dims data) ix ->
      entry v' p ix = (entry v p ix * cpow (documented_shear (factor * unit / (unit * d_unit x * d_unit y) ^ 2) (coordinate x (nth a ix 0%nat)) (coordinate y (nth b ix 0%nat)))
        (selected (length (dvs data)) j s))%C.
Proof.
  intros W N U Ex Ey Ux Uy Hs. destruct (shear_spec factor unit a b s data x y W N Ex Ey Hs) as [data' [E [Sh P]]].
  exists data'. split; [cbn [apply_operations for_each operate]; unfold apply_operations; cbn [for_each operate]; rewrite E; reflexivity|]. split; [exact Sh|].
  intros j v v' Ej Ej' p ix Hp. rewrite (P j v v' Ej Ej' p ix Hp). do 2 f_equal. unfold documented_shear, cis, coordinate.
  match goal with |- (cos ?u, sin ?u) = (cos ?w, _) => replace u with (- w) by (field; lra) end. now rewrite cos_neg, sin_neg.
Qed.
Print Assumptions C79_shear.
(** So it is the documented shear when the units are coherent, *)
Theorem C79_coherent_partial fft factor unit a b s data x y : well_formed data -> a <> b -> 0 < unit ->
  nth_error (dims data) a = Some x -> nth_error (dims data) b = Some y -> 0 < d_unit x -> 0 < d_unit y -> valid_selection (length (dvs data)) s ->
  unit * d_unit x * d_unit y = 1 ->
  exists data', apply_operations fft [Shear factor unit (Z.of_nat a) (Z.of_nat b) s] data = Ok data' /\ same_shape data data' /\
    forall j v v', nth_error (dvs data) j = Some v -> nth_error (dvs data') j = Some v' -> forall p ix, point (dims data) ix ->
      entry v' p ix = (entry v p ix * cpow (documented_shear (factor * unit) (coordinate x (nth a ix 0%nat)) (coordinate y (nth b ix 0%nat)))
        (selected (length (dvs data)) j s))%C.
Proof.
  intros W N U Ex Ey Ux Uy Hs H. destruct (C79_shear fft factor unit a b s data x y W N U Ex Ey Ux Uy Hs) as [data' [E [Sh P]]].
  exists data'. split; [exact E|]. split; [exact Sh|]. intros j v v' Ej Ej' p ix Hp. rewrite (P j v v' Ej Ej' p ix Hp). rewrite H.
  replace (factor * unit / 1 ^ 2) with (factor * unit) by field. reflexivity.
Qed.
Print Assumptions C79_coherent_partial.
(** and not otherwise: with a dimension in units of 1/2 the entry at coordinates 1/2 and 1 of a dataset of ones should be exp(-i pi / 4) for
    the factor 1/4 and is exp(-i pi). *)
Definition half := mkDim 2 1 0 0 (1 / 2) false.
Definition whole := mkDim 2 1 0 0 1 false.
Definition ones := mkData [half; whole] [mkVar [1; 2; 2]%nat (fun _ => RtoC 1)].
Theorem C79_refuted fft : exists data' v', well_formed ones /\ apply_operations fft [Shear (1 / 4) 1 0 1 None] ones = Ok data' /\ nth_error (dvs data') 0 = Some v' /\
  coordinate half 1 = 1 / 2 /\ coordinate whole 1 = 1 /\
  entry v' 0 [1; 1]%nat = documented_shear 1 (1 / 2) 1 /\ entry v' 0 [1; 1]%nat <> documented_shear (1 / 4) (1 / 2) 1.
Proof.
  assert (W : well_formed ones) by (repeat constructor; eexists; reflexivity).
  assert (Hp : point (dims ones) [1; 1]%nat) by repeat constructor.
  assert (A : coordinate half 1 = 1 / 2) by (unfold coordinate; rewrite coordinates_nth by (cbn; lia); cbn; field).
  assert (B : coordinate whole 1 = 1) by (unfold coordinate; rewrite coordinates_nth by (cbn; lia); cbn; field).
  destruct (C79_shear fft (1 / 4) 1 0 1 None ones half whole W) as [d [E [Sh P]]]; try reflexivity; try lia; try exact Logic.I; try (cbn; lra).
  destruct (other_side _ _ 0 _ Sh eq_refl) as [v Ev]. exists d, v. repeat split; try assumption.
  - rewrite (P 0%nat _ v eq_refl Ev 0%nat _ Hp). cbn [selected cpow nth]. rewrite A, B, Cmult_1_r. unfold entry. cbn [v_at]. rewrite Cmult_1_l.
    f_equal. cbn [d_unit half whole]. field.
  - rewrite (P 0%nat _ v eq_refl Ev 0%nat _ Hp). cbn [selected cpow nth]. rewrite A, B, Cmult_1_r. unfold entry. cbn [v_at]. rewrite Cmult_1_l.
    cbn [d_unit half whole]. unfold documented_shear. intros H. injection H as H _.
    replace (2 * PI * (1 / 4 * 1 / (1 * (1 / 2) * 1 * (1 * (1 / 2) * 1 * 1)) * (1 / 2) * 1)) with PI in H by field.
    replace (2 * PI * (1 / 4 * (1 / 2) * 1)) with (PI / 4) in H by field. rewrite cos_PI in H.
    assert (0 < cos (PI / 4)) by (apply cos_gt_0; pose proof PI_RGT_0; lra). lra.
Qed.
Print Assumptions C79_refuted.
Example C79_case fft : exists d, apply_operations fft [Shear 3 1000 1 0 (Some (Many [0; -1]%Z))] sample = Ok d.
Proof.
  destruct (C79_coherent_partial fft 3 1000 1 0 (Some (Many [0; -1]%Z)) sample t2 t3 sample_well_formed) as [d [E _]]; try reflexivity; try lia; try (cbn; lra); [|now exists d].
  repeat constructor; cbn; lia.
Qed.

(** ** C80 *)
(** The parameters made for a list of operations are those of the operations with a number to fit, in order: the name has the position, the
    class and the attribute, the value is the number. *)
Theorem C80_params ops : post_sim_LMFIT_params ops =
  Ok (map (fun io => (("operation_" ++ dec (fst io) ++ "_" ++ class_name (snd io) ++ "_" ++ match snd io with Scale _ | AffineScale _ _ => "factor" | _ => "FWHM" end)%string,
                      number (snd io))) (filter (fun io => fitted (snd io)) (numbered 0 ops))).
Proof. exact (params_from ops 0). Qed.
Print Assumptions C80_params.
Example C80_params_case : post_sim_LMFIT_params [FFT (One 0); Exponential 40 (Some 1) (One 0) None; FFT (One 0); Scale 7] =
  Ok [("operation_1_Exponential_FWHM"%string, 40); ("operation_3_Scale_factor"%string, 7)].
Proof. reflexivity. Qed.
(** Writing values to these names puts each in its operation and leaves everything else. *)
Theorem C80_update ops (values : nat -> R) names : post_sim_LMFIT_params ops = Ok names ->
  forall new, map fst new = map fst names ->
  map snd new = map (fun io => values (fst io)) (filter (fun io => fitted (snd io)) (numbered 0 ops)) ->
  update_post_sim new ops = Ok (map (fun io => if fitted (snd io) then with_number (snd io) (values (fst io)) else snd io) (numbered 0 ops)).
Proof.
  intros E new E1 E2. unfold post_sim_LMFIT_params in E. rewrite params_from in E. injection E as <-. rewrite map_map in E1. cbn [fst] in E1.
  pose proof (update_from values ops []) as U. cbn [app length] in U. rewrite <- U. clear U. f_equal. revert new E1 E2.
  induction (filter (fun io => fitted (snd io)) (numbered 0 ops)) as [|io l IH]; intros [|[n v] new] E1 E2; cbn in *; try discriminate; [reflexivity|].
  injection E1 as -> E1. injection E2 as -> E2. f_equal. now apply IH.
Qed.
Print Assumptions C80_update.
(** Reading the parameters and writing them back changes nothing. *)
Theorem C80_round_trip ops names : post_sim_LMFIT_params ops = Ok names -> update_post_sim names ops = Ok ops.
Proof.
  intros E. rewrite (C80_update ops (fun i => number (nth i ops (Scale 0))) names E names eq_refl).
  - f_equal. assert (G : forall l k, map (fun io => if fitted (snd io) then with_number (snd io) (number (nth (fst io - k) l (Scale 0))) else snd io) (numbered k l) = l).
    { induction l as [|o l IH]; intros k; [reflexivity|]. cbn [numbered map fst snd]. rewrite Nat.sub_diag. cbn [nth]. f_equal; [now destruct o|].
      rewrite <- (IH (S k)) at 2. apply map_ext_in. intros [i o'] Hi.
      assert (Hk : forall (l : list operation) k i o, In (i, o) (numbered k l) -> (k <= i)%nat).
      { clear. induction l as [|a l IH]; intros k i o H; [destruct H|]. destruct H as [H|H]; [injection H as -> _; lia | apply IH in H; lia]. }
      apply Hk in Hi. cbn [fst snd]. replace (i - k)%nat with (S (i - S k)) by lia. reflexivity. }
    rewrite <- (G ops 0%nat) at 2. apply map_ext. intros [i o]. cbn [fst snd]. now rewrite Nat.sub_0_r.
  - unfold post_sim_LMFIT_params in E. rewrite params_from in E. injection E as <-. rewrite map_map. cbn [snd]. apply map_ext_in. intros [i o] H.
    apply filter_In in H as [H _]. cbn [fst snd]. f_equal.
    assert (G : forall l k i o, In (i, o) (numbered k l) -> nth (i - k) l (Scale 0) = o).
    { clear. induction l as [|a l IH]; intros k i o H; [destruct H|]. destruct H as [H|H].
      - injection H as -> ->. now rewrite Nat.sub_diag.
      - assert (Hk : forall (l : list operation) k i o, In (i, o) (numbered k l) -> (k <= i)%nat).
        { clear. induction l as [|a l IH]; intros k i o H; [destruct H|]. destruct H as [H|H]; [injection H as -> _; lia | apply IH in H; lia]. }
        pose proof (Hk _ _ _ _ H). replace (i - k)%nat with (S (i - S k)) by lia. now apply IH. }
    rewrite <- (G ops 0%nat i o H). now rewrite Nat.sub_0_r.
Qed.
Print Assumptions C80_round_trip.
Example C80_update_case : update_post_sim [("operation_1_Exponential_FWHM"%string, 5); ("operation_2_Scale_factor"%string, 6)]
    [FFT (One 0); Exponential 40 (Some 1) (One 0) None; AffineScale 7 1] = Ok [FFT (One 0); Exponential 5 (Some 1) (One 0) None; AffineScale 6 1].
Proof. reflexivity. Qed.
