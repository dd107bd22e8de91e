(** Property theorems C50, C51, C74 and C75: Haeberlen parameters and the random
    tensor distributions. *)
From Coq Require Import Reals List Lra Lia ZArith Bool.
From Verif Require Import Base TensorModel TensorSpec TensorProofs.
Import ListNotations.
Open Scope R_scope.

(** C50, first part: a tensor with the principal components of (zeta, eta) gives
    back zeta and eta, as long as eta < 1 or zeta > 0.  Missing: eta = 1 with
    zeta < 0, where it fails (C50_tie_refuted). *)
Theorem C50_parameters_partial : forall eigvalsh t zeta eta,
  ascending_eigenvalues eigvalsh t -> eigenvalues t (get_principal_components zeta eta) ->
  zeta <> 0 -> 0 <= eta <= 1 -> eta < 1 \/ 0 < zeta ->
  haeberlen eigvalsh t = (zeta, Some eta).
Proof. exact haeberlen_parameters. Qed.
Print Assumptions C50_parameters_partial.

(** The array function treats every tensor on its own. *)
Theorem C50_array : forall eigvalsh ts k t, nth_error ts k = Some t ->
  nth_error (get_Haeberlen_components eigvalsh ts) k = Some (haeberlen eigvalsh t).
Proof. intros. unfold get_Haeberlen_components. now apply map_nth_error. Qed.
Print Assumptions C50_array.

(** The principal components are those of the tensor named by (zeta, eta). *)
Theorem C50_components : forall zeta eta xx yy zz, get_principal_components zeta eta = (xx, yy, zz) ->
  zz = zeta /\ xx + yy + zz = 0 /\ yy - xx = eta * zeta.
Proof.
  intros zeta eta xx yy zz H. unfold get_principal_components in H.
  apply pair_equal_spec in H as [H <-]. apply pair_equal_spec in H as [<- <-]. lra.
Qed.
Print Assumptions C50_components.

(** C50 fails at eta = 1 and negative zeta: the sign of zeta is lost. *)
Theorem C50_tie_refuted : forall eigvalsh t zeta,
  ascending_eigenvalues eigvalsh t -> eigenvalues t (get_principal_components zeta 1) -> zeta < 0 ->
  haeberlen eigvalsh t = (- zeta, Some 1) /\ haeberlen eigvalsh t <> (zeta, Some 1).
Proof.
  intros. pose proof (haeberlen_tie eigvalsh t zeta H H0 H1) as E. split; [exact E|].
  rewrite E. intros Q. apply pair_equal_spec in Q as [Q _]. lra.
Qed.
Print Assumptions C50_tie_refuted.

(** C50, second part: every non-zero traceless symmetric tensor. *)
Theorem C50_convention : forall eigvalsh t,
  symmetric t -> traceless t -> t <> zero_mat -> ascending_eigenvalues eigvalsh t ->
  exists zeta eta, haeberlen eigvalsh t = (zeta, Some eta) /\ zeta <> 0 /\ 0 <= eta <= 1 /\
    haeberlen_convention t zeta eta /\ eigenvalues t (get_principal_components zeta eta).
Proof. exact haeberlen_convention_ok. Qed.
Print Assumptions C50_convention.

(** A case: the tensor diag(-3, -1, 4) and its ascending eigenvalues. *)
Lemma diagonal_eigen a b c : eigenvalues (diagonal (a, b, c)) (a, b, c).
Proof. intros l. unfold det, shifted, diagonal; cbn. ring. Qed.
Example C50_case : ascending_eigenvalues (fun _ => (-3, -1, 4)) (diagonal (-3, -1, 4)) /\
  symmetric (diagonal (-3, -1, 4)) /\ traceless (diagonal (-3, -1, 4)) /\ diagonal (-3, -1, 4) <> zero_mat /\
  eigenvalues (diagonal (-3, -1, 4)) (get_principal_components 4 (1 / 2)).
Proof.
  split; [|split; [|split; [|split]]].
  - split; [apply diagonal_eigen | lra].
  - repeat split.
  - unfold traceless; cbn; lra.
  - intros H. apply (f_equal m22) in H. cbn in H. lra.
  - unfold get_principal_components. replace (-0.5 * 4 * (1 / 2 + 1)) with (-3) by lra.
    replace (0.5 * 4 * (1 / 2 - 1)) with (-1) by lra. apply diagonal_eigen.
Qed.
Example C50_tie_case : ascending_eigenvalues (fun _ => (-4, 0, 4)) (diagonal (4, 0, -4)) /\
  eigenvalues (diagonal (4, 0, -4)) (get_principal_components (-4) 1).
Proof.
  split; [split|].
  - intros l. unfold det, shifted, diagonal; cbn. ring.
  - lra.
  - unfold get_principal_components. replace (-0.5 * -4 * (1 + 1)) with 4 by lra.
    replace (0.5 * -4 * (1 - 1)) with 0 by lra. apply diagonal_eigen.
Qed.

(** C51: every draw of the extended model has the Haeberlen parameters of the
    dominant tensor plus a random tensor of relative size eps, provided the
    dominant tensor is not axially symmetric.  zeta is the anisotropy, or Cq when
    no anisotropy is given.  Missing: eta = 0, where it fails. *)
Theorem C51_partial : forall eigvalsh eps st zeta eta ds,
  (st_zeta st = Some zeta \/ st_zeta st = None /\ st_Cq st = Some zeta) -> st_eta st = Some eta -> zeta <> 0 -> eta <> 0 ->
  (forall d, In d ds -> ascending_eigenvalues eigvalsh (perturbed zeta eta eps d)) ->
  exists out, ext_rvs eigvalsh eps st ds = Ok out /\
    Forall2 (fun d r => perturbed zeta eta eps d <> zero_mat ->
      exists e, snd r = Some e /\ 0 <= e <= 1 /\ haeberlen_convention (perturbed zeta eta eps d) (fst r) e) ds out.
Proof.
  intros eig eps st zeta eta ds Z E Nz Ne A.
  assert (P : py_or (st_zeta st) (st_Cq st) = Some zeta).
  { destruct Z as [-> | [-> ->]]; auto. cbn. destruct (Req_EM_T zeta 0); [contradiction | reflexivity]. }
  unfold ext_rvs. rewrite (dominant_ok st zeta eta) by auto. cbn [bind]. eexists. split; [reflexivity|].
  unfold get_Haeberlen_components. rewrite map_map.
  induction ds as [|d ds IH]; cbn [map]; constructor.
  - intros Nm. rewrite ext_tensor_perturbed.
    destruct (haeberlen_convention_ok eig (perturbed zeta eta eps d)) as [z [e [H [_ [R [C _]]]]]]; auto.
    + apply perturbed_symmetric. + apply perturbed_traceless. + apply A. now left.
    + rewrite H. exists e. auto.
  - apply IH. intros; apply A. now right.
Qed.
Print Assumptions C51_partial.

(** Without perturbation every draw is the dominant tensor itself. *)
Theorem C51_unperturbed : forall eigvalsh st zeta eta ds,
  (st_zeta st = Some zeta \/ st_zeta st = None /\ st_Cq st = Some zeta) -> st_eta st = Some eta -> zeta <> 0 -> 0 < eta <= 1 ->
  eta < 1 \/ 0 < zeta ->
  ascending_eigenvalues eigvalsh (diagonal (- zeta * (1 + eta) / 2, - zeta * (1 - eta) / 2, zeta)) ->
  ext_rvs eigvalsh 0 st ds = Ok (map (fun _ => (zeta, Some eta)) ds).
Proof.
  intros eig st zeta eta ds Z E Nz Re Tie A.
  assert (P : py_or (st_zeta st) (st_Cq st) = Some zeta).
  { destruct Z as [-> | [-> ->]]; auto. cbn. destruct (Req_EM_T zeta 0); [contradiction | reflexivity]. }
  unfold ext_rvs. rewrite (dominant_ok st zeta eta) by (auto; lra). cbn [bind]. f_equal.
  unfold get_Haeberlen_components. rewrite map_map. apply map_ext. intros d. rewrite ext_tensor_perturbed.
  replace (perturbed zeta eta 0 d) with (diagonal (- zeta * (1 + eta) / 2, - zeta * (1 - eta) / 2, zeta)).
  - apply haeberlen_parameters; auto; [|lra]. unfold get_principal_components.
    replace (-0.5 * zeta * (eta + 1)) with (- zeta * (1 + eta) / 2) by lra.
    replace (0.5 * zeta * (eta - 1)) with (- zeta * (1 - eta) / 2) by lra. apply diagonal_eigen.
  - unfold perturbed, mat_add, mat_scale, diagonal. cbn. f_equal; unfold Rdiv; ring.
Qed.
Print Assumptions C51_unperturbed.

(** C51 fails for axially symmetric dominant tensors: whatever zeta, eps and the
    random numbers are, every draw is the zero tensor, whose eta is a NaN. *)
Theorem C51_axial_refuted : forall eigvalsh eps st ds,
  st_eta st = Some 0 -> ascending_eigenvalues eigvalsh zero_mat ->
  ext_rvs eigvalsh eps st ds = Ok (map (fun _ => (0, None)) ds).
Proof.
  intros eig eps st ds E A. unfold ext_rvs. rewrite dominant_axial by auto. cbn [bind]. f_equal.
  unfold get_Haeberlen_components. rewrite map_map. apply map_ext. intros d. rewrite ext_zero. now apply haeberlen_zero.
Qed.
Print Assumptions C51_axial_refuted.

(** A tensor that lacks eta, or both the anisotropy and Cq, is rejected with TypeError unless the other one is zero; no other tensor is. *)
Theorem C51_missing : forall eigvalsh eps st ds,
  ext_rvs eigvalsh eps st ds = Err TypeError <->
  (st_eta st = None /\ (forall z, st_zeta st = Some z -> z = 0 -> st_Cq st <> Some 0) /\ (st_zeta st = None -> st_Cq st <> Some 0)) \/
  (st_eta st <> Some 0 /\ (st_zeta st = None \/ st_zeta st = Some 0) /\ st_Cq st = None).
Proof.
  intros eig eps st ds. unfold ext_rvs, dominant, py_or, not_zero.
  destruct (st_zeta st) as [z|], (st_Cq st) as [c|], (st_eta st) as [e|]; repeat (match goal with |- context [Req_EM_T ?x ?y] => destruct (Req_EM_T x y) end; subst; cbn [andb bind]); (split; [intros H; try discriminate H|intros H; try reflexivity; exfalso]);
  repeat match goal with
  | H : _ \/ _ |- _ => destruct H
  | H : _ /\ _ |- _ => destruct H
  end; try congruence;
  try (left; split; [reflexivity|]; split; intros; congruence);
  try (right; split; [congruence|]; split; [first [left; congruence|right; congruence]|reflexivity]).
  all: try match goal with H : forall z, _ -> _ -> _ |- _ => solve [apply (H _ eq_refl); auto] end.
  all: try match goal with H : None = None -> _ |- _ => solve [apply H; auto] end.
Qed.
Print Assumptions C51_missing.
Example C51_missing_example : ext_rvs (fun _ => (0, 0, 0)) 1 {| st_zeta := Some 4; st_Cq := None; st_eta := None |} [] = Err TypeError.
Proof. apply C51_missing. left. cbn. split; [reflexivity|]. split; intros; congruence. Qed.

(** The Czjzek model: each draw follows the Haeberlen convention for the tensor
    the documentation writes down. *)
Theorem C51_czjzek : forall eigvalsh sigma ds,
  (forall d, In d ds -> ascending_eigenvalues eigvalsh (documented_tensor sigma d)) ->
  Forall2 (fun d r => documented_tensor sigma d <> zero_mat ->
      exists e, snd r = Some e /\ 0 <= e <= 1 /\ haeberlen_convention (documented_tensor sigma d) (fst r) e)
    ds (czjzek_rvs eigvalsh sigma ds).
Proof.
  intros eig sigma ds A. unfold czjzek_rvs, get_Haeberlen_components. rewrite map_map.
  induction ds as [|d ds IH]; cbn [map]; constructor.
  - intros Nm. rewrite czjzek_documented.
    destruct (haeberlen_convention_ok eig (documented_tensor sigma d)) as [z [e [H [_ [R [C _]]]]]]; auto.
    + apply documented_symmetric. + apply documented_traceless. + apply A. now left.
    + rewrite H. exists e. auto.
  - apply IH. intros; apply A. now right.
Qed.
Print Assumptions C51_czjzek.

Example C51_case :
  let st := SymTensor None (Some 4) (Some (1 / 2)) in
  let d := Draw 0 0 0 0 0 in
  let eig := fun _ : mat => (-3, -1, 4) in
  (forall d', In d' [d; d] -> ascending_eigenvalues eig (perturbed 4 (1 / 2) 2 d')) /\
  perturbed 4 (1 / 2) 2 d <> zero_mat /\ ext_rvs eig 2 st [d; d] = Ok [(4, Some (1 / 2)); (4, Some (1 / 2))].
Proof.
  intros st d eig.
  assert (P : perturbed 4 (1 / 2) 2 d = diagonal (-3, -1, 4)).
  { unfold perturbed, mat_add, mat_scale, diagonal, documented_tensor. cbn. f_equal; unfold Rdiv; try ring; lra. }
  assert (A : ascending_eigenvalues eig (diagonal (-3, -1, 4))) by (split; [apply diagonal_eigen | cbn; lra]).
  split; [|split].
  - intros d' [<-|[<-|[]]]; rewrite P; exact A.
  - rewrite P. intros H. apply (f_equal m22) in H. cbn in H. lra.
  - unfold ext_rvs. rewrite (dominant_ok st 4 (1 / 2)) by (try reflexivity; lra). cbn [bind].
    unfold get_Haeberlen_components. cbn [map]. rewrite !ext_tensor_perturbed, P.
    rewrite (haeberlen_parameters eig (diagonal (-3, -1, 4)) 4 (1 / 2)); auto; try lra. apply C50_case.
Qed.
Example C51_czjzek_case :
  let d := Draw 2 0 0 0 0 in
  documented_tensor 1 d = diagonal (-2, -2, 4) /\ documented_tensor 1 d <> zero_mat /\
  ascending_eigenvalues (fun _ => (-2, -2, 4)) (documented_tensor 1 d).
Proof.
  intros d. assert (P : documented_tensor 1 d = diagonal (-2, -2, 4)).
  { unfold documented_tensor, diagonal. cbn. f_equal; ring. }
  rewrite P. split; [reflexivity|]. split.
  - intros H. apply (f_equal m22) in H. cbn in H. lra.
  - split; [apply diagonal_eigen | lra].
Qed.
Example C51_axial_case : st_eta (SymTensor (Some 50) None (Some 0)) = Some 0 /\ ascending_eigenvalues (fun _ => (0, 0, 0)) zero_mat.
Proof. split; [reflexivity|]. split; [intros l; unfold det, shifted, zero_mat; cbn; ring | lra]. Qed.

(** C74: polar coordinates.  The point lies in the first quadrant at distance
    |zeta| from the origin. *)
Theorem C74_radius : forall zeta eta, 0 <= eta <= 1 ->
  let '(x, y) := x_y_from_zeta_eta zeta eta in 0 <= x /\ 0 <= y /\ x * x + y * y = zeta * zeta.
Proof. exact polar_norm. Qed.
Print Assumptions C74_radius.

(** Converting there and back returns zeta exactly and eta to 1e-11, for eta
    below 1 by at least 1e-11.  Missing: eta = 1 (C74_refuted). *)
Theorem C74_round_trip_partial : forall zeta eta, zeta <> 0 -> 0 <= eta <= 1 - 0.00000000001 ->
  let '(x, y) := x_y_from_zeta_eta zeta eta in
  exists eta', x_y_to_zeta_eta x y = (zeta, eta') /\ Rabs (eta' - eta) <= 0.00000000001.
Proof.
  intros zeta eta N E. pose proof (polar_back zeta eta N E) as B.
  destruct (x_y_from_zeta_eta zeta eta) as [x y]. eexists. split; [exact B|]. apply polar_factor. lra.
Qed.
Print Assumptions C74_round_trip_partial.

(** At eta = 1 a positive zeta comes back negative: the constant in the code is
    slightly larger than pi / 4. *)
Theorem C74_refuted : forall zeta, 0 < zeta ->
  let '(x, y) := x_y_from_zeta_eta zeta 1 in fst (x_y_to_zeta_eta x y) = - zeta.
Proof. exact polar_flip. Qed.
Print Assumptions C74_refuted.

Example C74_case : (2 <> 0) /\ 0 <= 1 / 2 <= 1 - 0.00000000001.
Proof. lra. Qed.

(** C75: the probability distribution on a grid.  For any grids whose histogram
    range is not empty and at least one variate in range, the amplitudes are
    non-negative numbers that add up to one, one row per point of the second
    axis and one column per point of the first. *)
Theorem C75_normalised : forall pos0 pos1 samples xlo xhi ylo yhi s,
  axis_range pos0 = Ok (xlo, xhi) -> axis_range pos1 = Ok (ylo, yhi) -> xlo < xhi -> ylo < yhi ->
  In s samples -> xlo <= fst s <= xhi -> ylo <= snd s <= yhi ->
  exists amp, pdf pos0 pos1 samples = Ok (map (map Some) amp) /\
    length amp = length pos1 /\ (forall r, In r amp -> length r = length pos0 /\ forall a, In a r -> 0 <= a) /\
    table_sum amp = 1.
Proof.
  intros pos0 pos1 samples xlo xhi ylo yhi s A0 A1 Hx Hy I Ix Iy.
  rewrite (pdf_ok pos0 pos1 samples xlo xhi ylo yhi) by auto.
  set (N := INR (count_if (inside xlo xhi ylo yhi) samples)).
  assert (P : 0 < N).
  { apply count_pos with s; auto. unfold inside. apply andb_true_iff. split; apply within_iff; auto. }
  set (cc := cell_count xlo xhi ylo yhi (length pos0) (length pos1) samples).
  exists (map (fun j => map (fun i => cc i j / N) (seq 0 (length pos0))) (seq 0 (length pos1))).
  split; [|split; [|split]].
  - f_equal. rewrite map_map. apply map_ext. intros j. rewrite map_map. apply map_ext. intros i.
    unfold divide. destruct (Req_EM_T N 0); [lra | reflexivity].
  - now rewrite map_length, seq_length.
  - intros r Hr. apply in_map_iff in Hr as [j [<- _]]. split; [now rewrite map_length, seq_length|].
    intros a Ha. apply in_map_iff in Ha as [i [<- _]]. apply Rmult_le_pos; [apply pos_INR | left; now apply Rinv_0_lt_compat].
  - unfold table_sum. rewrite map_map.
    rewrite (sum_ext _ (fun j => / N * sum (map (fun i => cc i j) (seq 0 (length pos0))))).
    2: { intros j _. rewrite <- sum_map_scale. apply sum_ext. intros i _. unfold Rdiv. ring. }
    rewrite sum_map_scale, <- sum_swap. unfold cc.
    assert (Nx : (0 < length pos0)%nat) by (destruct pos0; [discriminate | cbn; lia]).
    assert (Ny : (0 < length pos1)%nat) by (destruct pos1; [discriminate | cbn; lia]).
    change (/ N * sum (map (fun a => sum (map (cell_count xlo xhi ylo yhi (length pos0) (length pos1) samples a) (seq 0 (length pos1)))) (seq 0 (length pos0))) = 1).
    rewrite (total_count xlo xhi ylo yhi) by auto. fold N. field. lra.
Qed.
Print Assumptions C75_normalised.

(** On uniform grids the amplitude in row j and column i is the fraction of the
    variates in range that lie in the cell of the grid point (i, j): within half
    a step of it, the upper end counted only for the last point. *)
Theorem C75_cells : forall p0 step0 nx p1 step1 ny samples i j cell whole,
  0 < step0 -> 0 < step1 -> (2 <= nx)%nat -> (2 <= ny)%nat -> (i < nx)%nat -> (j < ny)%nat ->
  (forall s, cell s = true <->
     (in_cell (p0 + INR i * step0) step0 (fst s) \/ (S i = nx /\ fst s = p0 + INR i * step0 + step0 / 2)) /\
     (in_cell (p1 + INR j * step1) step1 (snd s) \/ (S j = ny /\ snd s = p1 + INR j * step1 + step1 / 2))) ->
  (forall s, whole s = true <->
     p0 - step0 / 2 <= fst s <= p0 + INR (nx - 1) * step0 + step0 / 2 /\
     p1 - step1 / 2 <= snd s <= p1 + INR (ny - 1) * step1 + step1 / 2) ->
  count_if whole samples <> 0%nat ->
  exists amp row, pdf (uniform p0 step0 nx) (uniform p1 step1 ny) samples = Ok amp /\
    nth_error amp j = Some row /\
    nth_error row i = Some (Some (INR (count_if cell samples) / INR (count_if whole samples))).
Proof.
  intros p0 step0 nx p1 step1 ny samples i j cell whole S0 S1 Nx Ny Hi Hj Hc Hw Hn.
  assert (Px : 0 < INR nx) by (apply lt_0_INR; lia). assert (Py : 0 < INR ny) by (apply lt_0_INR; lia).
  assert (Qx : 0 < INR nx * step0) by (apply Rmult_lt_0_compat; auto).
  assert (Qy : 0 < INR ny * step1) by (apply Rmult_lt_0_compat; auto).
  rewrite (pdf_ok _ _ samples _ _ _ _ (uniform_range p0 step0 nx Nx) (uniform_range p1 step1 ny Ny)) by lra.
  rewrite !uniform_length.
  replace (count_if (inside _ _ _ _) samples) with (count_if whole samples).
  2: { apply count_ext. intros s. rewrite Hw. unfold inside. rewrite andb_true_iff, !within_iff.
       rewrite !minus_INR by lia. cbn [INR]. split; intros; lra. }
  assert (Si : nth_error (seq 0 nx) i = Some i) by (rewrite (nth_error_nth' _ 0%nat) by (now rewrite seq_length); now rewrite seq_nth).
  assert (Sj : nth_error (seq 0 ny) j = Some j) by (rewrite (nth_error_nth' _ 0%nat) by (now rewrite seq_length); now rewrite seq_nth).
  do 2 eexists. split; [reflexivity|]. split; [apply map_nth_error; exact Sj|].
  rewrite (map_nth_error _ _ _ Si). unfold divide.
  destruct (Req_EM_T (INR (count_if whole samples)) 0) as [Z|_]; [exfalso; apply Hn; now apply INR_eq|].
  unfold cell_count. do 4 f_equal. apply count_ext. intros s.
  rewrite Hc, andb_true_iff, !uniform_bin by (auto; lia). reflexivity.
Qed.
Print Assumptions C75_cells.

(** With no variate in range every amplitude is a NaN. *)
Theorem C75_out_of_range : forall pos0 pos1 samples xlo xhi ylo yhi,
  axis_range pos0 = Ok (xlo, xhi) -> axis_range pos1 = Ok (ylo, yhi) -> xlo < xhi -> ylo < yhi ->
  (forall s, In s samples -> ~ (xlo <= fst s <= xhi /\ ylo <= snd s <= yhi)) ->
  pdf pos0 pos1 samples = Ok (repeat (repeat None (length pos0)) (length pos1)).
Proof.
  intros pos0 pos1 samples xlo xhi ylo yhi A0 A1 Hx Hy Ho.
  rewrite (pdf_ok pos0 pos1 samples xlo xhi ylo yhi) by auto. f_equal.
  assert (Z : count_if (inside xlo xhi ylo yhi) samples = 0%nat).
  { unfold count_if. induction samples as [|s l IH]; auto. cbn [filter]. destruct (inside xlo xhi ylo yhi s) eqn:E.
    - exfalso. apply (Ho s (or_introl eq_refl)). unfold inside in E. rewrite andb_true_iff, !within_iff in E. exact E.
    - apply IH. intros; apply Ho; now right. }
  rewrite Z. assert (K : forall {A B} (c : B) (l : list A), map (fun _ => c) l = repeat c (length l)) by (induction l; cbn; congruence).
  assert (D : forall x, divide x (INR 0) = None) by (intros; unfold divide; cbn; destruct (Req_EM_T 0 0); [reflexivity | lra]).
  rewrite <- (seq_length (length pos1) 0) at 2. rewrite <- K. apply map_ext. intros j.
  rewrite <- (seq_length (length pos0) 0) at 2. rewrite <- K. apply map_ext. intros i. apply D.
Qed.
Print Assumptions C75_out_of_range.

Example C75_case : axis_range [0; 1; 2] = Ok (0 - (1 - 0) / 2, 2 + (1 - 0) / 2) /\ (uniform 0 1 3 = [0 + INR 0 * 1; 0 + INR 1 * 1; 0 + INR 2 * 1])%list /\ In (1 / 2, 2) [(7, 7); (1 / 2, 2)] /\ 0 - (1 - 0) / 2 <= fst (1 / 2, 2) <= 2 + (1 - 0) / 2 /\ 0 - (1 - 0) / 2 <= snd (1 / 2, 2) <= 2 + (1 - 0) / 2.
Proof. repeat split; cbn; try lra. auto. Qed.
