(** C25-C27, C30, C31, C57, C63: frequency axes, sidebands orders and the affine transformation. *)
From Coq Require Import ZArith QArith Qabs Bool List Lia Lqa Qfield.
From Verif Require Import Base InterpModel InterpSpec PowderModel AxisModel AxisSpec PowderProofs AxisProofs AxisPeakProofs.
Import ListNotations.
Open Scope Q_scope.

Definition dim4 : sdim := {| sd_count := 4; sd_width := 100; sd_ref := 7; sd_origin := None |}.
Definition dim3 : sdim := {| sd_count := 3; sd_width := 90; sd_ref := 0; sd_origin := None |}.

(** C25.  [position gamma d f]: where the simulation puts the frequency f, in units of bins; [coordinate d k]: the k-th element
    of coordinates_Hz; [delta_fn x n a]: the additions made to the spectrum for a line of area a at position x.
    For an even count and a positive gyromagnetic ratio the frequency of the k-th coordinate is the centre of bin k: a line there
    falls in bin k only, and bin k collects the frequencies within half an increment of its coordinate. *)
Theorem C25_bins_at_coordinates_partial :
  forall (gamma : Q) (d : sdim) (k : Z),
  valid_dim d -> 0 < gamma -> (sd_count d mod 2 = 0)%Z -> (0 <= k < sd_count d)%Z ->
  List.length (coordinates_Hz d) = Z.to_nat (sd_count d) /\
  (forall amp, delta_fn (position gamma d (coordinate d k)) (sd_count d) amp = [(k, amp)]) /\
  (forall f, position gamma d f - centre k == (f - coordinate d k) / (sd_width d / zq (sd_count d))).
Proof.
  intros gamma d k V G Ev Hk. split; [apply coordinates_length|].
  assert (P : position gamma d (coordinate d k) == zq k + half).
  { rewrite position_coordinate by auto. rewrite (half_even _ Ev). ring. }
  split.
  - intros amp. apply delta_centre; auto.
  - intros f. fold (increment d). pose proof (inc_pos d V). pose proof (position_eq gamma d f V) as E1.
    pose proof (position_eq gamma d (coordinate d k) V) as E2. rewrite P in E2. unfold centre.
    assert (E3 : f - coordinate d k == (position gamma d f - (zq k + half)) * increment d) by lra.
    rewrite E3. field. lra.
Qed.
Print Assumptions C25_bins_at_coordinates_partial.
Example C25_example : valid_dim dim4 /\ (sd_count dim4 mod 2 = 0)%Z /\ coordinate dim4 3 == 32.
Proof. repeat split; vm_compute; reflexivity. Qed.

(** C25 fails for odd counts: every bin is half an increment away from its coordinate. *)
Theorem C25_odd_refuted :
  forall (gamma : Q) (d : sdim) (k : Z),
  valid_dim d -> 0 < gamma -> (sd_count d mod 2 = 1)%Z -> (0 <= k < sd_count d)%Z ->
  position gamma d (coordinate d k) == centre k + half.
Proof. intros gamma d k V G Od Hk. rewrite position_coordinate, (half_odd _ Od) by auto. unfold centre. ring. Qed.
Print Assumptions C25_odd_refuted.
Example C25_odd_example : valid_dim dim3 /\ (sd_count dim3 mod 2 = 1)%Z /\
  deposit (delta_fn (position 1 dim3 (coordinate dim3 1)) 3 1) 1 == 1 # 2.
Proof. repeat split; vm_compute; reflexivity. Qed.

(** C26, frequencies.  With a negative gyromagnetic ratio the simulated frequencies have the opposite sign of the reported ones;
    bin [flip_index n k] of the raw spectrum, which the index reversal moves to k, is centred on minus the k-th coordinate
    (even counts, k >= 1).  That the reversal is this index map is C26_reversal in PropDft. *)
Theorem C26_reversed_axis_partial :
  forall (gamma : Q) (d : sdim) (k : Z) (amp : Q),
  valid_dim d -> gamma < 0 -> (sd_count d mod 2 = 0)%Z -> (0 < k < sd_count d)%Z ->
  delta_fn (position gamma d (- coordinate d k)) (sd_count d) amp = [(flip_index (sd_count d) k, amp)] /\
  flip_index (sd_count d) (flip_index (sd_count d) k) = k.
Proof.
  intros gamma d k amp V G Ev Hk. assert (FI : flip_index (sd_count d) k = (sd_count d - k)%Z).
  { unfold flip_index. rewrite Z.mod_opp_l_nz; rewrite ?Z.mod_small; lia. }
  split.
  - rewrite FI. apply delta_centre; [lia|]. rewrite position_coordinate_neg by (auto; lra || lia). rewrite (half_even _ Ev).
    unfold zq. unfold Z.sub. rewrite inject_Z_plus, inject_Z_opp. ring.
  - rewrite FI. unfold flip_index. rewrite Z.mod_opp_l_nz; rewrite ?Z.mod_small; lia.
Qed.
Print Assumptions C26_reversed_axis_partial.
Example C26_example : delta_fn (position (-5) dim4 (- coordinate dim4 3)) 4 1 = [(1%Z, 1)] /\ flip_index 4 1 = 3%Z.
Proof. split; vm_compute; reflexivity. Qed.

(** C26 fails for the first bin: it holds the frequency whose reported coordinate would be one past the end of the axis, a
    whole spectral width away, and a line at the first coordinate is lost. *)
Theorem C26_first_bin_refuted :
  forall (gamma : Q) (d : sdim) (amp : Q), valid_dim d -> gamma < 0 -> (sd_count d mod 2 = 0)%Z ->
  flip_index (sd_count d) 0 = 0%Z /\
  delta_fn (position gamma d (- (coordinate d 0 + sd_width d))) (sd_count d) amp = [(0%Z, amp)] /\
  delta_fn (position gamma d (- coordinate d 0)) (sd_count d) amp = [].
Proof.
  intros gamma d amp V G Ev. pose proof V as [Hn Hw]. split; [reflexivity|].
  pose proof (position_coordinate_neg gamma d 0 V ltac:(lra) ltac:(lia)) as P. rewrite (half_even _ Ev) in P.
  change (zq 0) with 0 in P. split.
  - apply delta_centre; [lia|]. change (zq 0) with 0. apply position_inj; auto.
    pose proof (position_eq gamma d (- coordinate d 0) V) as E. rewrite P in E. pose proof (width_inc d V) as W.
    assert (Z1 : - (coordinate d 0 + sd_width d) - coordinates_offset gamma d == (- coordinate d 0 - coordinates_offset gamma d) - sd_width d) by ring.
    rewrite Z1, <- E, W. ring.
  - unfold delta_fn. rewrite (trunc_spec _ (sd_count d)); [rewrite Z.leb_refl; reflexivity|rewrite P; unfold half; lra|rewrite P; unfold half; lra|].
    rewrite P. pose proof (zq_nonneg (sd_count d) ltac:(lia)). unfold half. lra.
Qed.
Print Assumptions C26_first_bin_refuted.
Example C26_first_example : valid_dim dim4 /\ (sd_count dim4 mod 2 = 0)%Z.
Proof. repeat split; vm_compute; reflexivity. Qed.

(** C27.  [averaging_2d]: the calls of the two dimensional interpolation; in the call for sidebands i, k and octant j, orientation
    p has the positions [c_f0 c p], [c_f1 c p] in units of bins.  Converted back to Hz (as in C25) they are the affine
    matrix applied to the frequencies in Hz of that orientation and those sidebands along the two dimensions.  Its amplitude is the
    product of the amplitudes of the two sidebands at that orientation and the orientation's weight. *)
Theorem C27_affine :
  forall (m0 m1 m2 m3 gamma : Q) (d0 d1 : sdim) (npts n_oct nsb : nat) (R0 R1 : Q) (vrA vrB freq0 freq1 ampA ampB norm : nat -> Q)
    (user : bool) (i k j p : nat) (c : call2d),
  valid_dim d0 -> valid_dim d1 ->
  (if user then ~ m0 == 0 else m0 == 1 /\ m1 == 0 /\ m2 == 0 /\ m3 == 1) ->
  In (i, k, j, c) (averaging_2d (affine_c (if user then Some (m0, m1, m2, m3) else None) (increment d0) (increment d1))
                     gamma d0 d1 npts n_oct nsb R0 R1 vrA vrB freq0 freq1 ampA ampB norm) ->
  let F0 := (freq0 (j * npts + p)%nat + R0) * increment d0 + vrA i in
  let F1 := (freq1 (j * npts + p)%nat + R1) * increment d1 + vrB k in
  (c_f0 c p - half) * increment d0 + coordinates_offset gamma d0 == m0 * F0 + m1 * F1 /\
  (c_f1 c p - half) * increment d1 + coordinates_offset gamma d1 == m2 * F0 + m3 * F1 /\
  c_amp c p == ampA (i * (n_oct * npts) + (j * npts + p))%nat * ampB (k * (n_oct * npts) + (j * npts + p))%nat * norm p.
Proof.
  intros m0 m1 m2 m3 gamma d0 d1 npts n_oct nsb R0 R1 vrA vrB freq0 freq1 ampA ampB norm user i k j p c V0 V1 HM HI F0 F1.
  pose proof (inc_pos d0 V0) as I0. pose proof (inc_pos d1 V1) as I1.
  destruct (affine_c (if user then Some (m0, m1, m2, m3) else None) (increment d0) (increment d1)) as [[[a0 a1] a2] a3] eqn:EA.
  assert (SC : forall n0 n1, (a0 * n0 + a1 * n1) * increment d0 == m0 * (n0 * increment d0) + m1 * (n1 * increment d1) /\
    (a3 * n1 + a2 * (a0 * n0 + a1 * n1)) * increment d1 == m2 * (n0 * increment d0) + m3 * (n1 * increment d1)).
  { intros n0 n1. destruct user.
    - pose proof (affine_scaled m0 m1 m2 m3 (increment d0) (increment d1) n0 n1 HM I0 I1) as S. rewrite EA in S. exact S.
    - cbn in EA. injection EA as <- <- <- <-. destruct HM as [H0 [H1 [H2 H3]]]. rewrite H0, H1, H2, H3. split; ring. }
  unfold averaging_2d in HI. apply in_flat_map in HI. destruct HI as [i' [_ HI]]. apply in_flat_map in HI. destruct HI as [k' [_ HI]].
  cbn [affine_offsets] in HI.
  match type of HI with In _ (if ?b then _ else _) => destruct b end; [|contradiction].
  apply in_map_iff in HI. destruct HI as [j' [E _]]. apply pair_equal_spec in E. destruct E as [E Ec]. injection E as -> -> ->. subst c. cbn [c_f0 c_f1 c_amp].
  rewrite (Nat.add_assoc (i * (n_oct * npts))), (Nat.add_assoc (k * (n_oct * npts))).
  pose proof (affine_local_eq a0 a1 a2 a3 (freq0 (j * npts + p)%nat) (freq1 (j * npts + p)%nat)) as L.
  destruct (affine_local (a0, a1, a2, a3) (freq0 (j * npts + p)%nat) (freq1 (j * npts + p)%nat)) as [x y]. cbn [fst snd]. destruct L as [L0 L1].
  destruct (SC (freq0 (j * npts + p)%nat + R0 + vrA i * inverse_increment d0) (freq1 (j * npts + p)%nat + R1 + vrB k * inverse_increment d1)) as [S0 S1].
  assert (N0 : (freq0 (j * npts + p)%nat + R0 + vrA i * inverse_increment d0) * increment d0 == F0) by (unfold F0, inverse_increment; field; lra).
  assert (N1 : (freq1 (j * npts + p)%nat + R1 + vrB k * inverse_increment d1) * increment d1 == F1) by (unfold F1, inverse_increment; field; lra).
  rewrite N0, N1 in S0, S1. rewrite <- S0, <- S1, L0, L1. unfold normalize_offset.
  assert (Q0 : coordinates_offset gamma d0 * inverse_increment d0 * increment d0 == coordinates_offset gamma d0) by (unfold inverse_increment; field; lra).
  assert (Q1 : coordinates_offset gamma d1 * inverse_increment d1 * increment d1 == coordinates_offset gamma d1) by (unfold inverse_increment; field; lra).
  split.
  - transitivity ((a0 * (freq0 (j * npts + p)%nat + R0 + vrA i * inverse_increment d0) + a1 * (freq1 (j * npts + p)%nat + R1 + vrB k * inverse_increment d1)) * increment d0
      - coordinates_offset gamma d0 * inverse_increment d0 * increment d0 + coordinates_offset gamma d0); [ring|rewrite Q0; ring].
  - split; [|ring]. transitivity ((a3 * (freq1 (j * npts + p)%nat + R1 + vrB k * inverse_increment d1)
        + a2 * (a0 * (freq0 (j * npts + p)%nat + R0 + vrA i * inverse_increment d0) + a1 * (freq1 (j * npts + p)%nat + R1 + vrB k * inverse_increment d1))) * increment d1
      - coordinates_offset gamma d1 * inverse_increment d1 * increment d1 + coordinates_offset gamma d1); [ring|rewrite Q1; ring].
Qed.
Print Assumptions C27_affine.
(** A call exists, with a matrix whose four elements are non-zero. *)
Example C27_example : exists c,
  averaging_2d (affine_c (Some (2, 1, 1 # 2, 3)) (increment dim4) (increment dim3)) 1 dim4 dim3 1 1 1 (1#10) (1#5)
    (fun _ => 0) (fun _ => 0) (fun _ => 1#7) (fun _ => 1#9) (fun _ => 1) (fun _ => 1) (fun _ => 1) = [(0%nat, 0%nat, 0%nat, c)].
Proof. eexists. vm_compute. reflexivity. Qed.

(** C30.  Which methods are accepted, and with how many sidebands.  [static e]: rotor frequency below 1e-3 Hz.
    1) all events static: one sideband; 2) all events spinning: the configured number; 3) a spinning first event and a static
    event later: ValueError (unless one sideband is configured). *)
Theorem C30_rotor_frequencies_partial :
  forall (nsb : Z) (events : list rotor_event), (1 <= nsb)%Z ->
  (Forall static events -> events <> [] -> exists l, rotor_loop nsb events = Ok (1%Z, l) /\ List.length l = List.length events) /\
  (Forall (fun e => ~ static e) events -> rotor_loop nsb events = Ok (nsb, map (fun e => (re_frequency e, re_angle e)) events)) /\
  (forall e, nsb <> 1%Z -> ~ static e -> Exists static events -> rotor_loop nsb (e :: events) = Err ValueError).
Proof.
  intros nsb events H. split; [|split].
  - intros F NE. destruct events as [|e l]; [congruence|]. inversion F; subst. exists (map rotor_of (e :: l)).
    rewrite rotor_static_first by auto. split; auto. rewrite map_length. auto.
  - intros F. rewrite rotor_all_spin by (auto; lia). do 2 f_equal. apply map_ext_in. intros e He. rewrite Forall_forall in F.
    unfold rotor_of. destruct (Qltb _ _) eqn:B; auto. apply static_b in B. exfalso. apply (F e He B).
  - intros e H1 S E. apply rotor_spin_first; auto. lia.
Qed.
Print Assumptions C30_rotor_frequencies_partial.
Definition ev (f : Q) : rotor_event := {| re_frequency := f; re_angle := 1 |}.
Example C30_example : rotor_loop 64 [ev 100; ev 200] = Ok (64%Z, [(100, 1); (200, 1)]) /\
  rotor_loop 64 [ev 100; ev 0] = Err ValueError /\ rotor_loop 64 [ev 0; ev 0] = Ok (1%Z, [(1000000000, 0); (1000000000, 0)]).
Proof. repeat split; vm_compute; reflexivity. Qed.

(** C30 fails: a static event first makes every later mixture accepted, and the spinning events are simulated with a single
    sideband. *)
Theorem C30_static_first_refuted :
  forall (nsb : Z) (e : rotor_event) (rest : list rotor_event), static e ->
  exists l, rotor_loop nsb (e :: rest) = Ok (1%Z, l).
Proof. intros nsb e rest S. eexists. apply rotor_static_first; auto. Qed.
Print Assumptions C30_static_first_refuted.
Example C30_static_first_example : rotor_loop 64 [ev 0; ev 10000] = Ok (1%Z, [(1000000000, 0); (10000, 1)]).
Proof. vm_compute. reflexivity. Qed.

(** C31. *)
Theorem C31_sideband_orders :
  forall (N : Z) (vr : Q), (1 <= N)%Z ->
  exists orders : list Z,
    vr_freq N vr = map (fun m => inject_Z m * vr) orders /\ List.length orders = Z.to_nat N /\ NoDup orders /\
    (forall m, In m orders <-> (- (N / 2) <= m <= (N + 1) / 2 - 1)%Z) /\
    (forall i, (Z.of_nat i < N)%Z -> nth i orders 0%Z = (if 2 * Z.of_nat i <? N then Z.of_nat i else Z.of_nat i - N)%Z).
Proof.
  intros N vr H. exists (fft_order N). split; [reflexivity|]. split; [apply fft_order_length; auto|]. split; [apply fft_order_nodup; auto|].
  split; [intros m; rewrite fft_order_in by auto; lia|]. intros i Hi. apply fft_order_nth; auto.
Qed.
Print Assumptions C31_sideband_orders.
Example C31_example : fft_order 5 = [0; 1; 2; -2; -1]%Z /\ fft_order 4 = [0; 1; -2; -1]%Z.
Proof. split; vm_compute; reflexivity. Qed.

(** C57.  [csdm_coordinates]: the coordinates of the dataset's dimension.  Positive increments: the same coordinates, for
    complex_fft dimensions and for the others when the count is even; negative increments (not complex_fft): the same
    coordinates in increasing order. *)
Theorem C57_dataset_axes_partial :
  forall c : csdm_dim, (0 < cd_count c)%Z ->
  (0 < cd_inc c -> cd_fft c = true \/ (cd_count c mod 2 = 0)%Z -> Forall2 Qeq (coordinates_Hz (get_spectral_dimension c)) (csdm_coordinates c)) /\
  (cd_inc c < 0 -> cd_fft c = false -> Forall2 Qeq (coordinates_Hz (get_spectral_dimension c)) (rev (csdm_coordinates c))).
Proof. intros c H. split; intros; [apply dataset_positive|apply dataset_negative]; auto. Qed.
Print Assumptions C57_dataset_axes_partial.

(** C57, axes of a simulation exported to CSDM and read back: the same dimensions in the same order; the exported coordinates are
    coordinates_Hz. *)
Theorem C57_export_roundtrip :
  forall l : list sdim, Forall valid_dim l ->
  Forall2 dim_eq (get_spectral_dimensions (to_csdm_dimensions l)) l /\
  Forall (fun d => Forall2 Qeq (csdm_coordinates (to_csdm_dimension d)) (coordinates_Hz d)) l.
Proof.
  intros l H. split; [apply dims_roundtrip; auto|]. eapply Forall_impl; [|exact H]. intros d V. apply csdm_export; auto.
Qed.
Print Assumptions C57_export_roundtrip.
Definition cdim (n : Z) (inc : Q) (fft : bool) : csdm_dim :=
  {| cd_count := n; cd_inc := inc; cd_ref := 5; cd_fft := fft; cd_label := None; cd_origin := None |}.
Example C57_example : csdm_coordinates (cdim 3 (-2) false) = [5; 3; 1] /\
  map Qred (coordinates_Hz (get_spectral_dimension (cdim 3 (-2) false))) = [1; 3; 5].
Proof. split; vm_compute; reflexivity. Qed.

(** C57 fails for an odd count without complex_fft (half an increment off) and for a negative increment with complex_fft. *)
Theorem C57_dataset_axes_refuted :
  (exists c, (0 < cd_count c)%Z /\ 0 < cd_inc c /\ cd_fft c = false /\
     ~ nth 0 (coordinates_Hz (get_spectral_dimension c)) 0 == nth 0 (csdm_coordinates c) 0) /\
  (exists c, (0 < cd_count c)%Z /\ cd_inc c < 0 /\ cd_fft c = true /\
     forall x, In x (csdm_coordinates c) -> ~ x == nth 0 (coordinates_Hz (get_spectral_dimension c)) 0).
Proof.
  split.
  - exists (cdim 3 2 false). repeat split; vm_compute; congruence.
  - exists (cdim 4 (-2) true). repeat split; try (vm_compute; congruence). intros x Hx. vm_compute in Hx.
    repeat (destruct Hx as [<-|Hx]; [vm_compute; congruence|]). contradiction.
Qed.
Print Assumptions C57_dataset_axes_refuted.

(** C63.  A spin 1/2 site with an isotropic shift only, a single-quantum (P = -1) transition, one sideband, any density and number of
    octants, any weights w: if the k-th coordinate is shift * B0 * |gamma| Hz, the whole signal is in bin k of the reported spectrum
    (the reversed one for a negative gyromagnetic ratio, where k = 0 is excluded). *)
Theorem C63_peak_at_shift_partial :
  forall (gamma B0 shift mi mf : Q) (d : sdim) (k : Z) (nt n_oct : nat) (vr w sb : nat -> Q) (out : writes),
  valid_dim d -> (sd_count d mod 2 = 0)%Z -> (0 <= k < sd_count d)%Z -> 0 <= B0 -> mf - mi == -1 -> (1 <= n_oct)%nat -> vr 0%nat == 0 ->
  0 < gamma \/ (gamma < 0 /\ k <> 0%Z) ->
  coordinate d k == shift * (B0 * Qabs gamma) ->
  averaging_1d nt n_oct 1 (position gamma d (isotropic_frequency gamma B0 shift mi mf)) vr (fun _ => 0)
    (norm_amplitudes 1 n_oct w) sb (sd_count d) = Some out ->
  let reported b := if Qlt_le_dec gamma 0 then flip_index (sd_count d) b else b in
  (forall b a, In (b, a) out -> reported b = k) /\
  deposit out (reported k) == qsum (map (vertex_sum w) (grid_tris nt)).
Proof.
  intros gamma B0 shift mi mf d k nt n_oct vr w sb out V Ev Hk HB P No Hv G C E reported. rewrite <- vertex_sums.
  assert (IS : isotropic_frequency gamma B0 shift mi mf == shift * (B0 * gamma)).
  { unfold isotropic_frequency. rewrite P. ring. }
  destruct G as [G|[G NZ]].
  - assert (O : position gamma d (isotropic_frequency gamma B0 shift mi mf) == zq k + half).
    { rewrite Qabs_pos in C by lra. apply position_inj; auto. rewrite IS, <- C, <- position_eq by auto.
      rewrite position_coordinate, (half_even _ Ev) by auto. ring. }
    destruct (peak_pattern nt n_oct _ vr w sb _ k out No Hk Hv O E) as [A B].
    unfold reported. destruct (Qlt_le_dec gamma 0); [lra|]. split; auto.
  - assert (FI : flip_index (sd_count d) k = (sd_count d - k)%Z).
    { unfold flip_index. rewrite Z.mod_opp_l_nz; rewrite ?Z.mod_small; lia. }
    assert (O : position gamma d (isotropic_frequency gamma B0 shift mi mf) == zq (sd_count d - k) + half).
    { rewrite Qabs_neg in C by lra. apply position_inj; auto.
      assert (IC : isotropic_frequency gamma B0 shift mi mf == - coordinate d k) by (rewrite IS, C; ring).
      rewrite IC, <- position_eq by auto. pose proof (position_coordinate_neg gamma d k V (Qlt_le_weak _ _ G) Hk) as PN. rewrite (half_even _ Ev) in PN. rewrite PN.
      unfold zq, Z.sub. rewrite inject_Z_plus, inject_Z_opp. ring. }
    destruct (peak_pattern nt n_oct _ vr w sb (sd_count d) (sd_count d - k)%Z out No ltac:(lia) Hv O E) as [A B].
    unfold reported. destruct (Qlt_le_dec gamma 0); [|lra]. rewrite FI. split; auto.
    intros b a Hin. rewrite (A b a Hin). unfold flip_index. rewrite Z.mod_opp_l_nz; rewrite ?Z.mod_small; lia.
Qed.
Print Assumptions C63_peak_at_shift_partial.
Example C63_example : exists out,
  averaging_1d 1 4 1 (position (-2) dim4 (isotropic_frequency (-2) 8 2 (1#2) (-1#2))) (fun _ => 0) (fun _ => 0)
    (norm_amplitudes 1 4 (fun _ => 1)) (fun _ => 0) 4 = Some out /\
  coordinate dim4 3 == 2 * (8 * Qabs (-2)) /\ deposit out 1 == 3.
Proof. eexists. split; [vm_compute; reflexivity|]. split; vm_compute; reflexivity. Qed.

(** C63, ppm axis, for a zero reference offset: the ppm coordinate of the k-th bin is the shift. *)
Theorem C63_ppm_axis_partial :
  forall (gamma B0 shift : Q) (d : sdim) (k : Z),
  valid_dim d -> (0 <= k < sd_count d)%Z -> ~ gamma == 0 -> 0 < B0 -> sd_ref d == 0 ->
  sd_origin d = Some (origin_offset gamma B0) ->
  coordinate d k == shift * (B0 * Qabs gamma) ->
  exists l, coordinates_ppm d = Some l /\ nth (Z.to_nat k) l 0 == shift.
Proof.
  intros gamma B0 shift d k V Hk G HB HR HO C. unfold coordinates_ppm. rewrite HO. eexists. split; [reflexivity|].
  unfold coordinate, no_coord in C. 
  set (f := fun x => x / Qabs ((sd_ref d + origin_offset gamma B0) / 1000000)).
  rewrite nth_indep with (d' := f 0) by (rewrite map_length, coordinates_length; lia). rewrite (map_nth f).
  unfold f. rewrite C.
  assert (A : 0 < Qabs gamma).
  { clear - G. apply Qabs_case; intros L; destruct (Qlt_le_dec gamma 0) as [M|M]; try lra.
    all: destruct (Qlt_le_dec 0 gamma) as [N|N]; [lra|]; exfalso; apply G; lra. }
  assert (D : Qabs ((sd_ref d + origin_offset gamma B0) / 1000000) == B0 * Qabs gamma).
  { unfold origin_offset. rewrite HR, !Qabs_Qmult, (Qabs_pos B0) by lra.
    setoid_replace ((0 + B0 * Qabs gamma * Qabs 1000000) / 1000000) with (B0 * Qabs gamma) by (rewrite (Qabs_pos 1000000) by lra; field).
    apply Qabs_pos. apply Qmult_le_0_compat; lra. }
  rewrite D. field. split; lra.
Qed.
Print Assumptions C63_ppm_axis_partial.
Example C63_ppm_example : let d := {| sd_count := 4; sd_width := 128; sd_ref := 0; sd_origin := Some (origin_offset (-2) 8) |} in
  valid_dim d /\ coordinate d 3 == 2 * (8 * Qabs (-2)) /\ option_map (fun l => Qred (nth 3 l 0)) (coordinates_ppm d) = Some 2.
Proof. repeat split; vm_compute; congruence. Qed.

(** C63 fails on the ppm axis with a reference offset: the coordinates are divided by the sum of the Larmor frequency and the
    reference offset. *)
Theorem C63_ppm_axis_refuted : exists (gamma B0 shift : Q) (d : sdim) (k : Z) (l : list Q),
  valid_dim d /\ (0 <= k < sd_count d)%Z /\ 0 < gamma /\ 0 < B0 /\ sd_origin d = Some (origin_offset gamma B0) /\
  coordinate d k == shift * (B0 * Qabs gamma) /\ coordinates_ppm d = Some l /\ ~ nth (Z.to_nat k) l 0 == shift.
Proof.
  exists 2, 8, 2, {| sd_count := 4; sd_width := 128; sd_ref := 32; sd_origin := Some (origin_offset 2 8) |}, 2%Z.
  eexists. repeat split; try (vm_compute; congruence).
Qed.
Print Assumptions C63_ppm_axis_refuted.
