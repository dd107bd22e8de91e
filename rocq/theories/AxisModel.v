(** Model of the frequency axes: src/mrsimulator/method/spectral_dimension.py, src/mrsimulator/utils/__init__.py lines 7-45,
    src/c_lib/base/base_model.pyx lines 50-205, src/c_lib/lib/method.c lines 84-87, src/c_lib/include/vm_common.h lines 96-117,
    and of the two dimensional averaging of src/c_lib/lib/frequency_averaging.c lines 108-230.
    Numbers are exact rationals. *)
From Coq Require Import ZArith QArith Qabs Bool List.
From Verif Require Import Base InterpModel.
Import ListNotations.
Open Scope Q_scope.

(** ** spectral_dimension.py *)
(** Fields of SpectralDimension, lines 53-55; pydantic enforces count > 0 and spectral_width > 0 ([valid_dim] in AxisSpec).
    Label, description and events are left out here. *)
Record sdim := { sd_count : Z; sd_width : Q; sd_ref : Q; sd_origin : option Q }.

(** [coordinates_Hz], lines 99-112.  [int(n / 2)] is Python's int of a float, a truncation. *)
Definition coordinates_Hz (d : sdim) : list Q :=
  let n := sd_count d in
  let Tk := trunc (zq n / 2) in
  let increment := sd_width d / zq (sd_count d) in
  map (fun k => (zq k - zq Tk) * increment + sd_ref d) (zrange 0 n).

(** [coordinates_ppm], lines 114-134; None (with a warning) without an origin offset. *)
Definition coordinates_ppm (d : sdim) : option (list Q) :=
  match sd_origin d with
  | None => None
  | Some o => let denominator := (sd_ref d + o) / 1000000 in Some (map (fun x => x / Qabs denominator) (coordinates_Hz d))
  end.

(** ** base_model.pyx *)
(** Lines 55-60 and 144-152: the coordinate offset handed to the C library and the increment.  [gamma] is the gyromagnetic
    ratio in MHz/T of the first channel. *)
Definition axis_factor (gamma : Q) : Q := if Qltb 0 gamma then -1 else 1.
Definition coordinates_offset (gamma : Q) (d : sdim) : Q := - sd_ref d * axis_factor gamma - sd_width d / 2.
Definition increment (d : sdim) : Q := sd_width d / zq (sd_count d).
(** method.c lines 84-86. *)
Definition inverse_increment (d : sdim) : Q := 1 / increment d.
Definition normalize_offset (gamma : Q) (d : sdim) : Q := half - coordinates_offset gamma d * inverse_increment d.
(** mrsimulator.c lines 423-441 and frequency_averaging.c lines 59, 81: the position handed to the interpolation, in units of
    bins, of a frequency in Hz. *)
Definition position (gamma : Q) (d : sdim) (f : Q) : Q := normalize_offset gamma d + f * inverse_increment d.

(** Line 153: origin offset written back to the dimension, from the field of the first event of the method. *)
Definition origin_offset (gamma B0 : Q) : Q := Qabs (B0 * gamma * 1000000).

(** mrsimulator.c lines 475-482 and frequency/... first order isotropic shift (see FreqModel): the Larmor frequency in MHz is [-B0 * gamma], and the isotropic frequency is shift * larmor * (mf - mi). *)
Definition isotropic_frequency (gamma B0 shift mi mf : Q) : Q := shift * (- B0 * gamma) * (mf - mi).

(** Lines 494-503, [np.fft.fftn(np.fft.ifftn(x).conj()).real]: the index -k mod n along every axis (proved of the discrete
    Fourier transform in DftProofs), on multi-indexes. *)
Definition flip_index (n : Z) (k : Z) : Z := ((- k) mod n)%Z.

(** ** Rotor frequencies and sidebands, base_model.pyx lines 117-143 *)
Record rotor_event := { re_frequency : Q; re_angle : Q }.
(** The loop variables: number_of_sidebands, prev_n_sidebands and the lists vr, th built so far. *)
Definition rotor_step (e : rotor_event) (st : Z * Z * list (Q * Q)) : pyres (Z * Z * list (Q * Q)) :=
  let '(nsb, prev, acc) := st in
  let '(vr, th, nsb, prev) :=
    if Qltb (re_frequency e) (1 # 1000)
    then (1000000000, 0, 1%Z, if (prev =? 0)%Z then 1%Z else prev)
    else (re_frequency e, re_angle e, nsb, if (prev =? 0)%Z then nsb else prev) in
  if negb (prev =? nsb)%Z then Err ValueError else Ok (nsb, prev, acc ++ [(vr, th)]).
(** Events of all the dimensions in order; the result is the sideband count used for the whole method and the rotor frequency
    and angle of every event. *)
Definition rotor_loop (number_of_sidebands : Z) (events : list rotor_event) : pyres (Z * list (Q * Q)) :=
  let* st := for_each events rotor_step (number_of_sidebands, 0%Z, []) in
  let '(nsb, _, acc) := st in Ok (nsb, acc).

(** ** vm_common.h lines 96-117, [__get_frequency_in_FFT_order]: int arithmetic, division truncates toward zero *)
Definition fft_order (n : Z) : list Z :=
  let '(neg, pos) := if (Z.rem n 2 =? 0)%Z then let m := Z.quot (- n) 2 in (m, (- m - 1)%Z)
                     else let m := Z.quot (- (n - 1)) 2 in (m, (- m)%Z) in
  zrange 0 (pos + 1) ++ zrange neg 0.
Definition vr_freq (n : Z) (vr : Q) : list Q := map (fun m => zq m * vr) (fft_order n).

(** ** Affine transformation *)
(** base_model.pyx lines 183-192, for a method with two dimensions of increments i0, i1: the four numbers handed to the C library.
    Without a matrix the identity. *)
Definition affine_c (matrix : option (Q * Q * Q * Q)) (i0 i1 : Q) : Q * Q * Q * Q :=
  match matrix with
  | None => (1, 0, 0, 1)
  | Some (m0, m1, m2, m3) =>
      let a0 := m0 * (i0 / i0) in let a1 := m1 * (i1 / i0) in
      let a2 := m2 * (i0 / i1) in let a3 := m3 * (i1 / i1) in
      if negb (Qeq_bool a2 0) then let a2 := a2 / a0 in let a3 := a3 - a1 * a2 in (a0, a1, a2, a3) else (a0, a1, a2, a3)
  end.

(** frequency_averaging.c lines 130-149: in-place update of the local frequencies of one orientation. *)
Definition affine_local (a : Q * Q * Q * Q) (f0 f1 : Q) : Q * Q :=
  let '(a0, a1, a2, a3) := a in
  let f0 := if negb (Qeq_bool a0 1) then a0 * f0 else f0 in
  let f0 := if negb (Qeq_bool a1 0) then a1 * f1 + f0 else f0 in
  let f1 := if negb (Qeq_bool a3 1) then a3 * f1 else f1 in
  let f1 := if negb (Qeq_bool a2 0) then a2 * f0 + f1 else f1 in
  (f0, f1).

(** frequency_averaging.c lines 179-196: the offsets of a pair of sidebands. *)
Definition affine_offsets (a : Q * Q * Q * Q) (offA offB n0 n1 : Q) : Q * Q :=
  let '(a0, a1, a2, a3) := a in
  let norm0 := offA * a0 in
  let norm0 := norm0 + a1 * offB in
  let norm1 := offB * a3 in
  let norm1 := norm1 + a2 * norm0 in
  (norm0 + n0, norm1 + n1).

(** frequency_averaging.c lines 108-230, as the list of calls of the two dimensional interpolation: the positions along both
    dimensions and the amplitudes of the orientations of one octant.  [R0], [R1]: R0_offset of the dimensions; [vrA i]:
    vr_freq[i] of the last event of dimension 0 in Hz, likewise [vrB]; [freq0], [freq1]: local frequencies in units of bins;
    [ampA], [ampB]: products of the event amplitudes (lines 155-168), flat arrays over sidebands and orientations;
    [norm]: planA->norm_amplitudes.  The C code multiplies total_orientations amplitudes starting at each octant's address
    (line 214) and uses the first octant_orientations of them; only those are modelled. *)
Record call2d := { c_f0 : nat -> Q; c_f1 : nat -> Q; c_amp : nat -> Q }.
Definition in_range (x : Q) (count : Z) : bool := (0 <=? trunc x)%Z && (trunc x <=? count)%Z.
Definition averaging_2d (a : Q * Q * Q * Q) (gamma : Q) (d0 d1 : sdim) (npts n_oct nsb : nat) (R0 R1 : Q)
    (vrA vrB : nat -> Q) (freq0 freq1 ampA ampB norm : nat -> Q) : list (nat * nat * nat * call2d) :=
  flat_map (fun i =>
    let offA := R0 + vrA i * inverse_increment d0 in
    flat_map (fun k =>
      let offB := R1 + vrB k * inverse_increment d1 in
      let '(norm0, norm1) := affine_offsets a offA offB (normalize_offset gamma d0) (normalize_offset gamma d1) in
      if in_range norm0 (sd_count d0) && in_range norm1 (sd_count d1) then
        map (fun j => (i, k, j,
          {| c_f0 := fun p => fst (affine_local a (freq0 (j * npts + p)%nat) (freq1 (j * npts + p)%nat)) + norm0;
             c_f1 := fun p => snd (affine_local a (freq0 (j * npts + p)%nat) (freq1 (j * npts + p)%nat)) + norm1;
             c_amp := fun p => ampA (i * (n_oct * npts) + j * npts + p)%nat *
                               (ampB (k * (n_oct * npts) + j * npts + p)%nat * norm p) |})) (seq 0 n_oct)
      else []) (seq 0 nsb)) (seq 0 nsb).

(** ** utils/__init__.py, [get_spectral_dimensions], lines 7-45 *)
(** A linear CSDM dimension: count, increment, coordinates offset in Hz, complex_fft, label, origin offset (None for the values
    "", None and 0 that the code skips). *)
Record csdm_dim := { cd_count : Z; cd_inc : Q; cd_ref : Q; cd_fft : bool; cd_label : option unit; cd_origin : option Q }.
Definition get_spectral_dimension (c : csdm_dim) : sdim :=
  let sw := zq (cd_count c) * cd_inc c in
  let co := if cd_fft c then cd_ref c else cd_ref c + sw / 2 in
  let '(sw, co) := if Qltb sw 0 then (- sw, cd_ref c + cd_inc c * zq ((cd_count c + 1) / 2 - 1)) else (sw, co) in
  {| sd_count := cd_count c; sd_width := sw; sd_ref := co; sd_origin := cd_origin c |}.
Definition get_spectral_dimensions (l : list csdm_dim) : list sdim := rev (map get_spectral_dimension l).

(** spectral_dimension.py lines 136-152, [to_csdm_dimension]; simulator/__init__.py lines 561-590 reverse the order of the
    dimensions. *)
Definition to_csdm_dimension (d : sdim) : csdm_dim :=
  {| cd_count := sd_count d; cd_inc := sd_width d / zq (sd_count d); cd_ref := sd_ref d; cd_fft := true; cd_label := None;
     cd_origin := sd_origin d |}.
Definition to_csdm_dimensions (l : list sdim) : list csdm_dim := rev (map to_csdm_dimension l).
