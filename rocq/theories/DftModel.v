(** Model of the Fourier transforms: the sideband amplitudes of src/c_lib/lib/mrsimulator.c lines 241-352 (with fftw's
    forward transform, schemes.c lines 186-213) and the reversal of the spectrum in src/c_lib/base/base_model.pyx lines 494-503
    (numpy's fftn, ifftn).  Numbers are exact reals; the transforms are given by their defining sums. *)
From Coq Require Import Reals List ZArith Lra.
From Coquelicot Require Import Complex.
Import ListNotations.
Open Scope C_scope.

Definition cis (t : R) : C := (cos t, sin t).
Fixpoint csum (n : nat) (f : nat -> C) : C := match n with O => RtoC 0 | S m => csum m f + f m end.
Fixpoint rsum (n : nat) (f : nat -> R) : R := match n with O => 0%R | S m => (rsum m f + f m)%R end.

(** The transform along all the axes of an array of the given shape; [s] is -1 for numpy's fftn and 1 for ifftn (before its
    normalisation).  numpy transforms axis after axis; this is the same sum, last axis first. *)
Fixpoint dftn (s : R) (shape : list nat) (x : list nat -> C) (ks : list nat) : C :=
  match shape, ks with
  | n :: sh, k :: ks' => csum n (fun j => cis (s * (2 * PI) * (INR j * INR k) / INR n) * dftn s sh (fun js => x (j :: js)) ks')
  | _, _ => x []
  end.
Definition fftn := dftn (-1).
Fixpoint size (shape : list nat) : nat := match shape with [] => 1%nat | n :: sh => (n * size sh)%nat end.
Definition ifftn (shape : list nat) (x : list nat -> C) (ks : list nat) : C := RtoC (/ INR (size shape)) * dftn 1 shape x ks.

(** base_model.pyx lines 498 and 503: [np.fft.fftn(np.fft.ifftn(x).conj()).real] of a real array. *)
Definition reverse_spectrum (shape : list nat) (x : list nat -> R) (ks : list nat) : R :=
  fst (fftn shape (fun js => Cconj (ifftn shape (fun is => RtoC (x is)) js)) ks).

(** mrsimulator.c lines 330-341: fftw's unnormalised forward transform of one orientation's samples x over the rotor period and
    the absolute value square. *)
Definition fft1 (n : nat) (x : nat -> C) (k : nat) : C := csum n (fun j => cis (- (2 * PI) * (INR j * INR k) / INR n) * x j).
Definition abs2 (z : C) : R := (fst z * fst z + snd z * snd z)%R.
Definition sideband_intensity (n : nat) (x : nat -> C) (k : nat) : R := abs2 (fft1 n x k).

(** mrsimulator.c lines 82-87. *)
Definition norm_amplitude (nsb n_oct : nat) (w : R) : R := (w * (1 / INR (nsb * nsb * n_oct)))%R.

(** mrsimulator.c lines 716-737, [__get_components]: row m = -4..-1 (index mi = 0..3), column [step].  The phase is accumulated in
    a loop in the code; here it is the product. *)
Definition pre_phase (nsb : nat) (vr : R) (mi step : nat) : C :=
  let m_wr := ((INR mi - 4) * (vr * (2 * PI)))%R in
  let tau := (1 / (INR nsb * vr))%R in
  let pht := (INR step * (m_wr * tau))%R in
  let scale := (2 * (2 * PI) / m_wr)%R in
  ((scale * (cos pht - 1))%R, (scale * sin pht)%R).

(** mrsimulator.c lines 153-200 and 298-325: the phase of one orientation at one step: the imaginary part of
    sum_m pre_phase(m) * d^2_m0 * w2(m) over m = -2, -1 plus the same over m = -4..-1 for the fourth rank. *)
Definition sideband_phase (nsb : nat) (vr : R) (d2 d4 : nat -> R) (w2 w4 : nat -> C) (fourth : bool) (step : nat) : R :=
  snd (csum 2 (fun i => (RtoC (d2 i) * pre_phase nsb vr (i + 2) step) * w2 i)
       + (if fourth then csum 4 (fun i => (RtoC (d4 i) * pre_phase nsb vr i step) * w4 i) else RtoC 0))%C.

(** config.h lines 30-32 and vm.h lines 371-398, [vm_double_complex_exp_imag_only]: cosine and sine of a phase from tables of
    step [delta] = 1e-4 with linear interpolation (tables/trig.h).  [Int_part] is the C cast, on non-negative numbers. *)
Definition delta : R := (/ 10000)%R.
Definition table_size : Z := 62833.
Definition cos_table (i : Z) : R := if Z.eqb i (table_size - 1) then 1%R else cos (IZR i * delta).
Definition sin_table (i : Z) : R := if Z.eqb i (table_size - 1) then 0%R else sin (IZR i * delta).
Definition modd (x y : R) : R := (x - IZR (Int_part (x / y)) * y)%R.
Definition lerp (w v1 v2 : R) : R := ((1 - w) * v1 + w * v2)%R.
Definition rsign (x : R) : R := (if Rlt_dec 0 x then 1 else if Rlt_dec x 0 then -1 else 0)%R.
Definition table_index (y : R) : Z := Int_part (y / delta).
(** The value of the table based exponential, with the sign of the sine taken from [sgn]. *)
Definition table_exp (sgn y : R) : C :=
  let y := modd (Rabs y) (2 * PI) in
  let i := table_index y in
  let wt := (y / delta - IZR i)%R in
  (lerp wt (cos_table i) (cos_table (i + 1)%Z), (lerp wt (sin_table i) (sin_table (i + 1)%Z) * rsign sgn)%R).
(** Separate input and output arrays: the sign is that of the phase. *)
Definition exp_imag_only (phase : R) : C := table_exp phase phase.
(** Input and output the same array, as in the call of mrsimulator.c line 330, executing the C statements in order (the [restrict]
    qualifiers make this call undefined; a compiler may also keep the old value): line 388 overwrites the phase before line 389
    reads its sign. *)
Definition exp_imag_only_inplace (phase : R) : C :=
  let s := snd (table_exp 1 phase) in (fst (table_exp 1 phase), (s * rsign s)%R).
(** vm.h lines 284-308, [get_cos_sin_from_table]: the sign is that of |x| folded into the table (line 297 uses the overwritten x). *)
Definition cos_sin_from_table (x : R) : C := table_exp (modd (Rabs x) (2 * PI) / delta) x.
