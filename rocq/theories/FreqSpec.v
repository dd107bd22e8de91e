(** Specification of the frequency contributions, after the formulas in the comments of the C headers, and of the frequency of an
    event.  [f] holds the numerical constants (exact or as rounded in the sources). *)
From Coq Require Import Reals List ZArith.
From Coquelicot Require Import Complex.
From Verif Require Import DftModel WignerModel FreqModel.
Import ListNotations.
Open Scope R_scope.

(** Sum and opposite of components. *)
Definition cadd (a b : comps) : comps := {| r0 := r0 a + r0 b; r2 := vadd (r2 a) (r2 b); r4 := vadd (r4 a) (r4 b) |}.
Definition total (l : list comps) : comps := fold_right cadd zero_comps l.
Definition cneg (c : comps) : comps := {| r0 := - r0 c; r2 := map Copp (r2 c); r4 := map Copp (r4 c) |}.

(** A tensor given in its principal axes, turned by its Euler angles to the common frame. *)
Definition turn (l : nat) (th : euler) (v : list C) : list C := let '(a, b, g) := th in single_wigner_rotation decimal l a b g v.
(** Rank 0, 2, 4 contributions alone. *)
Definition only0 (x : R) : comps := {| r0 := x; r2 := vzero 5; r4 := vzero 9 |}.
Definition only2 (v : list C) : comps := {| r0 := 0; r2 := v; r4 := vzero 9 |}.
Definition only4 (v : list C) : comps := {| r0 := 0; r2 := vzero 5; r4 := v |}.

(** The transition from m to m' of a spin I: p, d, f and the combinations c0, c2, c4 of the second order. *)
Definition tf_p (m m' : R) : R := m' - m.
Definition tf_d (f : fconst) (m m' : R) : R := f_d f * (m' ^ 2 - m ^ 2).
Definition tf_f (f : fconst) (I m m' : R) : R := f_f f * (5 * (m' ^ 3 - m ^ 3) + (1 - 3 * (I * (I + 1))) * (m' - m)).
Definition tf_c (a b : R) (f : fconst) (I m m' : R) : R := a * (I * (I + 1) - 3 / 4) * tf_p m m' + b * tf_f f I m m'.

(** One contribution of one site in the field B0. *)
Definition contribution (f : fconst) (B0 : R) (s : site) (m m' : R) (c : contrib) : comps :=
  let I := s_spin s in
  let larmor_MHz := - (B0 * s_gamma s) in
  let nuq := 3 * s_Cq s / (2 * I * (2 * I - 1)) in
  let k := nuq ^ 2 / (larmor_MHz * 1000000) in
  let eta := s_eta s in let etaq := s_qeta s in
  match c with
  | Shielding1_0 => only0 (larmor_MHz * s_iso s * tf_p m m')
  | Shielding1_2 => let z := larmor_MHz * s_zeta s in
      only2 (vscale (tf_p m m') (turn 2 (s_theta s) (pas2 (s6 f * eta * z) (- z))))
  | Quad1_2 => only2 (vscale (tf_d f m m') (turn 2 (s_qtheta s) (pas2 (- (i6 f * etaq * nuq)) (s6 f * nuq))))
  | Quad2_0 => only0 (k * q00 f * (etaq ^ 2 * i3 f + 1) * tf_c (c0p f) (c0f f) f I m m')
  | Quad2_2 => only2 (vscale (tf_c (c2p f) (c2f f) f I m m')
                        (turn 2 (s_qtheta s) (pas2 (- (k * q22 f * etaq)) (k * q20 f * (etaq ^ 2 * i3 f - 1)))))
  | Quad2_4 => only4 (vscale (tf_c (c4p f) (c4f f) f I m m')
                        (turn 4 (s_qtheta s) (pas4 (k * q44 f * etaq ^ 2) (- (k * q42 f * etaq)) (k * q40 f * (etaq ^ 2 * i18 f + 1)))))
  end.
(** Which contributions exist for a site: quadrupolar ones for spins other than 1/2, the second order ones when it is switched on. *)
Definition exists_forb (fourth : bool) (s : site) (c : contrib) : bool :=
  match c with
  | Shielding1_0 | Shielding1_2 => true
  | Quad1_2 => if Req_EM_T (s_spin s) (1 / 2) then false else true
  | Quad2_0 | Quad2_2 | Quad2_4 => if Req_EM_T (s_spin s) (1 / 2) then false else fourth
  end.
Definition existing (fourth : bool) (s : site) : list contrib := filter (exists_forb fourth s) freq_list_all.
(** Number of contributions that exist, over the sites that change their quantum number. *)
Fixpoint flags_needed (fourth : bool) (sites : list site) (mi mf : list R) : nat :=
  match sites with
  | [] => O
  | s :: rest => ((if Req_EM_T (hd 0%R mi) (hd 0%R mf) then O else length (existing fourth s)) + flags_needed fourth rest (tl mi) (tl mf))%nat
  end.
(** The contributions of one site that are listed and exist. *)
Definition site_total (f : fconst) (fourth : bool) (B0 : R) (listed : list contrib) (s : site) (m m' : R) : comps :=
  total (map (contribution f B0 s m m') (filter (fun c => existsb (contrib_eqb c) listed && exists_forb fourth s c)%bool freq_list_all)).
(** All the sites; mi, mf: the quantum numbers of the sites before and after. *)
Definition sites_total (f : fconst) (fourth : bool) (B0 : R) (listed : list contrib) (sites : list site) (mi mf : list R) : comps :=
  total (map (fun i => site_total f fourth B0 listed (nth i sites {| s_spin := 1 / 2; s_gamma := 0; s_iso := 0; s_zeta := 0; s_eta := 0; s_theta := (0, 0, 0);
                                                                     s_Cq := 0; s_qeta := 0; s_qtheta := (0, 0, 0) |}) (nth i mi 0) (nth i mf 0)) (seq 0 (length sites))).
(** J and dipolar coupling of two sites. *)
Definition coupling_total (f : fconst) (cp : coupling) (mi mf : list R) : comps :=
  let dIS := nth (c_A cp) mf 0 * nth (c_X cp) mf 0 - nth (c_A cp) mi 0 * nth (c_X cp) mi 0 in
  total [only0 (c_J cp * dIS); only2 (vscale dIS (turn 2 (c_theta cp) (pas2 (- (s6 f * c_eta cp * c_zeta cp)) (c_zeta cp))));
         only2 (vscale dIS (turn 2 (c_dtheta cp) (pas2 0 (2 * c_D cp))))].
Definition couplings_total (f : fconst) (couplings : list coupling) (mi mf : list R) : comps :=
  total (map (fun cp => coupling_total f cp mi mf) couplings).

(** At most one site changes its quantum number. *)
Definition one_site_flips (mi mf : list R) : Prop :=
  forall i j, (i < length mi)%nat -> (j < length mi)%nat -> nth i mi 0 <> nth i mf 0 -> nth j mi 0 <> nth j mf 0 -> i = j.

(** Legendre polynomials, and the frequency of an event: of the components in the rotor frame of an orientation (alpha, beta) only
    m = 0 survives, scaled by the Legendre polynomial of the rotor angle. *)
Definition P2 (x : R) : R := (3 * x ^ 2 - 1) / 2.
Definition P4 (x : R) : R := (35 * x ^ 4 - 30 * x ^ 2 + 3) / 8.
Definition isotropic (c : comps) : R := r0 c.
Definition anisotropic (fourth : bool) (c : comps) (alpha : R) (e_beta : C) (rotor_angle : R) : R :=
  P2 (cos rotor_angle) * fst (nth 2 (rotation decimal 2 alpha e_beta 0 (r2 c)) (RtoC 0)) +
  (if fourth then P4 (cos rotor_angle) * fst (nth 4 (rotation decimal 4 alpha e_beta 0 (r4 c)) (RtoC 0)) else 0).

(** Number of events in the dimensions before dimension d: event e of dimension d is number [first_event dims d + e] of the method. *)
Definition first_event (dims : list dimension) (d : nat) : nat := fold_right plus 0%nat (map (fun d => length (dm_events d)) (firstn d dims)).
Definition nth_dim (dims : list dimension) (d : nat) : dimension := nth d dims {| dm_increment := 1; dm_events := [] |}.
Definition nth_event (d : dimension) (e : nat) : event := nth e (dm_events d) {| ev_fraction := 0; ev_B0 := 0; ev_vr := 0; ev_angle := 0 |}.
(** The orientation o of the powder average is (alpha, beta) of its place in the octant, turned back by a quarter per octant. *)
Definition orientation (npts : nat) (alpha : nat -> R) (o : nat) : R := alpha (o mod npts)%nat - INR (o / npts) * (PI / 2).
(** The frequencies of a dimension in units of its increment: the events' frequencies weighted by their fractions.  [cs e]: the
    components of event e of the dimension. *)
Definition dim_offset (d : dimension) (cs : nat -> comps) : R :=
  rsum (length (dm_events d)) (fun e => ev_fraction (nth_event d e) * isotropic (cs e) / dm_increment d).
Definition dim_local (fourth : bool) (d : dimension) (cs : nat -> comps) (alpha : R) (e_beta : C) : R :=
  rsum (length (dm_events d)) (fun e => ev_fraction (nth_event d e) * anisotropic fourth (cs e) alpha e_beta (ev_angle (nth_event d e)) / dm_increment d).
(** The events of a dimension differ from its first event in at most one of rotor frequency and rotor angle. *)
Definition compatible (d : dimension) : Prop :=
  forall e, (e < length (dm_events d))%nat -> ev_vr (nth_event d e) = ev_vr (nth_event d 0) \/ ev_angle (nth_event d e) = ev_angle (nth_event d 0).
(** The part of the frequency that changes during the rotation of the sample, at time t: the components m <> 0 turn with the rotor.
    [d j]: the element of the reduced rotation matrix to the lab frame. *)
Definition modulation (l : nat) (d : nat -> R) (w : list C) (vr t : R) : R :=
  rsum (2 * l + 1) (fun j => if Nat.eqb j l then 0 else d j * fst (nth j w (RtoC 0) * cis ((INR j - INR l) * (vr * (2 * PI)) * t))%C).
