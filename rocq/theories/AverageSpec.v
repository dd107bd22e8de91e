(** What the powder average means: weighted sums over the triangles of the face of the octahedron, and the directions of the orientations. *)
From Coq Require Import Reals QArith Qreals List.
From Verif Require Import InterpModel InterpSpec PowderModel DftModel FreqModel FreqSpec PhysSpec.
Import ListNotations.
Open Scope R_scope.

(** The sum over the triangles of the face (C21). *)
Definition over_triangles (nt : nat) (g : tri -> R) : R := fold_right Rplus 0 (map g (grid_tris nt)).
(** The weight of a triangle: the sum of the scheme's weights at its vertices (C22).  The value: the mean over the vertices (C112). *)
Definition weight_of (nt : nat) (t : tri) : R := let '(a, b, c) := t in nth a (amplitudes nt) 0 + nth b (amplitudes nt) 0 + nth c (amplitudes nt) 0.
Definition mean_of (f : nat -> R) (t : tri) : R := let '(a, b, c) := t in (f a + f b + f c) / 3.
(** The weighted sum over octants and triangles of a quantity f given for every orientation; orientation p of octant j has the number j * npts + p. *)
Definition powder_sum (nt n_oct : nat) (f : nat -> R) : R :=
  rsum n_oct (fun j => over_triangles nt (fun t => weight_of nt t * mean_of (fun p => f (j * n_pts nt + p)%nat) t)).
(** The powder average. *)
Definition powder_average (nt n_oct : nat) (f : nat -> R) : R := powder_sum nt n_oct f / powder_sum nt n_oct (fun _ => 1).
(** The direction cosines of orientation p of the first octant. *)
Definition cosine (nt p : nat) (i : axis) : R :=
  let '(x2, y2, z2) := nth p (cosine_squares nt) (0, 0, 0)%Q in sqrt (Q2R (match i with X => x2 | Y => y2 | Z => z2 end)).
(** Polar angles of the orientations of the first octant, and the direction of orientation o of any octant. *)
Definition polar_angles (nt : nat) (alpha beta : nat -> R) : Prop := forall p i, (p < n_pts nt)%nat -> direction (alpha p) (beta p) i = cosine nt p i.
Definition towards (nt : nat) (alpha beta : nat -> R) (o : nat) : axis -> R := direction (orientation (n_pts nt) alpha o) (beta (o mod n_pts nt)%nat).
Definition diagonal (T : tensor3) : Prop := forall i j, i <> j -> T i j = 0.
(** Sites and couplings with their isotropic shifts and J only. *)
Definition isotropic_site (s : site) : site :=
  {| s_spin := s_spin s; s_gamma := s_gamma s; s_iso := s_iso s; s_zeta := 0; s_eta := s_eta s; s_theta := s_theta s; s_Cq := 0; s_qeta := s_qeta s; s_qtheta := s_qtheta s |}.
Definition isotropic_coupling (cp : coupling) : coupling :=
  {| c_A := c_A cp; c_X := c_X cp; c_J := c_J cp; c_zeta := 0; c_eta := c_eta cp; c_theta := c_theta cp; c_D := 0; c_dtheta := c_dtheta cp |}.
