(** What the properties C50, C51, C74 and C75 say, independent of the code. *)
From Coq Require Import Reals List.
From Verif Require Import TensorModel.
Import ListNotations.
Open Scope R_scope.

(** Determinant of a 3x3 matrix. *)
Definition det (t : mat) : R :=
  m00 t * (m11 t * m22 t - m12 t * m21 t)
  - m01 t * (m10 t * m22 t - m12 t * m20 t)
  + m02 t * (m10 t * m21 t - m11 t * m20 t).

(** The matrix [l * identity - t]; its determinant vanishes at the eigenvalues. *)
Definition shifted (l : R) (t : mat) : mat :=
  Mat (l - m00 t) (- m01 t) (- m02 t)
      (- m10 t) (l - m11 t) (- m12 t)
      (- m20 t) (- m21 t) (l - m22 t).

(** [(a, b, c)] are the eigenvalues of [t], with multiplicity. *)
Definition eigenvalues (t : mat) (e : R * R * R) : Prop :=
  let '(a, b, c) := e in forall l, det (shifted l t) = (l - a) * (l - b) * (l - c).

(** What numpy documents for eigvalsh: the eigenvalues, in ascending order. *)
Definition ascending_eigenvalues (eigvalsh : mat -> R * R * R) (t : mat) : Prop :=
  eigenvalues t (eigvalsh t) /\ (let '(a, b, c) := eigvalsh t in a <= b <= c).

Definition symmetric (t : mat) : Prop := m01 t = m10 t /\ m02 t = m20 t /\ m12 t = m21 t.
Definition traceless (t : mat) : Prop := m00 t + m11 t + m22 t = 0.
Definition zero_mat : mat := Mat 0 0 0 0 0 0 0 0 0.
Definition diagonal (v : R * R * R) : mat :=
  let '(x, y, z) := v in Mat x 0 0 0 y 0 0 0 z.

(** The Haeberlen convention: [zz] is the principal component of largest
    magnitude and equals zeta, the other two are [xx] and [yy] with
    [eta = (yy - xx) / zz] and [|yy| <= |xx|]. *)
Definition haeberlen_convention (t : mat) (zeta eta : R) : Prop :=
  exists xx yy, eigenvalues t (xx, yy, zeta) /\
    Rabs yy <= Rabs xx <= Rabs zeta /\ eta * zeta = yy - xx.

(** The random tensor of the Czjzek model as the documentation writes it,
    with U = sigma * (five standard normal numbers). *)
Definition documented_tensor (sigma : R) (d : draw) : mat :=
  let U1 := sigma * n1 d in let U2 := sigma * n2 d in let U3 := sigma * n3 d in
  let U4 := sigma * n4 d in let U5 := sigma * n5 d in
  Mat (sqrt 3 * U5 - U1) (sqrt 3 * U4) (sqrt 3 * U2)
      (sqrt 3 * U4) (- (sqrt 3 * U5) - U1) (sqrt 3 * U3)
      (sqrt 3 * U2) (sqrt 3 * U3) (2 * U1).

Definition mat_add (a b : mat) : mat :=
  Mat (m00 a + m00 b) (m01 a + m01 b) (m02 a + m02 b)
      (m10 a + m10 b) (m11 a + m11 b) (m12 a + m12 b)
      (m20 a + m20 b) (m21 a + m21 b) (m22 a + m22 b).
Definition mat_scale (r : R) (a : mat) : mat :=
  Mat (r * m00 a) (r * m01 a) (r * m02 a)
      (r * m10 a) (r * m11 a) (r * m12 a)
      (r * m20 a) (r * m21 a) (r * m22 a).

(** Frobenius norm of the tensor with Haeberlen parameters zeta and eta. *)
Definition tensor_norm (zeta eta : R) : R := Rabs zeta * sqrt ((3 + eta * eta) / 2).

(** The tensor of the extended model: the dominant tensor in its principal axes
    plus a random tensor of relative size eps. *)
Definition perturbed (zeta eta eps : R) (d : draw) : mat :=
  mat_add (diagonal (- zeta * (1 + eta) / 2, - zeta * (1 - eta) / 2, zeta))
          (mat_scale (eps * tensor_norm zeta eta / sqrt 30) (documented_tensor 1 d)).

(** Sum of the entries of a table of numbers. *)
Definition sum (l : list R) : R := fold_right Rplus 0 l.
Definition table_sum (t : list (list R)) : R := sum (map sum t).

(** A uniform grid of [n] points. *)
Definition uniform (p0 step : R) (n : nat) : list R := map (fun k => p0 + INR k * step) (seq 0 n).

(** [v] is in the cell of the grid point [p]: within half a step, the right end
    belonging to the next cell. *)
Definition in_cell (p step v : R) : Prop := p - step / 2 <= v < p + step / 2.
