(** Specification of the physics behind the frequencies: symmetric tensors in space and their rotations, the spin matrices of a spin
    n/2, and perturbation theory of the quadrupolar Hamiltonian in a strong field.  Nothing here refers to the model of the code. *)
From Coq Require Import Reals List ZArith.
From Coquelicot Require Import Complex.
From Verif Require Import DftModel.
Import ListNotations.
Open Scope R_scope.

(** ** Tensors in space *)
Inductive axis := X | Y | Z.
Definition asum (f : axis -> R) : R := f X + f Y + f Z.
(** A 3x3 tensor, by its elements. *)
Definition tensor3 := axis -> axis -> R.
Definition symmetric (T : tensor3) : Prop := forall i j, T i j = T j i.
Definition trace (T : tensor3) : R := asum (fun i => T i i).
(** Axes turned by an angle about z, and about y. *)
Definition about_z (a : R) : tensor3 := fun i j =>
  match i, j with
  | X, X => cos a | X, Y => sin a
  | Y, X => - sin a | Y, Y => cos a
  | Z, Z => 1 | _, _ => 0
  end.
Definition about_y (b : R) : tensor3 := fun i j =>
  match i, j with
  | X, X => cos b | X, Z => - sin b
  | Z, X => sin b | Z, Z => cos b
  | Y, Y => 1 | _, _ => 0
  end.
Definition product (A B : tensor3) : tensor3 := fun i j => asum (fun k => A i k * B k j).
(** The axes turned by the Euler angles alpha, beta, gamma (about z, y, z). *)
Definition euler_axes (a b g : R) : tensor3 := product (about_z g) (product (about_y b) (about_z a)).
(** The elements of a tensor T along new axes. *)
Definition along (A T : tensor3) : tensor3 := fun i j => asum (fun k => asum (fun l => A i k * T k l * A j l)).
(** The tensor with axes along the frame, element zeta along z and asymmetry eta (Haeberlen): the trace is zero and yy - xx = eta zeta. *)
Definition principal (zeta eta : R) : tensor3 := fun i j =>
  match i, j with
  | X, X => - (zeta * (1 + eta) / 2) | Y, Y => - (zeta * (1 - eta) / 2) | Z, Z => zeta | _, _ => 0
  end.
(** The direction at polar angle beta from z and azimuth alpha from x, and the element of a tensor along a direction. *)
Definition direction (alpha beta : R) (i : axis) : R :=
  match i with X => sin beta * cos alpha | Y => sin beta * sin alpha | Z => cos beta end.
Definition element (T : tensor3) (u : axis -> R) : R := asum (fun i => asum (fun j => u i * T i j * u j)).

(** The second rank spherical components of a tensor, from -2 to 2, in the unit in which component 0 is the element zz. *)
Definition spherical (T : tensor3) : list C :=
  [((T X X - T Y Y) / sqrt 6, - (2 * T X Y / sqrt 6)); (sqrt (2 / 3) * T X Z, - (sqrt (2 / 3) * T Y Z)); RtoC (T Z Z);
   (- (sqrt (2 / 3) * T X Z), - (sqrt (2 / 3) * T Y Z)); ((T X X - T Y Y) / sqrt 6, 2 * T X Y / sqrt 6)].

(** ** Spin n/2 *)
(** Operators as matrices; state a = 0 .. n has the quantum number m = a - n/2. *)
Definition operator := nat -> nat -> C.
Definition spin (n : nat) : R := INR n / 2.
Definition quantum (n a : nat) : R := INR a - spin n.
Definition raising (n : nat) : operator := fun a b =>
  if Nat.eqb a (S b) then RtoC (sqrt (spin n * (spin n + 1) - quantum n b * (quantum n b + 1))) else RtoC 0.
Definition lowering (n : nat) : operator := fun a b => raising n b a.
Definition spin_op (n : nat) (i : axis) : operator := fun a b =>
  match i with
  | X => RtoC (1 / 2) * (raising n a b + lowering n a b)
  | Y => (0, - (1 / 2))%R * (raising n a b - lowering n a b)
  | Z => if Nat.eqb a b then RtoC (quantum n a) else RtoC 0
  end%C.
Definition compose (n : nat) (A B : operator) : operator := fun a b => csum (S n) (fun c => A a c * B c b)%C.
(** A quadratic form in the spin: sum of T_ij I_i I_j. *)
Definition quadratic (n : nat) (T : tensor3) : operator := fun a b =>
  let term i j := (RtoC (T i j) * compose n (spin_op n i) (spin_op n j) a b)%C in
  (term X X + term X Y + term X Z + (term Y X + term Y Y + term Y Z) + (term Z X + term Z Y + term Z Z))%C.
(** The quadrupolar Hamiltonian (in units of frequency) of coupling constant Cq; V: the field gradient tensor divided by its largest
    principal value. *)
Definition H_quad (n : nat) (Cq : R) (V : tensor3) : operator := fun a b =>
  (RtoC (Cq / (2 * spin n * (2 * spin n - 1))) * quadratic n V a b)%C.

(** Rayleigh-Schroedinger perturbation theory on the levels nu0 m of the field: the first and second order energies of state a. *)
Definition energy1 (H : operator) (a : nat) : R := fst (H a a).
Definition energy2 (n : nat) (nu0 : R) (H : operator) (a : nat) : R :=
  rsum (S n) (fun b => if Nat.eqb b a then 0 else abs2 (H a b) / (nu0 * quantum n a - nu0 * quantum n b)).
