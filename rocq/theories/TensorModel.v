(** Random tensor distributions and the Haeberlen parameters.
    Models src/mrsimulator/models/utils.py and src/mrsimulator/models/czjzek.py.
    Arrays of N tensors are lists; the numbers drawn by [np.random.normal] are an
    input of the model, and [np.linalg.eigvalsh] is a parameter [eigvalsh] that
    returns three numbers.  Real arithmetic is exact; a quotient by zero is a NaN,
    written [None]. *)
From Coq Require Import Reals List ZArith.
From Verif Require Import Base.
Import ListNotations.
Open Scope R_scope.

(** A 3x3 array, by rows. *)
Record mat := Mat { m00 : R; m01 : R; m02 : R;
                    m10 : R; m11 : R; m12 : R;
                    m20 : R; m21 : R; m22 : R }.

(** models/utils.py 8-21, [get_principal_components]. *)
Definition get_principal_components (zeta eta : R) : R * R * R :=
  let xx := -0.5 * zeta * (eta + 1) in
  let yy := 0.5 * zeta * (eta - 1) in
  let zz := zeta in
  (xx, yy, zz).

(** Insertion of [x] after every entry whose magnitude does not exceed its own. *)
Fixpoint insert_abs (x : R) (l : list R) : list R :=
  match l with
  | [] => [x]
  | y :: r => if Rlt_dec (Rabs x) (Rabs y) then x :: l else y :: insert_abs x r
  end.

(** models/utils.py 33-35: [argsort(abs(eig_val), kind="mergesort")] followed by
    indexing is the stable sort by magnitude; here by insertion from the left. *)
Definition sort_abs (l : list R) : list R := fold_left (fun acc x => insert_abs x acc) l [].

(** models/utils.py 41: [(a - b) / zeta], a NaN when [zeta] is zero (the three
    eigenvalues are then all zero). *)
Definition divide (x y : R) : option R := if Req_EM_T y 0 then None else Some (x / y).

Section Distributions.
Variable eigvalsh : mat -> R * R * R.

(** models/utils.py 24-43, [get_Haeberlen_components], one tensor.
    The list pattern always has three entries. *)
Definition haeberlen (t : mat) : R * option R :=
  let '(a, b, c) := eigvalsh t in
  match sort_abs [a; b; c] with
  | [e0; e1; e2] => (e2, divide (e0 - e1) e2)
  | _ => (0, None)
  end.
Definition get_Haeberlen_components (ts : list mat) : list (R * option R) := map haeberlen ts.

(** The five numbers drawn for one tensor, czjzek.py 45-51: the first from the
    normal distribution of width sigma and the others from that of width
    sqrt(3) sigma.  [n1 .. n5] are drawn with unit width. *)
Record draw := Draw { n1 : R; n2 : R; n3 : R; n4 : R; n5 : R }.

(** models/czjzek.py 13-68, [_czjzek_random_distribution_tensors], one tensor. *)
Definition czjzek_tensor (sigma : R) (d : draw) : mat :=
  let U1 := sigma * n1 d in
  let sqrt_3_sigma := sqrt 3 * sigma in
  let sqrt_3_U2 := sqrt_3_sigma * n2 d in
  let sqrt_3_U3 := sqrt_3_sigma * n3 d in
  let sqrt_3_U4 := sqrt_3_sigma * n4 d in
  let sqrt_3_U5 := sqrt_3_sigma * n5 d in
  Mat (sqrt_3_U5 - U1) sqrt_3_U4 sqrt_3_U2
      sqrt_3_U4 (- sqrt_3_U5 - U1) sqrt_3_U3
      sqrt_3_U2 sqrt_3_U3 (2 * U1).

(** models/czjzek.py 145-160, [CzjzekDistribution.rvs] with [polar] false. *)
Definition czjzek_rvs (sigma : R) (ds : list draw) : list (R * option R) :=
  get_Haeberlen_components (map (czjzek_tensor sigma) ds).

(** The attributes of the [SymmetricTensor] used by the extended model. *)
Record sym_tensor := SymTensor { st_zeta : option R; st_Cq : option R; st_eta : option R }.

(** Python's [a or b] on optional numbers, and [a != 0]. *)
Definition py_or (a b : option R) : option R :=
  match a with
  | None => b
  | Some x => if Req_EM_T x 0 then b else a
  end.
Definition not_zero (a : option R) : bool :=
  match a with
  | None => true
  | Some x => if Req_EM_T x 0 then false else true
  end.

(** [np.linalg.norm] of a triple. *)
Definition norm3 (v : R * R * R) : R := let '(x, y, z) := v in sqrt (x * x + y * y + z * z).

(** [np.diag(T0) + rho * tensors], czjzek.py 249, one tensor. *)
Definition add_diag (v : R * R * R) (rho : R) (t : mat) : mat :=
  let '(x, y, z) := v in
  Mat (x + rho * m00 t) (rho * m01 t) (rho * m02 t)
      (rho * m10 t) (y + rho * m11 t) (rho * m12 t)
      (rho * m20 t) (rho * m21 t) (z + rho * m22 t).

(** models/czjzek.py 234-240: the principal components of the dominant tensor.
    A missing value in the arithmetic is a TypeError. *)
Definition dominant (st : sym_tensor) : pyres (R * R * R) :=
  let zeta := py_or (st_zeta st) (st_Cq st) in
  let eta := st_eta st in
  if andb (not_zero zeta) (not_zero eta)
  then match zeta, eta with
       | Some z, Some e => Ok (get_principal_components z e)
       | _, _ => Err TypeError
       end
  else Ok (0, 0, 0).

(** models/czjzek.py 211-252, [ExtCzjzekDistribution.rvs] with [polar] false. *)
Definition ext_tensor (eps : R) (T0 : R * R * R) (d : draw) : mat :=
  let rho := eps * norm3 T0 / sqrt 30 in
  add_diag T0 rho (czjzek_tensor 1 d).
Definition ext_rvs (eps : R) (st : sym_tensor) (ds : list draw) : pyres (list (R * option R)) :=
  let* T0 := dominant st in
  Ok (get_Haeberlen_components (map (ext_tensor eps T0) ds)).
End Distributions.

(** models/utils.py 46-65, [x_y_from_zeta_eta], one point. *)
Definition x_y_from_zeta_eta (zeta eta : R) : R * R :=
  let t := tan (0.7853981634 * eta) in
  if Rle_dec 0 zeta then
    let y := sqrt (zeta * zeta / (t * t + 1)) in (t * y, y)
  else
    let x := sqrt (zeta * zeta / (t * t + 1)) in (x, t * x).

(** models/utils.py 68-81, [x_y_to_zeta_eta], one point. *)
Definition x_y_to_zeta_eta (x y : R) : R * R :=
  let x := Rabs x in
  let y := Rabs y in
  let zeta := sqrt (x * x + y * y) in
  if Rlt_dec y x then (- zeta, 4 / PI * atan (y / x))
  else if Rlt_dec x y then (zeta, 4 / PI * atan (x / y))
  else (zeta, 1).

(** [np.histogram2d(..., bins=n, range=[lo, hi])], one axis: edge [k] of [n] bins,
    and whether a value falls in bin [k].  Bins are half open except the last. *)
Definition edge (lo hi : R) (n k : nat) : R := lo + INR k * (hi - lo) / INR n.
Definition in_bin (lo hi : R) (n k : nat) (v : R) : bool :=
  if Rle_dec (edge lo hi n k) v then
    if Rlt_dec v (edge lo hi n (S k)) then true
    else if Nat.eqb (S k) n then if Req_EM_T v hi then true else false
    else false
  else false.

(** models/czjzek.py 90-93: the range of a histogram axis. *)
Definition axis_range (pos : list R) : pyres (R * R) :=
  match pos with
  | p0 :: p1 :: _ => let delta := (p1 - p0) / 2 in Ok (p0 - delta, last pos 0 + delta)
  | _ => Err IndexError
  end.

Definition count_if {A} (p : A -> bool) (l : list A) : nat := length (filter p l).

(** models/czjzek.py 72-103, [pdf] applied to the random variates: the amplitudes
    [hist.T], rows along the second axis.  A sum of zero gives NaNs ([None]). *)
Definition pdf (pos0 pos1 : list R) (samples : list (R * R)) : pyres (list (list (option R))) :=
  let* (xlo, xhi) := axis_range pos0 in
  let* (ylo, yhi) := axis_range pos1 in
  let nx := length pos0 in
  let ny := length pos1 in
  let hist i j := INR (count_if (fun s => andb (in_bin xlo xhi nx i (fst s)) (in_bin ylo yhi ny j (snd s))) samples) in
  let total := fold_right Rplus 0 (map (fun i => fold_right Rplus 0 (map (hist i) (seq 0 ny))) (seq 0 nx)) in
  Ok (map (fun j => map (fun i => divide (hist i j) total) (seq 0 nx)) (seq 0 ny)).
