(** Model of src/c_lib/lib/interpolation.c lines 12-154 and 633-701: one dimensional powder interpolation.

    Numbers are exact rationals.  A routine that adds to the array [spec] is modelled by the list of its additions
    (index, value), in order and including additions of zero and additions outside the array; [deposit] is
    the resulting change of one array element. *)
From Coq Require Import ZArith QArith Qabs Bool List.
Import ListNotations.
Open Scope Q_scope.

(** A C cast [(int)x]: truncation toward zero.  Overflow is not modelled. *)
Definition trunc (x : Q) : Z := Z.quot (Qnum x) (Zpos (Qden x)).
Definition zq (z : Z) : Q := inject_Z z.
Definition Qltb (x y : Q) : bool := negb (Qle_bool y x).
Definition half : Q := 1 # 2.
(** config.h: TOL. *)
Definition TOL : Q := 1 # 1000000.

Definition writes := list (Z * Q).
Definition deposit (w : writes) (k : Z) : Q :=
  fold_right (fun av s => if Z.eqb (fst av) k then snd av + s else s) 0 w.

(** [delta_fn_interpolation], lines 15-37. *)
Definition delta_fn (freq : Q) (points : Z) (amp : Q) : writes :=
  let p := trunc freq in
  if (points <=? p)%Z || (p <? 0)%Z then [] else
  let diff := freq - zq p in
  if Qltb (Qabs (diff - half)) TOL then [(p, amp)] else
  if Qltb diff half then
    (if negb (p =? 0)%Z then [((p - 1)%Z, amp * (half - diff))] else []) ++ [(p, amp * (half + diff))]
  else if Qltb half diff then
    (if negb (p + 1 =? points)%Z then [((p + 1)%Z, amp * (diff - half))] else []) ++ [(p, amp * (1 + half - diff))]
  else [].

(** The loop [while (p != pmid) spec[p++] += diff += df1], [n] iterations (lines 62, 84 with a negative step). *)
Fixpoint ramp (n : nat) (p : Z) (diff df : Q) : writes :=
  match n with O => [] | S n' => (p, diff + df) :: ramp n' (p + 1)%Z (diff + df) df end.

(** [left_triangle_interpolate], lines 47-66.  The loop runs [pmid - (p+1)] times; p <= pmid holds in every call
    (proved in InterpProofs). *)
Definition left_tri (p pmid : Z) (l_clip r_clip : bool) (top f0 f1 : Q) : writes :=
  let f10 := f1 - f0 in
  if (p =? pmid)%Z then [(p, if negb r_clip && negb l_clip then f10 * top * half else 0)] else
  let df1 := top / f10 in
  let diff := zq p + 1 - f0 in
  (p, if negb l_clip then half * diff * diff * df1 else (diff - half) * df1)
  :: ramp (Z.to_nat (pmid - (p + 1))) (p + 1) ((diff - half) * df1) df1
  ++ [(pmid, if negb r_clip then (f1 - zq pmid) * (f10 + (zq pmid - f0)) * half * df1 else 0)].

(** [right_triangle_interpolate], lines 69-89. *)
Definition right_tri (p pmax : Z) (l_clip r_clip : bool) (top f1 f2 : Q) : writes :=
  let f21 := f2 - f1 in
  if (p =? pmax)%Z then [(p, if negb r_clip then f21 * top * half else 0)] else
  let df1 := top / f21 in
  let diff := f2 - zq p - 1 in
  (p, if negb l_clip then (f21 - diff) * (diff + f21) * half * df1 else (diff + half) * df1)
  :: ramp (Z.to_nat (pmax - (p + 1))) (p + 1) ((diff + half) * df1) (- df1)
  ++ (if negb r_clip then [(pmax, (f2 - zq pmax) * (f2 - zq pmax) * half * df1)] else []).

(** The insertion sort, lines 108-117. *)
Definition sort3 (a b c : Q) : Q * Q * Q :=
  let '(x, y) := if Qltb b a then (b, a) else (a, b) in
  if Qltb c y then (if Qltb c x then (c, x, y) else (x, c, y)) else (x, y, c).

(** [__triangle_interpolation], lines 91-154. *)
Definition triangle (freq1 freq2 freq3 amp : Q) (points : Z) : writes :=
  if (trunc freq1 =? trunc freq2)%Z && (trunc freq1 =? trunc freq3)%Z then
    let p := trunc freq1 in
    if (points <=? p)%Z || (p <? 0)%Z then [] else [(p, amp)]
  else
    let '(f0, f1, f2) := sort3 freq1 freq2 freq3 in
    let p := trunc f0 in
    if (points <? p)%Z then [] else
    let pmax := trunc f2 in
    if (pmax <? 0)%Z then [] else
    let pmid := trunc f1 in
    let clip_right1 := (points <=? pmid)%Z in
    let pmid := if clip_right1 then points else pmid in
    let clip_right2 := (points <=? pmax)%Z in
    let pmax := if clip_right2 then points else pmax in
    let clip_left1 := (p <? 0)%Z in
    let p := if clip_left1 then 0%Z else p in
    let clip_left2 := (pmid <? 0)%Z in
    let pmid := if clip_left2 then 0%Z else pmid in
    let top := amp * (2 # 1) / (f2 - f0) in
    left_tri p pmid clip_left1 clip_right1 top f0 f1 ++ right_tri pmid pmax clip_left2 clip_right2 top f1 f2.

(** [triangle_interpolation], lines 633-639. *)
Definition triangle_interpolation (freq1 freq2 freq3 amp : Q) (points : Z) : writes :=
  if Qltb (Qabs (freq1 - freq2)) TOL && Qltb (Qabs (freq1 - freq3)) TOL then delta_fn freq1 points amp
  else triangle freq1 freq2 freq3 amp points.

(** ** The walk over the triangles of an octahedron face, lines 670-701 (the same code at 641-668 and 703-738) *)
(** A triangle by the indexes of its vertices: [freq_address] and [amp_address] point to element nt+1. *)
Definition tri := (nat * nat * nat)%type.

(** One iteration (lines 681-699) on (i, j, local_index).  [local_index] may be -1 (nt = 0), hence Z. *)
Definition walk_step (nt : nat) (st : nat * nat * Z) : list tri * (nat * nat * Z) :=
  let '(i, j, li) := st in
  let t1 := (i, i + 1, nt + 1 + j)%nat in
  if (Z.of_nat i <? li)%Z
  then ([t1; (i + 1, nt + 1 + j, nt + 1 + (j + 1))%nat], (i + 1, j + 1, li)%nat)
  else ([t1], (i + 2, j + 1, Z.of_nat (j + nt))%nat).

(** [while (i < n_pts - 1)]; [fuel] bounds the number of iterations, [None] when it is exhausted. *)
Definition n_pts (nt : nat) : nat := ((nt + 1) * (nt + 2) / 2)%nat.
Fixpoint walk (fuel : nat) (nt : nat) (st : nat * nat * Z) : option (list tri) :=
  let '(i, j, li) := st in
  if (Z.of_nat i <? Z.of_nat (n_pts nt) - 1)%Z then
    match fuel with
    | O => None
    | S fuel' => let '(ts, st') := walk_step nt st in
                 match walk fuel' nt st' with Some r => Some (ts ++ r) | None => None end
    end
  else Some [].
(** The triangles in the order visited; [i] grows in every iteration, so n_pts iterations suffice. *)
Definition triangles (nt : nat) : option (list tri) := walk (n_pts nt) nt (0%nat, 0%nat, (Z.of_nat nt - 1)%Z).

(** Amplitude of a triangle: the sum of the amplitudes of its vertices (lines 682-690, stride 1). *)
Definition tri_amp (amp : nat -> Q) (t : tri) : Q := let '(a, b, c) := t in amp b + amp c + amp a.

(** [octahedronInterpolation], lines 670-701, with stride 1 and n_spec = m. *)
Definition octahedron_interpolation (nt : nat) (freq amp : nat -> Q) (m : Z) : option writes :=
  match triangles nt with
  | None => None
  | Some ts => Some (flat_map (fun t => let '(a, b, c) := t in triangle (freq a) (freq b) (freq c) (tri_amp amp t) m) ts)
  end.

(** [octahedronDeltaInterpolation], lines 641-668: the amplitudes of all triangles are summed first. *)
Definition octahedron_delta (nt : nat) (freq : Q) (amp : nat -> Q) (m : Z) : option writes :=
  match triangles nt with
  | None => None
  | Some ts => Some (delta_fn freq m (fold_left (fun s t => s + tri_amp amp t) ts 0))
  end.
