(** Model of src/c_lib/lib/interpolation.c lines 156-478 and 703-738: two dimensional powder interpolation.

    As in InterpModel, numbers are exact rationals.  [triangle_interpolation2D] adds to the rows of a matrix of [m0] rows
    of [m1] columns, stored row after row, by calling [triangle_interpolation] on one row at a time.  It is
    modelled by the list of these calls; [call_writes] turns the calls into additions to the flat array.  A C variable that
    is not initialised on every path is modelled by an option; reading it before it is set gives [None]. *)
From Coq Require Import ZArith QArith Qabs Bool List.
From Verif Require Import InterpModel.
Import ListNotations.
Open Scope Q_scope.

(** A call [triangle_interpolation(&a, &b, &c, &amount, &spec[row * m1], &m1)]. *)
Record call := Call { row : Z; ya : Q; yb : Q; yc : Q; amount : Q }.

(** The block repeated at lines 291-301, 321-332, 393-403, 415-425 and 444-454: the section between two
    positions, a trapezium with corners y00, y01 (up) and y10, y11 (down), is shared between two triangles in proportion to
    their lines, or put down in one piece when the lines have no length. *)
Definition section (p : Z) (y00 y01 y10 y11 up down denom amp_section : Q) : list call :=
  if Qeq_bool denom 0 then [Call p y00 y11 y10 amp_section]
  else [Call p y00 y11 y10 (down / denom * amp_section); Call p y00 y11 y01 (up / denom * amp_section)].

(** The loop at lines 313-337, [n] iterations, starting with the variables p, diff, freq10_01, freq11_02, line_up, line_down
    and denom.  Returns the calls and the last values of freq10_01, freq11_02, line_up and denom.  The loop at
    lines 436-459 is the same with diff, line_up, line_down and denom decreasing: [rows] is called with -df and -step. *)
Fixpoint rows (n : nat) (p : Z) (diff df s1 s2 step y10 y11 up down denom : Q) : list call * (Q * Q * Q * Q) :=
  match n with
  | O => ([], (y10, y11, up, denom))
  | S n' =>
    let diff := diff + df in
    let y00 := y10 in
    let y01 := y11 in
    let y10 := y10 + s1 in
    let y11 := y11 + s2 in
    let '(cs, r) := rows n' (p + 1) diff df s1 s2 step y10 y11 (up + step) (down + step) (denom + 2 * step) in
    (section p y00 y01 y10 y11 up down denom diff ++ cs, r)
  end.

(** Lines 256-369, the part of the triangle before its middle vertex: the calls, and the values of freq10_01 and freq11_02 at
    the end, None if not set.  (x0, y0), (x1, y1): the first two vertices; s02: the slope of the edge from the
    first to the last vertex.  When [clip_left2] is set nothing is done (line 265). *)
Definition before_mid (p pmid : Z) (clip_left1 clip_right1 clip_left2 : bool) (top x0 y0 x1 y1 s02 : Q)
  : list call * option (Q * Q) :=
  if clip_left2 then ([], None) else
  let f10 := x1 - x0 in
  let s01 := (y1 - y0) / (x1 - x0) in
  let slope_diff := s02 - s01 in
  if (p =? pmid)%Z then
    if negb clip_right1 && negb clip_left1 then
      let y10 := y1 in
      let y11 := s02 * (x1 - x0) + y0 in
      ([Call p y0 y10 y11 (f10 * top * half)], Some (y10, y11))
    else ([], None)
  else
    (* Part 1, lines 270-303 *)
    let df1 := top / f10 in
    let diff := zq p + 1 - x0 in
    let y10 := s01 * diff + y0 in
    let y11 := s02 * diff + y0 in
    let part1 :=
      if negb clip_left1 then [Call p y0 y11 y10 (half * diff * diff * df1)]
      else
        let y00 := y10 - s01 in
        let y01 := y11 - s02 in
        let down := Qabs (y11 - y10) in
        let up := Qabs (y01 - y00) in
        section p y00 y01 y10 y11 up down (down + up) ((diff - half) * df1) in
    (* Part 2, lines 305-337 *)
    let temp := diff * slope_diff in
    let up := Qabs temp in
    let down := Qabs (temp + slope_diff) in
    let denom := up + down in
    let '(part2, (y10, y11, up, denom)) :=
      rows (Z.to_nat (pmid - (p + 1))) (p + 1) ((diff - half) * df1) df1 s01 s02 (Qabs slope_diff) y10 y11 up down denom in
    (* Part 3, lines 339-359 *)
    if negb clip_right1 then
      let amp_section := (x1 - zq pmid) * (f10 + (zq pmid - x0)) * half * df1 in
      let y00 := y10 in
      let y01 := y11 in
      let y10 := y1 in
      let y11 := s02 * (x1 - x0) + y0 in
      let part3 :=
        if Qeq_bool denom 0 then [Call pmid y00 y11 y10 amp_section]
        else
          let denom := Qabs (y11 - y10) + up in
          [Call pmid y00 y11 y10 (Qabs (y11 - y10) / denom * amp_section); Call pmid y00 y11 y01 (up / denom * amp_section)] in
      (part1 ++ part2 ++ part3, Some (y10, y11))
    else (part1 ++ part2, Some (y10, y11)).

(** Lines 371-477, the part of the triangle after its middle vertex; [mid] holds freq10_01 and freq11_02. *)
Definition after_mid (p pmax : Z) (clip_left2 clip_right2 : bool) (top x0 y0 x1 y1 x2 y2 s02 : Q) (mid : option (Q * Q))
  : option (list call) :=
  let f21 := x2 - x1 in
  let s12 := (y2 - y1) / (x2 - x1) in
  let slope_diff := s02 - s12 in
  if (p =? pmax)%Z then
    if negb clip_right2 then
      match mid with
      | None => None
      | Some (_, y11) => Some [Call p y11 y1 y2 (f21 * top * half)]
      end
    else Some []
  else
    (* Part 4, lines 379-427: the calls, freq10_12, freq11_02 and line_down *)
    let df2 := top / f21 in
    let diff := x2 - zq p - 1 in
    let part4 :=
      if negb clip_left2 then
        match mid with
        | None => None
        | Some (y10, y11) =>
          let amp_section := (f21 - diff) * (diff + f21) * half * df2 in
          let y00 := y10 in
          let y01 := y11 in
          let y10 := s12 * (zq (p + 1) - x1) + y1 in
          let y11 := s02 * (zq (p + 1) - x0) + y0 in
          let up := y01 - y00 in
          let down := y11 - y10 in
          Some (section p y00 y01 y10 y11 (Qabs up) (Qabs down) (Qabs down + Qabs up) amp_section, (y10, y11, down))
        end
      else
        let y00 := s12 * (zq p - x1) + y1 in
        let y01 := s02 * (zq p - x0) + y0 in
        let y10 := y00 + s12 in
        let y11 := y01 + s02 in
        let down := Qabs (y11 - y10) in
        let up := Qabs (y01 - y00) in
        Some (section p y00 y01 y10 y11 up down (down + up) ((diff + half) * df2), (y10, y11, down)) in
    match part4 with
    | None => None
    | Some (part4, (y10, y11, down)) =>
      (* Part 6, lines 429-459 *)
      let up := Qabs down in
      let down := Qabs (down + slope_diff) in
      let denom := up + down in
      let '(part6, (y10, y11, _, _)) :=
        rows (Z.to_nat (pmax - (p + 1))) (p + 1) ((diff + half) * df2) (- df2) s12 s02 (- Qabs slope_diff) y10 y11 up down denom in
      (* Part 7, lines 461-470 *)
      let part7 :=
        if negb clip_right2 then
          let temp := x2 - zq pmax in
          [Call pmax y10 y2 y11 (temp * temp * half * df2)]
        else [] in
      Some (part4 ++ part6 ++ part7)
    end.

(** The insertion sort by the first frequency, carrying the second, lines 208-223. *)
Definition sort3_pairs (a b c : Q * Q) : (Q * Q) * (Q * Q) * (Q * Q) :=
  let '(x, y) := if Qltb (fst b) (fst a) then (b, a) else (a, b) in
  if Qltb (fst c) (fst y) then (if Qltb (fst c) (fst x) then (c, x, y) else (x, c, y)) else (x, y, c).

(** [triangle_interpolation2D], lines 156-478, as calls; x1 x2 x3 are freq11 freq12 freq13 and y1 y2 y3 are freq21 freq22
    freq23. *)
Definition calls2D (x1 x2 x3 y1 y2 y3 amp : Q) (m0 : Z) : option (list call) :=
  let p := trunc x1 in
  if Qltb (Qabs (x1 - x2)) TOL && Qltb (Qabs (x1 - x3)) TOL then
    (* lines 169-198 *)
    if (m0 <=? p)%Z || (p <? 0)%Z then Some [] else
    let diff := x1 - zq p in
    let n_i := half in
    if Qltb (Qabs (diff - n_i)) TOL then Some [Call p y1 y2 y3 amp] else
    if Qltb diff n_i then
      Some ((if negb (p =? 0)%Z then [Call (p - 1) y1 y2 y3 (amp * (n_i - diff))] else []) ++ [Call p y1 y2 y3 (amp * (n_i + diff))])
    else if Qltb n_i diff then
      Some ((if negb (p + 1 =? m0)%Z then [Call (p + 1) y1 y2 y3 (amp * (diff - n_i))] else []) ++ [Call p y1 y2 y3 (amp * (1 + n_i - diff))])
    else Some []
  else if (trunc x1 =? trunc x2)%Z && (trunc x1 =? trunc x3)%Z then
    (* lines 200-206 *)
    if (m0 <=? p)%Z || (p <? 0)%Z then Some [] else Some [Call p y1 y2 y3 amp]
  else
    let '((x0, y0), (x1, y1), (x2, y2)) := sort3_pairs (x1, y1) (x2, y2) (x3, y3) in
    let p := trunc x0 in
    if (m0 <? p)%Z then Some [] else
    let pmax := trunc x2 in
    if (pmax <? 0)%Z then Some [] else
    let pmid := trunc x1 in
    let clip_right1 := (m0 <=? pmid)%Z in
    let pmid := if clip_right1 then m0 else pmid in
    let clip_right2 := (m0 <=? pmax)%Z in
    let pmax := if clip_right2 then m0 else pmax in
    let clip_left1 := (p <? 0)%Z in
    let p := if clip_left1 then 0%Z else p in
    let clip_left2 := (pmid <? 0)%Z in
    let pmid := if clip_left2 then 0%Z else pmid in
    let top := amp * (2 # 1) / (x2 - x0) in
    let s02 := (y2 - y0) / (x2 - x0) in
    let '(before, mid) := before_mid p pmid clip_left1 clip_right1 clip_left2 top x0 y0 x1 y1 s02 in
    match after_mid pmid pmax clip_left2 clip_right2 top x0 y0 x1 y1 x2 y2 s02 mid with
    | None => None
    | Some after => Some (before ++ after)
    end.

(** The additions of one call to the flat array. *)
Definition call_writes (m1 : Z) (c : call) : writes :=
  map (fun w => ((row c * m1 + fst w)%Z, snd w)) (triangle_interpolation (ya c) (yb c) (yc c) (amount c) m1).
Definition triangle_interpolation2D (x1 x2 x3 y1 y2 y3 amp : Q) (m0 m1 : Z) : option writes :=
  match calls2D x1 x2 x3 y1 y2 y3 amp m0 with
  | None => None
  | Some cs => Some (flat_map (call_writes m1) cs)
  end.

(** [octahedronInterpolation2D], lines 703-738, with stride 1. *)
Fixpoint triangles2D (ts : list tri) (freq1 freq2 amp : nat -> Q) (m0 m1 : Z) : option writes :=
  match ts with
  | [] => Some []
  | t :: ts =>
    let '(a, b, c) := t in
    match triangle_interpolation2D (freq1 a) (freq1 b) (freq1 c) (freq2 a) (freq2 b) (freq2 c) (tri_amp amp t) m0 m1 with
    | None => None
    | Some w => match triangles2D ts freq1 freq2 amp m0 m1 with None => None | Some ws => Some (w ++ ws) end
    end
  end.
Definition octahedron_interpolation2D (nt : nat) (freq1 freq2 amp : nat -> Q) (m0 m1 : Z) : option writes :=
  match triangles nt with None => None | Some ts => triangles2D ts freq1 freq2 amp m0 m1 end.
