(** Model of the two dimensional interpolation, interpolation.c lines 156-478, on machine numbers: as in MachModel the arithmetic is left
    open, comparisons and casts are those of doubles.  As in Interp2DModel the result is the list of calls of the one dimensional
    interpolation on rows; variables read before they are set have any value ([unset]). *)
From Coq Require Import ZArith Bool List.
From Flocq Require Import IEEE754.BinarySingleNaN.
From Verif Require Import MachModel.
Import ListNotations.
Open Scope Z_scope.

(** A call [triangle_interpolation(&a, &b, &c, &amount, &spec[row * m1], &m1)]. *)
Record call := Call { row : Z; ya : double; yb : double; yc : double; amount : double }.

Section Machine2D.
  Variable cpu : processor.
  Variables (plus minus times quotient : double -> double -> double) (of_int : Z -> double) (negate : double -> double).
  (** The initial content of freq10_01 and freq11_02. *)
  Variable unset : double * double.
  Notation int := (cast cpu).
  Notation is_zero x := (Beqb x zero).

  (** As Interp2DModel.section. *)
  Definition section (p : Z) (y00 y01 y10 y11 up down denom amp_section : double) : list call :=
    if is_zero denom then [Call p y00 y11 y10 amp_section]
    else [Call p y00 y11 y10 (times (quotient down denom) amp_section); Call p y00 y11 y01 (times (quotient up denom) amp_section)].

  (** The loops at lines 313-337 and 436-459. *)
  Fixpoint rows (n : nat) (p : Z) (diff df s1 s2 step y10 y11 up down denom : double) : list call * (double * double * double * double) :=
    match n with
    | O => ([], (y10, y11, up, denom))
    | S n =>
        let diff := plus diff df in
        let y00 := y10 in
        let y01 := y11 in
        let y10 := plus y10 s1 in
        let y11 := plus y11 s2 in
        let '(cs, r) := rows n (p + 1) diff df s1 s2 step y10 y11 (plus up step) (plus down step) (plus denom (times two step)) in
        (section p y00 y01 y10 y11 up down denom diff ++ cs, r)
    end.

  (** Lines 256-369: the calls and the last values of freq10_01 and freq11_02.  None: the loop starts above [pmid] and runs away. *)
  Definition before_mid (p pmid : Z) (clip_left1 clip_right1 clip_left2 : bool) (top x0 y0 x1 y1 s02 : double)
    : option (list call * (double * double)) :=
    if clip_left2 then Some ([], unset) else
    let f10 := minus x1 x0 in
    let s01 := quotient (minus y1 y0) (minus x1 x0) in
    let slope_diff := minus s02 s01 in
    if p =? pmid then
      if negb clip_right1 && negb clip_left1 then
        let y10 := y1 in
        let y11 := plus (times s02 (minus x1 x0)) y0 in
        Some ([Call p y0 y10 y11 (times (times f10 top) half)], (y10, y11))
      else Some ([], unset)
    else if pmid <? p + 1 then None else
      let df1 := quotient top f10 in
      let diff := minus (plus (of_int p) one) x0 in
      let y10 := plus (times s01 diff) y0 in
      let y11 := plus (times s02 diff) y0 in
      let part1 :=
        if negb clip_left1 then [Call p y0 y11 y10 (times (times (times half diff) diff) df1)]
        else
          let y00 := minus y10 s01 in
          let y01 := minus y11 s02 in
          let down := Babs (minus y11 y10) in
          let up := Babs (minus y01 y00) in
          section p y00 y01 y10 y11 up down (plus down up) (times (minus diff half) df1) in
      let temp := times diff slope_diff in
      let up := Babs temp in
      let down := Babs (plus temp slope_diff) in
      let denom := plus up down in
      let '(part2, (y10, y11, up, denom)) :=
        rows (Z.to_nat (pmid - (p + 1))) (p + 1) (times (minus diff half) df1) df1 s01 s02 (Babs slope_diff) y10 y11 up down denom in
      if negb clip_right1 then
        let amp_section := times (times (times (minus x1 (of_int pmid)) (plus f10 (minus (of_int pmid) x0))) half) df1 in
        let y00 := y10 in
        let y01 := y11 in
        let y10 := y1 in
        let y11 := plus (times s02 (minus x1 x0)) y0 in
        let part3 :=
          if is_zero denom then [Call pmid y00 y11 y10 amp_section]
          else
            let denom := plus (Babs (minus y11 y10)) up in
            [Call pmid y00 y11 y10 (times (quotient (Babs (minus y11 y10)) denom) amp_section);
             Call pmid y00 y11 y01 (times (quotient up denom) amp_section)] in
        Some (part1 ++ part2 ++ part3, (y10, y11))
      else Some (part1 ++ part2, (y10, y11)).

  (** Lines 371-477. *)
  Definition after_mid (p pmax : Z) (clip_left2 clip_right2 : bool) (top x0 y0 x1 y1 x2 y2 s02 : double) (mid : double * double)
    : option (list call) :=
    let f21 := minus x2 x1 in
    let s12 := quotient (minus y2 y1) (minus x2 x1) in
    let slope_diff := minus s02 s12 in
    if p =? pmax then
      if negb clip_right2 then Some [Call p (snd mid) y1 y2 (times (times f21 top) half)] else Some []
    else if pmax <? p + 1 then None else
      let df2 := quotient top f21 in
      let diff := minus (minus x2 (of_int p)) one in
      let '(part4, (y10, y11, down)) :=
        if negb clip_left2 then
          let amp_section := times (times (times (minus f21 diff) (plus diff f21)) half) df2 in
          let y00 := fst mid in
          let y01 := snd mid in
          let y10 := plus (times s12 (minus (of_int (p + 1)) x1)) y1 in
          let y11 := plus (times s02 (minus (of_int (p + 1)) x0)) y0 in
          let up := minus y01 y00 in
          let down := minus y11 y10 in
          (section p y00 y01 y10 y11 (Babs up) (Babs down) (plus (Babs down) (Babs up)) amp_section, (y10, y11, down))
        else
          let y00 := plus (times s12 (minus (of_int p) x1)) y1 in
          let y01 := plus (times s02 (minus (of_int p) x0)) y0 in
          let y10 := plus y00 s12 in
          let y11 := plus y01 s02 in
          let down := Babs (minus y11 y10) in
          let up := Babs (minus y01 y00) in
          (section p y00 y01 y10 y11 up down (plus down up) (times (plus diff half) df2), (y10, y11, down)) in
      let up := Babs down in
      let down := Babs (plus down slope_diff) in
      let denom := plus up down in
      let '(part6, (y10, y11, _, _)) :=
        rows (Z.to_nat (pmax - (p + 1))) (p + 1) (times (plus diff half) df2) (negate df2) s12 s02 (negate (Babs slope_diff)) y10 y11 up down denom in
      let part7 :=
        if negb clip_right2 then
          let temp := minus x2 (of_int pmax) in
          [Call pmax y10 y2 y11 (times (times (times temp temp) half) df2)]
        else [] in
      Some (part4 ++ part6 ++ part7).

  (** Lines 208-223. *)
  Definition sort3_pairs (a b c : double * double) : (double * double) * (double * double) * (double * double) :=
    let '(x, y) := if Bltb (fst b) (fst a) then (b, a) else (a, b) in
    if Bltb (fst c) (fst y) then (if Bltb (fst c) (fst x) then (c, x, y) else (x, c, y)) else (x, y, c).

  (** Lines 156-478; x1 x2 x3 are freq11 freq12 freq13 and y1 y2 y3 are freq21 freq22 freq23. *)
  Definition calls2D (x1 x2 x3 y1 y2 y3 amp : double) (m0 : Z) : option (list call) :=
    let p := int x1 in
    if Bltb (Babs (minus x1 x2)) TOL && Bltb (Babs (minus x1 x3)) TOL then
      if (m0 <=? p) || (p <? 0) then Some [] else
      let diff := minus x1 (of_int p) in
      if Bltb (Babs (minus diff half)) TOL then Some [Call p y1 y2 y3 amp] else
      if Bltb diff half then
        Some ((if negb (p =? 0) then [Call (p - 1) y1 y2 y3 (times amp (minus half diff))] else []) ++ [Call p y1 y2 y3 (times amp (plus half diff))])
      else if Bltb half diff then
        Some ((if negb (p + 1 =? m0) then [Call (p + 1) y1 y2 y3 (times amp (minus diff half))] else []) ++
              [Call p y1 y2 y3 (times amp (minus (plus one half) diff))])
      else Some []
    else if (int x1 =? int x2) && (int x1 =? int x3) then
      if (m0 <=? p) || (p <? 0) then Some [] else Some [Call p y1 y2 y3 amp]
    else
      let '((x0, y0), (x1, y1), (x2, y2)) := sort3_pairs (x1, y1) (x2, y2) (x3, y3) in
      let p := int x0 in
      if m0 <? p then Some [] else
      let pmax := int x2 in
      if pmax <? 0 then Some [] else
      let pmid := int x1 in
      let clip_right1 := m0 <=? pmid in
      let pmid := if clip_right1 then m0 else pmid in
      let clip_right2 := m0 <=? pmax in
      let pmax := if clip_right2 then m0 else pmax in
      let clip_left1 := p <? 0 in
      let p := if clip_left1 then 0 else p in
      let clip_left2 := pmid <? 0 in
      let pmid := if clip_left2 then 0 else pmid in
      let top := plus zero (quotient (times amp two) (minus x2 x0)) in
      let s02 := quotient (minus y2 y0) (minus x2 x0) in
      match before_mid p pmid clip_left1 clip_right1 clip_left2 top x0 y0 x1 y1 s02 with
      | None => None
      | Some (before, mid) =>
          match after_mid (if clip_left2 then p else pmid) pmax clip_left2 clip_right2 top x0 y0 x1 y1 x2 y2 s02 mid with
          | None => None
          | Some after => Some (before ++ after)
          end
      end.

  (** The additions to the flat array of [m0 * m1] elements; None: a loop leaves the array. *)
  Fixpoint all_additions (m1 : Z) (l : list call) : additions :=
    match l with
    | [] => Some []
    | c :: r =>
        match triangle_interpolation cpu plus minus times quotient of_int (ya c) (yb c) (yc c) (amount c) m1, all_additions m1 r with
        | Some a, Some b => Some (map (fun w => (row c * m1 + fst w, snd w)) a ++ b)
        | _, _ => None
        end
    end.
  Definition triangle_interpolation2D (x1 x2 x3 y1 y2 y3 amp : double) (m0 m1 : Z) : additions :=
    match calls2D x1 x2 x3 y1 y2 y3 amp m0 with None => None | Some l => all_additions m1 l end.
End Machine2D.
