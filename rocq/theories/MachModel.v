(** Model of the one dimensional interpolation, interpolation.c lines 12-154 and 633-639, on machine numbers.  The library is compiled with
    -ffast-math (setup.py lines 73, 82, 153, 205), so the results of sums, differences, products and quotients are left open: any functions.
    Comparisons of doubles and casts to int decide which elements are written; they are modelled. *)
From Coq Require Import ZArith Bool List.
From Flocq Require Import IEEE754.BinarySingleNaN.
Import ListNotations.
Open Scope Z_scope.

Definition double := binary_float 53 1024.
Definition zero : double := B754_zero false.
Definition half : double := @B754_finite 53 1024 false 4503599627370496 (-53) eq_refl.
Definition one : double := @B754_finite 53 1024 false 4503599627370496 (-52) eq_refl.
Definition two : double := @B754_finite 53 1024 false 4503599627370496 (-51) eq_refl.
(** 1.0e-6, config.h line 28, rounded to a double. *)
Definition TOL : double := @B754_finite 53 1024 false 4722366482869645 (-72) eq_refl.

(** A cast [(int)x] is defined in C when the truncated value is an int.  Otherwise the processors differ: x86 gives the least int for all
    others, ARM the nearest int and 0 for a NaN. *)
Definition INT_MIN : Z := - 2 ^ 31.
Definition INT_MAX : Z := 2 ^ 31 - 1.
Inductive processor := X86 | ARM.
Definition cast (cpu : processor) (x : double) : Z :=
  match x with
  | B754_nan => match cpu with X86 => INT_MIN | ARM => 0 end
  | B754_infinity true => INT_MIN
  | B754_infinity false => match cpu with X86 => INT_MIN | ARM => INT_MAX end
  | B754_zero _ | B754_finite _ _ _ _ =>
      let z := Btrunc x in
      if z <? INT_MIN then INT_MIN
      else if INT_MAX <? z then match cpu with X86 => INT_MIN | ARM => INT_MAX end
      else z
  end.

(** The additions to [spec]: index and amount.  None: a loop [while (p != pmid) spec[p++] ...] that starts above [pmid] and leaves the
    array. *)
Definition additions := option (list (Z * double)).

Section Machine.
  Variable cpu : processor.
  Variables (plus minus times quotient : double -> double -> double) (of_int : Z -> double).
  Notation int := (cast cpu).

  (** Lines 15-37. *)
  Definition delta_fn (freq : double) (points : Z) (amp : double) : list (Z * double) :=
    let p := int freq in
    if (points <=? p) || (p <? 0) then [] else
    let diff := minus freq (of_int p) in
    if Bltb (Babs (minus diff half)) TOL then [(p, amp)] else
    if Bltb diff half then
      (if negb (p =? 0) then [(p - 1, times amp (minus half diff))] else []) ++ [(p, times amp (plus half diff))]
    else if Bltb half diff then
      (if negb (p + 1 =? points) then [(p + 1, times amp (minus diff half))] else []) ++ [(p, times amp (minus (plus one half) diff))]
    else [].

  (** The loops of lines 62 and 84; [step] is the sum or difference with df1. *)
  Fixpoint ramp (n : nat) (p : Z) (diff : double) (step : double -> double) : list (Z * double) :=
    match n with O => [] | S n => (p, step diff) :: ramp n (p + 1) (step diff) step end.

  (** Lines 47-66. *)
  Definition left_tri (p pmid : Z) (l_clip r_clip : bool) (top f0 f1 : double) : additions :=
    let f10 := minus f1 f0 in
    if p =? pmid then Some [(p, if negb r_clip && negb l_clip then times (times f10 top) half else zero)] else
    let df1 := quotient top f10 in
    let diff := minus (plus (of_int p) one) f0 in
    if pmid <? p + 1 then None else
    Some ((p, if negb l_clip then times (times (times half diff) diff) df1 else times (minus diff half) df1)
          :: ramp (Z.to_nat (pmid - (p + 1))) (p + 1) (times (minus diff half) df1) (fun d => plus d df1)
          ++ [(pmid, if negb r_clip then times (times (times (minus f1 (of_int pmid)) (plus f10 (minus (of_int pmid) f0))) half) df1 else zero)]).

  (** Lines 69-89. *)
  Definition right_tri (p pmax : Z) (l_clip r_clip : bool) (top f1 f2 : double) : additions :=
    let f21 := minus f2 f1 in
    if p =? pmax then Some [(p, if negb r_clip then times (times f21 top) half else zero)] else
    let df1 := quotient top f21 in
    let diff := minus (minus f2 (of_int p)) one in
    if pmax <? p + 1 then None else
    Some ((p, if negb l_clip then times (times (times (minus f21 diff) (plus diff f21)) half) df1 else times (plus diff half) df1)
          :: ramp (Z.to_nat (pmax - (p + 1))) (p + 1) (times (plus diff half) df1) (fun d => minus d df1)
          ++ (if negb r_clip then [(pmax, times (times (times (minus f2 (of_int pmax)) (minus f2 (of_int pmax))) half) df1)] else [])).

  (** Lines 107-117; [f[i] > t] is false when one of them is a NaN. *)
  Definition sort3 (a b c : double) : double * double * double :=
    let '(x, y) := if Bltb b a then (b, a) else (a, b) in
    if Bltb c y then (if Bltb c x then (c, x, y) else (x, c, y)) else (x, y, c).

  (** Lines 91-154. *)
  Definition triangle (freq1 freq2 freq3 amp : double) (points : Z) : additions :=
    if (int freq1 =? int freq2) && (int freq1 =? int freq3) then
      let p := int freq1 in
      Some (if (points <=? p) || (p <? 0) then [] else [(p, amp)])
    else
      let '(f0, f1, f2) := sort3 freq1 freq2 freq3 in
      let p := int f0 in
      if points <? p then Some [] else
      let pmax := int f2 in
      if pmax <? 0 then Some [] else
      let pmid := int f1 in
      let clip_right1 := points <=? pmid in
      let pmid := if clip_right1 then points else pmid in
      let clip_right2 := points <=? pmax in
      let pmax := if clip_right2 then points else pmax in
      let clip_left1 := p <? 0 in
      let p := if clip_left1 then 0 else p in
      let clip_left2 := pmid <? 0 in
      let pmid := if clip_left2 then 0 else pmid in
      let top := quotient (times amp two) (minus f2 f0) in
      match left_tri p pmid clip_left1 clip_right1 top f0 f1, right_tri pmid pmax clip_left2 clip_right2 top f1 f2 with
      | Some a, Some b => Some (a ++ b)
      | _, _ => None
      end.

  (** Lines 633-639. *)
  Definition triangle_interpolation (freq1 freq2 freq3 amp : double) (points : Z) : additions :=
    if Bltb (Babs (minus freq1 freq2)) TOL && Bltb (Babs (minus freq1 freq3)) TOL then Some (delta_fn freq1 points amp)
    else triangle freq1 freq2 freq3 amp points.
End Machine.
