(** C100: the interpolation on machine numbers. *)
From Coq Require Import ZArith Bool List Lia.
From Flocq Require Import IEEE754.BinarySingleNaN.
From Verif Require Import MachModel MachSpec MachProofs Mach2DModel Mach2DProofs.
Import ListNotations.
Open Scope Z_scope.

(** For all doubles that are not NaN, infinities and numbers beyond the range of int included, with any rounding and reordering of the
    arithmetic.  Missing: NaN, see C100_nan_refuted. *)
Theorem C100_machine_safe_partial cpu plus minus times quotient of_int freq1 freq2 freq3 amp points :
  numbers freq1 freq2 freq3 -> 0 < points <= INT_MAX ->
  stays_inside points (triangle_interpolation cpu plus minus times quotient of_int freq1 freq2 freq3 amp points).
Proof.
  intros (N1 & N2 & N3) P. unfold triangle_interpolation, stays_inside. destruct (_ && _).
  - eexists. split; [reflexivity|]. intros i x I.
    pose proof (delta_safe cpu plus minus times of_int freq1 points amp ltac:(lia)) as F. rewrite Forall_forall in F. left. exact (F _ I).
  - destruct (triangle_safe cpu plus minus times quotient of_int freq1 freq2 freq3 amp points N1 N2 N3 P) as (ws & E & F).
    exists ws. split; [exact E|]. intros i x I. rewrite Forall_forall in F. exact (F _ I).
Qed.
Print Assumptions C100_machine_safe_partial.
(** A single peak is safe for every double. *)
Theorem C100_peak_safe cpu plus minus times of_int freq points amp : 0 < points ->
  forall i x, In (i, x) (delta_fn cpu plus minus times of_int freq points amp) -> 0 <= i < points.
Proof. intros P i x I. pose proof (delta_safe cpu plus minus times of_int freq points amp P) as F. rewrite Forall_forall in F. exact (F _ I). Qed.
Print Assumptions C100_peak_safe.

(** Integers as doubles, and 3 * 2^31. *)
Definition d1 : double := @B754_finite 53 1024 false 4503599627370496 (-52) eq_refl.
Definition d3 : double := @B754_finite 53 1024 false 6755399441055744 (-51) eq_refl.
Definition d5 : double := @B754_finite 53 1024 false 5629499534213120 (-50) eq_refl.
Definition huge : double := @B754_finite 53 1024 false 6755399441055744 (-20) eq_refl.
Example C100_machine_case : forall cpu, cast cpu d1 = 1 /\ cast cpu d3 = 3 /\ cast cpu d5 = 5 /\ cast cpu huge = match cpu with X86 => - 2147483648 | ARM => 2147483647 end.
Proof. intros [|]; vm_compute; auto. Qed.

(** The elements a triangle with its vertices at 1, 3 and 5 adds to in an array of 4, whatever the arithmetic gives, unless it takes it for a
    single peak. *)
Example C100_triangle_case cpu plus minus times quotient of_int : Bltb (Babs (minus d1 d3)) TOL = false ->
  option_map (map fst) (triangle_interpolation cpu plus minus times quotient of_int d1 d3 d5 d1 4) = Some [1; 2; 3; 3].
Proof. intros E. unfold triangle_interpolation. rewrite E. destruct cpu; reflexivity. Qed.

(** One NaN among the vertices and the loops run out of the array, on both processors, whatever the other arithmetic is. *)
Theorem C100_nan_refuted cpu plus minus times quotient of_int : minus d5 B754_nan = B754_nan ->
  triangle_interpolation cpu plus minus times quotient of_int d5 B754_nan d3 d1 8 = None.
Proof. intros E. unfold triangle_interpolation. rewrite E. destruct cpu; reflexivity. Qed.
Print Assumptions C100_nan_refuted.
(** A vertex beyond the range of int: on x86 the triangle is lost, though the elements from 1 to 7 lie inside it. *)
Theorem C100_overflow_refuted plus minus times quotient of_int : Bltb (Babs (minus d1 d3)) TOL = false ->
  triangle_interpolation X86 plus minus times quotient of_int d1 d3 huge d1 8 = Some [] /\
  option_map (map fst) (triangle_interpolation ARM plus minus times quotient of_int d1 d3 huge d1 8) = Some [1; 2; 3; 3; 4; 5; 6; 7].
Proof. intros E. unfold triangle_interpolation. rewrite E. split; reflexivity. Qed.
Print Assumptions C100_overflow_refuted.

(** The two dimensional interpolation on a grid of [m0] rows of [m1] elements: for all first frequencies that are not NaN each row it adds to
    is one of the grid. *)
Theorem C100_rows_safe cpu plus minus times quotient of_int negate unset x1 x2 x3 y1 y2 y3 amp m0 : numbers x1 x2 x3 -> 0 < m0 <= INT_MAX ->
  exists cs, calls2D cpu plus minus times quotient of_int negate unset x1 x2 x3 y1 y2 y3 amp m0 = Some cs /\ forall c, In c cs -> 0 <= row c < m0.
Proof.
  intros (N1 & N2 & N3) P. destruct (calls_rows cpu plus minus times quotient of_int negate unset x1 x2 x3 y1 y2 y3 amp m0 N1 N2 N3 P) as (cs & E & F).
  exists cs. split; [exact E|]. rewrite Forall_forall in F. exact F.
Qed.
Print Assumptions C100_rows_safe.
(** And no addition leaves the grid.  Missing: rows that are handed a NaN, see C100_nan_refuted. *)
Theorem C100_machine_2D_safe_partial cpu plus minus times quotient of_int negate unset x1 x2 x3 y1 y2 y3 amp m0 m1 :
  numbers x1 x2 x3 -> 0 < m0 -> 0 < m1 -> m0 * m1 <= INT_MAX ->
  (forall cs c, calls2D cpu plus minus times quotient of_int negate unset x1 x2 x3 y1 y2 y3 amp m0 = Some cs -> In c cs -> numbers (ya c) (yb c) (yc c)) ->
  stays_inside (m0 * m1) (triangle_interpolation2D cpu plus minus times quotient of_int negate unset x1 x2 x3 y1 y2 y3 amp m0 m1).
Proof.
  intros N P0 P1 P H. destruct (C100_rows_safe cpu plus minus times quotient of_int negate unset x1 x2 x3 y1 y2 y3 amp m0 N ltac:(nia)) as (cs & E & R).
  unfold triangle_interpolation2D. rewrite E. specialize (fun c => H cs c E). clear E. induction cs as [|c cs IH]; cbn [all_additions].
  { exists []. split; [reflexivity|]. intros i x []. }
  destruct IH as (b & Eb & Hb); [intros; apply H; now right|intros; apply R; now right|].
  destruct (H c (or_introl eq_refl)) as (Na & Nb & Nc). pose proof (R c (or_introl eq_refl)) as Rc.
  destruct (C100_machine_safe_partial cpu plus minus times quotient of_int (ya c) (yb c) (yc c) (amount c) m1 (conj Na (conj Nb Nc)) ltac:(nia)) as (a & Ea & Ha).
  rewrite Ea, Eb. eexists. split; [reflexivity|]. intros i x I. apply in_app_or in I. destruct I as [I|I]; [|exact (Hb i x I)].
  apply in_map_iff in I. destruct I as ((j & y) & E & I). injection E as <- <-. cbn [fst snd]. destruct (Ha j y I) as [L|(-> & ->)].
  - left. nia.
  - destruct (Z.eq_dec (row c * m1 + m1) (m0 * m1)) as [E|E]; [right; auto|left; nia].
Qed.
Print Assumptions C100_machine_2D_safe_partial.
(** The rows of a triangle from 1 to 5 in a grid of 4 rows, with an arithmetic that has but one result. *)
Example C100_rows_case cpu :
  let op (a b : double) := d3 in
  option_map (map row) (calls2D cpu op op op op (fun _ => d1) (fun x => x) (d1, d1) d1 d3 d5 d5 d1 d3 d1 4) = Some [1; 2; 2; 3; 3; 3; 3].
Proof. destruct cpu; vm_compute; reflexivity. Qed.
Example C100_numbers_case cpu :
  let op (a b : double) := d3 in
  match calls2D cpu op op op op (fun _ => d1) (fun x => x) (d1, d1) d1 d3 d5 d5 d1 d3 d1 4 with
  | Some cs => List.Forall (fun c => numbers (ya c) (yb c) (yc c)) cs
  | None => False
  end.
Proof. destruct cpu; vm_compute; repeat (constructor; [repeat split|]); constructor. Qed.
