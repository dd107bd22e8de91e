(** Proofs for C100. *)
From Coq Require Import ZArith Bool List Lia Reals Lra.
From Flocq Require Import IEEE754.BinarySingleNaN Core.
From Verif Require Import MachModel.
Import ListNotations.
Open Scope Z_scope.

Lemma trunc_R (x : double) : Btrunc x = Ztrunc (B2R x).
Proof.
  apply eq_IZR. rewrite (Btrunc_correct 53 1024); [|reflexivity].
  unfold round, scaled_mantissa, cexp, F2R, FIX_exp. cbn. now rewrite !Rmult_1_r.
Qed.

(** Where a double lies. *)
Inductive place := Below | Within (z : Z) | Above.
Definition place_of (x : double) : place :=
  match x with
  | B754_infinity true => Below
  | B754_infinity false => Above
  | _ => if Btrunc x <? INT_MIN then Below else if INT_MAX <? Btrunc x then Above else Within (Btrunc x)
  end.
Definition place_int (cpu : processor) (p : place) : Z :=
  match p with Below => INT_MIN | Above => match cpu with X86 => INT_MIN | ARM => INT_MAX end | Within z => z end.
Definition ple (p q : place) : Prop :=
  match p, q with Below, _ | _, Above => True | Within a, Within b => a <= b | _, _ => False end.
Lemma cast_place cpu x : is_nan x = false -> cast cpu x = place_int cpu (place_of x).
Proof.
  destruct x as [s|[|]| |s m e H]; cbn [is_nan]; try discriminate; intros _; try reflexivity.
  unfold cast, place_of. destruct (Btrunc _ <? INT_MIN); [reflexivity|]. destruct (INT_MAX <? Btrunc _); reflexivity.
Qed.
Lemma place_range x z : place_of x = Within z -> INT_MIN <= z <= INT_MAX.
Proof.
  assert (G : (if Btrunc x <? INT_MIN then Below else if INT_MAX <? Btrunc x then Above else Within (Btrunc x)) = Within z -> INT_MIN <= z <= INT_MAX).
  { destruct (Z.ltb_spec (Btrunc x) INT_MIN); [discriminate|]. destruct (Z.ltb_spec INT_MAX (Btrunc x)); [discriminate|]. intros E. injection E as <-. lia. }
  destruct x as [s|[|]| |s m e H]; try exact G; discriminate.
Qed.
Lemma trunc_places (x y : Z) : x <= y ->
  ple (if x <? INT_MIN then Below else if INT_MAX <? x then Above else Within x) (if y <? INT_MIN then Below else if INT_MAX <? y then Above else Within y).
Proof.
  intros L. unfold INT_MIN, INT_MAX. destruct (Z.ltb_spec x (- 2 ^ 31)); [exact I|]. destruct (Z.ltb_spec y (- 2 ^ 31)); [lia|].
  destruct (Z.ltb_spec (2 ^ 31 - 1) y); [destruct (2 ^ 31 - 1 <? x); exact I|]. destruct (Z.ltb_spec (2 ^ 31 - 1) x); [lia|]. exact L.
Qed.
(** Not greater: at most as far up. *)
Lemma not_greater x y : is_nan x = false -> is_nan y = false -> Bltb y x = false -> ple (place_of x) (place_of y).
Proof.
  intros Nx Ny L. destruct (is_finite x) eqn:Fx, (is_finite y) eqn:Fy.
  - rewrite (Bltb_correct 53 1024 y x Fy Fx) in L.
    assert (T : Btrunc x <= Btrunc y).
    { rewrite !trunc_R. apply Ztrunc_le. destruct (Rlt_bool_spec (B2R y) (B2R x)); [discriminate|assumption]. }
    destruct x as [s|s| |s m e H]; cbn in Fx; try discriminate; destruct y as [s'|s'| |s' m' e' H']; cbn in Fy; try discriminate; apply trunc_places; exact T.
  - destruct y as [s'|[|]| |s' m' e' H']; cbn in Fy, Ny; try discriminate.
    + destruct x as [s|s| |s m e H]; cbn in Fx; try discriminate.
    + cbn [place_of]. destruct (place_of x); exact I.
  - destruct x as [s|[|]| |s m e H]; cbn in Fx, Nx; try discriminate.
    + exact I.
    + destruct y as [s'|s'| |s' m' e' H']; cbn in Fy; try discriminate.
  - destruct x as [s|[|]| |s m e H]; cbn in Fx, Nx; try discriminate; destruct y as [s'|[|]| |s' m' e' H']; cbn in Fy, Ny; try discriminate; try exact I.
Qed.
Lemma less_not_greater (x y : double) : Bltb x y = true -> Bltb y x = false.
Proof.
  intros L. destruct (is_finite x) eqn:Fx, (is_finite y) eqn:Fy.
  - rewrite Bltb_correct in * by assumption. destruct (Rlt_bool_spec (B2R x) (B2R y)); [|discriminate]. apply Rlt_bool_false. lra.
  - destruct y as [s'|[|]| |s' m' e' H']; cbn in Fy; try discriminate; destruct x as [s|[|]| |s m e H]; cbn in *; try discriminate; reflexivity.
  - destruct x as [s|[|]| |s m e H]; cbn in Fx; try discriminate; destruct y as [s'|[|]| |s' m' e' H']; cbn in *; try discriminate; try reflexivity; destruct s'; reflexivity.
  - destruct x as [s|[|]| |s m e H]; cbn in Fx; try discriminate; destruct y as [s'|[|]| |s' m' e' H']; cbn in *; try discriminate; reflexivity.
Qed.
Lemma ple_trans a b c : ple a b -> ple b c -> ple a c.
Proof. destruct a, b, c; cbn; try tauto; lia. Qed.

Lemma sort_places a b c f0 f1 f2 : is_nan a = false -> is_nan b = false -> is_nan c = false -> sort3 a b c = (f0, f1, f2) ->
  is_nan f0 = false /\ is_nan f1 = false /\ is_nan f2 = false /\ ple (place_of f0) (place_of f1) /\ ple (place_of f1) (place_of f2).
Proof.
  intros Na Nb Nc. unfold sort3.
  destruct (Bltb b a) eqn:E1; [pose proof (not_greater b a Nb Na (less_not_greater _ _ E1))|pose proof (not_greater a b Na Nb E1)].
  - destruct (Bltb c a) eqn:E2; [destruct (Bltb c b) eqn:E3|]; intros E; injection E as <- <- <-; repeat split; auto.
    + apply not_greater; auto. now apply less_not_greater.
    + apply not_greater; auto.
    + apply not_greater; auto. now apply less_not_greater.
    + apply not_greater; auto.
  - destruct (Bltb c b) eqn:E2; [destruct (Bltb c a) eqn:E3|]; intros E; injection E as <- <- <-; repeat split; auto.
    + apply not_greater; auto. now apply less_not_greater.
    + apply not_greater; auto.
    + apply not_greater; auto. now apply less_not_greater.
    + apply not_greater; auto.
Qed.

(** Inside the array, or zero added one past its end. *)
Definition safe (points : Z) (w : Z * double) : Prop := 0 <= fst w < points \/ fst w = points /\ snd w = zero.

Lemma ramp_safe points step n : forall p diff, 0 <= p -> p + Z.of_nat n <= points -> List.Forall (safe points) (ramp n p diff step).
Proof.
  induction n as [|n IH]; intros p diff L H; cbn [ramp]; constructor.
  - left. cbn. lia.
  - apply IH; lia.
Qed.
Section Machine.
  Variables (cpu : processor) (plus minus times quotient : double -> double -> double) (of_int : Z -> double).
  Lemma left_safe points p pmid l r top f0 f1 : 0 <= p <= pmid -> pmid <= points -> (pmid = points -> r = true) ->
    exists ws, left_tri plus minus times quotient of_int p pmid l r top f0 f1 = Some ws /\ List.Forall (safe points) ws.
  Proof.
    intros H1 H2 H3. unfold left_tri. destruct (Z.eqb_spec p pmid) as [->|N].
    - eexists. split; [reflexivity|]. constructor; [|constructor]. destruct (Z.eq_dec pmid points) as [E|E].
      + right. rewrite (H3 E). cbn. auto.
      + left. cbn. lia.
    - destruct (Z.ltb_spec pmid (p + 1)); [lia|]. eexists. split; [reflexivity|]. constructor; [left; cbn; lia|]. apply Forall_app. split; [apply ramp_safe; lia|].
      constructor; [|constructor]. destruct (Z.eq_dec pmid points) as [E|E].
      + right. rewrite (H3 E). cbn. auto.
      + left. cbn. lia.
  Qed.
  Lemma right_safe points p pmax l r top f1 f2 : 0 <= p <= pmax -> pmax <= points -> (pmax = points -> r = true) ->
    exists ws, right_tri plus minus times quotient of_int p pmax l r top f1 f2 = Some ws /\ List.Forall (safe points) ws.
  Proof.
    intros H1 H2 H3. unfold right_tri. destruct (Z.eqb_spec p pmax) as [->|N].
    - eexists. split; [reflexivity|]. constructor; [|constructor]. destruct (Z.eq_dec pmax points) as [E|E].
      + right. rewrite (H3 E). cbn. auto.
      + left. cbn. lia.
    - destruct (Z.ltb_spec pmax (p + 1)); [lia|]. eexists. split; [reflexivity|]. constructor; [left; cbn; lia|]. apply Forall_app. split; [apply ramp_safe; lia|].
      destruct (Z.eq_dec pmax points) as [E|E]; [rewrite (H3 E); constructor|].
      destruct r; constructor; [left; cbn; lia|constructor].
  Qed.
  Lemma triangle_safe a b c amp points : is_nan a = false -> is_nan b = false -> is_nan c = false -> 0 < points <= INT_MAX ->
    exists ws, triangle cpu plus minus times quotient of_int a b c amp points = Some ws /\ List.Forall (safe points) ws.
  Proof.
    intros Na Nb Nc P. unfold triangle. destruct ((cast cpu a =? cast cpu b) && (cast cpu a =? cast cpu c)).
    { eexists. split; [reflexivity|]. destruct (Z.leb_spec points (cast cpu a)); [constructor|]. destruct (Z.ltb_spec (cast cpu a) 0); constructor; [left; cbn; lia|constructor]. }
    destruct (sort3 a b c) as [[f0 f1] f2] eqn:S. destruct (sort_places a b c f0 f1 f2 Na Nb Nc S) as (N0 & N1 & N2 & L01 & L12).
    rewrite (cast_place cpu f0 N0), (cast_place cpu f1 N1), (cast_place cpu f2 N2).
    destruct (Z.ltb_spec points (place_int cpu (place_of f0))) as [|H0]; [eexists; split; [reflexivity|constructor]|].
    destruct (Z.ltb_spec (place_int cpu (place_of f2)) 0) as [|H2]; [eexists; split; [reflexivity|constructor]|].
    set (p := if place_int cpu (place_of f0) <? 0 then 0 else place_int cpu (place_of f0)).
    set (pmid := if points <=? place_int cpu (place_of f1) then points else place_int cpu (place_of f1)).
    set (pmid' := if pmid <? 0 then 0 else pmid).
    set (pmax := if points <=? place_int cpu (place_of f2) then points else place_int cpu (place_of f2)).
    assert (M : 0 <= p <= pmid' /\ pmid' <= pmax <= points /\ (pmid' = points -> (points <=? place_int cpu (place_of f1)) = true) /\ (pmax = points -> (points <=? place_int cpu (place_of f2)) = true)).
    { pose proof (place_range f0) as R0. pose proof (place_range f1) as R1. pose proof (place_range f2) as R2.
      unfold p, pmid', pmid, pmax, INT_MIN, INT_MAX in *.
      destruct (place_of f0) as [|z0|] eqn:E0, (place_of f1) as [|z1|] eqn:E1, (place_of f2) as [|z2|] eqn:E2; cbn [ple] in L01, L12; try contradiction;
      destruct cpu; cbn [place_int] in *; unfold INT_MIN, INT_MAX in *; try lia;
      repeat match goal with
      | H : forall z, Within ?x = Within z -> _ |- _ => specialize (H x eq_refl)
      | |- context [?x <? ?y] => destruct (Z.ltb_spec x y)
      | |- context [?x <=? ?y] => destruct (Z.leb_spec x y)
      end; repeat split; intros; try reflexivity; try lia. }
    destruct M as (M1 & M2 & M3 & M4).
    destruct (left_safe points p pmid' (place_int cpu (place_of f0) <? 0) (points <=? place_int cpu (place_of f1))
                (quotient (times amp two) (minus f2 f0)) f0 f1 M1 ltac:(lia) M3) as (w1 & E1 & F1).
    destruct (right_safe points pmid' pmax (pmid <? 0) (points <=? place_int cpu (place_of f2))
                (quotient (times amp two) (minus f2 f0)) f1 f2 ltac:(lia) ltac:(lia) M4) as (w2 & E2 & F2).
    rewrite E1, E2. eexists. split; [reflexivity|]. apply Forall_app. auto.
  Qed.
  Lemma delta_safe freq points amp : 0 < points -> List.Forall (fun w => 0 <= fst w < points) (delta_fn cpu plus minus times of_int freq points amp).
  Proof.
    intros P. unfold delta_fn. destruct (Z.leb_spec points (cast cpu freq)); [constructor|]. destruct (Z.ltb_spec (cast cpu freq) 0); [constructor|]. cbn [orb].
    destruct (Bltb _ TOL); [constructor; [cbn; lia|constructor]|]. destruct (Bltb _ half).
    - destruct (Z.eqb_spec (cast cpu freq) 0); cbn; repeat constructor; cbn; lia.
    - destruct (Bltb half _); [|constructor]. destruct (Z.eqb_spec (cast cpu freq + 1) points); cbn; repeat constructor; cbn; lia.
  Qed.
End Machine.
