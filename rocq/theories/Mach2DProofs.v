(** Proofs for the two dimensional part of C100. *)
From Coq Require Import ZArith Bool List Lia.
From Flocq Require Import IEEE754.BinarySingleNaN.
From Verif Require Import MachModel MachSpec MachProofs Mach2DModel.
Import ListNotations.
Open Scope Z_scope.

Definition in_rows (m0 : Z) (c : call) : Prop := 0 <= row c < m0.
Definition number_call (c : call) : Prop := is_nan (ya c) = false /\ is_nan (yb c) = false /\ is_nan (yc c) = false.

Lemma sort_pairs_places (a b c x0 x1 x2 : double * double) : is_nan (fst a) = false -> is_nan (fst b) = false -> is_nan (fst c) = false -> sort3_pairs a b c = (x0, x1, x2) ->
  is_nan (fst x0) = false /\ is_nan (fst x1) = false /\ is_nan (fst x2) = false /\ ple (place_of (fst x0)) (place_of (fst x1)) /\ ple (place_of (fst x1)) (place_of (fst x2)).
Proof.
  intros Na Nb Nc E. apply (sort_places (fst a) (fst b) (fst c)); auto. revert E. unfold sort3_pairs, sort3.
  destruct (Bltb (fst b) (fst a)); cbv beta iota zeta.
  - destruct (Bltb (fst c) (fst a)); [destruct (Bltb (fst c) (fst b))|]; intros E; injection E as <- <- <-; reflexivity.
  - destruct (Bltb (fst c) (fst b)); [destruct (Bltb (fst c) (fst a))|]; intros E; injection E as <- <- <-; reflexivity.
Qed.
Section Machine2D.
  Variables (cpu : processor) (plus minus times quotient : double -> double -> double) (of_int : Z -> double) (negate : double -> double) (unset : double * double).
  Lemma section_rows m0 p a b c d u w e s : 0 <= p < m0 -> List.Forall (in_rows m0) (section times quotient p a b c d u w e s).
  Proof. intros H. unfold section. destruct (Beqb e zero); repeat constructor; cbn; lia. Qed.
  Lemma rows_rows m0 n : forall p diff df s1 s2 step y10 y11 up down denom, 0 <= p -> p + Z.of_nat n <= m0 ->
    List.Forall (in_rows m0) (fst (rows plus times quotient n p diff df s1 s2 step y10 y11 up down denom)).
  Proof.
    induction n as [|n IH]; intros p diff df s1 s2 step y10 y11 up down denom H1 H2; cbn [rows]; [constructor|].
    match goal with |- context [rows _ _ _ n ?a ?b ?c ?d ?e ?f ?g ?h ?i ?j ?k] => pose proof (IH a b c d e f g h i j k ltac:(lia) ltac:(lia)) as R; destruct (rows plus times quotient n a b c d e f g h i j k) as [cs r] end.
    cbn [fst] in *. apply Forall_app. split; [apply section_rows; lia|exact R].
  Qed.
  Lemma before_rows m0 p pmid l1 r1 l2 top x0 y0 x1 y1 s02 : 0 <= p <= pmid -> pmid <= m0 -> (pmid = m0 -> r1 = true) ->
    exists cs mid, before_mid plus minus times quotient of_int unset p pmid l1 r1 l2 top x0 y0 x1 y1 s02 = Some (cs, mid) /\ List.Forall (in_rows m0) cs.
  Proof.
    intros H1 H2 H3. unfold before_mid. destruct l2; [do 2 eexists; split; [reflexivity|constructor]|].
    destruct (Z.eqb_spec p pmid) as [->|N].
    - destruct r1; cbn [negb andb]; [do 2 eexists; split; [reflexivity|constructor]|]. destruct l1; cbn [negb]; do 2 eexists; (split; [reflexivity|]); repeat constructor; cbn; lia.
    - destruct (Z.ltb_spec pmid (p + 1)); [lia|].
      match goal with |- context [rows _ _ _ ?n ?a ?b ?c ?d ?e ?f ?g ?h ?i ?j ?k] => pose proof (rows_rows m0 n a b c d e f g h i j k ltac:(lia) ltac:(lia)) as R; destruct (rows plus times quotient n a b c d e f g h i j k) as [cs [[[u1 u2] u3] u4]] end.
      cbn [fst] in R.
      assert (P1 : forall a b c d (A B : list call), List.Forall (in_rows m0) B -> List.Forall (in_rows m0) ((if negb l1 then [Call p a b c d] else A) ++ B) \/ ~ List.Forall (in_rows m0) A).
      { intros a b c d A B FB. destruct l1; cbn [negb].
        - destruct (Forall_dec (in_rows m0) (fun c => match Z_le_dec 0 (row c), Z_lt_dec (row c) m0 with left a, left b => left (conj a b) | right a, _ => right (fun h => a (proj1 h)) | _, right b => right (fun h => b (proj2 h)) end) A) as [F|F].
          + left. apply Forall_app. auto.
          + right. exact F.
        - left. constructor; [unfold in_rows; cbn; lia|exact FB]. }
      destruct r1; cbn [negb].
      + do 2 eexists. split; [reflexivity|].
        match goal with |- List.Forall _ ((if _ then [Call _ ?a ?b ?c ?d] else ?A) ++ ?B) => destruct (P1 a b c d A B R) as [Q|Q]; [exact Q|exfalso; apply Q; apply section_rows; lia] end.
      + assert (L : pmid < m0) by (destruct (Z.eq_dec pmid m0) as [E|]; [discriminate (H3 E)|lia]).
        do 2 eexists. split; [reflexivity|].
        match goal with |- List.Forall _ ((if _ then [Call _ ?a ?b ?c ?d] else ?A) ++ ?B) => destruct (P1 a b c d A B) as [Q|Q]; [|exact Q|exfalso; apply Q; apply section_rows; lia] end.
        apply Forall_app. split; [exact R|]. destruct (Beqb u4 zero); repeat constructor; cbn; lia.
  Qed.
  Lemma after_rows m0 p pmax l2 r2 top x0 y0 x1 y1 x2 y2 s02 mid : 0 <= p <= pmax -> pmax <= m0 -> (pmax = m0 -> r2 = true) ->
    exists cs, after_mid plus minus times quotient of_int negate p pmax l2 r2 top x0 y0 x1 y1 x2 y2 s02 mid = Some cs /\ List.Forall (in_rows m0) cs.
  Proof.
    intros H1 H2 H3. unfold after_mid. destruct (Z.eqb_spec p pmax) as [->|N].
    - destruct r2; cbn [negb]; eexists; (split; [reflexivity|]); repeat constructor; cbn; lia.
    - destruct (Z.ltb_spec pmax (p + 1)); [lia|].
      match goal with |- context [if negb l2 then (?a1, (?a2, ?a3, ?a4)) else (?b1, (?b2, ?b3, ?b4))] => set (q := if negb l2 then (a1, (a2, a3, a4)) else (b1, (b2, b3, b4))) end.
      assert (Q : List.Forall (in_rows m0) (fst q)) by (unfold q; destruct l2; cbn [negb fst]; apply section_rows; lia).
      destruct q as [part4 [[y10 y11] down]]. cbn [fst] in Q.
      match goal with |- context [rows _ _ _ ?n ?a ?b ?c ?d ?e ?f ?g ?h ?i ?j ?k] => pose proof (rows_rows m0 n a b c d e f g h i j k ltac:(lia) ltac:(lia)) as R; destruct (rows plus times quotient n a b c d e f g h i j k) as [cs [[[u1 u2] u3] u4]] end.
      cbn [fst] in R. eexists. split; [reflexivity|]. apply Forall_app. split; [exact Q|]. apply Forall_app. split; [exact R|].
      destruct r2; cbn [negb]; repeat constructor; cbn; lia.
  Qed.
  Lemma calls_rows (x1 x2 x3 y1 y2 y3 amp : double) m0 : is_nan x1 = false -> is_nan x2 = false -> is_nan x3 = false -> 0 < m0 <= INT_MAX ->
    exists cs, calls2D cpu plus minus times quotient of_int negate unset x1 x2 x3 y1 y2 y3 amp m0 = Some cs /\ List.Forall (in_rows m0) cs.
  Proof.
    intros Na Nb Nc P. unfold calls2D. destruct (Bltb _ TOL && Bltb _ TOL).
    { destruct (Z.leb_spec m0 (cast cpu x1)); cbn [orb]; [eexists; split; [reflexivity|constructor]|].
      destruct (Z.ltb_spec (cast cpu x1) 0); [eexists; split; [reflexivity|constructor]|].
      destruct (Bltb _ TOL); [eexists; split; [reflexivity|]; repeat constructor; cbn; lia|]. destruct (Bltb _ half).
      - eexists; split; [reflexivity|]. destruct (Z.eqb_spec (cast cpu x1) 0); cbn; repeat constructor; cbn; lia.
      - destruct (Bltb half _); [|eexists; split; [reflexivity|constructor]].
        eexists; split; [reflexivity|]. destruct (Z.eqb_spec (cast cpu x1 + 1) m0); cbn; repeat constructor; cbn; lia. }
    destruct ((cast cpu x1 =? cast cpu x2) && (cast cpu x1 =? cast cpu x3)).
    { destruct (Z.leb_spec m0 (cast cpu x1)); cbn [orb]; [eexists; split; [reflexivity|constructor]|].
      destruct (Z.ltb_spec (cast cpu x1) 0); eexists; (split; [reflexivity|]); repeat constructor; cbn; lia. }
    destruct (sort3_pairs (x1, y1) (x2, y2) (x3, y3)) as [[[f0 g0] [f1 g1]] [f2 g2]] eqn:S.
    destruct (sort_pairs_places (x1, y1) (x2, y2) (x3, y3) _ _ _ Na Nb Nc S) as (N0 & N1 & N2 & L01 & L12). cbn [fst] in N0, N1, N2, L01, L12. cbv zeta.
    rewrite (cast_place cpu f0 N0), (cast_place cpu f1 N1), (cast_place cpu f2 N2).
    destruct (Z.ltb_spec m0 (place_int cpu (place_of f0))) as [|H0]; [eexists; split; [reflexivity|constructor]|].
    destruct (Z.ltb_spec (place_int cpu (place_of f2)) 0) as [|H2]; [eexists; split; [reflexivity|constructor]|].
    set (p := if place_int cpu (place_of f0) <? 0 then 0 else place_int cpu (place_of f0)).
    set (pmid := if m0 <=? place_int cpu (place_of f1) then m0 else place_int cpu (place_of f1)).
    set (pmid' := if pmid <? 0 then 0 else pmid).
    set (pmax := if m0 <=? place_int cpu (place_of f2) then m0 else place_int cpu (place_of f2)).
    assert (M : 0 <= p <= pmid' /\ pmid' <= pmax <= m0 /\ (pmid' = m0 -> (m0 <=? place_int cpu (place_of f1)) = true) /\ (pmax = m0 -> (m0 <=? place_int cpu (place_of f2)) = true)).
    { pose proof (place_range f0) as R0. pose proof (place_range f1) as R1. pose proof (place_range f2) as R2.
      unfold p, pmid', pmid, pmax, INT_MIN, INT_MAX in *.
      destruct (place_of f0) as [|z0|] eqn:E0, (place_of f1) as [|z1|] eqn:E1, (place_of f2) as [|z2|] eqn:E2; cbn [ple] in L01, L12; try contradiction;
      destruct cpu; cbn [place_int] in *; unfold INT_MIN, INT_MAX in *; try lia;
      repeat match goal with
      | H : forall z, Within ?x = Within z -> _ |- _ => specialize (H x eq_refl)
      | |- context [?x <? ?y] => destruct (Z.ltb_spec x y)
      | |- context [?x <=? ?y] => destruct (Z.leb_spec x y)
      end; repeat split; intros; try reflexivity; try lia. }
    destruct M as (M1 & M2 & M3 & M4).
    match goal with |- context [before_mid _ _ _ _ _ _ p pmid' ?l ?r ?l2 ?t ?a ?b ?c ?d ?s] =>
      destruct (before_rows m0 p pmid' l r l2 t a b c d s M1 ltac:(lia) M3) as (c1 & mid & E1 & F1); rewrite E1 end.
    match goal with |- context [after_mid _ _ _ _ _ _ ?q pmax ?l ?r ?t ?a ?b ?c ?d ?e ?f ?s mid] =>
      destruct (after_rows m0 q pmax l r t a b c d e f s mid ltac:(destruct (pmid <? 0); lia) ltac:(lia) M4) as (c2 & E2 & F2); rewrite E2 end.
    eexists. split; [reflexivity|]. apply Forall_app. auto.
  Qed.
End Machine2D.
