(** Property theorems about the named methods: the pathways they select (C29, C70).  [half a] is a/2; [jump a b] the transition of
    a single site from m = a/2 to m = b/2. *)
From Coq Require Import ZArith QArith Bool String Qcanon Lia List Sorted Permutation.
From Verif Require Import Base PathwayModel PathwayProofs QueryProofs SelectProofs PropPathway MethodsModel MethodsProofs MethodsSelect.
Import ListNotations.
Open Scope Qc_scope.

(** ** C29 *)
(** Multiple-quantum methods (ThreeQ_VAS, FiveQ_VAS, SevenQ_VAS with mq = 3/2, 5/2, 7/2), whatever the affine matrix: for a site of
    the channel's isotope with spin n/2 there is one pathway, the symmetric transition -mq -> mq (mq -> -mq when mq is the spin)
    followed by the central transition, if n is odd and mq is at most the spin, and none otherwise. *)
Theorem C29_mq : forall (set_perms : list Qc -> list (list Qc)), lists_permutations set_perms ->
  forall (name c : string) (mq2 : Z) (n : nat) (affine : option (list Qc)) queries a tqs h,
  In (name, mq2) [("ThreeQ_VAS"%string, 3%Z); ("FiveQ_VAS"%string, 5%Z); ("SevenQ_VAS"%string, 7%Z)] ->
  MQ_update name (half (Z.of_nat n)) affine = Ok (queries, a) -> Forall2 (tcontents h) tqs (map values_of queries) ->
  fst (get_pathways_np set_perms [c] [c] [n] tqs h) =
  Ok (if (Z.odd (Z.of_nat n) && (mq2 <=? Z.of_nat n)%Z)%bool
      then [[if Z.eqb mq2 (Z.of_nat n) then jump mq2 (- mq2) else jump (- mq2) mq2; jump 1 (-1)]] else []).
Proof.
  intros sp Hp name c mq2 n affine queries a tqs h HN U F.
  assert (U' : queries = [(channel1 [[of_int (if Z.eqb mq2 (Z.of_nat n) then - mq2 else mq2)]], channel1 [[0]]); (channel1 [[of_int (-1)]], channel1 [[0]])]).
  { assert (E : qc_eqb (half mq2) (half (Z.of_nat n)) = Z.eqb mq2 (Z.of_nat n)).
    { unfold qc_eqb. destruct (Qc_eq_dec _ _) as [E|E]; rewrite half_eq in E; symmetry; [apply Z.eqb_eq|apply Z.eqb_neq]; auto. }
    unfold MQ_update in U. assert (L : lookup String.eqb MQ_p_symmetry name = Ok (half mq2)) by (destruct HN as [[= <- <-]|[[= <- <-]|[[= <- <-]|[]]]]; reflexivity).
    rewrite L in U. cbn [bind] in U. assert (T : trunc (of_int 2 * half mq2) = mq2) by (destruct HN as [[= <- <-]|[[= <- <-]|[[= <- <-]|[]]]]; reflexivity).
    rewrite T, E in U. destruct (affine_of _ _ _ _) as [x|]; [|discriminate]. cbn [bind] in U. injection U as <- _. auto. }
  subst queries. cbn [map] in F. inversion F as [|q1 ? l1 ? C1 F1]; subst. inversion F1 as [|q2 ? l2 ? C2 F2]; subst. inversion F2; subst.
  rewrite (C13_pathways sp [c] [c] [n] [q1; q2] _ h ltac:(discriminate) F). cbn [mapM].
  assert (M3 : (3 <= mq2)%Z /\ Z.odd mq2 = true) by (destruct HN as [[= <- <-]|[[= <- <-]|[[= <- <-]|[]]]]; split; try lia; reflexivity). destruct M3 as [M3 MO].
  rewrite (sel_symmetric sp Hp c n q1 h _ C1) by (destruct (Z.eqb _ _); lia). cbn [bind].
  rewrite (sel_symmetric sp Hp c n q2 h _ C2) by lia. cbn [bind].
  assert (O : forall z, Z.odd z = true -> Z.even z = false) by (intros z Hz; rewrite <- Z.negb_odd, Hz; auto).
  set (P := if Z.eqb _ _ then _ else _). assert (OP : Z.odd P = true) by (unfold P; destruct (Z.eqb _ _); rewrite ?Z.odd_opp; auto).
  assert (AP : Z.abs P = mq2) by (unfold P; destruct (Z.eqb _ _); lia). rewrite (O P OP), OP, AP. cbn [andb orb]. rewrite !orb_false_r.
  destruct (Z.odd (Z.of_nat n)) eqn:ON; cbn [andb]; [|reflexivity].
  destruct (mq2 <=? Z.of_nat n)%Z eqn:L; cbn [andb]; [|reflexivity]. apply Z.leb_le in L. replace (Z.abs (-1) <=? Z.of_nat n)%Z with true by (symmetry; apply Z.leb_le; lia).
  cbn. unfold P. destruct (Z.eqb _ _); rewrite ?Z.opp_involutive; reflexivity.
Qed.
Print Assumptions C29_mq.
(** Satellite-transition methods (ST1_VAS, ST2_VAS with st = 3/2, 5/2): the two satellite transitions 1 - st -> -st and
    st -> st - 1, in this order, each followed by the central transition. *)
Theorem C29_st : forall (set_perms : list Qc -> list (list Qc)), lists_permutations set_perms ->
  forall (name c : string) (st2 : Z) (n : nat) (affine : option (list Qc)) queries a tqs h,
  In (name, st2) [("ST1_VAS"%string, 3%Z); ("ST2_VAS"%string, 5%Z)] ->
  ST_update name (half (Z.of_nat n)) affine = Ok (queries, a) -> Forall2 (tcontents h) tqs (map values_of queries) ->
  fst (get_pathways_np set_perms [c] [c] [n] tqs h) =
  Ok (if (Z.odd (Z.of_nat n) && (st2 <=? Z.of_nat n)%Z)%bool
      then [[jump (2 - st2) (- st2); jump 1 (-1)]; [jump st2 (st2 - 2); jump 1 (-1)]] else []).
Proof.
  intros sp Hp name c st2 n affine queries a tqs h HN U F.
  assert (U' : queries = [(channel1 [[of_int (-1)]], channel1 [[of_int (st2 - 1)]; [of_int (- (st2 - 1))]]); (channel1 [[of_int (-1)]], channel1 [[0]])]).
  { unfold ST_update in U. assert (L : lookup String.eqb ST_p_symmetry name = Ok (half st2)) by (destruct HN as [[= <- <-]|[[= <- <-]|[]]]; reflexivity).
    rewrite L in U. cbn [bind] in U. destruct (affine_of _ _ _ _) as [x|]; [|discriminate]. cbn [bind] in U. injection U as <- _.
    destruct HN as [[= <- <-]|[[= <- <-]|[]]]; repeat f_equal; apply Qc_is_canon; reflexivity. }
  subst queries. cbn [map] in F. inversion F as [|q1 ? l1 ? C1 F1]; subst. inversion F1 as [|q2 ? l2 ? C2 F2]; subst. inversion F2; subst.
  rewrite (C13_pathways sp [c] [c] [n] [q1; q2] _ h ltac:(discriminate) F). cbn [mapM].
  assert (M3 : (3 <= st2)%Z /\ Z.even (st2 - 1) = true) by (destruct HN as [[= <- <-]|[[= <- <-]|[]]]; split; try lia; reflexivity). destruct M3 as [M3 MO].
  rewrite (sel_satellite sp Hp c n q1 h _ C1) by (auto; lia). cbn [bind].
  rewrite (sel_symmetric sp Hp c n q2 h _ C2) by lia. cbn [bind].
  replace (st2 - 1 + 1)%Z with st2 by lia. replace (st2 - 1 - 1)%Z with (st2 - 2)%Z by lia. replace (1 - (st2 - 1))%Z with (2 - st2)%Z by lia. replace (- (st2 - 1) - 1)%Z with (- st2)%Z by lia.
  destruct (Z.odd (Z.of_nat n)) eqn:ON; cbn [andb]; [|reflexivity].
  destruct (st2 <=? Z.of_nat n)%Z eqn:L; cbn [andb]; [|reflexivity]. apply Z.leb_le in L. replace (Z.abs (-1) <=? Z.of_nat n)%Z with true by (symmetry; apply Z.leb_le; lia).
  reflexivity.
Qed.
Print Assumptions C29_st.
(** Without an affine matrix from the user the methods exist exactly for the half-integer spins up to 9/2 that have the transition;
    any other spin of the channel is a KeyError. *)
Theorem C29_available : forall (n : nat),
  (forall name mq2, In (name, mq2) [("ThreeQ_VAS"%string, 3%Z); ("FiveQ_VAS"%string, 5%Z); ("SevenQ_VAS"%string, 7%Z)] ->
     if (Z.odd (Z.of_nat n) && (mq2 <=? Z.of_nat n)%Z && (Z.of_nat n <=? 9)%Z)%bool
     then exists r, MQ_update name (half (Z.of_nat n)) None = Ok r else MQ_update name (half (Z.of_nat n)) None = Err KeyError) /\
  (forall name st2, In (name, st2) [("ST1_VAS"%string, 3%Z); ("ST2_VAS"%string, 5%Z)] ->
     if (Z.odd (Z.of_nat n) && (st2 <=? Z.of_nat n)%Z && (Z.of_nat n <=? 9)%Z)%bool
     then exists r, ST_update name (half (Z.of_nat n)) None = Ok r else ST_update name (half (Z.of_nat n)) None = Err KeyError).
Proof.
  intros n. destruct (Z.leb_spec (Z.of_nat n) 9) as [L|G].
  - assert (E : (n < 10)%nat) by lia. do 10 (destruct n as [|n]; [split; intros name z HN; repeat (destruct HN as [[= <- <-]|HN]); try contradiction; cbn; try reflexivity; eexists; reflexivity|]). lia.
  - assert (Q : forall k, (k <= 9)%Z -> qc_eqb (half (Z.of_nat n)) (half k) = false).
    { intros k Hk. unfold qc_eqb. destruct (Qc_eq_dec _ _) as [E|]; auto. rewrite half_eq in E. lia. }
    split; intros name z HN; rewrite andb_false_r; repeat (destruct HN as [[= <- <-]|HN]); try contradiction;
      unfold MQ_update, ST_update, affine_of, shear; cbn [lookup MQ_p_symmetry ST_p_symmetry String.eqb Ascii.eqb Bool.eqb bind].
    all: match goal with |- context[lookup Z.eqb ?t ?k] => let k' := eval vm_compute in k in change k with k' end.
    all: cbn [lookup shear_factor_MQ_MAS shear_factor_ST_MAS Z.eqb Pos.eqb bind]; rewrite ?(Q 3%Z), ?(Q 5%Z), ?(Q 7%Z), ?(Q 9%Z) by lia; reflexivity.
Qed.
Print Assumptions C29_available.
(** ThreeQ_VAS on spin 5/2: the query objects of its two events. *)
Example C29_example :
  let h := [[of_int 3]; [0]; [of_int (-1)]; [0]] in
  let tqs := [{| tq_P := Some [(1%nat, [0%nat])]; tq_D := Some [(1%nat, [1%nat])] |}; {| tq_P := Some [(1%nat, [2%nat])]; tq_D := Some [(1%nat, [3%nat])] |}] in
  exists queries a, MQ_update "ThreeQ_VAS" (half (Z.of_nat 5)) None = Ok (queries, a) /\ Forall2 (tcontents h) tqs (map values_of queries).
Proof. eexists _, _. split; [reflexivity|]. repeat constructor. Qed.
Example C29_st_example :
  let h := [[of_int (-1)]; [half 3 * half 3 - (half 3 - 1) * (half 3 - 1)]; [- (half 3 * half 3 - (half 3 - 1) * (half 3 - 1))]; [of_int (-1)]; [0]] in
  let tqs := [{| tq_P := Some [(1%nat, [0%nat])]; tq_D := Some [(1%nat, [1%nat; 2%nat])] |}; {| tq_P := Some [(1%nat, [3%nat])]; tq_D := Some [(1%nat, [4%nat])] |}] in
  exists queries a, ST_update "ST1_VAS" (half (Z.of_nat 3)) None = Ok (queries, a) /\ Forall2 (tcontents h) tqs (map values_of queries).
Proof. eexists _, _. split; [reflexivity|]. repeat constructor. Qed.

(** ** C70 *)
(** BlochDecaySpectrum: for a site of spin n/2 exactly the n transitions m -> m - 1, by increasing m. *)
Theorem C70_bloch_decay : forall (set_perms : list Qc -> list (list Qc)), lists_permutations set_perms ->
  forall (c : string) (n : nat) tq h, tcontents h tq (values_of BlochDecay_query) ->
  fst (get_pathways_np set_perms [c] [c] [n] [tq] h) =
  Ok (map (fun k => let m := (2 * Z.of_nat k - Z.of_nat n)%Z in [jump m (m - 2)]) (seq 1 n)).
Proof.
  intros sp Hp c n tq h C. rewrite (C13_pathways sp [c] [c] [n] [tq] [values_of BlochDecay_query] h ltac:(discriminate) ltac:(constructor; auto)). cbn [mapM].
  rewrite (sel_single_quantum sp Hp c n tq h C). cbn [bind]. f_equal.
  assert (G : forall (A : Type) (g : nat -> A) l, all_choices [map g l] = map (fun k => [g k]) l).
  { intros A g l. induction l as [|x l IH]; [reflexivity|]. cbn [all_choices flat_map map app] in *. f_equal. exact IH. }
  apply G.
Qed.
Print Assumptions C70_bloch_decay.
(** BlochDecayCTSpectrum: exactly the central transition for half-integer spins, nothing for integer spins. *)
Theorem C70_bloch_decay_ct : forall (set_perms : list Qc -> list (list Qc)), lists_permutations set_perms ->
  forall (c : string) (n : nat) tq h, tcontents h tq (values_of BlochDecayCT_query) ->
  fst (get_pathways_np set_perms [c] [c] [n] [tq] h) = Ok (if Nat.odd n then [[jump 1 (-1)]] else []).
Proof.
  intros sp Hp c n tq h C. rewrite (C13_pathways sp [c] [c] [n] [tq] [values_of BlochDecayCT_query] h ltac:(discriminate) ltac:(constructor; auto)). cbn [mapM].
  rewrite (sel_symmetric sp Hp c n tq h _ C) by lia. cbn [bind]. change (Z.odd (-1)) with true. change (Z.even (-1)) with false. cbn [andb orb]. rewrite orb_false_r.
  assert (O : Z.odd (Z.of_nat n) = Nat.odd n).
  { destruct (Nat.odd n) eqn:E; [apply Nat.odd_spec in E; destruct E as [k ->]; apply Z.odd_spec; exists (Z.of_nat k); lia|].
    rewrite <- Nat.negb_even in E. apply negb_false_iff in E. apply Nat.even_spec in E. destruct E as [k ->]. rewrite <- Z.negb_even. apply negb_false_iff. apply Z.even_spec. exists (Z.of_nat k). lia. }
  rewrite O. destruct (Nat.odd n) eqn:E; [|reflexivity]. assert (n <> 0)%nat by (intros ->; discriminate).
  cbn [andb]. replace (Z.abs (-1) <=? Z.of_nat n)%Z with true by (symmetry; apply Z.leb_le; lia). reflexivity.
Qed.
Print Assumptions C70_bloch_decay_ct.
Example C70_example : tcontents [[of_int (-1)]; [0]] {| tq_P := Some [(1%nat, [0%nat])]; tq_D := None |} (values_of BlochDecay_query) /\
  tcontents [[of_int (-1)]; [0]] {| tq_P := Some [(1%nat, [0%nat])]; tq_D := Some [(1%nat, [1%nat])] |} (values_of BlochDecayCT_query).
Proof. repeat constructor. Qed.

(** ** C81 *)
(** An affine matrix given by the user is used as it is, for every spin, those without a built-in shear included. *)
Theorem C81_user_affine : forall (m : list Qc) (spin : Qc),
  (forall name, In name ["ThreeQ_VAS"; "FiveQ_VAS"; "SevenQ_VAS"]%string -> exists q, MQ_update name spin (Some m) = Ok (q, m)) /\
  (forall name, In name ["ST1_VAS"; "ST2_VAS"]%string -> exists q, ST_update name spin (Some m) = Ok (q, m)) /\
  exists q, SSB2D_update (Some m) = (q, m).
Proof.
  intros m spin. split; [|split].
  - intros name [<-|[<-|[<-|[]]]]; eexists; reflexivity.
  - intros name [<-|[<-|[]]]; eexists; reflexivity.
  - eexists. reflexivity.
Qed.
Print Assumptions C81_user_affine.
Example C81_user_affine_case : MQ_update "ThreeQ_VAS" (half 1) None = Err KeyError /\ exists q, MQ_update "ThreeQ_VAS" (half 1) (Some [1; 0; 0; 1]) = Ok (q, [1; 0; 0; 1]).
Proof. split; [reflexivity|]. eexists. reflexivity. Qed.
(** SSB2D with no matrix given: a site with isotropic frequency s and, when spinning at a finite speed, frequency s + x, lands at x along the
    sideband dimension and at s along the isotropic dimension. *)
Theorem C81_ssb2d_affine : forall (q : list query) (m : list Qc), SSB2D_update None = (q, m) ->
  exists a b c d, m = [a; b; c; d] /\ forall s x, a * (s + x) + b * s = x /\ c * (s + x) + d * s = s.
Proof.
  intros q m H. injection H as _ <-. do 4 eexists. split; [reflexivity|]. intros s x. replace (of_int (-1)) with (- (1 : Qc)) by (apply Qc_is_canon; reflexivity). split; ring.
Qed.
Print Assumptions C81_ssb2d_affine.
Example C81_ssb2d_affine_case : exists q m, SSB2D_update None = (q, m). Proof. do 2 eexists. reflexivity. Qed.
(** Both events select the central transition of half-integer spins and nothing of integer spins, whatever the affine matrix. *)
Theorem C81_ssb2d_pathways : forall (set_perms : list Qc -> list (list Qc)), lists_permutations set_perms ->
  forall (c : string) (n : nat) affine tqs h, Forall2 (tcontents h) tqs (map values_of (fst (SSB2D_update affine))) ->
  fst (get_pathways_np set_perms [c] [c] [n] tqs h) = Ok (if Nat.odd n then [[jump 1 (-1); jump 1 (-1)]] else []).
Proof.
  intros sp Hp c n affine tqs h F. cbn [SSB2D_update fst map] in F.
  inversion F as [|q1 ? l1 ? C1 F1]; subst. inversion F1 as [|q2 ? l2 ? C2 F2]; subst. inversion F2; subst.
  rewrite (C13_pathways sp [c] [c] [n] [q1; q2] _ h ltac:(discriminate) F). cbn [mapM].
  rewrite (sel_symmetric sp Hp c n q1 h _ C1) by lia. cbn [bind]. rewrite (sel_symmetric sp Hp c n q2 h _ C2) by lia. cbn [bind].
  change (Z.odd (-1)) with true. change (Z.even (-1)) with false. cbn [andb orb]. rewrite orb_false_r.
  assert (O : Z.odd (Z.of_nat n) = Nat.odd n).
  { destruct (Nat.odd n) eqn:E; [apply Nat.odd_spec in E; destruct E as [k ->]; apply Z.odd_spec; exists (Z.of_nat k); lia|].
    rewrite <- Nat.negb_even in E. apply negb_false_iff in E. apply Nat.even_spec in E. destruct E as [k ->]. rewrite <- Z.negb_even. apply negb_false_iff. apply Z.even_spec. exists (Z.of_nat k). lia. }
  rewrite O. destruct (Nat.odd n) eqn:E; [|reflexivity]. assert (n <> 0)%nat by (intros ->; discriminate).
  cbn [andb]. replace (Z.abs (-1) <=? Z.of_nat n)%Z with true by (symmetry; apply Z.leb_le; lia). reflexivity.
Qed.
Print Assumptions C81_ssb2d_pathways.
Example C81_ssb2d_pathways_case : let tq := {| tq_P := Some [(1%nat, [0%nat])]; tq_D := Some [(1%nat, [1%nat])] |} in
  Forall2 (tcontents [[of_int (-1)]; [0]]) [tq; tq] (map values_of (fst (SSB2D_update None))).
Proof. repeat constructor. Qed.
(** With dimensions given as dicts the method is made exactly when the keyword rotor_frequency is given and not zero, and the first
    dimension then spins at that frequency; without it the error is ValueError if no event has a frequency, and KeyError otherwise. *)
Theorem C81_ssb2d_rotor : forall (keyword : option Qc) dimensions,
  (forall r, SSB2D_rotor false keyword dimensions = Ok r <-> exists f, keyword = Some f /\ f <> 0 /\ r = Some f) /\
  (forall e, SSB2D_rotor false keyword dimensions = Err e ->
    e = ValueError \/ e = KeyError /\ exists evs f, In (Some evs) dimensions /\ In (Some f) evs).
Proof.
  intros keyword dimensions. unfold SSB2D_rotor. split.
  - intros r. destruct keyword as [f|].
    + unfold qc_eqb. destruct (Qc_eq_dec f 0) as [Z|N]; split.
      * discriminate. * intros [g [[= <-] [N _]]]. contradiction. * intros [= <-]. eauto. * intros [g [[= <-] [_ ->]]]. reflexivity.
    + split; [destruct (forallb _ _); discriminate | intros [f [? _]]; discriminate].
  - intros e H. destruct keyword as [f|]; [destruct (qc_eqb f 0); [injection H as <-; auto | discriminate]|].
    destruct (forallb _ _) eqn:F; [injection H as <-; auto|]. injection H as <-. right. split; [reflexivity|].
    assert (G : exists b, In b (flat_map (fun item => match item with Some evs => map (fun ev : option Qc => match ev with None => true | _ => false end) evs | None => [] end) dimensions) /\ b = false).
    { revert F. generalize (flat_map (fun item : option (list (option Qc)) => match item with Some evs => map (fun ev : option Qc => match ev with None => true | _ => false end) evs | None => [] end) dimensions). induction l as [|b l IH]; cbn; [discriminate|]. destruct b; cbn; [|eauto].
      intros F. destruct (IH F) as [b [I E]]. eauto. }
    destruct G as [b [G E]]. apply in_flat_map in G as [[evs|] [I1 I2]]; [|destruct I2]. apply in_map_iff in I2 as [[f|] [E2 I3]]; [|congruence]. eauto.
Qed.
Print Assumptions C81_ssb2d_rotor.
Example C81_ssb2d_rotor_case : SSB2D_rotor false None [Some [Some 1; None]; None] = Err KeyError /\ SSB2D_rotor false (Some 1) [None; None] = Ok (Some 1) /\
  SSB2D_rotor false (Some 0) [Some [Some 1]] = Err ValueError.
Proof. repeat split. Qed.
