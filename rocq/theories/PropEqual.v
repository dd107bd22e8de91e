(** C115: the comparison of methods, of simulators and of lists with [==]. *)
From Coq Require Import ZArith QArith Qcanon Bool String List Lia.
From Verif Require Import Base EqualModel EqualSpec EqualProofs.
Import ListNotations.
Open Scope list_scope.

(** Two methods that compare equal are the same in every attribute, and their affine matrices have the same elements.  Missing: affine matrices given
    with three axes or more ([C115_axes_refuted]) and simulations left as bare arrays ([C115_array_refuted]). *)
Theorem C115_equal_partial : forall {D C : Type} (dim_eqb : D -> D -> bool) (csdm_eqb : C -> C -> bool) (mixed : C -> array -> outcome) (single : pyres bool),
  decides dim_eqb -> decides csdm_eqb -> forall x y : emethod D C,
  validated x -> validated y -> at_most_two_axes x -> at_most_two_axes y -> packed x -> packed y ->
  method_eq dim_eqb csdm_eqb mixed single x y = Ok true -> same_method x y.
Proof. intros D C dim csdm mixed single HD HC x y. exact (meq_equal dim csdm mixed single HD HC x y). Qed.
Print Assumptions C115_equal_partial.

(** For methods whose affine matrix is square in form, or absent, [==] answers exactly whether the methods are the same. *)
Theorem C115_square : forall {D C : Type} (dim_eqb : D -> D -> bool) (csdm_eqb : C -> C -> bool) (mixed : C -> array -> outcome) (single : pyres bool),
  decides dim_eqb -> decides csdm_eqb -> forall x y : emethod D C,
  validated x -> validated y -> square x -> square y -> packed x -> packed y ->
  exists b, method_eq dim_eqb csdm_eqb mixed single x y = Ok b /\ (b = true <-> same_method x y).
Proof. intros D C dim csdm mixed single HD HC x y. exact (meq_square dim csdm mixed single HD HC x y). Qed.
Print Assumptions C115_square.
(** The affine matrices a method can have: as many elements as a square matrix of the dimensions has, the first of them not zero. *)
Theorem C115_affine : forall {D C : Type} (m : emethod D C) a, validated m -> affine m = Some a ->
  length (data a) = (length (dims m) * length (dims m))%nat /\ exists x r, data a = x :: r /\ x <> 0%Qc.
Proof.
  intros D C m a [_ V] A. rewrite A in V. unfold validate_affine in V. destruct (Nat.eqb_spec (length (data a)) (length (dims m) * length (dims m))) as [L|]; [|discriminate].
  split; [exact L|]. cbn [negb] in V. destruct (data a) as [|x r]; [discriminate|]. exists x, r. split; [reflexivity|]. intros ->.
  assert (E : Qc_eq_bool 0 0 = true) by reflexivity. rewrite E in V. discriminate.
Qed.
Print Assumptions C115_affine.

(** Whatever the form of the affine matrices, the comparison does not depend on the order of the operands. *)
Theorem C115_symmetric : forall {D C : Type} (dim_eqb : D -> D -> bool) (csdm_eqb : C -> C -> bool) (mixed : C -> array -> outcome) (single : pyres bool),
  decides dim_eqb -> decides csdm_eqb -> forall x y : emethod D C, packed x -> packed y ->
  method_eq dim_eqb csdm_eqb mixed single x y = method_eq dim_eqb csdm_eqb mixed single y x.
Proof.
  intros D C dim csdm mixed single HD HC x y PX PY. destruct (meq_scalar dim csdm mixed single HD HC x y PX PY) as (b & E & B). destruct (meq_scalar dim csdm mixed single HD HC y x PY PX) as (c & F & G).
  rewrite E, F. f_equal. assert (S : affine_eqb (affine x) (affine y) = affine_eqb (affine y) (affine x)) by (unfold affine_eqb; destruct (affine x), (affine y); cbn; auto using np_equal_sym).
  rewrite S in B. apply eq_true_iff_eq. rewrite B, G. split; intros (H1 & H2 & H3 & H4 & H5 & H6 & H7 & H8); repeat (split; [congruence|]); congruence.
Qed.
Print Assumptions C115_symmetric.

(** Two simulators compare equal exactly when name, label, description, spin systems, methods and configuration are the same. *)
Theorem C115_simulator : forall {D C S G : Type} (dim_eqb : D -> D -> bool) (csdm_eqb : C -> C -> bool) (mixed : C -> array -> outcome) (single : pyres bool)
    (system_eqb : S -> S -> bool) (config_eqb : G -> G -> bool),
  decides dim_eqb -> decides csdm_eqb -> decides system_eqb -> decides config_eqb -> forall x y : esimulator,
  (forall m, In m (s_methods x) \/ In m (s_methods y) -> validated m /\ square m /\ packed m) ->
  exists b, simulator_eq dim_eqb csdm_eqb mixed single system_eqb config_eqb x y = Ok b /\ (b = true <-> same_simulator x y).
Proof.
  intros D C S G dim csdm mixed single sys cfg HD HC HS HG x y R. apply (simulators_ready dim csdm mixed single HD HC sys cfg HS HG x y); apply Forall_forall; intros m M; apply R; auto.
Qed.
Print Assumptions C115_simulator.

(** Two of the lists of the library compare equal exactly when they have the same class and the same items; the order of the operands does not matter. *)
Theorem C115_lists : forall {A : Type} (eqb : A -> A -> bool), decides eqb -> forall x y : alist,
  (python_eq eqb x y = true <-> a_class x = a_class y /\ a_items x = a_items y) /\ python_eq eqb x y = python_eq eqb y x.
Proof.
  intros A eqb HA x y. split.
  - rewrite (python_eq_iff eqb HA x y). destruct x, y. cbn. split; [intros [= -> ->]; auto|intros [-> ->]; auto].
  - apply eq_true_iff_eq. rewrite !(python_eq_iff eqb HA). split; congruence.
Qed.
Print Assumptions C115_lists.

(** ** Where the comparison fails *)
Definition q (z : Z) : Qc := Q2Qc (inject_Z z).
Definition plain (n : nat) (a : option array) (r : result unit) : emethod unit unit := mkE None None None ["1H"%string] (repeat tt n) a r None.
Definition unit_eqb (_ _ : unit) : bool := true.
Lemma unit_decides : decides unit_eqb.
Proof. intros [] []. split; reflexivity. Qed.
Definition meq1 := method_eq unit_eqb unit_eqb (fun _ _ => Scalar false) (Ok true).
(** With three axes, two different affine matrices compare equal: [[[1], [2]], [[1], [2]]] and [[1, 1], [2, 2]]. *)
Definition three_axes := mkArray [2; 2; 1]%nat [q 1; q 2; q 1; q 2].
Definition two_by_two := mkArray [2; 2]%nat [q 1; q 1; q 2; q 2].
Theorem C115_axes_refuted : exists x y : emethod unit unit,
  validated x /\ validated y /\ packed x /\ packed y /\ ~ same_method x y /\ meq1 x y = Ok true.
Proof.
  exists (plain 2 (Some three_axes) Nothing), (plain 2 (Some two_by_two) Nothing). repeat split.
  intros (_ & _ & _ & _ & _ & E & _). cbn in E. injection E as E. discriminate E.
Qed.
Print Assumptions C115_axes_refuted.
(** The identity given flat, [1, 0, 0, 1], and given as a matrix are the same transformation, but the methods compare unequal. *)
Definition flat := mkArray [4]%nat [q 1; q 0; q 0; q 1].
Definition matrix := mkArray [2; 2]%nat [q 1; q 0; q 0; q 1].
Theorem C115_flat_refuted : exists x y : emethod unit unit,
  validated x /\ validated y /\ at_most_two_axes x /\ at_most_two_axes y /\ packed x /\ packed y /\ same_method x y /\ meq1 x y = Ok false.
Proof. exists (plain 2 (Some flat) Nothing), (plain 2 (Some matrix) Nothing). repeat split; cbn; lia. Qed.
Print Assumptions C115_flat_refuted.
(** After [run(pack_as_csdm=False)] the simulation is an array.  A method with an array of several elements cannot be compared with itself, nor with a
    method that has not been simulated: ValueError, whatever the other attributes. *)
Theorem C115_array_refuted : forall {D C : Type} (dim_eqb : D -> D -> bool) (csdm_eqb : C -> C -> bool) (mixed : C -> array -> outcome) (single : pyres bool)
    (x y : emethod D C) (a : array), simulation x = Unpacked a -> size (shape a) <> 1%nat -> simulation y = Unpacked a \/ simulation y = Nothing ->
  method_eq dim_eqb csdm_eqb mixed single x y = Err ValueError /\ method_eq dim_eqb csdm_eqb mixed single y x = Err ValueError.
Proof.
  intros D C dim csdm mixed single x y a X N [Y|Y]; split; apply (meq_array dim csdm mixed single _ _ (size (shape a))); auto; rewrite X, Y; cbn; auto;
    unfold together; rewrite Nat.max_id, pad_same, broadcast_refl; reflexivity.
Qed.
Print Assumptions C115_array_refuted.

(** ** The hypotheses are met *)
Definition shear := mkArray [2; 2]%nat [q 1; q 2; q 0; q 1].
Example method_met : let m := plain 2 (Some shear) (Packed tt) in validated m /\ square m /\ at_most_two_axes m /\ packed m /\ meq1 m m = Ok true.
Proof. repeat split; cbn; lia. Qed.
Example method_differs : meq1 (plain 2 (Some shear) (Packed tt)) (plain 2 (Some matrix) (Packed tt)) = Ok false /\ meq1 (plain 2 (Some shear) Nothing) (plain 2 None Nothing) = Ok false
  /\ meq1 (plain 2 (Some shear) Nothing) (plain 2 (Some shear) (Packed tt)) = Ok false.
Proof. repeat split. Qed.
Example lists_met : python_eq Nat.eqb (mkAList CTransitionList [1; 2]%nat) (mkAList CTransitionList [1; 2]%nat) = true
  /\ python_eq Nat.eqb (mkAList CTransitionList [1; 2]%nat) (mkAList CTransitionPathway [1; 2]%nat) = false.
Proof. split; reflexivity. Qed.
Example array_met : simulation (plain 1 None (Unpacked flat)) = Unpacked flat /\ size (shape flat) <> 1%nat.
Proof. split; [reflexivity|]. cbn. lia. Qed.
