(** Proofs about the comparison of methods. *)
From Coq Require Import ZArith QArith Qcanon Bool String List Lia.
From Verif Require Import Base EqualModel EqualSpec.
Import ListNotations.
Open Scope list_scope.

(** ** Places *)
Lemma place_indices : forall s acc, map (place acc s) (indices s) = seq (acc * size s) (size s).
Proof.
  induction s as [|d s IH]; intros acc; cbn [indices size fold_right].
  - cbn. now rewrite Nat.mul_1_r.
  - change (fold_right Nat.mul 1%nat s) with (size s).
    assert (K : forall n k, (d = 1%nat -> k = 0%nat /\ n <= 1)%nat -> map (place acc (d :: s)) (flat_map (fun i => map (cons i) (indices s)) (seq k n)) = seq ((acc * d + k) * size s) (n * size s)).
    { induction n as [|n IHn]; intros k O; [reflexivity|]. cbn [seq flat_map]. rewrite map_app, map_map. cbn [place].
      assert (X : (if Nat.eqb d 1 then 0 else k)%nat = k) by (destruct (Nat.eqb_spec d 1) as [E|]; [now destruct (O E)|reflexivity]). rewrite X, IH.
      destruct n as [|n]; [cbn [seq flat_map map]; rewrite app_nil_r; f_equal; lia|]. rewrite IHn by (intros E; destruct (O E); lia).
      replace (S (S n) * size s)%nat with (size s + S n * size s)%nat by lia. rewrite seq_app. do 2 f_equal. lia. }
    rewrite K by lia. f_equal; lia.
Qed.
Lemma indices_length s : forall i, In i (indices s) -> length i = length s.
Proof.
  induction s as [|d s IH]; intros i H; [destruct H as [<-|[]]; reflexivity|]. cbn [indices] in H. apply in_flat_map in H. destruct H as (k & _ & H). apply in_map_iff in H. destruct H as (j & <- & J). cbn. f_equal. auto.
Qed.
Lemma pad_same s : pad (length s) s = s.
Proof. unfold pad. now rewrite Nat.sub_diag. Qed.
Lemma size_pad r s : size (pad r s) = size s.
Proof.
  unfold pad. generalize (r - length s)%nat as k. induction k as [|k IH]; [reflexivity|]. cbn [repeat app]. unfold size in *. cbn [fold_right]. lia.
Qed.
Lemma length_pad r s : (length s <= r)%nat -> length (pad r s) = r.
Proof. intros H. unfold pad. rewrite app_length, repeat_length. lia. Qed.
Lemma broadcast_refl s : broadcast s s = Some s.
Proof. induction s as [|d s IH]; [reflexivity|]. cbn. now rewrite Nat.eqb_refl, IH. Qed.
Lemma broadcast_length s : forall t r, broadcast s t = Some r -> length r = length s /\ length r = length t.
Proof.
  induction s as [|a s IH]; intros [|b t] r H; cbn in H; try discriminate; [injection H as <-; auto|].
  destruct (if Nat.eqb a b then Some a else if Nat.eqb a 1 then Some b else if Nat.eqb b 1 then Some a else None); [|discriminate].
  destruct (broadcast s t) as [r'|] eqn:E; [|discriminate]. injection H as <-. destruct (IH t r' E). cbn. auto.
Qed.
(** Two arrays with the same padded shape are compared element by element. *)
Lemma Qc_eqb_iff x y : Qc_eq_bool x y = true <-> x = y.
Proof. split; [apply Qc_eq_bool_correct|]. intros ->. unfold Qc_eq_bool. destruct (Qc_eq_dec y y); congruence. Qed.
Lemma nth_ext_Qc (l r : list Qc) n : length l = n -> length r = n -> (forall k, (k < n)%nat -> nth k l 0%Qc = nth k r 0%Qc) -> l = r.
Proof. intros L R H. apply (nth_ext l r 0%Qc 0%Qc); [congruence|]. intros k K. apply H. lia. Qed.
Lemma same_padded a b s : let r := Nat.max (length (shape a)) (length (shape b)) in pad r (shape a) = s -> pad r (shape b) = s ->
  length (data a) = size (shape a) -> length (data b) = size (shape b) -> (np_all_equal a b = true <-> data a = data b).
Proof.
  intros r PA PB LA LB. unfold np_all_equal, together. fold r. rewrite PA, PB, broadcast_refl. rewrite forallb_forall.
  assert (LS : length s = r) by (rewrite <- PA; apply length_pad; unfold r; lia).
  assert (SA : size (shape a) = size s) by (rewrite <- PA; symmetry; apply size_pad). assert (SB : size (shape b) = size s) by (rewrite <- PB; symmetry; apply size_pad).
  assert (EA : forall i, In i (indices s) -> element a i = nth (place 0 s i) (data a) 0%Qc) by (intros i I; unfold element; rewrite (indices_length _ _ I), LS, PA; reflexivity).
  assert (EB : forall i, In i (indices s) -> element b i = nth (place 0 s i) (data b) 0%Qc) by (intros i I; unfold element; rewrite (indices_length _ _ I), LS, PB; reflexivity).
  split.
  - intros H. apply (nth_ext_Qc _ _ (size s)); [congruence|congruence|]. intros k K.
    assert (I : In k (map (place 0 s) (indices s))) by (rewrite place_indices; apply in_seq; lia). apply in_map_iff in I. destruct I as (i & <- & I). specialize (H i I). apply Qc_eqb_iff in H. now rewrite <- EA, <- EB.
  - intros H i I. apply Qc_eqb_iff. now rewrite EA, EB, H by exact I.
Qed.
(** A row and a column. *)
Lemma indices_two n m i j : (i < n)%nat -> (j < m)%nat -> In [i; j] (indices [n; m]).
Proof.
  intros I J. cbn [indices]. apply in_flat_map. exists i. split; [apply in_seq; lia|]. apply in_map_iff. exists [j]. split; [reflexivity|]. apply in_flat_map. exists j. split; [apply in_seq; lia|]. now left.
Qed.
Lemma row_column a b N : (length (shape a) <= 2)%nat -> (length (shape b) <= 2)%nat -> pad 2 (shape a) = [1; N]%nat -> pad 2 (shape b) = [N; 1]%nat -> length (data a) = N -> length (data b) = N -> N <> 1%nat ->
  broadcast [1; N]%nat [N; 1]%nat = Some [N; N]%nat /\ forall i j, element a [i; j] = nth j (data a) 0%Qc /\ element b [i; j] = nth i (data b) 0%Qc.
Proof.
  intros A B PA PB LA LB N1. split.
  - cbn [broadcast]. destruct N as [|[|N]]; [reflexivity|congruence|reflexivity].
  - intros i j. unfold element. cbn [length]. rewrite PA, PB. cbn [place]. destruct (Nat.eqb_spec N 1) as [|_]; [contradiction|]. change (Nat.eqb 1 1) with true. cbv iota. split; f_equal; lia.
Qed.
Lemma two_axes a b N : (length (shape a) <= 2)%nat -> (length (shape b) <= 2)%nat -> size (shape a) = N -> size (shape b) = N -> (0 < N)%nat -> length (data a) = N -> length (data b) = N ->
  np_all_equal a b = true -> data a = data b.
Proof.
  intros A B SA SB P LA LB H. set (r := Nat.max (length (shape a)) (length (shape b))). assert (R : (r <= 2)%nat) by (unfold r; lia).
  destruct (list_eq_dec Nat.eq_dec (pad r (shape a)) (pad r (shape b))) as [E|NE].
  - apply (proj1 (same_padded a b _ E eq_refl ltac:(congruence) ltac:(congruence))) in H. exact H.
  - pose proof (length_pad r (shape a) ltac:(unfold r; lia)) as PA. pose proof (length_pad r (shape b) ltac:(unfold r; lia)) as PB.
    pose proof (size_pad r (shape a)) as ZA. pose proof (size_pad r (shape b)) as ZB. unfold np_all_equal, together in H. fold r in H.
    destruct (pad r (shape a)) as [|a1 [|a2 [|]]] eqn:QA, (pad r (shape b)) as [|b1 [|b2 [|]]] eqn:QB; cbn [length] in PA, PB; try lia; try congruence.
    + cbn in ZA, ZB. exfalso. apply NE. f_equal. lia.
    + assert (R2 : r = 2%nat) by lia. rewrite R2 in QA, QB. cbn in ZA, ZB. rewrite Nat.mul_1_r in ZA, ZB. destruct (broadcast [a1; a2] [b1; b2]) as [s|] eqn:BC; [|discriminate].
      assert (CASE : (a1 = 1 /\ a2 = N /\ b1 = N /\ b2 = 1 \/ a1 = N /\ a2 = 1 /\ b1 = 1 /\ b2 = N)%nat /\ N <> 1%nat).
      { cbn [broadcast] in BC. destruct (Nat.eqb_spec a1 b1) as [->|N1].
        - exfalso. apply NE. f_equal. f_equal. assert (b1 <> 0)%nat by (intros ->; lia). nia.
        - destruct (Nat.eqb_spec a1 1) as [->|A1].
          + destruct (Nat.eqb_spec a2 b2) as [->|N2]; [exfalso; nia|]. destruct (Nat.eqb_spec a2 1) as [->|A2]; [exfalso; nia|]. destruct (Nat.eqb_spec b2 1) as [->|B2]; [|discriminate]. split; [left; lia|lia].
          + destruct (Nat.eqb_spec b1 1) as [->|B1]; [|discriminate]. destruct (Nat.eqb_spec a2 b2) as [->|N2]; [exfalso; nia|].
            destruct (Nat.eqb_spec a2 1) as [->|A2]; [split; [right; lia|lia]|]. destruct (Nat.eqb_spec b2 1) as [->|B2]; [|discriminate]. exfalso. nia. }
      destruct CASE as [[(-> & -> & -> & ->)|(-> & -> & -> & ->)] N1].
      * destruct (row_column a b N A B QA QB LA LB N1) as [BE EL]. rewrite BE in BC. injection BC as <-. rewrite forallb_forall in H. apply (nth_ext_Qc _ _ N); auto. intros k K.
        specialize (H [k; k] (indices_two N N k k K K)). apply Qc_eqb_iff in H. destruct (EL k k) as [E1 E2]. congruence.
      * destruct (row_column b a N B A QB QA LB LA N1) as [BE EL]. assert (BC' : broadcast [N; 1]%nat [1; N]%nat = Some [N; N]%nat) by (cbn [broadcast]; destruct N as [|[|N]]; [reflexivity|congruence|reflexivity]).
        rewrite BC' in BC. injection BC as <-. rewrite forallb_forall in H. apply (nth_ext_Qc _ _ N); auto. intros k K.
        specialize (H [k; k] (indices_two N N k k K K)). apply Qc_eqb_iff in H. destruct (EL k k) as [E1 E2]. congruence.
Qed.
Lemma np_equal_sym a b : np_all_equal a b = np_all_equal b a.
Proof.
  unfold np_all_equal, together. rewrite (Nat.max_comm (length (shape b))). set (r := Nat.max _ _).
  assert (S : forall s t, broadcast s t = broadcast t s).
  { induction s as [|x s IH]; intros [|y t]; try reflexivity. cbn [broadcast]. rewrite IH. destruct (Nat.eqb_spec x y) as [->|N]; [now rewrite Nat.eqb_refl|].
    destruct (Nat.eqb_spec y x) as [->|_]; [congruence|]. destruct (Nat.eqb_spec x 1) as [->|X], (Nat.eqb_spec y 1) as [->|Y]; try reflexivity. }
  rewrite S. destruct (broadcast _ _) as [s|]; [|reflexivity].
  assert (FE : forall (f g : list nat -> bool) l, (forall x, f x = g x) -> forallb f l = forallb g l) by (intros f g l E; induction l as [|x l IH]; [reflexivity|]; cbn; now rewrite E, IH).
  apply FE. intros i. unfold Qc_eq_bool. destruct (Qc_eq_dec _ _), (Qc_eq_dec _ _); congruence.
Qed.

(** ** Boolean comparisons *)
Lemma opt_eqb_iff A (f : A -> A -> bool) : decides f -> decides (opt_eqb f).
Proof. intros D [x|] [y|]; cbn; split; try discriminate; try congruence. - intros H. f_equal. now apply D. - intros [= ->]. now apply D. Qed.
Lemma list_eqb_iff A (f : A -> A -> bool) : decides f -> decides (list_eqb f).
Proof.
  intros D x. induction x as [|a x IH]; intros [|b y]; cbn; split; try discriminate; try congruence.
  - intros H. apply andb_true_iff in H. destruct H as [H1 H2]. f_equal; [now apply D|now apply IH].
  - intros [= -> ->]. apply andb_true_iff. split; [now apply D|now apply IH].
Qed.
Lemma string_decides : decides String.eqb.
Proof. intros x y. apply String.eqb_eq. Qed.

Section Methods.
  Context {D C : Type} (dim_eqb : D -> D -> bool) (csdm_eqb : C -> C -> bool) (mixed : C -> array -> outcome) (single : pyres bool).
  Hypothesis HD : decides dim_eqb.
  Hypothesis HC : decides csdm_eqb.
  Notation meq := (method_eq dim_eqb csdm_eqb mixed single).

  Lemma results_packed (x y : emethod D C) : packed x -> packed y -> exists b, compare_results csdm_eqb mixed (simulation x) (simulation y) = Scalar b /\ (b = true <-> simulation x = simulation y).
  Proof.
    unfold packed, compare_results. intros PX PY. destruct (simulation x) as [|c|a], (simulation y) as [|c'|a']; try contradiction; eexists; split; try reflexivity; split; try discriminate; try congruence.
    - intros H. f_equal. now apply HC.
    - intros [= ->]. now apply HC.
  Qed.
  Lemma meq_scalar x y : packed x -> packed y -> exists b, meq x y = Ok b /\
    (b = true <-> name x = name y /\ label x = label y /\ description x = description y /\ channels x = channels y /\ dims x = dims y /\ affine_eqb (affine x) (affine y) = true /\ simulation x = simulation y /\ experiment x = experiment y).
  Proof.
    intros PX PY. destruct (results_packed x y PX PY) as (b & E & B). unfold method_eq. rewrite E. unfold np_all. cbn [existsb orb forallb]. eexists. split; [reflexivity|].
    rewrite !andb_true_iff. rewrite !(opt_eqb_iff _ _ string_decides _ _), (list_eqb_iff _ _ string_decides _ _), (list_eqb_iff _ _ HD _ _), (opt_eqb_iff _ _ HC _ _), B. tauto.
  Qed.
  Lemma validated_length (m : emethod D C) a : validated m -> affine m = Some a -> is_array a /\ length (data a) = (length (dims m) * length (dims m))%nat /\ (0 < length (data a))%nat.
  Proof.
    unfold validated. intros [A V] E. rewrite E in A, V. split; [exact A|]. unfold validate_affine in V. destruct (Nat.eqb_spec (length (data a)) (length (dims m) * length (dims m))) as [L|]; [|discriminate]. cbn [negb] in V.
    split; [exact L|]. destruct (data a); [discriminate|]. cbn. lia.
  Qed.
  Lemma affine_two_axes (x y : emethod D C) : validated x -> validated y -> at_most_two_axes x -> at_most_two_axes y -> dims x = dims y -> affine_eqb (affine x) (affine y) = true -> same_elements (affine x) (affine y).
  Proof.
    intros VX VY TX TY ED. unfold affine_eqb, same_elements, at_most_two_axes in *. destruct (affine x) as [a|] eqn:EA, (affine y) as [b|] eqn:EB; cbn [opt_eqb]; try discriminate; auto.
    destruct (validated_length x a VX EA) as (A & LA & PA). destruct (validated_length y b VY EB) as (B & LB & PB). unfold is_array in A, B.
    intros H. apply (two_axes a b (length (data a)) TX TY); auto; try congruence; rewrite ?LA, ?LB, ED; congruence.
  Qed.
  Lemma affine_square (x y : emethod D C) : validated x -> validated y -> square x -> square y -> dims x = dims y -> (affine_eqb (affine x) (affine y) = true <-> same_elements (affine x) (affine y)).
  Proof.
    intros VX VY TX TY ED. unfold affine_eqb, same_elements, square in *. destruct (affine x) as [a|] eqn:EA, (affine y) as [b|] eqn:EB; cbn [opt_eqb]; try (split; [discriminate|contradiction]); [|tauto].
    destruct (validated_length x a VX EA) as (A & _). destruct (validated_length y b VY EB) as (B & _).
    apply (same_padded a b (shape a)); auto; [rewrite TX, TY|rewrite TX, TY, ED]; reflexivity.
  Qed.
  Lemma meq_equal x y : validated x -> validated y -> at_most_two_axes x -> at_most_two_axes y -> packed x -> packed y -> meq x y = Ok true -> same_method x y.
  Proof.
    intros VX VY TX TY PX PY H. destruct (meq_scalar x y PX PY) as (b & E & B). rewrite E in H. injection H as ->. destruct (proj1 B eq_refl) as (H1 & H2 & H3 & H4 & H5 & H6 & H7 & H8).
    unfold same_method. repeat (split; [assumption|]). split; [now apply affine_two_axes|]. auto.
  Qed.
  Lemma meq_square x y : validated x -> validated y -> square x -> square y -> packed x -> packed y -> exists b, meq x y = Ok b /\ (b = true <-> same_method x y).
  Proof.
    intros VX VY TX TY PX PY. destruct (meq_scalar x y PX PY) as (b & E & B). exists b. split; [exact E|]. rewrite B. unfold same_method. split; intros (H1 & H2 & H3 & H4 & H5 & H6 & H7 & H8); repeat (split; [assumption|]); (split; [now apply (affine_square x y VX VY TX TY H5)|auto]).
  Qed.
  (** *** Lists of methods *)
  Definition ready (m : emethod D C) : Prop := validated m /\ square m /\ packed m.
  Lemma lists_ready : forall x y, List.Forall ready x -> List.Forall ready y -> exists b, lists_eq dim_eqb csdm_eqb mixed single x y = Ok b /\ (b = true <-> Forall2 same_method x y).
  Proof.
    induction x as [|a x IH]; intros [|b y] FX FY; cbn [lists_eq]; try (eexists; split; [reflexivity|]; split; [discriminate|]; intros H; inversion H).
    - exists true. split; [reflexivity|]. split; auto.
    - inversion FX as [|? ? (V1 & S1 & P1) FX']; inversion FY as [|? ? (V2 & S2 & P2) FY']; subst. destruct (meq_square a b V1 V2 S1 S2 P1 P2) as (r & E & R). rewrite E. cbn [bind]. destruct r.
      + destruct (IH y FX' FY') as (r & E' & R'). exists r. split; [exact E'|]. rewrite R'. split; intros H; [constructor; [now apply R|exact H]|now inversion H].
      + exists false. split; [reflexivity|]. split; [discriminate|]. intros H. inversion H; subst. apply R. assumption.
  Qed.
  Lemma methods_ready x y : List.Forall ready x -> List.Forall ready y -> exists b, methods_eq dim_eqb csdm_eqb mixed single x y = Ok b /\ (b = true <-> Forall2 same_method x y).
  Proof.
    intros FX FY. unfold methods_eq. destruct (Nat.eqb_spec (length x) (length y)) as [L|L]; [now apply lists_ready|]. exists false. split; [reflexivity|]. split; [discriminate|]. intros H. exfalso. apply L. clear -H. induction H; cbn; congruence.
  Qed.
  Context {S G : Type} (system_eqb : S -> S -> bool) (config_eqb : G -> G -> bool).
  Hypothesis HS : decides system_eqb.
  Hypothesis HG : decides config_eqb.
  Lemma simulators_ready x y : List.Forall ready (s_methods x) -> List.Forall ready (s_methods y) ->
    exists b, simulator_eq dim_eqb csdm_eqb mixed single system_eqb config_eqb x y = Ok b /\ (b = true <-> same_simulator x y).
  Proof.
    intros FX FY. destruct (methods_ready _ _ FX FY) as (m & E & M). unfold simulator_eq. rewrite E. cbn [bind]. unfold np_all. cbn [existsb orb forallb]. eexists. split; [reflexivity|].
    unfold same_simulator. rewrite !andb_true_iff. rewrite !(opt_eqb_iff _ _ string_decides _ _), (list_eqb_iff _ _ HS _ _), (HG _ _), M. tauto.
  Qed.
  (** An array among the two simulations *)
  Lemma meq_array (x y : emethod D C) n : compare_results csdm_eqb mixed (simulation x) (simulation y) = Elementwise n -> n <> 1%nat -> meq x y = Err ValueError.
  Proof.
    intros E N. unfold method_eq. rewrite E. unfold np_all. cbn [existsb orb]. destruct (Nat.eqb_spec n 1); [contradiction|]. reflexivity.
  Qed.
End Methods.

(** ** Lists *)
Section Lists.
  Context {A : Type} (eqb : A -> A -> bool).
  Hypothesis HA : decides eqb.
  Lemma items_equal : forall x y : list A, length x = length y -> (forallb (fun ab => eqb (fst ab) (snd ab)) (combine x y) = true <-> x = y).
  Proof.
    induction x as [|a x IH]; intros [|b y] L; cbn in L; try discriminate; [split; reflexivity|]. cbn [combine forallb fst snd]. rewrite andb_true_iff, (HA a b), IH by congruence.
    split; [intros [-> ->]; reflexivity|intros [= -> ->]; auto].
  Qed.
  Lemma call_eq_iff x y : call_eq eqb x y = true <-> is_instance (a_class y) (a_class x) = true /\ a_items x = a_items y.
  Proof.
    unfold call_eq. destruct (is_instance (a_class y) (a_class x)); cbn [negb]; [|split; [discriminate|intros [[=] _]]].
    destruct (Nat.eqb_spec (length (a_items x)) (length (a_items y))) as [L|L]; cbn [negb]; [rewrite items_equal by exact L; tauto|]. split; [discriminate|]. intros [_ E]. exfalso. apply L. now rewrite E.
  Qed.
  Lemma python_eq_iff x y : python_eq eqb x y = true <-> x = y.
  Proof.
    destruct x as [c x], y as [d y]. unfold python_eq. cbn [a_class]. destruct (is_instance d c && negb (same_class c d)) eqn:E.
    - rewrite call_eq_iff. cbn [a_class a_items]. destruct c, d; cbn in E |- *; try discriminate. split; [intros [[=] _]|intros [=]].
    - rewrite call_eq_iff. cbn [a_class a_items]. destruct c, d; cbn in E |- *; try discriminate; (split; [intros [I ->]; first [reflexivity|discriminate I]|intros H; first [discriminate H|injection H as ->; auto]]).
  Qed.
End Lists.
