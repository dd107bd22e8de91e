(** Proofs: the pathways that the named methods select for a single site. *)
From Coq Require Import ZArith QArith Bool String Qcanon Lia List Sorted Permutation Setoid.
From Verif Require Import Base PathwayModel PathwayProofs QueryProofs SelectProofs MethodsModel MethodsProofs.
Import ListNotations.
Open Scope Qc_scope.

(** A query of a named method as the values that the code reads. *)
Definition values_of (q : query) : tvalue := {| tv_P := fst q; tv_D := snd q |}.
(** The transition from m = a/2 to m = b/2. *)
Definition jump (a b : Z) : transition := ([half a], [half b]).

Lemma half_lt a b : (a < b)%Z -> half a < half b.
Proof. intros H. unfold Qclt. rewrite !half_this. unfold Qlt. cbn -[Z.mul]. lia. Qed.
Lemma jump_lt a b a' b' : (a < a')%Z -> trans_lt (jump a b) (jump a' b').
Proof. intros H. left. cbn. left. apply half_lt. auto. Qed.
Lemma sorted_one t : StronglySorted trans_lt [t].
Proof. repeat constructor. Qed.
Lemma half_of_int z : of_int z = half (2 * z).
Proof. rewrite qc_iff, half_this, of_int_this. unfold Qeq, inject_Z. cbn -[Z.mul]. lia. Qed.
Lemma odd_state n a : Z.odd a = true -> (state n a <-> Z.odd (Z.of_nat n) = true /\ (- Z.of_nat n <= a <= Z.of_nat n)%Z).
Proof.
  intros O. rewrite Z.odd_spec in O. destruct O as [o Eo]. unfold state. split.
  - intros [B [k E]]. split; auto. apply Z.odd_spec. exists (k - o - 1)%Z. lia.
  - intros [On B]. split; auto. apply Z.odd_spec in On. destruct On as [p Ep]. exists (o + p + 1)%Z. lia.
Qed.

Section Sel.
Variable set_perms : list Qc -> list (list Qc).
Hypothesis Hp : lists_permutations set_perms.
Lemma sel_symmetric c n q h P : tcontents h q (values_of (channel1 [[of_int P]], channel1 [[0]])) -> (P <> 0)%Z ->
  fst (event_transitions set_perms [c] [c] (all_transitions [n]) q h) =
  Ok (if (Z.odd P && Z.odd (Z.of_nat n) && (Z.abs P <=? Z.of_nat n)%Z || Z.even P && Z.even (Z.of_nat n) && (Z.abs P <=? Z.of_nat n)%Z)%bool then [jump (- P) P] else []).
Proof.
  intros C NP.
  assert (PAR : state n (- P) /\ state n P <->
    (Z.odd P && Z.odd (Z.of_nat n) && (Z.abs P <=? Z.of_nat n)%Z || Z.even P && Z.even (Z.of_nat n) && (Z.abs P <=? Z.of_nat n)%Z)%bool = true).
  { rewrite orb_true_iff, !andb_true_iff, Z.leb_le, !Z.odd_spec, !Z.even_spec. unfold state. split.
    - intros [[_ _] [B [k E]]]. destruct (Z.Even_or_Odd P) as [[p Ep]|[p Ep]].
      + right. repeat split; [exists p; auto| |lia]. exists (k - p)%Z. lia.
      + left. repeat split; [exists p; auto| |lia]. exists (k - p - 1)%Z. lia.
    - intros [[[[p Ep] [m Em]] B]|[[[p Ep] [m Em]] B]].
      + split; (split; [lia|]); [exists (m - p)%Z|exists (m + p + 1)%Z]; lia.
      + split; (split; [lia|]); [exists (m - p)%Z|exists (m + p)%Z]; lia. }
  apply (select_one set_perms Hp c n q [P] (Some [0%Z])).
  - exact C.
  - discriminate.
  - intros l [= <-]. discriminate.
  - destruct (_ || _)%bool; [apply sorted_one|constructor].
  - intros t. assert (R : (exists a b, state n a /\ state n b /\ t = ([half a], [half b]) /\ (exists p, In p [P] /\ (b - a = 2 * p)%Z) /\
      (forall l, Some [0%Z] = Some l -> exists d, In d l /\ (b * b - a * a = 4 * d)%Z)) <-> (state n (- P) /\ state n P) /\ t = jump (- P) P).
    { split.
      - intros [a [b [Sa [Sb [-> [[p [[<-|[]] E]] D]]]]]]. destruct (D _ eq_refl) as [d [[<-|[]] F]].
        assert ((b - a) * (b + a) = 0)%Z by lia. assert (b = P /\ a = - P)%Z as [-> ->] by nia. auto.
      - intros [[Sa Sb] ->]. exists (- P)%Z, P. split; auto. split; auto. split; auto. split; [exists P; split; [left; auto|lia]|].
        intros l [= <-]. exists 0%Z. split; [left; auto|lia]. }
    rewrite R, PAR. destruct (_ || _)%bool; cbn; split; [intros [<-|[]]; auto|intros [_ ->]; auto|intros []|intros [[=] _]].
Qed.
Lemma sel_satellite c n q h s : tcontents h q (values_of (channel1 [[of_int (-1)]], channel1 [[of_int s]; [of_int (- s)]])) -> (0 < s)%Z -> Z.even s = true ->
  fst (event_transitions set_perms [c] [c] (all_transitions [n]) q h) =
  Ok (if (Z.odd (Z.of_nat n) && (s + 1 <=? Z.of_nat n)%Z)%bool then [jump (1 - s) (- s - 1); jump (s + 1) (s - 1)] else []).
Proof.
  intros C Hs Ev. apply Z.even_spec in Ev. destruct Ev as [e Ee].
  assert (O1 : forall z, Z.odd (2 * z + 1) = true) by (intros; apply Z.odd_spec; exists z; auto).
  assert (Oa : Z.odd (s + 1) = true) by (rewrite Ee; apply O1).
  assert (Ob : Z.odd (s - 1) = true) by (replace (s - 1)%Z with (2 * (e - 1) + 1)%Z by lia; apply O1).
  assert (Oc : Z.odd (1 - s) = true) by (replace (1 - s)%Z with (2 * (- e) + 1)%Z by lia; apply O1).
  assert (Od : Z.odd (- s - 1) = true) by (replace (- s - 1)%Z with (2 * (- e - 1) + 1)%Z by lia; apply O1).
  apply (select_one set_perms Hp c n q [(-1)%Z] (Some [s; (- s)%Z])).
  - exact C.
  - discriminate.
  - intros l [= <-]. discriminate.
  - destruct (_ && _)%bool; [|constructor]. constructor; [apply sorted_one|]. constructor; auto. apply jump_lt. lia.
  - intros t. destruct (Z.odd (Z.of_nat n) && (s + 1 <=? Z.of_nat n)%Z)%bool eqn:B.
    + apply andb_true_iff in B. destruct B as [On Ln]. apply Z.leb_le in Ln. split.
      * intros [<-|[<-|[]]].
        -- exists (1 - s)%Z, (- s - 1)%Z. split; [apply odd_state; auto; split; auto; lia|]. split; [apply odd_state; auto; split; auto; lia|]. split; auto.
           split; [exists (-1)%Z; split; [left; auto|lia]|]. intros l [= <-]. exists s. split; [left; auto|nia].
        -- exists (s + 1)%Z, (s - 1)%Z. split; [apply odd_state; auto; split; auto; lia|]. split; [apply odd_state; auto; split; auto; lia|]. split; auto.
           split; [exists (-1)%Z; split; [left; auto|lia]|]. intros l [= <-]. exists (- s)%Z. split; [right; left; auto|nia].
      * intros [a [b [Sa [Sb [-> [[p [[<-|[]] E]] D]]]]]]. destruct (D _ eq_refl) as [d [[<-|[<-|[]]] F]].
        -- left. assert (b = - s - 1 /\ a = 1 - s)%Z as [-> ->] by nia. auto.
        -- right. left. assert (b = s - 1 /\ a = s + 1)%Z as [-> ->] by nia. auto.
    + split; [intros []|]. intros [a [b [Sa [Sb [-> [[p [[<-|[]] E]] D]]]]]]. apply andb_false_iff in B. destruct (D _ eq_refl) as [d [[<-|[<-|[]]] F]].
      * assert (b = - s - 1 /\ a = 1 - s)%Z as [-> ->] by nia. apply odd_state in Sb; auto. destruct Sb as [On Ln]. destruct B as [B|B]; [congruence|]. apply Z.leb_gt in B. lia.
      * assert (b = s - 1 /\ a = s + 1)%Z as [-> ->] by nia. apply odd_state in Sa; auto. destruct Sa as [On Ln]. destruct B as [B|B]; [congruence|]. apply Z.leb_gt in B. lia.
Qed.
(** Every transition with p = -1, ordered by the initial state. *)
Lemma sel_single_quantum c n q h : tcontents h q (values_of BlochDecay_query) ->
  fst (event_transitions set_perms [c] [c] (all_transitions [n]) q h) =
  Ok (map (fun k => let m := (2 * Z.of_nat k - Z.of_nat n)%Z in jump m (m - 2)) (seq 1 n)).
Proof.
  intros C. apply (select_one set_perms Hp c n q [(-1)%Z] None); [exact C|discriminate|discriminate| |].
  - assert (G : forall len start, StronglySorted trans_lt (map (fun k => let m := (2 * Z.of_nat k - Z.of_nat n)%Z in jump m (m - 2)) (seq start len))).
    { induction len as [|len IH]; intros start; cbn -[Z.mul Z.sub]; [constructor|]. constructor; auto. apply Forall_forall. intros t Ht. apply in_map_iff in Ht.
      destruct Ht as [k [<- Hk]]. apply in_seq in Hk. apply jump_lt. lia. }
    apply G.
  - intros t. rewrite in_map_iff. split.
    + intros [k [<- Hk]]. apply in_seq in Hk. eexists _, _. split; [|split; [|split; [reflexivity|]]].
      * split; [lia|]. exists (Z.of_nat k). auto.
      * split; [lia|]. exists (Z.of_nat k - 1)%Z. lia.
      * split; [exists (-1)%Z; split; [left; auto|lia]|discriminate].
    + intros [a [b [[Ba [k Ea]] [[Bb _] [-> [[p [[<-|[]] E]] _]]]]]]. exists (Z.to_nat k). split; [|apply in_seq; lia].
      cbn -[Z.mul Z.sub]. unfold jump. f_equal; f_equal; f_equal; lia.
Qed.
End Sel.
