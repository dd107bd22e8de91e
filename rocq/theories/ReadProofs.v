(** Proofs about what the compiled code reads from the arrays Python hands to it (C91, C92). *)
From Coq Require Import String List ZArith Bool Lia Qcanon.
From Verif Require Import Base PathwayModel PathwayProofs ReadModel ReadSpec.
Import ListNotations.
Open Scope Z_scope.

Lemma site_reads_in k mi mf i : In i (site_reads k mi mf) <-> exists j, 0 <= j < Z.of_nat k /\ (i = mi + j \/ i = mf + j).
Proof.
  revert mi mf; induction k as [|k IH]; intros mi mf; cbn [site_reads In].
  - split; [tauto|]. intros (j & ? & _); lia.
  - rewrite IH. split.
    + intros [<-|[<-|(j & Hj & H)]].
      * exists 0. lia.
      * exists 0. lia.
      * exists (j + 1). lia.
    + intros (j & Hj & H). destruct (Z.eq_dec j 0) as [->|]; [lia|].
      right; right. exists (j - 1). lia.
Qed.

(** Where the pointer is at event [e] of a pathway starting at [p]. *)
Lemma event_reads_in n cs k p i :
  In i (fst (event_reads n cs k p)) <-> exists e, 0 <= e < Z.of_nat k /\ In i (rotate_reads n cs (p + 2 * Z.of_nat n * e)).
Proof.
  revert p; induction k as [|k IH]; intros p; cbn [event_reads].
  - split; [simpl; tauto|]. intros (e & ? & _); lia.
  - specialize (IH (p + 2 * Z.of_nat n)). destruct (event_reads n cs k (p + 2 * Z.of_nat n)) as [rest q].
    cbn [fst] in *. rewrite in_app_iff, IH. split.
    + intros [H|(e & He & H)].
      * exists 0. rewrite Z.mul_0_r, Z.add_0_r. split; [lia|auto].
      * exists (e + 1). split; [lia|]. replace (p + 2 * Z.of_nat n * (e + 1)) with (p + 2 * Z.of_nat n + 2 * Z.of_nat n * e) by ring. auto.
    + intros (e & He & H). destruct (Z.eq_dec e 0) as [->|].
      * left. rewrite Z.mul_0_r, Z.add_0_r in H. auto.
      * right. exists (e - 1). split; [lia|].
        replace (p + 2 * Z.of_nat n + 2 * Z.of_nat n * (e - 1)) with (p + 2 * Z.of_nat n * e) by ring. auto.
Qed.

Lemma event_reads_end n cs k p : snd (event_reads n cs k p) = p + 2 * Z.of_nat n * Z.of_nat k.
Proof.
  revert p; induction k as [|k IH]; intros p; cbn [event_reads]; [cbn; lia|].
  specialize (IH (p + 2 * Z.of_nat n)). destruct (event_reads n cs k (p + 2 * Z.of_nat n)) as [rest q]. cbn [snd] in *. lia.
Qed.

Lemma core_reads_in n cs n_events p i :
  In i (core_reads n cs n_events p) <->
  exists e, 0 <= e < Z.of_nat (total_events n_events) /\ In i (rotate_reads n cs (p + 2 * Z.of_nat n * e)).
Proof.
  revert p; induction n_events as [|k r IH]; intros p; cbn [core_reads].
  - split; [simpl; tauto|]. intros (e & H & _); cbn in H; lia.
  - pose proof (event_reads_in n cs k p i) as HE. pose proof (event_reads_end n cs k p) as HQ.
    destruct (event_reads n cs k p) as [here q]. cbn [fst snd] in *. subst q.
    rewrite in_app_iff, HE, IH. change (total_events (k :: r)) with (k + total_events r)%nat. split.
    + intros [(e & He & H)|(e & He & H)].
      * exists e. split; [lia|auto].
      * exists (Z.of_nat k + e). split; [lia|].
        replace (p + 2 * Z.of_nat n * (Z.of_nat k + e)) with (p + 2 * Z.of_nat n * Z.of_nat k + 2 * Z.of_nat n * e) by ring. auto.
    + intros (e & He & H). destruct (Z_lt_dec e (Z.of_nat k)).
      * left. exists e. split; [lia|auto].
      * right. exists (e - Z.of_nat k). split; [lia|].
        replace (p + 2 * Z.of_nat n * Z.of_nat k + 2 * Z.of_nat n * (e - Z.of_nat k)) with (p + 2 * Z.of_nat n * e) by ring. auto.
Qed.

Lemma uint32_id z : 0 <= z < 2 ^ 32 -> uint32 z = z.
Proof. intros. apply Z.mod_small. auto. Qed.

(** Every read of one event stays within the [2 n] numbers of its transition, when the couplings name sites. *)
Lemma rotate_reads_range n cs p i : Z.of_nat n < 2 ^ 31 -> List.Forall (names_sites n) cs ->
  In i (rotate_reads n cs p) -> p <= i < p + 2 * Z.of_nat n.
Proof.
  intros Hn F H. unfold rotate_reads in H. apply in_app_iff in H. destruct H as [H|H].
  - apply site_reads_in in H. destruct H as (j & Hj & H). lia.
  - apply in_flat_map in H. destruct H as ((a & x) & Hc & H). rewrite Forall_forall in F. apply F in Hc.
    destruct Hc as [Ha Hx]. cbn [fst snd] in *. cbn [coupling_reads In] in H.
    rewrite !uint32_id in H by lia. lia.
Qed.

(** ** The array of pathways *)
Lemma flat_length {A} (f : A -> list Qc) k l : List.Forall (fun a => List.length (f a) = k) l ->
  List.length (flat_map f l) = (List.length l * k)%nat.
Proof. induction 1 as [|a l H F IH]; cbn; auto. rewrite app_length, IH, H. auto. Qed.

Lemma concat_length_rect {A} k (l : list (list A)) : List.Forall (fun a => List.length a = k) l ->
  List.length (concat l) = (List.length l * k)%nat.
Proof. induction 1 as [|a l H F IH]; cbn; auto. rewrite app_length, IH, H. auto. Qed.

Lemma all_same_const k l : List.Forall (fun x => x = k) l -> all_same l = true.
Proof.
  intros F. destruct l as [|x r]; auto. inversion F; subst. cbn. apply forallb_forall. intros y Hy.
  rewrite Forall_forall in H2. apply Nat.eqb_eq. symmetry. auto.
Qed.

Lemma concat_pathways n T w : List.Forall (pathway_of n T) w -> List.Forall (transition_of n) (concat w).
Proof. induction 1 as [|p w [_ H] F IH]; cbn; auto. apply Forall_app. auto. Qed.

Lemma pack_good n T w : w <> [] -> List.Forall (pathway_of n T) w ->
  exists a, pack w = Ok (a, List.length w, T) /\ zlen a = 2 * Z.of_nat n * Z.of_nat T * Z.of_nat (List.length w).
Proof.
  intros Hw F. pose proof (concat_pathways _ _ _ F) as Fc.
  assert (L : List.Forall (fun p => List.length p = T) w) by (revert F; apply Forall_impl; intros ? [? _]; auto).
  destruct w as [|p0 w']; [congruence|]. set (w := p0 :: w') in *.
  exists (flat_map tolist (concat w)). split.
  - unfold pack. unfold w at 1. rewrite (all_same_const T), (all_same_const (n + n)%nat).
    + cbn [andb]. do 3 f_equal. inversion L; auto.
    + apply Forall_map. revert Fc. apply Forall_impl. intros t [A B]. unfold tolist. rewrite app_length. lia.
    + apply Forall_map. auto.
  - unfold zlen. rewrite (flat_length tolist (n + n)%nat).
    + rewrite (concat_length_rect T) by auto. lia.
    + revert Fc. apply Forall_impl. intros t [A B]. unfold tolist. rewrite app_length. lia.
Qed.

Lemma pack_some w r : pack w = Ok r -> w <> [] /\ snd (fst r) = List.length w.
Proof.
  unfold pack. destruct w as [|p0 w']; [discriminate|]. destruct (_ && _); [|discriminate].
  intros H; inversion H; subst. split; [congruence|auto].
Qed.

(** ** The method's own pathways *)
Section Pathways.
Variable set_perms : list Qc -> list (list Qc).

Lemma symmetry_indexes_range n fn sym idx : get_symmetry_indexes n fn sym = Ok idx ->
  List.Forall (fun r => (r < List.length fn)%nat) idx.
Proof.
  unfold get_symmetry_indexes. intros H.
  destruct (mapM _ sym) as [sets|] eqn:E; [|discriminate]. cbn [bind] in H. inversion H; subst; clear H.
  assert (G : List.Forall (List.Forall (fun r => (r < List.length fn)%nat)) sets).
  { revert sets E. induction sym as [|s sym IH]; cbn [mapM]; intros sets E; [inversion E; auto|].
    destruct (reduce1 _ _) as [y|] eqn:R; [|discriminate]. cbn [bind] in E.
    destruct (mapM _ sym) as [ys|]; [|discriminate]. cbn [bind] in E. inversion E; subst. constructor; auto.
    unfold reduce1 in R. destruct n as [|n]; [discriminate|]. cbn [seq map] in R. inversion R; subst.
    apply Forall_forall. intros r Hr. apply fold_intersect_in in Hr. destruct Hr as [Hr _]. apply where_col_in in Hr. tauto. }
  assert (K : forall l a, List.Forall (fun r => (r < List.length fn)%nat) a -> List.Forall (List.Forall (fun r => (r < List.length fn)%nat)) l ->
    List.Forall (fun r => (r < List.length fn)%nat) (fold_left union1d l a)).
  { induction l as [|b l IH]; intros a Ha Hl; cbn [fold_left]; auto. inversion Hl; subst. apply IH; auto.
    unfold union1d. apply Forall_forall. intros r Hr. rewrite unique_in, in_app_iff in Hr.
    rewrite Forall_forall in Ha, H1. destruct Hr; auto. }
  apply K; auto.
Qed.

Lemma take_range {A} (P : A -> Prop) d l idx : List.Forall P l -> List.Forall (fun r => (r < List.length l)%nat) idx ->
  List.Forall P (take d l idx).
Proof.
  intros F G. apply Forall_map. revert G. apply Forall_impl. intros r Hr. rewrite Forall_forall in F. apply F, nth_In. auto.
Qed.

Lemma all_transitions_of_sites spins : spins <> [] -> List.Forall (transition_of (List.length spins)) (all_transitions spins).
Proof.
  intros H. unfold all_transitions. rewrite all_transitions_of_prod, (zeeman_states_spec _ H).
  apply Forall_forall. intros (a & b) Hab. apply in_prod_iff in Hab. destruct Hab as [Ha Hb].
  split; cbn [fst snd]; eapply all_states_len; eauto.
Qed.

Lemma event_of_sites n channels isotopes all q h sel h' : List.Forall (transition_of n) all ->
  event_transitions set_perms channels isotopes all q h = (Ok sel, h') -> List.Forall (transition_of n) sel.
Proof.
  intros F. unfold event_transitions, hbind.
  destruct (copy_tquery q h) as [[qp|] h1]; [|discriminate].
  destruct (query_permutations set_perms (tq_P qp) isotopes channels h1) as [[lp|] h2]; [|discriminate].
  unfold lift at 1. destruct (P_symmetry_indexes _ all lp) as [idx|] eqn:E1; [|discriminate].
  apply symmetry_indexes_range in E1. rewrite map_length in E1.
  pose proof (take_range _ ([], []) _ _ F E1) as FS.
  destruct (tq_D q) as [d|].
  - destruct (copy_tquery q h2) as [[qd|] h3]; [|discriminate].
    destruct (query_permutations set_perms (tq_D qd) isotopes channels h3) as [[ld|] h4]; [|discriminate].
    unfold lift. destruct (D_symmetry_indexes _ (take ([], []) all idx) ld) as [idx2|] eqn:E2; [|discriminate].
    apply symmetry_indexes_range in E2. rewrite map_length in E2. unfold ret. intros H; inversion H; subst.
    apply (take_range _ ([], []) _ _ FS E2).
  - unfold ret. intros H; inversion H; subst. auto.
Qed.

Lemma segments_of_sites channels isotopes spins events h segs h' : spins <> [] ->
  segments set_perms channels isotopes spins events h = (Ok segs, h') ->
  List.length segs = List.length events /\ List.Forall (List.Forall (transition_of (List.length spins))) segs.
Proof.
  intros Hs. unfold segments. revert h segs. induction events as [|q r IH]; intros h segs; cbn [hmapM].
  - unfold ret. intros H; inversion H; subst. auto.
  - unfold hbind. destruct (event_transitions _ _ _ _ _ h) as [[sel|] h1] eqn:E; [|discriminate].
    destruct (hmapM _ r h1) as [[ys|] h2] eqn:E2; [|discriminate]. unfold ret. intros H; inversion H; subst.
    destruct (IH h1 ys) as [L F]; [rewrite E2; auto|]. split; [cbn; auto|]. constructor; auto.
    eapply event_of_sites; [|exact E]. apply all_transitions_of_sites; auto.
Qed.

Lemma unravel_range lens p : List.Forall (fun x => (0 < x)%nat) lens -> Forall2 (fun j x => (j < x)%nat) (unravel lens p) lens.
Proof. induction 1 as [|x l H F IH]; cbn [unravel]; constructor; auto. apply Nat.mod_upper_bound. lia. Qed.

Lemma prodn_pos lens : (0 < prodn lens)%nat -> List.Forall (fun x => (0 < x)%nat) lens.
Proof. induction lens as [|x r IH]; cbn [prodn]; intros; constructor; [nia|apply IH; nia]. Qed.

Lemma choose_segs n segs item : List.Forall (List.Forall (transition_of n)) segs ->
  Forall2 (fun j x => (j < x)%nat) item (map (@List.length transition) segs) ->
  pathway_of n (List.length segs) (map (fun sj => nth (snd sj) (fst sj) ([], [])) (combine segs item)).
Proof.
  revert item. induction segs as [|s segs IH]; intros item F G; cbn [map combine List.length].
  - split; [auto|constructor].
  - inversion G as [|j x it' r' Hj G' E1 E2]; subst. inversion F; subst. cbn [map combine List.length fst snd].
    destruct (IH it') as [L K]; auto. split; [cbn; auto|]. constructor; auto.
    rewrite Forall_forall in H1. apply H1, nth_In. auto.
Qed.

(** The pathways a method selects have one transition per event, each with one number per site and state. *)
Lemma method_pathways_shape channels isotopes spins events h w : spins <> [] ->
  fst (get_pathways_np set_perms channels isotopes spins events h) = Ok w ->
  List.Forall (pathway_of (List.length spins) (List.length events)) w.
Proof.
  intros Hs. unfold get_pathways_np, hbind. destruct (segments _ _ _ _ _ h) as [[segs|] h'] eqn:E; [|discriminate].
  destruct (segments_of_sites _ _ _ _ _ _ _ Hs E) as [L F]. unfold lift. cbn [fst].
  unfold pathways_of_segments, cartesian_index. destruct segs as [|s0 segs']; cbn [map]; [discriminate|].
  set (segs := s0 :: segs') in *. change (List.length s0 :: map (@List.length transition) segs') with (map (@List.length transition) segs).
  cbn [bind]. intros H; inversion H; subst; clear H. apply Forall_map. apply Forall_map. apply Forall_forall.
  intros p Hp. apply in_seq in Hp. rewrite <- L.
  apply (choose_segs _ segs (unravel (map (@List.length transition) segs) p)); auto. apply unravel_range, prodn_pos.
  unfold segs. cbn [map prodn]. lia.
Qed.
End Pathways.

(** ** The loop over the spin systems *)
Definition couplings_of (s : system) : list (Z * Z) := match s_couplings s with None => [] | Some l => l end.

(** What the cached array looks like: [q_count] pathways, at least one, of [T] transitions of [n] sites. *)
Definition cached (n T : nat) (c : pcache) : Prop :=
  q_nsites c = n /\ (0 < q_count c)%nat /\ q_increment c = 2 * Z.of_nat n * Z.of_nat T /\
  zlen (q_array c) = 2 * Z.of_nat n * Z.of_nat T * Z.of_nat (q_count c).

Lemma system_reads_in n_events s c r :
  In r (system_reads n_events s c) <->
  exists t e, 0 <= t < Z.of_nat (q_count c) /\ 0 <= e < Z.of_nat (total_events n_events) /\ snd r = zlen (q_array c) /\
    In (fst r) (rotate_reads (List.length (s_isotopes s)) (couplings_of s)
      (q_increment c * t + 2 * Z.of_nat (List.length (s_isotopes s)) * e)).
Proof.
  unfold system_reads. rewrite in_flat_map. split.
  - intros (t & Ht & H). apply in_seq in Ht. apply in_map_iff in H. destruct H as (i & <- & H).
    apply core_reads_in in H. destruct H as (e & He & H). exists (Z.of_nat t), e. cbn [fst snd]. repeat split; auto; lia.
  - intros (t & e & Ht & He & Hs & H). exists (Z.to_nat t). split; [apply in_seq; lia|].
    apply in_map_iff. exists (fst r). split; [destruct r; cbn in *; subst; auto|].
    apply core_reads_in. exists e. split; [lia|]. rewrite Z2Nat.id by lia. auto.
Qed.

Lemma system_reads_good n_events s c T n : n = List.length (s_isotopes s) -> cached n T c ->
  (total_events n_events <= T)%nat ->
  Z.of_nat n < 2 ^ 31 -> List.Forall (names_sites n) (couplings_of s) ->
  List.Forall in_array (system_reads n_events s c).
Proof.
  intros -> (_ & _ & Hi & Hl) HT Hn F. apply Forall_forall. intros r Hr. apply system_reads_in in Hr.
  destruct Hr as (t & e & Ht & He & Hs & H). apply rotate_reads_range in H; auto. rewrite Hi in H.
  unfold in_array. rewrite Hs, Hl. set (N := 2 * Z.of_nat (List.length (s_isotopes s))) in *.
  assert (N0 : 0 <= N) by (unfold N; lia).
  assert (B1 : N * (e + 1) <= N * Z.of_nat T) by (apply Z.mul_le_mono_nonneg_l; lia).
  assert (B2 : N * Z.of_nat T * (t + 1) <= N * Z.of_nat T * Z.of_nat (q_count c)) by (apply Z.mul_le_mono_nonneg_l; [apply Z.mul_nonneg_nonneg|]; lia).
  assert (B3 : 0 <= N * Z.of_nat T * t) by (repeat apply Z.mul_nonneg_nonneg; lia).
  assert (B4 : 0 <= N * e) by (apply Z.mul_nonneg_nonneg; lia).
  lia.
Qed.

(** A coupling that does not name two sites makes a read outside of the array. *)
Lemma system_reads_bad n_events s c n : n = List.length (s_isotopes s) -> cached n (total_events n_events) c ->
  (0 < total_events n_events)%nat -> Z.of_nat n < 2 ^ 31 ->
  List.Forall (fun c => is_int (fst c) /\ is_int (snd c)) (couplings_of s) ->
  List.Forall in_array (system_reads n_events s c) -> List.Forall (names_sites n) (couplings_of s).
Proof.
  intros E (_ & Hc & Hi & Hl) HE Hn FI F. apply Forall_forall. intros (a & x) Hax.
  rewrite Forall_forall in FI, F. destruct (FI _ Hax) as [Ia Ix]. cbn [fst snd] in *. unfold is_int in *.
  assert (R : forall t e i, 0 <= t < Z.of_nat (q_count c) -> 0 <= e < Z.of_nat (total_events n_events) ->
     In i (coupling_reads (Z.of_nat n) (q_increment c * t + 2 * Z.of_nat n * e) (a, x)) -> 0 <= i < zlen (q_array c)).
  { intros t e i Ht He H. specialize (F (i, zlen (q_array c))). unfold in_array in F. cbn [fst snd] in F. apply F.
    apply system_reads_in. exists t, e. cbn [fst snd]. repeat split; auto; try lia. rewrite <- E.
    unfold rotate_reads. apply in_app_iff. right. apply in_flat_map. exists (a, x). auto. }
  cbn [coupling_reads In] in R.
  assert (A0 : 0 <= a) by (destruct (R 0 0 (q_increment c * 0 + 2 * Z.of_nat n * 0 + a)); try lia; auto).
  assert (X0 : 0 <= x) by (destruct (R 0 0 (q_increment c * 0 + 2 * Z.of_nat n * 0 + x)); try lia; auto).
  set (t := Z.of_nat (q_count c) - 1). set (e := Z.of_nat (total_events n_events) - 1).
  assert (Q : q_increment c * t + 2 * Z.of_nat n * e + 2 * Z.of_nat n = zlen (q_array c)).
  { rewrite Hi, Hl. unfold t, e. ring. }
  assert (A1 : a < Z.of_nat n).
  { destruct (R t e (q_increment c * t + 2 * Z.of_nat n * e + uint32 (a + Z.of_nat n))) as [_ H]; try (unfold t, e; lia); auto.
    rewrite uint32_id in H by lia. lia. }
  assert (X1 : x < Z.of_nat n).
  { destruct (R t e (q_increment c * t + 2 * Z.of_nat n * e + uint32 (x + Z.of_nat n))) as [_ H]; try (unfold t, e; lia); auto.
    rewrite uint32_id in H by lia. lia. }
  split; cbn; lia.
Qed.

Section Loop.
Variable get_pathways : list string -> pyres (list (list transition)).
Variables (channel : string) (n_events : list nat).
Hypothesis get_shape : forall isotopes w, isotopes <> [] -> get_pathways isotopes = Ok w ->
  List.Forall (pathway_of (List.length isotopes) (total_events n_events)) w.

(** Pathways given by the user, if any, are like those of the method. *)
Definition own_pathways_fit (s : system) : Prop :=
  match s_pathways s with
  | None => True
  | Some w => List.Forall (pathway_of (List.length (s_isotopes s)) (total_events n_events)) w
  end.

(** What holds between the turns of the loop. *)
Definition between (c : pcache) : Prop :=
  match q_isotopes c with
  | None => q_nsites c = 0%nat
  | Some l => List.length l = q_nsites c /\ cached (q_nsites c) (total_events n_events) c
  end.

Lemma refresh_good s c c' : s_isotopes s <> [] -> own_pathways_fit s -> between c ->
  refresh get_pathways s c = Ok c' -> between c' /\ cached (List.length (s_isotopes s)) (total_events n_events) c'.
Proof.
  intros Hs Fit Hc. unfold refresh.
  destruct (Nat.eqb_spec (List.length (s_isotopes s)) (q_nsites c)) as [E|E]; cbn [negb andb].
  - intros H; inversion H; subst. split; auto. rewrite E. unfold between in Hc.
    destruct (q_isotopes c') as [l|]; [tauto|]. destruct (s_isotopes s); [congruence|]. rewrite Hc in E. discriminate E.
  - destruct (same_isotopes (s_isotopes s) (q_isotopes c)) eqn:I; cbn [negb].
    + (* the same isotopes but another number of sites cannot be *)
      exfalso. unfold between in Hc. unfold same_isotopes in I. destruct (q_isotopes c) as [l|]; [|discriminate I].
      destruct (list_eq_dec string_dec (s_isotopes s) l) as [D|D]; [|discriminate I]. subst l. tauto.
    + clear Hc. intros H.
      destruct (match s_pathways s with None => get_pathways (s_isotopes s) | Some w => Ok w end) as [w|] eqn:W; [|discriminate H].
      cbn [bind] in H.
      assert (F : List.Forall (pathway_of (List.length (s_isotopes s)) (total_events n_events)) w).
      { unfold own_pathways_fit in Fit. destruct (s_pathways s) as [w'|]; [inversion W; subst; auto|]. apply get_shape; auto. }
      destruct (pack w) as [r|] eqn:P; [|discriminate H]. destruct (pack_some _ _ P) as [Hw _].
      destruct (pack_good _ _ _ Hw F) as (a & P' & L). rewrite P in P'. inversion P'; subst r. cbn [bind] in H.
      inversion H; subst c'; clear H.
      assert (K : cached (List.length (s_isotopes s)) (total_events n_events)
        {| q_nsites := List.length (s_isotopes s); q_isotopes := Some (s_isotopes s); q_array := a; q_count := List.length w;
           q_increment := 2 * Z.of_nat (List.length (s_isotopes s)) * Z.of_nat (total_events n_events) |}).
      { unfold cached. cbn. repeat split; auto. destruct w; [congruence|cbn; lia]. }
      split; auto. unfold between. cbn [q_isotopes q_nsites]. auto.
Qed.

Definition observed (s : system) : bool := existsb (String.eqb channel) (s_isotopes s).

Lemma observed_sites s : observed s = true -> s_isotopes s <> [].
Proof. unfold observed. destruct (s_isotopes s); [discriminate|congruence]. Qed.

Lemma systems_reads_good l c : between c ->
  List.Forall (fun s => observed s = true -> Z.of_nat (List.length (s_isotopes s)) < 2 ^ 31 /\ own_pathways_fit s /\
    List.Forall (names_sites (List.length (s_isotopes s))) (couplings_of s)) l ->
  List.Forall in_array (fst (systems_reads get_pathways channel n_events l c)).
Proof.
  revert c. induction l as [|s r IH]; intros c Hc F; cbn [systems_reads]; [constructor|].
  inversion F as [|? ? H F']; subst. fold (observed s). destruct (observed s) eqn:O; [|apply IH; auto].
  destruct (H eq_refl) as (Hn & Fit & Fc). pose proof (observed_sites _ O) as Hs.
  destruct (refresh get_pathways s c) as [c'|] eqn:R; [|constructor].
  destruct (refresh_good _ _ _ Hs Fit Hc R) as [Hb Hk].
  specialize (IH c' Hb F'). destruct (systems_reads _ _ _ r c') as [rest e]. cbn [fst] in *. apply Forall_app. split; auto.
  eapply system_reads_good; eauto.
Qed.

Lemma systems_reads_bad l c : between c -> (0 < total_events n_events)%nat ->
  List.Forall (fun s => observed s = true -> Z.of_nat (List.length (s_isotopes s)) < 2 ^ 31 /\ own_pathways_fit s /\
    List.Forall (fun c => is_int (fst c) /\ is_int (snd c)) (couplings_of s)) l ->
  snd (systems_reads get_pathways channel n_events l c) = None ->
  List.Forall in_array (fst (systems_reads get_pathways channel n_events l c)) ->
  List.Forall (fun s => observed s = true -> List.Forall (names_sites (List.length (s_isotopes s))) (couplings_of s)) l.
Proof.
  revert c. induction l as [|s r IH]; intros c Hc HE F; cbn [systems_reads]; [constructor|].
  inversion F as [|? ? H F']; subst. fold (observed s). destruct (observed s) eqn:O.
  - destruct (H eq_refl) as (Hn & Fit & Fc). pose proof (observed_sites _ O) as Hs.
    destruct (refresh get_pathways s c) as [c'|] eqn:R; [|discriminate].
    destruct (refresh_good _ _ _ Hs Fit Hc R) as [Hb Hk].
    specialize (IH c' Hb HE F'). destruct (systems_reads _ _ _ r c') as [rest e]. cbn [fst snd] in *.
    intros -> G. apply Forall_app in G. destruct G as [G1 G2]. constructor; auto.
    intros _. eapply system_reads_bad; eauto.
  - intros N G. constructor; [intros X; congruence|]. eapply IH; eauto.
Qed.

(** Pathways of [T] transitions each, of one spin system without couplings, for a method with [E] events. *)
Lemma one_system_user s w T : observed s = true -> s_pathways s = Some w -> w <> [] -> s_couplings s = None ->
  Z.of_nat (List.length (s_isotopes s)) < 2 ^ 31 -> (0 < total_events n_events)%nat ->
  List.Forall (pathway_of (List.length (s_isotopes s)) T) w ->
  snd (run_reads get_pathways channel n_events [s]) = None /\
  (List.Forall in_array (fst (run_reads get_pathways channel n_events [s])) <-> (total_events n_events <= T)%nat).
Proof.
  intros O Hw Nw Nc Hn HE F. unfold run_reads. cbn [systems_reads]. fold (observed s). rewrite O.
  pose proof (observed_sites _ O) as Hs.
  destruct (pack_good _ _ _ Nw F) as (a & P & L).
  unfold refresh. cbn [q_nsites q_isotopes pcache0 same_isotopes].
  destruct (Nat.eqb_spec (List.length (s_isotopes s)) 0) as [E|E].
  { destruct (s_isotopes s); [congruence|discriminate E]. }
  cbn [negb andb]. rewrite Hw. cbn [bind]. rewrite P. cbn [bind fst snd]. split; auto. rewrite app_nil_r.
  set (c' := {| q_nsites := _ |}).
  assert (K : cached (List.length (s_isotopes s)) T c').
  { unfold cached, c'; cbn. repeat split; auto. destruct w; [congruence|cbn; lia]. }
  split.
  - intros G. destruct (le_lt_dec (total_events n_events) T); auto. exfalso.
    rewrite Forall_forall in G. set (n := List.length (s_isotopes s)) in *.
    destruct K as (_ & Kc & Ki & Kl).
    set (e := Z.of_nat (total_events n_events) - 1). set (t := Z.of_nat (q_count c') - 1).
    specialize (G (q_increment c' * t + 2 * Z.of_nat n * e, zlen (q_array c'))). unfold in_array in G. cbn [fst snd] in G.
    destruct G as [_ G].
    + apply system_reads_in. exists t, e. cbn [fst snd]. repeat split; auto; try (unfold t, e; lia).
      unfold rotate_reads. apply in_app_iff. left. apply site_reads_in. exists 0. fold n. lia.
    + rewrite Ki, Kl in G. unfold t, e in G. nia.
  - intros HT. eapply (system_reads_good n_events s c' T); eauto. unfold couplings_of. rewrite Nc. constructor.
Qed.
End Loop.

(** ** The affine matrix *)
Lemma np_mul_ok a b : (List.length a = List.length b \/ List.length a = 1%nat \/ List.length b = 1%nat) ->
  exists c, np_mul a b = Ok c /\
    List.length c = if Nat.eqb (List.length a) 1 then List.length b else List.length a.
Proof.
  intros H. unfold np_mul. destruct (Nat.eqb_spec (List.length a) (List.length b)) as [E|E].
  - eexists. split; [reflexivity|]. rewrite zip_with_length by auto. rewrite E. destruct (Nat.eqb _ 1); auto.
  - destruct a as [|x [|x2 a]].
    + destruct b as [|y [|y2 b]]; cbn in *; try lia. eexists. split; [reflexivity|]. auto.
    + eexists. split; [reflexivity|]. rewrite map_length. auto.
    + destruct b as [|y [|y2 b]]; cbn in *; try lia. eexists. split; [reflexivity|]. cbn. rewrite map_length. auto.
Qed.

Lemma np_mul_err a b : List.length a <> List.length b -> List.length a <> 1%nat -> List.length b <> 1%nat -> np_mul a b = Err ValueError.
Proof.
  intros H1 H2 H3. unfold np_mul. destruct (Nat.eqb_spec (List.length a) (List.length b)); [contradiction|].
  destruct a as [|x [|x2 a]]; destruct b as [|y [|y2 b]]; cbn in *; try lia; auto.
Qed.

Lemma fractions_length (l k : list Qc) :
  List.length (flat_map (fun item => map (fun x => Qcdiv x item) k) l) = (List.length l * List.length k)%nat.
Proof. induction l; cbn; auto. rewrite app_length, map_length, IHl. auto. Qed.

Lemma prepare_some outside incre a c : np_mul a (flat_map (fun item => map (fun x => Qcdiv x item) incre) incre) = Ok c ->
  exists b acc, affine_prepare outside incre (Some a) = Ok (b, acc) /\ List.length b = List.length c /\
    In (2, zlen c) acc /\ List.Forall (fun r => 0 <= fst r <= 3 /\ snd r = zlen c) acc.
Proof.
  intros H. unfold affine_prepare. rewrite H. cbn [bind].
  destruct (Qc_eq_dec _ _); do 2 eexists; (split; [reflexivity|]).
  - split; auto. split; [left; auto|]. repeat constructor; cbn; lia.
  - assert (U : forall (A : Type) (l : list A) i v, List.length (upd_nat l i v) = List.length l)
      by (intros A; induction l; intros [|]; cbn; auto).
    rewrite !U. split; auto. split; [left; auto|]. repeat constructor; cbn; lia.
Qed.

Lemma affine_run_in outside incre m acc : List.length incre = m_dims m -> (0 < m_dims m)%nat ->
  (forall a, m_affine m = Some a -> List.length a <> 1%nat -> (4 <= List.length a)%nat) ->
  affine_run outside incre m = Ok acc ->
  (List.Forall in_array acc <-> ~ (m_dims m = 1%nat /\ exists x, m_affine m = Some [x])).
Proof.
  intros L D0 S. unfold affine_run. destruct (m_affine m) as [a|] eqn:A.
  - specialize (S a eq_refl). set (f := flat_map (fun item => map (fun x => Qcdiv x item) incre) incre).
    assert (Lf : List.length f = (m_dims m * m_dims m)%nat) by (unfold f; rewrite fractions_length, L; auto).
    destruct (np_mul a f) as [c|e] eqn:M.
    2:{ unfold affine_prepare. fold f. rewrite M. discriminate. }
    destruct (prepare_some outside incre a c M) as (b & acc0 & P & Lb & I2 & FA). rewrite P. cbn [bind].
    intros H; inversion H; subst; clear H.
    assert (C : (List.length a = List.length f \/ List.length a = 1%nat \/ List.length f = 1%nat)).
    { destruct (Nat.eq_dec (List.length a) (List.length f)); auto. destruct (Nat.eq_dec (List.length a) 1); auto.
      destruct (Nat.eq_dec (List.length f) 1); auto. rewrite np_mul_err in M by auto. discriminate M. }
    destruct (np_mul_ok _ _ C) as (c' & M' & Lc). rewrite M in M'. inversion M'; subst c'; clear M'.
    split.
    + intros F [D (x & X)]. inversion X; subst a. rewrite D in Lf. cbn in Lc, Lf. rewrite Forall_forall in F.
      specialize (F (2, zlen c)). unfold in_array in F. cbn [fst snd] in F. unfold zlen in F. rewrite Lc, Lf in F.
      assert (In (2, Z.of_nat 1) (acc0 ++ affine_core (m_dims m) b)).
      { apply in_app_iff. left. unfold zlen in I2. rewrite Lc, Lf in I2. auto. }
      destruct F as [_ F]; [auto|]. cbn in F. lia.
    + intros N.
      assert (Big : 4 <= zlen c).
      { unfold zlen. rewrite Lc. destruct (Nat.eqb_spec (List.length a) 1) as [E|E].
        - rewrite Lf. destruct a as [|x [|]]; try discriminate E.
          assert (D1 : m_dims m <> 1%nat) by (intro D; apply N; split; eauto). nia.
        - specialize (S E). lia. }
      apply Forall_app. split.
      * revert FA. apply Forall_impl. intros r [R1 R2]. unfold in_array. lia.
      * unfold affine_core. destruct (Nat.eqb (m_dims m) 2); [|constructor]. apply Forall_map.
        assert (ZB : zlen b = zlen c) by (unfold zlen; rewrite Lb; auto).
        repeat constructor; cbn [fst snd]; lia.
  - cbn. intros H; inversion H; subst; clear H. split.
    + intros _ [_ (x & X)]. discriminate X.
    + intros _. unfold affine_core. destruct (Nat.eqb (m_dims m) 2); cbn; [|constructor].
      repeat constructor; cbn; lia.
Qed.

Lemma affine_run_raises outside incre m : List.length incre = m_dims m ->
  (affine_run outside incre m = Err ValueError <->
   exists a, m_affine m = Some a /\ List.length a <> (m_dims m * m_dims m)%nat /\ List.length a <> 1%nat /\ m_dims m <> 1%nat) /\
  (forall e, affine_run outside incre m = Err e -> e = ValueError).
Proof.
  intros L. unfold affine_run. destruct (m_affine m) as [a|] eqn:A.
  - set (f := flat_map (fun item => map (fun x => Qcdiv x item) incre) incre).
    assert (Lf : List.length f = (m_dims m * m_dims m)%nat) by (unfold f; rewrite fractions_length, L; auto).
    assert (C : (List.length a = List.length f \/ List.length a = 1%nat \/ List.length f = 1%nat) \/
                (List.length a <> List.length f /\ List.length a <> 1%nat /\ List.length f <> 1%nat)) by lia.
    destruct C as [C|(C1 & C2 & C3)].
    + destruct (np_mul_ok _ _ C) as (c & M & _). destruct (prepare_some outside incre a c M) as (b & acc & P & _).
      rewrite P. cbn [bind]. split; [|discriminate]. split; [discriminate|].
      intros (a' & E & H1 & H2 & H3). inversion E; subst a'. exfalso. rewrite Lf in C.
      destruct C as [C|[C|C]]; try contradiction. apply H3. destruct (m_dims m) as [|[|k]]; cbn in *; try lia; auto.
    + unfold affine_prepare. fold f. rewrite (np_mul_err a f C1 C2 C3). cbn [bind]. split.
      * split; auto. intros _. exists a. rewrite Lf in *. repeat split; auto. intro D. rewrite D in C3. apply C3. auto.
      * intros e H; inversion H; auto.
  - cbn. split; [|discriminate]. split; [discriminate|]. intros (a & E & _). discriminate E.
Qed.

(** The affine matrix of a method after any history: square, with a first element that is not zero. *)
Definition squared (m : meth) : Prop :=
  match m_affine m with
  | None => True
  | Some v => exists k, List.length v = (k * k)%nat /\ exists x r, v = x :: r /\ x <> 0%Qc
  end.

Lemma step_squared m o : squared m -> squared (step m o).
Proof.
  intros H. destruct o as [n|v]; cbn [step]; auto.
  unfold validate_affine_matrix. destruct v as [v|]; [|exact I].
  destruct (Nat.eqb_spec (List.length v) (m_dims m ^ 2)) as [E|E]; cbn [negb]; auto.
  destruct v as [|x r]; auto. destruct (Qc_eq_dec x 0%Qc) as [X|X]; auto.
  unfold squared. cbn [m_affine]. exists (m_dims m). rewrite E. split; [cbn; lia|]. exists x, r. auto.
Qed.

Lemma history_squared l m : squared m -> squared (history m l).
Proof. revert m. induction l as [|o l IH]; intros m H; cbn; auto. apply IH, step_squared, H. Qed.

Lemma squared_size m a : squared m -> m_affine m = Some a -> List.length a <> 1%nat -> (4 <= List.length a)%nat.
Proof.
  unfold squared. intros H E. rewrite E in H. destruct H as (k & Hk & x & r & -> & _). rewrite Hk. intros N.
  destruct k as [|[|k]]; cbn in *; try lia.
Qed.
