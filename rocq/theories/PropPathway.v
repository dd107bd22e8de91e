(** C10-C14: spin states, transitions, transition queries and pathways. *)
From Coq Require Import ZArith QArith Bool String Qcanon Lia List Sorted Permutation.
From Verif Require Import Base PathwayModel PathwayProofs QueryProofs SelectProofs SelectTwo.
Import ListNotations.
Open Scope Qc_scope.

(** C10.  [spins] holds 2I per site; m is a spin number of 2I when m = k - I for some k in 0..2I. *)
Theorem C10_zeeman_states :
  forall spins : list nat, spins <> [] ->
  (forall st, In st (zeeman_states spins) <->
     Forall2 (fun twoI m => exists k, (k <= twoI)%nat /\ m = Qc_of_nat k - spin_of twoI) spins st) /\
  StronglySorted lex_lt (zeeman_states spins) /\ NoDup (zeeman_states spins) /\
  List.length (zeeman_states spins) = fold_right (fun s n => ((s + 1) * n)%nat) 1%nat spins.
Proof. exact zeeman_main. Qed.
Print Assumptions C10_zeeman_states.

Example C10_example : map (map this) (zeeman_states [2%nat; 1%nat]) =
  [[-1; -1#2]; [-1; 1#2]; [0; -1#2]; [0; 1#2]; [1; -1#2]; [1; 1#2]]%Q.
Proof. vm_compute. reflexivity. Qed.

(** C11.  All pairs of states, each once, listed by initial and then by final state. *)
Theorem C11_all_transitions :
  forall spins : list nat, spins <> [] ->
  (forall a b, In (a, b) (all_transitions spins) <-> In a (zeeman_states spins) /\ In b (zeeman_states spins)) /\
  StronglySorted (fun t u => lex_lt (fst t) (fst u) \/ fst t = fst u /\ lex_lt (snd t) (snd u)) (all_transitions spins) /\
  NoDup (all_transitions spins) /\
  List.length (all_transitions spins) = (List.length (zeeman_states spins) * List.length (zeeman_states spins))%nat.
Proof. exact all_transitions_main. Qed.
Print Assumptions C11_all_transitions.

Example C11_example : map (fun t => (map this (fst t), map this (snd t))) (all_transitions [1%nat]) =
  [([-1#2], [-1#2]); ([-1#2], [1#2]); ([1#2], [-1#2]); ([1#2], [1#2])]%Q.
Proof. vm_compute. reflexivity. Qed.

(** C12.  One channel [c]; [tcontents h q v]: in heap h the query objects q hold the value v; [query_ok]: the query has
    a non-empty list of items for the channel, none longer than the number of channel sites. *)
Theorem C12_query_exact :
  forall (set_perms : list Qc -> list (list Qc)), lists_permutations set_perms ->
  forall (c : string) (isotopes : list string) (spins : list nat) (q : tquery) (v : tvalue) (itemsP : list (list Qc)) (h : heap),
  tcontents h q v -> List.length isotopes = List.length spins -> In c isotopes ->
  query_ok isotopes c (tv_P v) itemsP ->
  match tv_D v with None => True | Some _ => exists itemsD, query_ok isotopes c (tv_D v) itemsD end ->
  exists sel, fst (event_transitions set_perms [c] isotopes (all_transitions spins) q h) = Ok sel /\
    (exists f, sel = filter f (all_transitions spins)) /\
    forall t, In t sel <->
      In t (all_transitions spins) /\ matches isotopes c itemsP (delta_m t) /\
      match tv_D v with
      | None => True
      | Some _ => exists itemsD, query_ok isotopes c (tv_D v) itemsD /\ matches isotopes c itemsD (delta_m2 t)
      end.
Proof. exact event_select_heap. Qed.
Print Assumptions C12_query_exact.

(** C12.  A channel absent from the system selects nothing. *)
Theorem C12_absent_channel :
  forall (set_perms : list Qc -> list (list Qc)) c isotopes spins q v h,
  tcontents h q v -> ~ In c isotopes -> tv_D v = None ->
  List.length isotopes = List.length spins -> spins <> [] ->
  fst (event_transitions set_perms [c] isotopes (all_transitions spins) q h) = Ok [].
Proof. exact event_absent_heap. Qed.
Print Assumptions C12_absent_channel.

(** C12.  An item longer than the number of channel sites is rejected. *)
Theorem C12_long_item_rejected :
  forall (set_perms : list Qc -> list (list Qc)) c isotopes all q v d items h,
  tcontents h q v -> In c isotopes -> tv_P v = Some d -> dict_get d 1 = Ok items ->
  Exists (fun it => (n_channel_sites isotopes c < List.length it)%nat) items ->
  fst (event_transitions set_perms [c] isotopes all q h) = Err ValueError.
Proof. exact event_long_heap. Qed.
Print Assumptions C12_long_item_rejected.

(** With two channels the analogous statement is false.  Two 1H and two 13C sites, P = -1 on each channel: a transition
    whose change is -1 on one 1H site and -1 on one 13C site matches on both channels and is not selected ... *)
Theorem C12_two_channels_refuted :
  exists set_perms, lists_permutations set_perms /\
  exists isotopes spins q v h t sel,
    tcontents h q v /\ tv_P v = Some [(1%nat, [[Q2Qc (-1)]]); (2%nat, [[Q2Qc (-1)]])] /\ tv_D v = None /\
    In t (all_transitions spins) /\
    Permutation (channel_values isotopes "1H" (delta_m t)) [Q2Qc (-1); 0] /\
    Permutation (channel_values isotopes "13C" (delta_m t)) [Q2Qc (-1); 0] /\
    fst (event_transitions set_perms ["1H"; "13C"]%string isotopes (all_transitions spins) q h) = Ok sel /\ ~ In t sel.
Proof.
  exists sp. split; [apply sp_ok|].
  exists ["1H"; "1H"; "13C"; "13C"]%string, [1; 1; 1; 1]%nat,
    {| tq_P := Some [(1%nat, [0%nat]); (2%nat, [1%nat])]; tq_D := None |},
    {| tv_P := Some [(1%nat, [[Q2Qc (-1)]]); (2%nat, [[Q2Qc (-1)]])]; tv_D := None |},
    [[Q2Qc (-1)]; [Q2Qc (-1)]].
  assert (E : forall x y : Qc, this x = this y -> x = y) by (intros x y Exy; apply Qc_is_canon; rewrite Exy; reflexivity).
  exists (nth 246 (all_transitions [1; 1; 1; 1]%nat) ([], [])).
  eexists. split; [|split; [reflexivity|split; [reflexivity|split; [|split; [|split; [|split; [reflexivity|]]]]]]].
  - split; [|exact I]. repeat constructor.
  - apply nth_In. replace (List.length (all_transitions [1; 1; 1; 1]%nat)) with 256%nat by (vm_compute; reflexivity). lia.
  - match goal with |- Permutation ?a ?b => replace a with b; [reflexivity|] end.
    assert (Em : forall l l', map this l = map this l' -> l = l').
    { induction l as [|x l IH]; intros [|y l'] H; try discriminate; auto. injection H as H1 H2. f_equal; auto. }
    apply Em. vm_compute. reflexivity.
  - match goal with |- Permutation ?a ?b => replace a with (rev b); [apply Permutation_sym, Permutation_rev|] end.
    assert (Em : forall l l', map this l = map this l' -> l = l').
    { induction l as [|x l IH]; intros [|y l'] H; try discriminate; auto. injection H as H1 H2. f_equal; auto. }
    apply Em. vm_compute. reflexivity.
  - intros H. apply (in_map (fun t => (map this (fst t), map this (snd t)))) in H. vm_compute in H.
    repeat (destruct H as [H|H]; [discriminate H|]). exact H.
Qed.
Print Assumptions C12_two_channels_refuted.

(** ... and with two 1H and three 13C sites the same query raises. *)
Theorem C12_two_channels_raises_refuted :
  exists set_perms, lists_permutations set_perms /\
  exists isotopes spins q h, n_channel_sites isotopes "1H" = 2%nat /\ n_channel_sites isotopes "13C" = 3%nat /\
    tcontents h q {| tv_P := Some [(1%nat, [[Q2Qc (-1)]]); (2%nat, [[Q2Qc (-1)]])]; tv_D := None |} /\
    fst (event_transitions set_perms ["1H"; "13C"]%string isotopes (all_transitions spins) q h) = Err ValueError.
Proof.
  exists sp. split; [apply sp_ok|].
  exists ["1H"; "1H"; "13C"; "13C"; "13C"]%string, [1; 1; 1; 1; 1]%nat,
    {| tq_P := Some [(1%nat, [0%nat]); (2%nat, [1%nat])]; tq_D := None |}, [[Q2Qc (-1)]; [Q2Qc (-1)]].
  split; [reflexivity|]. split; [reflexivity|]. split.
  - split; [|exact I]. repeat constructor.
  - vm_compute. reflexivity.
Qed.
Print Assumptions C12_two_channels_raises_refuted.

(** What does hold for two channels, P only.  Every transition that is selected matches on both channels and changes no other site ([matches_both]); no
    selection raises anything but ValueError. *)
Theorem C12_two_channels_sound :
  forall (set_perms : list Qc -> list (list Qc)), lists_permutations set_perms ->
  forall (c c' : string) (isotopes : list string) (spins : list nat) (q : tquery) (v : tvalue) (items items' : list (list Qc)) (h : heap),
  tcontents h q v -> List.length isotopes = List.length spins -> In c isotopes -> In c' isotopes -> c <> c' ->
  two_queries isotopes c c' (tv_P v) items items' -> tv_D v = None ->
  match fst (event_transitions set_perms [c; c'] isotopes (all_transitions spins) q h) with
  | Ok sel => (exists f, sel = filter f (all_transitions spins)) /\ forall t, In t sel -> matches_both isotopes c c' items items' (delta_m t)
  | Err e => e = ValueError
  end.
Proof.
  intros sp Hp c c' iso spins q v items items' h C L Hc Hc' N HQ HD. destruct (event_run sp [c; c'] iso (all_transitions spins) q v h C) as [new E]. rewrite E. cbn [fst].
  assert (CASE : (items = [] \/ items' = [] \/ (n_arrangements sp iso c items <> n_arrangements sp iso c' items' /\ n_arrangements sp iso c items <> 1%nat /\ n_arrangements sp iso c' items' <> 1%nat)) \/
    (items <> [] /\ items' <> [] /\ (n_arrangements sp iso c items = n_arrangements sp iso c' items' \/ n_arrangements sp iso c items = 1%nat \/ n_arrangements sp iso c' items' = 1%nat))).
  { destruct items as [|i r]; [auto|]. destruct items' as [|i' r']; [auto|]. destruct (Nat.eq_dec (n_arrangements sp iso c (i :: r)) (n_arrangements sp iso c' (i' :: r'))), (Nat.eq_dec (n_arrangements sp iso c (i :: r)) 1), (Nat.eq_dec (n_arrangements sp iso c' (i' :: r')) 1); try (right; split; [discriminate|split; [discriminate|tauto]]). left. right. right. auto. }
  destruct CASE as [R|[N1 [N2 R]]].
  - rewrite (two_raises sp iso c c' _ v items items') by auto. reflexivity.
  - destruct (two_select sp Hp iso spins c c' v items items' L Hc Hc' N HQ HD N1 N2 R) as [sel [-> [F [S _]]]]. split; auto. intros t Ht. apply S. exact Ht.
Qed.
Print Assumptions C12_two_channels_sound.
(** It is also complete when on one of the channels the query is one item with the same value on all its sites, as with one site of that isotope. *)
Theorem C12_two_channels_partial :
  forall (set_perms : list Qc -> list (list Qc)), lists_permutations set_perms ->
  forall (c c' : string) (isotopes : list string) (spins : list nat) (q : tquery) (v : tvalue) (items items' : list (list Qc)) (h : heap),
  tcontents h q v -> List.length isotopes = List.length spins -> In c isotopes -> In c' isotopes -> c <> c' ->
  two_queries isotopes c c' (tv_P v) items items' -> tv_D v = None -> items <> [] -> items' <> [] ->
  (exists it x, items = [it] /\ Forall (fun y => y = x) (it ++ repeat 0 (n_channel_sites isotopes c - List.length it))) \/
  (exists it x, items' = [it] /\ Forall (fun y => y = x) (it ++ repeat 0 (n_channel_sites isotopes c' - List.length it))) ->
  exists sel, fst (event_transitions set_perms [c; c'] isotopes (all_transitions spins) q h) = Ok sel /\ (exists f, sel = filter f (all_transitions spins)) /\
    forall t, In t sel <-> In t (all_transitions spins) /\ matches_both isotopes c c' items items' (delta_m t).
Proof.
  intros sp Hp c c' iso spins q v items items' h C L Hc Hc' N HQ HD N1 N2 H. destruct (event_run sp [c; c'] iso (all_transitions spins) q v h C) as [new E]. rewrite E. cbn [fst].
  assert (A : n_arrangements sp iso c items = 1%nat \/ n_arrangements sp iso c' items' = 1%nat) by (destruct H as [[it [x [-> F]]]|[it [x [-> F]]]]; [left|right]; apply (one_arrangement sp Hp _ _ it x F)).
  destruct (two_select sp Hp iso spins c c' v items items' L Hc Hc' N HQ HD N1 N2 ltac:(tauto)) as [sel [Es [F [S K]]]]. exists sel. split; auto. split; auto. intros t. split; [apply S|]. intros [Ht M]. apply K; auto.
Qed.
Print Assumptions C12_two_channels_partial.
(** A query without items on a channel of the spin system raises, with one channel or two. *)
Theorem C12_no_items :
  forall (set_perms : list Qc -> list (list Qc)) (c c' : string) (isotopes : list string) (all : list transition) (q : tquery) (v : tvalue) (h : heap), tcontents h q v -> In c isotopes ->
  (forall d, tv_P v = Some d -> dict_get d 1 = Ok [] -> fst (event_transitions set_perms [c] isotopes all q h) = Err ValueError) /\
  (forall items items', In c' isotopes -> two_queries isotopes c c' (tv_P v) items items' -> items = [] \/ items' = [] -> fst (event_transitions set_perms [c; c'] isotopes all q h) = Err ValueError).
Proof.
  intros sp c c' iso all q v h C Hc. split.
  - intros d HP Hd. destruct (event_run sp [c] iso all q v h C) as [new E]. rewrite E. cbn [fst]. apply (one_empty sp iso c all v d); auto.
  - intros items items' Hc' HQ H. destruct (event_run sp [c; c'] iso all q v h C) as [new E]. rewrite E. cbn [fst]. apply (two_raises sp iso c c' all v items items'); auto. tauto.
Qed.
Print Assumptions C12_no_items.
(** Two 1H sites and one 13C site, P = -1 on each channel: the transitions that lower the 13C site and one of the 1H sites. *)
Example C12_two_example :
  let v := {| tv_P := Some [(1%nat, [[Q2Qc (-1)]]); (2%nat, [[Q2Qc (-1)]])]; tv_D := None |} in
  let q := {| tq_P := Some [(1%nat, [0%nat]); (2%nat, [1%nat])]; tq_D := None |} in
  let h := [[Q2Qc (-1)]; [Q2Qc (-1)]] in
  tcontents h q v /\ two_queries ["1H"; "13C"; "1H"]%string "1H" "13C" (tv_P v) [[Q2Qc (-1)]] [[Q2Qc (-1)]] /\
  Forall (fun y => y = Q2Qc (-1)) ([Q2Qc (-1)] ++ repeat 0 (n_channel_sites ["1H"; "13C"; "1H"]%string "13C" - 1)) /\
  match fst (event_transitions sp ["1H"; "13C"]%string ["1H"; "13C"; "1H"]%string (all_transitions [1; 1; 1]%nat) q h) with
  | Ok sel => map (fun t => map this (delta_m t)) sel = [[0; -1; -1]; [-1; -1; 0]; [-1; -1; 0]; [0; -1; -1]]%Q
  | Err _ => False
  end.
Proof.
  split; [split; repeat constructor|]. split; [|split].
  - split; [eexists; repeat split|]. split; repeat constructor.
  - repeat constructor.
  - vm_compute. reflexivity.
Qed.

(** A central-transition query (P = -1, D = 0) on 17O with spin 5/2 selects the one transition 1/2 -> -1/2. *)
Example C12_example :
  let v := {| tv_P := Some [(1%nat, [[Q2Qc (-1)]])]; tv_D := Some [(1%nat, [[0]])] |} in
  let q := {| tq_P := Some [(1%nat, [0%nat])]; tq_D := Some [(1%nat, [1%nat])] |} in
  let h := [[Q2Qc (-1)]; [0]] in
  tcontents h q v /\ query_ok ["17O"%string] "17O" (tv_P v) [[Q2Qc (-1)]] /\ query_ok ["17O"%string] "17O" (tv_D v) [[0]] /\
  match fst (event_transitions sp ["17O"%string] ["17O"%string] (all_transitions [5%nat]) q h) with
  | Ok sel => map (fun t => (map this (fst t), map this (snd t))) sel = [([1#2], [-1#2])]%Q
  | Err _ => False
  end.
Proof.
  split; [split; repeat constructor|]. split; [|split].
  - split; [eexists; split; reflexivity|]. split; [discriminate|]. repeat constructor.
  - split; [eexists; split; reflexivity|]. split; [discriminate|]. repeat constructor.
  - vm_compute. reflexivity.
Qed.

(** C13.  [all_choices segs]: see the next theorem. *)
Theorem C13_pathways :
  forall (set_perms : list Qc -> list (list Qc)) channels isotopes spins qs vs h, qs <> [] -> Forall2 (tcontents h) qs vs ->
  fst (get_pathways_np set_perms channels isotopes spins qs h) =
  let* segs := mapM (fun q => fst (event_transitions set_perms channels isotopes (all_transitions spins) q h)) qs in
  Ok (all_choices segs).
Proof. exact pathways_heap. Qed.
Print Assumptions C13_pathways.

(** C13.  [all_choices] lists exactly the tuples with one element of each list, each once, and as many as the product of the
    lengths; the second equation says that the last component varies fastest. *)
Theorem C13_all_choices :
  forall (A : Type) (segs : list (list A)),
  (forall w, In w (all_choices segs) <-> Forall2 (fun x s => In x s) w segs) /\
  (Forall (@NoDup A) segs -> NoDup (all_choices segs)) /\
  List.length (all_choices segs) = fold_right Nat.mul 1%nat (map (@List.length A) segs) /\
  (forall s, all_choices (s :: segs) = concat (map (fun x => map (cons x) (all_choices segs)) s)).
Proof.
  exact (fun A segs => conj (all_choices_in segs) (conj (all_choices_NoDup segs) (conj (all_choices_length segs)
    (fun s => flat_map_concat_map (fun x => map (cons x) (all_choices segs)) s)))).
Qed.
Print Assumptions C13_all_choices.

Example C13_example : all_choices [[1; 2]; [5]; [7; 8]]%nat = [[1; 5; 7]; [1; 5; 8]; [2; 5; 7]; [2; 5; 8]]%nat.
Proof. reflexivity. Qed.

(** C14.  After any history of requests the query objects hold the same values and the next request gives the answer
    of a fresh method. *)
Theorem C14_queries_unchanged :
  forall (set_perms : list Qc -> list (list Qc)) calls qs vs h channels isotopes spins, Forall2 (tcontents h) qs vs ->
  Forall2 (tcontents (heap_after set_perms calls qs h)) qs vs /\
  fst (get_pathways_np set_perms channels isotopes spins qs (heap_after set_perms calls qs h)) =
  fst (get_pathways_np set_perms channels isotopes spins qs h).
Proof. exact history_indep. Qed.
Print Assumptions C14_queries_unchanged.

(** The permutation routine itself lacks this property: called directly it lengthens the caller's list, and a later
    call for a smaller system then raises although a first call would not. *)
Theorem C14_direct_call_refuted :
  exists set_perms, lists_permutations set_perms /\
  exists q h big small, snd (query_permutations set_perms q big ["1H"%string] h) <> h /\
    (exists r, fst (query_permutations set_perms q small ["1H"%string] h) = Ok r) /\
    fst (query_permutations set_perms q small ["1H"%string] (snd (query_permutations set_perms q big ["1H"%string] h))) = Err ValueError.
Proof.
  exists sp. split; [apply sp_ok|].
  exists (Some [(1%nat, [0%nat])]), [[Q2Qc (-1)]], ["1H"; "1H"]%string, ["1H"]%string. split; [|split].
  - intros E. apply (f_equal (map (@List.length Qc))) in E. vm_compute in E. discriminate.
  - eexists. vm_compute. reflexivity.
  - vm_compute. reflexivity.
Qed.
Print Assumptions C14_direct_call_refuted.

Example C14_example :
  let qs := [{| tq_P := Some [(1%nat, [0%nat])]; tq_D := None |}] in
  Forall2 (tcontents [[Q2Qc (-1)]]) qs [{| tv_P := Some [(1%nat, [[Q2Qc (-1)]])]; tv_D := None |}] /\
  match fst (get_pathways_np sp ["1H"%string] ["1H"%string] [1%nat] qs
         (heap_after sp [(["1H"%string], ["1H"; "1H"]%string, [1; 1]%nat)] qs [[Q2Qc (-1)]])) with
  | Ok w => map (map (fun t => (map this (fst t), map this (snd t)))) w = [[([1#2], [-1#2])]]%Q
  | Err _ => False
  end.
Proof. split; [repeat constructor|vm_compute; reflexivity]. Qed.
