(** C91, C92: what the compiled code reads from the arrays Python hands to it. *)
From Coq Require Import String List ZArith Bool Lia Qcanon.
From Verif Require Import Base PathwayModel ReadModel ReadSpec ReadProofs.
Import ListNotations.
Open Scope Z_scope.

(** ** C91.  The quantum numbers of the transitions. *)

(** Any list of spin systems, in any order, any method: if every coupling of an observed spin system names two of its
    sites, and pathways given by the user have one transition per event and one number per site and state, then every
    read of the array of transitions is inside of it - also when the array is the one of an earlier spin system.  The
    method's own pathways need no assumption.  [queries] are the transition queries of all events, [spin] the spins of
    the isotopes. *)
Theorem C91_reads_inside_partial :
  forall set_perms channels (spin : string -> nat) queries h channel n_events systems,
  List.length queries = total_events n_events ->
  (forall s, In s systems -> In channel (s_isotopes s) ->
     Z.of_nat (List.length (s_isotopes s)) < 2 ^ 31 /\
     (forall l c, s_couplings s = Some l -> In c l -> names_sites (List.length (s_isotopes s)) c) /\
     (forall l w, s_pathways s = Some l -> In w l -> pathway_of (List.length (s_isotopes s)) (total_events n_events) w)) ->
  forall r, In r (fst (run_reads (fun isotopes => fst (get_pathways_np set_perms channels isotopes (map spin isotopes) queries h))
    channel n_events systems)) -> in_array r.
Proof.
  intros sp chs spin qs h channel n_events systems Lq Hs. apply Forall_forall. unfold run_reads. apply systems_reads_good.
  - intros iso w Hi H. rewrite <- Lq, <- (map_length spin). eapply method_pathways_shape; [|exact H].
    destruct iso; [congruence|discriminate].
  - reflexivity.
  - apply Forall_forall. intros s Hin O. unfold observed in O. apply existsb_exists in O.
    destruct O as (x & Hx & E). apply String.eqb_eq in E. subst x. destruct (Hs s Hin Hx) as (H1 & H2 & H3).
    split; [exact H1|]. split.
    + unfold own_pathways_fit. destruct (s_pathways s) as [w|]; [|exact I]. apply Forall_forall. intros p Hp. eapply H3; eauto.
    + unfold couplings_of. destruct (s_couplings s) as [l|]; [|constructor]. apply Forall_forall. intros c Hc. eapply H2; eauto.
Qed.
Print Assumptions C91_reads_inside_partial.

(** And only then: a run that returns read only inside of the array exactly when every coupling of every observed spin
    system names two of its sites. *)
Theorem C91_reads_inside_iff :
  forall set_perms channels (spin : string -> nat) queries h channel n_events systems,
  List.length queries = total_events n_events -> (0 < total_events n_events)%nat ->
  (forall s, In s systems -> In channel (s_isotopes s) ->
     Z.of_nat (List.length (s_isotopes s)) < 2 ^ 31 /\
     (forall l c, s_couplings s = Some l -> In c l -> is_int (fst c) /\ is_int (snd c)) /\
     (forall l w, s_pathways s = Some l -> In w l -> pathway_of (List.length (s_isotopes s)) (total_events n_events) w)) ->
  let run := run_reads (fun isotopes => fst (get_pathways_np set_perms channels isotopes (map spin isotopes) queries h))
    channel n_events systems in
  snd run = None ->
  ((forall r, In r (fst run) -> in_array r) <->
   (forall s l c, In s systems -> In channel (s_isotopes s) -> s_couplings s = Some l -> In c l ->
      names_sites (List.length (s_isotopes s)) c)).
Proof.
  intros sp chs spin qs h channel n_events systems Lq HE Hs run Hr. split.
  - intros F. apply Forall_forall in F. unfold run, run_reads in F, Hr.
    intros s l c Hin Hc E Hl.
    assert (K : List.Forall (fun s => observed channel s = true -> List.Forall (names_sites (List.length (s_isotopes s))) (couplings_of s)) systems).
    { refine (systems_reads_bad _ channel n_events _ systems pcache0 _ HE _ Hr F).
      - intros iso w Hi H. rewrite <- Lq, <- (map_length spin). eapply method_pathways_shape; [|exact H].
        destruct iso; [congruence|discriminate].
      - reflexivity.
      - apply Forall_forall. intros s' Hin' O. unfold observed in O. apply existsb_exists in O.
        destruct O as (x & Hx & E'). apply String.eqb_eq in E'. subst x. destruct (Hs s' Hin' Hx) as (H1 & H2 & H3).
        split; [exact H1|]. split.
        + unfold own_pathways_fit. destruct (s_pathways s') as [w|]; [|exact I]. apply Forall_forall. intros p Hp. eapply H3; eauto.
        + unfold couplings_of. destruct (s_couplings s') as [l'|]; [|constructor]. apply Forall_forall. intros c' Hc'. eapply H2; eauto. }
    rewrite Forall_forall in K. specialize (K s Hin).
    assert (O : observed channel s = true) by (unfold observed; apply existsb_exists; exists channel; split; [exact Hc|apply String.eqb_refl]).
    specialize (K O). unfold couplings_of in K. rewrite E in K. rewrite Forall_forall in K. exact (K c Hl).
  - intros F. apply C91_reads_inside_partial; [exact Lq|]. intros s Hin Hc. destruct (Hs s Hin Hc) as (H1 & H2 & H3).
    split; [exact H1|]. split; [|exact H3]. intros l c E Hl. eapply F; eauto.
Qed.
Print Assumptions C91_reads_inside_iff.

(** Pathways given by the user for one spin system without couplings, all of [T] transitions of the right size: the run
    returns, and its reads are inside of the array exactly when no pathway has fewer transitions than the method has events. *)
Theorem C91_user_pathways :
  forall get_pathways channel n_events s w T,
  In channel (s_isotopes s) -> s_couplings s = None -> s_pathways s = Some w -> w <> [] ->
  Z.of_nat (List.length (s_isotopes s)) < 2 ^ 31 -> (0 < total_events n_events)%nat ->
  (forall p, In p w -> pathway_of (List.length (s_isotopes s)) T p) ->
  snd (run_reads get_pathways channel n_events [s]) = None /\
  ((forall r, In r (fst (run_reads get_pathways channel n_events [s])) -> in_array r) <-> (total_events n_events <= T)%nat).
Proof.
  intros g channel n_events s w T Hc Nc Ew Nw Hn HE F. rewrite <- Forall_forall.
  apply (one_system_user g channel n_events s w T); auto.
  - unfold observed. apply existsb_exists. exists channel. split; [auto|apply String.eqb_refl].
  - apply Forall_forall. auto.
Qed.
Print Assumptions C91_user_pathways.

(** The full claim is false: the couplings a user may construct are checked only for two different integers, and the
    pathways not at all.  With sites 0 and 2 coupled in a spin system of two sites, with a negative index, or with a
    pathway of one transition for a method of two events, the run returns and has read outside of the array. *)
Definition half : Qc := Q2Qc (QArith_base.Qmake 1 2).
Definition two_protons (c : option (list (Z * Z))) : system :=
  {| s_isotopes := ["1H"; "1H"]%string; s_couplings := c;
     s_pathways := Some [[([half; half], [- half; half]%Qc)]] |}.

Theorem C91_reads_inside_refuted :
  (exists c, validate_site_index [0; 2] = Ok c /\
    let run := run_reads (fun _ => Err ValueError) "1H" [1%nat] [two_protons (Some [c])] in
    snd run = None /\ exists r, In r (fst run) /\ ~ in_array r) /\
  (exists c, validate_site_index [-1; 0] = Ok c /\
    let run := run_reads (fun _ => Err ValueError) "1H" [1%nat] [two_protons (Some [c])] in
    snd run = None /\ exists r, In r (fst run) /\ ~ in_array r) /\
  (let run := run_reads (fun _ => Err ValueError) "1H" [1%nat; 1%nat] [two_protons None] in
    snd run = None /\ exists r, In r (fst run) /\ ~ in_array r).
Proof.
  split; [|split].
  - exists (0, 2). split; [reflexivity|]. split; [reflexivity|]. exists (4, 4). split; [|unfold in_array; cbn; lia].
    cbv. tauto.
  - exists (-1, 0). split; [reflexivity|]. split; [reflexivity|]. exists (-1, 4). split; [|unfold in_array; cbn; lia].
    cbv. tauto.
  - split; [reflexivity|]. exists (4, 4). split; [|unfold in_array; cbn; lia]. cbv. tauto.
Qed.
Print Assumptions C91_reads_inside_refuted.

(** The hypotheses are met by two spin systems of which the second reuses the array of the first. *)
Example C91_example :
  let w := [[([half; half], [- half; half]%Qc); ([half; half], [half; - half]%Qc)]] in
  let s1 := {| s_isotopes := ["1H"; "13C"]%string; s_couplings := Some [(0, 1)]; s_pathways := Some w |} in
  let s2 := {| s_isotopes := ["1H"; "1H"]%string; s_couplings := Some [(1, 0)]; s_pathways := None |} in
  names_sites 2 (0, 1) /\ names_sites 2 (1, 0) /\ pathway_of 2 (total_events [1; 1]%nat) (hd [] w) /\
  run_reads (fun _ => Err ValueError) "1H" [1; 1]%nat [s1; s2] =
  (map (fun i => (i, 8)) ([0; 2; 1; 3; 0; 1; 2; 3; 4; 6; 5; 7; 4; 5; 6; 7] ++ [0; 2; 1; 3; 1; 0; 3; 2; 4; 6; 5; 7; 5; 4; 7; 6]), None).
Proof.
  cbv zeta. unfold names_sites, pathway_of, transition_of. cbn [fst snd hd]. repeat split; try lia.
  repeat constructor.
Qed.

(** ** C92.  The affine matrix. *)

(** Whatever a user assigns, in whatever order: the affine matrix of a method is None or has the square of some number of
    elements, the first of which is not zero; right after an assignment that number is the number of spectral dimensions. *)
Theorem C92_square_and_not_zero :
  forall l v, m_affine (history meth0 l) = Some v ->
  (exists k, List.length v = (k * k)%nat) /\ (exists x r, v = x :: r /\ x <> 0%Qc).
Proof.
  intros l v E. assert (H : squared (history meth0 l)) by (apply history_squared; exact I).
  unfold squared in H. rewrite E in H. destruct H as (k & Hk & Hx). split; [exists k; exact Hk|exact Hx].
Qed.
Print Assumptions C92_square_and_not_zero.

Theorem C92_assigned_fits :
  forall l v, let m := history meth0 l in
  match validate_affine_matrix (m_dims m) (Some v) with
  | Ok a => a = Some v /\ List.length v = (m_dims m * m_dims m)%nat /\ history meth0 (l ++ [SetAffine (Some v)]) = {| m_dims := m_dims m; m_affine := Some v |}
  | Err _ => history meth0 (l ++ [SetAffine (Some v)]) = m /\ (List.length v <> (m_dims m * m_dims m)%nat \/ v = [] \/ exists r, v = 0%Qc :: r)
  end.
Proof.
  intros l v m. unfold history. rewrite fold_left_app. fold (history meth0 l). fold m. cbn [fold_left step].
  unfold validate_affine_matrix. destruct (Nat.eqb_spec (List.length v) (m_dims m ^ 2)) as [E|E]; cbn [negb].
  - assert (E2 : List.length v = (m_dims m * m_dims m)%nat) by (rewrite E; cbn; lia).
    destruct v as [|x r]; [split; [reflexivity|right; left; reflexivity]|].
    destruct (Qc_eq_dec x 0%Qc) as [X|X].
    + split; [reflexivity|]. right. right. exists r. rewrite X. reflexivity.
    + repeat split; auto.
  - split; [reflexivity|]. left. intros E2. apply E. rewrite E2. cbn. lia.
Qed.
Print Assumptions C92_assigned_fits.

(** A run after any history: the reads and writes of the matrix are inside of its array, whatever is in the memory around
    it, unless the method has one dimension and a matrix of one element. *)
Theorem C92_matrix_accesses_partial :
  forall l outside incre acc, let m := history meth0 l in
  List.length incre = m_dims m -> (0 < m_dims m)%nat ->
  affine_run outside incre m = Ok acc ->
  ((forall r, In r acc -> in_array r) <-> ~ (m_dims m = 1%nat /\ exists x, m_affine m = Some [x])).
Proof.
  intros l outside incre acc m L D E. rewrite <- Forall_forall.
  apply (affine_run_in outside incre m acc L D); auto.
  intros a Ha. apply squared_size with (m := m); auto. apply history_squared. exact I.
Qed.
Print Assumptions C92_matrix_accesses_partial.

(** The run raises, and then ValueError, exactly when the matrix has neither the size for the present dimensions nor one
    element and there is more than one dimension. *)
Theorem C92_raises_iff :
  forall l outside incre, let m := history meth0 l in
  List.length incre = m_dims m ->
  (affine_run outside incre m = Err ValueError <->
   exists a, m_affine m = Some a /\ List.length a <> (m_dims m * m_dims m)%nat /\ List.length a <> 1%nat /\ m_dims m <> 1%nat) /\
  (forall e, affine_run outside incre m = Err e -> e = ValueError).
Proof. intros l outside incre m L. apply affine_run_raises. exact L. Qed.
Print Assumptions C92_raises_iff.

(** The full claims are false.  A method of one dimension accepts a matrix of one element, and running it reads the
    third element of an array of one; and a matrix accepted for one dimension is still there, and used, after the
    method was given two. *)
Theorem C92_matrix_refuted :
  (exists l, m_affine (history meth0 l) = Some [1%Qc] /\ m_dims (history meth0 l) = 1%nat /\
    exists acc, affine_run 0%Qc [1%Qc] (history meth0 l) = Ok acc /\ ~ (forall r, In r acc -> in_array r)) /\
  (exists l, let m := history meth0 l in m_dims m = 2%nat /\ m_affine m = Some [1%Qc] /\
    exists acc, affine_run 0%Qc [1%Qc; 1%Qc] m = Ok acc /\
    affine_prepare 0%Qc [1%Qc; 1%Qc] (m_affine m) = Ok ([1; 1; 1; 0]%Qc, firstn 8 acc)).
Proof.
  split.
  - exists [SetAffine (Some [1%Qc])]. split; [vm_compute; reflexivity|]. split; [vm_compute; reflexivity|].
    exists [(2, 1)]. split; [vm_compute; reflexivity|]. intros H. specialize (H (2, 1) (or_introl eq_refl)).
    unfold in_array in H. cbn in H. lia.
  - exists [SetAffine (Some [1%Qc]); SetDims 2]. split; [vm_compute; reflexivity|]. split; [vm_compute; reflexivity|].
    exists (map (fun i => (i, 4)) [2; 2; 0; 2; 3; 1; 2; 3; 0; 1; 2; 3]). split; vm_compute; reflexivity.
Qed.
Print Assumptions C92_matrix_refuted.

Example C92_example :
  let m := history meth0 [SetDims 2; SetAffine (Some [half; half; 1; 1]%Qc); SetAffine (Some [0; 1; 1; 1]%Qc); SetAffine (Some [1%Qc])] in
  m_dims m = 2%nat /\ m_affine m = Some [half; half; 1; 1]%Qc /\
  affine_run 0%Qc [1; 1]%Qc m = Ok (map (fun i => (i, 4)) [2; 2; 0; 2; 3; 1; 2; 3; 0; 1; 2; 3]).
Proof. vm_compute. auto. Qed.
From Coq Require Import Field.


(** ** Tightening: what is accepted as a coupling, and the values of the prepared matrix. *)

(** A coupling is made from exactly two different site indexes, kept in order; everything else raises ValueError. *)
Theorem C91_couplings_checked :
  forall v,
  (forall c, validate_site_index v = Ok c <-> v = [fst c; snd c] /\ fst c <> snd c) /\
  ((forall c, validate_site_index v <> Ok c) -> validate_site_index v = Err ValueError).
Proof.
  intros v. unfold validate_site_index. destruct v as [|a [|x [|y r]]]; cbn.
  1, 2, 4: split; [intros [p q]; split; [discriminate|intros [E _]; discriminate E]|reflexivity].
  destruct (Z.eqb_spec a x) as [->|N].
  - split; [|reflexivity]. intros [p q]. cbn. split; [discriminate|]. intros [E H]. inversion E. subst. congruence.
  - split.
    + intros [p q]. cbn. split; [intros E; inversion E; subst; auto|intros [E H]; inversion E; reflexivity].
    + intros H. exfalso. apply (H (a, x)). reflexivity.
Qed.
Print Assumptions C91_couplings_checked.

Example C91_couplings_example :
  validate_site_index [1; 0] = Ok (1, 0) /\ validate_site_index [2; 2] = Err ValueError /\
  validate_site_index [0; 1; 2] = Err ValueError.
Proof. repeat split; reflexivity. Qed.

(** For a method of two dimensions with non-zero increments and the matrix ((a, b), (c, d)), a not zero, the core is given
    numbers p, q, r, s such that: p x + q y is the first coordinate of the affine image in units of the first increment, and
    r times that first coordinate plus s y is the second, in units of the second increment. *)
Theorem C92_matrix_values :
  forall outside i0 i1 a b c d, i0 <> 0%Qc -> i1 <> 0%Qc -> a <> 0%Qc ->
  exists p q r s acc,
    affine_prepare outside [i0; i1] (Some [a; b; c; d]) = Ok ([p; q; r; s], acc) /\
    forall x y,
      (i0 * (p * x + q * y) = a * (i0 * x) + b * (i1 * y))%Qc /\
      (i1 * (r * (p * x + q * y) + s * y) = c * (i0 * x) + d * (i1 * y))%Qc.
Proof.
  intros o i0 i1 a b c d H0 H1 Ha. unfold affine_prepare. cbn [flat_map map app].
  unfold np_mul. cbn [List.length Nat.eqb zip_with bind]. unfold read_raw. cbn [nth].
  destruct (Qc_eq_dec (c * (i0 / i1)) 0) as [E|E].
  - do 5 eexists. split; [reflexivity|]. intros x y. split; [field; auto|].
    assert (C : c = 0%Qc).
    { transitivity ((c * (i0 / i1)) * (i1 / i0))%Qc; [field; auto|]. rewrite E. ring. }
    subst c. field. auto.
  - do 5 eexists. split; [cbn [upd_nat nth]; reflexivity|]. intros x y. split; field; auto.
Qed.
Print Assumptions C92_matrix_values.

Example C92_values_example :
  let q z := Q2Qc (QArith_base.inject_Z z) in
  exists acc, affine_prepare 0%Qc [q 2; q 4] (Some [q 1; q 3; q 5; q 7]) =
    Ok ([q 1; q 6; Q2Qc (QArith_base.Qmake 5 2); q (-8)], acc).
Proof. eexists. vm_compute. repeat f_equal; apply Qc_is_canon; reflexivity. Qed.
