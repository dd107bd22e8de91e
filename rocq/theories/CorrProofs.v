(** Proofs for C101: selection in spin systems with any number of sites. *)
From Coq Require Import ZArith QArith Bool String Qcanon Lia List Sorted Permutation.
From Verif Require Import Base PathwayModel PathwayProofs QueryProofs SelectProofs MethodsModel MethodsProofs CorrSpec.
Import ListNotations.
Open Scope Qc_scope.

(** ** Matching *)
Lemma has_index isotopes i c : has_isotope isotopes i c <-> In i (iso_indexes isotopes c).
Proof.
  unfold has_isotope. rewrite iso_indexes_in. split.
  - intros E. split; [apply nth_error_Some; congruence|]. now apply nth_error_nth.
  - intros (L & <-). now apply nth_error_nth'.
Qed.
Lemma zeros_at v (zs : list Qc) : Forall (fun x => x = 0) zs -> In v zs -> v = 0.
Proof. rewrite Forall_forall. auto. Qed.
(** Rearrangements of an item with zeros put the item on distinct sites of the channel. *)
Lemma matches_places isotopes c items v : List.length v = List.length isotopes ->
  (matches isotopes c items v <-> exists item is, In item items /\ NoDup is /\ (forall i, In i is -> has_isotope isotopes i c) /\
     map (fun i => nth i v 0) is = item /\ forall j, ~ In j is -> nth j v 0 = 0).
Proof.
  intros L. unfold matches. rewrite (other_values_zero isotopes c v L), (channel_values_pick isotopes c v L). unfold pick. split.
  - intros (O & item & zs & I & Z & P). apply Permutation_sym, Permutation_map_inv in P. destruct P as (l3 & E & P).
    symmetry in E. apply map_eq_app in E. destruct E as (is & rs & -> & E1 & E2). exists item, is.
    pose proof (Permutation_NoDup P (iso_indexes_NoDup isotopes c)) as ND. apply NoDup_app_inv in ND. destruct ND as (N1 & N2 & N3).
    split; [exact I|]. split; [exact N1|]. split; [|split; [exact E1|]].
    + intros i Hi. apply has_index. apply (Permutation_in _ (Permutation_sym P)). apply in_or_app. auto.
    + intros j Nj. destruct (in_dec Nat.eq_dec j (iso_indexes isotopes c)) as [Ij|Ij].
      * pose proof (Permutation_in _ P Ij) as K. apply in_app_or in K. destruct K as [K|K]; [contradiction|]. apply (zeros_at _ zs Z). rewrite <- E2. apply (in_map (fun i => nth i v 0) rs j K).
      * destruct (Nat.lt_ge_cases j (List.length isotopes)) as [H|H]; [auto|]. apply nth_overflow. lia.
  - intros (item & is & I & N & H & E & O). split; [intros i _ Ni; apply O; intros K; apply Ni, has_index, H, K|].
    assert (R : exists rs, Permutation (iso_indexes isotopes c) (is ++ rs)).
    { assert (K : forall i, In i is -> In i (iso_indexes isotopes c)) by (intros i Hi; apply has_index, H, Hi). clear - N K.
      revert N K. generalize (iso_indexes isotopes c) as l. induction is as [|i is IH]; intros l N K; [exists l; reflexivity|].
      inversion N as [|? ? Ni N']; subst. destruct (in_split i l (K i (or_introl eq_refl))) as (a & b & ->).
      destruct (IH (a ++ b) N') as (rs & P).
      { intros j Hj. specialize (K j (or_intror Hj)). apply in_app_or in K. apply in_or_app. destruct K as [K|[K|K]]; [auto|subst; contradiction|auto]. }
      exists rs. cbn. rewrite <- P. symmetry. apply Permutation_middle. }
    destruct R as (rs & P). exists item, (map (fun i => nth i v 0) rs). split; [exact I|]. split.
    + apply Forall_forall. intros x Hx. apply in_map_iff in Hx. destruct Hx as (j & <- & Hj). apply O. intros Hi.
      pose proof (Permutation_NoDup P (iso_indexes_NoDup isotopes c)) as ND. apply NoDup_app_inv in ND. destruct ND as (_ & _ & D). exact (D j Hi Hj).
    + rewrite <- E, <- map_app. apply Permutation_map, P.
Qed.
Lemma nth_delta f (t : list Qc * list Qc) i : List.length (fst t) = List.length (snd t) -> (forall x y : Qc, f x y = 0 \/ True) -> f 0 0 = 0 ->
  nth i (map (fun p => f (fst p) (snd p)) (combine (fst t) (snd t))) 0 = f (before t i) (after t i).
Proof.
  intros L _ Z. unfold before, after. rewrite <- Z at 1. change (f 0 0) with ((fun p => f (fst p) (snd p)) (0, 0)). rewrite map_nth. rewrite combine_nth by exact L. reflexivity.
Qed.
Lemma delta_at t i : List.length (fst t) = List.length (snd t) -> nth i (delta_m t) 0 = after t i - before t i.
Proof. intros L. unfold delta_m. apply (nth_delta (fun x y => y - x) t i L); [auto|reflexivity]. Qed.
Lemma delta2_at t i : List.length (fst t) = List.length (snd t) -> nth i (delta_m2 t) 0 = after t i * after t i - before t i * before t i.
Proof. intros L. unfold delta_m2. apply (nth_delta (fun x y => y * y - x * x) t i L); [auto|reflexivity]. Qed.
Lemma minus_zero (a b : Qc) : a - b = 0 <-> a = b.
Proof. split; [intros H; replace a with (a - b + b) by ring; rewrite H; ring|intros ->; ring]. Qed.

(** ** Selection *)
Section Select.
Variable set_perms : list Qc -> list (list Qc).
Hypothesis Hp : lists_permutations set_perms.
Definition fits (isotopes : list string) (c : string) (items : list (list Qc)) : Prop :=
  items <> [] /\ Forall (fun it => (List.length it <= n_channel_sites isotopes c)%nat) items.
Lemma select_places c isotopes spins q h P D : tcontents h q {| tv_P := channel1 P; tv_D := option_map (fun l => [(1%nat, l)]) D |} ->
  List.length isotopes = List.length spins -> In c isotopes -> fits isotopes c P -> (forall l, D = Some l -> fits isotopes c l) ->
  exists sel, fst (event_transitions set_perms [c] isotopes (all_transitions spins) q h) = Ok sel /\ NoDup sel /\
    forall t, In t sel <-> In t (all_transitions spins) /\
      (exists item is, In item P /\ NoDup is /\ (forall i, In i is -> has_isotope isotopes i c) /\ map (fun i => after t i - before t i) is = item /\
         forall j, ~ In j is -> after t j = before t j) /\
      (forall l, D = Some l -> exists item is, In item l /\ NoDup is /\ (forall i, In i is -> has_isotope isotopes i c) /\
         map (fun i => after t i * after t i - before t i * before t i) is = item /\ forall j, ~ In j is -> after t j * after t j = before t j * before t j).
Proof.
  intros C L I FP FD. assert (NE : spins <> []) by (intros ->; destruct isotopes; [destruct I|discriminate]).
  assert (QD : forall l, D = Some l -> query_ok isotopes c (option_map (fun l => [(1%nat, l)]) D) l).
  { intros l E. destruct (FD l E). split; [|split; auto]. subst D. eexists. split; reflexivity. }
  destruct (event_select_heap set_perms Hp c isotopes spins q _ P h C L I) as (sel & E & (f & F) & S).
  - destruct FP. split; [eexists; split; reflexivity|split; auto].
  - cbn [tv_D]. destruct D as [l|]; [|exact Coq.Init.Logic.I]. exists l. apply QD. reflexivity.
  - exists sel. split; [exact E|]. split.
    { rewrite F. apply NoDup_filter. apply (all_transitions_main spins NE). }
    intros t. rewrite S. cbn [tv_D].
    assert (T : In t (all_transitions spins) -> List.length (fst t) = List.length (snd t) /\ List.length (delta_m t) = List.length isotopes /\ List.length (delta_m2 t) = List.length isotopes).
    { intros H. destruct (all_transitions_lengths spins t NE H) as (A & B). unfold delta_m, delta_m2. rewrite !map_length, !combine_length. lia. }
    assert (MP : In t (all_transitions spins) -> (matches isotopes c P (delta_m t) <-> exists item is, In item P /\ NoDup is /\ (forall i, In i is -> has_isotope isotopes i c) /\
         map (fun i => after t i - before t i) is = item /\ forall j, ~ In j is -> after t j = before t j)).
    { intros H. destruct (T H) as (A & B & _). rewrite (matches_places isotopes c P (delta_m t) B).
      split; intros (item & is & K1 & K2 & K3 & K4 & K5); exists item, is; (split; [exact K1|split; [exact K2|split; [exact K3|split]]]).
      - rewrite <- K4. apply map_ext. intros i. now rewrite delta_at.
      - intros j Nj. apply minus_zero. rewrite <- delta_at by exact A. auto.
      - rewrite <- K4. apply map_ext. intros i. now rewrite delta_at.
      - intros j Nj. rewrite delta_at by exact A. apply minus_zero. auto. }
    assert (MD : forall l, In t (all_transitions spins) -> (matches isotopes c l (delta_m2 t) <-> exists item is, In item l /\ NoDup is /\ (forall i, In i is -> has_isotope isotopes i c) /\
         map (fun i => after t i * after t i - before t i * before t i) is = item /\ forall j, ~ In j is -> after t j * after t j = before t j * before t j)).
    { intros l H. destruct (T H) as (A & _ & B). rewrite (matches_places isotopes c l (delta_m2 t) B).
      split; intros (item & is & K1 & K2 & K3 & K4 & K5); exists item, is; (split; [exact K1|split; [exact K2|split; [exact K3|split]]]).
      - rewrite <- K4. apply map_ext. intros i. now rewrite delta2_at.
      - intros j Nj. apply minus_zero. rewrite <- delta2_at by exact A. auto.
      - rewrite <- K4. apply map_ext. intros i. now rewrite delta2_at.
      - intros j Nj. rewrite delta2_at by exact A. apply minus_zero. auto. }
    split.
    + intros (H & M & DD). split; [exact H|]. split; [apply MP; auto|]. intros l ->. cbn [option_map] in DD. destruct DD as (items & Q & M2).
      assert (EI : items = l). { destruct Q as [[d [E1 E2]] _]. injection E1 as <-. cbn in E2. congruence. } subst items. apply MD; auto.
    + intros (H & M & DD). split; [exact H|]. split; [apply MP; auto|]. destruct D as [l|]; [|exact Coq.Init.Logic.I]. cbn [option_map]. exists l. split; [apply (QD l eq_refl)|]. apply MD; auto.
Qed.

Lemma sites_of c isotopes : In c isotopes -> (1 <= n_channel_sites isotopes c)%nat.
Proof. intros I. unfold n_channel_sites. apply (count_occ_In string_dec) in I. lia. Qed.
Lemma fits_singles c isotopes l : In c isotopes -> l <> [] -> (forall it, In it l -> exists p, it = [p]) -> fits isotopes c l.
Proof. intros I N H. split; [exact N|]. apply Forall_forall. intros it Hi. destruct (H it Hi) as (p & ->). cbn. now apply sites_of. Qed.
(** One site, with conditions on the change and, if asked for, on that of the square. *)
Lemma select_one_site c isotopes spins q h ps ds (change : Qc -> Qc -> Prop) :
  tcontents h q {| tv_P := channel1 (map (fun p => [p]) ps); tv_D := option_map (fun l => [(1%nat, map (fun p => [p]) l)]) ds |} ->
  List.length isotopes = List.length spins -> In c isotopes -> ps <> [] -> ~ In 0 ps -> (forall l, ds = Some l -> l <> []) ->
  (forall a b, change a b <-> In (b - a) ps /\ forall l, ds = Some l -> In (b * b - a * a) l) ->
  exists sel, fst (event_transitions set_perms [c] isotopes (all_transitions spins) q h) = Ok sel /\ NoDup sel /\
    forall t, In t sel <-> In t (all_transitions spins) /\ one_site isotopes c change t.
Proof.
  intros C L I N Z ND CH.
  assert (SG : forall (l : list Qc) it, In it (map (fun p => [p]) l) -> exists p, it = [p]) by (intros l it H; apply in_map_iff in H; destruct H as (p & <- & _); eauto).
  destruct (select_places c isotopes spins q h (map (fun p => [p]) ps) (option_map (fun l => map (fun p => [p]) l) ds)) as (sel & E & U & S); auto.
  { destruct ds; exact C. }
  { apply fits_singles; [exact I|destruct ps; [contradiction|discriminate]|apply SG]. }
  { intros l El. destruct ds as [d|]; [|discriminate]. injection El as <-. apply fits_singles; [exact I|specialize (ND d eq_refl); destruct d; [contradiction|discriminate]|apply SG]. }
  exists sel. split; [exact E|]. split; [exact U|]. intros t. rewrite S. apply and_iff_compat_l. split.
  - intros ((item & is & H1 & H2 & H3 & H4 & H5) & DD). apply in_map_iff in H1. destruct H1 as (p & <- & Ip).
    destruct is as [|i [|? ?]]; try discriminate. cbn in H4. injection H4 as H4. exists i. split; [apply H3; now left|]. split.
    + apply CH. split; [congruence|]. intros l El. subst ds. cbn in DD. destruct (DD _ eq_refl) as (item & js & K1 & K2 & K3 & K4 & K5).
      apply in_map_iff in K1. destruct K1 as (d & <- & Id). destruct js as [|k [|? ?]]; try discriminate. cbn in K4. injection K4 as K4.
      destruct (Nat.eq_dec k i) as [->|Nk]; [congruence|].
      (* the square changes at another site: both changes are zero *)
      assert (Q : d = 0) by (rewrite <- K4; assert (Ek : after t k = before t k) by (apply H5; intros [|[]]; congruence); rewrite Ek; ring).
      replace (after t i * after t i - before t i * before t i) with d; [exact Id|]. rewrite Q. symmetry. apply minus_zero. apply K5. intros [|[]]. congruence.
    + intros j Nj. apply H5. intros [|[]]. congruence.
  - intros (i & H1 & H2 & H3). apply CH in H2. destruct H2 as (H2 & HD). split.
    + exists [after t i - before t i], [i]. split; [apply in_map_iff; eauto|]. split; [constructor; [intros []|constructor]|].
      split; [intros k [<-|[]]; exact H1|]. split; [reflexivity|]. intros j Nj. apply H3. intros ->. apply Nj. now left.
    + intros l El. destruct ds as [d|]; [|discriminate]. injection El as <-. exists [after t i * after t i - before t i * before t i], [i].
      split; [apply in_map_iff; eauto|]. split; [constructor; [intros []|constructor]|]. split; [intros k [<-|[]]; exact H1|]. split; [reflexivity|].
      intros j Nj. assert (K : after t j = before t j) by (apply H3; intros ->; apply Nj; now left). now rewrite K.
Qed.
Lemma select_two_sites c isotopes spins q h p : tcontents h q {| tv_P := channel1 [[p; p]]; tv_D := None |} ->
  List.length isotopes = List.length spins -> (2 <= n_channel_sites isotopes c)%nat ->
  exists sel, fst (event_transitions set_perms [c] isotopes (all_transitions spins) q h) = Ok sel /\ NoDup sel /\
    forall t, In t sel <-> In t (all_transitions spins) /\ two_sites isotopes c (fun a b => b - a = p) t.
Proof.
  intros C L N. assert (I : In c isotopes) by (apply (count_occ_In string_dec); unfold n_channel_sites in N; lia).
  destruct (select_places c isotopes spins q h [[p; p]] None) as (sel & E & U & S); auto.
  { split; [discriminate|]. repeat constructor. exact N. }
  { discriminate. }
  exists sel. split; [exact E|]. split; [exact U|]. intros t. rewrite S. apply and_iff_compat_l. split.
  - intros ((item & is & [<-|[]] & H2 & H3 & H4 & H5) & _). destruct is as [|i [|j [|? ?]]]; try discriminate. cbn in H4. injection H4 as H4 H4'.
    inversion H2 as [|? ? Ni _]; subst. exists i, j. split; [intros ->; apply Ni; now left|]. split; [apply H3; cbn; auto|]. split; [apply H3; cbn; auto|]. split; [auto|]. split; [congruence|].
    intros k Nk Nk'. apply H5. intros [|[|[]]]; congruence.
  - intros (i & j & N' & H1 & H2 & H3 & H4 & H5). split; [|discriminate]. exists [p; p], [i; j]. split; [now left|]. split.
    { constructor; [intros [|[]]; congruence|]. constructor; [intros []|constructor]. }
    split; [intros k [<-|[<-|[]]]; auto|]. split; [cbn; congruence|]. intros k Nk. apply H5; intros ->; apply Nk; cbn; auto.
Qed.
End Select.
