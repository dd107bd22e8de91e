(** C52, C53, C54, C58, C72: isotope strings, isotope and site listings, flattened attributes and the table of sites. *)
From Coq Require Import ZArith QArith Bool Ascii String Lia List Sorted.
From Verif Require Import Base SitesModel SitesProofs SitesSpec.
Import ListNotations.
Open Scope string_scope.
Open Scope list_scope.

(** * C54 *)
(** The accepted strings are exactly: a mass number, optional white space, and a word that together name a known isotope, then any text
    that does not continue the word.  The result is the mass number and the word. *)
Theorem C54_accepts : forall s r, format_isotope_string s = Ok r <->
  exists mass white word rest, s = (mass ++ white ++ word ++ rest)%string /\ r = (mass ++ word)%string /\
    mass <> EmptyString /\ word <> EmptyString /\
    all_chars is_digit mass /\ all_chars is_space white /\ all_chars is_word word /\ ~ starts is_word rest /\
    In r (map fst isotope_data).
Proof. exact format_iff. Qed.
Theorem C54_idempotent : forall s r, format_isotope_string s = Ok r -> format_isotope_string r = Ok r.
Proof. intros s r H. apply format_known. apply format_iff in H. destruct H as (d & ws & w & rest & H). tauto. Qed.
(** A symbol of the table is accepted unchanged, and has the spin of the table. *)
Theorem C54_symbols : forall r n, In (r, n) isotope_data -> format_isotope_string r = Ok r /\ twice_spin r = Ok n.
Proof.
  intros r n H. assert (K : In r (map fst isotope_data)) by (apply in_map_iff; now exists (r, n)).
  pose proof (format_known r K) as F. split; [exact F|]. unfold twice_spin. rewrite F. cbn [bind].
  assert (T : forallb (fun kv => match find (fun kv' => String.eqb (fst kv') (fst kv)) isotope_data with
                                 | Some (_, m) => Z.eqb m (snd kv) | None => false end) isotope_data = true) by (vm_compute; reflexivity).
  rewrite forallb_forall in T. specialize (T (r, n) H). cbn [fst snd] in T.
  destruct (find (fun kv' : string * Z => String.eqb (fst kv') r) isotope_data) as [[k m]|]; [|discriminate].
  apply Z.eqb_eq in T. now rewrite T.
Qed.
(** The spin of every isotope is that of the NMR tables ([isotopes_of_spin]). *)
Theorem C54_spins : forall s n, twice_spin s = Ok n -> exists r, format_isotope_string s = Ok r /\ In r (isotopes_of_spin n).
Proof.
  intros s n H. unfold twice_spin in H. destruct (format_isotope_string s) as [r|] eqn:F; [|discriminate]. cbn [bind] in H.
  exists r. split; [reflexivity|].
  assert (T : forallb (fun kv => existsb (String.eqb (fst kv)) (isotopes_of_spin (snd kv))) isotope_data = true) by (vm_compute; reflexivity).
  rewrite forallb_forall in T.
  destruct (find _ isotope_data) as [[k m]|] eqn:D; [|discriminate]. apply find_some in D. destruct D as [D E]. apply String.eqb_eq in E. cbn [fst] in E. subst k.
  injection H as <-. specialize (T (r, m) D). cbn [fst snd] in T. apply existsb_exists in T. destruct T as (x & X & Y). apply String.eqb_eq in Y. now subst x.
Qed.
Example C54_spins_witness : twice_spin "27 Al" = Ok 5%Z /\ twice_spin "10B" = Ok 6%Z.
Proof. split; reflexivity. Qed.
Print Assumptions C54_spins.
(** White space between mass number and element makes no difference. *)
Theorem C54_white_space : forall mass white word, mass <> EmptyString -> word <> EmptyString ->
  all_chars is_digit mass -> all_chars is_space white -> all_chars is_word word ->
  format_isotope_string (mass ++ white ++ word) = format_isotope_string (mass ++ word).
Proof.
  intros mass white word M W Hm Hs Hw.
  assert (E : forall ws r, all_chars is_space ws -> (format_isotope_string (mass ++ ws ++ word) = Ok r <-> r = (mass ++ word)%string /\ In r (map fst isotope_data))).
  { intros ws r Hws. split.
    - intros H. destruct ws as [|c ws].
      + cbn [String.append] in H. pose proof H as H'. apply format_iff in H'. destruct H' as (a & b & c & e & E1 & E2 & A & C & Ha & Hb & Hc & He & K).
        split; [|exact K].
        assert (AW : all_chars is_word (a ++ b ++ c ++ e)%string).
        { rewrite <- E1. apply all_chars_app. split; [|exact Hw]. eapply all_chars_weaken; [|exact Hm]. apply digit_word. }
        rewrite !all_chars_app in AW. destruct AW as (_ & B & _ & D).
        assert (b = EmptyString). { destruct b as [|x b]; [reflexivity|]. cbn in B, Hb. destruct B as [B _], Hb as [Hb _]. apply space_not_word in Hb. congruence. }
        assert (e = EmptyString). { destruct e as [|x e]; [reflexivity|]. cbn in D, He. now destruct He. }
        subst b e. cbn [String.append] in E1. rewrite app_nil_s in E1. congruence.
      + apply format_ok in H. destruct H as [H K]. apply known_in in K.
        pose proof (match_space mass (String c ws) word EmptyString M Hm ltac:(discriminate) Hws W Hw (fun f => f)) as MS.
        rewrite app_nil_s in MS. rewrite MS in H. injection H as <-. auto.
    - intros [-> K]. apply format_iff. exists mass, ws, word, EmptyString. rewrite app_nil_s. cbn. repeat split; auto. }
  pose proof (E white) as E1. pose proof (E EmptyString) as E2. cbn [String.append] in E2.
  destruct (format_isotope_string (mass ++ word)) as [r|x] eqn:F.
  - apply E1; [exact Hs|]. apply E2; [exact I|reflexivity].
  - destruct (format_isotope_string (mass ++ white ++ word)) as [r|y] eqn:G.
    + assert (Err x = Ok r) by (apply E2; [exact I|]; apply E1; [exact Hs|reflexivity]). discriminate.
    + unfold format_isotope_string in F, G.
      destruct (match_isotope (mass ++ word)) as [f|]; [destruct (known f)|]; inversion F; subst;
      (destruct (match_isotope (mass ++ white ++ word)) as [g|]; [destruct (known g)|]; inversion G; reflexivity).
Qed.
Example C54_witness : format_isotope_string "29 Si" = Ok "29Si" /\ format_isotope_string "29Si, liquid" = Ok "29Si" /\
  format_isotope_string "2 9Si" = Ok "29Si" /\ format_isotope_string "Si29" = Err OtherException /\ format_isotope_string "29" = Err OtherException /\
  format_isotope_string " 29Si" = Err OtherException /\ twice_spin "27Al" = Ok 5%Z.
Proof. vm_compute. auto 10. Qed.
(** The characters of these classes, one by one. *)
Theorem C54_characters : forall c,
  (is_digit c = true <-> In c (list_ascii_of_string "0123456789")) /\
  (is_space c = true <-> In (nat_of_ascii c) [9; 10; 11; 12; 13; 28; 29; 30; 31; 32]%nat) /\ is_space " " = true /\
  (is_word c = true <-> In c (list_ascii_of_string "0123456789ABCDEFGHIJKLMNOPQRSTUVWXYZ_abcdefghijklmnopqrstuvwxyz")).
Proof.
  assert (D : forall (f g : ascii -> bool) (P : ascii -> Prop), (forall c, g c = true <-> P c) -> forallb (fun n => Bool.eqb (f (ascii_of_nat n)) (g (ascii_of_nat n))) (seq 0 256) = true -> forall c, f c = true <-> P c).
  { intros f g P G T c. rewrite forallb_forall in T. assert (L : In (nat_of_ascii c) (seq 0 256)) by (apply in_seq; split; [lia|apply nat_ascii_bounded]). specialize (T _ L). rewrite ascii_nat_embedding in T. apply Bool.eqb_prop in T. rewrite T. apply G. }
  assert (M : forall l c, existsb (Ascii.eqb c) l = true <-> In c l).
  { intros l c. rewrite existsb_exists. split; [intros (x & X & E); apply Ascii.eqb_eq in E; now subst|intros X; exists c; split; [exact X|apply Ascii.eqb_refl]]. }
  intros c. split; [|split; [|split; [reflexivity|]]].
  - revert c. apply (D is_digit (fun c => existsb (Ascii.eqb c) (list_ascii_of_string "0123456789"))); [intros; apply M|vm_compute; reflexivity].
  - revert c. apply (D is_space (fun c => existsb (Nat.eqb (nat_of_ascii c)) [9; 10; 11; 12; 13; 28; 29; 30; 31; 32]%nat)); [|vm_compute; reflexivity].
    intros c. rewrite existsb_exists. split; [intros (x & X & E); apply Nat.eqb_eq in E; now subst|intros X; eexists; split; [exact X|apply Nat.eqb_refl]].
  - revert c. apply (D is_word (fun c => existsb (Ascii.eqb c) (list_ascii_of_string "0123456789ABCDEFGHIJKLMNOPQRSTUVWXYZ_abcdefghijklmnopqrstuvwxyz"))); [intros; apply M|vm_compute; reflexivity].
Qed.
Print Assumptions C54_characters.
Print Assumptions C54_accepts.
Print Assumptions C54_idempotent.
Print Assumptions C54_symbols.
Print Assumptions C54_white_space.

(** * C53 *)
Theorem C53_isotopes : forall spin_I systems,
  (forall q, spin_I = Some q -> exists z, (2 * q == inject_Z z)%Q) ->
  let out := get_isotopes spin_I systems in
  (forall x, In x out <-> (exists sys, In sys systems /\ In x sys) /\
                          exists n, In (x, n) isotope_data /\ forall q, spin_I = Some q -> (q == n # 2)%Q) /\
  StronglySorted (fun a b => String.compare a b = Lt) out /\ NoDup out.
Proof.
  intros spin_I systems H out. unfold out, get_isotopes. split; [|split; [apply np_unique_sorted|apply sorted_nodup, np_unique_sorted]].
  intros x. rewrite np_unique_in, fold_concat.
  assert (S : forall sys, In x (system_isotopes spin_I sys) <-> In x sys /\ In x (allowed_isotopes spin_I)).
  { intros sys. unfold system_isotopes. rewrite filter_In, existsb_exists. split.
    - intros [H1 (y & H2 & H3)]. apply String.eqb_eq in H3. now subst y.
    - intros [H1 H2]. split; [exact H1|]. exists x. now rewrite String.eqb_refl. }
  assert (A : In x (allowed_isotopes spin_I) <-> exists n, In (x, n) isotope_data /\ forall q, spin_I = Some q -> (q == n # 2)%Q).
  { rewrite (allowed_in spin_I x H). split; intros (n & H1 & H2); exists n; (split; [exact H1|]); intros q E; specialize (H2 q E);
    unfold Qeq in *; cbn [Qnum Qden Qmult inject_Z] in *; lia. }
  split.
  - intros [[]|(sys & H1 & H2)]. apply S in H2. split; [exists sys; tauto|]. apply A. tauto.
  - intros [(sys & H1 & H2) H3]. right. exists sys. split; [exact H1|]. apply S. split; [exact H2|]. now apply A.
Qed.
Example C53_witness : get_isotopes None [["1H"; "13C"]; ["27Al"; "1H"]] = ["13C"; "1H"; "27Al"] /\
  get_isotopes (Some (1 # 2)%Q) [["1H"; "13C"]; ["27Al"; "1H"]] = ["13C"; "1H"] /\ get_isotopes (Some (3 # 2)%Q) [["1H"; "13C"]; ["27Al"]] = [].
Proof. vm_compute. auto. Qed.
Print Assumptions C53_isotopes.

(** * C52 *)
(** Equality of sites is an equivalence. *)
Definition equivalence {X} (eqb : X -> X -> bool) : Prop :=
  (forall a, eqb a a = true) /\ (forall a b, eqb a b = true -> eqb b a = true) /\ (forall a b c, eqb a b = true -> eqb b c = true -> eqb a c = true).
Lemma push_first : forall X (eqb : X -> X -> bool) dflt, equivalence eqb -> forall l,
  fold_left (push eqb) l [] = first_occurrences eqb dflt l /\ (forall a, In a l -> exists b, In b (fold_left (push eqb) l []) /\ eqb a b = true).
Proof.
  intros X eqb dflt (R & S & T). induction l as [|x l IH] using rev_ind; [split; [reflexivity|intros a []]|].
  rewrite fold_left_app. cbn [fold_left]. destruct IH as [E C].
  assert (F : first_occurrences eqb dflt (l ++ [x]) = first_occurrences eqb dflt l ++ (if forallb (fun j => negb (eqb x (nth j l dflt))) (seq 0 (length l)) then [x] else [])).
  { unfold first_occurrences. rewrite app_length. cbn [length]. rewrite Nat.add_1_r, seq_S, filter_app, map_app. cbn [Nat.add]. f_equal.
    - rewrite (filter_ext_in _ (fun i => forallb (fun j => negb (eqb (nth i l dflt) (nth j l dflt))) (seq 0 i))).
      + apply map_ext_in. intros i Hi. apply filter_In in Hi. destruct Hi as [Hi _]. apply in_seq in Hi. apply app_nth1. lia.
      + intros i Hi. apply in_seq in Hi. rewrite (app_nth1 l [x]) by lia.
        assert (Z : forall m, (m <= length l)%nat -> forallb (fun j => negb (eqb (nth i l dflt) (nth j (l ++ [x]) dflt))) (seq 0 m) =
                                           forallb (fun j => negb (eqb (nth i l dflt) (nth j l dflt))) (seq 0 m)).
        { induction m as [|m IHm]; intros Hm; [reflexivity|]. rewrite seq_S, !forallb_app, IHm by lia. cbn [Nat.add forallb].
          rewrite (app_nth1 l [x]) by lia. reflexivity. }
        apply Z. lia.
    - cbn [filter map]. rewrite app_nth2 by lia. rewrite Nat.sub_diag. cbn [nth].
      assert (Z : forall m, (m <= length l)%nat -> forallb (fun j => negb (eqb x (nth j (l ++ [x]) dflt))) (seq 0 m) = forallb (fun j => negb (eqb x (nth j l dflt))) (seq 0 m)).
      { induction m as [|m IHm]; intros Hm; [reflexivity|]. rewrite seq_S, !forallb_app, IHm by lia. cbn [Nat.add forallb].
        rewrite (app_nth1 l [x]) by lia. reflexivity. }
      rewrite Z by lia. destruct (forallb (fun j => negb (eqb x (nth j l dflt))) (seq 0 (length l))); cbn [map]; [|reflexivity].
      rewrite app_nth2 by lia. now rewrite Nat.sub_diag. }
  assert (B : existsb (eqb x) (fold_left (push eqb) l []) = negb (forallb (fun j => negb (eqb x (nth j l dflt))) (seq 0 (length l)))).
  { apply eq_true_iff_eq. rewrite negb_true_iff, <- not_true_iff_false, forallb_forall, existsb_exists. split.
    - intros (b & Hb & Eb) Z. rewrite E in Hb. unfold first_occurrences in Hb. apply in_map_iff in Hb. destruct Hb as (i & <- & Hi).
      apply filter_In in Hi. specialize (Z i (proj1 Hi)). rewrite Eb in Z. discriminate.
    - intros Z. assert (W : exists j, In j (seq 0 (length l)) /\ eqb x (nth j l dflt) = true).
      { destruct (existsb (fun j => eqb x (nth j l dflt)) (seq 0 (length l))) eqn:Q.
        - apply existsb_exists in Q. exact Q.
        - exfalso. apply Z. intros j Hj. destruct (eqb x (nth j l dflt)) eqn:Y; [|reflexivity].
          assert (existsb (fun j => eqb x (nth j l dflt)) (seq 0 (length l)) = true) by (apply existsb_exists; eauto). congruence. }
      destruct W as (j & Hj & Ej). apply in_seq in Hj. destruct (C (nth j l dflt)) as (b & Hb & Eb); [apply nth_In; lia|]. exists b. eauto. }
  unfold push at 1 3. rewrite B. split.
  - rewrite F, <- E. destruct (forallb _ _); cbn [negb]; [reflexivity|now rewrite app_nil_r].
  - intros a Ha. apply in_app_iff in Ha. destruct (forallb (fun j => negb (eqb x (nth j l dflt))) (seq 0 (length l))) eqn:Q; cbn [negb].
    + destruct Ha as [Ha|[<-|[]]]; [destruct (C a Ha) as (b & H1 & H2); exists b; split; [apply in_or_app; auto|exact H2]|].
      exists x. split; [apply in_or_app; right; now left|apply R].
    + destruct Ha as [Ha|[<-|[]]]; [exact (C a Ha)|]. cbn [negb] in B. apply existsb_exists in B. exact B.
Qed.
(** The sites listed are the first occurrences among all sites of all spin systems, in order; every site equals one of them and no two are equal. *)
Theorem C52_unique : forall X (eqb : X -> X -> bool) (dflt : X) (systems : list (list X)), equivalence eqb ->
  let out := unique_sites eqb systems in
  out = first_occurrences eqb dflt (concat systems) /\
  (forall sys s, In sys systems -> In s sys -> exists t, In t out /\ eqb s t = true) /\
  (forall s, In s out -> exists sys, In sys systems /\ In s sys) /\
  (forall i j, (i < length out)%nat -> (j < length out)%nat -> eqb (nth i out dflt) (nth j out dflt) = true -> i = j).
Proof.
  intros X eqb dflt systems Q out. unfold out. rewrite unique_flat. destruct (push_first X eqb dflt Q (concat systems)) as [E C]. split; [exact E|]. split; [|split].
  - intros sys s H1 H2. apply C. apply in_concat. eauto.
  - intros s Hs. rewrite E in Hs. unfold first_occurrences in Hs. apply in_map_iff in Hs. destruct Hs as (i & <- & Hi). apply filter_In in Hi.
    destruct Hi as [Hi _]. apply in_seq in Hi. apply in_concat. apply nth_In. lia.
  - assert (P : forall l, ForallOrdPairs (fun a b => eqb b a = false) (fold_left (push eqb) l [])).
    { induction l as [|x l IH] using rev_ind; [constructor|]. rewrite fold_left_app. cbn [fold_left]. unfold push at 1.
      destruct (existsb (eqb x) (fold_left (push eqb) l [])) eqn:B; [exact IH|]. clear - IH B.
      induction (fold_left (push eqb) l []) as [|y r IHr]; cbn; [repeat constructor|].
      cbn in B. apply orb_false_iff in B. destruct B as [B1 B2]. inversion IH as [|a b H1 H2]; subst. constructor; [|auto].
      apply Forall_app. split; [exact H1|]. constructor; [exact B1|constructor]. }
    specialize (P (concat systems)). destruct Q as (_ & S & _). revert P. generalize (fold_left (push eqb) (concat systems) []). intros l P.
    assert (L : forall i j, (i < j)%nat -> (j < length l)%nat -> eqb (nth j l dflt) (nth i l dflt) = false).
    { induction P as [|a r H1 H2 IH]; intros i j Hij Hj; cbn in Hj; [lia|]. destruct j as [|j]; [lia|]. destruct i as [|i].
      - cbn. rewrite Forall_forall in H1. apply H1. apply nth_In. lia.
      - cbn. apply IH; lia. }
    intros i j Hi Hj He. destruct (Nat.lt_trichotomy i j) as [H|[H|H]]; [|exact H|].
    + apply S in He. rewrite (L i j H Hj) in He. discriminate.
    + rewrite (L j i H Hi) in He. discriminate.
Qed.
Example C52_witness : equivalence Z.eqb /\ unique_sites Z.eqb [[3; 1]; [1; 2; 3]; []; [5; 2]]%Z = [3; 1; 2; 5]%Z.
Proof.
  split; [|reflexivity]. repeat split; intros *; rewrite ?Z.eqb_eq; try congruence.
Qed.
Print Assumptions C52_unique.

(** * C58 *)
(** A dict of values and of dicts of values, without repeated paths and without dots in its keys: the shape of a serialised site. *)
Definition two_levels {A} (d : list (string * node A)) : Prop :=
  (forall k e, In (k, Node e) d -> only_leaves e) /\ NoDup (map fst (attributes d)) /\ (forall p v k, In (p, v) (attributes d) -> In k p -> no_dot k).
Lemma dot_cut : forall a b c d, no_dot a -> no_dot c -> (a ++ "." ++ b = c ++ "." ++ d)%string -> a = c /\ b = d.
Proof.
  induction a as [|x a IH]; intros b [|y c] d Ha Hc H; cbn in *.
  - now injection H as ->.
  - injection H as <- _. now destruct Hc as [Hc _].
  - injection H as -> _. now destruct Ha as [Ha _].
  - injection H as -> H. destruct (IH b c d (proj2 Ha) (proj2 Hc) H) as [-> ->]. auto.
Qed.
Lemma dot_in : forall a b c, no_dot c -> (a ++ "." ++ b)%string <> c.
Proof. induction a as [|x a IH]; intros b c Hc H; subst c; cbn in Hc; [now destruct Hc|]. exact (IH b _ (proj2 Hc) eq_refl). Qed.
Lemma short_paths : forall A (d : list (string * node A)) p v, (forall k e, In (k, Node e) d -> only_leaves e) -> In (p, v) (attributes d) ->
  (exists k, p = [k]) \/ (exists k j, p = [k; j]).
Proof.
  intros A d p v O H. unfold attributes in H. cbn [leaves] in H. apply in_flat_map in H. destruct H as ([k n] & H1 & H2).
  apply in_map_iff in H2. destruct H2 as ([q w] & E & H2). cbn [fst snd] in *. injection E as <- <-. destruct n as [a|e].
  - cbn in H2. destruct H2 as [H2|[]]. injection H2 as <- <-. left. now exists k.
  - cbn [leaves] in H2. apply in_flat_map in H2. destruct H2 as ([j m] & H2 & H3). destruct (O k e H1 j m H2) as [a ->].
    cbn in H3. destruct H3 as [H3|[]]. injection H3 as <- <-. right. now exists k, j.
Qed.
Lemma nodup_map_in : forall X Y (f : X -> Y) l, (forall a b, In a l -> In b l -> f a = f b -> a = b) -> NoDup l -> NoDup (map f l).
Proof.
  intros X Y f l I N. induction N as [|x l N1 N2 IH]; cbn; constructor.
  - rewrite in_map_iff. intros (y & E & H). apply N1. rewrite (I x y); [exact H|now left|now right|now symmetry].
  - apply IH. intros a b Ha Hb. apply I; now right.
Qed.
(** On such dicts nothing is lost: every attribute appears once, in order, under its dotted path. *)
Theorem C58_partial : forall A (d : list (string * node A)), two_levels d ->
  flatten_dict d = map (fun pv => (dotted (fst pv), snd pv)) (attributes d) /\ NoDup (map fst (flatten_dict d)).
Proof.
  intros A d (O & N & D).
  assert (J : map joined (attributes d) = map (fun pv => (dotted (fst pv), snd pv)) (attributes d)).
  { apply map_ext_in. intros [p v] H. destruct (short_paths A d p v O H) as [(k & ->)|(k & j & ->)]; reflexivity. }
  assert (M : NoDup (map fst (map (fun pv : list string * A => (dotted (fst pv), snd pv)) (attributes d)))).
  { rewrite map_map. cbn [fst]. rewrite <- (map_map fst dotted). apply nodup_map_in; [|exact N].
    intros p q Hp Hq E. apply in_map_iff in Hp, Hq. destruct Hp as ([p' v] & <- & Hp), Hq as ([q' w] & <- & Hq). cbn [fst] in *.
    destruct (short_paths A d _ _ O Hp) as [(k & ->)|(k & j & ->)], (short_paths A d _ _ O Hq) as [(k' & ->)|(k' & j' & ->)]; cbn [dotted] in E.
    - now subst.
    - exfalso. symmetry in E. revert E. apply dot_in. apply (D _ _ k Hp). now left.
    - exfalso. revert E. apply dot_in. apply (D _ _ k' Hq). now left.
    - destruct (dot_cut k j k' j') as [-> ->]; auto; [apply (D _ _ k Hp); now left|apply (D _ _ k' Hq); now left]. }
  assert (F : flatten_dict d = map (fun pv => (dotted (fst pv), snd pv)) (attributes d)).
  { unfold flatten_dict. rewrite flatten_loop, outer_loop; [exact J|exact O|]. cbn [app]. rewrite J. exact M. }
  split; [exact F|]. rewrite F. exact M.
Qed.
(** Deeper dicts lose attributes: only the last two keys of a path are kept. *)
Theorem C58_refuted : exists (d : list (string * node Z)) p q v w, In (p, v) (attributes d) /\ In (q, w) (attributes d) /\ p <> q /\ v <> w /\
  NoDup (map fst (attributes d)) /\ (forall r u k, In (r, u) (attributes d) -> In k r -> no_dot k) /\
  flatten_dict d = [("tensor.zeta", w)].
Proof.
  exists [("a", Node [("tensor", Node [("zeta", Leaf 1%Z)])]); ("b", Node [("tensor", Node [("zeta", Leaf 2%Z)])])].
  exists ["a"; "tensor"; "zeta"], ["b"; "tensor"; "zeta"], 1%Z, 2%Z. cbn. repeat split; auto; try discriminate.
  - repeat constructor; cbn; intuition discriminate.
  - intros r u k H K. repeat match goal with H : _ \/ _ |- _ => destruct H as [H|H] | H : False |- _ => destruct H end;
    injection H as <- <-; cbn in K; repeat match goal with H : _ \/ _ |- _ => destruct H as [H|H] | H : False |- _ => destruct H end; subst k; cbn; repeat split; discriminate.
Qed.
Definition site_example : list (string * node Z) :=
  [("isotope", Leaf 1%Z); ("isotropic_chemical_shift", Leaf 2%Z);
   ("shielding_symmetric", Node [("zeta", Leaf 3%Z); ("eta", Leaf 4%Z)]); ("shielding_antisymmetric", Node [("zeta", Leaf 7%Z)]);
   ("quadrupolar", Node [("Cq", Leaf 5%Z); ("eta", Leaf 6%Z)])].
Lemma site_example_two_levels : two_levels site_example.
Proof.
  split; [|split].
  - intros k e H k' v' H'. cbn in H. repeat match goal with H : _ \/ _ |- _ => destruct H as [H|H] | H : False |- _ => destruct H end; try discriminate H;
    injection H as <- <-; cbn in H'; repeat match goal with H : _ \/ _ |- _ => destruct H as [H|H] | H : False |- _ => destruct H end; injection H' as <- <-; eauto.
  - cbn. repeat constructor; cbn; intuition discriminate.
  - intros r u k H K. cbn in H. repeat match goal with H : _ \/ _ |- _ => destruct H as [H|H] | H : False |- _ => destruct H end;
    injection H as <- <-; cbn in K; repeat match goal with H : _ \/ _ |- _ => destruct H as [H|H] | H : False |- _ => destruct H end; subst k; cbn; repeat split; discriminate.
Qed.
Example C58_witness : two_levels site_example /\ flatten_dict site_example =
  [("isotope", 1%Z); ("isotropic_chemical_shift", 2%Z); ("shielding_symmetric.zeta", 3%Z); ("shielding_symmetric.eta", 4%Z);
   ("shielding_antisymmetric.zeta", 7%Z); ("quadrupolar.Cq", 5%Z); ("quadrupolar.eta", 6%Z)].
Proof. split; [exact site_example_two_levels|reflexivity]. Qed.
Print Assumptions C58_partial.
Print Assumptions C58_refuted.

(** * C72 *)
(** The table of sites: one row per site in order; a cell holds the value of the attribute, or nothing when the site does not have it; a
    column for one of the attributes of [tabulated] is there exactly when some site has the attribute. *)
Theorem C72_table_partial : forall A (sites : list (list (string * node A))), (forall s, In s sites -> two_levels s) ->
  (forall label col, In (label, col) (to_pd sites) ->
     In label (map dotted tabulated) /\ length col = length sites /\
     forall i s, nth_error sites i = Some s -> exists cell, nth_error col i = Some cell /\
       forall v, cell = Some v <-> exists p, In (p, v) (attributes s) /\ dotted p = label) /\
  (forall label, In label (map dotted tabulated) ->
     (In label (map fst (to_pd sites)) <-> exists s p v, In s sites /\ In (p, v) (attributes s) /\ dotted p = label)) /\
  NoDup (map fst (to_pd sites)).
Proof.
  intros A sites W. change (map dotted tabulated) with site_labels.
  assert (L : forall s label v, In s sites -> (dict_lookup (flatten_dict s) label = Some v <-> exists p, In (p, v) (attributes s) /\ dotted p = label)).
  { intros s label v Hs. destruct (C58_partial A s (W s Hs)) as [E N]. split.
    - intros H. apply lookup_in in H. rewrite E in H. apply in_map_iff in H. destruct H as ([p w] & Q & H). cbn [fst snd] in Q. injection Q as <- <-. eauto.
    - intros (p & H & <-). apply in_lookup; [exact N|]. rewrite E. apply in_map_iff. exists (p, v). auto. }
  split; [|split].
  - intros label col H. unfold to_pd in H. apply filter_In in H. destruct H as [H _]. apply in_map_iff in H. destruct H as (item & E & Hi).
    injection E as <- <-. split; [exact Hi|]. split; [apply map_length|]. intros i s Hs. exists (dict_lookup (flatten_dict s) item).
    split; [now rewrite nth_error_map, Hs|]. intros v. apply L. eapply nth_error_In. exact Hs.
  - intros label Hl. rewrite in_map_iff. split.
    + intros ([k col] & <- & H). unfold to_pd in H. apply filter_In in H. destruct H as [H X]. apply in_map_iff in H. destruct H as (item & E & Hi).
      injection E as <- <-. cbn [fst snd] in *. apply existsb_exists in X. destruct X as ([v|] & X & T); [|discriminate].
      apply in_map_iff in X. destruct X as (s & X & Hs). apply (L s item v Hs) in X. destruct X as (p & X). exists s, p, v. tauto.
    + intros (s & p & v & Hs & Hp & E). exists (label, map (fun s => dict_lookup (flatten_dict s) label) sites). split; [reflexivity|].
      unfold to_pd. apply filter_In. split.
      * apply in_map_iff. exists label. auto.
      * cbn [snd]. apply existsb_exists. exists (Some v). split; [|reflexivity]. apply in_map_iff. exists s. split; [|exact Hs]. apply L; eauto.
  - assert (N : NoDup site_labels) by (repeat constructor; cbn; intuition discriminate).
    unfold to_pd. revert N. generalize site_labels. induction l as [|x l IH]; intros N; cbn [map filter]; [constructor|].
    inversion N as [|a b N1 N2]; subst. match goal with |- context [if ?c then _ else _] => destruct c end; [|auto]. cbn [map fst]. constructor; [|auto].
    rewrite in_map_iff. intros ([k col] & E & H). apply filter_In in H. destruct H as [H _]. apply in_map_iff in H. destruct H as (y & F & H).
    cbn in E. subst k. injection F as -> _. contradiction.
Qed.
(** Missing: attributes without a label.  The antisymmetric shielding of a site is in no column. *)
Theorem C72_antisymmetric_refuted : exists (s : list (string * node Z)) p v, two_levels s /\ In (p, v) (attributes s) /\
  p = ["shielding_antisymmetric"; "zeta"] /\ ~ In (dotted p) (map fst (to_pd [s])) /\ (forall label col, In (label, col) (to_pd [s]) -> ~ In (Some v) col).
Proof.
  exists site_example, ["shielding_antisymmetric"; "zeta"], 7%Z. split; [exact site_example_two_levels|]. cbn. repeat split; auto 10.
  - intuition discriminate.
  - intros label col H X. repeat match goal with H : _ \/ _ |- _ => destruct H as [H|H] | H : False |- _ => destruct H end;
    injection H as <- <-; cbn in X; intuition discriminate.
Qed.
Example C72_witness : to_pd [site_example; [("isotope", Leaf 9%Z); ("name", Leaf 8%Z)]] =
  [("name", [None; Some 8%Z]); ("isotope", [Some 1%Z; Some 9%Z]); ("isotropic_chemical_shift", [Some 2%Z; None]);
   ("shielding_symmetric.zeta", [Some 3%Z; None]); ("shielding_symmetric.eta", [Some 4%Z; None]);
   ("quadrupolar.Cq", [Some 5%Z; None]); ("quadrupolar.eta", [Some 6%Z; None])].
Proof. reflexivity. Qed.
Print Assumptions C72_table_partial.
Print Assumptions C72_antisymmetric_refuted.
