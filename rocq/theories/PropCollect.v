(** Property theorems C48: generation of single-site spin systems. *)
From Coq Require Import ZArith QArith Bool Ascii String List Lia Lqa Sorted.
From Verif Require Import Base SitesModel SitesProofs CollectModel CollectSpec CollectProofs.
Import ListNotations.
Open Scope string_scope.
Open Scope list_scope.

(** C48: when at least one argument is an array and all arrays have the same non-zero length n, the result is one system per kept entry,
    in order.  Missing from the full claim: calls without any array and calls with an empty array (refuted below). *)
Theorem C48_entries_partial : forall isotopes shifts shield quadr a labels names descriptions rtol n,
  (0 < n)%nat -> has_array isotopes shifts shield quadr a labels names descriptions n ->
  (forall m, has_array isotopes shifts shield quadr a labels names descriptions m -> m = n) ->
  (forall k i, (k < n)%nat -> entry isotopes k i -> exists r, format_isotope_string i = Ok r) ->
  exists index sys,
    single_site_system_generator isotopes shifts shield quadr a labels names descriptions rtol = Ok sys /\
    StronglySorted lt index /\ (forall k, In k index <-> (k < n)%nat /\ kept n a rtol k) /\
    Forall2 (made_of isotopes shifts shield quadr n a labels names descriptions) index sys.
Proof.
  intros isotopes shifts shield quadr a labels names descriptions rtol n P Hn Hall Hiso.
  assert (Fit : forall (A : Type) (x : arg A), (forall m, is_array_of m x -> m = n) -> fits n x).
  { intros A [y|l] H; cbn; auto. apply H. exists l. auto. }
  assert (F1 : fits n isotopes) by (apply Fit; intros m H; apply Hall; unfold has_array; tauto).
  assert (F2 : fits n shifts) by (apply Fit; intros m H; apply Hall; unfold has_array; tauto).
  assert (F3 : fits n labels) by (apply Fit; intros m H; apply Hall; unfold has_array; tauto).
  assert (F4 : fits n names) by (apply Fit; intros m H; apply Hall; unfold has_array; tauto).
  assert (F5 : fits n descriptions) by (apply Fit; intros m H; apply Hall; unfold has_array; tauto).
  assert (F7 : tensor_fits SHIELDING_SYM_PARAMS n shield).
  { intros d D k v K L. apply Fit. intros m H. apply Hall. unfold has_array. right. right. left. exists d, k, v. auto. }
  assert (F8 : tensor_fits QUADRUPOLAR_PARAMS n quadr).
  { intros d D k v K L. apply Fit. intros m H. apply Hall. unfold has_array. right. right. right. left. exists d, k, v. auto. }
  set (abd := match a with Some a => a | None => Scalar (1 / inject_Z (Z.of_nat n))%Q end).
  assert (F6 : fits n abd).
  { unfold abd. destruct a as [x|]; [|exact I]. apply Fit. intros m H. apply Hall. unfold has_array. do 4 right. left. exists x. auto. }
  assert (Ab : forall k x, entry abd k x <-> abundance_entry n a k x) by (intros; unfold abd, abundance_entry; destruct a; cbn; tauto).
  unfold single_site_system_generator.
  pose proof (sizes_in isotopes shifts shield quadr a labels names descriptions) as SI. unfold sizes in SI.
  rewrite (check_ok _ n); [|exact P | apply SI; auto | intros m M Pm; apply Hall; apply SI; auto].
  cbn [bind]. fold abd.
  set (al := get_default_lists abd n). assert (La : length al = n) by (now apply default_length).
  destruct (array_max_ok al) as [top [Tm [Ti Tu]]]; [intros Z; rewrite Z in La; cbn in La; lia|].
  rewrite Tm. cbn [bind]. set (index := where_above al (rtol * top)%Q).
  assert (Ix : forall k, In k index -> (k < n)%nat).
  { intros k K. apply where_in in K as [x [E _]]. rewrite <- La. apply nth_error_Some. congruence. }
  assert (Kp : forall k, In k index <-> (k < n)%nat /\ kept n a rtol k).
  { intros k. split.
    - intros K. split; auto. pose proof (Ix k K) as B. apply where_in in K as [x [E C]].
      apply In_nth_error in Ti as [j J]. assert (Bj : (j < n)%nat) by (rewrite <- La; apply nth_error_Some; congruence).
      exists x, top, j. apply default_entry in E, J; auto. rewrite Ab in E, J. repeat split; auto.
      intros i y Bi Ei. apply Ab, default_entry with (n := n) in Ei; auto. apply Tu. eapply nth_error_In; eauto.
    - intros [B [x [t [j [Ex [Bj [Et [Um C]]]]]]]]. apply where_in. exists x.
      apply Ab, default_entry with (n := n) in Ex; auto. split; auto.
      apply Ab, default_entry with (n := n) in Et; auto. fold al in Et. apply nth_error_In in Et.
      assert (t <= top)%Q by auto. assert (top <= t)%Q.
      { apply In_nth_error in Ti as [i J]. assert (Bi : (i < n)%nat) by (rewrite <- La; apply nth_error_Some; congruence).
        apply (Um i); auto. apply Ab, default_entry with (n := n); auto. }
      assert (T : (top == t)%Q) by lra. rewrite T. exact C. }
  assert (Tk : forall (A : Type) (x : arg A), fits n x -> exists r, take (get_default_lists x n) index = Ok r /\
     Forall2 (fun k y => entry x k y) index r).
  { intros A x Fx. destruct (take_ok (get_default_lists x n) index) as [r [E F]].
    - intros k K. rewrite default_length by auto. auto.
    - exists r. split; auto. eapply forall2_impl_in; [exact F|]. cbn. intros k y K H. eapply default_entry; eauto. }
  destruct (Tk _ isotopes F1) as [i1 [E1 G1]]. destruct (Tk _ shifts F2) as [i2 [E2 G2]].
  destruct (Tk _ labels F3) as [i3 [E3 G3]]. destruct (Tk _ names F4) as [i4 [E4 G4]].
  destruct (Tk _ descriptions F5) as [i5 [E5 G5]]. destruct (Tk _ abd F6) as [i6 [E6 G6]].
  unfold al. rewrite E1, E2, E3, E4, E5, E6. cbn [bind].
  pose proof (zip6_ok _ _ _ _ _ _ _ _ _ _ _ _ _ G1 G2 G3 G4 G5 G6) as Z.
  destruct (mapM_forall2 _ (made_of isotopes shifts None None n a labels names descriptions)
    (fun t => let '(ist, iso, lab, nam, dis, abd) := t in
              let* symbol := format_isotope_string ist in
              Ok (mkSystem symbol iso lab nam dis abd None None)) _ _ Z) as [sys [Es Gs]].
  { intros k [[[[[x1 x2] x3] x4] x5] x6] K [H1 [H2 [H3 [H4 [H5 H6]]]]].
    destruct (Hiso k x1 (Ix k K) H1) as [r R]. rewrite R. cbn [bind]. eexists. split; [reflexivity|].
    constructor; cbn; auto. exists x1. auto. now apply Ab. }
  rewrite Es. cbn [bind].
  assert (Sh : exists sys', (match shield with
     | None => Ok sys
     | Some d => let* lst := tensor_lists SHIELDING_SYM_PARAMS d n index in Ok (populate_shielding sys lst)
     end) = Ok sys' /\ Forall2 (made_of isotopes shifts shield None n a labels names descriptions) index sys').
  { destruct shield as [d|]; [|eauto].
    destruct (tensor_lists_ok SHIELDING_SYM_PARAMS d n index nodup_sym F7 Ix) as [items [Ei Fi]]. rewrite Ei. cbn [bind].
    eexists. split; [reflexivity|]. unfold populate_shielding.
    eapply combine_seq_forall2; [exact Gs|]. intros i k s K M. destruct M. constructor; cbn; auto.
    exists (tensor_at SHIELDING_SYM_PARAMS items i). split; [reflexivity|].
    eapply (tensor_at_entry SHIELDING_SYM_PARAMS); eauto. apply nodup_sym. }
  destruct Sh as [sys' [Es' Gs']]. rewrite Es'. cbn [bind].
  assert (Qu : exists sys'', (match quadr with
     | None => Ok sys'
     | Some d => let* lst := tensor_lists QUADRUPOLAR_PARAMS d n index in populate_quadrupolar sys' lst
     end) = Ok sys'' /\ Forall2 (made_of isotopes shifts shield quadr n a labels names descriptions) index sys'').
  { destruct quadr as [d|]; [|eauto].
    destruct (tensor_lists_ok QUADRUPOLAR_PARAMS d n index nodup_quad F8 Ix) as [items [Ei Fi]]. rewrite Ei. cbn [bind].
    unfold populate_quadrupolar. eapply combine_seq_mapM; [exact Gs'|]. intros i k s K M. cbn [fst snd Nat.add].
    destruct M as [Mi Ms Ml Mn Md Ma Msh Mq]. destruct Mi as [x [Ex Fx]]. destruct (twice_spin_known _ _ Fx) as [n2 N2].
    rewrite N2. cbn [bind]. eexists. split; [reflexivity|]. destruct (Z.ltb 1 n2) eqn:T; constructor; cbn; eauto.
    - exists n2. split; auto. left. apply Z.ltb_lt in T. split; auto.
      exists (tensor_at QUADRUPOLAR_PARAMS items i). split; [reflexivity|]. eapply (tensor_at_entry QUADRUPOLAR_PARAMS); eauto. apply nodup_quad.
    - exists n2. split; auto. right. apply Z.ltb_ge in T. split; auto. }
  destruct Qu as [sys'' [Es'' Gs'']]. exists index, sys''. split; [exact Es''|]. split; [|split; [exact Kp | exact Gs'']].
  unfold index, where_above. apply filter_sorted, seq_sorted.
Qed.
Print Assumptions C48_entries_partial.

(** Arrays of different lengths are rejected. *)
Theorem C48_lengths : forall isotopes shifts shield quadr a labels names descriptions rtol m n,
  (0 < m)%nat -> (0 < n)%nat -> m <> n ->
  has_array isotopes shifts shield quadr a labels names descriptions m ->
  has_array isotopes shifts shield quadr a labels names descriptions n ->
  single_site_system_generator isotopes shifts shield quadr a labels names descriptions rtol = Err ValueError.
Proof.
  intros. pose proof (sizes_in isotopes shifts shield quadr a labels names descriptions) as SI. unfold sizes in SI.
  unfold single_site_system_generator. rewrite (check_mismatch _ m n); auto; apply SI; auto.
Qed.
Print Assumptions C48_lengths.

(** The full claim fails without arrays: no single system can be made. *)
Theorem C48_scalars_refuted : forall isotopes shifts shield quadr a labels names descriptions rtol,
  (forall m, has_array isotopes shifts shield quadr a labels names descriptions m -> m = O) ->
  single_site_system_generator isotopes shifts shield quadr a labels names descriptions rtol = Err IndexError.
Proof.
  intros. pose proof (sizes_in isotopes shifts shield quadr a labels names descriptions) as SI. unfold sizes in SI.
  unfold single_site_system_generator. rewrite check_none; [reflexivity|].
  intros [|m] M; [reflexivity|]. apply SI in M; [|lia]. auto.
Qed.
Print Assumptions C48_scalars_refuted.

(** An empty array beside a non-empty one is not rejected by the size check; it fails later with an IndexError, here for the shifts. *)
Theorem C48_empty_refuted : forall symbols rtol, symbols <> [] -> (rtol < 1)%Q ->
  single_site_system_generator (Arr symbols) (Arr []) None None None (Scalar None) (Scalar None) (Scalar None) rtol = Err IndexError.
Proof.
  intros l rtol N R. unfold single_site_system_generator. cbn [get_length tensor_sizes app length].
  assert (P : (0 < length l)%nat) by (destruct l; [congruence | cbn; lia]).
  rewrite (check_ok _ (length l)); auto; [|now left |].
  2: { intros m M Pm. cbn in M. intuition lia. }
  cbn [bind]. set (x := (1 / inject_Z (Z.of_nat (length l)))%Q).
  assert (X : (0 < x)%Q).
  { unfold x, Qdiv. rewrite Qmult_1_l. apply Qinv_lt_0_compat. change 0%Q with (inject_Z 0). rewrite <- Zlt_Qlt. lia. }
  cbn [get_default_lists]. destruct (array_max_ok (repeat x (length l))) as [top [T [Ti _]]].
  { destruct l; [congruence | discriminate]. }
  rewrite T. cbn [bind]. apply repeat_spec in Ti. subst top.
  set (index := where_above (repeat x (length l)) (rtol * x)%Q).
  assert (In0 : In O index).
  { apply where_in. exists x. rewrite nth_error_repeat' by auto. split; auto. nra. }
  destruct (take_ok l index) as [r [E _]].
  { intros k K. apply where_in in K as [y [Ey _]]. rewrite <- (repeat_length x (length l)). apply nth_error_Some. congruence. }
  rewrite E. cbn [bind]. destruct index as [|k t]; [destruct In0|]. unfold take at 1. cbn [mapM]. destruct k; reflexivity.
Qed.
Print Assumptions C48_empty_refuted.

(** A case: two isotopes of which one is quadrupolar, one shift for both, and abundances of which all are kept. *)
Example C48_case :
  single_site_system_generator (Arr ["29Si"; "27Al"; "17 O"]) (Scalar (-10)%Q) None
    (Some [("Cq", Arr [Some 1; Some 2; Some 3]%Q); ("zeta", Arr [])]) (Some (Arr [50; 50; 1 # 100]%Q))
    (Scalar None) (Scalar (Some "a")) (Scalar None) (1 # 1000)%Q
  = Ok [mkSystem "29Si" (-10) None (Some "a") None 50 None None;
        mkSystem "27Al" (-10) None (Some "a") None 50 None
          (Some [("Cq", Some 2%Q); ("eta", None); ("alpha", None); ("beta", None); ("gamma", None)])].
Proof. vm_compute. reflexivity. Qed.
Example C48_case_arrays :
  has_array (Arr ["29Si"; "27Al"]) (Scalar 0%Q) None None None (Scalar None) (Scalar None) (Scalar None) 2 /\
  forall m, has_array (Arr ["29Si"; "27Al"]) (Scalar 0%Q) None None None (Scalar None) (Scalar None) (Scalar None) m -> m = 2%nat.
Proof.
  assert (N : forall A (y : A) m, ~ is_array_of m (Scalar y)) by (intros A y m [l [H _]]; discriminate).
  assert (T : forall ps m, ~ tensor_array ps m None) by (intros ps m [d [k [v [H _]]]]; discriminate).
  split.
  - left. eexists. split; reflexivity.
  - intros m H. unfold has_array in H. destruct H as [[l [H E]]|[H|[H|[H|[[x [H _]]|[H|[H|H]]]]]]];
      try (exfalso; eapply N; exact H); try (exfalso; eapply T; exact H); try discriminate.
    now injection H as <-.
Qed.
