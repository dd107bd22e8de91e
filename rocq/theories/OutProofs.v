(** Proofs of the properties C93 - C96. *)
From Coq Require Import String List ZArith QArith Bool Lia Lqa.
From Verif Require Import Base InterpModel InterpProofs AxisModel AxisSpec AxisProofs OutModel OutSpec.
Import ListNotations.

(** ** Labels *)
Lemma given_true x : given x = true <-> nonempty x.
Proof.
  unfold given, nonempty. destruct x as [s|]; split.
  - intros H. exists s. split; auto. intros ->. discriminate H.
  - intros (t & E & N). inversion E; subst. destruct (String.eqb_spec t ""); [contradiction|auto].
  - discriminate.
  - intros (t & E & _). discriminate E.
Qed.

Lemma given_false x : given x = false <-> ~ nonempty x.
Proof. rewrite <- given_true. destruct (given x); split; intros; congruence. Qed.

(** The text carried along: the last non-empty one, starting from [o]. *)
Definition carried (o : option string) (l : list (option string)) : option string :=
  fold_left (fun acc x => if given x then x else acc) l o.

Lemma carried_spec l : is_last_nonempty (carried None l) l.
Proof.
  unfold carried. induction l as [|x l IH] using rev_ind.
  - left. split; auto.
  - rewrite fold_left_app. cbn [fold_left]. destruct (given x) eqn:G.
    + right. apply given_true in G. split; auto. exists l, []. auto.
    + apply given_false in G. destruct IH as [[E F]|[N (a & b & E & F)]].
      * left. split; auto. apply Forall_app. auto.
      * right. split; auto. exists a, (b ++ [x]). split.
        -- rewrite E at 1. rewrite <- app_assoc. auto.
        -- apply Forall_app. auto.
Qed.

Section Labels.
Variables (J D : Type) (show : nat -> string).
Notation sysinfo := (sysinfo J).

Definition label_at (systems : list sysinfo) (i : nat) : option string :=
  match nth_error systems i with None => None | Some s => i_label _ s end.
Definition description_at (systems : list sysinfo) (i : nat) : option string :=
  match nth_error systems i with None => None | Some s => i_description _ s end.
Definition name_of (s : sysinfo) (i : nat) : string :=
  match i_name _ s with
  | Some n => if given (Some n) then n else ("spin system " ++ show i)%string
  | None => ("spin system " ++ show i)%string
  end.

Lemma update_ok systems obj i s : nth_error systems i = Some s ->
  update_name_description_application J D show systems obj i =
  Ok {| d_components := d_components _ _ obj;
        d_components_label := if given (i_label _ s) then i_label _ s else d_components_label _ _ obj;
        d_name := Some (name_of s i);
        d_description := if given (i_description _ s) then i_description _ s else d_description _ _ obj;
        d_application := Some (i_json _ s) |}.
Proof.
  intros E. unfold update_name_description_application. rewrite E. fold (name_of s i).
  destruct (given (i_label J s)), (given (i_description J s)); reflexivity.
Qed.

Lemma pack_loop_spec systems data : forall obj idx new, (idx + List.length data <= List.length systems)%nat ->
  exists out, pack_loop J D show true systems obj idx data new = Ok (new ++ out) /\
  List.length out = List.length (positions idx data) /\
  forall j i d, nth_error (positions idx data) j = Some (i, d) ->
  exists s v, nth_error systems i = Some s /\ nth_error out j = Some v /\
    d_components _ _ v = Some d /\ d_name _ _ v = Some (name_of s i) /\ d_application _ _ v = Some (i_json _ s) /\
    d_components_label _ _ v =
      carried (d_components_label _ _ obj) (map (label_at systems) (firstn (S j) (map fst (positions idx data)))) /\
    d_description _ _ v =
      carried (d_description _ _ obj) (map (description_at systems) (firstn (S j) (map fst (positions idx data)))).
Proof.
  induction data as [|[d|] data IH]; intros obj idx new L; cbn [pack_loop positions List.length] in *.
  - exists []. rewrite app_nil_r. split; auto. split; auto. intros [|j] i d; discriminate.
  - destruct (nth_error systems idx) as [s|] eqn:E.
    2:{ apply nth_error_None in E. lia. }
    rewrite (update_ok _ _ _ _ E). cbn [bind d_components d_components_label d_name d_description d_application].
    set (v := Build_dvar _ _ _ _ _ _ _).
    destruct (IH v (S idx) (new ++ [v])) as (out & R & Lo & H); [lia|].
    exists (v :: out). rewrite R, <- app_assoc. split; auto. split; [cbn; auto|].
    intros [|j] i d'; cbn [nth_error map firstn fst].
    + intros X; inversion X; subst. exists s, v. repeat split; auto.
      * unfold carried. cbn [map fold_left]. unfold label_at. rewrite E. reflexivity.
      * unfold carried. cbn [map fold_left]. unfold description_at. rewrite E. reflexivity.
    + intros X. destruct (H j i d' X) as (s' & v' & H1 & H2 & H3 & H4 & H5 & H6 & H7).
      exists s', v'. repeat split; auto.
      * rewrite H6. unfold carried. cbn [map fold_left]. replace (label_at systems idx) with (i_label J s); [reflexivity|].
        unfold label_at. rewrite E. reflexivity.
      * rewrite H7. unfold carried. cbn [map fold_left]. replace (description_at systems idx) with (i_description J s); [reflexivity|].
        unfold description_at. rewrite E. reflexivity.
  - destruct (IH obj (S idx) new) as (out & R & H); [lia|]. exists out. auto.
Qed.

Lemma pack_loop_none systems data : forall obj idx new, exists out,
  pack_loop J D show false systems obj idx data new = Ok (new ++ out) /\
  map (d_components _ _) out = map Some (map snd (positions idx data)) /\
  (d_components_label _ _ obj = None -> d_name _ _ obj = None -> d_description _ _ obj = None -> d_application _ _ obj = None ->
   List.Forall (fun v => d_components_label _ _ v = None /\ d_name _ _ v = None /\ d_description _ _ v = None /\ d_application _ _ v = None) out).
Proof.
  induction data as [|[d|] data IH]; intros obj idx new; cbn [pack_loop positions].
  - exists []. rewrite app_nil_r. split; auto.
  - cbn [bind]. set (v := Build_dvar _ _ _ _ _ _ _).
    destruct (IH v (S idx) (new ++ [v])) as (out & R & H & K). exists (v :: out). rewrite R, <- app_assoc. split; auto.
    split; [cbn; rewrite H; auto|]. intros. constructor; [auto|]. apply K; auto.
  - destruct (IH obj (S idx) new) as (out & R & H). exists out. auto.
Qed.
End Labels.

(** ** Experiments *)
Definition adopted (c : csdm_dim) : sdim :=
  {| sd_count := cd_count c; sd_width := (zq (cd_count c) * cd_inc c)%Q; sd_ref := cd_ref c;
     sd_origin := Some (match cd_origin c with None => 0%Q | Some o => o end) |}.

Lemma width_positive c : (0 < cd_count c)%Z -> (0 < cd_inc c)%Q -> (0 < zq (cd_count c) * cd_inc c)%Q.
Proof. intros H1 H2. apply Qmult_lt_0_compat; auto. unfold zq. change 0%Q with (inject_Z 0). rewrite <- Zlt_Qlt. auto. Qed.

Lemma Qltb_true a b : Qltb a b = true <-> (a < b)%Q.
Proof. destruct (InterpProofs.Qltb_spec a b); split; intros; auto; try discriminate; contradiction. Qed.

Lemma upd_split {A} (a : list A) x b v : upd_nat (a ++ x :: b) (List.length a) v = a ++ v :: b.
Proof. induction a; cbn; auto. rewrite IHa. auto. Qed.

Lemma update_all exp : forall pre rest, List.Forall (fun c => (0 < cd_count c)%Z /\ (0 < cd_inc c)%Q) exp ->
  (List.length exp <= List.length rest)%nat ->
  update_from_experiment (pre ++ rest) (List.length pre) exp = (pre ++ map adopted exp ++ skipn (List.length exp) rest, None).
Proof.
  induction exp as [|c exp IH]; intros pre rest F L; cbn [update_from_experiment map app List.length skipn]; auto.
  inversion F as [|? ? [C1 C2] F']; subst. destruct rest as [|d rest]; [cbn in L; lia|].
  rewrite nth_error_app2 by lia. rewrite Nat.sub_diag. cbn [nth_error].
  destruct (Z.ltb_spec 0 (cd_count c)); [|lia]. cbn [negb].
  replace (Qltb 0 (zq (cd_count c) * cd_inc c)) with true by (symmetry; apply Qltb_true, width_positive; auto). cbn [negb].
  rewrite upd_split. fold (adopted c). change (pre ++ adopted c :: rest) with (pre ++ [adopted c] ++ rest).
  rewrite app_assoc. replace (S (List.length pre)) with (List.length (pre ++ [adopted c])) by (rewrite app_length; cbn; lia).
  rewrite IH by (auto; cbn in *; lia). rewrite <- app_assoc. reflexivity.
Qed.

Lemma update_too_many exp : forall pre rest, List.Forall (fun c => (0 < cd_count c)%Z /\ (0 < cd_inc c)%Q) exp ->
  (List.length rest < List.length exp)%nat ->
  update_from_experiment (pre ++ rest) (List.length pre) exp =
  (pre ++ map adopted (firstn (List.length rest) exp), Some IndexError).
Proof.
  induction exp as [|c exp IH]; intros pre rest F L; cbn [List.length] in *; [lia|].
  cbn [update_from_experiment]. inversion F as [|? ? [C1 C2] F']; subst. destruct rest as [|d rest].
  - rewrite nth_error_app2 by lia. rewrite Nat.sub_diag. cbn. auto.
  - rewrite nth_error_app2 by lia. rewrite Nat.sub_diag. cbn [nth_error].
    destruct (Z.ltb_spec 0 (cd_count c)); [|lia]. cbn [negb].
    replace (Qltb 0 (zq (cd_count c) * cd_inc c)) with true by (symmetry; apply Qltb_true, width_positive; auto). cbn [negb].
    rewrite upd_split. fold (adopted c). change (pre ++ adopted c :: rest) with (pre ++ [adopted c] ++ rest).
    rewrite app_assoc. replace (S (List.length pre)) with (List.length (pre ++ [adopted c])) by (rewrite app_length; cbn; lia).
    rewrite IH by (auto; cbn in *; lia). rewrite <- app_assoc. reflexivity.
Qed.

Lemma adopted_axis c : spectrum_axis c ->
  cd_count (to_csdm_dimension (adopted c)) = cd_count c /\
  qlist_eq (csdm_coordinates (to_csdm_dimension (adopted c))) (csdm_coordinates c).
Proof.
  intros (Hf & Hc & Hi). split; auto. unfold csdm_coordinates, qlist_eq, to_csdm_dimension, adopted. cbn.
  rewrite Hf. generalize (zrange 0 (cd_count c)). intros l. induction l; cbn; constructor; auto.
  assert (~ zq (cd_count c) == 0)%Q.
  { rewrite Zlt_Qlt in Hc. unfold zq. intros E. rewrite E in Hc. apply (Qlt_irrefl _ Hc). }
  field. auto.
Qed.

(** ** Serialisation *)
Lemma mapM_unit {A} (f : A -> pyres unit) l : (forall x, f x = Ok tt \/ f x = Err AttributeError) ->
  ((let* _ := mapM f l in Ok tt) = Ok tt <-> List.Forall (fun x => f x = Ok tt) l) /\
  ((let* _ := mapM f l in Ok tt) = Ok tt \/ (let* _ := mapM f l in Ok tt) = Err AttributeError).
Proof.
  intros H. induction l as [|x l [IH1 IH2]]; cbn [mapM bind].
  - split; [split; auto|auto].
  - destruct (H x) as [E|E]; rewrite E; cbn [bind].
    + destruct (mapM f l) as [ys|e]; cbn [bind] in *.
      * split; auto. split; auto. intros _. constructor; auto. apply IH1. auto.
      * split; [|auto]. split; [discriminate|]. intros F. inversion F; subst. apply IH1. auto.
    + split; [|auto]. split; [discriminate|]. intros F. inversion F; subst. congruence.
Qed.

Definition sound (m : mstate) : Prop := k_experiment m <> Array.

Lemma upd_Forall {A} (P : A -> Prop) l i v : List.Forall P l -> P v -> List.Forall P (upd_nat l i v).
Proof. intros F Hv. revert i. induction F; intros [|i]; cbn; constructor; auto. Qed.

Lemma py_assign_Forall {A} (P : A -> Prop) l i v l' : List.Forall P l -> P v -> py_assign l i v = Ok l' -> List.Forall P l'.
Proof.
  intros F Hv. unfold py_assign. destruct (_ <? 0)%Z; [discriminate|]. destruct (_ <? _)%Z; [|discriminate].
  intros H; inversion H; subst. apply upd_Forall; auto.
Qed.

Lemma py_index_In {A} (l : list A) i x : py_index l i = Ok x -> In x l.
Proof.
  unfold py_index. destruct (_ <? 0)%Z; [discriminate|]. destruct (nth_error l _) eqn:E; [|discriminate].
  intros H; inversion H; subst. eapply nth_error_In; eauto.
Qed.

Section Sessions.
Variable fails : nat -> Z -> option exn.
(** A property of one method that every way to change it keeps. *)
Variable P : mstate -> Prop.
Variable allowed : act -> Prop.
Hypothesis P_run : forall idx pack m, allowed (Run idx pack) -> P m -> P (set_simulation (if pack then Dataset else Array) m).
Hypothesis P_sim : forall i v k m, allowed (SetSimulation i v) -> validate_simulation v = Ok k -> P m -> P (set_simulation k m).
Hypothesis P_exp : forall i v k m, allowed (SetExperiment i v) -> validate_experiment v = Ok k -> P m -> P (set_experiment k m).

Lemma run_loop_keeps idx0 turn pack l : allowed (Run idx0 pack) -> forall methods, List.Forall P methods ->
  List.Forall P (fst (run_loop fails turn pack methods l)).
Proof.
  intros A. induction l as [|i l IH]; intros ms F; cbn [run_loop]; auto.
  destruct (py_index ms i) as [m|] eqn:E; auto. destruct (fails turn i); auto.
  destruct (py_assign _ _ _) as [ms'|] eqn:E2; auto. apply IH. eapply py_assign_Forall; eauto. eapply P_run; eauto.
  rewrite Forall_forall in F. apply F. eapply py_index_In; eauto.
Qed.

Lemma do_keeps turn ms a : allowed a -> List.Forall P ms -> List.Forall P (fst (do fails turn ms a)).
Proof.
  intros A F. destruct a as [idx pack|i v|i v]; cbn [do].
  - eapply run_loop_keeps; eauto.
  - unfold assign. destruct (py_index ms i) as [m|] eqn:E; auto. destruct (validate_simulation v) as [k|] eqn:V; auto.
    destruct (py_assign _ _ _) as [ms'|] eqn:E2; auto. cbn. eapply py_assign_Forall; eauto. eapply P_sim; eauto.
    rewrite Forall_forall in F. apply F. eapply py_index_In; eauto.
  - unfold assign. destruct (py_index ms i) as [m|] eqn:E; auto. destruct (validate_experiment v) as [k|] eqn:V; auto.
    destruct (py_assign _ _ _) as [ms'|] eqn:E2; auto. cbn. eapply py_assign_Forall; eauto. eapply P_exp; eauto.
    rewrite Forall_forall in F. apply F. eapply py_index_In; eauto.
Qed.

Lemma session_keeps l : forall turn ms, List.Forall allowed l -> List.Forall P ms -> List.Forall P (session fails turn ms l).
Proof.
  induction l as [|a l IH]; intros turn ms A F; cbn [session]; auto. inversion A; subst. apply IH; auto. apply do_keeps; auto.
Qed.
End Sessions.

(** ** Files *)
Open Scope string_scope.
Lemma append_assoc (a b c : string) : (a ++ b) ++ c = a ++ (b ++ c).
Proof. induction a; cbn; auto. rewrite IHa. auto. Qed.
Lemma append_nil (a : string) : a ++ "" = a.
Proof. induction a; cbn; auto. rewrite IHa. auto. Qed.

(** The texts written by a list of operations. *)
Fixpoint written (l : list effect) : string :=
  match l with [] => "" | Truncate :: r => written r | Write s :: r => s ++ written r end.
Definition only_writes (l : list effect) : Prop := List.Forall (fun e => e <> Truncate) l.

Lemma after_writes l : only_writes l -> forall t, after (Some t) l = Some (t ++ written l).
Proof.
  unfold after. induction 1 as [|e l H F IH]; intros t; cbn [fold_left written].
  - rewrite append_nil. auto.
  - destruct e as [|s]; [congruence|]. cbn [apply]. rewrite IH, append_assoc. auto.
Qed.

Lemma dump_writes l : only_writes (fst (dump l)).
Proof.
  unfold only_writes. induction l as [|[s|e] l IH]; cbn [dump]; try constructor.
  destruct (dump l) as [es x]. cbn [fst] in *. constructor; auto. discriminate.
Qed.

Lemma dump_whole l : match whole_text l with
  | Some t => snd (dump l) = None /\ written (fst (dump l)) = t
  | None => exists e, snd (dump l) = Some e
  end.
Proof.
  induction l as [|[s|e] l IH]; cbn [dump whole_text]; [auto| |eexists; reflexivity].
  destruct (dump l) as [es x]. cbn [fst snd] in *. destruct (whole_text l) as [t|].
  - destruct IH as [-> <-]. auto.
  - destruct IH as (e & ->). eauto.
Qed.

Lemma written_app a b : written (a ++ b) = written a ++ written b.
Proof. induction a as [|[|s] a IH]; cbn; auto. rewrite IH, append_assoc. auto. Qed.

Lemma prefix_app (a b : string) : prefix a (a ++ b) = true.
Proof. induction a as [|c a IH]; cbn; [destruct b; auto|]. destruct (Ascii.ascii_dec c c); [auto|congruence]. Qed.

Lemma only_writes_firstn k l : only_writes l -> only_writes (firstn k l).
Proof. intros F. revert k. induction F; intros [|k]; cbn; constructor; auto. apply IHF. Qed.

Lemma interrupted_save file es k : only_writes es -> (0 < k)%nat ->
  exists s, interrupted file k (Truncate :: es) = Some s /\ prefix s (written es) = true.
Proof.
  intros W Hk. unfold interrupted. destruct k as [|k]; [lia|]. cbn [firstn]. unfold after. cbn [fold_left apply].
  fold (after (Some "") (firstn k es)).
  rewrite (after_writes _ (only_writes_firstn k es W)). eexists. split; [reflexivity|].
  cbn [append]. rewrite <- (firstn_skipn k es) at 2. rewrite written_app. apply prefix_app.
Qed.
