(** C97 and C98: the function a fit minimises. *)
From Coq Require Import Reals ZArith QArith Qreals Bool String List Lia Lra.
From Coquelicot Require Import Complex.
From Verif Require Import Base BaseProofs SitesModel DictModel FitModel FitSpec FitProofs SigModel SigSpec SigProofs PropFit PropSig
  FitRunModel FitRunSpec FitRunProofs FitRunLinear.
Import ListNotations.
Open Scope list_scope.

Definition reals (values : list (string * Q)) : list (string * R) := map (fun nv => (fst nv, Q2R (snd nv))) values.

Lemma difference_iff experiment decompose sigma p :
  (forall r, residual experiment decompose sigma p = Ok r -> difference experiment decompose sigma p r) /\
  (forall r, difference experiment decompose sigma p r -> exists r', residual experiment decompose sigma p = Ok r' /\ forall idx, r' idx = r idx).
Proof.
  set (l := if decompose then dvs p else firstn 1 (dvs p)).
  assert (D : (if decompose then Ok (dvs p) else match dvs p with [] => Err IndexError | v :: _ => Ok [v] end) =
              if negb decompose && (length l =? 0)%nat then Err IndexError else Ok l).
  { subst l. destruct decompose; [reflexivity|]. destruct (dvs p); reflexivity. }
  assert (M : forall shape, (exists fs, mapM (same_shape_as shape) l = Ok fs /\ (forall idx, map (fun f : list nat -> C => Re (f idx)) fs = map (fun v => Re (v_at v (O :: idx))) l) /\
      forall v, In v l -> tl (v_shape v) = shape /\ v_shape v <> [] /\ nth 0 (v_shape v) O <> O) \/
    (exists e, mapM (same_shape_as shape) l = Err e) /\ exists v, In v l /\ ~ (tl (v_shape v) = shape /\ v_shape v <> [] /\ nth 0 (v_shape v) O <> O)).
  { intros shape. clear D. induction l as [|v r IH]; [left; exists []; split; [reflexivity|split; [reflexivity|intros v []]]|].
    cbn [mapM]. unfold same_shape_as at 1 3, first_component. destruct (v_shape v) as [|[|n] s] eqn:E; cbn [bind fst snd].
    - right. split; [eauto|]. exists v. rewrite E. cbn. intuition.
    - right. split; [eauto|]. exists v. rewrite E. cbn. intuition.
    - destruct (list_eq_dec Nat.eq_dec s shape) as [->|Ne]; cbn [bind].
      + destruct IH as [(fs & -> & A & B)|((e & ->) & (w & I & N))].
        * left. cbn [bind]. eexists. split; [reflexivity|]. split; [intros idx; cbn [map]; now rewrite A|].
          intros w [<-|I]; [rewrite E; cbn; repeat split; congruence|auto].
        * right. cbn [bind]. split; [eauto|]. exists w. cbn. auto.
      + right. split; [eauto|]. exists v. rewrite E. cbn. intuition. }
  unfold residual, difference. rewrite D. fold l. clearbody l. split.
  - intros r. destruct (negb decompose && (length l =? 0)%nat) eqn:Z; [discriminate|]. cbn [bind].
    destruct experiment as [[|e rest]|]; try discriminate. unfold first_component at 1. destruct (v_shape e) as [|[|n] s] eqn:E; try discriminate. cbn [bind fst snd].
    destruct (M s) as [(fs & -> & A & B)|((x & ->) & _)]; [|discriminate]. cbn [bind]. destruct (Req_EM_T sigma 0) as [|Ns]; [discriminate|].
    intros H. injection H as <-. exists e, rest. rewrite E. cbn [tl nth].
    split; [reflexivity|]. split; [exact Ns|]. split.
    { intros -> Hl. rewrite Hl in Z. discriminate. }
    split; [discriminate|]. split; [discriminate|]. split; [exact B|]. intros idx. now rewrite A.
  - intros r (e & rest & -> & Ns & NE & E1 & E2 & B & R).
    assert (Z : negb decompose && (length l =? 0)%nat = false).
    { destruct decompose; [reflexivity|]. cbn. destruct l; [exfalso; now apply NE|reflexivity]. }
    rewrite Z. cbn [bind]. unfold first_component at 1. destruct (v_shape e) as [|[|n] s]; [congruence|cbn in E2; congruence|]. cbn [bind fst snd tl] in *.
    destruct (M s) as [(fs & -> & A & _)|(_ & (v & I & N))]; [|exfalso; apply N; exact (B v I)].
    cbn [bind]. destruct (Req_EM_T sigma 0); [contradiction|]. eexists. split; [reflexivity|]. intros idx. cbn beta. rewrite R, A. reflexivity.
Qed.

Lemma same_with f ops : forall k, same_but_numbers ops (with_numbers f k ops).
Proof.
  unfold same_but_numbers. induction ops as [|o ops IH]; intros k; [constructor|]. rewrite with_numbers_cons. constructor; [|apply IH].
  destruct o; cbn [fitted with_number]; try (left; reflexivity); right; eexists; reflexivity.
Qed.
Lemma read_back ops names B : post_sim_LMFIT_params ops = Ok names -> map fst B = map fst names ->
  forall ops', update_post_sim (reals B) ops = Ok ops' -> post_sim_LMFIT_params ops' = Ok (reals B).
Proof.
  intros E EB ops' U. pose proof E as E'. unfold post_sim_LMFIT_params in E. rewrite params_from in E. injection E as E.
  destruct (exists_fn (map fst (filter (fun io => fitted (snd io)) (numbered 0 ops))) (map (fun nv : string * Q => Q2R (snd nv)) B)) as (f & F).
  { apply numbered_nodup. }
  { rewrite !map_length. apply (f_equal (@length string)) in EB. rewrite <- E, !map_length in EB. exact EB. }
  { exact 0%R. }
  rewrite map_map in F. rewrite (C80_update ops f names E') in U.
  2:{ unfold reals. rewrite map_map. exact EB. }
  2:{ unfold reals. rewrite map_map. cbn [snd]. symmetry. exact F. }
  injection U as <-. unfold post_sim_LMFIT_params. rewrite params_from. f_equal.
  assert (G : forall ops k, map (fun io => (operation_name (fst io) (snd io), number (snd io))) (filter (fun io => fitted (snd io)) (numbered k (with_numbers f k ops))) =
     map (fun io => (operation_name (fst io) (snd io), f (fst io))) (filter (fun io => fitted (snd io)) (numbered k ops))).
  { clear. induction ops as [|o ops IH]; intros k; [reflexivity|]. rewrite with_numbers_cons. cbn [numbered filter snd].
    destruct (fitted o) eqn:Fo; [rewrite fitted_with, Fo; cbn [map fst snd]; rewrite IH; f_equal; destruct o; cbn in *; congruence|rewrite Fo; apply IH]. }
  etransitivity; [apply (G ops 0%nat)|]. unfold reals. rewrite <- E, map_map in EB. cbn [fst] in EB. clear - EB F.
  revert B EB F. induction (filter (fun io => fitted (snd io)) (numbered 0 ops)) as [|io l IH]; intros [|[n v] B] EB F; try discriminate; [reflexivity|].
  cbn in *. injection EB as -> EB. injection F as -> F. f_equal. now apply IH.
Qed.

Section C97.
  Variables (fft : Z -> dataset -> pyres dataset) (run : pv -> option dataset * option exn) (spoilt : list operation -> dataset -> dataset)
    (experiment : option (list variable)) (decompose : bool) (sigma : R).
  Notation evaluate := (min_function fft run spoilt experiment decompose sigma).
  Notation after := (evaluations fft run spoilt experiment decompose sigma).

  (** What an evaluation with the values set does. *)
  Lemma evaluate_set values st s ops' : set_values values values st = (mkFit s (Some ops') (f_simulation st), None) ->
    f_sim (fst (evaluate values st)) = s /\ f_ops (fst (evaluate values st)) = Some ops' /\
    snd (evaluate values st) = match run s with
      | (_, Some e) => Err e
      | (None, None) => Err IndexError
      | (Some data, None) => let* p := apply_operations fft ops' data in residual experiment decompose sigma p
      end.
  Proof.
    intros S. unfold min_function. rewrite S. cbn [f_sim f_ops f_simulation]. destruct (run s) as [[data|] [e|]]; cbn; auto.
    pose proof (objects_result fft ops' (mkObj data data true)) as O. cbn [current] in O. unfold apply_on_objects.
    destruct (for_each ops' (operate_on_objects fft) _) as [h|e], (apply_operations fft ops' data) as [p|e']; cbn in O; try contradiction; subst; cbn; auto.
  Qed.

End C97.

(** C97: [params] and [names] are the parameters make_LMFIT_params and _post_sim_LMFIT_params make for the spin systems and the
    operations.  An evaluation with values for them sets every attribute and every operation to its value, and returns the difference
    for the data run and processed with these.  It does so after any number of earlier evaluations with other values, also those that
    raised.  Missing: spin systems without their parameters (C47_refuted), values in another order, runs that depend on more than the
    simulator's attributes (C03 to C08). *)
Theorem C97_objective_partial fft run spoilt experiment decompose sigma units name label description pathways systems params ops names d values :
  make_LMFIT_params (map (sys_dict units name label description pathways) systems) = Ok params -> post_sim_LMFIT_params ops = Ok names ->
  dict_lookup d "spin_systems" = Some (PList (map (sys_dict units name label description pathways) systems)) ->
  map fst values = map p_name params ++ map fst names ->
  exists sim ops' outcome,
    (forall n v, In (n, v) (firstn (length params) values) -> get_simulator_object_value sim n = Ok (PFloat v)) /\
    post_sim_LMFIT_params ops' = Ok (reals (skipn (length params) values)) /\ same_but_numbers ops ops' /\
    (forall earlier simulation, List.Forall (fun w => map fst w = map fst values) earlier ->
       let r := min_function fft run spoilt experiment decompose sigma values (evaluations fft run spoilt experiment decompose sigma earlier (mkFit (PDict d) (Some ops) simulation)) in
       f_sim (fst r) = sim /\ f_ops (fst r) = Some ops' /\ snd r = outcome) /\
    (forall r, outcome = Ok r -> exists data p, run sim = (Some data, None) /\ apply_operations fft ops' data = Ok p /\
       difference experiment decompose sigma p r) /\
    (forall data p r, run sim = (Some data, None) -> apply_operations fft ops' data = Ok p -> difference experiment decompose sigma p r ->
       exists r', outcome = Ok r' /\ forall idx, r' idx = r idx).
Proof.
  intros Made Post Here P.
  destruct (set_proper units name label description pathways systems params ops names Made Post d Here values P)
    as (A & s & f & EA & (B & EV) & U & UP & Set_).
  destruct (made_decodable units name label description pathways systems params Made) as [Dec Pn].
  assert (LA : length params = length (named A)).
  { unfold named. rewrite map_length. apply (f_equal (@length _)) in EA, Pn. rewrite !map_length in *. congruence. }
  assert (VA : firstn (length params) values = named A).
  { rewrite EV, LA, firstn_app, Nat.sub_diag, firstn_O, app_nil_r. apply firstn_all. }
  assert (VB : skipn (length params) values = B).
  { rewrite EV, LA, skipn_app, Nat.sub_diag, skipn_all. reflexivity. }
  assert (EB : map fst B = map fst names).
  { rewrite <- VB, <- skipn_map, P, skipn_app, map_length, Nat.sub_diag, skipn_all2 by (rewrite map_length; lia). reflexivity. }
  exists s, (with_numbers f 0 ops), (match run s with
    | (_, Some e) => Err e
    | (None, None) => Err IndexError
    | (Some data, None) => let* p := apply_operations fft (with_numbers f 0 ops) data in residual experiment decompose sigma p
    end).
  split; [|split; [|split; [|split; [|split]]]].
  - rewrite VA. destruct (update_ok A (PDict d)) as (s' & U' & G & _).
    { rewrite EA. apply nodup_paths. }
    { intros p v I. assert (I' : In p (map fst (all_paths systems))) by (rewrite <- EA; change p with (fst (p, v)); now apply in_map).
      split; [rewrite Forall_forall in Dec; auto|]. apply in_map_iff in I' as ((p' & q) & E & I'). cbn in E. subst p'.
      exists (PFloat q). exact (proj1 (present_get units name label description pathways d systems p q Here I')). }
    change (map _ A) with (named A) in U'. rewrite U in U'. injection U' as <-.
    intros n v I. unfold named in I. apply in_map_iff in I as ((p & v') & E & I). cbn in E. injection E as <- ->.
    unfold get_simulator_object_value. rewrite decode_documented; [exact (G p v I)|].
    rewrite Forall_forall in Dec. apply Dec. rewrite <- EA. change p with (fst (p, v)). now apply in_map.
  - rewrite VB. apply (read_back ops names B Post EB). rewrite <- UP, EV. symmetry. unfold reals. apply update_post_split.
  - apply same_with.
  - intros earlier simulation F.
    assert (K : kept systems ops d (evaluations fft run spoilt experiment decompose sigma earlier (mkFit (PDict d) (Some ops) simulation))).
    { pose proof (kept_start systems ops d simulation) as K. revert K. generalize (mkFit (PDict d) (Some ops) simulation) as st.
      induction F as [|w earlier Ew F IH]; intros st K; [exact K|]. cbn [evaluations fold_left]. apply IH.
      destruct (set_proper units name label description pathways systems params ops names Made Post d Here w) as (A0 & s0 & f0 & EA0 & _ & U0 & _ & S0).
      { unfold proper. rewrite Ew. exact P. }
      destruct (evaluate_set fft run spoilt experiment decompose sigma w st s0 (with_numbers f0 0 ops) (S0 st K)) as (R1 & R2 & _). split.
      - right. exists A0. rewrite R1. auto.
      - exists f0. exact R2. }
    exact (evaluate_set fft run spoilt experiment decompose sigma values _ s _ (Set_ _ K)).
  - intros r. destruct (run s) as [[data|] [e|]] eqn:Er; try discriminate.
    destruct (apply_operations fft (with_numbers f 0 ops) data) as [p|e] eqn:Ep; [|discriminate]. cbn [bind]. intros R. exists data, p.
    split; [reflexivity|]. split; [exact Ep|]. now apply difference_iff.
  - intros data p r -> Ep R. rewrite Ep. cbn [bind]. now apply (proj2 (difference_iff experiment decompose sigma p)).
Qed.
Print Assumptions C97_objective_partial.

(** post_sim is optional in the signature, but no evaluation without it returns. *)
Theorem C97_no_post_sim_refuted fft run spoilt experiment decompose sigma values st : f_ops st = None -> forall r, snd (min_function fft run spoilt experiment decompose sigma values st) <> Ok r.
Proof.
  intros N r. unfold min_function.
  assert (G : forall all l st, f_ops st = None -> f_ops (fst (set_values all l st)) = None).
  { clear. intros all. induction l as [|[n v] l IH]; intros st N; cbn [set_values]; [exact N|].
    destruct (negb (contains "operation_" n)).
    - destruct (set_simulator_object_value (f_sim st) n (PFloat v)); [apply IH; exact N|exact N].
    - rewrite N. apply IH. exact N. }
  specialize (G values values st N). destruct (set_values values values st) as [st' [e|]]; cbn [fst] in G; [discriminate|].
  destruct (run (f_sim st')) as [stored [e|]]; cbn; [discriminate|]. rewrite G. discriminate.
Qed.
Print Assumptions C97_no_post_sim_refuted.

Definition start_sim : dict := [("spin_systems"%string, PList (map (sys_dict [] PNone PNone PNone PNone) two_systems))].
Example C97_objective_case : exists params names values,
  make_LMFIT_params (map (sys_dict [] PNone PNone PNone PNone) two_systems) = Ok params /\ (length params > 5)%nat /\
  post_sim_LMFIT_params [Exponential 40 (Some 1%R) (One 0) None; Scale 3] = Ok names /\
  dict_lookup start_sim "spin_systems" = Some (PList (map (sys_dict [] PNone PNone PNone PNone) two_systems)) /\
  map fst values = map p_name params ++ map fst names /\ skipn (length params) values = [("operation_0_Exponential_FWHM", 5%Q); ("operation_1_Scale_factor", 7%Q)]%string.
Proof.
  eexists. eexists. exists (map (fun n => (n, 5%Q)) (match make_LMFIT_params (map (sys_dict [] PNone PNone PNone PNone) two_systems) with Ok l => map p_name l | Err _ => [] end) ++
    [("operation_0_Exponential_FWHM", 5%Q); ("operation_1_Scale_factor", 7%Q)]%string).
  split; [vm_compute; reflexivity|]. split; [cbn; lia|]. split; [reflexivity|]. split; [reflexivity|]. split; vm_compute; reflexivity.
Qed.
(** An evaluation that returns: no operations, one variable of one component with one entry. *)
Example C97_difference_case : exists r, difference (Some [mkVar [1; 1]%nat (fun _ => RtoC 5)]) true 2
    (mkData [] [mkVar [1; 1]%nat (fun _ => RtoC 1); mkVar [1; 1]%nat (fun _ => RtoC 2)]) r /\ r [0%nat] = RtoC 1.
Proof.
  exists (fun idx => ((RtoC 5 - RtoC (1 + (2 + 0))) / RtoC 2)%C). split.
  - exists (mkVar [1; 1]%nat (fun _ => RtoC 5)), []. split; [reflexivity|]. split; [lra|]. split; [discriminate|]. split; [discriminate|]. split; [cbn; lia|].
    split; [|reflexivity]. intros v [<-|[<-|[]]]; cbn; (split; [reflexivity|split; [discriminate|lia]]).
  - apply injective_projections; cbn; field.
Qed.

(** C98: adding up the processed spectra of the spin systems is the same as processing the sum.  [run1] is a run with
    decompose_spectrum "spin_system" and [run2] one without.  Missing: operations on chosen variables, see C98_chosen_refuted. *)
Definition same_sum (a b : option dataset * option exn) : Prop :=
  match fst a, fst b with Some p, Some w => adds_up p w | None, None => True | _, _ => False end /\ snd a = snd b.
Theorem C98_decomposed_partial fft run1 run2 spoilt experiment sigma values st :
  (forall i p w, adds_up p w -> agree adds_up (fft i p) (fft i w)) ->
  (forall sim, same_sum (run1 sim) (run2 sim)) ->
  (forall ops, f_ops (fst (set_values values values st)) = Some ops -> List.Forall on_all_variables ops) ->
  agree (fun r r' => forall idx, r idx = r' idx)
    (snd (min_function fft run1 spoilt experiment true sigma values st)) (snd (min_function fft run2 spoilt experiment false sigma values st)).
Proof.
  intros L S F. unfold min_function. destruct (set_values values values st) as [st' [e|]]; cbn [fst] in F; [reflexivity|].
  specialize (S (f_sim st')). destruct (run1 (f_sim st')) as [s1 r1], (run2 (f_sim st')) as [s2 r2]. destruct S as [S Er]. cbn in S, Er. subst r2.
  destruct r1 as [e|]; [reflexivity|]. cbn [f_ops f_sim]. destruct (f_ops st') as [ops|]; [|reflexivity].
  destruct s1 as [p|], s2 as [w|]; try contradiction; [|reflexivity].
  pose proof (objects_result fft ops (mkObj p p true)) as O1. pose proof (objects_result fft ops (mkObj w w true)) as O2. cbn [current] in O1, O2.
  pose proof (apply_sum fft ops p w L (F ops eq_refl) S) as H. unfold apply_on_objects.
  destruct (for_each ops (operate_on_objects fft) (mkObj p p true)) as [h|e], (apply_operations fft ops p) as [p'|e']; cbn in O1; try contradiction; subst;
  destruct (for_each ops (operate_on_objects fft) (mkObj w w true)) as [h'|e2], (apply_operations fft ops w) as [w'|e2']; cbn in O2; try contradiction; subst;
  cbn in H; try contradiction; subst; cbn [snd]; [|reflexivity].
  apply adds_up_iff in H as [_ V]. unfold residual. pose proof V as (x & E & N & _). rewrite E. cbn [bind]. rewrite <- E.
  destruct experiment as [[|e rest]|]; try reflexivity. destruct (first_component e) as [[shape y]|]; [|reflexivity]. cbn [bind fst snd].
  pose proof (shapes_sum shape _ _ V) as M.
  destruct (mapM (same_shape_as shape) (dvs (current h))) as [l|], (mapM (same_shape_as shape) (dvs (current h'))) as [m|]; cbn in M; try contradiction; subst; [|reflexivity].
  cbn [bind]. destruct (Req_EM_T sigma 0); [reflexivity|]. cbn. intros idx. now rewrite M.
Qed.
Print Assumptions C98_decomposed_partial.

Definition part (x : R) : variable := mkVar [1; 2]%nat (fun _ => RtoC x).
Example C98_decomposed_case : adds_up (mkData [] [part 1; part 2]) (mkData [] [part 3]) /\
  (forall i p w, adds_up p w -> agree adds_up ((fun (_ : Z) d => Ok d) i p) ((fun (_ : Z) d => Ok d) i w)) /\ on_all_variables (Scale 3).
Proof.
  split; [|split; [intros i p w H; exact H|exact I]]. split; [reflexivity|]. exists (part 3). split; [reflexivity|]. split; [discriminate|].
  split; [repeat constructor|]. intros idx. apply injective_projections; cbn; lra.
Qed.
(** An operation on the second variable: there is one in the decomposed data and none in the whole. *)
Definition axis1 : dimension := mkDim 2 1 0 0 1 false.
Theorem C98_chosen_refuted fft spoilt : exists parts whole st values experiment,
  adds_up parts whole /\ f_ops st = Some [Exponential 1 (Some 1%R) (One 0) (Some (One 1))] /\
  (exists r, snd (min_function fft (fun _ => (Some parts, None)) spoilt experiment true 1 values st) = Ok r) /\
  snd (min_function fft (fun _ => (Some whole, None)) spoilt experiment false 1 values st) = Err IndexError.
Proof.
  exists (mkData [axis1] [part 1; part 2]), (mkData [axis1] [part 3]),
    (mkFit PNone (Some [Exponential 1 (Some 1%R) (One 0) (Some (One 1))]) None), [], (Some [part 3]).
  split; [|split; [reflexivity|split]].
  - split; [reflexivity|]. exists (part 3). split; [reflexivity|]. split; [discriminate|].
    split; [repeat constructor|]. intros idx. apply injective_projections; cbn; lra.
  - cbn. destruct (Req_EM_T 1 0); [lra|]. eexists. reflexivity.
  - reflexivity.
Qed.
Print Assumptions C98_chosen_refuted.
