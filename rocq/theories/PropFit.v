(** C46, C47: names and values of the parameters of a fit. *)
From Coq Require Import ZArith QArith Bool Ascii String List Lia Lqa.
From Verif Require Import Base SitesModel DictModel FitModel FitSpec FitProofs.
Import ListNotations.
Open Scope string_scope.
Open Scope list_scope.

(** ** C46 *)
(** The name of an attribute is the documented one. *)
Theorem C46_names p : encodable p -> str_encode (python_text p) = documented_name p.
Proof. exact (encode_documented p). Qed.
Print Assumptions C46_names.
Example C46_names_case : encodable (SiteT 12 7 Quadrupolar Cq) /\
  str_encode (python_text (SiteT 12 7 Quadrupolar Cq)) = "sys_12_site_7_quadrupolar_Cq" /\
  python_text (SiteT 12 7 Quadrupolar Cq) = "spin_systems[12].sites[7].quadrupolar.Cq".
Proof. repeat split. Qed.

(** Decoding the name of an attribute gives the steps to it.  Missing: the antisymmetric tensors and j_symmetric, see C46_refuted. *)
Theorem C46_round_trip_partial p : decodable p -> str_decode (str_encode (python_text p)) = steps p.
Proof.
  intros H. rewrite encode_documented; [now apply decode_documented|]. destruct p as [|?|? ? [] ?|?|? ? [] ?]; cbn in *; auto.
Qed.
Print Assumptions C46_round_trip_partial.
Example C46_round_trip_case : decodable (CoupT 10 3 Dipolar Beta) /\
  str_decode (str_encode (python_text (CoupT 10 3 Dipolar Beta))) = ["spin_systems"; "10"; "couplings"; "3"; "dipolar"; "beta"].
Proof. split; [exact Logic.I | vm_compute; reflexivity]. Qed.

(** For every attribute of these tensors the way back leads elsewhere. *)
Theorem C46_refuted p : ~ decodable p -> str_decode (str_encode (python_text p)) <> steps p.
Proof.
  intros H. change (str_encode (python_text p)) with (code_name p). rewrite (decode_anti p H).
  assert (N : forall d c r, d <> (d ++ String c r)%string) by (intros d c r; induction d; cbn; congruence).
  destruct p as [i|i j|i j t a|i j|i j t a]; cbn in H; try tauto; destruct t; cbn in H; try tauto; cbn [anti_steps steps]; intros E;
    try discriminate E; injection E as E; symmetry in E; now apply N in E.
Qed.
Print Assumptions C46_refuted.
Example C46_refuted_case :
  str_encode (python_text (SiteT 0 0 ShieldAnti Zeta)) = "sys_0_site_0].shielding_antisymmetric.zeta" /\
  str_decode (str_encode (python_text (CoupT 0 0 JSym Zeta))) = ["spin_systems"; "0"; "couplings"; "0_j_symmetric_zeta"].
Proof. split; vm_compute; reflexivity. Qed.

(** Different attributes have different names, whichever they are. *)
Theorem C46_injective p p' : str_encode (python_text p) = str_encode (python_text p') -> p = p'.
Proof. exact (code_names_injective p p'). Qed.
Print Assumptions C46_injective.
Example C46_injective_case : str_encode (python_text (Shift 1 11)) <> str_encode (python_text (Shift 11 1)).
Proof. intros H. apply C46_injective in H. discriminate. Qed.

(** The names made for a list of spin systems are the names of their attributes, every attribute once. *)
Theorem C46_listed units name label description pathways systems :
  (forall p q, In (p, q) (all_paths systems) -> encodable p) ->
  traverse (PList (map (sys_dict units name label description pathways) systems)) "spin_systems" =
    map (fun pq => documented_name (fst pq)) (all_paths systems) /\
  NoDup (traverse (PList (map (sys_dict units name label description pathways) systems)) "spin_systems").
Proof.
  intros H. rewrite all_names.
  assert (E : map (fun pq => code_name (fst pq)) (all_paths systems) = map (fun pq => documented_name (fst pq)) (all_paths systems)).
  { apply map_ext_in. intros [p q] I. apply encode_documented. exact (H p q I). }
  split; [exact E|]. rewrite <- (map_map fst code_name). apply FinFun.Injective_map_NoDup; [|apply all_nodup].
  intros a b. apply code_names_injective.
Qed.
Print Assumptions C46_listed.

Definition a_tensor : tens := mkTens (Some (10#1)%Q) None None (Some (1#2)%Q) None None None.
Definition two_systems : list sysR :=
  [mkSys [mkSite "29Si" (-(90#1))%Q (Some a_tensor) None None; mkSite "17O" 0 None None (Some (mkTens None (Some 5) None (Some 0%Q) None None None))]
         (Some [mkCoup (0, 1)%Z 12 None None (Some (mkTens None None (Some 7) (Some 0%Q) (Some 1%Q) None None))]) 30;
   mkSys [mkSite "29Si" (-(105#1))%Q None None None] None 50].
Example C46_listed_case :
  (forall p q, In (p, q) (all_paths two_systems) -> encodable p) /\
  traverse (PList (map (sys_dict [] PNone PNone PNone PNone) two_systems)) "spin_systems" =
  ["sys_0_site_0_isotropic_chemical_shift"; "sys_0_site_0_shielding_symmetric_zeta"; "sys_0_site_0_shielding_symmetric_eta";
   "sys_0_site_1_isotropic_chemical_shift"; "sys_0_site_1_quadrupolar_Cq"; "sys_0_site_1_quadrupolar_eta";
   "sys_0_coupling_0_isotropic_j"; "sys_0_coupling_0_dipolar_D"; "sys_0_coupling_0_dipolar_eta"; "sys_0_coupling_0_dipolar_alpha"; "sys_0_abundance";
   "sys_1_site_0_isotropic_chemical_shift"; "sys_1_abundance"].
Proof.
  split; [|vm_compute; reflexivity]. intros p q H. cbn in H. repeat (destruct H as [H|H]; [injection H as <- _; exact Logic.I|]). contradiction.
Qed.

(** Reading by name gives the value of the attribute. *)
Theorem C46_get_partial units name label description pathways systems d p q :
  dict_lookup d "spin_systems" = Some (PList (map (sys_dict units name label description pathways) systems)) ->
  In (p, q) (all_paths systems) -> decodable p ->
  get_simulator_object_value (PDict d) (documented_name p) = Ok (PFloat q).
Proof.
  intros L I Dp. unfold get_simulator_object_value. rewrite (decode_documented p Dp).
  exact (proj1 (present_get units name label description pathways d systems p q L I)).
Qed.
Print Assumptions C46_get_partial.

(** Writing values by name: every attribute named has its value then, every other one the value it had. *)
Theorem C46_update_partial units name label description pathways systems d values :
  dict_lookup d "spin_systems" = Some (PList (map (sys_dict units name label description pathways) systems)) ->
  NoDup (map fst values) ->
  (forall p v, In (p, v) values -> decodable p /\ exists q, In (p, q) (all_paths systems)) ->
  exists sim, update_simulator (PDict d) (map (fun pv => (documented_name (fst pv), snd pv)) values) = Ok sim /\
    (forall p v, In (p, v) values -> get_simulator_object_value sim (documented_name p) = Ok (PFloat v)) /\
    (forall p q, In (p, q) (all_paths systems) -> decodable p -> ~ In p (map fst values) ->
       get_simulator_object_value sim (documented_name p) = Ok (PFloat q)).
Proof.
  intros L N H.
  destruct (update_ok values (PDict d) N) as [sim [E [A B]]].
  { intros p v I. destruct (H p v I) as [Dp [q Iq]]. split; [exact Dp|]. exists (PFloat q).
    exact (proj1 (present_get units name label description pathways d systems p q L Iq)). }
  exists sim. split; [exact E|]. unfold get_simulator_object_value. split.
  - intros p v I. rewrite decode_documented by apply (H p v I). exact (A p v I).
  - intros p q I Dp Np. rewrite (decode_documented p Dp), (B p Np).
    exact (proj1 (present_get units name label description pathways d systems p q L I)).
Qed.
Print Assumptions C46_update_partial.
Example C46_update_case :
  exists sim, update_simulator (PDict [("spin_systems", PList (map (sys_dict [] PNone PNone PNone PNone) two_systems))])
      [("sys_1_abundance", 70%Q); ("sys_0_coupling_0_dipolar_D", 8%Q)] = Ok sim /\
    get_simulator_object_value sim "sys_1_abundance" = Ok (PFloat 70) /\
    get_simulator_object_value sim "sys_0_abundance" = Ok (PFloat 30).
Proof. eexists. split; [vm_compute; reflexivity|]. split; vm_compute; reflexivity. Qed.

(** ** C47 *)
(** The parameters made for spin systems with a total abundance other than zero.  Missing: systems with an antisymmetric tensor or a
    j_symmetric tensor, see C47_refuted. *)
Theorem C47_params_partial units name label description pathways systems :
  ~ (sumQ (map y_abundance systems) == 0)%Q ->
  (forall p q, In (p, q) (all_paths systems) -> decodable p) ->
  exists params, make_LMFIT_params (map (sys_dict units name label description pathways) systems) = Ok params /\
    Forall2 (describes (length systems) (sumQ (map y_abundance systems))) (all_paths systems) params.
Proof. exact (params_described units name label description pathways systems). Qed.
Print Assumptions C47_params_partial.

(** Whatever values a fit gives the abundances: with the last one following its expression they add up to 100. *)
Lemma total_is_100 n e (env : string -> Q) : (0 < n)%nat -> one_hundred_minus_others n e ->
  (env (documented_name (Abundance (n - 1))) == eval_expr env e)%Q ->
  (sumQ (map (fun i => env (documented_name (Abundance i))) (seq 0 n)) == 100)%Q.
Proof.
  intros Hn He Hl. destruct n as [|m]; [lia|]. rewrite seq_S, map_app. unfold one_hundred_minus_others in He.
  replace (S m - 1)%nat with m in * by lia. cbn [Nat.add map]. specialize (He env).
  assert (A : forall l x, (sumQ (l ++ [x]) == sumQ l + x)%Q).
  { intros l x. unfold sumQ. induction l as [|y l IH]; cbn [app fold_right]; [ring|]. rewrite IH. ring. }
  rewrite A, Hl, He. ring.
Qed.

(** The starting value of the last abundance is the scaled one, as for the others. *)
Lemma start_scaled n (abundances : list Q) (env : string -> Q) e : length abundances = n -> (0 < n)%nat ->
  ~ (sumQ abundances == 0)%Q -> one_hundred_minus_others n e ->
  (forall i a, (S i < n)%nat -> nth_error abundances i = Some a -> (env (documented_name (Abundance i)) == a * 100 / sumQ abundances)%Q) ->
  forall a, nth_error abundances (n - 1) = Some a -> (eval_expr env e == a * 100 / sumQ abundances)%Q.
Proof.
  intros Hl Hn Nz He Henv a Ha.
  assert (A : forall l x, (sumQ (l ++ [x]) == sumQ l + x)%Q).
  { intros l x. unfold sumQ. induction l as [|y l IH]; cbn [app fold_right]; [ring|]. rewrite IH. ring. }
  destruct (nth_error_split _ _ Ha) as [l1 [l2 [E El]]].
  assert (l2 = []) by (apply length_zero_iff_nil; apply (f_equal (@length Q)) in E; rewrite app_length in E; cbn in E; lia). subst l2.
  specialize (He env). rewrite He.
  assert (B : forall l k, (forall i x, nth_error l i = Some x -> (env (documented_name (Abundance (k + i))) == x * 100 / sumQ abundances)%Q) ->
    (sumQ (map (fun i => env (documented_name (Abundance i))) (seq k (length l))) == sumQ l * 100 / sumQ abundances)%Q).
  { induction l as [|x l IH]; intros k H; cbn [length seq map]; [unfold sumQ at 1 2; cbn [map fold_right]; field; exact Nz|].
    unfold sumQ at 1 2. cbn [fold_right]. fold (sumQ l). fold (sumQ (map (fun i => env (documented_name (Abundance i))) (seq (S k) (length l)))).
    rewrite (IH (S k)).
    - pose proof (H 0%nat x eq_refl) as H0. rewrite Nat.add_0_r in H0. rewrite H0. field. exact Nz.
    - intros i y Hi. specialize (H (S i) y Hi). now replace (S k + i)%nat with (k + S i)%nat by lia. }
  replace (n - 1)%nat with (length l1) by lia. rewrite (B l1 0%nat).
  - assert (Es : (sumQ abundances == sumQ l1 + a)%Q) by (rewrite E; apply A).
    setoid_replace (sumQ l1) with (sumQ abundances - a)%Q by (rewrite Es; ring). field. exact Nz.
  - intros i x Hi. cbn [Nat.add]. assert (i < length l1)%nat by (apply nth_error_Some; congruence). apply Henv; [lia|].
    rewrite E. rewrite nth_error_app1 by assumption. exact Hi.
Qed.

Lemma in_each_from {A} (f : nat -> A -> list (path * Q)) x y l : forall i k, nth_error l k = Some y -> In x (f (i + k)%nat y) -> In x (each_from f i l).
Proof.
  induction l as [|z l IH]; intros i [|k] E I; cbn in E; try discriminate; cbn [each_from]; apply in_app_iff.
  - left. injection E as ->. now rewrite Nat.add_0_r in I.
  - right. apply (IH (S i) k E). now replace (S i + k)%nat with (i + S k)%nat by lia.
Qed.
Lemma abundance_listed systems i y : nth_error systems i = Some y -> In (Abundance i, y_abundance y) (all_paths systems).
Proof.
  intros E. apply (in_each_from sys_paths _ y systems 0 i E). unfold sys_paths. rewrite !in_app_iff. right. right. now left.
Qed.
Lemma forall2_in {A B} (R : A -> B -> Prop) l l' a : Forall2 R l l' -> In a l -> exists b, In b l' /\ R a b.
Proof. induction 1 as [|x y l l' H F IH]; intros I; [destruct I|]. destruct I as [->|I]; [exists y; split; [now left | auto]|]. destruct (IH I) as [b [Ib Rb]]. exists b. split; [now right | auto]. Qed.

(** Of the parameters made, the last abundance is bound to an expression.  With it the abundances add up to 100, whatever values a fit
    gives the others; and with the starting values of the others its own is the scaled one. *)
Theorem C47_total_partial units name label description pathways systems :
  ~ (sumQ (map y_abundance systems) == 0)%Q ->
  (forall p q, In (p, q) (all_paths systems) -> decodable p) ->
  exists params r e, make_LMFIT_params (map (sys_dict units name label description pathways) systems) = Ok params /\
    In r params /\ p_name r = documented_name (Abundance (length systems - 1)) /\ p_expr r = Some e /\
    (forall env, (env (p_name r) == eval_expr env e)%Q ->
       (sumQ (map (fun i => env (documented_name (Abundance i))) (seq 0 (length systems))) == 100)%Q) /\
    (forall env, (forall r', In r' params -> p_expr r' = None -> (env (p_name r') == p_value r')%Q) ->
       forall y, nth_error systems (length systems - 1) = Some y -> (eval_expr env e == y_abundance y * 100 / sumQ (map y_abundance systems))%Q).
Proof.
  intros Nz Hd. destruct (params_described units name label description pathways systems Nz Hd) as [params [E F]].
  assert (Hn : (0 < length systems)%nat) by (destruct systems; [exfalso; apply Nz; reflexivity | cbn; lia]).
  destruct (nth_error systems (length systems - 1)) as [y|] eqn:Ey; [|apply nth_error_None in Ey; lia].
  destruct (forall2_in _ _ _ _ F (abundance_listed systems _ y Ey)) as [r [Ir [En [_ [_ [_ Hr]]]]]]. cbn [fst] in *.
  destruct (Hr ltac:(lia)) as [e [Ee He]].
  exists params, r, e. repeat split; auto.
  - intros env Hl. apply (total_is_100 _ e env Hn He). now rewrite <- En.
  - intros env Henv y' Ey'. injection Ey' as <-.
    apply (start_scaled (length systems) (map y_abundance systems) env e (map_length _ _) Hn Nz He); [|now apply map_nth_error].
    intros i a Hi Ha. destruct (nth_error systems i) as [yi|] eqn:Ei; [|apply nth_error_None in Ei; lia].
    rewrite (map_nth_error y_abundance _ _ Ei) in Ha. injection Ha as <-.
    destruct (forall2_in _ _ _ _ F (abundance_listed systems i yi Ei)) as [ri [Ii [Eni [_ [_ [Hv _]]]]]]. cbn [fst snd] in *.
    destruct (Hv Hi) as [V X]. rewrite <- Eni, <- V. auto.
Qed.
Print Assumptions C47_total_partial.

(** A total of zero, or no spin system, is a division by zero. *)
Theorem C47_zero units name label description pathways systems : (sumQ (map y_abundance systems) == 0)%Q ->
  make_LMFIT_params (map (sys_dict units name label description pathways) systems) = Err ZeroDivisionError.
Proof. exact (params_zero units name label description pathways systems). Qed.
Print Assumptions C47_zero.

(** No parameters at all are made when some spin system has an antisymmetric tensor or a j_symmetric tensor with a number in it. *)
Theorem C47_refuted units name label description pathways systems : ~ (sumQ (map y_abundance systems) == 0)%Q ->
  (exists p q, In (p, q) (all_paths systems) /\ ~ decodable p) ->
  make_LMFIT_params (map (sys_dict units name label description pathways) systems) = Err AttributeError.
Proof. exact (params_fail units name label description pathways systems). Qed.
Print Assumptions C47_refuted.

Example C47_params_case :
  ~ (sumQ (map y_abundance two_systems) == 0)%Q /\ (forall p q, In (p, q) (all_paths two_systems) -> decodable p) /\
  exists params, make_LMFIT_params (map (sys_dict [] PNone PNone PNone PNone) two_systems) = Ok params /\
    nth_error (map p_expr params) 12 = Some (Some "100-sys_0_abundance") /\ nth_error (map p_max params) 2 = Some (Some 1%Q).
Proof.
  split; [unfold Qeq; cbn; discriminate|]. split.
  - intros p q H. cbn in H. repeat (destruct H as [H|H]; [injection H as <- _; exact Logic.I|]). contradiction.
  - eexists. split; [vm_compute; reflexivity|]. split; vm_compute; reflexivity.
Qed.
Example C47_total_case : one_hundred_minus_others 3 (expression 3) /\ expression 3 = "100-sys_0_abundance-sys_1_abundance" /\
  one_hundred_minus_others 1 (expression 1) /\ expression 1 = "100".
Proof. repeat split; apply expression_value. Qed.
Example C47_refuted_case :
  let systems := [mkSys [mkSite "29Si" 0 None (Some a_tensor) None] None 100] in
  ~ (sumQ (map y_abundance systems) == 0)%Q /\ (exists p q, In (p, q) (all_paths systems) /\ ~ decodable p).
Proof.
  split; [unfold Qeq; cbn; discriminate|]. exists (SiteT 0 0 ShieldAnti Zeta), (10#1)%Q. split; [cbn; auto | intros H; exact H].
Qed.
