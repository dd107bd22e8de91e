(** Property theorems about sessions with tensors, sites, couplings and spin systems (C102, C103). *)
From Coq Require Import ZArith QArith Qcanon Bool String Lia List.
From Verif Require Import Base SitesModel SitesProofs JsonModel LiveModel LiveSpec LiveProofs.
Import ListNotations.
Open Scope string_scope.
Open Scope list_scope.

(** ** C102 *)
(** After any session every coupling couples two different sites, every abundance is a percentage and every site has an isotope of the list. *)
Theorem C102_always : forall (mode : copying) (cs : list op),
  Forall two_different (objects (session mode cs)) /\ Forall percentage (abundances (session mode cs)) /\ Forall known_isotope (objects (session mode cs)).
Proof. intros mode cs. destruct (valid_always_main mode cs) as [A B]. auto using known_session. Qed.
Print Assumptions C102_always.
(** Sites with a quadrupolar tensor have a quadrupolar nucleus as long as no isotope is assigned, and asymmetries are in range as long as none
    is assigned. *)
Theorem C102_valid_partial : forall (mode : copying) (cs : list op),
  (Forall (fun c => forall s i, c <> SetIsotope s i) cs -> Forall quadrupolar_nucleus (objects (session mode cs))) /\
  (Forall (fun c => forall a v, c <> SetValue a "eta" v) cs -> Forall asymmetry (tensors (session mode cs))).
Proof.
  intros mode cs. split; intros F.
  - apply (session_inv mode (fun st => Forall quadrupolar_nucleus (objects st)) (fun c => forall s i, c <> SetIsotope s i) cs); [constructor| |exact F]. intros c st N H. now apply quadrupolar_step.
  - apply (session_inv mode (fun st => Forall asymmetry (tensors st)) (fun c => forall a v, c <> SetValue a "eta" v) cs); [constructor| |exact F]. intros c st N H. now apply asymmetry_step.
Qed.
Print Assumptions C102_valid_partial.
Definition only (r : role) (a : nat) : role -> option (option nat) := fun q => if role_dec q r then Some (Some a) else None.
Fixpoint outcomes (mode : copying) (cs : list op) (st : state) : list (pyres unit) :=
  match cs with [] => [] | c :: cs => let (st', r) := step mode c st in r :: outcomes mode cs st' end.
(** A session of the examples, for shallow copies (the site takes copies 2 and 3): two tensors, a site with both, a coupling, a system. *)
Definition session_example : list op :=
  [NewTensor false [("Cq", Qc_of_Z 5000000); ("eta", Q2Qc (1 # 2))]; NewTensor false [("zeta", Qc_of_Z 10); ("alpha", 0%Qc)];
   NewSite "27Al" (fun r => match r with Quadrupolar => Some (Some 0%nat) | Shielding => Some (Some 1%nat) | _ => None end);
   NewTensor false [("zeta", Qc_of_Z 20)]; NewCoupling [0; 1]%Z (only J 4); NewSystem (Qc_of_Z 30); SetTensor 0 Quadrupolar None].
Example C102_example : outcomes Shallow session_example start = repeat (Ok tt) 7 /\ one_field_each (session Shallow session_example) /\
  Forall (fun c => forall s i, c <> SetIsotope s i) session_example /\ Forall (fun c => forall a v, c <> SetValue a "eta" v) session_example.
Proof.
  split; [vm_compute; reflexivity|]. split.
  - intros d r r'. vm_compute. intros H H'. repeat (destruct H as [H|H]; [injection H as <- <-|]); try contradiction; repeat (destruct H' as [H'|H']; [injection H'; intros; subst; try reflexivity; try discriminate|]); try contradiction.
  - split; repeat constructor; intros; discriminate.
Qed.
(** Assigning the isotope of a site with a quadrupolar tensor is accepted whatever its spin. *)
Theorem C102_isotope_refuted : forall (mode : copying), let cs := [NewTensor false [("Cq", Qc_of_Z 5000000)]; NewSite "27Al" (only Quadrupolar 0); SetIsotope 0 "1H"] in
  outcomes mode cs start = [Ok tt; Ok tt; Ok tt] /\ exists o, nth_error (objects (session mode cs)) 0 = Some o /\ ~ quadrupolar_nucleus o.
Proof.
  intros mode cs. split; [destruct mode; vm_compute; reflexivity|]. destruct mode; (eexists; split; [vm_compute; reflexivity|]); intros Q; destruct (Q eq_refl ltac:(vm_compute; discriminate)) as (n & E & L); vm_compute in E; injection E as <-; lia.
Qed.
Print Assumptions C102_isotope_refuted.
(** So is any asymmetry. *)
Theorem C102_eta_refuted : forall (mode : copying), let cs := [NewTensor false [("zeta", Qc_of_Z 10); ("eta", 0%Qc)]; SetValue 0 "eta" (Some (Qc_of_Z 5))] in
  outcomes mode cs start = [Ok tt; Ok tt] /\ ~ Forall asymmetry (tensors (session mode cs)).
Proof.
  intros mode cs. split; [destruct mode; vm_compute; reflexivity|]. intros F. assert (I : exists t, nth_error (tensors (session mode cs)) 0 = Some t /\ dict_lookup (t_values t) "eta" = Some (Qc_of_Z 5)) by (destruct mode; eexists; split; reflexivity).
  destruct I as (t & I & E). rewrite Forall_forall in F. destruct (F t (nth_error_In _ _ I) _ E) as (_ & H). apply H. reflexivity.
Qed.
Print Assumptions C102_eta_refuted.

(** A statement that raises leaves everything as it was, unless it constructs a site or a coupling. *)
Theorem C102_rejected_partial : forall (mode : copying) (cs : list op) (c : op) (e : exn),
  match c with NewSite _ _ | NewCoupling _ _ => False | _ => True end ->
  snd (step mode c (session mode cs)) = Err e -> unchanged (session mode cs) (fst (step mode c (session mode cs))).
Proof. intros mode cs c e N. apply rejected_step; [apply places_session|]. destruct c; cbn in *; tauto. Qed.
Print Assumptions C102_rejected_partial.
Example C102_rejected_example : snd (step Shallow (SetTensor 0 Quadrupolar (Some 0%nat)) (session Shallow [NewTensor false [("Cq", Qc_of_Z 5000000)]; NewSite "13C" (fun _ => None)])) = Err ValueError.
Proof. vm_compute. reflexivity. Qed.
(** A construction that raises has already changed the tensors given to it: a coupling refused for its indexes. *)
Theorem C102_rejected_refuted : forall (mode : copying), mode <> Deep -> exists (cs : list op) (c : op) (e : exn),
  snd (step mode c (session mode cs)) = Err e /\ ~ unchanged (session mode cs) (fst (step mode c (session mode cs))) /\
  written (session mode cs) 0 "zeta" = Some (Qc_of_Z 10, Some "ppm") /\ written (fst (step mode c (session mode cs))) 0 "zeta" = Some (Qc_of_Z 10, Some "Hz").
Proof.
  intros mode N. exists [NewTensor false [("zeta", Qc_of_Z 10)]], (NewCoupling [1; 1]%Z (only J 0)), ValueError.
  destruct mode; [| |congruence]; (split; [vm_compute; reflexivity|]; split; [|split; vm_compute; reflexivity]); intros (_ & _ & U); destruct (U 0%nat _ eq_refl) as (_ & H); vm_compute in H; discriminate.
Qed.
Print Assumptions C102_rejected_refuted.

(** Assigning None to the field of a site or a coupling removes the tensor, and changes nothing else, if it is not a shielding. *)
Theorem C102_clear_partial : forall (mode : copying) (st : state) (i : nat) (o : object) (r : role),
  nth_error (objects st) i = Some o -> In r (if o_site o then [Quadrupolar] else [J; AntiJ; Dipolar]) ->
  snd (step mode (SetTensor i r None) st) = Ok tt /\
  let st' := fst (step mode (SetTensor i r None) st) in
  dicts st' = dicts st /\ tensors st' = tensors st /\ abundances st' = abundances st /\
  exists o', nth_error (objects st') i = Some o' /\ o_slot o' r = None /\ (forall q, q <> r -> o_slot o' q = o_slot o q) /\
    o_site o' = o_site o /\ o_isotope o' = o_isotope o /\ o_index o' = o_index o /\ forall j, j <> i -> nth_error (objects st') j = nth_error (objects st) j.
Proof.
  intros mode st i o r E R. assert (H : handles_none r = true) by (destruct (o_site o); repeat (destruct R as [<-|R]; [reflexivity|]); contradiction).
  assert (F : In r (fields_of (o_site o))) by (destruct (o_site o); cbn in *; tauto).
  unfold step. rewrite E. destruct (in_dec role_dec r (fields_of (o_site o))); [|contradiction]. unfold validate. rewrite H. cbn [fst snd]. split; [reflexivity|]. cbn. repeat (split; [reflexivity|]).
  eexists. rewrite update_nth, Nat.eqb_refl, E. split; [reflexivity|]. cbn. unfold set_slot. split; [destruct (role_dec r r); congruence|]. split; [intros q N; destruct (role_dec q r); congruence|].
  repeat (split; [reflexivity|]). intros j N. rewrite update_nth. destruct (Nat.eqb_spec i j); [congruence|reflexivity].
Qed.
Print Assumptions C102_clear_partial.
Example C102_clear_example : exists o, nth_error (objects (session Shallow (firstn 5 session_example))) 0 = Some o /\ o_slot o Quadrupolar <> None /\ In Quadrupolar (if o_site o then [Quadrupolar] else [J; AntiJ; Dipolar]).
Proof. eexists. split; [vm_compute; reflexivity|]. split; [vm_compute; discriminate|]. left. reflexivity. Qed.
(** The shielding of a site can never be removed, nor a site be constructed with None for it. *)
Theorem C102_clear_refuted : forall (mode : copying) (st : state) (i : nat) (o : object) (r : role), In r [Shielding; AntiShielding] ->
  (nth_error (objects st) i = Some o -> o_site o = true -> step mode (SetTensor i r None) st = (st, Err AttributeError)) /\
  snd (step mode (NewSite "13C" (fun q => if role_dec q r then Some None else None)) st) = Err AttributeError.
Proof.
  intros mode st i o r R. split.
  - intros E S. unfold step. rewrite E, S. destruct (in_dec role_dec r (fields_of true)) as [_|N]; [|exfalso; apply N; cbn in *; tauto]. destruct R as [<-|[<-|[]]]; reflexivity.
  - destruct R as [<-|[<-|[]]]; reflexivity.
Qed.
Print Assumptions C102_clear_refuted.

(** ** C103 *)
(** Whatever happened, the tensor of a field is written with the unit of that field, if no tensor was given to two different fields. *)
Theorem C103_units_partial : forall (mode : copying) (cs : list op) (o : object) (r : role) (a : nat), let st := session mode cs in
  one_field_each st -> In o (objects st) -> o_slot o r = Some a ->
  exists t, nth_error (tensors st) a = Some t /\
    (forall x, dict_lookup (t_values t) (fst (main_attribute r)) = Some x -> written st a (fst (main_attribute r)) = Some (x, Some (snd (main_attribute r)))) /\
    (forall name x, In name ["alpha"; "beta"] -> dict_lookup (t_values t) name = Some x -> written st a name = Some (x, Some "rad")) /\
    (forall x, t_anti t = false -> dict_lookup (t_values t) "gamma" = Some x -> written st a "gamma" = Some (x, Some "rad")).
Proof.
  intros mode cs o r a st O Io Ha. destruct (units_session mode cs O) as (_ & S). destruct (S o r a Io Ha) as (t & E & W & _ & U). exists t. split; [exact E|].
  unfold written. fold st in E. rewrite E. change (nth (t_units t) (dicts st) []) with (units_of (session mode cs) t). rewrite U.
  split; [|split].
  - intros x ->. cbn [option_map]. repeat f_equal. rewrite W. destruct r; reflexivity.
  - intros name x [<-|[<-|[]]] ->; cbn [option_map]; repeat f_equal; rewrite W; destruct r; reflexivity.
  - intros x A ->. cbn [option_map]. repeat f_equal. rewrite A in *. destruct r; try discriminate; reflexivity.
Qed.
Print Assumptions C103_units_partial.
Example C103_example : let st := session Shallow (firstn 6 session_example) in
  written st 2 "zeta" = Some (Qc_of_Z 10, Some "ppm") /\ written st 3 "Cq" = Some (Qc_of_Z 5000000, Some "Hz") /\ written st 5 "zeta" = Some (Qc_of_Z 20, Some "Hz").
Proof. vm_compute. auto. Qed.
(** A tensor given to a site and to a coupling: the shielding of the site, written in ppm, is then written in Hz. *)
Theorem C103_coupling_refuted : forall (mode : copying), mode <> Deep ->
  let cs := [NewTensor false [("zeta", Qc_of_Z 10)]; NewSite "13C" (only Shielding 0)] in let c := NewCoupling [0; 1]%Z (only J 0) in
  exists o a, nth_error (objects (session mode cs)) 0 = Some o /\ nth_error (objects (session mode (cs ++ [c]))) 0 = Some o /\ o_slot o Shielding = Some a /\
    written (session mode cs) a "zeta" = Some (Qc_of_Z 10, Some "ppm") /\ written (session mode (cs ++ [c])) a "zeta" = Some (Qc_of_Z 10, Some "Hz").
Proof. intros mode N cs c. destruct mode; [| |congruence]; eexists _, _; (split; [vm_compute; reflexivity|]); (split; [vm_compute; reflexivity|]); (split; [vm_compute; reflexivity|]); split; vm_compute; reflexivity. Qed.
Print Assumptions C103_coupling_refuted.
(** A tensor given to both fields of one site: both constants are written without a unit. *)
Theorem C103_site_refuted : forall (mode : copying), mode <> Deep ->
  let st := session mode [NewTensor false [("zeta", Qc_of_Z 10); ("Cq", Qc_of_Z 5000000)]; NewSite "27Al" (fun r => match r with Shielding | Quadrupolar => Some (Some 0%nat) | _ => None end)] in
  exists o a b, nth_error (objects st) 0 = Some o /\ o_slot o Shielding = Some a /\ o_slot o Quadrupolar = Some b /\
    written st a "zeta" = Some (Qc_of_Z 10, None) /\ written st b "Cq" = Some (Qc_of_Z 5000000, None).
Proof. intros mode N st. destruct mode; [| |congruence]; eexists _, _, _; (split; [vm_compute; reflexivity|]); (split; [vm_compute; reflexivity|]); (split; [vm_compute; reflexivity|]); split; vm_compute; reflexivity. Qed.
Print Assumptions C103_site_refuted.

(** A tensor of the class of the field is taken, for the quadrupolar tensor of a site if its nucleus is quadrupolar: the field then has a tensor with the given values, and the other fields of all objects are as before. *)
Theorem C102_assign : forall (mode : copying) (st : state) (i : nat) (o : object) (r : role) (a : nat) (t : tensor),
  nth_error (objects st) i = Some o -> In r (if o_site o then [Shielding; AntiShielding; Quadrupolar] else [J; AntiJ; Dipolar]) ->
  nth_error (tensors st) a = Some t -> (t_anti t = true <-> In r [AntiShielding; AntiJ]) -> (r = Quadrupolar -> exists n, twice_spin (o_isotope o) = Ok n /\ (2 <= n)%Z) ->
  snd (step mode (SetTensor i r (Some a)) st) = Ok tt /\
  let st' := fst (step mode (SetTensor i r (Some a)) st) in
  abundances st' = abundances st /\
  exists o' b t', nth_error (objects st') i = Some o' /\ o_slot o' r = Some b /\ nth_error (tensors st') b = Some t' /\ t_values t' = t_values t /\ t_anti t' = t_anti t /\
    (forall q, q <> r -> o_slot o' q = o_slot o q) /\ o_site o' = o_site o /\ o_isotope o' = o_isotope o /\ o_index o' = o_index o /\ forall j, j <> i -> nth_error (objects st') j = nth_error (objects st) j.
Proof.
  intros mode st i o r a t E R T K Qd.
  assert (B : Bool.eqb (t_anti t) (wants_anti r) = true).
  { apply Bool.eqb_true_iff. destruct (t_anti t).
    - destruct (proj1 K eq_refl) as [<-|[<-|[]]]; reflexivity.
    - destruct r; try reflexivity; exfalso; cbn in K; assert (false = true) by (apply K; tauto); discriminate. }
  assert (Z : exists st1 b t1, validate mode (o_isotope o) r (Some a) st = (st1, Ok (Some b)) /\ objects st1 = objects st /\ abundances st1 = abundances st /\ nth_error (tensors st1) b = Some t1 /\ t_values t1 = t_values t /\ t_anti t1 = t_anti t).
  { assert (Y : exists st0 b t1, take mode st a t = (st0, b) /\ objects st0 = objects st /\ abundances st0 = abundances st /\ nth_error (tensors st0) b = Some t1 /\ t_values t1 = t_values t /\ t_anti t1 = t_anti t).
    { destruct mode; cbn [take]; do 3 eexists; (split; [reflexivity|]); cbn [objects abundances tensors]; (split; [reflexivity|]); (split; [reflexivity|]).
      - rewrite T. auto.
      - rewrite nth_error_app2, Nat.sub_diag by apply Nat.le_refl. cbn. auto.
      - rewrite nth_error_app2, Nat.sub_diag by apply Nat.le_refl. cbn. auto. }
    destruct Y as (st0 & b & t1 & Y & Y1 & Y2 & Y3). unfold validate. rewrite T, B, Y. cbv zeta.
    destruct r; try (do 3 eexists; (split; [reflexivity|]); cbn [change_units objects abundances tensors]; eauto).
    destruct (Qd eq_refl) as (n & N & L). rewrite N. destruct (Z.ltb_spec n 2); [lia|]. do 3 eexists; (split; [reflexivity|]); cbn [change_units objects abundances tensors]; eauto. }
  destruct Z as (st1 & b & t1 & Z & Z1 & Z2 & Z3 & Z4 & Z5).
  assert (S : step mode (SetTensor i r (Some a)) st = (put_object i (mkObject (o_site o) (o_isotope o) (o_index o) (set_slot (o_slot o) r (Some b))) st1, Ok tt)).
  { unfold step. rewrite E. destruct (in_dec role_dec r (fields_of (o_site o))) as [_|N]; [|exfalso; apply N; destruct (o_site o); exact R]. rewrite Z. reflexivity. }
  rewrite S. cbn [fst snd]. split; [reflexivity|]. cbv zeta. cbn [put_object objects abundances tensors]. rewrite Z1, Z2. split; [reflexivity|].
  assert (U : forall (l : list object) k x y, nth_error l k = Some y -> nth_error (update l k x) k = Some x /\ forall j, j <> k -> nth_error (update l k x) j = nth_error l j).
  { induction l as [|z l IH]; intros [|k] x y H; try discriminate; cbn [update nth_error] in *.
    - split; [reflexivity|]. intros [|j] J; [congruence|reflexivity].
    - destruct (IH k x y H) as [I1 I2]. split; [exact I1|]. intros [|j] J; [reflexivity|]. apply I2. congruence. }
  destruct (U (objects st) i (mkObject (o_site o) (o_isotope o) (o_index o) (set_slot (o_slot o) r (Some b))) o E) as [U1 U2].
  eexists _, b, t1. split; [exact U1|]. cbn [o_slot o_site o_isotope o_index]. unfold set_slot. split; [destruct (role_dec r r); congruence|]. split; [exact Z3|]. split; [exact Z4|]. split; [exact Z5|].
  split; [intros q Q; destruct (role_dec q r); congruence|]. split; [reflexivity|]. split; [reflexivity|]. split; [reflexivity|]. exact U2.
Qed.
Print Assumptions C102_assign.
Example C102_assign_example : let st := session Shallow [NewTensor true [("zeta", Qc_of_Z 10)]; NewCoupling [0; 1]%Z (fun _ => None)] in
  exists o t, nth_error (objects st) 0 = Some o /\ o_site o = false /\ nth_error (tensors st) 0 = Some t /\ (t_anti t = true <-> In AntiJ [AntiShielding; AntiJ]) /\ snd (step Shallow (SetTensor 0 AntiJ (Some 0%nat)) st) = Ok tt.
Proof. cbv zeta. eexists _, _. split; [vm_compute; reflexivity|]. split; [reflexivity|]. split; [vm_compute; reflexivity|]. split; [cbn; tauto|]. vm_compute. reflexivity. Qed.
