(** C33-C35, C56, C66-C69: frequencies of transitions, events and dimensions. *)
From Coq Require Import Reals List ZArith Lra Lia Bool.
From Coquelicot Require Import Coquelicot.
From Verif Require Import DftModel DftProofs TableProofs WignerModel WignerSpec WignerProofs FreqModel FreqSpec FreqProofs CoreProofs FreqConst PropDft.
Import ListNotations.
Open Scope R_scope.

(** ** C33 *)
(** Spin systems: every coupling is between two of the sites, and a transition gives the states of all the sites. *)
Definition well_formed (sites : list site) (couplings : list coupling) : Prop :=
  forall cp, In cp couplings -> (c_A cp < length sites)%nat /\ (c_X cp < length sites)%nat.
Definition shaped (sites : list site) (tr : list R * list R) : Prop := length (fst tr) = length sites /\ length (snd tr) = length sites.

(** If the event's transition changes the state of at most one site, then the event gets exactly the listed contributions of the
    sites and all the couplings, for every list of contributions, spin system and field, whatever follows in the pathway and the flags. *)
Theorem C33_listed_partial : forall (f : fconst) (fourth : bool) (B0 : R) (sites : list site) (couplings : list coupling) (mi mf more : list R)
    (listed : list contrib) (later : list bool),
  well_formed sites couplings -> shaped sites (mi, mf) -> one_site_flips mi mf ->
  event_components f fourth B0 sites couplings (mi ++ mf ++ more) (freq_contrib_flags listed ++ later) =
  Some (cadd (sites_total f fourth B0 listed sites mi mf) (couplings_total f couplings mi mf)).
Proof. intros f fourth B0 sites cps mi mf more listed later W [L1 L2] O. apply components_one; auto. Qed.
Print Assumptions C33_listed_partial.
(** With all the contributions listed (the default) in this and the later events, it holds for every transition for which there are
    enough flags. *)
Theorem C33_all_partial : forall (f : fconst) (fourth : bool) (B0 : R) (sites : list site) (couplings : list coupling) (mi mf more : list R) (flags : list bool),
  well_formed sites couplings -> shaped sites (mi, mf) -> (forall b, In b flags -> b = true) -> (flags_needed fourth sites mi mf <= length flags)%nat ->
  event_components f fourth B0 sites couplings (mi ++ mf ++ more) flags =
  Some (cadd (sites_total f fourth B0 freq_list_all sites mi mf) (couplings_total f couplings mi mf)).
Proof. intros f fourth B0 sites cps mi mf more fl W [L1 L2] T N. apply components_all; auto. Qed.
Print Assumptions C33_all_partial.
(** Not in general.  The flags are read on and on over the sites: for two protons that both flip, with only the isotropic shift
    listed, the second proton's shift is missing; and with only Quad1_2 listed it is there. *)
Definition proton (shift : R) : site :=
  {| s_spin := 1 / 2; s_gamma := 42; s_iso := shift; s_zeta := 0; s_eta := 0; s_theta := (0, 0, 0); s_Cq := 0; s_qeta := 0; s_qtheta := (0, 0, 0) |}.
Definition up : R := 1 / 2.
Definition down : R := - (1 / 2).
Lemma proton_exists fourth shift : existing fourth (proton shift) = [Shielding1_0; Shielding1_2].
Proof. unfold existing. cbn. destruct (Req_EM_T (1 / 2) (1 / 2)); [auto|contradiction]. Qed.
Lemma up_down : down <> up. Proof. unfold up, down. lra. Qed.
Lemma two_protons f fl a b c : length fl = 6%nat -> fl = [a; b; c] ++ skipn 3 fl ->
  exists cc, event_components f false 1 [proton 1; proton 10] [] ([down; down] ++ [up; up]) fl = Some cc /\
  r0 cc = (if a then -42 else 0) + (if c then -420 else 0).
Proof.
  intros L E. destruct fl as [|a' [|b' [|c' [|d' [|e' [|f' [|? ?]]]]]]]; try discriminate. cbn in E. injection E as -> -> ->.
  rewrite <- (app_nil_r [up; up]). rewrite components_of_loop; auto.
  - rewrite (site_loop_app f false 1 [proton 1; proton 10] [down; down] [up; up] _ _ [] []) by auto.
    cbn [site_loop app hd tl]. pose proof up_down as UD. rewrite site_step_spec by auto using zero_wf. rewrite proton_exists. cbn [length Nat.leb obind].
    rewrite site_step_spec; [|auto|].
    + rewrite proton_exists. cbn [length Nat.leb skipn obind option_map fst]. eexists. split; [reflexivity|].
      cbn [picked combine flat_map fst snd app]. destruct a, b, c, d'; cbn; unfold tf_p, up, down; lra.
    + apply cadd_wf; [apply zero_wf|]. apply total_wf. intros x Hx. apply in_map_iff in Hx. destruct Hx as [y [<- _]]. apply contribution_wf.
  - intros cp [].
  - intros cc fl H. eapply site_loop_wf; [apply zero_wf|exact H].
Qed.
Theorem C33_second_site_refuted :
  (exists c, event_components decimal_f false 1 [proton 1; proton 10] [] ([down; down] ++ [up; up]) (freq_contrib_flags [Shielding1_0]) = Some c /\
     r0 c = -42 /\ r0 (sites_total decimal_f false 1 [Shielding1_0] [proton 1; proton 10] [down; down] [up; up]) = -462) /\
  (exists c, event_components decimal_f false 1 [proton 1; proton 10] [] ([down; down] ++ [up; up]) (freq_contrib_flags [Quad1_2]) = Some c /\
     r0 c = -420 /\ r0 (sites_total decimal_f false 1 [Quad1_2] [proton 1; proton 10] [down; down] [up; up]) = 0).
Proof.
  split.
  - destruct (two_protons decimal_f (freq_contrib_flags [Shielding1_0]) true false false eq_refl eq_refl) as [c [E V]]. exists c. split; [exact E|].
    split; [lra|]. unfold sites_total, site_total. cbn. unfold tf_p, up, down. lra.
  - destruct (two_protons decimal_f (freq_contrib_flags [Quad1_2]) false false true eq_refl eq_refl) as [c [E V]]. exists c. split; [exact E|].
    split; [lra|]. unfold sites_total, site_total. cbn. destruct (Req_EM_T (1 / 2) (1 / 2)); [|contradiction]. cbn. lra.
Qed.
Print Assumptions C33_second_site_refuted.
(** When there are fewer flags than contributions over the flipping sites, the flags are read past their end (undefined behaviour),
    for every spin system; four protons that flip in the last event are enough. *)
Theorem C33_past_end_refuted : forall (f : fconst) (fourth : bool) (B0 : R) (sites : list site) (couplings : list coupling) (mi mf more : list R) (flags : list bool),
  well_formed sites couplings -> shaped sites (mi, mf) -> (length flags < flags_needed fourth sites mi mf)%nat ->
  event_components f fourth B0 sites couplings (mi ++ mf ++ more) flags = None.
Proof.
  intros f fourth B0 sites cps mi mf more fl W [L1 L2] N. rewrite components_of_loop; auto; [|intros; eapply site_loop_wf; eauto using zero_wf].
  rewrite (flags_short f fourth B0 sites mi mf) by (auto using zero_wf). reflexivity.
Qed.
Print Assumptions C33_past_end_refuted.
Example C33_past_end_example : (length (freq_contrib_flags freq_list_all) < flags_needed true (repeat (proton 1) 4) (repeat down 4) (repeat up 4))%nat.
Proof.
  cbn [repeat flags_needed hd tl]. pose proof up_down. destruct (Req_EM_T down up); [contradiction|]. rewrite proton_exists. cbn. lia.
Qed.
(** A non-trivial case of the two positive theorems: a spin-3/2 site and a proton; one of them flips, or both with the flags of two events. *)
Definition sodium : site :=
  {| s_spin := 3 / 2; s_gamma := 11; s_iso := 5; s_zeta := 1; s_eta := 1 / 2; s_theta := (1, 1, 0); s_Cq := 1000000; s_qeta := 1 / 10; s_qtheta := (0, 1, 2) |}.
Example C33_examples :
  shaped [sodium; proton 1] ([3 / 2; up], [1 / 2; up]) /\ one_site_flips [3 / 2; up] [1 / 2; up] /\
  (flags_needed true [sodium; proton 1] [(3 / 2)%R; up] [(1 / 2)%R; down] <= length (freq_contrib_flags freq_list_all ++ freq_contrib_flags freq_list_all))%nat /\
  r0 (sites_total decimal_f true 1 [Shielding1_0; Quad1_2] [sodium; proton 1] [3 / 2; up] [1 / 2; up]) = 55.
Proof.
  split; [split; auto|]. split; [|split].
  - intros i j Hi Hj A B. cbn in Hi, Hj. destruct i as [|[|i]], j as [|[|j]]; try lia; cbn in A, B; exfalso; auto.
  - cbn [flags_needed hd tl]. destruct (Req_EM_T (3 / 2) (1 / 2)); [lra|]. pose proof up_down. destruct (Req_EM_T up down); [unfold up, down in *; lra|].
    rewrite proton_exists. unfold existing. cbn. destruct (Req_EM_T (3 / 2) (1 / 2)); [lra|]. cbn. lia.
  - unfold sites_total, site_total. cbn. destruct (Req_EM_T (3 / 2) (1 / 2)); [lra|]. destruct (Req_EM_T (1 / 2) (1 / 2)); [|contradiction]. cbn. unfold tf_p, up. lra.
Qed.

(** ** C34 *)
Definition flatten (trs : list (list R * list R)) : list R := flat_map (fun t => fst t ++ snd t) trs.
Definition trans (trs : list (list R * list R)) (k : nat) : list R * list R := nth k trs ([], []).
(** The core's answer is the frequencies of the closed form. *)
Definition weighted_sums (sc : scheme) (alpha : nat -> R) (dims : list dimension) (cs : nat -> comps) (out : list freqs) : Prop :=
  length out = length dims /\
  forall d, (d < length dims)%nat -> let fq := nth d out {| fq_R0 := 0; fq_local := fun _ => 0 |} in let c e := cs (first_event dims d + e)%nat in
    fq_R0 fq = dim_offset (nth_dim dims d) c /\
    forall o, (o < sc_npts sc * sc_octants sc)%nat ->
      fq_local fq o = dim_local (sc_fourth sc) (nth_dim dims d) c (orientation (sc_npts sc) alpha o) (sc_beta sc (o mod sc_npts sc)%nat).
(** What a method gives the core: the octants are 1 or 4, every dimension has events that differ from its first one in at most one of
    rotor frequency and angle; one transition and list of contributions per event. *)
Definition method_ok (sc : scheme) (dims : list dimension) (listed : list (list contrib)) : Prop :=
  (sc_octants sc = 1 \/ sc_octants sc = 4)%nat /\ (forall d, In d dims -> compatible d /\ dm_events d <> []) /\
  length listed = first_event dims (length dims).
Definition pathway_ok (sites : list site) (dims : list dimension) (trs : list (list R * list R)) : Prop :=
  length trs = first_event dims (length dims) /\ forall t, In t trs -> shaped sites t.

(** For every method and pathway, if [cs k] are the components of event k, the core gives the weighted sums of the frequencies of
    the events, whatever the frequencies [fqs] left from before, and the same phase table. *)
Theorem C34_sum_partial : forall (f : fconst) (sc : scheme) (nsb : nat) (sites : list site) (couplings : list coupling) (dims : list dimension)
    (listed : list (list contrib)) (trs : list (list R * list R)) (alpha : nat -> R) (junk t : exp_table) (fqs : list freqs) (cs : nat -> comps),
  method_ok sc dims listed -> well_formed sites couplings -> pathway_ok sites dims trs -> length fqs = length dims ->
  (forall row o, t row o = get_exp_Im_alpha (sc_fourth sc) (fun o => cis (alpha o)) junk row o) ->
  (forall d e, (d < length dims)%nat -> (e < length (dm_events (nth_dim dims d)))%nat -> let k := (first_event dims d + e)%nat in
     event_components f (sc_fourth sc) (ev_B0 (nth_event (nth_dim dims d) e)) sites couplings (fst (trans trs k) ++ snd (trans trs k))
       (flat_map freq_contrib_flags (skipn k listed)) = Some (cs k)) ->
  exists t' out, core f sc nsb sites couplings dims (flat_map freq_contrib_flags listed) (flatten trs) t fqs = Some (t', out) /\
    (forall row o, t' row o = t row o) /\ weighted_sums sc alpha dims cs out.
Proof.
  intros f sc nsb sites cps dims listed trs alpha junk t fqs cs [HO [HD HL]] W [LT ST] LF T Hc.
  destruct (dim_loop_spec f sc nsb sites cps alpha junk HO dims cs HD {| cs_path := flatten trs; cs_flags := flat_map freq_contrib_flags listed; cs_table := t |} fqs T LF) as [st' [out [E [T' [L G]]]]].
  - intros d e Hd He k. pose proof (first_lt dims d e Hd He) as K. fold k in K. specialize (Hc d e Hd He). cbv zeta in Hc. fold k in Hc.
    unfold components_at. cbn [cs_path cs_flags]. rewrite <- Hc. unfold flatten.
    rewrite (flat_skip (fun t => fst t ++ snd t) (2 * length sites) ([], [])) by (try lia; intros x Hx; destruct (ST x Hx); rewrite app_length; lia).
    assert (IN : In (trans trs k) trs) by (apply nth_In; lia). destruct (ST _ IN) as [S1 S2]. unfold trans in *. rewrite <- app_assoc.
    rewrite (flat_skip freq_contrib_flags 6 []) by (auto; lia).
    rewrite (app_prefix f (sc_fourth sc) _ sites cps _ _ _ [] _ S1 S2 W), app_nil_r. f_equal.
    assert (SK : skipn k listed = nth k listed [] :: skipn (S k) listed).
    { clear -K HL. rewrite <- HL in K. clear HL. revert listed K. induction k as [|k IH]; intros [|x l] K; cbn in K; try lia; [reflexivity|]. cbn [skipn nth]. rewrite (IH l) by lia. reflexivity. }
    rewrite SK. reflexivity.
  - exists (cs_table st'), out. unfold core. rewrite E. split; [reflexivity|]. split; [intros; rewrite T, T'; auto|]. split; auto.
Qed.
Print Assumptions C34_sum_partial.

(** The same with the components written out, for pathways that change at most one site per event. *)
Definition event_total (f : fconst) (fourth : bool) (sites : list site) (couplings : list coupling) (e : event) (listed : list contrib) (tr : list R * list R) : comps :=
  cadd (sites_total f fourth (ev_B0 e) listed sites (fst tr) (snd tr)) (couplings_total f couplings (fst tr) (snd tr)).
(** Event number k of the method. *)
Definition all_events (dims : list dimension) : list event := flat_map dm_events dims.
Definition event_no (dims : list dimension) (k : nat) : event := nth k (all_events dims) {| ev_fraction := 0; ev_B0 := 0; ev_vr := 0; ev_angle := 0 |}.
Lemma event_no_spec dims d e : (d < length dims)%nat -> (e < length (dm_events (nth_dim dims d)))%nat -> event_no dims (first_event dims d + e) = nth_event (nth_dim dims d) e.
Proof.
  unfold event_no, all_events. induction dims as [|x dims IH] in d |- *; cbn [length]; [lia|]. intros Hd He. cbn [flat_map]. destruct d as [|d].
  - change (nth_dim (x :: dims) 0) with x in *. change (first_event (x :: dims) 0) with 0%nat. rewrite app_nth1 by (cbn; lia). reflexivity.
  - change (nth_dim (x :: dims) (S d)) with (nth_dim dims d) in *. change (first_event (x :: dims) (S d)) with (length (dm_events x) + first_event dims d)%nat.
    rewrite app_nth2 by lia. replace (length (dm_events x) + first_event dims d + e - length (dm_events x))%nat with (first_event dims d + e)%nat by lia. apply IH; auto; lia.
Qed.
Definition closed_form (f : fconst) (sc : scheme) (sites : list site) (couplings : list coupling) (dims : list dimension) (listed : list (list contrib))
    (trs : list (list R * list R)) (k : nat) : comps :=
  event_total f (sc_fourth sc) sites couplings (event_no dims k) (nth k listed []) (trans trs k).
Theorem C34_closed_form_partial : forall (f : fconst) (sc : scheme) (nsb : nat) (sites : list site) (couplings : list coupling) (dims : list dimension)
    (listed : list (list contrib)) (trs : list (list R * list R)) (alpha : nat -> R) (junk t : exp_table) (fqs : list freqs),
  method_ok sc dims listed -> well_formed sites couplings -> pathway_ok sites dims trs -> length fqs = length dims ->
  (forall row o, t row o = get_exp_Im_alpha (sc_fourth sc) (fun o => cis (alpha o)) junk row o) ->
  (forall tr, In tr trs -> one_site_flips (fst tr) (snd tr)) ->
  exists t' out, core f sc nsb sites couplings dims (flat_map freq_contrib_flags listed) (flatten trs) t fqs = Some (t', out) /\
    (forall row o, t' row o = t row o) /\ weighted_sums sc alpha dims (closed_form f sc sites couplings dims listed trs) out.
Proof.
  intros f sc nsb sites cps dims listed trs alpha junk t fqs M W P LF T O. apply (C34_sum_partial f sc nsb sites cps dims listed trs alpha junk t fqs); auto.
  destruct M as [HO [HD HL]]. destruct P as [LT ST]. intros d e Hd He k. pose proof (first_lt dims d e Hd He) as K. fold k in K.
  assert (IN : In (trans trs k) trs) by (apply nth_In; lia). destruct (ST _ IN) as [S1 S2].
  assert (SK : skipn k listed = nth k listed [] :: skipn (S k) listed).
  { clear -K HL. rewrite <- HL in K. clear HL. revert listed K. induction k as [|k IH]; intros [|x l] K; cbn in K; try lia; [reflexivity|]. cbn [skipn nth]. rewrite (IH l) by lia. reflexivity. }
  rewrite SK. cbn [flat_map]. unfold closed_form, event_total, k. rewrite event_no_spec by auto. fold k.
  rewrite <- (app_nil_r (snd (trans trs k))) at 1. apply components_one; auto.
Qed.
Print Assumptions C34_closed_form_partial.

(** History: simulating any sequence of pathways one after the other on the same tables and buffers gives every one its own weighted sums. *)
Theorem C34_history_partial : forall (f : fconst) (sc : scheme) (nsb : nat) (sites : list site) (couplings : list coupling) (dims : list dimension)
    (listed : list (list contrib)) (paths : list (list (list R * list R))) (alpha : nat -> R) (junk t : exp_table) (fqs : list freqs),
  method_ok sc dims listed -> well_formed sites couplings -> length fqs = length dims ->
  (forall row o, t row o = get_exp_Im_alpha (sc_fourth sc) (fun o => cis (alpha o)) junk row o) ->
  (forall trs, In trs paths -> pathway_ok sites dims trs /\ forall tr, In tr trs -> one_site_flips (fst tr) (snd tr)) ->
  exists outs, pathways_loop f sc nsb sites couplings dims (flat_map freq_contrib_flags listed) (map flatten paths) t fqs = Some outs /\
    length outs = length paths /\
    forall i, (i < length paths)%nat -> weighted_sums sc alpha dims (closed_form f sc sites couplings dims listed (nth i paths [])) (nth i outs []).
Proof.
  intros f sc nsb sites cps dims listed paths alpha junk t fqs M W LF T H. induction paths as [|p paths IH] in t, fqs, LF, T, H |- *.
  - exists []. split; [reflexivity|]. split; [auto|]. cbn. intros; lia.
  - destruct (H p ltac:(left; auto)) as [P O]. cbn [map pathways_loop].
    destruct (C34_closed_form_partial f sc nsb sites cps dims listed p alpha junk t fqs M W P LF T O) as [t' [out [E [T' G]]]]. rewrite E. cbn [obind].
    destruct (IH t' out (proj1 G)) as [outs [E' [L' G']]].
    { intros. rewrite T'. auto. } { intros. apply H. right; auto. }
    rewrite E'. cbn [obind]. exists (out :: outs). split; [reflexivity|]. split; [cbn; lia|].
    intros [|i] Hi; cbn [nth]; [exact G|]. apply G'. cbn in Hi. lia.
Qed.
Print Assumptions C34_history_partial.
(** A method of two dimensions, the first with two events, on a hemisphere. *)
Definition ev (fr vr : R) : event := {| ev_fraction := fr; ev_B0 := 9; ev_vr := vr; ev_angle := 1 |}.
Definition dims_ex : list dimension := [{| dm_increment := 10; dm_events := [ev (1 / 3) 1000; ev (2 / 3) 2000] |}; {| dm_increment := 5; dm_events := [ev 1 1000] |}].
Definition sc_ex : scheme := {| sc_npts := 66; sc_octants := 4; sc_fourth := true; sc_weights := fun _ => 1; sc_beta := fun _ => RtoC 1 |}.
Example C34_example : method_ok sc_ex dims_ex (repeat freq_list_all 3) /\ well_formed [sodium; proton 1] [] /\
  pathway_ok [sodium; proton 1] dims_ex [([3 / 2; up], [1 / 2; up]); ([3 / 2; up], [3 / 2; down]); ([3 / 2; up], [1 / 2; up])] /\
  (forall tr, In tr [([3 / 2; up], [1 / 2; up]); ([3 / 2; up], [3 / 2; down])] -> one_site_flips (fst tr) (snd tr)).
Proof.
  split; [|split; [|split]].
  - split; [right; auto|]. split; [|reflexivity]. intros d [<-|[<-|[]]]; (split; [|discriminate]); intros e He; right; cbn in He; destruct e as [|[|e]]; auto; lia.
  - intros cp [].
  - split; [reflexivity|]. intros t [<-|[<-|[<-|[]]]]; split; auto.
  - intros tr [<-|[<-|[]]]; intros i j Hi Hj A B; cbn in Hi, Hj; destruct i as [|[|i]], j as [|[|j]]; try lia; cbn in A, B; exfalso; auto.
Qed.

(** ** C35 *)
(** Reversing the transition of an event negates its components, for every spin system and transition and any flags; an event whose
    transition does not change the state has no frequency. *)
Theorem C35_reversed : forall (f : fconst) (fourth : bool) (B0 : R) (sites : list site) (couplings : list coupling) (mi mf more : list R) (flags : list bool),
  well_formed sites couplings -> shaped sites (mi, mf) ->
  event_components f fourth B0 sites couplings (mf ++ mi ++ more) flags =
    option_map cneg (event_components f fourth B0 sites couplings (mi ++ mf ++ more) flags) /\
  event_components f fourth B0 sites couplings (mi ++ mi ++ more) flags = Some zero_comps.
Proof. intros f fourth B0 sites cps mi mf more fl W [L1 L2]. split; [apply components_swap; auto|apply components_same; auto]. Qed.
Print Assumptions C35_reversed.
(** Negated components give negated frequencies, in every direction. *)
Theorem C35_negated : forall (fourth : bool) (c : comps) (alpha : R) (e_beta : C) (rotor_angle : R),
  isotropic (cneg c) = - isotropic c /\ anisotropic fourth (cneg c) alpha e_beta rotor_angle = - anisotropic fourth c alpha e_beta rotor_angle.
Proof. intros. split; [reflexivity|apply anisotropic_neg]. Qed.
Print Assumptions C35_negated.
(** Whole pathways: with every transition reversed, all frequencies of all dimensions and orientations are negated. *)
Definition reversed (trs : list (list R * list R)) : list (list R * list R) := map (fun t => (snd t, fst t)) trs.
Theorem C35_pathway : forall (f : fconst) (sc : scheme) (nsb : nat) (sites : list site) (couplings : list coupling) (dims : list dimension)
    (listed : list (list contrib)) (trs : list (list R * list R)) (alpha : nat -> R) (junk t : exp_table) (fqs : list freqs) (cs : nat -> comps),
  method_ok sc dims listed -> well_formed sites couplings -> pathway_ok sites dims trs -> length fqs = length dims ->
  (forall row o, t row o = get_exp_Im_alpha (sc_fourth sc) (fun o => cis (alpha o)) junk row o) ->
  (forall d e, (d < length dims)%nat -> (e < length (dm_events (nth_dim dims d)))%nat -> let k := (first_event dims d + e)%nat in
     event_components f (sc_fourth sc) (ev_B0 (nth_event (nth_dim dims d) e)) sites couplings (fst (trans trs k) ++ snd (trans trs k))
       (flat_map freq_contrib_flags (skipn k listed)) = Some (cs k)) ->
  exists t1 out1 t2 out2,
    core f sc nsb sites couplings dims (flat_map freq_contrib_flags listed) (flatten trs) t fqs = Some (t1, out1) /\
    core f sc nsb sites couplings dims (flat_map freq_contrib_flags listed) (flatten (reversed trs)) t fqs = Some (t2, out2) /\
    forall d, (d < length dims)%nat -> let dflt := {| fq_R0 := 0; fq_local := fun _ => 0 |} in
      fq_R0 (nth d out2 dflt) = - fq_R0 (nth d out1 dflt) /\
      forall o, (o < sc_npts sc * sc_octants sc)%nat -> fq_local (nth d out2 dflt) o = - fq_local (nth d out1 dflt) o.
Proof.
  intros f sc nsb sites cps dims listed trs alpha junk t fqs cs M W P LF T Hc.
  destruct (C34_sum_partial f sc nsb sites cps dims listed trs alpha junk t fqs cs M W P LF T Hc) as [t1 [out1 [E1 [_ [L1 G1]]]]].
  assert (P' : pathway_ok sites dims (reversed trs)).
  { destruct P as [A B]. split; [unfold reversed; rewrite map_length; auto|]. intros x Hx. apply in_map_iff in Hx. destruct Hx as [y [<- Hy]]. destruct (B y Hy). split; auto. }
  destruct (C34_sum_partial f sc nsb sites cps dims listed (reversed trs) alpha junk t fqs (fun k => cneg (cs k)) M W P' LF T) as [t2 [out2 [E2 [_ [L2 G2]]]]].
  { intros d e Hd He k. specialize (Hc d e Hd He). cbv zeta in Hc. fold k in Hc. destruct P as [LT ST]. pose proof (first_lt dims d e Hd He) as K. fold k in K.
    assert (IN : In (trans trs k) trs) by (apply nth_In; lia). destruct (ST _ IN) as [S1 S2].
    assert (RV : trans (reversed trs) k = (snd (trans trs k), fst (trans trs k))) by (unfold trans, reversed; rewrite (map_nth (fun t => (snd t, fst t)) trs ([], [])); auto).
    rewrite RV. cbn [fst snd]. pose proof (components_swap f (sc_fourth sc) (ev_B0 (nth_event (nth_dim dims d) e)) sites cps (fst (trans trs k)) (snd (trans trs k)) []
      (flat_map freq_contrib_flags (skipn k listed)) S1 S2 W) as SW. rewrite !app_nil_r in SW. rewrite SW, Hc. reflexivity. }
  exists t1, out1, t2, out2. split; [auto|]. split; [auto|]. intros d Hd dflt. destruct (G1 d Hd) as [A B], (G2 d Hd) as [A' B']. cbv zeta in A, B, A', B'. fold dflt in A, B, A', B'. split.
  - rewrite A, A'. apply dim_offset_neg.
  - intros o Ho. rewrite B, B' by auto. apply dim_local_neg.
Qed.
Print Assumptions C35_pathway.
Lemma total_filter g p l : (forall c, wf (g c)) -> total (map g (filter p l)) = total (map (fun c : contrib => if p c then g c else zero_comps) l).
Proof.
  intros W. assert (TC : forall a l, total (a :: l) = cadd a (total l)) by reflexivity. induction l as [|x l IH]; [reflexivity|].
  cbn [filter map]. rewrite TC, <- IH. destruct (p x); cbn [map]; [apply TC|]. symmetry. apply cadd_zero_l. apply total_wf.
  intros y Hy. apply in_map_iff in Hy. destruct Hy as [c [<- _]]. apply W.
Qed.
(** Symmetric transitions, |m> -> |-m>, of a single site have no first-order quadrupolar contribution: listing it or not is the same. *)
Theorem C35_symmetric : forall (f : fconst) (fourth : bool) (B0 : R) (s : site) (m : R) (listed : list contrib) (later : list bool),
  contribution f B0 s m (- m) Quad1_2 = zero_comps /\
  event_components f fourth B0 [s] [] ([m] ++ [- m]) (freq_contrib_flags (Quad1_2 :: listed) ++ later) =
  event_components f fourth B0 [s] [] ([m] ++ [- m]) (freq_contrib_flags (filter (fun c => negb (contrib_eqb c Quad1_2)) listed) ++ later).
Proof.
  intros f fourth B0 s m listed later.
  assert (Z : contribution f B0 s m (- m) Quad1_2 = zero_comps).
  { cbn [contribution]. replace (tf_d f m (- m)) with 0 by (unfold tf_d; ring). rewrite vscale_0, turn_length. reflexivity. }
  split; [exact Z|]. rewrite <- (app_nil_r [- m]). assert (O : one_site_flips [m] [- m]) by (intros i j Hi Hj _ _; cbn in Hi, Hj; lia).
  rewrite !components_one; auto; try (intros cp []). do 2 f_equal. unfold sites_total. cbn [length seq map nth]. do 2 f_equal. unfold site_total.
  assert (EX : forall c l, existsb (contrib_eqb c) l = true <-> In c l).
  { intros c l. rewrite existsb_exists. split; [intros [x [Hx E]]; destruct c, x; cbn in E; try discriminate; auto|intros; exists c; split; auto; destruct c; auto]. }
  assert (SAME : forall c, c <> Quad1_2 -> existsb (contrib_eqb c) (Quad1_2 :: listed) = existsb (contrib_eqb c) (filter (fun c => negb (contrib_eqb c Quad1_2)) listed)).
  { intros c N. apply eq_true_iff_eq. rewrite !EX. cbn [In]. rewrite filter_In. split; [intros [<-|H]; [contradiction|split; auto; destruct c; auto; contradiction]|intros [H _]; auto]. }
  rewrite !total_filter by (intros; apply contribution_wf). f_equal. apply map_ext. intros c.
  assert (Q : c = Quad1_2 \/ c <> Quad1_2) by (destruct c; auto; right; discriminate). destruct Q as [->|N].
  - rewrite Z. repeat destruct (_ && _); auto.
  - rewrite SAME by auto. auto.
Qed.
Print Assumptions C35_symmetric.
Example C35_example : contribution ideal_f 9 sodium (- (1 / 2)) (1 / 2) Quad1_2 = zero_comps /\ r0 (contribution ideal_f 1 sodium (- (1 / 2)) (1 / 2) Shielding1_0) = -55.
Proof.
  split; [|cbn; unfold tf_p; lra]. replace (1 / 2) with (- - (1 / 2)) at 2 by lra. apply C35_symmetric; [exact true|exact []|exact []].
Qed.

(** ** C56 *)
(** Every event that has the rotor frequency or the angle of the first event of its dimension gets the plan made for its own frequency
    and angle. *)
Theorem C56_own_plan_partial : forall (sc : scheme) (nsb : nat) (d : dimension), compatible d ->
  dimension_plans sc nsb d = map (fun e => Some (create_plan sc nsb (ev_vr e) (ev_angle e))) (dm_events d).
Proof.
  intros sc nsb d K. unfold dimension_plans. destruct (dm_events d) as [|e0 l] eqn:E; [reflexivity|]. apply map_ext_in. intros e He.
  apply set_event_create. apply (In_nth _ _ {| ev_fraction := 0; ev_B0 := 0; ev_vr := 0; ev_angle := 0 |}) in He. destruct He as [i [Hi <-]].
  specialize (K i). unfold nth_event in K. rewrite E in K. exact (K Hi).
Qed.
Print Assumptions C56_own_plan_partial.
(** An event that differs from the first one in both gets none: its plan pointer is left uninitialised, and the simulation of any
    pathway of any spin system uses it. *)
Theorem C56_no_plan_refuted :
  (forall (sc : scheme) (nsb : nat) (d : dimension) (e : nat), (e < length (dm_events d))%nat ->
     ev_vr (nth_event d e) <> ev_vr (nth_event d 0) -> ev_angle (nth_event d e) <> ev_angle (nth_event d 0) -> nth e (dimension_plans sc nsb d) None = None) /\
  (forall (f : fconst) (sc : scheme) (nsb : nat) (sites : list site) (couplings : list coupling) (d : dimension) (flags : list bool) (path : list R) (t : exp_table) (fq : freqs),
     (exists e, (e < length (dm_events d))%nat /\ ev_vr (nth_event d e) <> ev_vr (nth_event d 0) /\ ev_angle (nth_event d e) <> ev_angle (nth_event d 0)) ->
     core f sc nsb sites couplings [d] flags path t [fq] = None).
Proof.
  assert (A : forall (sc : scheme) (nsb : nat) (d : dimension) (e : nat), (e < length (dm_events d))%nat ->
     ev_vr (nth_event d e) <> ev_vr (nth_event d 0) -> ev_angle (nth_event d e) <> ev_angle (nth_event d 0) -> nth e (dimension_plans sc nsb d) None = None).
  { intros sc nsb d e He V W. unfold dimension_plans, nth_event in *. destruct (dm_events d) as [|e0 l]; [cbn in He; lia|].
    set (g := fun ev0 => set_event (ev_vr ev0) (ev_angle ev0) (create_plan sc nsb (ev_vr e0) (ev_angle e0))). set (D := {| ev_fraction := 0; ev_B0 := 0; ev_vr := 0; ev_angle := 0 |}) in *.
    rewrite nth_indep with (d' := g D) by (rewrite map_length; auto). rewrite (map_nth g). unfold g. apply set_event_none; auto. }
  split; [exact A|]. intros f sc nsb sites cps d flags path t fq [e [He [V W]]]. specialize (A sc nsb d e He V W).
  unfold core. cbn [dimension_loop]. assert (LP : length (dimension_plans sc nsb d) = length (dm_events d)).
  { unfold dimension_plans. destruct (dm_events d); [auto|]. apply map_length. }
  assert (G : forall l st refresh fq inv, (exists i, (i < length l)%nat /\ snd (nth i l ({| ev_fraction := 0; ev_B0 := 0; ev_vr := 0; ev_angle := 0 |}, None)) = None) -> event_loop f sc sites cps inv l refresh st fq = None).
  { induction l as [|[e1 p] l IH]; intros st refresh fq' inv [i [Hi Hn]]; [cbn in Hi; lia|]. cbn [event_loop]. destruct i as [|i].
    - cbn in Hn. subst p. reflexivity.
    - destruct (event_step f sc sites cps inv e1 p refresh st fq') as [[st1 fq1]|]; [|reflexivity]. cbn [obind]. apply IH. exists i. cbn in Hi, Hn. split; auto; lia. }
  rewrite G; [reflexivity|]. exists e. rewrite combine_length, LP, Nat.min_id. split; [auto|]. rewrite combine_nth by auto. exact A.
Qed.
Print Assumptions C56_no_plan_refuted.
Example C56_example : let d := {| dm_increment := 1; dm_events := [ev 1 1000; {| ev_fraction := 1; ev_B0 := 9; ev_vr := 2000; ev_angle := 1 / 2 |}] |} in
  (1 < length (dm_events d))%nat /\ ev_vr (nth_event d 1) <> ev_vr (nth_event d 0) /\ ev_angle (nth_event d 1) <> ev_angle (nth_event d 0).
Proof. cbn. split; [lia|]. split; lra. Qed.

(** ** C66 *)
(** The eighteen decimal constants of the frequency functions are within 4e-10 (relative) of the exact ones. *)
Theorem C66_constants : forall g : fconst -> R,
  In g [f_d; f_f; c0p; c0f; c2p; c2f; c4p; c4f; s6; i6; i3; q00; q22; q20; q44; q42; q40; i18] ->
  Rabs (g decimal_f - g ideal_f) <= 4e-10 * Rabs (g ideal_f).
Proof.
  intros g H. destruct constants_close as [A1 [A2 [A3 [A4 [A5 [A6 [A7 [A8 [A9 [A10 [A11 [A12 [A13 [A14 [A15 [A16 [A17 A18]]]]]]]]]]]]]]]]].
  cbn [In] in H. repeat (destruct H as [<-|H]; [assumption|]). destruct H.
Qed.
Print Assumptions C66_constants.
Example C66_example : In c4f [f_d; f_f; c0p; c0f; c2p; c2f; c4p; c4f; s6; i6; i3; q00; q22; q20; q44; q42; q40; i18].
Proof. cbn. auto 12. Qed.

(** ** C67 *)
(** At the default rotor angle, 0.955316618, second-rank components give less than 1e-9 of themselves as frequency, for every spin system
    and orientation (no fourth rank). *)
Theorem C67_default_magic_angle : forall (c : comps) (alpha : R) (e_beta : C),
  Rabs (anisotropic false c alpha e_beta (955316618 / 1000000000)) <= 1e-9 * Rabs (fst (nth 2 (rotation decimal 2 alpha e_beta 0 (r2 c)) (RtoC 0))).
Proof.
  intros c alpha e_beta. unfold anisotropic. rewrite Rplus_0_r, Rabs_mult. apply Rmult_le_compat_r; [apply Rabs_pos|apply magic].
Qed.
Print Assumptions C67_default_magic_angle.
(** At an angle of cosine 1/sqrt 3 they give none; without rotation (angle 0, as zero rotor frequency is passed on) all of it. *)
Theorem C67_exact_angles : forall (c : comps) (alpha theta : R) (e_beta : C),
  (3 * cos theta ^ 2 = 1 -> anisotropic false c alpha e_beta theta = 0) /\
  anisotropic true c alpha e_beta 0 = fst (nth 2 (rotation decimal 2 alpha e_beta 0 (r2 c)) (RtoC 0)) + fst (nth 4 (rotation decimal 4 alpha e_beta 0 (r4 c)) (RtoC 0)).
Proof.
  intros c alpha theta e_beta. unfold anisotropic, P2, P4. split.
  - intros E. rewrite E. unfold Rdiv. ring.
  - rewrite cos_0. field.
Qed.
Print Assumptions C67_exact_angles.
Example C67_example : exists theta, 3 * cos theta ^ 2 = 1.
Proof.
  exists (acos (/ sqrt 3)). assert (S : 1 < sqrt 3) by (rewrite <- sqrt_1; apply sqrt_lt_1_alt; lra). assert (Q : sqrt 3 * sqrt 3 = 3) by (apply sqrt_sqrt; lra).
  assert (I : 0 < / sqrt 3 < 1). { split; [apply Rinv_0_lt_compat; lra|]. rewrite <- Rinv_1. apply Rinv_lt_contravar; lra. }
  rewrite cos_acos by lra. cbn [pow]. rewrite <- Q at 1. field. lra.
Qed.

(** ** C68 *)
(** The phase used for the sidebands of an orientation at step s of nsb is 2 pi times the integral of the modulated part of the frequency
    from 0 to s/nsb of the rotor period, for all real tensors, angles, rotor frequencies and steps. *)
Theorem C68_phase_is_integral : forall (nsb : nat) (vr angle : R) (w2 w4 : list C) (fourth : bool) (step : nat),
  0 < vr -> (0 < nsb)%nat -> real_tensor 2 w2 -> real_tensor 4 w4 ->
  let d l i := nth i (wigner_dm0 decimal l angle) 0 in
  is_RInt (fun t => 2 * PI * (modulation 2 (d 2%nat) w2 vr t + if fourth then modulation 4 (d 4%nat) w4 vr t else 0)) 0 (INR step / (INR nsb * vr))
    (sideband_phase nsb vr (d 2%nat) (d 4%nat) (fun i => nth i w2 (RtoC 0)) (fun i => nth i w4 (RtoC 0)) fourth step).
Proof. exact (phase_integral decimal). Qed.
Print Assumptions C68_phase_is_integral.
(** And this phase is what the plan of an event computes; its intensities are those of the exponential of the phase. *)
Theorem C68_plan_phase : forall (sc : scheme) (nsb : nat) (vr angle : R) (w2 w4 : nat -> C) (sideband : nat),
  event_amplitude (create_plan sc nsb vr angle) w2 w4 sideband =
  sideband_intensity nsb (fun step => exp_imag_only (sideband_phase nsb vr (fun i => nth i (wigner_dm0 decimal 2 angle) 0) (fun i => nth i (wigner_dm0 decimal 4 angle) 0)
    w2 w4 (sc_fourth sc) step)) sideband.
Proof.
  intros sc nsb vr angle w2 w4 sb. unfold event_amplitude, sideband_intensity, fft1. f_equal. apply csum_ext. intros j _. f_equal. f_equal. unfold sideband_phase. f_equal.
  change (pl_fourth (create_plan sc nsb vr angle)) with (sc_fourth sc). cbn [create_plan update_frequency update_angle pl_pre2 pl_pre4 pl_fourth pl_angle pl_pre].
  destruct (sc_fourth sc); reflexivity.
Qed.
Print Assumptions C68_plan_phase.
Example C68_example : real_tensor 2 (pas2 1 2) /\ real_tensor 4 (pas4 1 2 3).
Proof. split; [apply pas2_real|apply pas4_real]. Qed.

(** ** C69 *)
(** The total intensity of an orientation of weight w, over all the sidebands, does not depend on the number of sidebands asked for.
    It holds (to 2.5e-9) for a dimension of one event, for all spin systems, rotor frequencies and angles. *)
Lemma amplitude_total sc nsb vr angle w2 w4 : (0 < nsb)%nat ->
  (1 - 2.5e-9) * (INR nsb * INR nsb) <= rsum nsb (event_amplitude (create_plan sc nsb vr angle) w2 w4) <= INR nsb * INR nsb.
Proof.
  intros N. assert (P : 0 < INR nsb) by (apply INR_pos; auto). rewrite (rsum_ext nsb _ _ (fun k _ => C68_plan_phase sc nsb vr angle w2 w4 k)).
  rewrite parseval by auto. match goal with |- context [sideband_intensity nsb ?y] => set (x := y) | |- context [rsum nsb (fun j => abs2 (@?y j))] => set (x := y) end.
  change (rsum nsb (fun j => abs2 _)) with (rsum nsb (fun j => abs2 (x j))).
  assert (U : forall j, 1 - delta * delta / 4 <= abs2 (x j) <= 1) by (intros j; apply exp_imag_modulus).
  pose proof (rsum_le nsb (fun _ => 1 - delta * delta / 4) (fun j => abs2 (x j)) (fun j _ => proj1 (U j))) as L.
  pose proof (rsum_le nsb (fun j => abs2 (x j)) (fun _ => 1) (fun j _ => proj2 (U j))) as R.
  rewrite rsum_const in L, R. set (s := rsum nsb (fun j => abs2 (x j))) in *. clearbody s. unfold delta in *.
  assert (INR nsb * (1 - 2.5e-9) <= s <= INR nsb) by lra. split; [replace ((1 - 2.5e-9) * (INR nsb * INR nsb)) with (INR nsb * (INR nsb * (1 - 2.5e-9))) by ring|];
  apply Rmult_le_compat_l; lra.
Qed.
Theorem C69_single_event_partial : forall (sc : scheme) (nsb : nat) (vr angle : R) (w2 w4 : nat -> C) (o : nat),
  (0 < nsb)%nat -> (0 < sc_octants sc)%nat -> 0 <= sc_weights sc o ->
  let p := create_plan sc nsb vr angle in let w := sc_weights sc o / INR (sc_octants sc) in
  (1 - 2.5e-9) * w <= rsum nsb (dimension_amplitude p [event_amplitude p w2 w4] o) <= w.
Proof.
  intros sc nsb vr angle w2 w4 o N O W p w. unfold dimension_amplitude. cbn [tl hd fold_left].
  rewrite (rsum_ext nsb _ (fun k => pl_norm p o * event_amplitude p w2 w4 k)) by (intros; ring). rewrite rsum_scal.
  pose proof (amplitude_total sc nsb vr angle w2 w4 N) as A. fold p in A. set (t := rsum nsb _) in *. clearbody t.
  assert (P : 0 < INR nsb) by (apply INR_pos; auto). assert (Q : 0 < INR (sc_octants sc)) by (apply INR_pos; auto).
  assert (E : pl_norm p o = w / (INR nsb * INR nsb)).
  { change (pl_norm p o) with (norm_amplitude nsb (sc_octants sc) (sc_weights sc o)). unfold norm_amplitude, w. rewrite !mult_INR. field. lra. }
  rewrite E. assert (0 <= w) by (apply Rmult_le_pos; [auto|apply Rlt_le, Rinv_0_lt_compat; auto]).
  assert (PP : 0 < INR nsb * INR nsb) by (apply Rmult_lt_0_compat; auto).
  replace (w / (INR nsb * INR nsb) * t) with (w * (t / (INR nsb * INR nsb))) by (field; lra). rewrite (Rmult_comm _ w).
  assert (1 - 2.5e-9 <= t / (INR nsb * INR nsb) <= 1).
  { split; apply Rmult_le_reg_r with (INR nsb * INR nsb); auto; unfold Rdiv; rewrite (Rmult_assoc t), Rinv_l by lra; lra. }
  split; [|rewrite <- (Rmult_1_r w) at 2]; apply Rmult_le_compat_l; lra.
Qed.
Print Assumptions C69_single_event_partial.
(** It fails for a dimension of several events: without anisotropy, n + 1 events give nsb^(2 n) times the intensity, all of it in the centre
    band, *)
Lemma exp_imag_zero : exp_imag_only 0 = (1, 0).
Proof.
  assert (I0 : Int_part 0 = 0%Z) by (unfold Int_part; rewrite <- (tech_up 0 1) by (cbn; lra); reflexivity).
  unfold exp_imag_only, table_exp. assert (M : modd (Rabs 0) (2 * PI) = 0).
  { unfold modd. rewrite Rabs_R0. replace (0 / (2 * PI)) with 0 by (unfold Rdiv; ring). rewrite I0. ring. }
  rewrite M. unfold table_index. replace (0 / delta) with 0 by (unfold Rdiv; ring). rewrite I0. unfold lerp, cos_table, sin_table. 
  replace (Z.eqb 0 (table_size - 1)) with false by reflexivity. rewrite (Rmult_0_l delta), cos_0, sin_0. unfold rsign. destruct (Rlt_dec 0 0); [lra|]. f_equal; ring.
Qed.
Lemma no_anisotropy sc nsb vr angle k : event_amplitude (create_plan sc nsb vr angle) (fun _ => RtoC 0) (fun _ => RtoC 0) k =
  sideband_intensity nsb (fun _ => (cos 0, sin 0)) k.
Proof.
  rewrite C68_plan_phase. unfold sideband_intensity, fft1. f_equal. apply csum_ext. intros j _. f_equal.
  unfold sideband_phase. replace (snd _) with 0.
  - rewrite cos_0, sin_0. apply exp_imag_zero.
  - assert (Z : forall n (g : nat -> C), csum n (fun i => (g i * RtoC 0)%C) = RtoC 0).
    { intros n g. rewrite (csum_ext n _ (fun _ => RtoC 0)) by (intros; apply C_ext; cbn; ring). apply csum_zero. }
    rewrite (Z 2%nat). destruct (sc_fourth sc); [rewrite (Z 4%nat)|]; cbn; ring.
Qed.
Theorem C69_several_events_refuted : forall (sc : scheme) (nsb n : nat) (vr angle : R) (o : nat), (1 < nsb)%nat -> (0 < sc_octants sc)%nat ->
  let p := create_plan sc nsb vr angle in
  dimension_amplitude p (repeat (event_amplitude p (fun _ => RtoC 0) (fun _ => RtoC 0)) (S n)) o 0 = INR nsb ^ (2 * n) * (sc_weights sc o / INR (sc_octants sc)).
Proof.
  intros sc nsb n vr angle o N O p. assert (P : 0 < INR nsb) by (apply INR_pos; lia). assert (Q : 0 < INR (sc_octants sc)) by (apply INR_pos; auto).
  destruct (constant_bands nsb 0 1 ltac:(lia)) as [A _].
  assert (AA : event_amplitude p (fun _ => RtoC 0) (fun _ => RtoC 0) 0 = INR nsb * INR nsb) by (unfold p; rewrite no_anisotropy; exact A).
  unfold dimension_amplitude. cbn [repeat tl hd]. rewrite AA.
  assert (F : forall m x, fold_left (fun a (amp : nat -> R) => a * amp 0%nat) (repeat (event_amplitude p (fun _ => RtoC 0) (fun _ => RtoC 0)) m) x = x * INR nsb ^ (2 * m)).
  { induction m as [|m IH]; intros x; cbn [repeat fold_left]; [cbn; ring|]. rewrite IH, AA.
    replace (2 * S m)%nat with (S (S (2 * m))) by lia. cbn [pow]. rewrite ?mult_INR. ring. }
  rewrite F. change (pl_norm p o) with (norm_amplitude nsb (sc_octants sc) (sc_weights sc o)). unfold norm_amplitude. rewrite !mult_INR. field. lra.
Qed.
Print Assumptions C69_several_events_refuted.
(** and for two-dimensional methods of one event per dimension, for all spin systems and orientations: nsb^2 times as much. *)
Theorem C69_two_dimensions_refuted : forall (sc : scheme) (nsb : nat) (vrA angleA vrB angleB : R) (a2 a4 b2 b4 : nat -> C) (o : nat),
  (0 < nsb)%nat -> (0 < sc_octants sc)%nat -> 0 <= sc_weights sc o ->
  let pA := create_plan sc nsb vrA angleA in let pB := create_plan sc nsb vrB angleB in let w := sc_weights sc o / INR (sc_octants sc) in
  (1 - 5e-9) * INR nsb ^ 2 * w <= rsum nsb (fun i => rsum nsb (fun k => amplitude_2d pA [event_amplitude pA a2 a4] [event_amplitude pB b2 b4] o i k)) <= INR nsb ^ 2 * w.
Proof.
  intros sc nsb vrA angleA vrB angleB a2 a4 b2 b4 o N O W pA pB w. unfold amplitude_2d. cbn [fold_left].
  pose proof (amplitude_total sc nsb vrA angleA a2 a4 N) as A. pose proof (amplitude_total sc nsb vrB angleB b2 b4 N) as B. fold pA in A. fold pB in B.
  assert (P : 0 < INR nsb) by (apply INR_pos; auto). assert (Q : 0 < INR (sc_octants sc)) by (apply INR_pos; auto).
  assert (E : pl_norm pA o = w / (INR nsb * INR nsb)).
  { change (pl_norm pA o) with (norm_amplitude nsb (sc_octants sc) (sc_weights sc o)). unfold norm_amplitude, w. rewrite !mult_INR. field. lra. }
  rewrite (rsum_ext nsb _ (fun i => pl_norm pA o * rsum nsb (event_amplitude pB b2 b4) * event_amplitude pA a2 a4 i)).
  2: { intros i _. rewrite (rsum_ext nsb _ (fun k => event_amplitude pA a2 a4 i * pl_norm pA o * event_amplitude pB b2 b4 k)) by (intros; ring). rewrite rsum_scal. ring. }
  rewrite rsum_scal, E. set (ta := rsum nsb (event_amplitude pA a2 a4)) in *. set (tb := rsum nsb (event_amplitude pB b2 b4)) in *. clearbody ta tb.
  assert (0 <= w) by (apply Rmult_le_pos; [auto|apply Rlt_le, Rinv_0_lt_compat; auto]). set (n2 := INR nsb * INR nsb) in *.
  assert (PP : 0 < n2) by (apply Rmult_lt_0_compat; auto). replace (INR nsb ^ 2) with n2 by (unfold n2; ring).
  assert (RA : 1 - 2.5e-9 <= ta / n2 <= 1) by (split; apply Rmult_le_reg_r with n2; auto; unfold Rdiv; rewrite (Rmult_assoc ta), Rinv_l by lra; lra).
  assert (RB : 1 - 2.5e-9 <= tb / n2 <= 1) by (split; apply Rmult_le_reg_r with n2; auto; unfold Rdiv; rewrite (Rmult_assoc tb), Rinv_l by lra; lra).
  replace (w / n2 * tb * ta) with (n2 * w * (ta / n2 * (tb / n2))) by (field; lra). clearbody n2.
  assert (0 <= n2 * w) by (apply Rmult_le_pos; lra). assert (1 - 5e-9 <= ta / n2 * (tb / n2) <= 1) by (set (x := ta / n2) in *; set (y := tb / n2) in *; clearbody x y; split; nra).
  split; [replace ((1 - 5e-9) * n2 * w) with (n2 * w * (1 - 5e-9)) by ring|rewrite <- (Rmult_1_r (n2 * w)) at 2]; apply Rmult_le_compat_l; lra.
Qed.
Print Assumptions C69_two_dimensions_refuted.
Example C69_example : (0 < 64)%nat /\ (0 < sc_octants sc_ex)%nat /\ 0 < sc_weights sc_ex 3.
Proof. split; [lia|]. split; [cbn; lia|cbn; lra]. Qed.
