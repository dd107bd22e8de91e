(** C89 and C90: the memory a simulation uses, and the plans of its events. *)
From Coq Require Import List Arith Bool Lia.
From Verif Require Import MemModel MemSpec MemProofs MemPlan MemDims MemRun MemCore MemSetup MemWhole.
Import ListNotations.

(** ** C89 *)
(** For every grid, volume, number of sidebands, method and list of spin systems with which the call is not undefined (see the refutations
    below, [follows_first] and [in_reach]): the call returns; nothing undefined happens on the way; what
    was on the heap before is still there; and what is left behind is counted. *)
Theorem C89_returns_and_leaves_behind_partial :
  forall T V (N : numerics T V) density volume fourth nsb dims systems nsb' dims' (h : heap T V),
    sane h -> volume < 2 ->
    rotor_dims N 0 nsb dims = Some (nsb', dims') -> Forall (@follows_first T) dims' -> in_reach N volume nsb' dims' -> Forall (fun n => 0 < n) systems ->
    exists h', one_d_spectrum N density volume fourth nsb dims systems h = Some (Returned, h') /\
               sane h' /\ untouched h h' /\ live h' = live h + left_behind N fourth dims'.
Proof.
  intros T V N density volume fourth nsb dims systems nsb' dims' h Sn Hv Er FF HR FP.
  destruct (one_d_ok T V N density volume fourth nsb dims systems nsb' dims' h Sn Hv Er FF HR) as (o & h' & E & Eo & St).
  assert (A : all_found systems = Returned).
  { clear - FP. induction FP as [|n r Hn _ IH]; [reflexivity|]. destruct n; [lia|exact IH]. }
  rewrite A in Eo. subst o. destruct St as (S' & _ & Lv & Fr). exists h'. split; [exact E|]. split; [exact S'|]. split; [|exact Lv].
  intros a Ha. apply Fr; [exact Ha|]. intros [].
Qed.

(** A spin system without transition pathways: the exception leaves everything behind. *)
Theorem C89_no_pathway_leaves_everything :
  forall T V (N : numerics T V) density volume fourth nsb dims systems nsb' dims' (h : heap T V),
    sane h -> volume < 2 ->
    rotor_dims N 0 nsb dims = Some (nsb', dims') -> Forall (@follows_first T) dims' -> in_reach N volume nsb' dims' -> In 0 systems ->
    exists h', one_d_spectrum N density volume fourth nsb dims systems h = Some (Raised, h') /\
               sane h' /\ untouched h h' /\ live h' = live h + everything N fourth dims'.
Proof.
  intros T V N density volume fourth nsb dims systems nsb' dims' h Sn Hv Er FF HR IP.
  destruct (one_d_ok T V N density volume fourth nsb dims systems nsb' dims' h Sn Hv Er FF HR) as (o & h' & E & Eo & St).
  assert (A : all_found systems = Raised).
  { clear - IP. induction systems as [|n r IH]; [destruct IP|]. destruct n; [reflexivity|]. destruct IP as [Z|IP]; [discriminate | exact (IH IP)]. }
  rewrite A in Eo. subst o. destruct St as (S' & _ & Lv & Fr). exists h'. split; [exact E|]. split; [exact S'|]. split; [|exact Lv].
  intros a Ha. apply Fr; [exact Ha|]. intros [].
Qed.

(** Static and spinning events together: the exception leaves the averaging scheme behind. *)
Theorem C89_rotor_mix_leaves_scheme :
  forall T V (N : numerics T V) density volume fourth nsb dims systems (h : heap T V),
    sane h -> volume < 2 -> rotor_dims N 0 nsb dims = None ->
    exists h', one_d_spectrum N density volume fourth nsb dims systems h = Some (Raised, h') /\
               sane h' /\ untouched h h' /\ live h' = live h + (1 + scheme_tables fourth).
Proof.
  intros T V N density volume fourth nsb dims systems h Sn Hv Er.
  destruct (create_scheme_ok T V N h density fourth volume Sn Hv) as (sp & h' & E & s & (S' & _ & Lv & Fr) & _).
  exists h'. split; [unfold one_d_spectrum, bind; rewrite E, Er; reflexivity|]. split; [exact S'|]. split; [|exact Lv].
  intros a Ha. apply Fr; [exact Ha|]. intros [].
Qed.

(** Memory grows with every call. *)
Theorem C89_grows_with_every_call :
  forall T V (N : numerics T V) density volume fourth nsb dims systems nsb' dims' k (h : heap T V),
    sane h -> volume < 2 ->
    rotor_dims N 0 nsb dims = Some (nsb', dims') -> Forall (@follows_first T) dims' -> in_reach N volume nsb' dims' -> Forall (fun n => 0 < n) systems ->
    exists h', times k (one_d_spectrum N density volume fourth nsb dims systems) h = Some (tt, h') /\
               untouched h h' /\ live h' = live h + k * left_behind N fourth dims' /\ 3 <= left_behind N fourth dims'.
Proof.
  intros T V N density volume fourth nsb dims systems nsb' dims' k. 
  assert (G : forall h : heap T V, sane h -> volume < 2 ->
    rotor_dims N 0 nsb dims = Some (nsb', dims') -> Forall (@follows_first T) dims' -> in_reach N volume nsb' dims' -> Forall (fun n => 0 < n) systems ->
    exists h', times k (one_d_spectrum N density volume fourth nsb dims systems) h = Some (tt, h') /\ next h <= next h' /\
               untouched h h' /\ live h' = live h + k * left_behind N fourth dims').
  { induction k as [|k IH]; intros h Sn Hv Er FF HR FP.
    - exists h. split; [reflexivity|]. split; [lia|]. split; [intros a _; reflexivity | lia].
    - destruct (one_d_ok T V N density volume fourth nsb dims systems nsb' dims' h Sn Hv Er FF HR) as (o & h1 & E & Eo & S1 & N1 & Lv & Fr).
      assert (A : all_found systems = Returned).
      { clear - FP. induction FP as [|n r Hn _ IH]; [reflexivity|]. destruct n; [lia|exact IH]. }
      rewrite A in Eo. subst o. destruct (IH h1 S1 Hv Er FF HR FP) as (h2 & E2 & N2 & U2 & Lv2).
      exists h2. split; [cbn [times]; unfold bind; rewrite E; exact E2|]. split; [lia|]. split; [|lia].
      intros a Ha. rewrite U2 by lia. apply Fr; [exact Ha|]. intros []. }
  intros h Sn Hv Er FF HR FP. destruct (G h Sn Hv Er FF HR FP) as (h' & E & _ & U & L). exists h'. split; [exact E|]. split; [exact U|]. split; [exact L|].
  unfold left_behind. lia.
Qed.

(** ** Witnesses *)
Definition with_window (visible : nat -> nat -> bool) : numerics nat nat := {|
  n_eqT := Nat.eq_dec; n_is_static := fun v => v =? 0; n_static_vr := 1000; n_zero_angle := 0; n_zero := 0; n_one := 1; n_mul := fun a b => a * b mod 5;
  n_vr_table := fun n v i => v * i + n; n_phase_table := fun n v i => v + 3 * i + n; n_dm0 := fun r a i => r + a * i;
  n_octa_alpha := fun d i => d + i; n_octa_beta := fun d i => d * i; n_octa_weight := fun d i => d + 2 * i + 1;
  n_norm_scale := fun n o => n * o; n_visible := fun _ i k => visible i k;
  n_kernel := fun which ls i => which + length ls + i |}.
(** Of two sidebands per dimension, only the first ones are in the window. *)
Definition ex := with_window (fun i k => (i =? 0) && (k =? 0)).
Definition empty_heap : heap nat nat := {| next := 1; mem := fun _ => None |}.
Lemma empty_sane : sane empty_heap.
Proof. split; [cbn; lia|]. split; [reflexivity|]. intros; reflexivity. Qed.
Definition result {A} (r : option (A * heap nat nat)) : option (A * nat) := option_map (fun x => (fst x, live (snd x))) r.

(** Two dimensions, the first with two events of different angles, fourth rank, hemisphere, two spin systems. *)
Example C89_case : let dims := [[(5, 54); (5, 0)]; [(5, 54)]] in
  rotor_dims ex 0 2 dims = Some (2, dims) /\ Forall (@follows_first nat) dims /\ in_reach ex 1 2 dims /\ left_behind ex true dims = 26 /\ everything ex true dims = 41 /\
  result (one_d_spectrum ex 0 1 true 2 dims [2; 1] empty_heap) = Some (Returned, 26) /\
  result (one_d_spectrum ex 0 1 true 2 dims [2; 0] empty_heap) = Some (Raised, 41).
Proof.
  split; [reflexivity|]. split.
  { constructor; [|constructor; [|constructor]]; cbn; intros vr angle H; left.
    - destruct H as [H|[H|[]]]; congruence.
    - destruct H as [H|[]]; congruence. }
  split; [|repeat split].
  { intros _. right. intros l i k Hv. cbn in Hv. rewrite andb_true_iff, !Nat.eqb_eq in Hv. lia. }
  all: vm_compute; reflexivity.
Qed.
Example C89_static_case : let dims := [[(0, 54)]] in
  rotor_dims ex 0 64 dims = Some (1, [[(1000, 0)]]) /\ left_behind ex false [[(1000, 0)]] = 10 /\
  result (one_d_spectrum ex 1 0 false 64 dims [1] empty_heap) = Some (Returned, 10) /\
  result (times 3 (one_d_spectrum ex 1 0 false 64 dims [1]) empty_heap) = Some (tt, 30).
Proof. repeat split; vm_compute; reflexivity. Qed.
Example C89_mix_case : rotor_dims ex 0 64 [[(5, 54); (0, 54)]] = None /\
  result (one_d_spectrum ex 1 0 false 64 [[(5, 54); (0, 54)]] [1] empty_heap) = Some (Raised, 5).
Proof. repeat split; vm_compute; reflexivity. Qed.

(** The claim that the memory is given back is false. *)
Theorem C89_released_refuted :
  ~ (forall T V (N : numerics T V) density volume fourth nsb dims systems nsb' dims' (h : heap T V),
      sane h -> volume < 2 ->
      rotor_dims N 0 nsb dims = Some (nsb', dims') -> Forall (@follows_first T) dims' -> in_reach N volume nsb' dims' -> Forall (fun n => 0 < n) systems ->
      exists h', one_d_spectrum N density volume fourth nsb dims systems h = Some (Returned, h') /\ live h' = live h).
Proof.
  intros C. destruct C89_static_case as (Er & _ & R & _).
  destruct (C nat nat ex 1 0 false 64 [[(0, 54)]] [1] 1 [[(1000, 0)]] empty_heap empty_sane ltac:(lia) Er) as (h' & E & L).
  - constructor; [|constructor]. cbn. intros vr angle H. left. destruct H as [H|[]]; congruence.
  - intros H. discriminate H.
  - constructor; [lia|constructor].
  - rewrite E in R. cbn in R. rewrite L in R. vm_compute in R. discriminate R.
Qed.

(** Two dimensions over the hemisphere: with a pair of the last sidebands in the window, the amplitudes are read past the end of their arrays. *)
Theorem C89_hemisphere_refuted :
  exists (N : numerics nat nat) density nsb dims, sane empty_heap /\ rotor_dims N 0 nsb dims = Some (nsb, dims) /\ Forall (@follows_first nat) dims /\
    (exists r, one_d_spectrum N density 0 false nsb dims [1] empty_heap = Some r) /\
    one_d_spectrum N density 1 false nsb dims [1] empty_heap = None.
Proof.
  exists (with_window (fun _ _ => true)), 0, 1, [[(5, 54)]; [(5, 54)]]. split; [apply empty_sane|]. split; [reflexivity|]. split; [|split].
  - constructor; [|constructor; [|constructor]]; cbn; intros vr angle H; left; (destruct H as [H|[]]; congruence).
  - destruct (one_d_spectrum (with_window (fun _ _ => true)) 0 0 false 1 [[(5, 54)]; [(5, 54)]] [1] empty_heap) as [r|] eqn:E; [now exists r|]. exfalso.
    apply (f_equal result) in E. vm_compute in E. discriminate E.
  - vm_compute. reflexivity.
Qed.

(** The whole sphere, which the C library offers and the configuration does not: the rotation writes past the end of its buffer. *)
Theorem C89_sphere_refuted :
  exists (N : numerics nat nat) density nsb dims, sane empty_heap /\ rotor_dims N 0 nsb dims = Some (nsb, dims) /\ Forall (@follows_first nat) dims /\
    (exists r, one_d_spectrum N density 1 false nsb dims [1] empty_heap = Some r) /\
    one_d_spectrum N density 2 false nsb dims [1] empty_heap = None.
Proof.
  exists ex, 0, 2, [[(5, 54)]]. split; [apply empty_sane|]. split; [reflexivity|]. split; [|split].
  - constructor; [|constructor]. cbn. intros vr angle H. left. destruct H as [H|[]]; congruence.
  - destruct (one_d_spectrum ex 0 1 false 2 [[(5, 54)]] [1] empty_heap) as [r|] eqn:E; [now exists r|]. exfalso.
    apply (f_equal result) in E. vm_compute in E. discriminate E.
  - vm_compute. reflexivity.
Qed.

(** Events that share neither the frequency nor the angle with the first one of their dimension: a plan is used that was never set (C56). *)
Theorem C89_unset_plan_refuted :
  exists (N : numerics nat nat) density nsb dims, rotor_dims N 0 nsb dims = Some (nsb, dims) /\
    one_d_spectrum N density 0 false nsb dims [1] empty_heap = None.
Proof. exists ex, 0, 2, [[(5, 54); (6, 0)]]. split; [reflexivity|]. vm_compute. reflexivity. Qed.

(** ** C90 *)
Lemma holds_array : forall T V (N : numerics T V) (h : heap T V) o n f, holds T V h o (tab n f) -> array h o = numbers n f.
Proof. intros T V N h o n f (a & -> & E). unfold array. rewrite E. unfold MemProofs.full, numbers, tab. now rewrite map_map. Qed.
Lemma F2_nth : forall A B (R : A -> B -> Prop) l l' i y, Forall2 R l l' -> nth_error l' i = Some y -> exists x, nth_error l i = Some x /\ R x y.
Proof.
  intros A B R l l' i y F. revert i. induction F as [|x z l l' H _ IH]; intros [|i] E; cbn in E; try discriminate.
  - injection E as <-. exists x. auto.
  - apply IH, E.
Qed.

(** Plans are shallow copies of one another that share tables.  Yet whatever the events of a dimension are, and after the pathways of any
    number of spin systems, the plan of every event holds the tables of its own frequency and angle. *)
Theorem C90_each_event_has_its_own_tables :
  forall T V (N : numerics T V) density volume fourth nsb dims systems (h : heap T V),
    sane h -> volume < 2 -> Forall (@follows_first T) dims -> in_reach N volume nsb dims ->
    exists scheme h1 dimensions h2 s fftw h3 outcome h4,
      create_averaging_scheme N density fourth volume h = Some (scheme, h1) /\
      create_dimensions N scheme dims nsb h1 = Some (dimensions, h2) /\
      mem h2 scheme = Some (Scheme T V s) /\
      create_fftw_scheme (s_total s) nsb h2 = Some (fftw, h3) /\
      simulate_systems N systems dimensions (length dims) fftw scheme nsb h3 = Some (outcome, h4) /\
      forall i k events vr angle, nth_error dims i = Some events -> nth_error events k = Some (vr, angle) ->
        exists q, plan_of h4 dimensions i k = Some q /\ plan_tables h4 q = own_tables N density volume fourth nsb vr angle.
Proof.
  intros T V N density volume fourth nsb dims systems h Sn Hv FF HR.
  destruct (set_up_ok T V N h density volume fourth nsb dims Sn Hv FF) as (r & h3 & E & u & -> & St & U).
  destruct (simulate_ok T V N density volume fourth nsb dims h h3 u FF (proj1 St) U systems HR) as (o & h4 & E4 & Eo & Ev).
  destruct (plans_kept T V N density volume fourth nsb dims h h3 u (proj1 St) U h4 0 Ev) as (Md & Fd).
  assert (Len : length (u_des u) = length dims) by (apply (F2_length _ _ _ _ _ Fd)). rewrite Len in E4.
  unfold set_up, bind at 1 in E. destruct (create_averaging_scheme N density fourth volume h) as [[sp1 h1]|] eqn:E1; [|discriminate].
  unfold bind at 1 in E. destruct (create_dimensions N sp1 dims nsb h1) as [[dp1 h2]|] eqn:E2; [|discriminate].
  unfold bind at 1 in E. destruct (load_scheme sp1 h2) as [[s h2']|] eqn:E3; [|discriminate].
  unfold load_scheme, load, bind in E3. destruct (mem h2 sp1) as [[]|] eqn:Es; try discriminate. injection E3 as <- <-.
  unfold bind at 1 in E. destruct (create_fftw_scheme (s_total s0) nsb h2) as [[fp1 h3']|] eqn:E5; [|discriminate].
  cbn in E. injection E as -> -> -> ->.
  exists (u_sp u), h1, (u_dp u), h2, s0, (u_fp u), h3, o, h4. do 5 (split; [first [reflexivity | assumption]|]).
  intros i k events vr angle Hi Hk.
  destruct (F2_nth _ _ _ _ _ _ _ Fd Hi) as ((d & evs) & Ed & Me & Fe). cbn [fst snd] in Me, Fe.
  destruct (F2_nth _ _ _ _ _ _ _ Fe Hk) as (e & Ee & q & p & Eq & PA & _). cbn [fst snd] in PA.
  exists q. split.
  - unfold plan_of. rewrite Md, (map_nth_error fst _ _ Ed). cbn [fst]. rewrite Me, Ee. exact Eq.
  - destruct PA as (Q1 & Q2 & Q3 & Q4 & Q5 & Q6 & Q7 & Q8 & Q9 & Q10 & Q11 & Q12 & Q13). unfold plan_tables, own_tables. rewrite Q1, Q5.
    assert (Nm : array h4 (p_norm p) = numbers ((density + 1) * (density + 2) / 2) (fun i => n_mul N (n_norm_scale N nsb (octants_of volume)) (n_octa_weight N density i))).
    { apply (holds_array T V N). unfold weights_of in Q10. unfold tab in *. rewrite map_map in Q10. exact Q10. }
    f_equal. rewrite !map_app. cbn [map]. rewrite (holds_array T V N _ _ _ _ Q8), (holds_array T V N _ _ _ _ Q9), Nm, (holds_array T V N _ _ _ _ Q11), (holds_array T V N _ _ _ _ Q12).
    destruct fourth; [|reflexivity]. destruct Q13 as (Q13 & Q14). cbn [map]. rewrite (holds_array T V N _ _ _ _ Q13), (holds_array T V N _ _ _ _ Q14). reflexivity.
Qed.

(** Three events: the second plan shares the tables of the frequency with the first, the third those of nothing but the weights. *)
Example C90_case : let dims := [[(5, 54); (5, 0); (7, 54)]] in Forall (@follows_first nat) dims /\
  own_tables ex 0 0 true 2 5 54 <> own_tables ex 0 0 true 2 5 0 /\ own_tables ex 0 0 true 2 5 54 <> own_tables ex 0 0 true 2 7 54.
Proof.
  split; [|split; intros H; vm_compute in H; discriminate]. constructor; [|constructor]. cbn. intros vr angle [H|[H|[H|[]]]]; injection H as <- <-; auto.
Qed.

Print Assumptions C89_returns_and_leaves_behind_partial.
Print Assumptions C89_no_pathway_leaves_everything.
Print Assumptions C89_rotor_mix_leaves_scheme.
Print Assumptions C89_grows_with_every_call.
Print Assumptions C89_released_refuted.
Print Assumptions C89_hemisphere_refuted.
Print Assumptions C89_sphere_refuted.
Print Assumptions C89_unset_plan_refuted.
Print Assumptions C90_each_event_has_its_own_tables.

Section Mix.
Variables (T V : Type) (N : numerics T V).
Lemma rotor_spinning nsb : nsb <> 0 -> nsb <> 1 -> forall dims,
  (Forall (fun e => n_is_static N (fst e) = false) (concat dims) -> rotor_dims N nsb nsb dims = Some (nsb, dims)) /\
  (Exists (fun e => n_is_static N (fst e) = true) (concat dims) -> rotor_dims N nsb nsb dims = None).
Proof.
  intros N0 N1.
  assert (EV : forall l, (Forall (fun e => n_is_static N (fst e) = false) l -> rotor_events N nsb nsb l = Some (nsb, nsb, l)) /\
                         (Exists (fun e => n_is_static N (fst e) = true) l -> rotor_events N nsb nsb l = None)).
  { induction l as [|[vr a] l [IH1 IH2]]; [split; [reflexivity|intros H; inversion H]|]. cbn [rotor_events]. apply Nat.eqb_neq in N0. rewrite N0. split; intros H.
    - inversion H as [|? ? H1 H2]; subst. cbn [fst] in H1. rewrite H1, Nat.eqb_refl. now rewrite IH1.
    - destruct (n_is_static N vr) eqn:S; [apply Nat.eqb_neq in N1; now rewrite N1|]. rewrite Nat.eqb_refl. inversion H as [? ? H1|? ? H1]; subst; [cbn [fst] in H1; congruence|]. now rewrite IH2. }
  induction dims as [|d r [IH1 IH2]]; [split; [reflexivity|intros H; inversion H]|]. cbn [concat rotor_dims]. split; intros H.
  - apply Forall_app in H. destruct H as [H1 H2]. rewrite (proj1 (EV d) H1). now rewrite IH1.
  - apply Exists_app in H. destruct (Exists_dec (fun e => n_is_static N (fst e) = true) d (fun e => Bool.bool_dec _ _)) as [X|X]; [now rewrite (proj2 (EV d) X)|].
    destruct H as [H|H]; [contradiction|]. assert (Y : Forall (fun e => n_is_static N (fst e) = false) d) by (apply Forall_Exists_neg in X; revert X; apply Forall_impl; intros e; apply Bool.not_true_is_false).
    rewrite (proj1 (EV d) Y). now rewrite IH2.
Qed.
Lemma rotor_one : forall dims, rotor_dims N 1 1 dims <> None.
Proof.
  assert (EV : forall l, exists l', rotor_events N 1 1 l = Some (1, 1, l')).
  { induction l as [|[vr a] l (l' & IH)]; [now exists []|]. cbn [rotor_events]. destruct (n_is_static N vr); cbn [Nat.eqb]; rewrite IH; eauto. }
  induction dims as [|d r IH]; [discriminate|]. cbn [rotor_dims]. destruct (EV d) as (l' & ->). destruct (rotor_dims N 1 1 r) as [[? ?]|]; [discriminate|congruence].
Qed.
End Mix.
(** When that happens: the first event spins, a later one (of the same or of a later dimension) is static, and the number of sidebands is
    not one.  A static event first sets the number of sidebands to one for all that follow. *)
Theorem C89_when_mix_raises :
  forall T V (N : numerics T V) nsb dims vr angle rest, nsb <> 0 -> concat dims = (vr, angle) :: rest ->
    (rotor_dims N 0 nsb dims = None <-> nsb <> 1 /\ n_is_static N vr = false /\ Exists (fun e => n_is_static N (fst e) = true) rest).
Proof.
  intros T V N nsb dims vr angle rest N0. assert (N0' : (nsb =? 0) = false) by now apply Nat.eqb_neq.
  induction dims as [|[|e d] r IH]; [discriminate|cbn [concat app rotor_dims rotor_events]; intros E; specialize (IH E)|].
  - destruct (rotor_dims N 0 nsb r) as [[? ?]|]; [|exact IH]. split; [discriminate|]. intros H. apply IH in H. discriminate.
  - cbn [concat app]. intros [= -> <-]. clear IH.
    destruct (n_is_static N vr) eqn:S.
    { split; [|intros (_ & X & _); discriminate X]. intros H. exfalso. apply (rotor_one T V N (d :: r)). cbn [rotor_dims rotor_events] in H |- *. rewrite S in H. cbn [Nat.eqb] in H.
      destruct (rotor_events N 1 1 d) as [[[p n] l]|]; [|reflexivity]. destruct (rotor_dims N p n r) as [[? ?]|]; [discriminate|reflexivity]. }
    assert (K : rotor_dims N 0 nsb (((vr, angle) :: d) :: r) = None <-> rotor_dims N nsb nsb (d :: r) = None).
    { cbn [rotor_dims rotor_events]. rewrite S. cbn [Nat.eqb]. rewrite Nat.eqb_refl.
      destruct (rotor_events N nsb nsb d) as [[[p n] l]|]; [|tauto]. destruct (rotor_dims N p n r) as [[? ?]|]; [split; discriminate|tauto]. }
    rewrite K. destruct (Nat.eq_dec nsb 1) as [->|N1].
    { split; [intros H; destruct (rotor_one T V N (d :: r) H)|intros (X & _); now destruct X]. }
    destruct (rotor_spinning T V N nsb N0 N1 (d :: r)) as [A B]. split; [|intros (_ & _ & H); exact (B H)].
    intros H. split; [exact N1|split; [reflexivity|]].
    destruct (Exists_dec (fun e => n_is_static N (fst e) = true) (concat (d :: r)) (fun e => Bool.bool_dec _ _)) as [X|X]; [exact X|].
    exfalso. rewrite A in H; [discriminate|]. apply Forall_Exists_neg in X. revert X. apply Forall_impl. intros e. apply Bool.not_true_is_false.
Qed.
Print Assumptions C89_when_mix_raises.
Example C89_when_mix_case : concat [[(5, 54)]; [(7, 54); (0, 54)]] = (5, 54) :: [(7, 54); (0, 54)] /\ 64 <> 1 /\
  n_is_static ex 5 = false /\ Exists (fun e => n_is_static ex (fst e) = true) [(7, 54); (0, 54)].
Proof. split; [reflexivity|]. split; [discriminate|]. split; [reflexivity|]. apply Exists_cons_tl, Exists_cons_hd. reflexivity. Qed.
(** What is left when it does not happen, from a static first event: one sideband, whatever was asked for. *)
Theorem C89_static_first_one_sideband :
  forall T V (N : numerics T V) nsb dims vr angle rest nsb' dims', concat dims = (vr, angle) :: rest -> n_is_static N vr = true ->
    rotor_dims N 0 nsb dims = Some (nsb', dims') -> nsb' = 1.
Proof.
  assert (EV : forall T V (N : numerics T V) l p n l', rotor_events N 1 1 l = Some (p, n, l') -> p = 1 /\ n = 1).
  { induction l as [|[vr a] l IH]; intros p n l' H; [now injection H as <- <- <-|]. cbn [rotor_events] in H. destruct (n_is_static N vr); cbn [Nat.eqb] in H;
      destruct (rotor_events N 1 1 l) as [[[p1 n1] l1]|] eqn:E; try discriminate; injection H as <- <- <-; exact (IH _ _ _ eq_refl). }
  assert (DS : forall T V (N : numerics T V) dims n d', rotor_dims N 1 1 dims = Some (n, d') -> n = 1).
  { induction dims as [|d r IH]; intros n d' H; [now injection H as <- <-|]. cbn [rotor_dims] in H. destruct (rotor_events N 1 1 d) as [[[p1 n1] l1]|] eqn:E; [|discriminate].
    destruct (EV _ _ _ _ _ _ _ E) as [-> ->]. destruct (rotor_dims N 1 1 r) as [[n2 d2]|] eqn:E2; [|discriminate]. injection H as <- <-. exact (IH _ _ eq_refl). }
  intros T V N nsb dims vr angle rest nsb' dims' C S. revert C dims'. induction dims as [|[|e d] r IH]; intros C dims' H; [discriminate| |].
  - cbn [rotor_dims rotor_events] in H. destruct (rotor_dims N 0 nsb r) as [[? ?]|]; [|discriminate]. injection H as <- <-. exact (IH C _ eq_refl).
  - cbn [concat app] in C. injection C as -> _. cbn [rotor_dims rotor_events] in H. rewrite S in H. cbn [Nat.eqb] in H.
    destruct (rotor_events N 1 1 d) as [[[p n] l]|] eqn:E; [|discriminate]. destruct (EV _ _ _ _ _ _ _ E) as [-> ->].
    destruct (rotor_dims N 1 1 r) as [[n2 d2]|] eqn:E2; [|discriminate]. injection H as <- <-. exact (DS _ _ _ _ _ _ E2).
Qed.
Print Assumptions C89_static_first_one_sideband.
Example C89_static_first_case : concat [[(0, 54)]; [(7, 54)]] = (0, 54) :: [(7, 54)] /\ n_is_static ex 0 = true /\
  rotor_dims ex 0 64 [[(0, 54)]; [(7, 54)]] = Some (1, [[(1000, 0)]; [(7, 54)]]).
Proof. repeat split; vm_compute; reflexivity. Qed.
