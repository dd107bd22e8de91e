(** Proofs for C89 and C90: from the first allocation to the last release. *)
From Coq Require Import List Arith Bool Lia.
From Verif Require Import MemModel MemSpec MemProofs MemPlan MemDims MemRun MemCore MemSetup.
Import ListNotations.
Unset Implicit Arguments.

Section Whole.
Variables (T V : Type) (N : numerics T V).
Notation heap := (heap T V).
Notation M := (M T V).
Notation step := (step T V).
Notation K := (K T V).
Notation ok := (ok T V).
Notation evo := (evo T V).
Notation full := (full T V).
Notation present := (present T V).

Lemma full_K : forall h p vs n, mem h p = Some (full vs) -> length vs = n -> K h p n 0 n.
Proof.
  intros h p vs n E L. exists (map (@Some V) vs). split; [exact E|]. split; [now rewrite map_length|]. intros i _ Hi.
  destruct vs as [|v r]; [cbn in L; lia|]. rewrite (nth_indep _ None (Some v)) by (rewrite map_length; lia). rewrite (map_nth (@Some V)). discriminate.
Qed.
Lemma room_K : forall h p n, room T V h p n -> K h p n 0 0.
Proof. intros h p n (l & E & L). exists l. split; [exact E|]. split; [exact L|]. intros; lia. Qed.
Lemma holds_filled : forall h o vs n, holds T V h o vs -> length vs = n -> filled T V h o n.
Proof. intros h o vs n (a & -> & E) L. exists a. split; [reflexivity|]. eapply full_K; eassumption. Qed.

(** ** The heap before the first pathway *)
Record setup := { u_sp : ptr; u_s : scheme_s; u_dp : ptr; u_des : list (dim_s * list event_s); u_fp : ptr; u_f : fftw_s; u_P : list ptr }.
Definition working (u : setup) : list ptr :=
  all_slots (u_des u) ++ [s_exp (u_s u); s_w2 (u_s u); f_vector (u_f u)] ++ (if s_fourth (u_s u) then [s_w4 (u_s u)] else []).
(** What is released. *)
Definition released (u : setup) : list ptr :=
  all_slots (u_des u) ++ (tables (u_s u) ++ [f_plan (u_f u); f_vector (u_f u)]).
Definition fixed (u : setup) : list ptr := u_sp u :: u_dp u :: u_fp u :: u_P u.

Definition set_up (density volume : nat) (fourth : bool) (nsb : nat) (dims : list (list (T * T))) : M (ptr * ptr * ptr) :=
  bind (create_averaging_scheme N density fourth volume) (fun scheme =>
  bind (create_dimensions N scheme dims nsb) (fun dimensions =>
  bind (load_scheme scheme) (fun s =>
  bind (create_fftw_scheme (s_total s) nsb) (fun fftw => ret (scheme, dimensions, fftw))))).

Definition weights_of density volume nsb : list V :=
  map (n_mul N (n_norm_scale N nsb (octants_of volume))) (tab (npts_of density) (n_octa_weight N density)).
Definition set_up_at density volume fourth nsb dims (h h' : heap) (u : setup) : Prop :=
  mem h' (u_sp u) = Some (Scheme T V (u_s u)) /\ s_npts (u_s u) = npts_of density /\ s_fourth (u_s u) = fourth /\
  scheme_ready T V (octants_of volume) h' (u_s u) /\
  mem h' (u_dp u) = Some (Dims T V (map fst (u_des u))) /\ In (u_dp u) (u_P u) /\
  Forall2 (dim_at T V N (weights_of density volume nsb) (octants_of volume) (s_npts (u_s u)) (s_total (u_s u)) fourth nsb (u_P u) h') (u_des u) dims /\
  mem h' (u_fp u) = Some (Fftw T V (u_f u)) /\ K h' (f_vector (u_f u)) (s_total (u_s u) * nsb) 0 0 /\
  NoDup (released u) /\ (forall a, In a (fixed u) -> ~ In a (released u)) /\
  (forall a, In a (fixed u ++ released u) -> next h <= a /\ present h' a) /\ (forall a, In a (u_P u) -> a <> u_fp u).

Lemma set_up_ok : forall (h : heap) density volume fourth nsb dims, sane h -> volume < 2 -> Forall (@follows_first T) dims ->
  ok (set_up density volume fourth nsb dims) h (fun r h' => exists u, r = (u_sp u, u_dp u, u_fp u) /\ step h h' nothing (everything N fourth dims) /\
      set_up_at density volume fourth nsb dims h h' u).
Proof.
  intros h density volume fourth nsb dims Sn Hv FF. unfold set_up. apply ok_bind. eapply ok_weaken; [apply (create_scheme_ok T V N h density fourth volume Sn Hv)|].
  intros sp h1 (s & St1 & M1 & En & Evo & Ef & Mw & SR & ND1 & Ge1). pose proof (proj1 St1) as S1.
  assert (SRp : forall a, In a (tables s) -> present h1 a).
  { destruct SR as (_ & _ & (l1 & A1 & _) & (l2 & A2 & _) & (l3 & A3 & _) & G). intros a I. unfold tables in I. rewrite Ef in *. cbn in I.
    destruct fourth; cbn in I.
    - destruct G as ((l4 & A4 & _) & (l5 & A5 & _)). repeat (destruct I as [<-|I]; [eexists; eassumption|]). destruct I.
    - repeat (destruct I as [<-|I]; [eexists; eassumption|]). destruct I. }
  assert (Lt1 : forall a, In a (sp :: tables s) -> a < next h1).
  { intros a [<-|I]; [apply (sane_lt _ _ h1 _ _ S1 M1)|]. destruct (SRp a I) as (b & Eb). apply (sane_lt _ _ h1 _ _ S1 Eb). }
  apply ok_bind.
  destruct (create_dimensions_ok T V N sp s (tab (s_npts s) (n_octa_weight N density)) nsb dims h1 S1 M1 Mw ltac:(apply length_tab) FF)
    as (h2 & dp & des & P & E2 & St2 & Md & Idp & FD & FS1 & FS2 & FS3 & FS4).
  exists dp, h2. split; [exact E2|]. pose proof (proj1 St2) as S2. pose proof (proj1 (proj2 St2)) as N2.
  assert (M2 : mem h2 sp = Some (Scheme T V s)) by (apply (step_mem _ _ _ _ _ _ _ _ St2 S1 M1); auto).
  apply ok_bind. eapply ok_load_scheme; [exact M2|].
  apply ok_bind. unfold create_fftw_scheme.
  apply ok_bind. eapply ok_weaken; [apply (ok_malloc T V nothing _ h2 S2)|]. intros vec h3 (E3 & K3 & P3 & N3). pose proof (evo_sane _ _ _ _ _ _ E3) as S3.
  apply ok_bind. eapply ok_weaken; [apply (ok_new T V _ h3 S3); discriminate|]. intros fpl h4 (E4 & M4 & P4 & N4). pose proof (evo_sane _ _ _ _ _ _ E4) as S4.
  eapply ok_weaken; [apply (ok_new T V _ h4 S4); discriminate|]. intros fp h5 (E5 & M5 & P5 & N5). apply ok_ret.
  assert (E25 : evo nothing h2 h5 3) by (eapply evo_trans; [exact E3 | eapply evo_trans; [exact E4 | exact E5 | reflexivity] | reflexivity]).
  assert (Kp : forall a b, mem h2 a = Some b -> mem h5 a = Some b).
  { intros a b Eb. apply (mem_evo _ _ _ _ _ _ _ _ S2 E25 (fun I => I) Eb). }
  assert (E15 : step h1 h5 nothing (1 + sum (map (plan_blocks N (s_fourth s)) dims) + sum (map (@buffers T) dims) + 3)).
  { eapply step_trans; [exact St2 | apply E25 | auto | auto | reflexivity]. }
  assert (Sl : forall a, In a (all_slots des) -> present h2 a).
  { intros a I. unfold all_slots in I. apply in_concat in I. destruct I as (l & Il & Ia). apply in_map_iff in Il. destruct Il as (de & <- & Ide).
    clear - FD Ia Ide. induction FD as [|x y l1 l2 D _ IH]; [destruct Ide|]. destruct Ide as [->|Ide]; [|auto]. eapply slots_present; eassumption. }
  assert (SlLt : forall a, In a (all_slots des) -> next h1 <= a < next h2).
  { intros a I. split; [now apply FS2|]. destruct (Sl a I) as (b & Eb). apply (sane_lt _ _ h2 a b S2 Eb). }
  assert (PLt : forall a, In a P -> next h1 <= a < next h2).
  { intros a I. destruct (FS1 a I) as (La & b & Eb). split; [exact La|]. apply (sane_lt _ _ h2 a b S2 Eb). }
  exists {| u_sp := sp; u_s := s; u_dp := dp; u_des := des; u_fp := fp; u_f := {| f_vector := vec; f_plan := fpl |}; u_P := P |}.
  cbn [u_sp u_s u_dp u_des u_fp u_f u_P f_vector f_plan]. split; [reflexivity|]. split.
  { eapply step_trans; [exact St1 | exact E15 | auto | auto |]. unfold everything, left_behind. rewrite Ef. lia. }
  unfold set_up_at, released, fixed. cbn [u_sp u_s u_dp u_des u_fp u_f u_P f_vector f_plan].
  split; [now apply Kp|]. split; [exact En|]. split; [exact Ef|]. split.
  { assert (KK : forall a n0 lo hi, K h1 a n0 lo hi -> K h5 a n0 lo hi).
    { intros a n0 lo hi (l & El & R). exists l. split; [|exact R]. apply (step_mem _ _ _ _ _ _ _ _ E15 S1 El). auto. }
    destruct SR as (B1 & B2 & B3 & B4 & B5 & B6). split; [exact B1|]. split; [exact B2|]. split; [auto|]. split; [auto|]. split; [auto|].
    destruct (s_fourth s); [|exact B6]. destruct B6; auto. }
  split; [now apply Kp|]. split; [exact Idp|]. split.
  { unfold weights_of. rewrite <- En, <- Evo, <- Ef. eapply F2_impl; [|exact FD]. intros de ev D. eapply dim_at_frame; [exact D | exact S2 | apply incl_refl |].
    intros a Ha. apply E25; auto. }
  split; [exact M5|]. split.
  { eapply K_evo; [exact S4 | exact E5 | eapply K_evo; [exact S3 | exact E4 | exact K3]]. }
  assert (Pf : vec = next h2 /\ fpl = S (next h2) /\ fp = S (S (next h2))) by lia. destruct Pf as (Pv & Pp & Pq).
  inversion ND1 as [|? ? Nsp NDt]; subst x l.
  split.
  { apply NoDup_app_both; [exact FS3 | apply NoDup_app_both; [exact NDt | |] |].
    - constructor; [cbn; lia|]. constructor; [cbn; lia|constructor].
    - intros a I [<-|[<-|[]]]; specialize (Lt1 _ (or_intror I)); lia.
    - intros a I I'. specialize (SlLt a I). apply in_app_or in I'. destruct I' as [I'|[<-|[<-|[]]]]; [|lia|lia]. specialize (Lt1 _ (or_intror I')). lia. }
  split.
  { intros a I I'. apply in_app_or in I'. destruct I' as [I'|I']; [|apply in_app_or in I'; destruct I' as [I'|I']].
    - specialize (SlLt a I'). destruct I as [<-|[<-|[<-|I]]].
      + pose proof (Lt1 sp (or_introl eq_refl)). lia.
      + exact (FS4 dp Idp I').
      + lia.
      + exact (FS4 a I I').
    - pose proof (Lt1 _ (or_intror I')). destruct I as [<-|[<-|[<-|I]]].
      + exact (Nsp I').
      + specialize (PLt dp Idp). lia.
      + lia.
      + specialize (PLt a I). lia.
    - assert (Ha : next h2 <= a < S (S (next h2))) by (destruct I' as [<-|[<-|[]]]; lia). destruct I as [<-|[<-|[<-|I]]].
      + pose proof (Lt1 sp (or_introl eq_refl)). lia.
      + specialize (PLt dp Idp). lia.
      + lia.
      + specialize (PLt a I). lia. }
  split; [|intros a I ->; specialize (PLt _ I); lia].
  pose proof (proj1 (proj2 St1)) as N1.
  assert (Mv : present h5 vec).
  { assert (Kv : K h5 vec (s_total s * nsb) 0 0) by (eapply K_evo; [exact S4 | exact E5 | eapply K_evo; [exact S3 | exact E4 | exact K3]]).
    destruct Kv as (l & El & _). eexists; exact El. }
  assert (Mp : present h5 fpl) by (eexists; apply (mem_evo _ _ _ _ _ _ _ _ S4 E5 (fun I => I) M4)).
  assert (PK : forall a, present h2 a -> present h5 a) by (intros a (b & Eb); exists b; now apply Kp).
  assert (PK1 : forall a, present h1 a -> present h5 a) by (intros a (b & Eb); exists b; apply (step_mem _ _ _ _ _ _ _ _ E15 S1 Eb); auto).
  assert (PP : forall a, In a P -> next h <= a /\ present h5 a) by (intros a I; destruct (FS1 a I) as (La & Pa); split; [lia | now apply PK]).
  intros a I. apply in_app_or in I. destruct I as [[<-|[<-|[<-|I]]]|I].
  - split; [apply Ge1; now left | apply PK; eexists; exact M2].
  - now apply PP.
  - split; [lia | eexists; exact M5].
  - now apply PP.
  - apply in_app_or in I. destruct I as [I|I]; [|apply in_app_or in I; destruct I as [I|[<-|[<-|[]]]]].
    + split; [specialize (SlLt a I); lia | apply PK, Sl, I].
    + split; [apply Ge1; now right | apply PK1, SRp, I].
    + split; [lia | exact Mp].
    + split; [lia | exact Mv].
Qed.

(** ** The pathways *)
Definition writes (u : setup) (base : nat) (a : ptr) : Prop := In a (working u) \/ base <= a.

Lemma working_released : forall u a, In a (working u) -> In a (released u).
Proof.
  intros u a I. unfold working, released in *. apply in_app_or in I. apply in_or_app. destruct I as [I|I]; [now left|]. right. apply in_or_app.
  unfold tables. apply in_app_or in I. destruct I as [[<-|[<-|[<-|[]]]]|I].
  - left. cbn. auto.
  - left. cbn. auto.
  - right. cbn. auto.
  - left. apply in_or_app. right. destruct (s_fourth (u_s u)); [|destruct I]. destruct I as [<-|[]]. cbn. auto.
Qed.

Section Ready.
Variables (density volume : nat) (fourth : bool) (nsb : nat) (dims : list (list (T * T))) (h h' : heap) (u : setup).
Hypothesis FF : Forall (@follows_first T) dims.
Hypothesis Sn : sane h'.
Hypothesis U : set_up_at density volume fourth nsb dims h h' u.
Notation W := (writes u (next h')).

Lemma fixed_not_written : forall a, In a (fixed u) -> ~ W a.
Proof.
  destruct U as (_ & _ & _ & _ & _ & _ & _ & _ & _ & _ & D & Pr & _). intros a I [H|H].
  - exact (D a I (working_released u a H)).
  - destruct (Pr a (in_or_app _ _ _ (or_introl I))) as (_ & b & Eb). pose proof (proj1 (sane_lt _ _ h' a b Sn Eb)). lia.
Qed.
Lemma P_fixed : forall a, In a (u_P u) -> In a (fixed u).
Proof. intros a I. unfold fixed. cbn. auto. Qed.

Lemma set_up_ready : ready T V W (u_s u) (octants_of volume) nsb (u_dp u) (u_fp u) (u_sp u) (u_f u) (u_des u) h'.
Proof.
  destruct U as (A1 & A2 & A3 & A4 & A5 & A6 & A7 & A8 & A9 & A10 & A11 & A12 & A13). unfold ready.
  split; [exact A1|]. split; [apply fixed_not_written; unfold fixed; cbn; auto|]. split; [exact A4|]. split; [exact A8|].
  split; [apply fixed_not_written; unfold fixed; cbn; auto|].
  split; [left; unfold working; apply in_or_app; right; apply in_or_app; left; cbn; auto|]. split; [exact A9|]. split; [exact A5|].
  split; [apply fixed_not_written, P_fixed, A6|].
  assert (G : forall l1 l2, Forall2 (dim_at T V N (weights_of density volume nsb) (octants_of volume) (s_npts (u_s u)) (s_total (u_s u)) fourth nsb (u_P u) h') l1 l2 ->
     Forall (@follows_first T) l2 -> (forall de, In de l1 -> In de (u_des u)) -> Forall (dim_ready T V W (u_s u) (octants_of volume) nsb h') l1).
  { intros l1 l2 F. induction F as [|de ev l1 l2 D _ IH]; intros Ff Sub; constructor.
    2: { apply IH; [now inversion Ff | intros; apply Sub; now right]. }
    assert (SL : forall a, In a (slots de) -> W a).
    { intros a I. left. unfold working. apply in_or_app. left. unfold all_slots. apply in_concat. exists (slots de). split; [apply in_map, Sub; now left | exact I]. }
    destruct D as (D1 & D2 & D3 & D4 & D5 & D6 & D7). unfold dim_ready.
    split; [exact D1|]. split; [apply fixed_not_written, P_fixed, D2|]. split; [exact D3|]. split.
    { inversion Ff as [|? ? F1 _]; subst. intros En. rewrite En in D4. inversion D4; subst. exact F1. }
    split; [|split; [now apply room_K|split; [apply SL; unfold slots; apply in_or_app; right; cbn; auto|split; [now apply room_K|apply SL; unfold slots; apply in_or_app; right; cbn; auto]]]].
    apply Forall_forall. intros e I. pose proof (proj1 (Forall_forall _ _) D5 e I) as (vs & Ev & Lv).
    assert (EA : exists va, event_at T V N (weights_of density volume nsb) (octants_of volume) (s_total (u_s u)) fourth nsb (u_P u) h' e va).
    { clear - D4 I. induction D4 as [|x y l l' H _ IH]; [destruct I|]. destruct I as [->|I]; [eauto | auto]. }
    destruct EA as (va & q & p & Eq & PA & Inc). exists q, p. split; [exact Eq|].
    destruct PA as (Q1 & Q2 & Q3 & Q4 & Q5 & Q6 & Q7 & Q8 & Q9 & Q10 & Q11 & Q12 & Q13).
    split; [exact Q1|]. split; [apply fixed_not_written, P_fixed, Inc; left; reflexivity|]. split.
    { unfold plan_ready. split; [exact Q2|]. split; [congruence|]. split; [exact Q6|]. split; [exact Q7|].
      split; [eapply holds_filled; [exact Q8 | apply length_tab]|]. split; [eapply holds_filled; [exact Q10 | unfold weights_of; rewrite map_length, length_tab; congruence]|].
      split; [eapply holds_filled; [exact Q11 | apply length_tab]|]. split; [eapply holds_filled; [exact Q12 | apply length_tab]|].
      intros Hf. rewrite A3 in Hf. rewrite Hf in Q13. destruct Q13 as (Q13 & Q14).
      split; [eapply holds_filled; [exact Q13 | apply length_tab] | eapply holds_filled; [exact Q14 | apply length_tab]]. }
    split; [eapply full_K; eassumption|]. apply SL. unfold slots. apply in_or_app. left. apply in_map, I. }
  apply (G _ _ A7 FF). auto.
Qed.

Lemma simulate_ok : forall systems, in_reach N volume nsb dims ->
  ok (simulate_systems N systems (u_dp u) (length (u_des u)) (u_fp u) (u_sp u) nsb) h' (fun o h2 => o = all_found systems /\ evo W h' h2 0).
Proof.
  intros systems Hn. pose proof U as (A1 & A2 & A3 & A4 & A5 & A6 & A7 & A8 & A9 & A10 & A11 & A12 & A13).
  apply (systems_ok T V N W (u_s u) (octants_of volume)) with (base := next h') (f := u_f u).
  - left. unfold working. apply in_or_app. right. cbn. auto.
  - left. unfold working. apply in_or_app. right. cbn. auto.
  - intros Hf. left. unfold working. apply in_or_app. right. apply in_or_app. right. rewrite Hf. cbn. auto.
  - intros a Ha. now right.
  - lia.
  - exact Sn.
  - apply set_up_ready.
  - intros Ld. rewrite (F2_length _ _ _ _ _ A7) in Ld. destruct (Hn Ld) as [->|Hv]; [now left | now right].
Qed.

(** The plans are as they were. *)
Lemma plans_kept : forall h2 k, evo W h' h2 k ->
  mem h2 (u_dp u) = Some (Dims T V (map fst (u_des u))) /\
  Forall2 (fun de events => mem h2 (d_events (fst de)) = Some (Events T V (snd de)) /\
     Forall2 (event_at T V N (weights_of density volume nsb) (octants_of volume) (s_total (u_s u)) fourth nsb (u_P u) h2) (snd de) events) (u_des u) dims.
Proof.
  intros h2 k E. pose proof U as (A1 & A2 & A3 & A4 & A5 & A6 & A7 & A8 & A9 & A10 & A11 & A12 & A13).
  assert (Fr : forall a, In a (u_P u) -> mem h2 a = mem h' a).
  { intros a I. destruct (A12 a (in_or_app _ _ _ (or_introl (P_fixed a I)))) as (_ & b & Eb). rewrite Eb.
    apply (mem_evo _ _ _ _ _ _ _ _ Sn E (fixed_not_written a (P_fixed a I)) Eb). }
  split; [rewrite Fr by exact A6; exact A5|]. eapply F2_impl; [|exact A7]. intros de ev (D1 & D2 & D3 & D4 & _). split; [rewrite Fr by exact D2; exact D1|].
  eapply Forall2_event_frame; [exact D4 | apply incl_refl | exact Fr].
Qed.
End Ready.

(** ** The releases *)
Lemma NoDup_app_parts : forall A (a b : list A), NoDup (a ++ b) -> NoDup a /\ NoDup b /\ forall x, In x a -> ~ In x b.
Proof.
  intros A a b. induction a as [|x a IH]; cbn; intros H; [split; [constructor|]; split; [exact H|]; now intros x []|]. inversion H as [|? ? Nx Hr]; subst.
  destruct (IH Hr) as (I1 & I2 & I3). split; [constructor; [intros I; apply Nx, in_or_app; now left | exact I1]|]. split; [exact I2|].
  intros y [<-|Iy]; [intros I; apply Nx, in_or_app; now right | now apply I3].
Qed.
Definition dropped (h : heap) (L : list ptr) (h' : heap) : Prop :=
  sane h' /\ next h' = next h /\ live h = live h' + length L /\ forall a, ~ In a L -> mem h' a = mem h a.
Lemma dropped_refl : forall h, sane h -> dropped h [] h.
Proof. intros h Sn. split; [exact Sn|]. split; [reflexivity|]. split; [cbn; lia | auto]. Qed.
Lemma drop_one : forall h L h' a (Q : unit -> heap -> Prop), dropped h L h' -> present h a -> ~ In a L -> (forall h'', dropped h (L ++ [a]) h'' -> Q tt h'') -> ok (free a) h' Q.
Proof.
  intros h L h' a Q (Sn & Nn & Lv & Fr) (b & Eb) Na HQ. assert (E : mem h' a = Some b) by (rewrite Fr by exact Na; exact Eb).
  pose proof (sane_lt _ _ h' a b Sn E) as (La & Lz).
  exists tt, (free_h h' a). split; [unfold free; destruct (Nat.eqb_spec a NULL) as [Z|_]; [unfold NULL in Z; lia|]; now rewrite E|].
  apply HQ. pose proof (live_free _ _ h' a b Sn E) as LF. destruct Sn as (Sa & Sb & Sc).
  assert (Fr' : forall c, c <> a -> mem (free_h h' a) c = mem h' c) by (intros c Ne; cbn; now rewrite upd_other).
  split; [split; [exact Sa|split; [rewrite Fr' by lia; exact Sb | intros c Hc; cbn in Hc; rewrite Fr' by lia; now apply Sc]]|].
  split; [exact Nn|]. split; [rewrite app_length; cbn [length]; lia|].
  intros c Ic. rewrite Fr' by (intros ->; apply Ic, in_or_app; right; cbn; auto). apply Fr. intros I. apply Ic, in_or_app. now left.
Qed.

Lemma free_events_ok : forall (d : dim_s) evs (h : heap) L h', dropped h L h' -> d_n d = length evs -> mem h (d_events d) = Some (Events T V evs) -> ~ In (d_events d) L ->
  (forall e, In e evs -> present h (e_amp e) /\ ~ In (e_amp e) L /\ e_amp e <> d_events d /\ exists q, e_plan e = Some q /\ 0 < q) -> NoDup (map e_amp evs) ->
  ok (iter (seq 0 (d_n d)) (fun k => bind (load_events (d_events d)) (fun evs => bind (known (nth_error evs k)) (fun e => free_event e)))) h'
     (fun _ h'' => dropped h (L ++ map e_amp evs) h'').
Proof.
  intros d evs h L h' D Dn Me Nd He ND. rewrite Dn.
  eapply ok_weaken; [apply (ok_iter_seq T V _ (fun i h2 => dropped h (L ++ map e_amp (firstn i evs)) h2))|].
  - cbn. now rewrite app_nil_r.
  - intros i h2 Hi D2. destruct (nth_error evs i) as [e|] eqn:Ee; [|apply nth_error_None in Ee; lia].
    destruct (He e (nth_error_In _ _ Ee)) as (Pe & Ne & Nx & q & Eq & Lq). pose proof D2 as (_ & _ & _ & Fr).
    assert (Split : firstn (S i) evs = firstn i evs ++ [e]).
    { clear - Ee. revert evs Ee. induction i as [|i IH]; intros [|x l] Ee; try discriminate; cbn in *; [congruence|]. f_equal. now apply IH. }
    assert (NDi : NoDup (map e_amp (firstn i evs) ++ [e_amp e])).
    { rewrite <- (firstn_skipn (S i) evs), Split in ND. rewrite !map_app in ND. apply NoDup_app_parts in ND. apply ND. }
    apply ok_bind. eapply ok_load_events.
    { rewrite Fr; [exact Me|]. intros I. apply in_app_or in I. destruct I as [I|I]; [exact (Nd I)|]. apply in_map_iff in I. destruct I as (e' & E' & I').
      destruct (He e') as (_ & _ & Nx' & _); [|congruence]. rewrite <- (firstn_skipn i evs). apply in_or_app. now left. }
    apply ok_bind. eapply ok_known; [exact Ee|]. unfold free_event. apply ok_bind. eapply ok_known; [exact Eq|].
    replace (q =? NULL) with false by (symmetry; apply Nat.eqb_neq; unfold NULL; lia). unfold when. apply ok_bind, ok_ret.
    eapply drop_one; [exact D2 | exact Pe | |].
    + intros I. apply in_app_or in I. destruct I as [I|I]; [exact (Ne I)|]. apply NoDup_remove_2 in NDi. rewrite app_nil_r in NDi. exact (NDi I).
    + intros h3 D3. rewrite Split, map_app, app_assoc. exact D3.
  - cbv beta. cbn [Nat.add]. rewrite firstn_all. auto.
Qed.

Lemma free_dims_ok : forall dp des (h : heap), sane h -> mem h dp = Some (Dims T V (map fst des)) -> ~ In dp (all_slots des) -> NoDup (all_slots des) ->
  (forall a, In a (all_slots des) -> present h a) ->
  (forall de, In de des -> d_n (fst de) = length (snd de) /\ mem h (d_events (fst de)) = Some (Events T V (snd de)) /\ ~ In (d_events (fst de)) (all_slots des) /\
     forall e, In e (snd de) -> exists q, e_plan e = Some q /\ 0 < q) ->
  ok (free_dimension dp (length des)) h (fun _ h' => dropped h (all_slots des) h').
Proof.
  intros dp des h Sn Md Nd ND Pr Hd. unfold free_dimension.
  eapply ok_weaken; [apply (ok_iter_seq T V _ (fun i h2 => dropped h (all_slots (firstn i des)) h2))|].
  - now apply dropped_refl.
  - intros i h2 Hi D2. destruct (nth_error des i) as [[d evs]|] eqn:Ed; [|apply nth_error_None in Ed; lia].
    destruct (Hd _ (nth_error_In _ _ Ed)) as (Dn & Me & Ne & He). cbn [fst snd] in *. pose proof D2 as (_ & _ & _ & Fr).
    assert (Split : firstn (S i) des = firstn i des ++ [(d, evs)]).
    { clear - Ed. revert des Ed. induction i as [|i IH]; intros [|x l] Ee; try discriminate; cbn in *; [congruence|]. f_equal. now apply IH. }
    assert (Eall : all_slots des = all_slots (firstn i des) ++ slots (d, evs) ++ all_slots (skipn (S i) des)).
    { rewrite <- (firstn_skipn (S i) des) at 1. rewrite Split. unfold all_slots. rewrite !map_app, !concat_app. cbn. rewrite app_nil_r, <- app_assoc. reflexivity. }
    assert (Sub : forall a, In a (all_slots (firstn i des)) -> In a (all_slots des)) by (intros a I; rewrite Eall; apply in_or_app; now left).
    assert (Sub2 : forall a, In a (slots (d, evs)) -> In a (all_slots des) /\ ~ In a (all_slots (firstn i des))).
    { intros a I. split; [rewrite Eall; apply in_or_app; right; apply in_or_app; now left|]. intros I'. rewrite Eall in ND. apply NoDup_app_parts in ND.
      destruct ND as (_ & _ & ND). apply (ND a I'). apply in_or_app. now left. }
    assert (NDs : NoDup (slots (d, evs))).
    { rewrite Eall in ND. apply NoDup_app_parts in ND. destruct ND as (_ & ND & _). apply NoDup_app_parts in ND. apply ND. }
    apply ok_bind. eapply ok_load_dims; [rewrite Fr; [exact Md | intros I; exact (Nd (Sub _ I))]|].
    apply ok_bind. eapply ok_known; [exact (map_nth_error fst _ _ Ed)|]. cbn [fst].
    unfold slots in NDs, Sub2. cbn [fst snd] in NDs, Sub2.
    apply ok_bind. eapply ok_weaken.
    { apply (free_events_ok d evs h (all_slots (firstn i des)) h2 D2 Dn Me); [intros I; exact (Ne (Sub _ I)) | |].
      - intros e I. destruct (Sub2 (e_amp e)) as (I1 & I2); [apply in_or_app; left; now apply in_map|].
        split; [now apply Pr|]. split; [exact I2|]. split; [intros Ex; apply Ne; rewrite <- Ex; exact I1|]. now apply He.
      - apply NoDup_app_parts in NDs. apply NDs. }
    cbv beta. intros v h3 D3. clear v.
    assert (Dj : ~ In (d_local d) (map e_amp evs) /\ ~ In (d_offset d) (map e_amp evs) /\ d_local d <> d_offset d).
    { apply NoDup_remove in NDs. destruct NDs as (NDs1 & NDs2).
      split; [intros I; apply NDs2, in_or_app; now left|]. split; [|intros Ex; apply NDs2; rewrite Ex; apply in_or_app; right; cbn; auto].
      apply NoDup_remove in NDs1. destruct NDs1 as (_ & NDs3). intros I. apply NDs3, in_or_app. now left. }
    destruct Dj as (J1 & J2 & J3).
    destruct (Sub2 (d_local d)) as (I1 & I1'); [apply in_or_app; right; cbn; auto|]. destruct (Sub2 (d_offset d)) as (I2 & I2'); [apply in_or_app; right; cbn; auto|].
    apply ok_bind. eapply drop_one; [exact D3 | now apply Pr | |].
    { intros I. apply in_app_or in I. destruct I as [I|I]; [exact (I1' I) | exact (J1 I)]. }
    intros h4 D4. eapply drop_one; [exact D4 | now apply Pr | |].
    { intros I. apply in_app_or in I. destruct I as [I|[I|[]]]; [|exact (J3 I)]. apply in_app_or in I. destruct I as [I|I]; [exact (I2' I) | exact (J2 I)]. }
    intros h5 D5. rewrite Split. unfold all_slots. rewrite map_app, concat_app. cbn [map concat]. rewrite app_nil_r. unfold slots at 2. cbn [fst snd].
    fold (all_slots (firstn i des)). rewrite <- !app_assoc in D5. exact D5.
  - cbv beta. cbn [Nat.add]. rewrite firstn_all. auto.
Qed.

(** ** The whole call *)

Lemma one_d_after_set_up : forall density volume fourth nsb dims systems nsb' dims' (h : heap) sp dp fp h', rotor_dims N 0 nsb dims = Some (nsb', dims') ->
  set_up density volume fourth nsb' dims' h = Some ((sp, dp, fp), h') ->
  one_d_spectrum N density volume fourth nsb dims systems h =
  bind (simulate_systems N systems dp (length dims') fp sp nsb') (fun o => match o with
      | Raised => ret Raised
      | Returned => bind (free_dimension dp (length dims')) (fun _ => bind (free_averaging_scheme sp) (fun _ => bind (free_fftw_scheme fp) (fun _ => ret Returned)))
      end) h'.
Proof.
  intros density volume fourth nsb dims systems nsb' dims' h sp dp fp h' Er E. unfold set_up, bind at 1 in E. unfold one_d_spectrum, bind at 1. 
  destruct (create_averaging_scheme N density fourth volume h) as [[sp1 h1]|]; [|discriminate]. rewrite Er.
  unfold bind at 1 in E. unfold bind at 1. destruct (create_dimensions N sp1 dims' nsb' h1) as [[dp1 h2]|]; [|discriminate].
  unfold bind at 1 in E. unfold bind at 1. destruct (load_scheme sp1 h2) as [[s h3]|]; [|discriminate].
  unfold bind at 1 in E. unfold bind at 1. destruct (create_fftw_scheme (s_total s) nsb' h3) as [[fp1 h4]|]; [|discriminate].
  cbn in E. injection E as -> -> -> ->. reflexivity.
Qed.

Lemma length_slots : forall ws o np to fo n P h des dims, Forall2 (dim_at T V N ws o np to fo n P h) des dims -> length (all_slots des) = sum (map (@buffers T) dims).
Proof.
  intros ws o np to fo n P h des dims F. induction F as [|de ev des dims D _ IH]; [reflexivity|]. unfold all_slots in *. cbn [map concat]. rewrite app_length, IH.
  unfold sum at 2. cbn [fold_right]. fold (sum (map (@buffers T) dims)). f_equal. unfold slots, buffers. rewrite app_length, map_length. cbn [length].
  destruct D as (_ & _ & _ & D & _). rewrite (F2_length _ _ _ _ _ D). reflexivity.
Qed.

Lemma one_d_ok : forall density volume fourth nsb dims systems nsb' dims' (h : heap), sane h -> volume < 2 ->
  rotor_dims N 0 nsb dims = Some (nsb', dims') -> Forall (@follows_first T) dims' -> in_reach N volume nsb' dims' ->
  ok (one_d_spectrum N density volume fourth nsb dims systems) h (fun o h' => o = all_found systems /\
    step h h' nothing (match o with Returned => left_behind N fourth dims' | Raised => everything N fourth dims' end)).
Proof.
  intros density volume fourth nsb dims systems nsb' dims' h Sn Hv Er FF Hn'.
  destruct (set_up_ok h density volume fourth nsb' dims' Sn Hv FF) as (r & h1 & E1 & u & -> & St1 & U).
  pose proof (proj1 St1) as S1.
  pose proof U as (A1 & A2 & A3 & A4 & A5 & A6 & A7 & A8 & A9 & A10 & A11 & A12 & A13).
  assert (Len : length dims' = length (u_des u)) by (symmetry; exact (F2_length _ _ _ _ _ A7)).
  assert (Main : ok (bind (simulate_systems N systems (u_dp u) (length dims') (u_fp u) (u_sp u) nsb') (fun o => match o with
      | Raised => ret Raised
      | Returned => bind (free_dimension (u_dp u) (length dims')) (fun _ => bind (free_averaging_scheme (u_sp u)) (fun _ => bind (free_fftw_scheme (u_fp u)) (fun _ => ret Returned)))
      end)) h1 (fun o h' => o = all_found systems /\
    step h h' nothing (match o with Returned => left_behind N fourth dims' | Raised => everything N fourth dims' end))).
  2: { destruct Main as (o & h' & E & Q). exists o, h'. split; [|exact Q]. rewrite (one_d_after_set_up _ _ _ _ _ _ _ _ _ _ _ _ _ Er E1). exact E. }
  apply ok_bind. rewrite Len. eapply ok_weaken; [apply (simulate_ok density volume fourth nsb' dims' h h1 u FF S1 U systems Hn')|].
  intros o h2 (-> & E2). pose proof (evo_sane _ _ _ _ _ _ E2) as S2.
  assert (Ge : forall a, In a (released u) -> next h <= a) by (intros a I; apply (A12 a), in_or_app; now right).
  assert (St2 : step h h2 nothing (everything N fourth dims')).
  { eapply step_trans with (W1 := nothing) (W2 := fun a => next h <= a); [exact St1 | | auto | intros a Ha Hb; lia | symmetry; apply Nat.add_0_r].
    eapply step_weaken; [apply E2|]. intros a Ha [I|I]; [now apply Ge, working_released | lia]. }
  destruct (all_found systems); [|apply ok_ret; split; [reflexivity | exact St2]].
  (* releases *)
  assert (Fx : forall a, In a (fixed u) -> mem h2 a = mem h1 a).
  { intros a I. destruct (A12 a (in_or_app _ _ _ (or_introl I))) as (_ & b & Eb). rewrite Eb.
    apply (mem_evo _ _ _ _ _ _ _ _ S1 E2 (fixed_not_written _ _ _ _ _ _ _ _ S1 U a I) Eb). }
  assert (Pr : forall a, In a (released u) -> present h2 a).
  { intros a I. destruct (A12 a (in_or_app _ _ _ (or_intror I))) as (La & b & Eb). pose proof (proj1 (sane_lt _ _ h1 a b S1 Eb)) as Lt.
    destruct (In_dec Nat.eq_dec a (working u)) as [Iw|Nw].
    - assert (Arr1 : exists l, mem h1 a = Some (Arr T l)).
      { unfold working in Iw. apply in_app_or in Iw. destruct Iw as [Iw|Iw].
        - clear - A7 Iw. unfold all_slots in Iw. apply in_concat in Iw. destruct Iw as (l & Il & Ia). apply in_map_iff in Il. destruct Il as (de & <- & Ide).
          induction A7 as [|x y l1 l2 D _ IH]; [destruct Ide|]. destruct Ide as [->|Ide]; [|auto]. destruct D as (_ & _ & _ & _ & D5 & (r1 & R1 & _) & (r2 & R2 & _)).
          unfold slots in Ia. apply in_app_or in Ia. destruct Ia as [Ia|[<-|[<-|[]]]]; [|eexists; eassumption | eexists; eassumption].
          apply in_map_iff in Ia. destruct Ia as (e & <- & Ie). pose proof (proj1 (Forall_forall _ _) D5 e Ie) as (vs & Ev & _). eexists; exact Ev.
        - destruct A4 as (_ & _ & (r1 & R1 & _) & _ & (r2 & R2 & _) & G). destruct A9 as (r3 & R3 & _).
          apply in_app_or in Iw. destruct Iw as [[<-|[<-|[<-|[]]]]|Iw]; [eexists; eassumption | eexists; eassumption | eexists; eassumption |].
          rewrite A3 in Iw, G. destruct fourth; [|destruct Iw]. destruct Iw as [<-|[]]. destruct G as (_ & (r4 & R4 & _)). eexists; exact R4. }
      destruct Arr1 as (l & El). destruct E2 as (_ & G2). destruct (G2 a Lt l El) as (l' & El' & _). eexists; exact El'.
    - exists b. apply (mem_evo _ _ _ _ _ _ _ _ S1 E2); [|exact Eb]. intros [H|H]; [exact (Nw H) | lia]. }
  unfold released in A10, Pr, A11. apply NoDup_app_parts in A10. destruct A10 as (ND1 & ND2 & ND3).
  apply ok_bind. eapply ok_weaken.
  { apply (free_dims_ok (u_dp u) (u_des u) h2 S2).
    - rewrite Fx; [exact A5 | right; left; reflexivity].
    - intros I. apply (A11 (u_dp u)); [right; left; reflexivity|]. apply in_or_app. now left.
    - exact ND1.
    - intros a I. apply Pr, in_or_app. now left.
    - intros de I. assert (D : exists ev, dim_at T V N (weights_of density volume nsb') (octants_of volume) (s_npts (u_s u)) (s_total (u_s u)) fourth nsb' (u_P u) h1 de ev).
      { clear - A7 I. induction A7 as [|x y l1 l2 D _ IH]; [destruct I|]. destruct I as [->|I]; [eauto | auto]. }
      destruct D as (ev & D1 & D2 & D3 & D4 & D5 & _). split; [exact D3|]. split; [rewrite Fx; [exact D1 | apply P_fixed, D2]|].
      split; [intros I'; apply (A11 (d_events (fst de))); [apply P_fixed, D2 | apply in_or_app; now left]|].
      intros e Ie. clear - D4 Ie S1. induction D4 as [|x y l1 l2 (q & p & Eq & PA & _) _ IH]; [destruct Ie|]. destruct Ie as [->|Ie]; [|auto].
      exists q. split; [exact Eq|]. destruct PA as (Q1 & _). apply (sane_lt _ _ h1 q _ S1 Q1). }
  cbv beta. intros v h3 D3. clear v.
  assert (NotIn : forall a, In a (fixed u) -> ~ In a (all_slots (u_des u)) /\ ~ In a (tables (u_s u))).
  { intros a I. split; intros I'; apply (A11 a I), in_or_app; [now left | right; apply in_or_app; now left]. }
  assert (M3 : mem h3 (u_sp u) = Some (Scheme T V (u_s u))).
  { destruct D3 as (_ & _ & _ & Fr). rewrite Fr; [rewrite Fx; [exact A1 | left; reflexivity] | apply NotIn; left; reflexivity]. }
  apply NoDup_app_parts in ND2. destruct ND2 as (ND2 & _ & ND4).
  assert (PrT : forall a, In a (tables (u_s u)) -> present h2 a) by (intros a I; apply Pr, in_or_app; right; apply in_or_app; now left).
  assert (NT : forall a, In a (tables (u_s u)) -> ~ In a (all_slots (u_des u))) by (intros a I I'; apply (ND3 a I'), in_or_app; now left).
  apply ok_bind. eapply ok_weaken with (Q := fun _ h4 => exists L, dropped h2 (all_slots (u_des u) ++ L) h4 /\ length L = length (tables (u_s u)) /\ incl L (tables (u_s u))).
  { unfold free_averaging_scheme. apply ok_bind. eapply ok_load_scheme; [exact M3|].
    set (Lt := fun L : list ptr => incl L (tables (u_s u))).
    assert (Fr1 : forall L a h4 (Q : unit -> heap -> Prop), dropped h2 (all_slots (u_des u) ++ L) h4 -> In a (tables (u_s u)) -> ~ In a L ->
               (forall h5, dropped h2 (all_slots (u_des u) ++ L ++ [a]) h5 -> Q tt h5) -> ok (free a) h4 Q).
    { intros L a h4 Q D I Na HQ. eapply drop_one; [exact D | now apply PrT | intros I'; apply in_app_or in I'; destruct I' as [I'|I']; [exact (NT a I I') | exact (Na I')] |].
      intros h5 D5. apply HQ. rewrite <- app_assoc in D5. exact D5. }
    unfold tables in ND2, Fr1 |- *. destruct A4 as (_ & _ & _ & _ & _ & G). rewrite A3 in G, ND2, Fr1 |- *.
    assert (D3' : dropped h2 (all_slots (u_des u) ++ []) h3) by (rewrite app_nil_r; exact D3).
    destruct fourth.
    - cbn [app] in *. pose proof ND2 as ND5. repeat (match goal with H : NoDup (_ :: _) |- _ => inversion H; clear H; subst end). cbn [In] in *.
      apply ok_bind. eapply Fr1; [exact D3' | tauto | cbn; tauto |]. intros h4 D4. cbn [app] in D4.
      apply ok_bind. eapply Fr1; [exact D4 | tauto | cbn; intuition congruence |]. intros h5 D5. cbn [app] in D5.
      apply ok_bind. eapply Fr1; [exact D5 | tauto | cbn; intuition congruence |]. intros h6 D6. cbn [app] in D6.
      apply ok_bind. eapply Fr1; [exact D6 | tauto | cbn; intuition congruence |]. intros h7 D7. cbn [app] in D7.
      apply ok_bind. eapply Fr1; [exact D7 | tauto | cbn; intuition congruence |]. intros h8 D8. cbn [app] in D8.
      eapply Fr1; [exact D8 | tauto | cbn; intuition congruence |]. intros h9 D9. cbn [app] in D9.
      eexists. split; [exact D9|]. split; [reflexivity|]. intros a I. cbn in *. tauto.
    - cbn [app] in *. destruct G as [G1 G2]. rewrite G1, G2. repeat (match goal with H : NoDup (_ :: _) |- _ => inversion H; clear H; subst end). cbn [In] in *.
      apply ok_bind. eapply Fr1; [exact D3' | tauto | cbn; tauto |]. intros h4 D4. cbn [app] in D4.
      apply ok_bind. eapply Fr1; [exact D4 | tauto | cbn; intuition congruence |]. intros h5 D5. cbn [app] in D5.
      apply ok_bind. eapply Fr1; [exact D5 | tauto | cbn; intuition congruence |]. intros h6 D6. cbn [app] in D6.
      apply ok_bind. apply ok_ret.
      apply ok_bind. eapply Fr1; [exact D6 | tauto | cbn; intuition congruence |]. intros h7 D7. cbn [app] in D7.
      apply ok_ret. eexists. split; [exact D7|]. split; [reflexivity|]. intros a I. cbn in *. tauto. }
  intros v h4 (L & D4 & LL & IL). clear v.
  assert (M4 : mem h4 (u_fp u) = Some (Fftw T V (u_f u))).
  { destruct D4 as (_ & _ & _ & Fr). assert (I : In (u_fp u) (fixed u)) by (unfold fixed; cbn; auto). rewrite Fr; [rewrite Fx; [exact A8 | exact I]|].
    destruct (NotIn _ I) as (N1 & N2). intros I'. apply in_app_or in I'. destruct I' as [I'|I']; [exact (N1 I') | exact (N2 (IL _ I'))]. }
  apply ok_bind. unfold free_fftw_scheme. apply ok_bind. eapply ok_load_fftw; [exact M4|].
  assert (NF : forall a, In a [f_plan (u_f u); f_vector (u_f u)] -> present h2 a /\ ~ In a (all_slots (u_des u) ++ L)).
  { intros a I. split; [apply Pr, in_or_app; right; apply in_or_app; now right|]. intros I'. apply in_app_or in I'. destruct I' as [I'|I'].
    - apply (ND3 a I'), in_or_app. now right.
    - exact (ND4 a (IL _ I') I). }
  destruct (NF (f_plan (u_f u))) as (F1 & F2); [cbn; auto|]. destruct (NF (f_vector (u_f u))) as (F3 & F4); [cbn; auto|].
  assert (Ne : f_plan (u_f u) <> f_vector (u_f u)).
  { pose proof U as (_ & _ & _ & _ & _ & _ & _ & _ & _ & B10 & _). unfold released in B10. apply NoDup_app_parts in B10. destruct B10 as (_ & B10 & _).
    apply NoDup_app_parts in B10. destruct B10 as (_ & B10 & _). inversion B10 as [|? ? B11 _]; subst. intros Ex. apply B11. rewrite Ex. cbn. auto. }
  apply ok_bind. eapply drop_one; [exact D4 | exact F1 | exact F2 |]. intros h5 D5.
  eapply drop_one; [exact D5 | exact F3 | |].
  { intros I. apply in_app_or in I. destruct I as [I|[I|[]]]; [exact (F4 I) | exact (Ne I)]. }
  intros h6 (S6 & N6 & Lv & Fr6). apply ok_ret. split; [reflexivity|].
  destruct St2 as (_ & N2 & Lv2 & Fr2). split; [exact S6|]. split; [lia|]. split.
  - rewrite !app_length in Lv. cbn [length] in Lv. rewrite LL in Lv. rewrite (length_slots _ _ _ _ _ _ _ _ _ _ A7) in Lv. unfold tables in Lv. rewrite A3 in Lv.
    unfold everything, scheme_tables in Lv2. destruct fourth; cbn [app length] in Lv; lia.
  - intros a Ha _. rewrite Fr6; [now apply Fr2|]. intros I. assert (Hr : In a (released u)).
    { unfold released. apply in_app_or in I. destruct I as [I|[<-|[]]]; [apply in_app_or in I; destruct I as [I|[<-|[]]]; [apply in_app_or in I; destruct I as [I|I]|]|].
      - apply in_or_app. now left.
      - apply in_or_app. right. apply in_or_app. left. exact (IL _ I).
      - apply in_or_app. right. apply in_or_app. right. cbn. auto.
      - apply in_or_app. right. apply in_or_app. right. cbn. auto. }
    specialize (Ge a Hr). lia.
Qed.
End Whole.
