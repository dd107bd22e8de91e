(** Proofs for C89 and C90: what a transition pathway reads and writes. *)
From Coq Require Import List Arith Bool Lia.
From Verif Require Import MemModel MemSpec MemProofs MemPlan MemDims MemRun.
Import ListNotations.
Unset Implicit Arguments.

Section Core.
Variables (T V : Type) (N : numerics T V).
Notation heap := (heap T V).
Notation M := (M T V).
Notation step := (step T V).
Notation K := (K T V).
Notation ok := (ok T V).
Variable W : ptr -> Prop.
Notation evo := (evo T V W).

Ltac go := apply ok_bind; eapply ok_weaken.
Ltac rd := go; [eapply ok_read; [eapply K_evo; eassumption | lia..] |].

Lemma wigner_rotation_ok : forall rank n wig woff exp R out ooff nR nw no lo hi wl wh elo h, rank <= 4 -> sane h -> W out ->
  K h R nR 0 nR -> 2 * rank + 1 <= nR -> K h exp (4 * n) elo (4 * n) -> elo <= (4 - rank) * n ->
  K h wig nw wl wh -> wl <= woff -> woff + (2 * rank + 1) * (rank + 1) * n <= wh -> wh <= nw ->
  K h out no lo hi -> ooff + (rank + 1) * n <= no ->
  ok (wigner_rotation N rank n wig woff exp R out ooff) h
     (fun _ h' => evo h h' 0 /\ K h' out no ooff (ooff + (rank + 1) * n)).
Proof.
  intros rank n wig woff exp R out ooff nR nw no lo hi wl wh elo h Hr Sn Wo KR HR Ke He Kw Hw1 Hw2 Hw3 Ko Ho. unfold wigner_rotation.
  apply ok_bind. eapply ok_weaken; [apply (ok_malloc T V W _ h Sn)|]. intros t h1 (E1 & Kt & -> & N1).
  pose proof (evo_sane _ _ _ _ _ _ E1) as S1.
  apply ok_bind. eapply ok_weaken; [eapply ok_read; [eapply K_evo; [exact Sn | exact E1 | exact KR] | lia | lia | lia]|]. intros r h2 (-> & _).
  apply ok_bind. eapply ok_weaken; [eapply ok_read; [eapply K_evo; [exact Sn | exact E1 | exact Ke] | lia | |]|].
  1: { assert ((4 - rank) * n + rank * n = 4 * n) by nia. lia. }
  1: { assert ((4 - rank) * n + rank * n = 4 * n) by nia. lia. }
  intros e h2 (-> & _).
  apply ok_bind. eapply ok_weaken; [eapply ok_read; [eapply K_evo; [exact Sn | exact E1 | exact Kw] | lia | lia | lia]|]. intros d h2 (-> & _).
  apply ok_bind. eapply ok_weaken; [eapply (ok_store T V W); [exact S1 | eapply K_evo; [exact Sn | exact E1 | exact Ko] | rewrite length_tab; lia | exact Wo]|].
  rewrite length_tab. intros u h2 (E2 & K2 & _).
  assert (E02 : evo h h2 1) by (eapply evo_trans; [exact E1 | exact E2 | reflexivity]).
  eapply ok_weaken; [eapply (ok_free T V W); [exact Sn | exact E02 | eapply K_evo; [exact S1 | exact E2 | exact Kt] | lia]|].
  intros u' h3 (E3 & _ & Fr). split; [exact E3|]. eapply K_free; [exact Fr | | exact K2].
  pose proof (K_lt _ _ _ _ _ _ _ Sn Ko). lia.
Qed.

(** The arrays of the averaging scheme. *)
Definition scheme_ready (octants : nat) (h : heap) (s : scheme_s) : Prop :=
  (octants = 1 \/ octants = 4) /\ s_total s = octants * s_npts s /\
  K h (s_exp s) (4 * s_npts s) (if s_fourth s then 0 else 2 * s_npts s) (4 * s_npts s) /\
  K h (s_w2d s) (15 * s_npts s) 0 (15 * s_npts s) /\ K h (s_w2 s) (3 * s_total s) 0 0 /\
  (if s_fourth s then K h (s_w4d s) (45 * s_npts s) 0 (45 * s_npts s) /\ K h (s_w4 s) (5 * s_total s) 0 0
   else s_w4 s = NULL /\ s_w4d s = NULL).

Lemma scheme_ready_evo : forall octants s h h' k, sane h -> evo h h' k -> scheme_ready octants h s -> scheme_ready octants h' s.
Proof.
  intros octants s h h' k Sn E (A & B & C & D & F & G). split; [exact A|]. split; [exact B|]. split; [eapply K_evo; eassumption|].
  split; [eapply K_evo; eassumption|]. split; [eapply K_evo; eassumption|].
  destruct (s_fourth s); [|exact G]. destruct G as [G1 G2]. split; eapply K_evo; eassumption.
Qed.

Section Pathway.
Variables (s : scheme_s) (octants : nat).
Hypothesis We : W (s_exp s).
Hypothesis W2 : W (s_w2 s).
Hypothesis W4 : s_fourth s = true -> W (s_w4 s).
Notation n := (s_npts s).

Lemma is_fourth : forall h, sane h -> scheme_ready octants h s -> negb (s_w4 s =? NULL) = s_fourth s.
Proof.
  intros h Sn (_ & _ & _ & _ & _ & G). destruct (s_fourth s).
  - destruct G as [_ G]. pose proof (K_lt _ _ _ _ _ _ _ Sn G). unfold NULL. destruct (Nat.eqb_spec (s_w4 s) 0); [lia | reflexivity].
  - destruct G as [-> _]. reflexivity.
Qed.

Lemma octant_ok : forall R2 R4 k h, sane h -> scheme_ready octants h s -> K h R2 5 0 5 -> (s_fourth s = true -> K h R4 9 0 9) -> k < octants ->
  forall j todo Q, (forall h', evo h h' 0 -> K h' (s_w2 s) (3 * s_total s) (k * (3 * n)) (S k * (3 * n)) ->
      (s_fourth s = true -> K h' (s_w4 s) (5 * s_total s) (k * (5 * n)) (S k * (5 * n))) ->
      ok (batch_rotation N todo n octants (s_w2d s) R2 (s_w4d s) R4 (s_exp s) (s_w2 s) (s_w4 s) (k + 1)) h' Q) -> j = S todo ->
    ok (batch_rotation N j n octants (s_w2d s) R2 (s_w4d s) R4 (s_exp s) (s_w2 s) (s_w4 s) k) h Q.
Proof.
  intros R2 R4 k h Sn SR KR2 KR4 Hk j todo Q Next ->. pose proof (is_fourth h Sn SR) as F4. pose proof SR as (Ho & Ht & Ke & Kd & Kw & G).
  cbn [batch_rotation]. rewrite F4.
  replace (octants =? 8) with false by (destruct Ho as [-> | ->]; reflexivity). unfold when at 1 3. 
  apply ok_bind. eapply ok_weaken; [eapply (wigner_rotation_ok 2) with (elo := 2 * n); [lia | exact Sn | exact W2 | exact KR2 | lia | | lia | exact Kd | lia | lia | lia | exact Kw | nia]|].
  { eapply K_sub; [exact Ke | destruct (s_fourth s); lia | lia]. }
  intros u h1 (E1 & K1). clear u. pose proof (evo_sane _ _ _ _ _ _ E1) as S1.
  apply ok_bind, ok_ret. apply ok_bind.
  eapply ok_weaken with (Q := fun _ h2 => evo h h2 0 /\ (s_fourth s = true -> K h2 (s_w4 s) (5 * s_total s) (k * (5 * n)) (S k * (5 * n))) /\
                                          K h2 (s_w2 s) (3 * s_total s) (k * (3 * n)) (S k * (3 * n))).
  { assert (K1' : K h1 (s_w2 s) (3 * s_total s) (k * (3 * n)) (S k * (3 * n))) by (eapply K_sub; [exact K1 | lia | lia]).
    destruct (s_fourth s) eqn:Ef; unfold when.
    - destruct G as [Gd Gw]. apply ok_bind.
      eapply ok_weaken; [eapply (wigner_rotation_ok 4) with (elo := 0);
        [lia | exact S1 | apply W4; reflexivity | eapply K_evo; [exact Sn | exact E1 | apply KR4; reflexivity] | lia
        | eapply K_evo; [exact Sn | exact E1 | exact Ke] | lia | eapply K_evo; [exact Sn | exact E1 | exact Gd] | lia | lia | lia
        | eapply K_evo; [exact Sn | exact E1 | exact Gw] | nia]|].
      intros u h2 (E2 & K2). apply ok_ret. split; [eapply evo_trans; [exact E1 | exact E2 | reflexivity]|]. split.
      + intros _. eapply K_sub; [exact K2 | lia | lia].
      + eapply K_evo; [exact S1 | exact E2 | exact K1'].
    - apply ok_ret. split; [exact E1|]. split; [discriminate | exact K1']. }
  clear K1 E1 S1. clear h1. intros u h1 (E1 & K4 & K1). clear u. pose proof (evo_sane _ _ _ _ _ _ E1) as S1.
  apply ok_bind.
  eapply ok_weaken with (Q := fun _ h2 => evo h1 h2 0).
  { assert (Ke1 : K h1 (s_exp s) (4 * n) (if s_fourth s then 0 else 2 * n) (4 * n)) by (eapply K_evo; [exact Sn | exact E1 | exact Ke]).
    destruct (octants =? 1); unfold when at 1; cbn [negb]; [apply ok_ret, evo_refl, S1|].
    assert (le2 : (if s_fourth s then 0 else 2 * n) <= 2 * n) by (destruct (s_fourth s); lia).
    apply ok_bind. eapply ok_weaken; [eapply ok_read; [exact Ke1 | lia | lia | lia]|]. intros l h2 (-> & _).
    apply ok_bind. eapply ok_weaken; [eapply (ok_store T V W); [exact S1 | exact Ke1 | rewrite length_tab; lia | exact We]|].
    intros u h2 (E2 & _). clear u. pose proof (evo_sane _ _ _ _ _ _ E2) as S2.
    pose proof (K_evo _ _ _ _ _ _ _ _ _ _ S1 E2 Ke1) as Ke2.
    apply ok_bind. eapply ok_weaken; [eapply ok_read; [exact Ke2 | lia | lia | lia]|]. intros l' h3 (-> & _).
    apply ok_bind. eapply ok_weaken; [eapply (ok_store T V W); [exact S2 | exact Ke2 | rewrite length_tab; lia | exact We]|].
    intros u h3 (E3 & _). clear u. pose proof (evo_sane _ _ _ _ _ _ E3) as S3.
    pose proof (K_evo _ _ _ _ _ _ _ _ _ _ S2 E3 Ke2) as Ke3.
    destruct (s_fourth s); unfold when; [|apply ok_ret; eapply evo_trans; [exact E2 | exact E3 | reflexivity]].
    apply ok_bind. eapply ok_weaken; [eapply ok_read; [exact Ke3 | lia | lia | lia]|]. intros l'' h4 (-> & _).
    eapply ok_weaken; [eapply (ok_store T V W); [exact S3 | exact Ke3 | rewrite length_tab; lia | exact We]|].
    intros u h4 (E4 & _). eapply evo_trans; [exact E2 | eapply evo_trans; [exact E3 | exact E4 | reflexivity] | reflexivity]. }
  intros u h2 E2. clear u. apply Next.
  - eapply evo_trans; [exact E1 | exact E2 | reflexivity].
  - eapply K_evo; [exact S1 | exact E2 | exact K1].
  - intros Hf. eapply K_evo; [exact S1 | exact E2 | exact (K4 Hf)].
Qed.

Lemma batch_ok : forall R2 R4 todo k h, sane h -> scheme_ready octants h s -> K h R2 5 0 5 -> (s_fourth s = true -> K h R4 9 0 9) -> todo + k = octants ->
  K h (s_w2 s) (3 * s_total s) 0 (k * (3 * n)) -> (s_fourth s = true -> K h (s_w4 s) (5 * s_total s) 0 (k * (5 * n))) ->
  ok (batch_rotation N todo n octants (s_w2d s) R2 (s_w4d s) R4 (s_exp s) (s_w2 s) (s_w4 s) k) h
     (fun _ h' => evo h h' 0 /\ K h' (s_w2 s) (3 * s_total s) 0 (3 * s_total s) /\ (s_fourth s = true -> K h' (s_w4 s) (5 * s_total s) 0 (5 * s_total s))).
Proof.
  intros R2 R4 todo. induction todo as [|todo IH]; intros k h Sn SR KR2 KR4 Hk K2 K4; pose proof SR as (_ & Ht & _).
  - apply ok_ret. split; [now apply evo_refl|]. split; [eapply K_sub; [exact K2 | lia | nia]|]. intros Hf. eapply K_sub; [exact (K4 Hf) | lia | nia].
  - eapply octant_ok; [exact Sn | exact SR | exact KR2 | exact KR4 | lia | | reflexivity]. intros h1 E1 K2' K4'.
    pose proof (evo_sane _ _ _ _ _ _ E1) as S1. replace (k + 1) with (S k) by lia.
    eapply ok_weaken; [apply (IH (S k) h1)|].
    + exact S1.
    + eapply scheme_ready_evo; [exact Sn | exact E1 | exact SR].
    + eapply K_evo; [exact Sn | exact E1 | exact KR2].
    + intros Hf. eapply K_evo; [exact Sn | exact E1 | exact (KR4 Hf)].
    + lia.
    + eapply K_join; [eapply K_evo; [exact Sn | exact E1 | exact K2] | exact K2'].
    + intros Hf. eapply K_join; [eapply K_evo; [exact Sn | exact E1 | exact (K4 Hf)] | exact (K4' Hf)].
    + intros u h2 (E2 & R). split; [eapply evo_trans; [exact E1 | exact E2 | reflexivity] | exact R].
Qed.

(** ** An event *)
Variable nsb : nat.
Notation size := (s_total s * nsb).
Definition filled (h : heap) (o : option ptr) (m : nat) : Prop := exists a, o = Some a /\ K h a m 0 m.
Definition plan_ready (h : heap) (p : plan_s T) : Prop :=
  p_nsb p = nsb /\ p_fourth p = s_fourth s /\ p_size p = size /\ p_octants p = octants /\
  filled h (p_vrfreq p) nsb /\ filled h (p_norm p) n /\ filled h (p_d2 p) 5 /\ filled h (p_pre2 p) (2 * nsb) /\
  (s_fourth s = true -> filled h (p_d4 p) 9 /\ filled h (p_pre4 p) (4 * nsb)).
Lemma filled_evo : forall h h' k o m, sane h -> evo h h' k -> filled h o m -> filled h' o m.
Proof. intros h h' k o m Sn E (a & -> & Ka). exists a. split; [reflexivity|]. eapply K_evo; eassumption. Qed.
Lemma plan_ready_evo : forall h h' k p, sane h -> evo h h' k -> plan_ready h p -> plan_ready h' p.
Proof.
  intros h h' k p Sn E (A & B & C & D & F1 & F2 & F3 & F4 & F5). unfold plan_ready.
  do 4 (split; [assumption|]). do 4 (split; [eapply filled_evo; eassumption|]). intros Hf. destruct (F5 Hf) as [G1 G2]. split; eapply filled_evo; eassumption.
Qed.

Lemma get_frequencies_ok : forall p R2 R4 refresh d lo hi h, sane h -> scheme_ready octants h s -> plan_ready h p -> K h R2 5 0 5 ->
  (s_fourth s = true -> K h R4 9 0 9) -> W (d_local d) -> K h (d_local d) (s_total s) lo hi ->
  (refresh = false -> K h (d_local d) (s_total s) 0 (s_total s)) ->
  ok (get_frequencies N s p R2 R4 refresh d) h
     (fun _ h' => evo h h' 0 /\ K h' (s_w2 s) (3 * s_total s) 0 (3 * s_total s) /\
                  (s_fourth s = true -> K h' (s_w4 s) (5 * s_total s) 0 (5 * s_total s)) /\ K h' (d_local d) (s_total s) 0 (s_total s)).
Proof.
  intros p R2 R4 refresh d lo hi h Sn SR PR KR2 KR4 Wd Kd Kr. unfold get_frequencies.
  pose proof PR as (_ & Pf & _ & Po & _ & _ & (d2 & Pd2 & Kd2) & _ & P4). rewrite Po, Pf.
  pose proof SR as (_ & Ht & _ & _ & Kw2 & G).
  apply ok_bind. eapply ok_weaken; [apply (batch_ok R2 R4 octants 0 h Sn SR KR2 KR4)|].
  { lia. } { exact Kw2. } { intros Hf. rewrite Hf in G. apply G. }
  intros u h1 (E1 & K2 & K4). clear u. pose proof (evo_sane _ _ _ _ _ _ E1) as S1.
  apply ok_bind. eapply ok_weaken with (Q := fun _ h2 => evo h1 h2 0 /\ K h2 (d_local d) (s_total s) 0 (s_total s)).
  { destruct refresh; unfold when.
    - eapply ok_weaken; [eapply (ok_store T V W); [exact S1 | eapply K_evo; [exact Sn | exact E1 | exact Kd] | rewrite length_tab; lia | exact Wd]|].
      rewrite length_tab. intros u h2 (E2 & K2' & _). split; [exact E2 | exact K2'].
    - apply ok_ret. split; [now apply evo_refl|]. eapply K_evo; [exact Sn | exact E1 | now apply Kr]. }
  intros u h2 (E2 & Kl). clear u. pose proof (evo_sane _ _ _ _ _ _ E2) as S2.
  assert (E02 : evo h h2 0) by (eapply evo_trans; [exact E1 | exact E2 | reflexivity]).
  assert (K22 : K h2 (s_w2 s) (3 * s_total s) 0 (3 * s_total s)) by (eapply K_evo; [exact S1 | exact E2 | exact K2]).
  apply ok_bind. eapply ok_known; [exact Pd2|].
  apply ok_bind. eapply ok_weaken; [eapply ok_read; [eapply K_evo; [exact Sn | exact E02 | exact Kd2] | lia | lia | lia]|]. intros v x (-> & _).
  apply ok_bind. eapply ok_weaken; [eapply ok_read; [exact K22 | lia | lia | lia]|]. intros w x (-> & _).
  apply ok_bind. eapply ok_weaken; [eapply ok_read; [exact Kl | lia | lia | lia]|]. intros f x (-> & _).
  apply ok_bind. eapply ok_weaken; [eapply (ok_store T V W); [exact S2 | exact Kl | rewrite length_tab; lia | exact Wd]|].
  intros u h3 (E3 & _). clear u. pose proof (evo_sane _ _ _ _ _ _ E3) as S3.
  assert (E03 : evo h h3 0) by (eapply evo_trans; [exact E02 | exact E3 | reflexivity]).
  assert (Kl3 : K h3 (d_local d) (s_total s) 0 (s_total s)) by (eapply K_evo; [exact S2 | exact E3 | exact Kl]).
  assert (K23 : K h3 (s_w2 s) (3 * s_total s) 0 (3 * s_total s)) by (eapply K_evo; [exact S2 | exact E3 | exact K22]).
  assert (E13 : evo h1 h3 0) by (eapply evo_trans; [exact E2 | exact E3 | reflexivity]).
  destruct (s_fourth s) eqn:Ef; unfold when; [|apply ok_ret; split; [exact E03|]; split; [exact K23|]; split; [discriminate | exact Kl3]].
  destruct (P4 eq_refl) as [(d4 & Pd4 & Kd4) _].
  assert (K43 : K h3 (s_w4 s) (5 * s_total s) 0 (5 * s_total s)) by (eapply K_evo; [exact S1 | exact E13 | now apply K4]).
  apply ok_bind. eapply ok_known; [exact Pd4|].
  apply ok_bind. eapply ok_weaken; [eapply ok_read; [eapply K_evo; [exact Sn | exact E03 | exact Kd4] | lia | lia | lia]|]. intros v' x (-> & _).
  apply ok_bind. eapply ok_weaken; [eapply ok_read; [exact K43 | lia | lia | lia]|]. intros w' x (-> & _).
  apply ok_bind. eapply ok_weaken; [eapply ok_read; [exact Kl3 | lia | lia | lia]|]. intros f' x (-> & _).
  eapply ok_weaken; [eapply (ok_store T V W); [exact S3 | exact Kl3 | rewrite length_tab; lia | exact Wd]|].
  intros u h4 (E4 & _). split; [eapply evo_trans; [exact E03 | exact E4 | reflexivity]|].
  split; [eapply K_evo; [exact S3 | exact E4 | exact K23]|]. split; [intros _; eapply K_evo; [exact S3 | exact E4 | exact K43] | eapply K_evo; [exact S3 | exact E4 | exact Kl3]].
Qed.

Lemma get_amplitudes_ok : forall p f e h, sane h -> scheme_ready octants h s -> plan_ready h p ->
  K h (s_w2 s) (3 * s_total s) 0 (3 * s_total s) -> (s_fourth s = true -> K h (s_w4 s) (5 * s_total s) 0 (5 * s_total s)) ->
  W (f_vector f) -> K h (f_vector f) size 0 0 -> W (e_amp e) -> K h (e_amp e) size 0 size ->
  ok (get_amplitudes N s p f e) h (fun _ h' => evo h h' 0).
Proof.
  intros p f e h Sn SR PR K2 K4 Wf Kf We' Ka. unfold get_amplitudes. rewrite (is_fourth h Sn SR).
  pose proof PR as (Pn & Pf & Ps & Po & _ & _ & _ & (pre2 & Pp2 & Kp2) & P4). rewrite Pn, Ps.
  destruct (nsb =? 1); unfold when at 1; cbn [negb]; [apply ok_ret; now apply evo_refl|].
  apply ok_bind. eapply ok_known; [exact Pp2|].
  apply ok_bind. eapply ok_weaken; [eapply ok_read; [exact Kp2 | lia | lia | lia]|]. intros a x (-> & _).
  apply ok_bind. eapply ok_weaken; [eapply ok_read; [exact K2 | lia | lia | lia]|]. intros w x (-> & _).
  apply ok_bind. eapply ok_weaken; [eapply (ok_store T V W); [exact Sn | exact Kf | rewrite length_tab; lia | exact Wf]|].
  rewrite length_tab. intros u h1 (E1 & Kf1 & _). clear u. pose proof (evo_sane _ _ _ _ _ _ E1) as S1.
  assert (Kf1' : K h1 (f_vector f) size 0 size) by (eapply K_sub; [exact Kf1 | lia | lia]). clear Kf1.
  apply ok_bind. eapply ok_weaken with (Q := fun _ h2 => evo h1 h2 0).
  { destruct (s_fourth s) eqn:Ef; unfold when; [|apply ok_ret; now apply evo_refl].
    destruct (P4 eq_refl) as [_ (pre4 & Pp4 & Kp4)].
    apply ok_bind. eapply ok_known; [exact Pp4|].
    apply ok_bind. eapply ok_weaken; [eapply ok_read; [eapply K_evo; [exact Sn | exact E1 | exact Kp4] | lia | lia | lia]|]. intros a' x (-> & _).
    apply ok_bind. eapply ok_weaken; [eapply ok_read; [eapply K_evo; [exact Sn | exact E1 | now apply K4] | lia | lia | lia]|]. intros w' x (-> & _).
    apply ok_bind. eapply ok_weaken; [eapply ok_read; [exact Kf1' | lia | lia | lia]|]. intros v' x (-> & _).
    eapply ok_weaken; [eapply (ok_store T V W); [exact S1 | exact Kf1' | rewrite length_tab; lia | exact Wf]|].
    intros u h2 (E2 & _). exact E2. }
  intros u h2 E2. clear u. pose proof (evo_sane _ _ _ _ _ _ E2) as S2.
  assert (Kf2 : K h2 (f_vector f) size 0 size) by (eapply K_evo; [exact S1 | exact E2 | exact Kf1']).
  apply ok_bind. eapply ok_weaken; [eapply ok_read; [exact Kf2 | lia | lia | lia]|]. intros v x (-> & _).
  apply ok_bind. eapply ok_weaken; [eapply (ok_store T V W); [exact S2 | exact Kf2 | rewrite length_tab; lia | exact Wf]|].
  intros u h3 (E3 & _). clear u. pose proof (evo_sane _ _ _ _ _ _ E3) as S3.
  assert (E03 : evo h h3 0) by (eapply evo_trans; [exact E1 | eapply evo_trans; [exact E2 | exact E3 | reflexivity] | reflexivity]).
  apply ok_bind. eapply ok_weaken; [eapply ok_read; [eapply K_evo; [exact S2 | exact E3 | exact Kf2] | lia | lia | lia]|]. intros v' x (-> & Lv).
  eapply ok_weaken; [eapply (ok_store T V W); [exact S3 | eapply K_evo; [exact Sn | exact E03 | exact Ka] | lia | exact We']|].
  intros u h4 (E4 & _). eapply evo_trans; [exact E03 | exact E4 | reflexivity].
Qed.

(** ** A dimension *)
Definition event_ready (h : heap) (e : event_s) : Prop :=
  exists q p, e_plan e = Some q /\ mem h q = Some (Plan V p) /\ ~ W q /\ plan_ready h p /\ K h (e_amp e) size 0 size /\ W (e_amp e).
Definition dim_ready (h : heap) (de : dim_s * list event_s) : Prop :=
  mem h (d_events (fst de)) = Some (Events T V (snd de)) /\ ~ W (d_events (fst de)) /\ d_n (fst de) = length (snd de) /\ snd de <> [] /\
  Forall (event_ready h) (snd de) /\ K h (d_local (fst de)) (s_total s) 0 0 /\ W (d_local (fst de)) /\
  K h (d_offset (fst de)) n 0 0 /\ W (d_offset (fst de)).
Lemma event_ready_evo : forall h h' k e, sane h -> evo h h' k -> event_ready h e -> event_ready h' e.
Proof.
  intros h h' k e Sn E (q & p & Eq & Em & NW & PR & Ka & Wa). exists q, p. split; [exact Eq|]. split; [eapply mem_evo; eassumption|]. split; [exact NW|].
  split; [eapply plan_ready_evo; eassumption|]. split; [eapply K_evo; eassumption | exact Wa].
Qed.
Lemma dim_ready_evo : forall h h' k de, sane h -> evo h h' k -> dim_ready h de -> dim_ready h' de.
Proof.
  intros h h' k de Sn E (A & B & C & D & F & G & H & I & J). split; [eapply mem_evo; eassumption|]. do 3 (split; [assumption|]).
  split; [eapply Forall_impl; [|exact F]; intros e; eapply event_ready_evo; eassumption|]. split; [eapply K_evo; eassumption|]. split; [exact H|].
  split; [eapply K_evo; eassumption | exact J].
Qed.
Lemma nth_event : forall h evs k, Forall (event_ready h) evs -> k < length evs -> exists e, nth_error evs k = Some e /\ event_ready h e.
Proof.
  intros h evs k F Hk. destruct (nth_error evs k) as [e|] eqn:E; [|apply nth_error_None in E; lia]. exists e. split; [reflexivity|].
  exact (proj1 (Forall_forall _ _) F e (nth_error_In _ _ E)).
Qed.

Lemma ok_iter_seq : forall (f : nat -> M unit) (I : nat -> heap -> Prop) m a h, I a h ->
  (forall i h, a <= i < a + m -> I i h -> ok (f i) h (fun _ h' => I (S i) h')) -> ok (iter (seq a m) f) h (fun _ h' => I (a + m) h').
Proof.
  intros f I m. induction m as [|m IH]; intros a h Ia St; [apply ok_ret; now rewrite Nat.add_0_r|]. cbn [seq iter]. apply ok_bind.
  eapply ok_weaken; [apply St; [lia | exact Ia]|]. intros u h' Ih'. replace (a + S m) with (S a + m) by lia. apply IH; [exact Ih'|].
  intros i h2 Hi. apply St. lia.
Qed.

(** What the loops over the dimensions and events do, from a heap [h] on. *)
Lemma events_loop_ok : forall f R2 R4 R2t R4t d evs h, sane h -> scheme_ready octants h s -> dim_ready h (d, evs) -> W (f_vector f) -> K h (f_vector f) size 0 0 ->
  K h R2 5 0 0 -> W R2 -> K h R4 9 0 0 -> W R4 -> K h R2t 5 0 0 -> W R2t -> K h R4t 9 0 0 -> W R4t ->
  ok (iter (seq 0 (d_n d)) (fun k =>
      bind (load_events (d_events d)) (fun evs => bind (known (nth_error evs k)) (fun e =>
      bind (known (e_plan e)) (fun plan => bind (load_plan plan) (fun p =>
      bind (store R2 0 (tab 5 (fun _ => n_zero N))) (fun _ => bind (store R4 0 (tab 9 (fun _ => n_zero N))) (fun _ =>
      bind (store R2t 0 (tab 5 (n_kernel N 20 []))) (fun _ => bind (store R2 0 (tab 5 (n_kernel N 21 []))) (fun _ =>
      bind (when (p_fourth p) (bind (store R4t 0 (tab 9 (n_kernel N 22 []))) (fun _ => store R4 0 (tab 9 (n_kernel N 23 []))))) (fun _ =>
      bind (get_frequencies N s p R2 R4 (k =? 0) d) (fun _ => get_amplitudes N s p f e)))))))))))) h
     (fun _ h' => evo h h' 0 /\ K h' (d_local d) (s_total s) 0 (s_total s)).
Proof.
  intros f R2 R4 R2t R4t d evs h Sn SR DR Wf Kf K2 W2' K4 W4' K2t W2t K4t W4t.
  pose proof DR as (Ev & NWe & Dn & Ne & Fe & Kl & Wl & _). cbn [fst snd] in *. rewrite Dn.
  eapply ok_weaken.
  - apply (ok_iter_seq _ (fun i h' => evo h h' 0 /\ (0 < i -> K h' (d_local d) (s_total s) 0 (s_total s)))).
    + split; [now apply evo_refl | lia].
    + intros k h1 Hk (E1 & Ki). pose proof (evo_sane _ _ _ _ _ _ E1) as S1.
      apply ok_bind. eapply ok_load_events; [eapply mem_evo; [exact Sn | exact E1 | exact NWe | exact Ev]|].
      destruct (nth_event h evs k Fe ltac:(lia)) as (e & Ee & ER). apply ok_bind. eapply ok_known; [exact Ee|].
      pose proof ER as (q & p & Eq & Em & NW & PR & Ka & Wa). apply ok_bind. eapply ok_known; [exact Eq|].
      apply ok_bind. eapply ok_load_plan; [eapply mem_evo; [exact Sn | exact E1 | exact NW | exact Em]|].
      apply ok_bind. eapply ok_weaken; [eapply (ok_store T V W); [exact S1 | eapply K_evo; [exact Sn | exact E1 | exact K2] | rewrite length_tab; lia | exact W2']|].
      rewrite length_tab. intros u h2 (E2 & _). clear u. pose proof (evo_sane _ _ _ _ _ _ E2) as S2.
      assert (E02 : evo h h2 0) by (eapply evo_trans; [exact E1 | exact E2 | reflexivity]).
      apply ok_bind. eapply ok_weaken; [eapply (ok_store T V W); [exact S2 | eapply K_evo; [exact Sn | exact E02 | exact K4] | rewrite length_tab; lia | exact W4']|].
      rewrite length_tab. intros u h3 (E3 & K43 & _). clear u. pose proof (evo_sane _ _ _ _ _ _ E3) as S3. cbn [Nat.add] in K43.
      assert (E03 : evo h h3 0) by (eapply evo_trans; [exact E02 | exact E3 | reflexivity]).
      apply ok_bind. eapply ok_weaken; [eapply (ok_store T V W); [exact S3 | eapply K_evo; [exact Sn | exact E03 | exact K2t] | rewrite length_tab; lia | exact W2t]|].
      intros u h4 (E4 & _). clear u. pose proof (evo_sane _ _ _ _ _ _ E4) as S4.
      assert (E04 : evo h h4 0) by (eapply evo_trans; [exact E03 | exact E4 | reflexivity]).
      apply ok_bind. eapply ok_weaken; [eapply (ok_store T V W); [exact S4 | eapply K_evo; [exact Sn | exact E04 | exact K2] | rewrite length_tab; lia | exact W2']|].
      rewrite length_tab. intros u h5 (E5 & K25 & _). clear u. pose proof (evo_sane _ _ _ _ _ _ E5) as S5. cbn [Nat.add] in K25.
      assert (E05 : evo h h5 0) by (eapply evo_trans; [exact E04 | exact E5 | reflexivity]).
      assert (E15 : evo h1 h5 0) by (eapply evo_trans; [exact E2|eapply evo_trans; [exact E3|eapply evo_trans; [exact E4|exact E5|reflexivity]|reflexivity]|reflexivity]).
      assert (K45 : K h5 R4 9 0 9) by (eapply K_evo; [exact S4 | exact E5 | eapply K_evo; [exact S3 | exact E4 | exact K43]]).
      apply ok_bind. eapply ok_weaken with (Q := fun _ h6 => evo h5 h6 0).
      { destruct (p_fourth p); unfold when; [|apply ok_ret; now apply evo_refl].
        apply ok_bind. eapply ok_weaken; [eapply (ok_store T V W); [exact S5 | eapply K_evo; [exact Sn | exact E05 | exact K4t] | rewrite length_tab; lia | exact W4t]|].
        intros u h6 (E6 & _). clear u. pose proof (evo_sane _ _ _ _ _ _ E6) as S6.
        eapply ok_weaken; [eapply (ok_store T V W); [exact S6 | eapply K_evo; [exact S5 | exact E6 | exact K45] | rewrite length_tab; lia | exact W4']|].
        intros u h7 (E7 & _). eapply evo_trans; [exact E6 | exact E7 | reflexivity]. }
      intros u h6 E6. clear u. pose proof (evo_sane _ _ _ _ _ _ E6) as S6.
      assert (E06 : evo h h6 0) by (eapply evo_trans; [exact E05 | exact E6 | reflexivity]).
      assert (E16 : evo h1 h6 0) by (eapply evo_trans; [exact E15 | exact E6 | reflexivity]).
      apply ok_bind. eapply ok_weaken; [eapply (get_frequencies_ok p R2 R4 (k =? 0) d 0 0 h6 S6)|].
      * eapply scheme_ready_evo; [exact Sn | exact E06 | exact SR].
      * eapply plan_ready_evo; [exact Sn | exact E06 | exact PR].
      * eapply K_evo; [exact S5 | exact E6 | exact K25].
      * intros _. eapply K_evo; [exact S5 | exact E6 | exact K45].
      * exact Wl.
      * eapply K_evo; [exact Sn | exact E06 | exact Kl].
      * intros Hk0. apply Nat.eqb_neq in Hk0. eapply K_evo; [exact S1 | exact E16 | apply Ki; lia].
      * intros u h7 (E7 & K27 & K47 & Kl7). clear u. pose proof (evo_sane _ _ _ _ _ _ E7) as S7.
        assert (E07 : evo h h7 0) by (eapply evo_trans; [exact E06 | exact E7 | reflexivity]).
        eapply ok_weaken; [eapply (get_amplitudes_ok p f e h7 S7)|].
        -- eapply scheme_ready_evo; [exact Sn | exact E07 | exact SR].
        -- eapply plan_ready_evo; [exact Sn | exact E07 | exact PR].
        -- exact K27.
        -- exact K47.
        -- exact Wf.
        -- eapply K_evo; [exact Sn | exact E07 | exact Kf].
        -- exact Wa.
        -- eapply K_evo; [exact Sn | exact E07 | exact Ka].
        -- intros u h8 E8. split; [eapply evo_trans; [exact E07 | exact E8 | reflexivity]|]. intros _. eapply K_evo; [exact S7 | exact E8 | exact Kl7].
  - intros u h' (E & Kk). split; [exact E|]. apply Kk. destruct evs; [now destruct Ne | cbn; lia].
Qed.

(** ** Averaging *)
Lemma one_dim_ok : forall d evs h, sane h -> scheme_ready octants h s -> dim_ready h (d, evs) -> K h (d_local d) (s_total s) 0 (s_total s) ->
  ok (one_dimensional_averaging N s d) h (fun _ h' => evo h h' 0).
Proof.
  intros d evs h Sn SR DR Kl. pose proof DR as (Ev & NWe & Dn & Ne & Fe & _ & Wl & Ko & Wo). cbn [fst snd] in *. unfold one_dimensional_averaging.
  pose proof SR as (_ & Ht & _).
  apply ok_bind. eapply ok_load_events; [exact Ev|].
  assert (L0 : 0 < length evs) by (destruct evs; [now destruct Ne | cbn; lia]).
  destruct (nth_event h evs 0 Fe L0) as (e0 & Ee & ER). apply ok_bind. eapply ok_known; [exact Ee|].
  pose proof ER as (q & p & Eq & Em & NW & PR & Ka & Wa). apply ok_bind. eapply ok_known; [exact Eq|].
  apply ok_bind. eapply ok_load_plan; [exact Em|]. pose proof PR as (Pn & Pf & Ps & Po & (vf & Pv & Kv) & (nm & Pm & Km) & _). rewrite Pn, Ps, Po.
  apply ok_bind. eapply ok_weaken.
  { apply (ok_iter T V _ _ (fun h' => evo h h' 0)); [now apply evo_refl|]. intros k h1 Ik E1. pose proof (evo_sane _ _ _ _ _ _ E1) as S1. apply in_seq in Ik.
    destruct (nth_event h evs k Fe ltac:(lia)) as (e & Ee' & (q' & p' & _ & _ & _ & _ & Ka' & _)). apply ok_bind. eapply ok_known; [exact Ee'|].
    apply ok_bind. eapply ok_weaken; [eapply ok_read; [eapply K_evo; [exact Sn | exact E1 | exact Ka'] | lia | lia | lia]|]. intros a x (-> & _).
    apply ok_bind. eapply ok_weaken; [eapply ok_read; [eapply K_evo; [exact Sn | exact E1 | exact Ka] | lia | lia | lia]|]. intros b x (-> & _).
    eapply ok_weaken; [eapply (ok_store T V W); [exact S1 | eapply K_evo; [exact Sn | exact E1 | exact Ka] | rewrite length_tab; lia | exact Wa]|].
    intros u h2 (E2 & _). eapply evo_trans; [exact E1 | exact E2 | reflexivity]. }
  intros u h1 E1. cbv beta in E1. clear u. pose proof (evo_sane _ _ _ _ _ _ E1) as S1.
  apply ok_bind. eapply ok_known; [exact Pm|].
  apply ok_bind. eapply ok_weaken; [eapply ok_read; [eapply K_evo; [exact Sn | exact E1 | exact Km] | lia | lia | lia]|]. intros nn x (-> & Ln).
  assert (Ka1 : K h1 (e_amp e0) size 0 size) by (eapply K_evo; [exact Sn | exact E1 | exact Ka]).
  apply ok_bind. eapply ok_weaken with (Q := fun _ h2 => evo h1 h2 0).
  { destruct (Nat.eqb_spec nsb 1) as [Eb|Nb].
    - apply (ok_iter T V _ _ (fun h' => evo h1 h' 0)); [now apply evo_refl|]. intros j h2 Ij E2. apply in_seq in Ij.
      eapply ok_weaken; [eapply (ok_store T V W); [apply (evo_sane _ _ _ _ _ _ E2) | eapply K_evo; [exact S1 | exact E2 | exact Ka1] | rewrite Ln, Ht, Eb; nia | exact Wa]|].
      intros u h3 (E3 & _). eapply evo_trans; [exact E2 | exact E3 | reflexivity].
    - apply ok_bind. assert (Lz : octants * nsb * n = size) by (rewrite Ht; ring). rewrite Lz.
      eapply ok_weaken; [eapply ok_read; [exact Ka1 | lia | lia | lia]|]. intros a x (-> & _).
      eapply ok_weaken; [eapply (ok_store T V W); [exact S1 | exact Ka1 | rewrite length_tab; lia | exact Wa]|].
      intros u h3 (E3 & _). exact E3. }
  intros u h2 E2. clear u. pose proof (evo_sane _ _ _ _ _ _ E2) as S2.
  assert (E02 : evo h h2 0) by (eapply evo_trans; [exact E1 | exact E2 | reflexivity]).
  apply ok_bind. eapply ok_known; [exact Pv|].
  apply ok_bind. eapply ok_weaken; [eapply ok_read; [eapply K_evo; [exact Sn | exact E02 | exact Kv] | lia | lia | lia]|]. intros vr x (-> & _).
  apply ok_bind. eapply ok_weaken; [eapply ok_read; [eapply K_evo; [exact Sn | exact E02 | exact Kl] | lia | lia | lia]|]. intros f x (-> & _).
  apply ok_bind. eapply ok_weaken; [eapply (ok_store T V W); [exact S2 | eapply K_evo; [exact Sn | exact E02 | exact Ko] | rewrite length_tab; lia | exact Wo]|].
  rewrite length_tab. intros u h3 (E3 & Ko3 & _). clear u. cbn [Nat.add] in Ko3.
  assert (E03 : evo h h3 0) by (eapply evo_trans; [exact E02 | exact E3 | reflexivity]).
  apply ok_bind. eapply ok_weaken; [eapply ok_read; [exact Ko3 | lia | lia | lia]|]. intros y x (-> & _).
  apply ok_bind. eapply ok_weaken; [eapply ok_read; [eapply K_evo; [exact Sn | exact E03 | exact Ka] | lia | lia | lia]|]. intros z x (-> & _).
  apply ok_ret. exact E03.
Qed.

Variable base : nat.
Hypothesis Wfresh : forall a, base <= a -> W a.

Lemma multiply_ok : forall d evs out h0 h k, sane h0 -> evo h0 h k -> dim_ready h0 (d, evs) -> K h out size 0 size -> W out ->
  ok (iter (seq 0 (d_n d)) (fun k => bind (load_events (d_events d)) (fun evs => bind (known (nth_error evs k)) (fun e =>
       bind (read (e_amp e) 0 size) (fun a => bind (read out 0 size) (fun b => store out 0 (tab size (n_kernel N 15 [a; b])))))))) h
     (fun _ h' => evo h h' 0).
Proof.
  intros d evs out h0 h k Sn0 E0 (Ev & NWe & Dn & Ne & Fe & _) Ko Wo. cbn [fst snd] in *. pose proof (evo_sane _ _ _ _ _ _ E0) as Sn.
  apply (ok_iter T V _ _ (fun h' => evo h h' 0)); [now apply evo_refl|]. intros i h1 Ii E1. apply in_seq in Ii. pose proof (evo_sane _ _ _ _ _ _ E1) as S1.
  assert (E01 : evo h0 h1 k) by (eapply evo_trans; [exact E0 | exact E1 | lia]).
  apply ok_bind. eapply ok_load_events; [eapply mem_evo; [exact Sn0 | exact E01 | exact NWe | exact Ev]|].
  destruct (nth_event h0 evs i Fe ltac:(lia)) as (e & Ee & (q' & p' & _ & _ & _ & _ & Ka & _)). apply ok_bind. eapply ok_known; [exact Ee|].
  apply ok_bind. eapply ok_weaken; [eapply ok_read; [eapply K_evo; [exact Sn0 | exact E01 | exact Ka] | lia | lia | lia]|]. intros a x (-> & _).
  apply ok_bind. eapply ok_weaken; [eapply ok_read; [eapply K_evo; [exact Sn | exact E1 | exact Ko] | lia | lia | lia]|]. intros b x (-> & _).
  eapply ok_weaken; [eapply (ok_store T V W); [exact S1 | eapply K_evo; [exact Sn | exact E1 | exact Ko] | rewrite length_tab; lia | exact Wo]|].
  intros u h2 (E2 & _). eapply evo_trans; [exact E1 | exact E2 | reflexivity].
Qed.
Lemma last_plan_ok : forall d evs h0 h k (Q : ptr -> heap -> Prop), sane h0 -> evo h0 h k -> dim_ready h0 (d, evs) ->
  (forall q p, mem h q = Some (Plan V p) -> plan_ready h0 p -> Q q h) ->
  ok (bind (load_events (d_events d)) (fun evs => bind (known (nth_error evs (d_n d - 1))) (fun e => known (e_plan e)))) h Q.
Proof.
  intros d evs h0 h k Q Sn0 E0 (Ev & NWe & Dn & Ne & Fe & _) HQ. cbn [fst snd] in *.
  apply ok_bind. eapply ok_load_events; [eapply mem_evo; [exact Sn0 | exact E0 | exact NWe | exact Ev]|].
  destruct (nth_event h0 evs (d_n d - 1) Fe) as (e & Ee & (q & p & Eq & Em & NW & PR & _)); [destruct evs; [now destruct Ne | cbn in *; lia]|].
  apply ok_bind. eapply ok_known; [exact Ee|]. eapply ok_known; [exact Eq|]. apply (HQ q p); [eapply mem_evo; [exact Sn0 | exact E0 | exact NW | exact Em] | exact PR].
Qed.

Definition reach : Prop := octants = 1 \/ forall l i k, n_visible N l i k = true -> S i < nsb /\ S k < nsb.
Lemma two_dim_ok : forall d0 evs0 d1 evs1 h, base <= next h -> sane h -> scheme_ready octants h s -> dim_ready h (d0, evs0) -> dim_ready h (d1, evs1) ->
  K h (d_local d0) (s_total s) 0 (s_total s) -> K h (d_local d1) (s_total s) 0 (s_total s) -> reach ->
  ok (two_dimensional_averaging N s nsb d0 d1) h (fun _ h' => evo h h' 0).
Proof.
  intros d0 evs0 d1 evs1 h Hb Sn SR D0 D1 Kl0 Kl1 Hn. unfold two_dimensional_averaging.
  pose proof SR as (_ & Ht & _).
  pose proof D0 as (_ & _ & _ & _ & _ & _ & Wl0 & Ko0 & Wo0). pose proof D1 as (_ & _ & _ & _ & _ & _ & Wl1 & Ko1 & Wo1). cbn [fst snd] in *.
  apply ok_bind. eapply ok_weaken; [apply (ok_malloc T V W _ h Sn)|]. intros A h1 (E1 & KA & EA & N1). pose proof (evo_sane _ _ _ _ _ _ E1) as S1.
  apply ok_bind. eapply ok_weaken; [apply (ok_malloc T V W _ h1 S1)|]. intros B h2 (E2 & KB & EB & N2). pose proof (evo_sane _ _ _ _ _ _ E2) as S2.
  apply ok_bind. eapply ok_weaken; [apply (ok_malloc T V W _ h2 S2)|]. intros C h3 (E3 & KC & EC & N3). pose proof (evo_sane _ _ _ _ _ _ E3) as S3.
  assert (KA3 : K h3 A size 0 0) by (eapply K_evo; [exact S2 | exact E3 | eapply K_evo; [exact S1 | exact E2 | exact KA]]).
  assert (KB3 : K h3 B size 0 0) by (eapply K_evo; [exact S2 | exact E3 | exact KB]).
  assert (E03 : evo h h3 3) by (eapply evo_trans; [exact E1 | eapply evo_trans; [exact E2 | exact E3 | reflexivity] | reflexivity]).
  assert (WA : W A) by (apply Wfresh; lia). assert (WB : W B) by (apply Wfresh; lia). assert (WC : W C) by (apply Wfresh; lia).
  assert (Dist : next h <= A /\ A < B /\ B < C) by lia. clear KA KB EA EB EC N1 N2 N3 E1 E2 E3 S1 S2. clear h1 h2.
  (* ampA *)
  apply ok_bind. eapply ok_weaken; [eapply (ok_store T V W); [exact S3 | exact KA3 | rewrite length_tab; lia | exact WA]|].
  rewrite length_tab. intros u h4 (E4 & KA4 & _). clear u. cbn [Nat.add] in KA4. pose proof (evo_sane _ _ _ _ _ _ E4) as S4.
  apply ok_bind. eapply ok_weaken; [eapply (ok_store T V W); [exact S4 | eapply K_evo; [exact S3 | exact E4 | exact KB3] | rewrite length_tab; lia | exact WB]|].
  rewrite length_tab. intros u h5 (E5 & KB5 & _). clear u. cbn [Nat.add] in KB5. pose proof (evo_sane _ _ _ _ _ _ E5) as S5.
  assert (KA5 : K h5 A size 0 size) by (eapply K_evo; [exact S4 | exact E5 | exact KA4]).
  assert (KC5 : K h5 C (s_total s) 0 0) by (eapply K_evo; [exact S4 | exact E5 | eapply K_evo; [exact S3 | exact E4 | exact KC]]).
  assert (E05 : evo h h5 3) by (eapply evo_trans; [exact E03 | eapply evo_trans; [exact E4 | exact E5 | reflexivity] | reflexivity]).
  clear KA3 KB3 KC KA4 E03 E4 E5 S3 S4. clear h3 h4.
  (* local frequencies *)
  apply ok_bind. eapply ok_weaken; [eapply ok_read; [eapply K_evo; [exact Sn | exact E05 | exact Kl0] | lia | lia | lia]|]. intros f0 x (-> & _).
  apply ok_bind. eapply ok_weaken; [eapply ok_read; [eapply K_evo; [exact Sn | exact E05 | exact Kl1] | lia | lia | lia]|]. intros f1 x (-> & _).
  apply ok_bind. eapply ok_weaken; [eapply (ok_store T V W); [exact S5 | eapply K_evo; [exact Sn | exact E05 | exact Kl0] | rewrite length_tab; lia | exact Wl0]|].
  intros u h6 (E6 & _). clear u. pose proof (evo_sane _ _ _ _ _ _ E6) as S6.
  assert (E06 : evo h h6 3) by (eapply evo_trans; [exact E05 | exact E6 | reflexivity]).
  apply ok_bind. eapply ok_weaken; [eapply ok_read; [eapply K_evo; [exact Sn | exact E06 | exact Kl0] | lia | lia | lia]|]. intros f0' x (-> & _).
  apply ok_bind. eapply ok_weaken; [eapply (ok_store T V W); [exact S6 | eapply K_evo; [exact Sn | exact E06 | exact Kl1] | rewrite length_tab; lia | exact Wl1]|].
  intros u h7 (E7 & _). clear u. pose proof (evo_sane _ _ _ _ _ _ E7) as S7.
  assert (E57 : evo h5 h7 0) by (eapply evo_trans; [exact E6 | exact E7 | reflexivity]).
  assert (E07 : evo h h7 3) by (eapply evo_trans; [exact E05 | exact E57 | reflexivity]).
  (* amplitudes *)
  apply ok_bind. eapply ok_weaken; [eapply (multiply_ok d0 evs0 A h h7 3 Sn E07 D0); [eapply K_evo; [exact S5 | exact E57 | exact KA5] | exact WA]|].
  intros u h8 E8. cbv beta in E8. clear u. pose proof (evo_sane _ _ _ _ _ _ E8) as S8.
  assert (E58 : evo h5 h8 0) by (eapply evo_trans; [exact E57 | exact E8 | reflexivity]).
  assert (E08 : evo h h8 3) by (eapply evo_trans; [exact E05 | exact E58 | reflexivity]).
  apply ok_bind. eapply ok_weaken; [eapply (multiply_ok d1 evs1 B h h8 3 Sn E08 D1); [eapply K_evo; [exact S5 | exact E58 | exact KB5] | exact WB]|].
  intros u h9 E9. cbv beta in E9. clear u. pose proof (evo_sane _ _ _ _ _ _ E9) as S9.
  assert (E59 : evo h5 h9 0) by (eapply evo_trans; [exact E58 | exact E9 | reflexivity]).
  assert (E09 : evo h h9 3) by (eapply evo_trans; [exact E05 | exact E59 | reflexivity]).
  clear E6 E06 E7 E57 E07 E8 E58 E08 E9 S6 S7 S8. clear h6 h7 h8.
  (* plans *)
  apply ok_bind. eapply last_plan_ok; [exact Sn | exact E09 | exact D0|]. intros qA pA EqA PRA.
  apply ok_bind. eapply last_plan_ok; [exact Sn | exact E09 | exact D1|]. intros qB pB EqB PRB.
  apply ok_bind. eapply ok_load_plan; [exact EqA|]. apply ok_bind. eapply ok_load_plan; [exact EqB|].
  pose proof PRA as (_ & _ & _ & PoA & (vA & PvA & KvA) & (nm & Pm & Km) & _). pose proof PRB as (_ & _ & _ & _ & (vB & PvB & KvB) & _). rewrite PoA.
  assert (Lz : octants * nsb * n = size) by (rewrite Ht; ring). rewrite Lz.
  apply ok_bind. eapply ok_known; [exact Pm|].
  apply ok_bind. eapply ok_weaken; [eapply ok_read; [eapply K_evo; [exact Sn | exact E09 | exact Km] | lia | lia | lia]|]. intros nn x (-> & _).
  apply ok_bind. eapply ok_weaken; [eapply ok_read; [eapply K_evo; [exact S5 | exact E59 | exact KB5] | lia | lia | lia]|]. intros b x (-> & _).
  apply ok_bind. eapply ok_weaken; [eapply (ok_store T V W); [exact S9 | eapply K_evo; [exact S5 | exact E59 | exact KB5] | rewrite length_tab; lia | exact WB]|].
  intros u h6 (E6 & _). clear u. pose proof (evo_sane _ _ _ _ _ _ E6) as S6.
  assert (E56 : evo h5 h6 0) by (eapply evo_trans; [exact E59 | exact E6 | reflexivity]).
  assert (E06 : evo h h6 3) by (eapply evo_trans; [exact E05 | exact E56 | reflexivity]).
  apply ok_bind. eapply ok_known; [exact PvA|]. apply ok_bind. eapply ok_known; [exact PvB|].
  apply ok_bind. eapply ok_weaken; [eapply ok_read; [eapply K_evo; [exact Sn | exact E06 | exact KvA] | lia | lia | lia]|]. intros a x (-> & _).
  apply ok_bind. eapply ok_weaken; [eapply ok_read; [eapply K_evo; [exact Sn | exact E06 | exact KvB] | lia | lia | lia]|]. intros b' x (-> & _).
  (* offsets *)
  apply ok_bind. eapply ok_weaken.
  { apply (ok_iter T V _ _ (fun h' => evo h6 h' 0)); [now apply evo_refl|]. intros i h7 Hi E7. apply in_seq in Hi.
    apply (ok_iter T V _ _ (fun h' => evo h6 h' 0)); [exact E7|]. clear h7 E7. intros k h7 Hk E7. apply in_seq in Hk.
    match goal with |- ok (when ?b _) _ _ => destruct b eqn:Ev; [|now apply ok_ret] end. cbn [when].
    apply (ok_iter T V _ _ (fun h' => evo h6 h' 0)); [exact E7|]. clear h7 E7. intros j h7 Hj E7. apply in_seq in Hj.
    assert (Fit : i * s_total s + j * n + s_total s <= size /\ k * s_total s + j * n + s_total s <= size /\ j * n + n <= s_total s).
    { rewrite Ht. destruct Hn as [O1|Hv].
      - assert (j = 0) by lia. subst j. rewrite O1 in *. repeat split; nia.
      - destruct (Hv _ _ _ Ev) as (Hi' & Hk'). assert (j * n + n <= octants * n) by nia. repeat split; nia. }
    destruct Fit as (FA & FB & FL).
    assert (E07 : evo h h7 3) by (eapply evo_trans; [exact E06 | exact E7 | reflexivity]). pose proof (evo_sane _ _ _ _ _ _ E7) as S7.
    apply ok_bind. eapply ok_weaken; [eapply ok_read; [eapply K_evo; [exact Sn | exact E07 | exact Kl0] | lia | lia | lia]|]. intros g0 x (-> & _).
    apply ok_bind. eapply ok_weaken; [eapply (ok_store T V W); [exact S7 | eapply K_evo; [exact Sn | exact E07 | exact Ko0] | rewrite length_tab; lia | exact Wo0]|].
    intros u h8 (E8 & _). clear u. pose proof (evo_sane _ _ _ _ _ _ E8) as S8.
    assert (E08 : evo h h8 3) by (eapply evo_trans; [exact E07 | exact E8 | reflexivity]).
    apply ok_bind. eapply ok_weaken; [eapply ok_read; [eapply K_evo; [exact Sn | exact E08 | exact Kl1] | lia | lia | lia]|]. intros g1 x (-> & _).
    apply ok_bind. eapply ok_weaken; [eapply (ok_store T V W); [exact S8 | eapply K_evo; [exact Sn | exact E08 | exact Ko1] | rewrite length_tab; lia | exact Wo1]|].
    intros u h8' (E8' & _). clear u. pose proof (evo_sane _ _ _ _ _ _ E8') as S8'.
    assert (E68 : evo h6 h8' 0) by (eapply evo_trans; [exact E7 | eapply evo_trans; [exact E8 | exact E8' | reflexivity] | reflexivity]).
    assert (E58 : evo h5 h8' 0) by (eapply evo_trans; [exact E56 | exact E68 | reflexivity]).
    apply ok_bind. eapply ok_weaken; [eapply ok_read; [eapply K_evo; [exact S5 | exact E58 | exact KA5] | lia | lia | lia]|]. intros a1 x (-> & _).
    apply ok_bind. eapply ok_weaken; [eapply ok_read; [eapply K_evo; [exact S5 | exact E58 | exact KB5] | lia | lia | lia]|]. intros b1 x (-> & _).
    eapply ok_weaken; [eapply (ok_store T V W); [exact S8' | eapply K_evo; [exact S5 | exact E58 | exact KC5] | rewrite length_tab; lia | exact WC]|].
    intros u h9' (E9 & _). eapply evo_trans; [exact E68 | exact E9 | reflexivity]. }
  cbv beta. intros u h9' E9. clear u.
  assert (E59' : evo h5 h9' 0) by (eapply evo_trans; [exact E56 | exact E9 | reflexivity]).
  assert (E09' : evo h h9' 3) by (eapply evo_trans; [exact E05 | exact E59' | reflexivity]).
  (* release *)
  apply ok_bind. eapply ok_weaken; [eapply (ok_free T V W); [exact Sn | exact E09' | eapply K_evo; [exact S5 | exact E59' | exact KC5] | lia]|].
  intros u ha (Ea & _ & Fra). clear u.
  assert (KAa : K ha A size 0 size) by (eapply K_free; [exact Fra | lia | eapply K_evo; [exact S5 | exact E59' | exact KA5]]).
  assert (KBa : K ha B size 0 size) by (eapply K_free; [exact Fra | lia | eapply K_evo; [exact S5 | exact E59' | exact KB5]]).
  apply ok_bind. eapply ok_weaken; [eapply (ok_free T V W); [exact Sn | exact Ea | exact KAa | lia]|].
  intros u hb (Eb & _ & Frb). clear u.
  eapply ok_weaken; [eapply (ok_free T V W); [exact Sn | exact Eb | eapply K_free; [exact Frb | lia | exact KBa] | lia]|].
  intros u hc (Ec & _). exact Ec.
Qed.

(** ** The whole pathway *)
Definition ready (dp fp sp : ptr) (f : fftw_s) (des : list (dim_s * list event_s)) (h : heap) : Prop :=
  mem h sp = Some (Scheme T V s) /\ ~ W sp /\ scheme_ready octants h s /\
  mem h fp = Some (Fftw T V f) /\ ~ W fp /\ W (f_vector f) /\ K h (f_vector f) size 0 0 /\
  mem h dp = Some (Dims T V (map fst des)) /\ ~ W dp /\ Forall (dim_ready h) des.
Lemma ready_evo : forall dp fp sp f des h h' k, sane h -> evo h h' k -> ready dp fp sp f des h -> ready dp fp sp f des h'.
Proof.
  intros dp fp sp f des h h' k Sn E (A1 & A2 & A3 & A4 & A5 & A6 & A7 & A8 & A9 & A10).
  split; [eapply mem_evo; eassumption|]. split; [exact A2|]. split; [eapply scheme_ready_evo; eassumption|]. split; [eapply mem_evo; eassumption|].
  split; [exact A5|]. split; [exact A6|]. split; [eapply K_evo; eassumption|]. split; [eapply mem_evo; eassumption|]. split; [exact A9|].
  eapply Forall_impl; [|exact A10]. intros de. eapply dim_ready_evo; eassumption.
Qed.
Lemma nth_dim : forall h des i, Forall (dim_ready h) des -> i < length des ->
  exists d evs, nth_error (map fst des) i = Some d /\ nth_error des i = Some (d, evs) /\ dim_ready h (d, evs).
Proof.
  intros h des i F Hi. destruct (nth_error des i) as [[d evs]|] eqn:E; [|apply nth_error_None in E; lia]. exists d, evs. split.
  - apply (map_nth_error fst _ _ E).
  - split; [reflexivity|]. exact (proj1 (Forall_forall _ _) F _ (nth_error_In _ _ E)).
Qed.

Lemma core_ok : forall dp fp sp f des h, base <= next h -> sane h -> ready dp fp sp f des h -> (length des = 2 -> reach) ->
  ok (core N dp (length des) fp sp nsb) h (fun _ h' => evo h h' 0).
Proof.
  intros dp fp sp f des h Hb Sn RD Hn. pose proof RD as (A1 & A2 & A3 & A4 & A5 & A6 & A7 & A8 & A9 & A10). unfold core.
  apply ok_bind. eapply ok_weaken; [apply (ok_malloc T V W 5 h Sn)|]. intros R2 h1 (E1 & K2 & E2p & N1). pose proof (evo_sane _ _ _ _ _ _ E1) as S1.
  apply ok_bind. eapply ok_weaken; [apply (ok_malloc T V W 9 h1 S1)|]. intros R4 h2 (E2 & K4 & E4p & N2). pose proof (evo_sane _ _ _ _ _ _ E2) as S2.
  apply ok_bind. eapply ok_weaken; [apply (ok_malloc T V W 5 h2 S2)|]. intros R2t h3 (E3 & K2t & E2tp & N3). pose proof (evo_sane _ _ _ _ _ _ E3) as S3.
  apply ok_bind. eapply ok_weaken; [apply (ok_malloc T V W 9 h3 S3)|]. intros R4t h4 (E4 & K4t & E4tp & N4). pose proof (evo_sane _ _ _ _ _ _ E4) as S4.
  assert (K24 : K h4 R2 5 0 0) by (eapply K_evo; [exact S3 | exact E4 | eapply K_evo; [exact S2 | exact E3 | eapply K_evo; [exact S1 | exact E2 | exact K2]]]).
  assert (K44 : K h4 R4 9 0 0) by (eapply K_evo; [exact S3 | exact E4 | eapply K_evo; [exact S2 | exact E3 | exact K4]]).
  assert (K2t4 : K h4 R2t 5 0 0) by (eapply K_evo; [exact S3 | exact E4 | exact K2t]).
  assert (E04 : evo h h4 4) by (eapply evo_trans; [exact E1 | eapply evo_trans; [exact E2 | eapply evo_trans; [exact E3 | exact E4 | reflexivity] | reflexivity] | reflexivity]).
  assert (Dist : next h <= R2 /\ R2 < R4 /\ R4 < R2t /\ R2t < R4t) by lia.
  assert (WA : W R2 /\ W R4 /\ W R2t /\ W R4t) by (repeat split; apply Wfresh; lia). destruct WA as (WA & WB & WC & WD).
  clear K2 K4 K2t E2p E4p E2tp E4tp N1 N2 N3 N4 E1 E2 E3 E4 S1 S2 S3. clear h1 h2 h3.
  apply ok_bind. eapply ok_load_scheme; [eapply mem_evo; [exact Sn | exact E04 | exact A2 | exact A1]|].
  apply ok_bind. eapply ok_load_fftw; [eapply mem_evo; [exact Sn | exact E04 | exact A5 | exact A4]|].
  apply ok_bind. eapply ok_weaken.
  { apply (ok_iter_seq _ (fun i h' => evo h4 h' 0 /\ forall j d evs, j < i -> nth_error des j = Some (d, evs) -> K h' (d_local d) (s_total s) 0 (s_total s))).
    - split; [now apply evo_refl | intros; lia].
    - intros i h1 Hi (E1 & Ki). pose proof (evo_sane _ _ _ _ _ _ E1) as S1.
      assert (E01 : evo h h1 4) by (eapply evo_trans; [exact E04 | exact E1 | reflexivity]).
      pose proof (ready_evo _ _ _ _ _ _ _ _ Sn E01 RD) as (_ & _ & B3 & _ & _ & _ & B7 & B8 & _ & B10).
      apply ok_bind. eapply ok_load_dims; [exact B8|].
      destruct (nth_dim h1 des i B10 ltac:(lia)) as (d & evs & Ed & Ed' & DR). apply ok_bind. eapply ok_known; [exact Ed|].
      eapply ok_weaken; [eapply (events_loop_ok f R2 R4 R2t R4t d evs h1 S1 B3 DR A6 B7); [eapply K_evo; [exact S4 | exact E1 | exact K24] | exact WA
        | eapply K_evo; [exact S4 | exact E1 | exact K44] | exact WB | eapply K_evo; [exact S4 | exact E1 | exact K2t4] | exact WC
        | eapply K_evo; [exact S4 | exact E1 | exact K4t] | exact WD]|].
      intros u h2 (E2 & Kd). split; [eapply evo_trans; [exact E1 | exact E2 | reflexivity]|]. intros j d' evs' Hj Ej.
      destruct (Nat.eq_dec j i) as [->|Ne]; [assert (d' = d) by congruence; subst d'; exact Kd|].
      eapply K_evo; [exact S1 | exact E2 | apply (Ki j d' evs'); [lia | exact Ej]]. }
  cbv beta. cbn [Nat.add]. intros u h1 (E1 & Kall). clear u.
  assert (E01 : evo h h1 4) by (eapply evo_trans; [exact E04 | exact E1 | reflexivity]).
  pose proof (evo_sane _ _ _ _ _ _ E1) as S1.
  assert (P2 : K h1 R2 5 0 0) by (eapply K_evo; [exact S4 | exact E1 | exact K24]).
  assert (P4 : K h1 R4 9 0 0) by (eapply K_evo; [exact S4 | exact E1 | exact K44]).
  assert (P2t : K h1 R2t 5 0 0) by (eapply K_evo; [exact S4 | exact E1 | exact K2t4]).
  assert (P4t : K h1 R4t 9 0 0) by (eapply K_evo; [exact S4 | exact E1 | exact K4t]).
  apply ok_bind. eapply ok_weaken; [eapply (ok_free T V W); [exact Sn | exact E01 | exact P2 | lia]|]. intros u ha (Ea & _ & Fa). clear u.
  apply ok_bind. eapply ok_weaken; [eapply (ok_free T V W); [exact Sn | exact Ea | eapply K_free; [exact Fa | lia | exact P4] | lia]|]. intros u hb (Eb & _ & Fb). clear u.
  apply ok_bind. eapply ok_weaken; [eapply (ok_free T V W); [exact Sn | exact Eb | eapply K_free; [exact Fb | lia | eapply K_free; [exact Fa | lia | exact P2t]] | lia]|].
  intros u hc (Ec & _ & Fc). clear u.
  apply ok_bind. eapply ok_weaken; [eapply (ok_free T V W); [exact Sn | exact Ec | eapply K_free; [exact Fc | lia | eapply K_free; [exact Fb | lia | eapply K_free; [exact Fa | lia | exact P4t]]] | lia]|].
  intros u hd (Ed & _ & Fd). clear u. pose proof (evo_sane _ _ _ _ _ _ Ed) as Sd. pose proof (evo_next _ _ _ _ _ _ Ed) as Nd.
  pose proof (ready_evo _ _ _ _ _ _ _ _ Sn Ed RD) as (_ & _ & B3 & _ & _ & _ & B7 & B8 & _ & B10).
  assert (Kl : forall j d evs, nth_error des j = Some (d, evs) -> K hd (d_local d) (s_total s) 0 (s_total s)).
  { intros j d evs Ej. assert (Hj : j < length des) by (apply nth_error_Some; congruence).
    pose proof (proj1 (Forall_forall _ _) A10 _ (nth_error_In _ _ Ej)) as (_ & _ & _ & _ & _ & Kd & _). cbn [fst] in Kd.
    pose proof (proj1 (K_lt _ _ _ _ _ _ _ Sn Kd)) as Lt.
    eapply K_free; [exact Fd | lia | eapply K_free; [exact Fc | lia | eapply K_free; [exact Fb | lia | eapply K_free; [exact Fa | lia | exact (Kall j d evs Hj Ej)]]]]. }
  apply ok_bind. eapply ok_load_dims; [exact B8|].
  destruct des as [|[d0 evs0] [|[d1 evs1] [|d2 r]]]; cbn [length map nth_error].
  - apply ok_ret, Ed.
  - apply ok_bind. eapply ok_known; [reflexivity|]. inversion B10 as [|? ? D0 _]; subst.
    eapply ok_weaken; [apply (one_dim_ok d0 evs0 hd Sd B3 D0); apply (Kl 0 d0 evs0); reflexivity|].
    intros u h' E'. eapply evo_trans; [exact Ed | exact E' | reflexivity].
  - apply ok_bind. eapply ok_known; [reflexivity|]. apply ok_bind. eapply ok_known; [reflexivity|].
    inversion B10 as [|? ? D0 B11]; subst. inversion B11 as [|? ? D1 _]; subst.
    eapply ok_weaken; [apply (two_dim_ok d0 evs0 d1 evs1 hd); [lia | exact Sd | exact B3 | exact D0 | exact D1 | apply (Kl 0 d0 evs0); reflexivity | apply (Kl 1 d1 evs1); reflexivity | apply Hn; reflexivity]|].
    intros u h' E'. eapply evo_trans; [exact Ed | exact E' | reflexivity].
  - apply ok_ret, Ed.
Qed.

Fixpoint all_found (systems : list nat) : outcome :=
  match systems with [] => Returned | 0 :: _ => Raised | _ :: r => all_found r end.
Lemma systems_ok : forall dp fp sp f des systems h, base <= next h -> sane h -> ready dp fp sp f des h -> (length des = 2 -> reach) ->
  ok (simulate_systems N systems dp (length des) fp sp nsb) h (fun o h' => o = all_found systems /\ evo h h' 0).
Proof.
  intros dp fp sp f des systems. induction systems as [|m r IH]; intros h Hb Sn RD Hn; cbn [simulate_systems].
  - apply ok_ret. split; [reflexivity | now apply evo_refl].
  - destruct m as [|m]; [apply ok_ret; split; [reflexivity | now apply evo_refl]|]. apply ok_bind.
    eapply ok_weaken.
    { apply (ok_iter T V _ _ (fun h' => evo h h' 0)); [now apply evo_refl|]. intros i h1 _ E1.
      pose proof (evo_next _ _ _ _ _ _ E1). eapply ok_weaken; [apply (core_ok dp fp sp f des h1); [lia | apply (evo_sane _ _ _ _ _ _ E1) | eapply ready_evo; [exact Sn | exact E1 | exact RD] | exact Hn]|].
      intros u h2 E2. eapply evo_trans; [exact E1 | exact E2 | reflexivity]. }
    cbv beta. intros u h1 E1. clear u. pose proof (evo_next _ _ _ _ _ _ E1).
    eapply ok_weaken; [apply (IH h1); [lia | apply (evo_sane _ _ _ _ _ _ E1) | eapply ready_evo; [exact Sn | exact E1 | exact RD] | exact Hn]|].
    intros o h2 (-> & E2). split; [reflexivity|]. eapply evo_trans; [exact E1 | exact E2 | reflexivity].
Qed.
End Pathway.
End Core.
