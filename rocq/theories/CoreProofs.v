(** Proofs about the frequencies of the dimensions. *)
From Coq Require Import Reals Lra Lia List Bool ZArith.
From Coquelicot Require Import Complex.
From Verif Require Import DftModel DftProofs WignerModel WignerSpec WignerProofs FreqModel FreqSpec FreqProofs.
Import ListNotations.
Open Scope R_scope.

Lemma set_event_create sc nsb vr angle vr0 a0 : vr = vr0 \/ angle = a0 -> set_event vr angle (create_plan sc nsb vr0 a0) = Some (create_plan sc nsb vr angle).
Proof.
  intros H. unfold set_event. change (pl_vr (create_plan sc nsb vr0 a0)) with vr0. change (pl_angle (create_plan sc nsb vr0 a0)) with a0.
  destruct (Req_EM_T vr vr0) as [->|N], (Req_EM_T angle a0) as [->|N']; auto. destruct H; contradiction.
Qed.
Lemma set_event_none sc nsb vr angle vr0 a0 : vr <> vr0 -> angle <> a0 -> set_event vr angle (create_plan sc nsb vr0 a0) = None.
Proof.
  intros H H'. unfold set_event. change (pl_vr (create_plan sc nsb vr0 a0)) with vr0. change (pl_angle (create_plan sc nsb vr0 a0)) with a0.
  destruct (Req_EM_T vr vr0) as [->|N], (Req_EM_T angle a0) as [->|N']; auto; contradiction.
Qed.

Lemma rsum_first n g : rsum (S n) g = g 0%nat + rsum n (fun i => g (S i)).
Proof. induction n as [|n IH]; [cbn; ring|]. cbn [rsum] in *. rewrite IH. ring. Qed.

Lemma nth_blocks {A} (d : A) g npts oct o : (o < npts * oct)%nat ->
  nth o (flat_map (fun j => map (g j) (seq 0 npts)) (seq 0 oct)) d = g (o / npts)%nat (o mod npts)%nat.
Proof.
  intros H. assert (N : (npts <> 0)%nat) by (destruct npts; lia).
  assert (G : forall oct s o, (o < npts * oct)%nat -> nth o (flat_map (fun j => map (g j) (seq 0 npts)) (seq s oct)) d = g (s + o / npts)%nat (o mod npts)%nat).
  { clear oct o H. induction oct as [|oct IH]; intros s o H; [lia|]. cbn [seq flat_map]. destruct (Nat.lt_ge_cases o npts) as [L|L].
    - rewrite app_nth1 by (rewrite map_length, seq_length; auto). rewrite Nat.div_small, Nat.mod_small, Nat.add_0_r by auto. apply map_seq_nth; auto.
    - rewrite app_nth2 by (rewrite map_length, seq_length; auto). rewrite map_length, seq_length. rewrite IH by nia.
      assert (D : (o = (o - npts) + 1 * npts)%nat) by lia. rewrite D at 3 4. rewrite Nat.div_add, Nat.mod_add by auto. f_equal. lia. }
  apply (G oct 0%nat o H).
Qed.

Lemma d2_mid angle : nth 2 (wigner_dm0 decimal 2 angle) 0 = P2 (cos angle).
Proof. cbn [wigner_dm0 nth]. unfold P2. field. Qed.
Lemma d4_mid angle : nth 4 (wigner_dm0 decimal 4 angle) 0 = P4 (cos angle).
Proof.
  cbn [wigner_dm0 nth]. unfold P4. assert (E : 1 - sin angle * sin angle = cos angle * cos angle) by (pose proof (sin2_cos2 angle); unfold Rsqr in *; lra).
  rewrite E. field.
Qed.
Lemma nth_firstn_lt {A} (d : A) x m n : (m < n)%nat -> nth m (firstn n x) d = nth m x d.
Proof. induction x as [|y x IH] in m, n |- *; intros Hm; [rewrite firstn_nil; auto|]. destruct n; [lia|]. destruct m; [reflexivity|]. cbn. apply IH. lia. Qed.

Section Core.
Variables (f : fconst) (sc : scheme) (nsb : nat) (sites : list site) (cps : list coupling) (alpha : nat -> R) (junk : exp_table).
Hypothesis Hoct : (sc_octants sc = 1 \/ sc_octants sc = 4)%nat.
Definition table_ok (t : exp_table) : Prop := forall row o, t row o = get_exp_Im_alpha (sc_fourth sc) (fun o => cis (alpha o)) junk row o.
Definition components_at (e : event) (path : list R) (flags : list bool) := event_components f (sc_fourth sc) (ev_B0 e) sites cps path flags.
Definition term_R0 (inv : R) (e : event) (c : comps) : R := r0 c * inv * ev_fraction e.
Definition term_local (inv : R) (e : event) (c : comps) (o : nat) : R :=
  inv * ev_fraction e * anisotropic (sc_fourth sc) c (orientation (sc_npts sc) alpha o) (sc_beta sc (o mod sc_npts sc)%nat) (ev_angle e).

Lemma event_step_spec inv e refresh st fq c : table_ok (cs_table st) -> components_at e (cs_path st) (cs_flags st) = Some c ->
  exists t fq', event_step f sc sites cps inv e (Some (create_plan sc nsb (ev_vr e) (ev_angle e))) refresh st fq =
    Some ({| cs_path := skipn (2 * length sites) (cs_path st); cs_flags := skipn 6 (cs_flags st); cs_table := t |}, fq') /\
    table_ok t /\ fq_R0 fq' = (if refresh then 0 else fq_R0 fq) + term_R0 inv e c /\
    forall o, (o < sc_npts sc * sc_octants sc)%nat -> fq_local fq' o = (if refresh then 0 else fq_local fq o) + term_local inv e c o.
Proof.
  intros T Cc. unfold event_step. cbn [obind]. change (pl_fourth (create_plan sc nsb (ev_vr e) (ev_angle e))) with (sc_fourth sc).
  unfold components_at in Cc. rewrite Cc. cbn [obind]. change (pl_octants (create_plan sc nsb (ev_vr e) (ev_angle e))) with (sc_octants sc).
  destruct (components_real _ _ _ _ _ _ _ _ Cc) as [R2 R4].
  destruct (batch_spec decimal (sc_npts sc) (sc_octants sc) (sc_fourth sc) (sc_beta sc) (r2 c) (r4 c) junk Hoct R2 R4 (sc_octants sc) alpha (cs_table st)) as [B1 B2].
  { destruct Hoct as [->| ->]; lia. } { apply T. }
  unfold batch_rotation. destruct (batch_loop _ _ _ _ _ _ _ _ _) as [w t] eqn:E. cbn [fst snd] in B1, B2.
  exists t. eexists. split; [reflexivity|]. split; [|split].
  - intros row o. rewrite B2. unfold get_exp_Im_alpha. destruct Hoct as [->| ->]; cbn [Nat.eqb]; [rewrite Rminus_0_r; auto|].
    assert (I4 : INR 4 = 4) by (cbn; lra). rewrite I4, full_turn. auto.
  - unfold normalized_frequencies, term_R0. destruct refresh; cbn [fq_R0]; ring.
  - intros o Ho. unfold normalized_frequencies. cbv zeta. cbn [fq_local].
    change (pl_fourth (create_plan sc nsb (ev_vr e) (ev_angle e))) with (sc_fourth sc).
    change (pl_d2 (create_plan sc nsb (ev_vr e) (ev_angle e))) with (wigner_dm0 decimal 2 (ev_angle e)).
    change (pl_d4 (create_plan sc nsb (ev_vr e) (ev_angle e))) with (if sc_fourth sc then wigner_dm0 decimal 4 (ev_angle e) else []).
    rewrite d2_mid. assert (W : nth o w ([], []) = (firstn 3 (rotation decimal 2 (orientation (sc_npts sc) alpha o) (sc_beta sc (o mod sc_npts sc)%nat) 0 (r2 c)),
       if sc_fourth sc then firstn 5 (rotation decimal 4 (orientation (sc_npts sc) alpha o) (sc_beta sc (o mod sc_npts sc)%nat) 0 (r4 c)) else [])).
    { rewrite B1. rewrite nth_blocks with (g := fun j o => (firstn 3 (rotation decimal 2 (alpha o - INR j * (PI / 2)) (sc_beta sc o) 0 (r2 c)),
        if sc_fourth sc then firstn 5 (rotation decimal 4 (alpha o - INR j * (PI / 2)) (sc_beta sc o) 0 (r4 c)) else [])) by auto. reflexivity. }
    rewrite W. cbn [fst snd]. rewrite nth_firstn_lt by lia. unfold term_local, anisotropic.
    destruct (sc_fourth sc).
    + rewrite d4_mid, nth_firstn_lt by lia. destruct refresh; cbn [fq_local]; ring.
    + destruct refresh; cbn [fq_local]; ring.
Qed.

Definition made_plans (l : list event) := map (fun e => (e, Some (create_plan sc nsb (ev_vr e) (ev_angle e)))) l.
Definition def_event : event := {| ev_fraction := 0; ev_B0 := 0; ev_vr := 0; ev_angle := 0 |}.
Lemma skipn_plus {A} a b (l : list A) : skipn a (skipn b l) = skipn (b + a) l.
Proof. induction b as [|b IH] in l |- *; [reflexivity|]. destruct l; [rewrite !skipn_nil; auto|]. cbn. apply IH. Qed.

Lemma event_loop_spec inv l (cs : nat -> comps) : forall refresh st fq, table_ok (cs_table st) ->
  (forall e, (e < length l)%nat -> components_at (nth e l def_event) (skipn (2 * length sites * e) (cs_path st)) (skipn (6 * e) (cs_flags st)) = Some (cs e)) ->
  exists t fq', event_loop f sc sites cps inv (made_plans l) refresh st fq =
    Some ({| cs_path := skipn (2 * length sites * length l) (cs_path st); cs_flags := skipn (6 * length l) (cs_flags st); cs_table := t |}, fq') /\
    table_ok t /\ fq_R0 fq' = (if refresh && negb (Nat.eqb (length l) 0) then 0 else fq_R0 fq) + rsum (length l) (fun e => term_R0 inv (nth e l def_event) (cs e)) /\
    forall o, (o < sc_npts sc * sc_octants sc)%nat ->
      fq_local fq' o = (if refresh && negb (Nat.eqb (length l) 0) then 0 else fq_local fq o) + rsum (length l) (fun e => term_local inv (nth e l def_event) (cs e) o).
Proof.
  induction l as [|e l IH] in cs |- *; intros refresh st fq T H.
  - exists (cs_table st), fq. cbn [made_plans map event_loop length]. rewrite !Nat.mul_0_r. cbn [skipn Nat.eqb negb]. rewrite andb_false_r. cbn [rsum].
    split; [destruct st; auto|]. split; [auto|]. split; [ring|intros; ring].
  - cbn [made_plans map event_loop]. fold (made_plans l).
    assert (C0 : components_at e (cs_path st) (cs_flags st) = Some (cs 0%nat)).
    { pose proof (H 0%nat ltac:(cbn; lia)) as A. rewrite !Nat.mul_0_r in A. exact A. }
    destruct (event_step_spec inv e refresh st fq _ T C0) as [t [fq1 [E [T1 [F1 G1]]]]]. rewrite E. cbn [obind].
    destruct (IH (fun i => cs (S i)) false {| cs_path := skipn (2 * length sites) (cs_path st); cs_flags := skipn 6 (cs_flags st); cs_table := t |} fq1) as [t' [fq' [E' [T' [F' G']]]]].
    + exact T1.
    + intros i Hi. cbn [cs_path cs_flags]. rewrite !skipn_plus. pose proof (H (S i) ltac:(cbn; lia)) as A. cbn [nth] in A. rewrite <- A. f_equal; f_equal; lia.
    + exists t', fq'. rewrite E'. cbn [cs_path cs_flags length]. rewrite !skipn_plus.
      replace (2 * length sites * S (length l))%nat with (2 * length sites + 2 * length sites * length l)%nat by lia.
      replace (6 * S (length l))%nat with (6 + 6 * length l)%nat by lia. split; [reflexivity|]. split; [auto|].
      cbn [Nat.eqb negb]. rewrite andb_true_r. cbn [andb] in F', G'. split.
      * rewrite F', F1, (rsum_first (length l)). cbn [nth]. ring.
      * intros o Ho. rewrite G', G1, (rsum_first (length l)) by auto. cbn [nth]. ring.
Qed.

Lemma plans_made d : compatible d -> combine (dm_events d) (dimension_plans sc nsb d) = made_plans (dm_events d).
Proof.
  intros H. unfold dimension_plans, made_plans. destruct (dm_events d) as [|e0 l] eqn:E; [reflexivity|].
  assert (G : forall k, (forall e, In e k -> ev_vr e = ev_vr e0 \/ ev_angle e = ev_angle e0) ->
     combine k (map (fun ev => set_event (ev_vr ev) (ev_angle ev) (create_plan sc nsb (ev_vr e0) (ev_angle e0))) k) = map (fun e => (e, Some (create_plan sc nsb (ev_vr e) (ev_angle e)))) k).
  { induction k as [|x k IH]; intros Hk; [reflexivity|]. cbn [map combine]. rewrite IH by (intros; apply Hk; right; auto). rewrite set_event_create; [auto|]. apply Hk. left; auto. }
  apply G. intros e He. apply (In_nth _ _ def_event) in He. destruct He as [i [Hi <-]].
  specialize (H i). unfold nth_event in H. rewrite E in H. exact (H Hi).
Qed.

Lemma dim_loop_spec dims (cs : nat -> comps) : (forall d, In d dims -> compatible d /\ dm_events d <> []) -> forall st fqs, table_ok (cs_table st) -> length fqs = length dims ->
  (forall d e, (d < length dims)%nat -> (e < length (dm_events (nth_dim dims d)))%nat -> let k := (first_event dims d + e)%nat in
     components_at (nth_event (nth_dim dims d) e) (skipn (2 * length sites * k) (cs_path st)) (skipn (6 * k) (cs_flags st)) = Some (cs k)) ->
  exists st' out, dimension_loop f sc nsb sites cps dims st fqs = Some (st', out) /\ table_ok (cs_table st') /\ length out = length dims /\
    forall d, (d < length dims)%nat -> let dim := nth_dim dims d in let fq := nth d out {| fq_R0 := 0; fq_local := fun _ => 0 |} in
      let c e := cs (first_event dims d + e)%nat in
      fq_R0 fq = dim_offset dim c /\
      forall o, (o < sc_npts sc * sc_octants sc)%nat -> fq_local fq o = dim_local (sc_fourth sc) dim c (orientation (sc_npts sc) alpha o) (sc_beta sc (o mod sc_npts sc)%nat).
Proof.
  induction dims as [|d dims IH] in cs |- *; intros HD st fqs T L H.
  - exists st, []. destruct fqs; [|discriminate]. split; [reflexivity|]. split; [auto|]. split; [auto|]. cbn. intros; lia.
  - destruct fqs as [|fq fqs]; [discriminate|]. cbn [dimension_loop]. destruct (HD d ltac:(left; auto)) as [K NE]. rewrite (plans_made d K).
    destruct (event_loop_spec (1 / dm_increment d) (dm_events d) cs true st fq T) as [t [fq1 [E [T1 [F1 G1]]]]].
    { intros e He. exact (H 0%nat e ltac:(cbn; lia) He). }
    rewrite E. cbn [obind].
    destruct (IH (fun k => cs (length (dm_events d) + k)%nat) ltac:(intros; apply HD; right; auto)
      {| cs_path := skipn (2 * length sites * length (dm_events d)) (cs_path st); cs_flags := skipn (6 * length (dm_events d)) (cs_flags st); cs_table := t |} fqs T1 ltac:(cbn in L; lia))
      as [st' [out [E' [T' [L' G']]]]].
    { intros i e Hi He. pose proof (H (S i) e ltac:(cbn; lia) He) as A. cbv zeta in A. cbn [cs_path cs_flags]. cbv zeta. rewrite !skipn_plus.
      change (first_event (d :: dims) (S i)) with (length (dm_events d) + first_event dims i)%nat in A. change (nth_dim (d :: dims) (S i)) with (nth_dim dims i) in A.
      rewrite <- Nat.add_assoc in A. rewrite <- A. f_equal; f_equal; lia. }
    rewrite E'. cbn [obind]. exists st', (fq1 :: out). split; [reflexivity|]. split; [auto|]. split; [cbn; lia|].
    assert (NZ : negb (Nat.eqb (length (dm_events d)) 0) = true) by (destruct (dm_events d); [contradiction|reflexivity]).
    rewrite NZ in F1, G1. cbn [andb] in F1, G1.
    intros [|i] Hi; cbn [nth].
    + cbv zeta. change (nth_dim (d :: dims) 0) with d. change (first_event (d :: dims) 0) with 0%nat. split.
      * rewrite F1, Rplus_0_l. unfold dim_offset. apply rsum_ext. intros e _. unfold term_R0, isotropic, nth_event, def_event. cbn [Nat.add]. unfold Rdiv. ring.
      * intros o Ho. rewrite G1, Rplus_0_l by auto. unfold dim_local. apply rsum_ext. intros e _. unfold term_local, nth_event, def_event. cbn [Nat.add]. unfold Rdiv. ring.
    + cbv zeta. change (nth_dim (d :: dims) (S i)) with (nth_dim dims i). change (first_event (d :: dims) (S i)) with (length (dm_events d) + first_event dims i)%nat.
      destruct (G' i ltac:(cbn in Hi; lia)) as [A B]. cbv zeta in A, B. split.
      * rewrite A. unfold dim_offset. apply rsum_ext. intros e _. rewrite Nat.add_assoc. auto.
      * intros o Ho. rewrite B by auto. unfold dim_local. apply rsum_ext. intros e _. rewrite Nat.add_assoc. auto.
Qed.
End Core.

Lemma flat_skip {A B} (g : A -> list B) m (d : A) k l : (forall x, In x l -> length (g x) = m) -> (k < length l)%nat ->
  skipn (m * k) (flat_map g l) = g (nth k l d) ++ flat_map g (skipn (S k) l).
Proof.
  intros H. induction k as [|k IH] in l, H |- *; intros L; destruct l as [|x l]; cbn [length] in L; try lia.
  - rewrite Nat.mul_0_r. reflexivity.
  - replace (m * S k)%nat with (m + m * k)%nat by lia. rewrite <- skipn_plus. cbn [flat_map]. rewrite (skipn_app_len (g x)) by (apply H; left; auto).
    cbn [nth]. rewrite IH; [reflexivity|intros; apply H; right; auto|lia].
Qed.
Lemma first_lt dims d e : (d < length dims)%nat -> (e < length (dm_events (nth_dim dims d)))%nat -> (first_event dims d + e < first_event dims (length dims))%nat.
Proof.
  induction dims as [|x dims IH] in d |- *; cbn [length]; [lia|]. intros Hd He. destruct d as [|d].
  - change (first_event (x :: dims) 0) with 0%nat. change (first_event (x :: dims) (S (length dims))) with (length (dm_events x) + first_event dims (length dims))%nat.
    change (nth_dim (x :: dims) 0) with x in He. lia.
  - change (first_event (x :: dims) (S d)) with (length (dm_events x) + first_event dims d)%nat.
    change (first_event (x :: dims) (S (length dims))) with (length (dm_events x) + first_event dims (length dims))%nat.
    change (nth_dim (x :: dims) (S d)) with (nth_dim dims d) in He. specialize (IH d ltac:(lia) He). lia.
Qed.

(** Linearity in the sign. *)
Lemma nth_opp v i : nth i (map Copp v) (RtoC 0) = Copp (nth i v (RtoC 0)).
Proof. rewrite <- (map_nth Copp). f_equal. apply C_ext; cbn; ring. Qed.
Lemma csum_opp n g : csum n (fun i => Copp (g i)) = Copp (csum n g).
Proof. induction n; cbn [csum]; [apply C_ext; cbn; ring|]. rewrite IHn. ring. Qed.
Lemma scale_opp l e v : scale_phases l e (map Copp v) = map Copp (scale_phases l e v).
Proof.
  unfold scale_phases. rewrite map_map. apply map_ext. intros j. rewrite nth_opp. destruct (j <? l)%nat; [ring|]. destruct (l <? j)%nat; [ring|auto].
Qed.
Lemma mat_opp r n w v : mat_vec r n w (map Copp v) = map Copp (mat_vec r n w v).
Proof. unfold mat_vec. rewrite map_map. apply map_ext. intros m. rewrite <- csum_opp. apply csum_ext. intros j _. rewrite nth_opp. ring. Qed.
Lemma rotation_opp k l a e g v : rotation k l a e g (map Copp v) = map Copp (rotation k l a e g v).
Proof. unfold rotation. rewrite scale_opp, mat_opp, scale_opp. auto. Qed.
Lemma anisotropic_neg fourth c a e th : anisotropic fourth (cneg c) a e th = - anisotropic fourth c a e th.
Proof. unfold anisotropic. cbn [cneg r2 r4]. rewrite !rotation_opp, !nth_opp. destruct fourth; cbn [Copp fst]; ring. Qed.
Lemma rsum_opp n g : rsum n (fun i => - g i) = - rsum n g.
Proof. induction n; cbn [rsum]; [ring|]. rewrite IHn. ring. Qed.
Lemma dim_offset_neg d cs : dim_offset d (fun e => cneg (cs e)) = - dim_offset d cs.
Proof. unfold dim_offset. rewrite <- rsum_opp. apply rsum_ext. intros. unfold isotropic. cbn [cneg r0]. unfold Rdiv. ring. Qed.
Lemma dim_local_neg fourth d cs a e : dim_local fourth d (fun e => cneg (cs e)) a e = - dim_local fourth d cs a e.
Proof. unfold dim_local. rewrite <- rsum_opp. apply rsum_ext. intros. rewrite anisotropic_neg. unfold Rdiv. ring. Qed.
