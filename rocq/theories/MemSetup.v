(** Proofs for C89 and C90: the averaging scheme and the FFT, up to the first pathway. *)
From Coq Require Import List Arith Bool Lia.
From Verif Require Import MemModel MemSpec MemProofs MemPlan MemDims MemRun MemCore.
Import ListNotations.
Unset Implicit Arguments.

Section Setup.
Variables (T V : Type) (N : numerics T V).
Notation heap := (heap T V).
Notation M := (M T V).
Notation step := (step T V).
Notation K := (K T V).
Notation ok := (ok T V).
Notation evo := (evo T V).
Notation full := (full T V).

Lemma evo_weaken : forall (W W' : ptr -> Prop) h h' k, evo W h h' k -> (forall a, a < next h -> W a -> W' a) -> evo W' h h' k.
Proof. intros W W' h h' k (S & G) I. split; [eapply step_weaken; [exact S | exact I] | exact G]. Qed.
Lemma evo_put : forall (h : heap) p b b', sane h -> mem h p = Some b -> (forall l, b <> Arr T l) ->
  ok (put p b') h (fun _ h' => evo (eq p) h h' 0 /\ mem h' p = Some b' /\ next h' = next h).
Proof.
  intros h p b b' Sn E Nb. exists tt, (set_h h p b'). split; [apply (put_eq T V h p b b' E)|]. split; [|split; [cbn; apply upd_same | reflexivity]].
  split; [apply (step_set _ _ h p b b' Sn E)|]. intros a Ha l El. exists l. split; [|auto]. cbn. rewrite upd_other; [exact El|].
  intros ->. apply (Nb l). congruence.
Qed.
Lemma ok_new : forall (b : block T V) h, sane h -> (forall l, b <> Arr T l) ->
  ok (new_block b) h (fun p h' => evo nothing h h' 1 /\ mem h' p = Some b /\ p = next h /\ next h' = S (next h)).
Proof.
  intros b h Sn Nb. exists (next h), (alloc_h h b). split; [reflexivity|]. split; [|split; [cbn; apply upd_same|split; reflexivity]].
  split; [now apply step_alloc|]. intros a Ha l E. exists l. split; [|auto]. cbn. rewrite upd_other by lia. exact E.
Qed.
Lemma ok_store_all : forall p vs (h : heap) n lo hi, sane h -> K h p n lo hi -> length vs = n ->
  ok (store p 0 vs) h (fun _ h' => evo (eq p) h h' 0 /\ mem h' p = Some (full vs) /\ next h' = next h).
Proof.
  intros p vs h n lo hi Sn Kp L. destruct (ok_store T V (eq p) p 0 vs h n lo hi Sn Kp ltac:(lia) eq_refl) as (u & h' & E & Ev & _ & Nn).
  exists u, h'. split; [exact E|]. split; [exact Ev|]. split; [|exact Nn]. destruct Kp as (l & El & Ll & _).
  rewrite (store_all _ _ h p l vs El) in E by lia. injection E as <- <-. cbn. apply upd_same.
Qed.

(** A step that writes only [W], or allocates, or releases a block allocated since [h0]. *)
Definition npts_of (density : nat) : nat := (density + 1) * (density + 2) / 2.

Lemma get_exp_ok : forall n fourth exp (h : heap), sane h -> K h exp (4 * n) (3 * n) (4 * n) ->
  ok (get_exp_Im_alpha N n fourth exp) h (fun _ h' => evo (eq exp) h h' 0 /\ K h' exp (4 * n) (if fourth then 0 else 2 * n) (4 * n)).
Proof.
  intros n fourth exp h Sn Ke. unfold get_exp_Im_alpha.
  apply ok_bind. eapply ok_weaken; [eapply ok_read; [exact Ke | lia | lia | lia]|]. intros l1 x (-> & _).
  apply ok_bind. eapply ok_weaken; [eapply (ok_store T V (eq exp)); [exact Sn | exact Ke | rewrite length_tab; lia | reflexivity]|].
  rewrite length_tab. intros u h1 (E1 & K1 & _). clear u. pose proof (evo_sane _ _ _ _ _ _ E1) as S1.
  assert (K1' : K h1 exp (4 * n) (2 * n) (4 * n)).
  { eapply K_join; [exact K1|]. replace (2 * n + n) with (3 * n) by lia. eapply K_evo; [exact Sn | exact E1 | exact Ke]. }
  destruct fourth; unfold when; [|apply ok_ret; split; [exact E1 | exact K1']].
  apply ok_bind. eapply ok_weaken; [eapply ok_read; [exact K1' | lia | lia | lia]|]. intros l2 x (-> & _).
  apply ok_bind. eapply ok_weaken; [eapply (ok_store T V (eq exp)); [exact S1 | exact K1' | rewrite length_tab; lia | reflexivity]|].
  rewrite length_tab. intros u h2 (E2 & K2 & _). clear u. pose proof (evo_sane _ _ _ _ _ _ E2) as S2.
  assert (K2' : K h2 exp (4 * n) n (4 * n)).
  { eapply K_join; [exact K2|]. replace (n + n) with (2 * n) by lia. eapply K_evo; [exact S1 | exact E2 | exact K1']. }
  apply ok_bind. eapply ok_weaken; [eapply ok_read; [exact K2' | lia | lia | lia]|]. intros l3 x (-> & _).
  eapply ok_weaken; [eapply (ok_store T V (eq exp)); [exact S2 | exact K2' | rewrite length_tab; lia | reflexivity]|].
  rewrite length_tab. intros u h3 (E3 & K3 & _). split.
  - eapply evo_trans; [exact E1 | eapply evo_trans; [exact E2 | exact E3 | reflexivity] | reflexivity].
  - eapply K_join; [exact K3|]. cbn [Nat.add]. eapply K_evo; [exact S2 | exact E3 | exact K2'].
Qed.

Lemma averaging_setup_ok : forall density n exp beta weights (h : heap) lo hi lo' hi' lo'' hi'', sane h ->
  K h exp (4 * n) lo hi -> K h beta n lo' hi' -> K h weights n lo'' hi'' -> NoDup [exp; beta; weights] ->
  ok (averaging_setup N density n exp (3 * n) beta weights) h
     (fun _ h' => evo (fun a => In a [exp; beta; weights]) h h' 0 /\ K h' exp (4 * n) (3 * n) (4 * n) /\ K h' beta n 0 n /\
                  mem h' weights = Some (full (tab n (n_octa_weight N density)))).
Proof.
  intros density n exp beta weights h lo hi lo' hi' lo'' hi'' Sn Ke Kb Kw ND. unfold averaging_setup.
  assert (Nw : weights <> beta /\ weights <> exp).
  { inversion ND as [|? ? A B]; subst. inversion B as [|? ? C D]; subst. cbn in *. split; intros ->; tauto. }
  set (W0 := fun a => In a [exp; beta; weights] \/ next h <= a).
  pose proof (K_lt _ _ _ _ _ _ _ Sn Ke) as Le. pose proof (K_lt _ _ _ _ _ _ _ Sn Kb) as Lb. pose proof (K_lt _ _ _ _ _ _ _ Sn Kw) as Lw.
  apply ok_bind. eapply ok_weaken; [apply (ok_malloc T V W0 n h Sn)|]. intros X h1 (E1 & KX & EX & N1). pose proof (evo_sane _ _ _ _ _ _ E1) as S1.
  apply ok_bind. eapply ok_weaken; [apply (ok_malloc T V W0 n h1 S1)|]. intros Y h2 (E2 & KY & EY & N2). pose proof (evo_sane _ _ _ _ _ _ E2) as S2.
  apply ok_bind. eapply ok_weaken; [apply (ok_malloc T V W0 n h2 S2)|]. intros Z h3 (E3 & KZ & EZ & N3). pose proof (evo_sane _ _ _ _ _ _ E3) as S3.
  assert (KX3 : K h3 X n 0 0) by (eapply K_evo; [exact S2 | exact E3 | eapply K_evo; [exact S1 | exact E2 | exact KX]]).
  assert (KY3 : K h3 Y n 0 0) by (eapply K_evo; [exact S2 | exact E3 | exact KY]).
  assert (E03 : evo W0 h h3 3) by (eapply evo_trans; [exact E1 | eapply evo_trans; [exact E2 | exact E3 | reflexivity] | reflexivity]).
  assert (Dist : next h <= X /\ X < Y /\ Y < Z) by lia.
  assert (WX : W0 X) by (right; lia). assert (WY : W0 Y) by (right; lia). assert (WZ : W0 Z) by (right; lia).
  clear KX KY EX EY EZ N1 N2 N3 E1 E2 E3 S1 S2. clear h1 h2.
  apply ok_bind. eapply ok_weaken; [eapply (ok_store T V W0); [exact S3 | exact KX3 | rewrite length_tab; lia | exact WX]|].
  intros u h4 (E4 & _). clear u. pose proof (evo_sane _ _ _ _ _ _ E4) as S4.
  apply ok_bind. eapply ok_weaken; [eapply (ok_store T V W0); [exact S4 | eapply K_evo; [exact S3 | exact E4 | exact KY3] | rewrite length_tab; lia | exact WY]|].
  intros u h5 (E5 & _). clear u. pose proof (evo_sane _ _ _ _ _ _ E5) as S5.
  assert (E35 : evo W0 h3 h5 0) by (eapply evo_trans; [exact E4 | exact E5 | reflexivity]).
  apply ok_bind. eapply ok_weaken; [eapply (ok_store T V W0); [exact S5 | eapply K_evo; [exact S3 | exact E35 | exact KZ] | rewrite length_tab; lia | exact WZ]|].
  intros u h6 (E6 & _). clear u. pose proof (evo_sane _ _ _ _ _ _ E6) as S6.
  assert (E36 : evo W0 h3 h6 0) by (eapply evo_trans; [exact E35 | exact E6 | reflexivity]).
  assert (E06 : evo W0 h h6 3) by (eapply evo_trans; [exact E03 | exact E36 | reflexivity]).
  (* weights *)
  apply ok_bind. eapply ok_weaken; [eapply (ok_store_all weights); [exact S6 | eapply K_evo; [exact Sn | exact E06 | exact Kw] | apply length_tab]|].
  intros u h7 (E7 & M7 & _). clear u. pose proof (evo_sane _ _ _ _ _ _ E7) as S7.
  assert (E07 : evo W0 h h7 3).
  { eapply evo_trans; [exact E06 | eapply evo_weaken; [exact E7|]; intros a _ <-; left; cbn; auto | reflexivity]. }
  (* beta *)
  apply ok_bind. eapply ok_weaken; [eapply (ok_store T V (eq beta)); [exact S7 | eapply K_evo; [exact Sn | exact E07 | exact Kb] | rewrite length_tab; lia | reflexivity]|].
  rewrite length_tab. intros u h8 (E8 & K8 & _). clear u. pose proof (evo_sane _ _ _ _ _ _ E8) as S8. cbn [Nat.add] in K8.
  pose proof (mem_evo _ _ _ _ _ _ _ _ S7 E8 (not_eq_sym (proj1 Nw)) M7) as M8.
  assert (E08 : evo W0 h h8 3).
  { eapply evo_trans; [exact E07 | eapply evo_weaken; [exact E8|]; intros a _ <-; left; cbn; auto | reflexivity]. }
  (* alpha *)
  apply ok_bind. eapply ok_weaken; [eapply (ok_store T V (eq exp)); [exact S8 | eapply K_evo; [exact Sn | exact E08 | exact Ke] | rewrite length_tab; lia | reflexivity]|].
  rewrite length_tab. intros u h9 (E9 & K9 & _). clear u. pose proof (evo_sane _ _ _ _ _ _ E9) as S9. replace (3 * n + n) with (4 * n) in K9 by lia.
  pose proof (mem_evo _ _ _ _ _ _ _ _ S8 E9 (not_eq_sym (proj2 Nw)) M8) as M9.
  assert (Kb9 : K h9 beta n 0 n) by (eapply K_evo; [exact S8 | exact E9 | exact K8]).
  assert (E09 : evo W0 h h9 3).
  { eapply evo_trans; [exact E08 | eapply evo_weaken; [exact E9|]; intros a _ <-; left; cbn; auto | reflexivity]. }
  assert (E39 : exists k, evo W0 h3 h9 k).
  { exists 0. eapply evo_trans; [exact E36 | eapply evo_trans; [eapply evo_weaken; [exact E7|]; intros a _ <-; left; cbn; auto |
      eapply evo_trans; [eapply evo_weaken; [exact E8|]; intros a _ <-; left; cbn; auto | eapply evo_weaken; [exact E9|]; intros a _ <-; left; cbn; auto | reflexivity] | reflexivity] | reflexivity]. }
  destruct E39 as (k39 & E39).
  apply ok_bind. eapply ok_weaken; [eapply (ok_free T V W0); [exact Sn | exact E09 | eapply K_evo; [exact S3 | exact E39 | exact KX3] | lia]|].
  intros u ha (Ea & _ & Fa). clear u.
  apply ok_bind. eapply ok_weaken; [eapply (ok_free T V W0); [exact Sn | exact Ea | eapply K_free; [exact Fa | | eapply K_evo; [exact S3 | exact E39 | exact KY3]]; lia | lia]|].
  intros u hb (Eb & _ & Fb). clear u.
  eapply ok_weaken; [eapply (ok_free T V W0); [exact Sn | exact Eb | eapply K_free; [exact Fb | | eapply K_free; [exact Fa | | eapply K_evo; [exact S3 | exact E39 | exact KZ]]]; lia | lia]|].
  intros u hc (Ec & _ & Fc). split; [|split; [|split]].
  - eapply evo_weaken; [exact Ec|]. intros a Ha [H|H]; [exact H | lia].
  - eapply K_free; [exact Fc | lia | eapply K_free; [exact Fb | lia | eapply K_free; [exact Fa | lia | exact K9]]].
  - eapply K_free; [exact Fc | lia | eapply K_free; [exact Fb | lia | eapply K_free; [exact Fa | lia | exact Kb9]]].
  - rewrite Fc, Fb, Fa by lia. exact M9.
Qed.

Lemma matrices_ok : forall which n width beta (h : heap) lo hi, sane h -> K h beta n lo hi -> lo = 0 -> hi = n ->
  ok (bind (malloc (width * n)) (fun w => bind (wigner_matrices N which n width beta w 0) (fun _ => ret w))) h
     (fun w h' => evo nothing h h' 1 /\ K h' w (width * n) 0 (width * n) /\ w = next h).
Proof.
  intros which n width beta h lo hi Sn Kb -> ->.
  apply ok_bind. eapply ok_weaken; [apply (ok_malloc T V nothing _ h Sn)|]. intros w h1 (E1 & K1 & -> & N1). pose proof (evo_sane _ _ _ _ _ _ E1) as S1.
  apply ok_bind. unfold wigner_matrices. apply ok_bind.
  eapply ok_weaken; [eapply ok_read; [eapply K_evo; [exact Sn | exact E1 | exact Kb] | lia | lia | lia]|]. intros l x (-> & _).
  eapply ok_weaken; [eapply (ok_store T V (eq (next h))); [exact S1 | exact K1 | rewrite length_tab; lia | reflexivity]|].
  rewrite length_tab. intros u h2 (E2 & K2 & _). apply ok_ret. split; [|split; [exact K2 | reflexivity]].
  assert (E3 : evo (fun a => next h <= a) h h2 1).
  { eapply evo_trans; [eapply evo_weaken; [exact E1 | intros a _ []] | eapply evo_weaken; [exact E2|]; intros a _ <-; lia | reflexivity]. }
  eapply evo_weaken; [exact E3|]. intros a Ha H. cbv beta in H. exfalso. lia.
Qed.

Definition tables (s : scheme_s) : list ptr := [s_weights s; s_exp s; s_w2 s; s_w2d s] ++ (if s_fourth s then [s_w4 s; s_w4d s] else []).

Lemma create_scheme_ok : forall (h : heap) density fourth volume, sane h -> volume < 2 ->
  ok (create_averaging_scheme N density fourth volume) h (fun sp h' => exists s,
    step h h' nothing (1 + scheme_tables fourth) /\ mem h' sp = Some (Scheme T V s) /\
    s_npts s = npts_of density /\ s_volume s = volume /\ s_fourth s = fourth /\
    mem h' (s_weights s) = Some (full (tab (s_npts s) (n_octa_weight N density))) /\
    scheme_ready T V (octants_of volume) h' s /\ NoDup (sp :: tables s) /\ (forall a, In a (sp :: tables s) -> next h <= a)).
Proof.
  intros h density fourth volume Sn Hv. unfold create_averaging_scheme. fold (npts_of density). set (n := npts_of density).
  set (F := fun a => next h <= a).
  apply ok_bind. eapply ok_weaken; [apply (ok_new _ h Sn); discriminate|]. intros sp h1 (E1 & M1 & P1 & N1). pose proof (evo_sane _ _ _ _ _ _ E1) as S1.
  apply ok_bind. eapply ok_weaken; [apply (ok_malloc T V nothing (4 * n) h1 S1)|]. intros exp h2 (E2 & K2 & P2 & N2). pose proof (evo_sane _ _ _ _ _ _ E2) as S2.
  apply ok_bind. eapply ok_weaken; [apply (ok_malloc T V nothing n h2 S2)|]. intros beta h3 (E3 & K3 & P3 & N3). pose proof (evo_sane _ _ _ _ _ _ E3) as S3.
  apply ok_bind. eapply ok_weaken; [apply (ok_malloc T V nothing n h3 S3)|]. intros weights h4 (E4 & K4 & P4 & N4). pose proof (evo_sane _ _ _ _ _ _ E4) as S4.
  assert (Dist : next h = sp /\ sp < exp /\ exp < beta /\ beta < weights /\ weights < next h4) by lia.
  assert (M4 : mem h4 sp = Some (Scheme T V {| s_total := 0; s_density := density; s_volume := volume; s_npts := 0; s_fourth := fourth; s_exp := NULL;
                                 s_weights := NULL; s_w2d := NULL; s_w4d := NULL; s_w2 := NULL; s_w4 := NULL |})).
  { eapply mem_evo; [exact S3 | exact E4 | auto |]. eapply mem_evo; [exact S2 | exact E3 | auto |]. eapply mem_evo; [exact S1 | exact E2 | auto | exact M1]. }
  assert (Ke4 : K h4 exp (4 * n) 0 0) by (eapply K_evo; [exact S3 | exact E4 | eapply K_evo; [exact S2 | exact E3 | exact K2]]).
  assert (Kb4 : K h4 beta n 0 0) by (eapply K_evo; [exact S3 | exact E4 | exact K3]).
  assert (E04 : evo F h h4 4).
  { eapply evo_weaken with (W := nothing); [|intros a _ []].
    eapply evo_trans; [exact E1 | eapply evo_trans; [exact E2 | eapply evo_trans; [exact E3 | exact E4 | reflexivity] | reflexivity] | reflexivity]. }
  clear E1 E2 E3 E4 M1 K2 K3 P1 P2 P3 P4 N1 N2 N3 N4 S1 S2 S3. clear h1 h2 h3.
  apply ok_bind. eapply ok_weaken; [eapply (averaging_setup_ok density n exp beta weights h4); [exact S4 | exact Ke4 | exact Kb4 | exact K4|]|].
  { constructor; [cbn; lia|]. constructor; [cbn; lia|]. constructor; [cbn; lia|constructor]. }
  intros u h5 (E5 & Ke5 & Kb5 & Mw5). clear u. pose proof (evo_sane _ _ _ _ _ _ E5) as S5. pose proof (evo_next _ _ _ _ _ _ E5) as N5.
  assert (M5 := mem_evo _ _ _ _ _ _ _ _ S4 E5 (fun I : In sp [exp; beta; weights] => ltac:(cbn in I; lia)) M4).
  assert (E05 : evo F h h5 4).
  { eapply evo_trans; [exact E04 | eapply evo_weaken; [exact E5|] | reflexivity]. intros a _ I. unfold F. cbn in I. lia. }
  clear E5 M4 Ke4 Kb4 K4 S4 E04. unfold averaging_scheme_setup.
  replace (volume =? 2) with false by (symmetry; apply Nat.eqb_neq; lia).
  apply ok_bind. apply ok_bind. eapply ok_weaken; [apply (get_exp_ok n fourth exp h5 S5 Ke5)|].
  intros u h6 (E6 & Ke6). clear u. pose proof (evo_sane _ _ _ _ _ _ E6) as S6. pose proof (evo_next _ _ _ _ _ _ E6) as N6.
  assert (M6 := mem_evo _ _ _ _ _ _ _ _ S5 E6 (fun I : exp = sp => ltac:(lia)) M5).
  assert (Mw6 := mem_evo _ _ _ _ _ _ _ _ S5 E6 (fun I : exp = weights => ltac:(lia)) Mw5).
  assert (Kb6 : K h6 beta n 0 n) by (eapply K_evo; [exact S5 | exact E6 | exact Kb5]).
  assert (E06 : evo F h h6 4).
  { eapply evo_trans; [exact E05 | eapply evo_weaken; [exact E6|] | reflexivity]. intros a _ <-. unfold F. lia. }
  clear E6 M5 Mw5 Kb5 Ke5 S5 E05.
  (* w2d *)
  match goal with |- ok (bind (malloc (15 * n)) ?k) h6 _ => idtac end.
  assert (Assoc : forall A (w1 : nat -> M unit) (k : ptr -> M A) hh Q, ok (bind (bind (malloc (15 * n)) (fun w => bind (w1 w) (fun _ => ret w))) k) hh Q ->
                  ok (bind (malloc (15 * n)) (fun w => bind (w1 w) (fun _ => k w))) hh Q).
  { intros A w1 k hh Q (x & h' & Ex & HQ). exists x, h'. split; [|exact HQ]. rewrite <- Ex. unfold bind, ret.
    destruct (malloc (15 * n) hh) as [[w hh']|]; [|reflexivity]. now destruct (w1 w hh') as [[[] hh'']|]. }
  apply (Assoc _ (fun w => wigner_matrices N 4 n 15 beta w 0)).
  apply ok_bind. eapply ok_weaken; [eapply (matrices_ok 4 n 15 beta h6); [exact S6 | exact Kb6 | reflexivity | reflexivity]|].
  intros w2d h7 (E7 & K7 & P7). pose proof (evo_sane _ _ _ _ _ _ E7) as S7. pose proof (evo_next _ _ _ _ _ _ E7) as N7.
  assert (M7 := mem_evo _ _ _ _ _ _ _ _ S6 E7 (fun I => I) M6). assert (Mw7 := mem_evo _ _ _ _ _ _ _ _ S6 E7 (fun I => I) Mw6).
  assert (Kb7 : K h7 beta n 0 n) by (eapply K_evo; [exact S6 | exact E7 | exact Kb6]).
  assert (Ke7 : K h7 exp (4 * n) (if fourth then 0 else 2 * n) (4 * n)) by (eapply K_evo; [exact S6 | exact E7 | exact Ke6]).
  assert (E07 : evo F h h7 5).
  { eapply evo_trans; [exact E06 | eapply evo_weaken; [exact E7|] | reflexivity]. intros a _ []. }
  pose proof (K_lt _ _ _ _ _ _ _ S7 K7) as L7.
  clear E7 M6 Mw6 Kb6 Ke6 S6 E06. 
  (* w4d *)
  apply ok_bind. eapply ok_weaken with (Q := fun w4d h8 => evo nothing h7 h8 (if fourth then 1 else 0) /\
     (if fourth then K h8 w4d (45 * n) 0 (45 * n) /\ w4d = next h7 else w4d = NULL)).
  { destruct fourth.
    - eapply ok_weaken; [eapply (matrices_ok 5 n 45 beta h7); [exact S7 | exact Kb7 | reflexivity | reflexivity]|].
      intros w h8 (E8 & K8 & P8). auto.
    - apply ok_ret. split; [now apply evo_refl | reflexivity]. }
  intros w4d h8 (E8 & K8). pose proof (evo_sane _ _ _ _ _ _ E8) as S8. pose proof (evo_next _ _ _ _ _ _ E8) as N8.
  assert (M8 := mem_evo _ _ _ _ _ _ _ _ S7 E8 (fun I => I) M7). assert (Mw8 := mem_evo _ _ _ _ _ _ _ _ S7 E8 (fun I => I) Mw7).
  assert (Kb8 : K h8 beta n 0 n) by (eapply K_evo; [exact S7 | exact E8 | exact Kb7]).
  assert (Ke8 : K h8 exp (4 * n) (if fourth then 0 else 2 * n) (4 * n)) by (eapply K_evo; [exact S7 | exact E8 | exact Ke7]).
  assert (K78 : K h8 w2d (15 * n) 0 (15 * n)) by (eapply K_evo; [exact S7 | exact E8 | exact K7]).
  assert (E08 : evo F h h8 (S (4 + (if fourth then 1 else 0)))).
  { eapply evo_trans; [exact E07 | eapply evo_weaken; [exact E8|] | destruct fourth; reflexivity]. intros a _ []. }
  assert (D8 : fourth = true -> next h7 = w4d /\ w4d < next h8).
  { intros ->. destruct K8 as [K8 ->]. pose proof (K_lt _ _ _ _ _ _ _ S8 K8). lia. }
  apply ok_bind, ok_ret.
  (* beta *)
  apply ok_bind. eapply ok_weaken; [eapply (ok_free T V F); [exact Sn | exact E08 | exact Kb8 | lia]|].
  intros u h9 (E9 & N9 & F9). clear u. pose proof (evo_sane _ _ _ _ _ _ E9) as S9.
  assert (M9 : mem h9 sp = mem h8 sp) by (apply F9; lia). rewrite M8 in M9.
  assert (Mw9 : mem h9 weights = mem h8 weights) by (apply F9; lia). rewrite Mw8 in Mw9.
  assert (Ke9 : K h9 exp (4 * n) (if fourth then 0 else 2 * n) (4 * n)) by (eapply K_free; [exact F9 | lia | exact Ke8]).
  assert (K79 : K h9 w2d (15 * n) 0 (15 * n)) by (eapply K_free; [exact F9 | lia | exact K78]).
  assert (K89 : if fourth then K h9 w4d (45 * n) 0 (45 * n) else w4d = NULL).
  { destruct fourth; [|exact K8]. destruct (D8 eq_refl) as [D8a _]. destruct K8 as [K8 ->]. eapply K_free; [exact F9 | lia | exact K8]. }
  assert (Mx : forall a, a <> exp -> True) by auto. clear Mx.
  clear E08 M8 Mw8 Kb8 Ke8 K78 K8 E8 E07 M7 Mw7 Kb7 Ke7 K7 F9 S8.
  (* w2 *)
  apply ok_bind. eapply ok_weaken; [apply (ok_malloc T V nothing (3 * (n * octants_of volume)) h9 S9)|].
  intros w2 ha (Ea & Ka & Pa & Na). pose proof (evo_sane _ _ _ _ _ _ Ea) as Sa.
  assert (Ma := mem_evo _ _ _ _ _ _ _ _ S9 Ea (fun I => I) M9). assert (Mwa := mem_evo _ _ _ _ _ _ _ _ S9 Ea (fun I => I) Mw9).
  assert (E0a : evo F h ha (5 + (if fourth then 1 else 0))).
  { eapply evo_trans; [exact E9 | eapply evo_weaken; [exact Ea | intros a _ []] | lia]. }
  (* w4 *)
  apply ok_bind. eapply ok_weaken with (Q := fun w4 hb => evo nothing ha hb (if fourth then 1 else 0) /\
     (if fourth then K hb w4 (5 * (n * octants_of volume)) 0 0 /\ w4 = next ha else w4 = NULL)).
  { destruct fourth.
    - eapply ok_weaken; [apply (ok_malloc T V nothing (5 * (n * octants_of volume)) ha Sa)|]. intros w hb (Eb & Kb & Pb & _). auto.
    - apply ok_ret. split; [now apply evo_refl | reflexivity]. }
  intros w4 hb (Eb & Kb). pose proof (evo_sane _ _ _ _ _ _ Eb) as Sb.
  assert (Mb := mem_evo _ _ _ _ _ _ _ _ Sa Eb (fun I => I) Ma). assert (Mwb := mem_evo _ _ _ _ _ _ _ _ Sa Eb (fun I => I) Mwa).
  set (s := Build_scheme_s _ _ _ _ _ _ _ _ _ _ _).
  eapply ok_weaken; [apply (evo_put hb sp _ (Scheme T V s) Sb Mb); discriminate|].
  intros u hc (Ec & Mc & Nc). clear u. apply ok_ret. exists s.
  assert (E9b : evo nothing h9 hb (1 + (if fourth then 1 else 0))) by (eapply evo_trans; [exact Ea | exact Eb | reflexivity]).
  assert (E9c : evo (eq sp) h9 hc (1 + (if fourth then 1 else 0))) by (eapply evo_trans; [eapply evo_weaken; [exact E9b | intros a _ []] | exact Ec | lia]).
  assert (Fin : evo F h hc (5 + (if fourth then 1 else 0) + (if fourth then 1 else 0))).
  { eapply evo_trans; [eapply evo_trans; [exact E0a | eapply evo_weaken; [exact Eb | intros a _ []] | reflexivity] | eapply evo_weaken; [exact Ec|] | lia].
    intros a _ <-. unfold F. lia. }
  split.
  { destruct Fin as (Fin & _). eapply step_weaken with (W := F); [|intros a Ha Hf; unfold F in Hf; exfalso; lia].
    replace (1 + scheme_tables fourth) with (5 + (if fourth then 1 else 0) + (if fourth then 1 else 0)) by (destruct fourth; reflexivity). exact Fin. }
  split; [exact Mc|]. split; [reflexivity|]. split; [reflexivity|]. split; [reflexivity|]. split.
  { apply (mem_evo _ _ _ _ _ _ _ _ Sb Ec (fun I : sp = weights => ltac:(lia)) Mwb). }
  split.
  { unfold scheme_ready. cbn [s s_total s_npts s_exp s_w2d s_w2 s_w4 s_w4d s_fourth]. split; [destruct volume as [|[|v]]; [left; reflexivity | right; reflexivity | lia]|].
    split; [unfold n; lia|]. split; [eapply K_evo; [exact S9 | exact E9c | exact Ke9]|]. split; [eapply K_evo; [exact S9 | exact E9c | exact K79]|].
    split; [eapply K_evo; [exact Sb | exact Ec | eapply K_evo; [exact Sa | exact Eb | exact Ka]]|].
    destruct fourth.
    - split; [eapply K_evo; [exact S9 | exact E9c | exact K89] | eapply K_evo; [exact Sb | exact Ec | apply Kb]].
    - split; [exact Kb | exact K89]. }
  unfold tables. cbn [s s_weights s_exp s_w2d s_w2 s_w4 s_w4d s_fourth].
  destruct fourth.
  - destruct (D8 eq_refl) as [Da Db]. destruct Kb as [Kb ->]. split.
    + repeat (constructor; [cbn; lia|]). constructor.
    + intros a I. unfold F. cbn in I. repeat (destruct I as [<-|I]; [lia|]). destruct I.
  - split.
    + repeat (constructor; [cbn; lia|]). constructor.
    + intros a I. unfold F. cbn in I. repeat (destruct I as [<-|I]; [lia|]). destruct I.
Qed.
End Setup.
