(** C128: a run that is interrupted or raises. *)
From Coq Require Import ZArith Bool String Qcanon List Lia.
From Verif Require Import Base RunModel.
Import ListNotations.

Section Spec.
  Variables (I A R : Type) (compute : I -> pyres A) (progress : I -> nat) (origin : I -> Qc) (pack : I -> list (option Qc) -> A -> pyres R) (in_process : bool).
  Notation meth := (meth I R).
  (** ** What is meant *)
  (** The simulation of a method: its amplitudes, packed on dimensions with the offset of the method. *)
  Definition simulates (m : meth) (r : R) : Prop := exists a, compute (input I R m) = Ok a /\ pack (input I R m) (map (fun _ => Some (origin (input I R m))) (origins I R m)) a = Ok r.
  (** The index i, negative from the end, is that of the method at place k. *)
  Definition names (n : nat) (i : Z) (k : nat) : Prop := (k < n)%nat /\ (i = Z.of_nat k \/ i = Z.of_nat k - Z.of_nat n)%Z.
  (** The method after the run. *)
  Definition finished (m m' : meth) : Prop := input I R m' = input I R m /\ origins I R m' = map (fun _ => Some (origin (input I R m))) (origins I R m) /\ exists r, simulates m r /\ simulation I R m' = Some r.
  (** Not begun, or interrupted: the old simulation; every offset the old or the new one. *)
  Definition unfinished (m m' : meth) : Prop := input I R m' = input I R m /\ simulation I R m' = simulation I R m /\ Forall2 (fun q q' => q' = q \/ q' = Some (origin (input I R m))) (origins I R m) (origins I R m').

  Definition target (w : write R) : nat := match w with SetOrigin _ k _ _ => k | SetSimulation _ k _ => k end.
  Definition effect (w : write R) (m : meth) : meth := match w with SetOrigin _ _ d q => mkMeth I R (input I R m) (upd d (fun _ => Some q) (origins I R m)) (simulation I R m) | SetSimulation _ _ r => mkMeth I R (input I R m) (origins I R m) (Some r) end.
  Definition on (j : nat) (w : write R) (m : meth) : meth := if Nat.eqb (target w) j then effect w m else m.
  Lemma nth_upd {X} (f : X -> X) : forall l k j, nth_error (upd k f l) j = if Nat.eqb k j then option_map f (nth_error l j) else nth_error l j.
  Proof. induction l as [|x l IH]; intros k j; cbn [upd]; [destruct j, (Nat.eqb k _); reflexivity|]. destruct k, j; cbn [nth_error Nat.eqb]; try reflexivity. apply IH. Qed.
  Lemma len_upd {X} (f : X -> X) : forall l k, List.length (upd k f l) = List.length l.
  Proof. induction l as [|x l IH]; intros [|k]; cbn; auto. Qed.
  Lemma perform_nth w (ms : list meth) j : nth_error (perform I R ms w) j = option_map (on j w) (nth_error ms j).
  Proof. unfold on. destruct w; cbn [perform target effect]; rewrite nth_upd; destruct (Nat.eqb k j); [reflexivity|destruct (nth_error ms j); reflexivity|reflexivity|destruct (nth_error ms j); reflexivity]. Qed.
  Definition fold_on (j : nat) (ws : list (write R)) (m : meth) : meth := fold_left (fun m w => on j w m) ws m.
  Lemma all_nth j : forall ws (ms : list meth), nth_error (perform_all I R ws ms) j = option_map (fold_on j ws) (nth_error ms j).
  Proof. unfold perform_all, fold_on. induction ws as [|w ws IH]; intros ms; cbn [fold_left]; [destruct (nth_error ms j); reflexivity|]. rewrite IH, perform_nth. destruct (nth_error ms j); reflexivity. Qed.
  Lemma all_len : forall ws (ms : list meth), List.length (perform_all I R ws ms) = List.length ms.
  Proof. unfold perform_all. induction ws as [|w ws IH]; intros ms; cbn [fold_left]; [reflexivity|]. rewrite IH. destruct w; apply len_upd. Qed.
  Lemma fold_app j a b m : fold_on j (a ++ b) m = fold_on j b (fold_on j a m).
  Proof. apply fold_left_app. Qed.

  (** The state of one method during the run. *)
  Definition state (m m' : meth) : Prop := unfinished m m' \/ finished m m'.
  Lemma on_origin k d m0 m : state m0 m -> state m0 (on k (SetOrigin R k d (origin (input I R m0))) m).
  Proof.
    intros S. unfold on. cbn [target effect]. rewrite Nat.eqb_refl. destruct S as [(A1 & A2 & A3)|(A1 & A2 & A3)].
    - left. split; [exact A1|]. split; [exact A2|]. cbn [origins]. clear A1 A2. revert d. induction A3 as [|x y l l' H F IH]; intros d; cbn [upd]; [constructor|]. destruct d; constructor; auto.
    - right. split; [exact A1|]. split; [|exact A3]. cbn [origins]. rewrite A2. clear. revert d. induction (origins I R m0) as [|x l IH]; intros [|d]; cbn; f_equal; auto.
  Qed.
  Lemma on_other k j w (m : meth) : target w = k -> k <> j -> on j w m = m.
  Proof. intros <- N. unfold on. destruct (Nat.eqb_spec (target w) j); [contradiction|reflexivity]. Qed.
  Lemma fold_other k j : forall ws (m : meth), (forall w, In w ws -> target w = k) -> k <> j -> fold_on j ws m = m.
  Proof. unfold fold_on. induction ws as [|w ws IH]; intros m T N; cbn [fold_left]; [reflexivity|]. rewrite (on_other k j w m); [|apply T; left; reflexivity|exact N]. apply IH; [intros; apply T; right; assumption|exact N]. Qed.
  Lemma origins_target k (m : meth) w : In w (set_origins I R origin k m) -> target w = k.
  Proof. unfold set_origins. rewrite in_map_iff. intros (d & <- & _). reflexivity. Qed.
  (** Any of the writes of offsets keep the state. *)
  Lemma fold_origins k (m0 : meth) : forall ws m, (forall w, In w ws -> exists d, w = SetOrigin R k d (origin (input I R m0))) -> state m0 m -> state m0 (fold_on k ws m).
  Proof.
    unfold fold_on. induction ws as [|w ws IH]; intros m T S; cbn [fold_left]; [exact S|]. apply IH; [intros; apply T; right; assumption|]. destruct (T w (or_introl eq_refl)) as [d ->]. apply on_origin. exact S.
  Qed.
  Lemma in_origins k (m : meth) w : In w (set_origins I R origin k m) -> exists d, w = SetOrigin R k d (origin (input I R m)).
  Proof. unfold set_origins. rewrite in_map_iff. intros (d & <- & _). eauto. Qed.
  (** All of them. *)
  Lemma fold_seq k q : forall n d (m : meth), fold_on k (map (fun d => SetOrigin R k d q) (seq d n)) m =
    mkMeth I R (input I R m) (fold_left (fun l d => upd d (fun _ => Some q) l) (seq d n) (origins I R m)) (simulation I R m).
  Proof. unfold fold_on. induction n as [|n IH]; intros d m; cbn [seq map fold_left]; [destruct m; reflexivity|]. rewrite IH. unfold on. cbn [target]. rewrite Nat.eqb_refl. reflexivity. Qed.
  Lemma upd_seq {X} (x : X) : forall l done, fold_left (fun l d => upd d (fun _ => x) l) (seq (List.length done) (List.length l)) (done ++ l) = done ++ map (fun _ => x) l.
  Proof.
    induction l as [|y l IH]; intros done; cbn [List.length seq fold_left map]; [reflexivity|]. assert (U : upd (List.length done) (fun _ => x) (done ++ y :: l) = (done ++ [x]) ++ l).
    { clear. induction done as [|z done IH]; cbn; [reflexivity|]. rewrite IH. reflexivity. }
    rewrite U. replace (S (List.length done)) with (List.length (done ++ [x])) by (rewrite app_length; cbn; lia). rewrite IH, <- app_assoc. reflexivity.
  Qed.
  Lemma fold_all k (m0 m : meth) : List.length (origins I R m) = List.length (origins I R m0) ->
    fold_on k (set_origins I R origin k m0) m = mkMeth I R (input I R m) (map (fun _ => Some (origin (input I R m0))) (origins I R m0)) (simulation I R m).
  Proof.
    intros L. unfold set_origins. rewrite fold_seq, <- L. f_equal. pose proof (upd_seq (Some (origin (input I R m0))) (origins I R m) []) as H. cbn [List.length app] in H. rewrite H.
    clear H. revert L. generalize (origins I R m0). induction (origins I R m) as [|x l IH]; intros [|y l'] L; try discriminate; [reflexivity|]. cbn [map]. f_equal. apply IH. injection L as L. exact L.
  Qed.
  Lemma state_len (m0 m : meth) : state m0 m -> List.length (origins I R m) = List.length (origins I R m0) /\ input I R m = input I R m0.
  Proof. intros [(A1 & _ & A3)|(A1 & A2 & _)]; (split; [|exact A1]); [clear A1; induction A3; cbn; auto|]. rewrite A2. apply map_length. Qed.
  Lemma state_refl m : state m m.
  Proof. left. split; [reflexivity|]. split; [reflexivity|]. induction (origins I R m); constructor; auto. Qed.
  Lemma place_names n i k : place n i = Some k <-> names n i k.
  Proof.
    unfold place, names. cbv zeta. set (j := if (i <? 0)%Z then (i + Z.of_nat n)%Z else i).
    assert (J : ((i < 0)%Z /\ j = (i + Z.of_nat n)%Z) \/ ((0 <= i)%Z /\ j = i)) by (unfold j; destruct (Z.ltb_spec i 0); [left|right]; auto). clearbody j.
    destruct (Z.leb_spec 0 j), (Z.ltb_spec j (Z.of_nat n)); cbn [andb]; split; intros X; try discriminate; try (injection X as <-; lia); try (f_equal; lia); exfalso; lia.
  Qed.

  Notation writes := (writes I A R compute progress origin pack in_process).
  (** One method j, any start in its state, any number of writes. *)
  Lemma prefix_state (ms : list meth) j m0 : nth_error ms j = Some m0 -> forall idx n m, state m0 m -> state m0 (fold_on j (firstn n (fst (writes ms idx))) m).
  Proof.
    intros N idx. induction idx as [|i rest IH]; intros n m S; cbn [RunModel.writes fst]; [rewrite firstn_nil; exact S|].
    destruct (place (List.length ms) i) as [k|]; [|cbn; rewrite firstn_nil; exact S]. destruct (nth_error ms k) as [mk|] eqn:Nk; [|cbn; rewrite firstn_nil; exact S]. cbv zeta.
    assert (P : forall ws, (forall w, In w ws -> In w (set_origins I R origin k mk)) -> forall m, state m0 m -> state m0 (fold_on j ws m)).
    { intros ws W m1 S1. destruct (Nat.eq_dec k j) as [->|D]; [|rewrite (fold_other k j ws m1); [exact S1|intros w Hw; exact (origins_target k mk w (W w Hw))|exact D]].
      assert (mk = m0) by congruence. subst mk. apply fold_origins; [|exact S1]. intros w Hw. exact (in_origins j m0 w (W w Hw)). }
    set (first := if in_process then set_origins I R origin k mk else []). assert (F : forall w, In w first -> In w (set_origins I R origin k mk)) by (unfold first; destruct in_process; [auto|intros w []]).
    destruct (compute (input I R mk)) as [a|e] eqn:C; [|cbn [fst]; apply P; [|exact S]; intros w W; apply F; rewrite firstn_firstn in W; rewrite <- (firstn_skipn (Nat.min n (progress (input I R mk))) first); apply in_or_app; left; exact W].
    destruct (pack (input I R mk) (map (fun _ => Some (origin (input I R mk))) (origins I R mk)) a) as [r|e] eqn:K.
    - destruct (writes ms rest) as [ws o] eqn:W. cbn [fst] in *. rewrite app_assoc, firstn_app, fold_app.
      assert (S1 : state m0 (fold_on j (firstn n (first ++ set_origins I R origin k mk)) m)).
      { apply P; [|exact S]. intros w Hw. assert (In w (first ++ set_origins I R origin k mk)) by (rewrite <- (firstn_skipn n (first ++ set_origins I R origin k mk)); apply in_or_app; left; exact Hw). apply in_app_or in H. destruct H; auto. }
      destruct (n - List.length (first ++ set_origins I R origin k mk))%nat as [|n'] eqn:L; [cbn [firstn]; exact S1|]. cbn [firstn]. change (fold_on j (SetSimulation R k r :: firstn n' ws)) with (fun m => fold_on j (firstn n' ws) (on j (SetSimulation R k r) m)). cbv beta. apply IH.
      destruct (Nat.eq_dec k j) as [->|D]; [|rewrite (on_other k j (SetSimulation R k r) _ eq_refl D); exact S1]. assert (mk = m0) by congruence. subst mk.
      rewrite firstn_all2, fold_app in S1 |- * by lia. rewrite fold_all.
      2:{ apply state_len. apply P; [exact F|exact S]. }
      right. unfold on. cbn [target effect]. rewrite Nat.eqb_refl. split; [cbn [input]; apply state_len; apply P; [exact F|exact S]|]. split; [reflexivity|]. exists r. split; [exists a; auto|reflexivity].
    - cbn [fst]. apply P; [|exact S]. intros w Hw. assert (In w (first ++ set_origins I R origin k mk)) by (rewrite <- (firstn_skipn n (first ++ set_origins I R origin k mk)); apply in_or_app; left; exact Hw). apply in_app_or in H. destruct H; auto.
  Qed.

  Lemma keep_origin k (m0 m : meth) d : (unfinished m0 m -> unfinished m0 (on k (SetOrigin R k d (origin (input I R m0))) m)) /\ (finished m0 m -> finished m0 (on k (SetOrigin R k d (origin (input I R m0))) m)).
  Proof.
    unfold on. cbn [target effect]. rewrite Nat.eqb_refl. split.
    - intros (A1 & A2 & A3). split; [exact A1|]. split; [exact A2|]. cbn [origins]. clear A1 A2. revert d. induction A3 as [|x y l l' H F IH]; intros d; cbn [upd]; [constructor|]. destruct d; constructor; auto.
    - intros (A1 & A2 & A3). split; [exact A1|]. split; [|exact A3]. cbn [origins]. rewrite A2. clear. revert d. induction (origins I R m0) as [|x l IH]; intros [|d]; cbn; f_equal; auto.
  Qed.
  Lemma keep_origins k (m0 : meth) : forall ws m, (forall w, In w ws -> exists d, w = SetOrigin R k d (origin (input I R m0))) -> (unfinished m0 m -> unfinished m0 (fold_on k ws m)) /\ (finished m0 m -> finished m0 (fold_on k ws m)).
  Proof.
    unfold fold_on. induction ws as [|w ws IH]; intros m T; cbn [fold_left]; [auto|]. destruct (T w (or_introl eq_refl)) as [d ->]. destruct (keep_origin k m0 m d) as [K1 K2].
    destruct (IH (on k (SetOrigin R k d (origin (input I R m0))) m)) as [I1 I2]; [intros; apply T; right; assumption|]. auto.
  Qed.
  Lemma targets (ms : list meth) : forall idx w, In w (fst (writes ms idx)) -> exists i, In i idx /\ names (List.length ms) i (target w).
  Proof.
    induction idx as [|i rest IH]; cbn [RunModel.writes]; intros w; [intros []|]. destruct (place (List.length ms) i) as [k|] eqn:Pl; [|intros []]. destruct (nth_error ms k) as [mk|]; [|intros []]. cbv zeta. apply place_names in Pl.
    set (first := if in_process then set_origins I R origin k mk else []). assert (F : forall w, In w first -> target w = k) by (unfold first; destruct in_process; [apply origins_target|intros ? []]).
    assert (X : target w = k -> exists i0, In i0 (i :: rest) /\ names (List.length ms) i0 (target w)) by (intros ->; exists i; split; [left; reflexivity|exact Pl]).
    destruct (compute (input I R mk)) as [a|e]; [|cbn [fst]; intros W; apply X, F; rewrite <- (firstn_skipn (progress (input I R mk)) first); apply in_or_app; left; exact W].
    destruct (pack (input I R mk) _ a) as [r|e].
    - destruct (writes ms rest) as [ws o]. cbn [fst] in *. rewrite !in_app_iff. intros [W|[W|[<-|W]]]; [apply X, F, W|apply X; exact (origins_target k mk w W)|apply X; reflexivity|]. destruct (IH w W) as (i' & H1 & H2). exists i'. split; [right; exact H1|exact H2].
    - cbn [fst]. rewrite in_app_iff. intros [W|W]; apply X; [exact (F w W)|exact (origins_target k mk w W)].
  Qed.
  Lemma untouched (ms : list meth) idx j ws (m : meth) : (forall w, In w ws -> In w (fst (writes ms idx))) -> ~ (exists i, In i idx /\ names (List.length ms) i j) -> fold_on j ws m = m.
  Proof.
    intros W N. revert m. unfold fold_on. induction ws as [|w ws IH]; intros m; cbn [fold_left]; [reflexivity|]. unfold on at 2. destruct (Nat.eqb_spec (target w) j) as [E|_]; [exfalso; apply N; rewrite <- E; apply targets, W; left; reflexivity|]. apply IH. intros v V. apply W. right. exact V.
  Qed.
  Lemma named_dec n idx j : {exists i, In i idx /\ names n i j} + {~ exists i, In i idx /\ names n i j}.
  Proof.
    induction idx as [|i idx IH]; [right; intros (i & [] & _)|]. destruct (place n i) as [k|] eqn:P; [destruct (Nat.eq_dec k j) as [->|D]|].
    - left. exists i. split; [left; reflexivity|]. apply place_names. exact P.
    - destruct IH as [IH|IH]; [left; destruct IH as (i' & H1 & H2); exists i'; split; [right; exact H1|exact H2]|right]. intros (i' & [<-|H1] & H2); [apply place_names in H2; congruence|]. apply IH. exists i'. auto.
    - destruct IH as [IH|IH]; [left; destruct IH as (i' & H1 & H2); exists i'; split; [right; exact H1|exact H2]|right]. intros (i' & [<-|H1] & H2); [apply place_names in H2; congruence|]. apply IH. exists i'. auto.
  Qed.
  (** The whole of the writes of a run that ends well. *)
  Lemma full (ms : list meth) j m0 : nth_error ms j = Some m0 -> forall idx ws, writes ms idx = (ws, Ok tt) -> forall m, state m0 m -> (exists i, In i idx /\ names (List.length ms) i j) -> finished m0 (fold_on j ws m).
  Proof.
    intros N. induction idx as [|i rest IH]; intros ws W m S (i0 & In0 & Nm); [destruct In0|]. cbn [RunModel.writes] in W.
    destruct (place (List.length ms) i) as [k|] eqn:Pl; [|discriminate]. destruct (nth_error ms k) as [mk|] eqn:Nk; [|discriminate]. cbv zeta in W.
    set (first := if in_process then set_origins I R origin k mk else []) in W. assert (F : forall w, In w first -> In w (set_origins I R origin k mk)) by (unfold first; destruct in_process; [auto|intros w []]).
    destruct (compute (input I R mk)) as [a|e] eqn:C; [|discriminate]. destruct (pack (input I R mk) (map (fun _ => Some (origin (input I R mk))) (origins I R mk)) a) as [r|e] eqn:K; [|discriminate].
    destruct (writes ms rest) as [ws' o] eqn:W'. injection W as <- ->. rewrite !fold_app. change (fold_on j (SetSimulation R k r :: ws')) with (fun m => fold_on j ws' (on j (SetSimulation R k r) m)). cbv beta.
    destruct (Nat.eq_dec k j) as [->|D].
    - assert (mk = m0) by congruence. subst mk. assert (S1 : state m0 (fold_on j first m)) by (apply fold_origins; [intros w Hw; exact (in_origins j m0 w (F w Hw))|exact S]).
      rewrite fold_all by (apply state_len; exact S1). match goal with |- finished m0 (fold_on j ws' ?x) => assert (X : finished m0 x) end.
      { unfold on. cbn [target effect]. rewrite Nat.eqb_refl. split; [cbn [input]; apply state_len; exact S1|]. split; [reflexivity|]. exists r. split; [exists a; auto|reflexivity]. }
      destruct (named_dec (List.length ms) rest j) as [Y|Y]; [apply (IH ws' eq_refl); [right; exact X|exact Y]|]. rewrite (untouched ms rest j ws'); [exact X|rewrite W'; auto|exact Y].
    - rewrite (fold_other k j first), (fold_other k j (set_origins I R origin k mk)), (on_other k j (SetSimulation R k r)); auto; [|exact (origins_target k mk)|intros w Hw; exact (origins_target k mk w (F w Hw))]. apply (IH ws' eq_refl); [exact S|]. exists i0. split; [|exact Nm]. destruct In0 as [<-|In0]; [|exact In0]. exfalso. apply place_names in Nm. congruence.
  Qed.
  Lemma finished_unique m a b : finished m a -> finished m b -> a = b.
  Proof.
    intros (A1 & A2 & r & (x & X1 & X2) & A3) (B1 & B2 & r' & (y & Y1 & Y2) & B3). destruct a as [ia oa sa], b as [ib ob sb]. cbn [input origins simulation] in *. rewrite X1 in Y1. injection Y1 as <-. rewrite X2 in Y2. injection Y2 as <-. congruence.
  Qed.
  Lemma writes_same (ms ms' : list meth) : List.length ms' = List.length ms -> (forall k m m', nth_error ms k = Some m -> nth_error ms' k = Some m' -> input I R m' = input I R m /\ List.length (origins I R m') = List.length (origins I R m)) ->
    forall idx, writes ms' idx = writes ms idx.
  Proof.
    intros L E. induction idx as [|i rest IH]; [reflexivity|]. cbn [RunModel.writes]. rewrite L. destruct (place (List.length ms) i) as [k|] eqn:P; [|reflexivity]. apply place_names in P. destruct P as [P _].
    destruct (nth_error ms k) as [m|] eqn:N; [|apply nth_error_None in N; lia]. destruct (nth_error ms' k) as [m'|] eqn:N'; [|apply nth_error_None in N'; lia]. destruct (E k m m' N N') as [E1 E2]. unfold set_origins. rewrite E1, E2, IH.
    replace (map (fun _ => Some (origin (input I R m))) (origins I R m')) with (map (fun _ => Some (origin (input I R m))) (origins I R m)); [reflexivity|]. revert E2. generalize (origins I R m) (origins I R m'). clear. induction l as [|x l IH]; intros [|y l'] E2; try discriminate; [reflexivity|]. cbn [map]. f_equal. apply IH. injection E2 as ->. reflexivity.
  Qed.
  Lemma raised (ms : list meth) e : forall idx ws, writes ms idx = (ws, Err e) -> exists done i rest ws1 ws2, idx = done ++ i :: rest /\ writes ms done = (ws1, Ok tt) /\ ws = ws1 ++ ws2 /\
    (forall w, In w ws2 -> exists k m d, nth_error ms k = Some m /\ w = SetOrigin R k d (origin (input I R m))) /\
    (((forall k, ~ names (List.length ms) i k) /\ e = IndexError) \/ exists k m, names (List.length ms) i k /\ nth_error ms k = Some m /\ (compute (input I R m) = Err e \/ exists a, compute (input I R m) = Ok a /\ pack (input I R m) (map (fun _ => Some (origin (input I R m))) (origins I R m)) a = Err e)).
  Proof.
    induction idx as [|i rest IH]; intros ws W; cbn [RunModel.writes] in W; [discriminate|]. destruct (place (List.length ms) i) as [k|] eqn:P.
    2:{ injection W as <- <-. exists [], i, rest, [], []. split; [reflexivity|]. split; [reflexivity|]. split; [reflexivity|]. split; [intros w []|]. left. split; [|reflexivity]. intros k K. apply place_names in K. congruence. }
    destruct (nth_error ms k) as [m|] eqn:N; [|apply place_names in P; destruct P as [P _]; apply nth_error_None in N; lia]. cbv zeta in W. set (first := if in_process then set_origins I R origin k m else []) in W.
    assert (F : forall w, In w first -> In w (set_origins I R origin k m)) by (unfold first; destruct in_process; [auto|intros w []]).
    assert (O : forall w, In w (set_origins I R origin k m) -> exists k0 m1 d, nth_error ms k0 = Some m1 /\ w = SetOrigin R k0 d (origin (input I R m1))) by (intros w Hw; apply in_origins in Hw; destruct Hw as [d ->]; exists k, m, d; auto).
    destruct (compute (input I R m)) as [a|e'] eqn:C.
    2:{ injection W as <- ->. exists [], i, rest, [], (firstn (progress (input I R m)) first). split; [reflexivity|]. split; [reflexivity|]. split; [reflexivity|]. split; [|right; exists k, m; split; [apply place_names; exact P|]; split; [exact N|left; exact C]].
        intros w Hw. apply O, F. rewrite <- (firstn_skipn (progress (input I R m)) first). apply in_or_app. left. exact Hw. }
    destruct (pack (input I R m) (map (fun _ => Some (origin (input I R m))) (origins I R m)) a) as [r|e'] eqn:K.
    2:{ injection W as <- ->. exists [], i, rest, [], (first ++ set_origins I R origin k m). split; [reflexivity|]. split; [reflexivity|]. split; [reflexivity|]. split; [|right; exists k, m; split; [apply place_names; exact P|]; split; [exact N|right; exists a; auto]].
        intros w Hw. apply in_app_or in Hw. destruct Hw as [Hw|Hw]; auto. }
    destruct (writes ms rest) as [ws' o] eqn:W'. injection W as <- ->. destruct (IH ws' eq_refl) as (done & i' & rest' & ws1 & ws2 & -> & D & -> & Q1 & Q2).
    exists (i :: done), i', rest', (first ++ set_origins I R origin k m ++ SetSimulation R k r :: ws1), ws2. split; [reflexivity|]. split; [|split; [rewrite <- !app_assoc; reflexivity|split; [exact Q1|exact Q2]]].
    cbn [RunModel.writes]. rewrite P, N. cbv zeta. rewrite C, K, D. reflexivity.
  Qed.
End Spec.

(** ** C128 *)
Section Theorems.
  Variables (I A R : Type) (compute : I -> pyres A) (progress : I -> nat) (origin : I -> Qc) (pack : I -> list (option Qc) -> A -> pyres R) (in_process : bool).
  Notation meth := (meth I R).
  Notation writes := (writes I A R compute progress origin pack in_process).
  Notation perform_all := (perform_all I R).
  Notation finished := (finished I A R compute origin pack).
  Notation unfinished := (unfinished I R origin).
  Notation named ms idx k := (exists i, In i idx /\ names (List.length ms) i k).
  (** Whatever the number n of writes after which a run is interrupted: no method is lost; each has its old simulation, or the new one with the new offsets; the methods that were not asked for are as before. *)
Theorem C128_interrupted : forall (ms : list meth) (idx : list Z) (n : nat), let ms' := perform_all (firstn n (fst (writes ms idx))) ms in
    List.length ms' = List.length ms /\
    forall k m, nth_error ms k = Some m -> exists m', nth_error ms' k = Some m' /\ (unfinished m m' \/ finished m m') /\ (~ named ms idx k -> m' = m).
  Proof.
    intros ms idx n ms'. split; [apply all_len|]. intros k m N. exists (fold_on I R k (firstn n (fst (writes ms idx))) m). split; [unfold ms'; rewrite all_nth, N; reflexivity|]. split.
    - apply (prefix_state I A R compute progress origin pack in_process ms k m N). apply state_refl.
    - intros D. apply (untouched I A R compute progress origin pack in_process ms idx); [|exact D]. intros w W. rewrite <- (firstn_skipn n (fst (writes ms idx))). apply in_or_app. left. exact W.
  Qed.
  (** A run that ends well finishes the methods asked for. *)
Theorem C128_complete : forall (ms : list meth) (idx : list Z) (ws : list (write R)), writes ms idx = (ws, Ok tt) ->
    forall k m, nth_error ms k = Some m -> exists m', nth_error (perform_all ws ms) k = Some m' /\ (named ms idx k -> finished m m') /\ (~ named ms idx k -> m' = m).
  Proof.
    intros ms idx ws W k m N. exists (fold_on I R k ws m). split; [rewrite all_nth, N; reflexivity|]. split.
    - apply (full I A R compute progress origin pack in_process ms k m N idx ws W). apply state_refl.
    - apply (untouched I A R compute progress origin pack in_process ms idx). rewrite W. auto.
  Qed.
  (** Running again after an interruption gives what the run would have given without it. *)
Theorem C128_again : forall (ms : list meth) (idx : list Z) (ws : list (write R)) (n : nat), writes ms idx = (ws, Ok tt) -> let ms' := perform_all (firstn n ws) ms in
    writes ms' idx = (ws, Ok tt) /\ perform_all ws ms' = perform_all ws ms.
  Proof.
    intros ms idx ws n W ms'.
    assert (B : forall k m, nth_error ms k = Some m -> exists m', nth_error ms' k = Some m' /\ (unfinished m m' \/ finished m m') /\ (~ named ms idx k -> m' = m)).
    { pose proof (C128_interrupted ms idx n) as H. rewrite W in H. cbn [fst] in H. exact (proj2 H). }
    assert (L : List.length ms' = List.length ms) by apply all_len. split.
    - rewrite <- W. apply writes_same; [exact L|]. intros k m m' N N'. destruct (B k m N) as (m1 & N1 & S & _). assert (m1 = m') by congruence. subst m1. destruct (state_len I A R compute origin pack m m' S). auto.
    - assert (X : forall k, nth_error (perform_all ws ms') k = nth_error (perform_all ws ms) k).
      { intros k. rewrite !all_nth. destruct (nth_error ms k) as [m|] eqn:N.
        - destruct (B k m N) as (m' & N' & S & U). rewrite N'. cbn [option_map]. f_equal. destruct (named_dec (List.length ms) idx k) as [Y|Y].
          + apply (finished_unique I A R compute origin pack m); apply (full I A R compute progress origin pack in_process ms k m N idx ws W); auto. apply state_refl.
          + rewrite (U Y). reflexivity.
        - destruct (nth_error ms' k) eqn:N'; [|reflexivity]. apply nth_error_None in N. assert (nth_error ms' k <> None) by congruence. apply nth_error_Some in H. lia. }
      revert X. generalize (perform_all ws ms') (perform_all ws ms). induction l as [|x l IH]; intros [|y l'] X; [reflexivity|discriminate (X 0%nat)|discriminate (X 0%nat)|]. pose proof (X 0%nat) as X0. injection X0 as ->. f_equal. apply IH. intros k. exact (X (S k)).
  Qed.
  (** A run ends well exactly when every index is that of a method that can be simulated. *)
Theorem C128_ends : forall (ms : list meth) (idx : list Z),
    snd (writes ms idx) = Ok tt <-> forall i, In i idx -> exists k m r, names (List.length ms) i k /\ nth_error ms k = Some m /\ simulates I A R compute origin pack m r.
  Proof.
    intros ms. induction idx as [|i rest IH]; [split; [intros _ i []|reflexivity]|]. cbn [RunModel.writes]. split.
    - intros E. destruct (place (List.length ms) i) as [k|] eqn:P; [|discriminate]. destruct (nth_error ms k) as [m|] eqn:N; [|discriminate]. cbv zeta in E. destruct (compute (input I R m)) as [a|] eqn:C; [|discriminate].
      destruct (pack (input I R m) (map (fun _ => Some (origin (input I R m))) (origins I R m)) a) as [r|] eqn:K; [|discriminate]. destruct (writes ms rest) as [ws o]. cbn [snd] in *. intros j [<-|J]; [|apply IH; assumption].
      exists k, m, r. split; [apply place_names; exact P|]. split; [exact N|]. exists a. auto.
    - intros H. destruct (H i (or_introl eq_refl)) as (k & m & r & Nm & N & a & C & K). apply place_names in Nm. rewrite Nm, N. cbv zeta. rewrite C, K. destruct (writes ms rest) as [ws o] eqn:W. cbn [snd] in *. apply IH. intros j J. apply H. right. exact J.
  Qed.
  (** A run that raises has finished the methods before the one at fault, and no other method has a new simulation; the fault is an index of no method, or that the method cannot be simulated. *)
Theorem C128_raises : forall (ms : list meth) (idx : list Z) (ws : list (write R)) (e : exn), writes ms idx = (ws, Err e) -> exists done i rest, idx = done ++ i :: rest /\
    (forall k m, nth_error ms k = Some m -> exists m', nth_error (perform_all ws ms) k = Some m' /\ (named ms done k -> finished m m') /\ (~ named ms done k -> unfinished m m')) /\
    (((forall k, ~ names (List.length ms) i k) /\ e = IndexError) \/
     exists k m, names (List.length ms) i k /\ nth_error ms k = Some m /\ forall r, ~ simulates I A R compute origin pack m r).
  Proof.
    intros ms idx ws e W. destruct (raised I A R compute progress origin pack in_process ms e idx ws W) as (done & i & rest & ws1 & ws2 & -> & D & -> & O & Cause). exists done, i, rest. split; [reflexivity|]. split.
    - intros k m N. exists (fold_on I R k (ws1 ++ ws2) m). split; [rewrite all_nth, N; reflexivity|]. rewrite fold_app.
      assert (K : forall ws m1, (forall w, In w ws -> exists k m d, nth_error ms k = Some m /\ w = SetOrigin R k d (origin (input I R m))) -> (unfinished m m1 -> unfinished m (fold_on I R k ws m1)) /\ (finished m m1 -> finished m (fold_on I R k ws m1))).
      { induction ws as [|w ws IH]; intros m1 Q; [split; intros; assumption|]. destruct (Q w (or_introl eq_refl)) as (k' & m' & d & N' & ->). change (fold_on I R k (SetOrigin R k' d (origin (input I R m')) :: ws) m1) with (fold_on I R k ws (on I R k (SetOrigin R k' d (origin (input I R m'))) m1)).
        destruct (IH (on I R k (SetOrigin R k' d (origin (input I R m'))) m1)) as [I1 I2]; [intros v V; apply Q; right; exact V|].
        destruct (Nat.eq_dec k' k) as [->|Ne]; [|rewrite (on_other I R k' k (SetOrigin R k' d (origin (input I R m'))) m1 eq_refl Ne) in *; auto]. assert (m' = m) by congruence. subst m'. destruct (keep_origin I A R compute origin pack k m m1 d) as [K1 K2]. auto. }
      destruct (K ws2 (fold_on I R k ws1 m) O) as [K1 K2]. split; intros Y.
      + apply K2. apply (full I A R compute progress origin pack in_process ms k m N done ws1 D); [apply state_refl|exact Y].
      + apply K1. rewrite (untouched I A R compute progress origin pack in_process ms done k ws1 m); [|rewrite D; auto|exact Y]. split; [reflexivity|]. split; [reflexivity|]. induction (origins I R m); constructor; auto.
    - destruct Cause as [X|(k & m & Nm & N & X)]; [left; exact X|right]. exists k, m. split; [exact Nm|]. split; [exact N|]. intros r (a & C & P). destruct X as [X|(a' & C' & P')]; [congruence|]. rewrite C in C'. injection C' as <-. congruence.
  Qed.
End Theorems.
Print Assumptions C128_interrupted.
Print Assumptions C128_complete.
Print Assumptions C128_again.
Print Assumptions C128_ends.
Print Assumptions C128_raises.
(** Three methods, the third of which cannot be simulated. *)
Example C128_example : let compute := fun i : nat => if Nat.eqb i 3 then Err ValueError else Ok (i * i)%nat in let ms := map (fun i => mkMeth nat nat i [None; None] None) [1; 2; 3]%nat in
  let w := writes nat nat nat compute (fun _ => 1%nat) (fun _ => 1%Qc) (fun _ _ a => Ok a) true ms in
  snd (w [-2; 0]%Z) = Ok tt /\ List.length (fst (w [-2; 0]%Z)) = 10%nat /\
  perform_all nat nat (firstn 6 (fst (w [-2; 0]%Z))) ms = [mkMeth nat nat 1%nat [Some 1%Qc; None] None; mkMeth nat nat 2%nat [Some 1%Qc; Some 1%Qc] (Some 4%nat); mkMeth nat nat 3%nat [None; None] None] /\
  snd (w [0; 2; 1]%Z) = Err ValueError /\ perform_all nat nat (fst (w [0; 2; 1]%Z)) ms = [mkMeth nat nat 1%nat [Some 1%Qc; Some 1%Qc] (Some 1%nat); mkMeth nat nat 2%nat [None; None] None; mkMeth nat nat 3%nat [Some 1%Qc; None] None].
Proof. cbv zeta. repeat split; reflexivity. Qed.
