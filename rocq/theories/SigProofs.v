(** Proofs about signal processing. *)
From Coq Require Import Reals ZArith Bool Ascii String List Lia Lra.
From Coquelicot Require Import Complex.
From Verif Require Import Base BaseProofs DftModel DftProofs FitModel FitProofs SigModel SigSpec.
Import ListNotations.
Open Scope list_scope.
Open Scope R_scope.

Lemma for_each_app {X T} (l l' : list X) (body : X -> T -> pyres T) s :
  for_each (l ++ l') body s = (let* t := for_each l body s in for_each l' body t).
Proof. revert s. induction l as [|x l IH]; intros s; [reflexivity|]. cbn [app for_each]. destruct (body x s); cbn [bind]; auto. Qed.

(** Python indexing. *)
Definition wrap (n : nat) (i : Z) : nat := Z.to_nat (if (i <? 0)%Z then (i + Z.of_nat n)%Z else i).
Lemma wrap_lt n i : in_range n i -> (wrap n i < n)%nat.
Proof. unfold in_range, wrap. intros H. destruct (Z.ltb_spec i 0); lia. Qed.
Lemma py_index_wrap {A} (l : list A) i : in_range (length l) i -> py_index l i = match nth_error l (wrap (length l) i) with Some a => Ok a | None => Err IndexError end.
Proof.
  unfold in_range, py_index, wrap. intros H. destruct (Z.ltb_spec i 0).
  - destruct (Z.ltb_spec (i + Z.of_nat (length l)) 0); [lia | reflexivity].
  - destruct (Z.ltb_spec i 0); [lia | reflexivity].
Qed.
Lemma py_assign_wrap {A} (l : list A) i v : in_range (length l) i -> py_assign l i v = Ok (upd_nat l (wrap (length l) i) v).
Proof.
  unfold in_range, py_assign, wrap. intros H. destruct (Z.ltb_spec i 0).
  - destruct (Z.ltb_spec (i + Z.of_nat (length l)) 0); [lia|]. destruct (Z.ltb_spec (i + Z.of_nat (length l)) (Z.of_nat (length l))); [reflexivity | lia].
  - destruct (Z.ltb_spec i 0); [lia|]. destruct (Z.ltb_spec i (Z.of_nat (length l))); [reflexivity | lia].
Qed.
Lemma names_wrap n k i : in_range n i -> (k < n)%nat -> names n k i = (wrap n i =? k)%nat.
Proof.
  unfold in_range, names, wrap. intros H K. destruct (Z.ltb_spec i 0).
  - destruct (Nat.eqb_spec (Z.to_nat (i + Z.of_nat n)) k).
    + apply orb_true_iff. right. apply Z.eqb_eq. lia.
    + apply orb_false_iff. split; apply Z.eqb_neq; lia.
  - destruct (Nat.eqb_spec (Z.to_nat i) k).
    + apply orb_true_iff. left. apply Z.eqb_eq. lia.
    + apply orb_false_iff. split; apply Z.eqb_neq; lia.
Qed.
Lemma upd_length {A} (l : list A) i v : length (upd_nat l i v) = length l.
Proof. revert i. induction l as [|x l IH]; intros [|i]; cbn; auto. Qed.
Lemma upd_nth {A} (l : list A) i v k : nth_error (upd_nat l i v) k = if (i =? k)%nat then match nth_error l k with Some _ => Some v | None => None end else nth_error l k.
Proof. revert i k. induction l as [|x l IH]; intros [|i] [|k]; cbn; try reflexivity; [now destruct (i =? k)%nat | apply IH]. Qed.

(** * Products *)
Lemma cpow_mul a b n : cpow (a * b)%C n = (cpow a n * cpow b n)%C.
Proof. induction n as [|n IH]; cbn [cpow]; [apply C_ext; cbn; ring|]. rewrite IH. apply C_ext; cbn; ring. Qed.
Lemma cpow_one n : cpow (RtoC 1) n = RtoC 1.
Proof. induction n as [|n IH]; cbn [cpow]; [reflexivity|]. rewrite IH. apply C_ext; cbn; ring. Qed.
Lemma Cmult_1 a : (a * RtoC 1)%C = a.
Proof. apply C_ext; cbn; ring. Qed.
Lemma Cmult_assoc' a b c : (a * b * c)%C = (a * (b * c))%C.
Proof. apply C_ext; cbn; ring. Qed.
Lemma Cmult_comm' a b : (a * b)%C = (b * a)%C.
Proof. apply C_ext; cbn; ring. Qed.

(** The loop over the selected variables. *)
Lemma multiply_loop w indexes : forall l,
  Forall (in_range (length l)) indexes -> Forall (fun v => broadcasts (v_shape v) (v_shape w) = true) l ->
  exists l', multiply_variables indexes w l = Ok l' /\ Forall2 (fun v v' => v_shape v' = v_shape v) l l' /\
    forall k v v', nth_error l k = Some v -> nth_error l' k = Some v' ->
      forall idx, v_at v' idx = (v_at v idx * cpow (v_at w (clip (v_shape w) idx)) (times (length l) k indexes))%C.
Proof.
  unfold multiply_variables. induction indexes as [|i indexes IH]; intros l R B.
  - exists l. split; [reflexivity|]. split.
    + clear. induction l; constructor; auto.
    + intros k v v' E E' idx. rewrite E in E'. injection E' as <-. cbn [times cpow]. now rewrite Cmult_1.
  - inversion R as [|? ? Ri Rr]; subst. cbn [for_each]. rewrite (py_index_wrap l i Ri). pose proof (wrap_lt _ _ Ri) as W.
    destruct (nth_error l (wrap (length l) i)) as [u|] eqn:Eu; [|apply nth_error_None in Eu; lia]. cbn [bind].
    rewrite Forall_forall in B. unfold imul. rewrite (B u) by (eapply nth_error_In; eauto). cbn [bind].
    set (u' := mkVar (v_shape u) (fun idx => (v_at u idx * v_at w (clip (v_shape w) idx))%C)).
    rewrite (py_assign_wrap l i u' Ri). cbn [bind]. set (l1 := upd_nat l (wrap (length l) i) u').
    assert (L1 : length l1 = length l) by apply upd_length.
    assert (N1 : forall k, nth_error l1 k = if (wrap (length l) i =? k)%nat then Some u' else nth_error l k).
    { intros k. unfold l1. rewrite upd_nth. destruct (Nat.eqb_spec (wrap (length l) i) k) as [<-|]; [now rewrite Eu | reflexivity]. }
    destruct (IH l1) as [l2 [E2 [S2 P2]]].
    + now rewrite L1.
    + apply Forall_forall. intros x Hx. apply In_nth_error in Hx as [k Hk]. rewrite N1 in Hk.
      destruct (wrap (length l) i =? k)%nat; [injection Hk as <-; cbn; apply B; eapply nth_error_In; eauto | apply B; eapply nth_error_In; eauto].
    + exists l2. split; [exact E2|]. split.
      * assert (S1 : Forall2 (fun v v' => v_shape v' = v_shape v) l l1).
        { assert (G : forall (m m' : list variable), length m' = length m -> (forall k v, nth_error m k = Some v -> exists v', nth_error m' k = Some v' /\ v_shape v' = v_shape v) -> Forall2 (fun v v' => v_shape v' = v_shape v) m m').
          { induction m as [|x m IHm]; intros [|x' m'] Hl Hm; cbn in Hl; try lia; constructor.
            - destruct (Hm 0%nat x eq_refl) as [v' [Ev' Sv']]. cbn in Ev'. injection Ev' as <-. exact Sv'.
            - apply IHm; [lia|]. intros k v Hk. exact (Hm (S k) v Hk). }
          apply G; [exact L1|]. intros k v Hk. rewrite N1. destruct (Nat.eqb_spec (wrap (length l) i) k) as [<-|]; [|eauto].
          exists u'. split; [reflexivity|]. rewrite Eu in Hk. injection Hk as <-. reflexivity. }
        clear - S1 S2. revert l2 S2. induction S1 as [|v v1 l l1 H S1 IH]; intros l2 S2; inversion S2; subst; constructor; auto. congruence.
      * intros k v v' Hk Hk' idx. assert (K : (k < length l)%nat) by (apply nth_error_Some; congruence).
        cbn [times]. rewrite (names_wrap _ _ _ Ri K). pose proof (N1 k) as Nk. destruct (Nat.eqb_spec (wrap (length l) i) k) as [Ek|Nek].
        -- rewrite (P2 k u' v' Nk Hk' idx). rewrite L1. cbn [v_at u' Nat.add cpow]. subst k. rewrite Eu in Hk. injection Hk as <-.
           now rewrite Cmult_assoc'.
        -- rewrite Hk in Nk. rewrite (P2 k v v' Nk Hk' idx). rewrite L1. reflexivity.
Qed.

(** * Broadcasting *)
Lemma upd_repeat n k : (k < n)%nat -> upd_nat (repeat false n) k true = repeat false k ++ true :: repeat false (n - k - 1).
Proof.
  revert k. induction n as [|n IH]; intros k H; [lia|]. destruct k as [|k]; cbn [repeat upd_nat app].
  - do 2 f_equal. lia.
  - rewrite IH by lia. cbn [Nat.sub]. reflexivity.
Qed.
Lemma pick_repeat k : forall idx r, (k < length idx)%nat -> pick (repeat false k ++ true :: r) idx = nth k idx 0%nat.
Proof. induction k as [|k IH]; intros [|i idx] r H; cbn in *; try lia. apply IH. lia. Qed.
Lemma clip_nth sh : forall idx k, length idx = length sh -> (k < length sh)%nat ->
  nth k (clip sh idx) 0%nat = if (nth k sh 0 =? 1)%nat then 0%nat else nth k idx 0%nat.
Proof.
  induction sh as [|o sh IH]; intros [|i idx] [|k] L H; cbn in *; try lia; try reflexivity. apply IH; lia.
Qed.
Lemma clip_length sh : forall idx, length idx = length sh -> length (clip sh idx) = length sh.
Proof. induction sh as [|o sh IH]; intros [|i idx] L; cbn in *; try lia. f_equal. apply IH. lia. Qed.
Lemma broadcast_shape (array : list C) (d ndim : nat) : (d < ndim)%nat ->
  exists w, get_broadcast_shape array (Z.of_nat d) ndim = Ok w /\
    v_shape w = repeat 1%nat (ndim - d) ++ length array :: repeat 1%nat d /\
    forall idx, length idx = (ndim + 1)%nat -> (nth (ndim - d) idx 0 < length array)%nat ->
      v_at w (clip (v_shape w) idx) = nth (nth (ndim - d) idx 0%nat) array (RtoC 0).
Proof.
  intros H. unfold get_broadcast_shape.
  assert (R : in_range (length (repeat false (ndim + 1))) (- Z.of_nat d - 1)) by (unfold in_range; rewrite repeat_length; lia).
  rewrite (py_assign_wrap _ _ _ R). cbn [bind]. rewrite repeat_length.
  replace (wrap (ndim + 1) (- Z.of_nat d - 1)) with (ndim - d)%nat by (unfold wrap; destruct (Z.ltb_spec (- Z.of_nat d - 1) 0); lia).
  rewrite upd_repeat by lia. replace (ndim + 1 - (ndim - d) - 1)%nat with d by lia.
  assert (Rp : forall n, map (fun b : bool => if b then length array else 1%nat) (repeat false n) = repeat 1%nat n).
  { induction n as [|n IH]; cbn; [reflexivity|]. now rewrite IH. }
  eexists. split; [reflexivity|]. cbn [v_shape v_at]. rewrite map_app. cbn [map]. rewrite !Rp. split; [reflexivity|].
  intros idx L B.
  assert (Ls : length (repeat 1%nat (ndim - d) ++ length array :: repeat 1%nat d) = (ndim + 1)%nat)
    by (rewrite app_length; cbn [length]; rewrite !repeat_length; lia).
  rewrite pick_repeat by (rewrite clip_length; lia).
  rewrite clip_nth by lia. rewrite app_nth2 by (rewrite repeat_length; lia). rewrite repeat_length, Nat.sub_diag. cbn [nth].
  destruct (Nat.eqb_spec (length array) 1) as [E|E]; [|reflexivity]. f_equal. lia.
Qed.
Lemma broadcasts_app a : forall b c d, length a = length c -> broadcasts (a ++ b) (c ++ d) = broadcasts a c && broadcasts b d.
Proof.
  induction a as [|x a IH]; intros b [|y c] d L; cbn in *; try lia; try reflexivity. rewrite IH by lia. now rewrite andb_assoc.
Qed.
Lemma broadcasts_ones a : forall n, length a = n -> broadcasts a (repeat 1%nat n) = true.
Proof. induction a as [|x a IH]; intros [|n] L; cbn in *; try lia; try reflexivity. rewrite IH by lia. now destruct x as [|[|x]]. Qed.
Lemma shape_broadcasts ds v d dd n : variable_over ds v -> nth_error ds d = Some dd -> n = d_count dd ->
  broadcasts (v_shape v) (repeat 1%nat (length ds - d) ++ n :: repeat 1%nat d) = true.
Proof.
  intros [p E] N ->. rewrite E. assert (L : (d < length ds)%nat) by (apply nth_error_Some; congruence).
  destruct (nth_error_split _ _ N) as [l1 [l2 [Es El]]].
  assert (Ed : rev (map d_count ds) = rev (map d_count l2) ++ d_count dd :: rev (map d_count l1)).
  { rewrite Es, map_app. cbn [map]. rewrite rev_app_distr. cbn [rev]. now rewrite <- app_assoc. }
  rewrite Ed. change (p :: rev (map d_count l2) ++ ?x) with ((p :: rev (map d_count l2)) ++ x).
  assert (Ll : length ds = (length l1 + S (length l2))%nat) by (rewrite Es, app_length; reflexivity).
  rewrite broadcasts_app by (cbn [length]; rewrite rev_length, map_length, repeat_length; lia).
  rewrite broadcasts_ones by (cbn [length]; rewrite rev_length, map_length; lia). cbn [andb broadcasts].
  rewrite Nat.eqb_refl. cbn [orb andb]. apply broadcasts_ones. rewrite rev_length, map_length. lia.
Qed.
Lemma rev_axis {A} (ix : list A) d x : (d < length ix)%nat -> nth (length ix - 1 - d) (rev ix) x = nth d ix x.
Proof. intros H. rewrite rev_nth by lia. f_equal. lia. Qed.
Lemma times_all n k a m : (a <= k)%nat -> (k < a + m)%nat -> (a + m <= n)%nat ->
  times n k (map (fun j => Z.of_nat j) (seq a m)) = 1%nat.
Proof.
  revert a. induction m as [|m IH]; intros a H H' H''; [lia|]. cbn [seq map times]. unfold names at 1.
  destruct (Z.eqb_spec (Z.of_nat a) (Z.of_nat k)) as [E|E]; cbn [orb].
  - assert (a = k) by lia. subst. assert (T : forall m a, (k < a)%nat -> (a + m <= n)%nat -> times n k (map (fun j => Z.of_nat j) (seq a m)) = 0%nat).
    { clear. induction m as [|m IH]; intros a H H'; [reflexivity|]. cbn [seq map times]. rewrite IH by lia. unfold names.
      destruct (Z.eqb_spec (Z.of_nat a) (Z.of_nat k)); [lia|]. destruct (Z.eqb_spec (Z.of_nat a) (Z.of_nat k - Z.of_nat n)); [lia | reflexivity]. }
    rewrite T by lia. reflexivity.
  - destruct (Z.eqb_spec (Z.of_nat a) (Z.of_nat k - Z.of_nat n)); [lia|]. rewrite IH by lia. reflexivity.
Qed.
Lemma selected_times n k s : (k < n)%nat -> times n k (get_dv_indexes s n) = selected n k s.
Proof.
  intros H. destruct s as [s|]; [reflexivity|]. cbn [get_dv_indexes selected]. unfold zrange.
  replace (Z.to_nat (Z.of_nat n - 0)) with n by lia. rewrite <- (times_all n k 0 n) by lia. f_equal. 
Qed.
Lemma indexes_in_range n s : valid_selection n s -> Forall (in_range n) (get_dv_indexes s n).
Proof.
  destruct s as [s|]; [auto|]. intros _. cbn [get_dv_indexes]. unfold zrange. apply Forall_forall. intros i H. apply in_map_iff in H as [k [<- H]].
  apply in_seq in H. unfold in_range. lia.
Qed.

(** * Apodization *)
Definition factor_at (fn : dimension -> pyres (list R)) (ds : list dimension) (ix : list nat) (d : nat) : R :=
  match nth_error ds d with
  | Some dd => match fn dd with Ok f => nth (nth d ix 0%nat) f 0 | Err _ => 0 end
  | None => 0
  end.
Lemma nth_map_C f i : nth i (map RtoC f) (RtoC 0) = RtoC (nth i f 0).
Proof. exact (map_nth RtoC f 0 i). Qed.
Lemma point_length ds ix : point ds ix -> length ix = length ds.
Proof. induction 1; cbn; congruence. Qed.
Lemma point_nth ds ix d dd : point ds ix -> nth_error ds d = Some dd -> (nth d ix 0 < d_count dd)%nat.
Proof. intros P. revert d. induction P as [|x i ds ix H P IH]; intros [|d] E; cbn in *; try discriminate; [injection E as <-; exact H | auto]. Qed.
Lemma apodize_loop fn s ds ns : forall l,
  (forall d, In d ns -> exists dd f, nth_error ds d = Some dd /\ fn dd = Ok f /\ length f = d_count dd) ->
  Forall (variable_over ds) l -> valid_selection (length l) s ->
  exists l', for_each (map Z.of_nat ns) (fun i l =>
      let* d := py_index ds i in
      let* f := fn d in
      let* w := get_broadcast_shape (map RtoC f) i (length ds) in
      multiply_variables (get_dv_indexes s (length l)) w l) l = Ok l' /\
    Forall2 (fun v w => v_shape w = v_shape v) l l' /\
    forall k v v', nth_error l k = Some v -> nth_error l' k = Some v' -> forall p ix, point ds ix ->
      entry v' p ix = (entry v p ix * cpow (RtoC (rprod (map (factor_at fn ds ix) ns))) (selected (length l) k s))%C.
Proof.
  induction ns as [|d ns IH]; intros l Hf Hw Hs.
  - exists l. split; [reflexivity|]. split; [clear; induction l; constructor; auto|].
    intros k v v' E E' p ix _. rewrite E in E'. injection E' as <-. cbn [map rprod]. now rewrite cpow_one, Cmult_1.
  - destruct (Hf d (or_introl eq_refl)) as [dd [f [Ed [Ef Lf]]]]. assert (Ld : (d < length ds)%nat) by (apply nth_error_Some; congruence).
    cbn [map for_each]. rewrite py_index_wrap by (unfold in_range; lia).
    replace (wrap (length ds) (Z.of_nat d)) with d by (unfold wrap; destruct (Z.ltb_spec (Z.of_nat d) 0); lia).
    rewrite Ed. cbn [bind]. rewrite Ef. cbn [bind].
    destruct (broadcast_shape (map RtoC f) d (length ds) Ld) as [w [Ew [Sw Aw]]]. rewrite map_length in Sw, Aw. rewrite Ew. cbn [bind].
    destruct (multiply_loop w (get_dv_indexes s (length l)) l (indexes_in_range _ _ Hs)) as [l1 [E1 [S1 P1]]].
    { rewrite Sw. eapply Forall_impl; [|exact Hw]. intros v Hv. now apply (shape_broadcasts ds v d dd). }
    rewrite E1. cbn [bind]. assert (L1 : length l1 = length l) by (clear - S1; induction S1; cbn; congruence).
    destruct (IH l1) as [l2 [E2 [S2 P2]]].
    { intros d' H'. apply Hf. now right. }
    { clear - S1 Hw. induction S1 as [|v v1 l l1 H S1 IH]; constructor; inversion Hw as [|? ? [p Ep] ?]; subst; auto. exists p. congruence. }
    { now rewrite L1. }
    exists l2. split; [exact E2|]. split.
    { clear - S1 S2. revert l2 S2. induction S1 as [|v v1 l l1 H S1 IH]; intros l2 S2; inversion S2; subst; constructor; auto. congruence. }
    intros k v v' Ek Ek' p ix Hp. assert (K : (k < length l)%nat) by (apply nth_error_Some; congruence).
    destruct (nth_error l1 k) as [v1|] eqn:Ek1; [|apply nth_error_None in Ek1; lia].
    rewrite (P2 k v1 v' Ek1 Ek' p ix Hp). rewrite L1. unfold entry. rewrite (P1 k v v1 Ek Ek1).
    rewrite selected_times by exact K. pose proof (point_length _ _ Hp) as Lp.
    assert (Nx : nth (length ds - d) (p :: rev ix) 0%nat = nth d ix 0%nat).
    { replace (length ds - d)%nat with (S (length ix - 1 - d)) by lia. cbn [nth]. apply rev_axis. lia. }
    rewrite Aw; [|cbn [length]; rewrite rev_length; lia | rewrite Nx, Lf; now apply (point_nth ds ix d dd)].
    rewrite Nx, nth_map_C. cbn [map rprod]. rewrite Cmult_assoc', <- cpow_mul. do 2 f_equal. unfold factor_at at 2. rewrite Ed, Ef.
    rewrite RtoC_mult. reflexivity.
Qed.

Lemma apodize_spec fn ns ms s data : well_formed data -> map Z.of_nat ns = as_list ms ->
  (forall d, In d ns -> exists dd f, nth_error (dims data) d = Some dd /\ fn dd = Ok f /\ length f = d_count dd) ->
  valid_selection (length (dvs data)) s ->
  exists data', apodize fn ms s data = Ok data' /\ same_shape data data' /\
    forall k v v', nth_error (dvs data) k = Some v -> nth_error (dvs data') k = Some v' -> forall p ix, point (dims data) ix ->
      entry v' p ix = (entry v p ix * cpow (RtoC (rprod (map (factor_at fn (dims data) ix) ns))) (selected (length (dvs data)) k s))%C.
Proof.
  intros W E Hf Hs. destruct (apodize_loop fn s (dims data) ns (dvs data) Hf W Hs) as [l' [El [Sl Pl]]].
  exists (mkData (dims data) l'). unfold apodize. rewrite <- E, El. cbn [bind]. split; [reflexivity|]. split; [split; [reflexivity | exact Sl]|]. exact Pl.
Qed.

(** * The functions *)
Lemma coordinates_length d : length (coordinates d) = d_count d.
Proof. unfold coordinates. now rewrite map_length, seq_length. Qed.
Lemma coordinates_nth d i : (i < d_count d)%nat ->
  nth i (coordinates d) 0 = d_increment d * (INR i - (if d_fft d then INR (d_count d / 2) else 0)) + d_offset d.
Proof.
  intros H. unfold coordinates.
  set (F := fun i => d_increment d * (INR i - (if d_fft d then INR (d_count d / 2) else 0)) + d_offset d).
  rewrite (nth_indep _ 0 (F 0%nat)) by (rewrite map_length, seq_length; exact H). rewrite (map_nth F), seq_nth by exact H. reflexivity.
Qed.
Lemma nth_map_in {A B} (f : A -> B) l i a b : (i < length l)%nat -> nth i (map f l) b = f (nth i l a).
Proof. intros H. rewrite (nth_indep _ b (f a)) by (rewrite map_length; exact H). apply map_nth. Qed.
Lemma exponential_ok FWHM u d : exists f, exponential_fn FWHM (Some u) d = Ok f /\ length f = d_count d /\
  forall i, (i < d_count d)%nat -> nth i f 0 = exp (- (FWHM * u) * PI * Rabs (coordinate d i)) \/ u < 0.
Proof.
  unfold exponential_fn. cbn [in_inverse_unit bind]. eexists. split; [reflexivity|].
  split; [rewrite !map_length; apply coordinates_length|]. intros i H.
  destruct (Rlt_le_dec u 0) as [N|P]; [auto|]. left.
  rewrite (nth_map_in _ _ _ 0) by (rewrite map_length, coordinates_length; exact H).
  rewrite (nth_map_in _ _ _ 0) by (rewrite coordinates_length; exact H). f_equal. unfold coordinate.
  rewrite !Rabs_mult. rewrite (Rabs_pos_eq u P). ring.
Qed.

Lemma gaussian_ok FWHM u d : (2 <= d_count d)%nat -> d_increment d <> 0 -> d_unit d <> 0 -> u <> 0 -> FWHM <> 0 ->
  let n := d_count d in
  let sigma := FWHM / (2354820045030949 / 1000000000000000) in
  exists (g : nat -> R) f, gaussian_fn FWHM (Some u) d = Ok f /\ length f = n /\ (forall k, 0 < g k <= 1) /\
    forall i, (i < n)%nat -> nth i f 0 = / INR n * rsum n (fun k => g k * cos (2 * PI * (INR k * INR ((i + n / 2) mod n)) / INR n)) / (sigma * sqrt (2 * PI)).
Proof.
  intros Hn Hi Hd Hu HF n sigma. unfold gaussian_fn. cbn [in_inverse_unit bind].
  set (x := map (fun x => x * d_unit d * u) (coordinates d)).
  assert (Lx : length x = n) by (unfold x; rewrite map_length; apply coordinates_length).
  assert (Nx : forall i, (i < n)%nat -> nth i x 0 = (d_increment d * (INR i - (if d_fft d then INR (n / 2) else 0)) + d_offset d) * d_unit d * u).
  { intros i H. unfold x. rewrite (nth_map_in _ _ _ 0) by (rewrite coordinates_length; exact H). now rewrite coordinates_nth. }
  destruct x as [|x0 xs] eqn:Ex; [cbn in Lx; unfold n in Lx; lia|].
  assert (Lst : last (x0 :: xs) 0 = nth (n - 1) (x0 :: xs) 0).
  { assert (G : forall (l : list R) a, last (a :: l) 0 = nth (length l) (a :: l) 0) by
      (induction l as [|b l IH]; intros a; [reflexivity|]; change (last (a :: b :: l) 0) with (last (b :: l) 0); rewrite IH; reflexivity).
    rewrite G. f_equal. cbn in Lx. lia. }
  pose proof (Nx 0%nat ltac:(unfold n; lia)) as E0. cbn [nth] in E0.
  set (span := last (x0 :: xs) 0 - x0).
  assert (Hs : span <> 0).
  { unfold span. rewrite Lst, (Nx (n - 1)%nat) by (unfold n; lia). rewrite E0.
    replace (_ - _) with (d_increment d * INR (n - 1) * d_unit d * u) by (cbn [INR]; ring).
    assert (0 < INR (n - 1)) by (apply lt_0_INR; unfold n; lia). repeat apply Rmult_integral_contrapositive_currified; auto. lra. }
  destruct (Req_EM_T span 0) as [Z|_]; [contradiction|].
  fold sigma. assert (Hsig : sigma <> 0).
  { unfold sigma, Rdiv. apply Rmult_integral_contrapositive_currified; [exact HF|]. apply Rinv_neq_0_compat. lra. }
  destruct (Req_EM_T sigma 0) as [Z|_]; [contradiction|]. rewrite Lx.
  exists (fun k => exp (- (1 / 2) * ((INR (ifftshift n k) - INR (n / 2)) / span / sigma) ^ 2)). eexists. split; [reflexivity|].
  split; [rewrite map_length; apply seq_length|]. split.
  - intros k. split; [apply exp_pos|]. set (z := _ / span / sigma). apply Rle_trans with (exp 0); [|rewrite exp_0; lra].
    destruct (pow2_ge_0 z) as [Hz|Hz]; [left; apply exp_increasing; lra | right; rewrite <- Hz; f_equal; ring].
  - intros i H. rewrite (nth_map_in _ _ _ 0%nat) by (rewrite seq_length; exact H). rewrite seq_nth by exact H. cbn [Nat.add].
    unfold ifftshift at 1. reflexivity.
Qed.
Lemma rsum_lt n f g k : (k < n)%nat -> (forall j, (j < n)%nat -> f j <= g j) -> f k < g k -> rsum n f < rsum n g.
Proof.
  induction n as [|n IH]; intros K H S1; [lia|]. cbn [rsum]. destruct (Nat.eq_dec k n) as [->|N].
  - apply Rplus_le_lt_compat; [|exact S1]. apply rsum_le. intros j Hj. apply H. lia.
  - apply Rplus_lt_le_compat; [apply IH; [lia | intros; apply H; lia | exact S1] | apply H; lia].
Qed.

(** Every entry of the Gaussian is at most 1 / (sigma sqrt(2 pi)). *)
Lemma gaussian_bound FWHM u d f i : (2 <= d_count d)%nat -> d_increment d <> 0 -> d_unit d <> 0 -> u <> 0 -> 0 < FWHM ->
  gaussian_fn FWHM (Some u) d = Ok f -> (i < d_count d)%nat ->
  nth i f 0 <= / (FWHM / (2354820045030949 / 1000000000000000) * sqrt (2 * PI)).
Proof.
  intros Hn Hi Hd Hu HF E H. destruct (gaussian_ok FWHM u d Hn Hi Hd Hu ltac:(lra)) as [g [f' [E' [L [G F]]]]].
  rewrite E in E'. injection E' as <-. rewrite (F i H). set (n := d_count d) in *. set (s := _ * sqrt _).
  assert (Hs : 0 < s) by (unfold s; apply Rmult_lt_0_compat; [lra | apply sqrt_lt_R0; pose proof PI_RGT_0; lra]).
  assert (Hn0 : 0 < INR n) by (apply lt_0_INR; lia).
  unfold Rdiv at 1. rewrite <- (Rmult_1_l (/ s)) at 2. apply Rmult_le_compat_r; [left; now apply Rinv_0_lt_compat|].
  apply (Rmult_le_reg_l (INR n)); [exact Hn0|]. rewrite <- Rmult_assoc, Rinv_r, Rmult_1_l, Rmult_1_r by lra.
  apply Rle_trans with (rsum n (fun _ => 1)); [|rewrite rsum_const; lra]. apply rsum_le. intros k _. destruct (G k) as [G0 G1].
  pose proof (COS_bound (2 * PI * (INR k * INR ((i + n / 2) mod n)) / INR n)) as [C0 C1].
  apply Rle_trans with (g k * 1); [apply Rmult_le_compat_l; lra | lra].
Qed.
(** For an odd number of points the largest entry is the one after that of the coordinate zero. *)
Lemma gaussian_odd FWHM u d f m : d_count d = (2 * m + 1)%nat -> (1 <= m)%nat -> d_increment d <> 0 -> d_unit d <> 0 -> u <> 0 -> 0 < FWHM ->
  gaussian_fn FWHM (Some u) d = Ok f ->
  (forall i, (i < d_count d)%nat -> nth i f 0 <= nth (m + 1) f 0) /\ nth m f 0 < nth (m + 1) f 0.
Proof.
  intros En Hm Hi Hd Hu HF E. destruct (gaussian_ok FWHM u d ltac:(lia) Hi Hd Hu ltac:(lra)) as [g [f' [E' [L [G F]]]]].
  rewrite E in E'. injection E' as <-. set (n := d_count d) in *.
  set (s := FWHM / (2354820045030949 / 1000000000000000) * sqrt (2 * PI)) in *.
  assert (Hs : 0 < s) by (unfold s; apply Rmult_lt_0_compat; [lra | apply sqrt_lt_R0; pose proof PI_RGT_0; lra]).
  assert (Hn0 : 0 < INR n) by (apply lt_0_INR; lia).
  assert (N2 : (n / 2 = m)%nat) by (rewrite En; replace (2 * m + 1)%nat with (1 + m * 2)%nat by lia; rewrite Nat.div_add by lia; reflexivity).
  assert (Z : ((m + 1 + n / 2) mod n = 0)%nat) by (rewrite N2, En; replace (m + 1 + m)%nat with (2 * m + 1)%nat by lia; apply Nat.mod_same; lia).
  assert (Fm : nth (m + 1) f 0 = / INR n * rsum n g / s).
  { rewrite (F (m + 1)%nat) by lia. rewrite Z. do 2 f_equal. apply rsum_ext. intros k _. cbn [INR].
    replace (2 * PI * (INR k * 0) / INR n) with 0 by (field; lra). rewrite cos_0. ring. }
  assert (Cmp : forall a b, (a <= b -> / INR n * a / s <= / INR n * b / s) /\ (a < b -> / INR n * a / s < / INR n * b / s)).
  { intros a b. assert (0 < / s) by now apply Rinv_0_lt_compat. assert (0 < / INR n) by now apply Rinv_0_lt_compat.
    unfold Rdiv. split; intros; [apply Rmult_le_compat_r; [lra|]; apply Rmult_le_compat_l; lra | apply Rmult_lt_compat_r; [lra|]; apply Rmult_lt_compat_l; lra]. }
  split.
  - intros i H. rewrite Fm, (F i H). apply Cmp. apply rsum_le. intros k _. destruct (G k) as [G0 G1].
    pose proof (COS_bound (2 * PI * (INR k * INR ((i + n / 2) mod n)) / INR n)) as [C0 C1].
    apply Rle_trans with (g k * 1); [apply Rmult_le_compat_l; lra | lra].
  - rewrite Fm, (F m) by lia. apply Cmp. apply (rsum_lt _ _ _ 1%nat); [lia| |].
    + intros k _. destruct (G k) as [G0 G1]. pose proof (COS_bound (2 * PI * (INR k * INR ((m + n / 2) mod n)) / INR n)) as [C0 C1].
      apply Rle_trans with (g k * 1); [apply Rmult_le_compat_l; lra | lra].
    + destruct (G 1%nat) as [G0 G1]. rewrite <- (Rmult_1_r (g 1%nat)) at 2. apply Rmult_lt_compat_l; [exact G0|].
      rewrite N2. replace (m + m)%nat with (n - 1)%nat by lia. rewrite Nat.mod_small by lia. rewrite minus_INR by lia. cbn [INR].
      replace (2 * PI * (1 * (INR n - 1)) / INR n) with (- (2 * PI / INR n) + 2 * INR 1 * PI) by (cbn [INR]; field; lra).
      rewrite cos_period, cos_neg. assert (H3 : 3 <= INR n) by (replace 3 with (INR 3) by (cbn; lra); apply le_INR; lia).
      rewrite <- cos_0. pose proof PI_RGT_0.
      apply cos_decreasing_1; try lra.
      * apply Rlt_le, Rdiv_lt_0_compat; lra.
      * apply (Rmult_le_reg_r (INR n)); [lra|]. unfold Rdiv. rewrite Rmult_assoc, Rinv_l, Rmult_1_r by lra. nra.
      * apply Rdiv_lt_0_compat; lra.
Qed.

(** * Negative dimension indexes *)
Lemma broadcast_negative (array : list C) k ndim : (2 <= k <= ndim)%nat ->
  get_broadcast_shape array (- Z.of_nat k) ndim = get_broadcast_shape array (Z.of_nat (ndim - k + 1)) ndim.
Proof.
  intros H. unfold get_broadcast_shape. f_equal.
  assert (R1 : in_range (length (repeat false (ndim + 1))) (- - Z.of_nat k - 1)) by (unfold in_range; rewrite repeat_length; lia).
  assert (R2 : in_range (length (repeat false (ndim + 1))) (- Z.of_nat (ndim - k + 1) - 1)) by (unfold in_range; rewrite repeat_length; lia).
  rewrite (py_assign_wrap _ _ _ R1), (py_assign_wrap _ _ _ R2). do 2 f_equal. rewrite repeat_length. unfold wrap.
  destruct (Z.ltb_spec (- - Z.of_nat k - 1) 0), (Z.ltb_spec (- Z.of_nat (ndim - k + 1) - 1) 0); lia.
Qed.
Lemma apodize_negative fn k s data dd dd' f : well_formed data -> (2 <= k <= length (dims data))%nat ->
  nth_error (dims data) (length (dims data) - k) = Some dd -> fn dd = Ok f ->
  nth_error (dims data) (length (dims data) - k + 1) = Some dd' -> length f = d_count dd' ->
  valid_selection (length (dvs data)) s ->
  exists data', apodize fn (One (- Z.of_nat k)) s data = Ok data' /\ same_shape data data' /\
    forall j v v', nth_error (dvs data) j = Some v -> nth_error (dvs data') j = Some v' -> forall p ix, point (dims data) ix ->
      entry v' p ix = (entry v p ix * cpow (RtoC (nth (nth (length (dims data) - k + 1) ix 0%nat) f 0)) (selected (length (dvs data)) j s))%C.
Proof.
  intros W K Ed Ef Ed' Lf Hs. unfold apodize. cbn [as_list for_each]. set (ds := dims data) in *.
  rewrite py_index_wrap by (unfold in_range; lia).
  replace (wrap (length ds) (- Z.of_nat k)) with (length ds - k)%nat by (unfold wrap; destruct (Z.ltb_spec (- Z.of_nat k) 0); lia).
  rewrite Ed. cbn [bind]. rewrite Ef. cbn [bind]. rewrite broadcast_negative by exact K. set (d := (length ds - k + 1)%nat) in *.
  assert (Ld : (d < length ds)%nat) by (unfold d; lia).
  destruct (broadcast_shape (map RtoC f) d (length ds) Ld) as [w [Ew [Sw Aw]]]. rewrite map_length in Sw, Aw. rewrite Ew. cbn [bind].
  destruct (multiply_loop w (get_dv_indexes s (length (dvs data))) (dvs data) (indexes_in_range _ _ Hs)) as [l1 [E1 [S1 P1]]].
  { rewrite Sw. eapply Forall_impl; [|exact W]. intros v Hv. now apply (shape_broadcasts ds v d dd'). }
  rewrite E1. cbn [bind]. exists (mkData ds l1). split; [reflexivity|]. split; [split; [reflexivity | exact S1]|].
  intros j v v' Ej Ej' p ix Hp. assert (J : (j < length (dvs data))%nat) by (apply nth_error_Some; congruence).
  unfold entry. cbn [dvs] in Ej'. rewrite (P1 j v v' Ej Ej'). rewrite selected_times by exact J. pose proof (point_length _ _ Hp) as Lp.
  assert (Nx : nth (length ds - d) (p :: rev ix) 0%nat = nth d ix 0%nat).
  { replace (length ds - d)%nat with (S (length ix - 1 - d)) by lia. cbn [nth]. apply rev_axis. lia. }
  rewrite Aw; [|cbn [length]; rewrite rev_length; lia | rewrite Nx, Lf; now apply (point_nth ds ix d dd')].
  rewrite Nx, nth_map_C. reflexivity.
Qed.
Lemma apodize_last fn data dd f v p s : nth_error (dims data) (length (dims data) - 1) = Some dd -> fn dd = Ok f ->
  nth_error (dvs data) 0 = Some v -> v_shape v = p :: rev (map d_count (dims data)) -> length f <> p -> length f <> 1%nat ->
  (exists r, get_dv_indexes s (length (dvs data)) = 0%Z :: r) ->
  apodize fn (One (-1)) s data = Err ValueError.
Proof.
  intros Ed Ef Ev Sv Np N1 [r Er]. unfold apodize. cbn [as_list for_each]. set (ds := dims data) in *.
  assert (L : (0 < length ds)%nat) by (destruct ds; [discriminate Ed | cbn; lia]).
  rewrite py_index_wrap by (unfold in_range; lia).
  replace (wrap (length ds) (-1)) with (length ds - 1)%nat by (unfold wrap; cbn [Z.ltb Z.compare]; lia).
  rewrite Ed. cbn [bind]. rewrite Ef. cbn [bind]. unfold get_broadcast_shape.
  rewrite (py_assign_wrap _ (- -1 - 1) true) by (unfold in_range; rewrite repeat_length; lia). cbn [bind]. rewrite Er.
  unfold multiply_variables. cbn [for_each]. rewrite py_index_wrap by (unfold in_range; destruct (dvs data); [discriminate Ev | cbn; lia]).
  change (wrap (length (dvs data)) 0) with 0%nat. rewrite Ev. cbn [bind]. unfold imul. rewrite Sv.
  rewrite repeat_length. change (wrap (length ds + 1) (- -1 - 1)) with 0%nat. rewrite Nat.add_1_r. cbn [repeat upd_nat v_shape map broadcasts].
  rewrite map_length. apply Nat.eqb_neq in Np, N1. rewrite Np, N1. reflexivity.
Qed.

(** * Shear *)
Definition joined (a b : list nat) : list nat := map (fun ab => if (fst ab =? 1)%nat then snd ab else fst ab) (combine a b).
Lemma joined_broadcasts s : forall a b, broadcasts s a = true -> broadcasts s b = true -> broadcasts s (joined a b) = true.
Proof.
  induction s as [|x s IH]; intros [|y a] [|z b] A B; cbn in *; try discriminate; auto.
  apply andb_true_iff in A as [A1 A2], B as [B1 B2]. fold (joined a b). rewrite (IH a b A2 B2), andb_true_r.
  destruct (y =? 1)%nat eqn:E; [exact B1|]. first [exact A1 | now rewrite E].
Qed.
Lemma joined_length a : forall b, length a = length b -> length (joined a b) = length a.
Proof. intros b H. unfold joined. rewrite map_length, combine_length. lia. Qed.
Lemma joined_nth a : forall b k, length a = length b -> (k < length a)%nat ->
  nth k (joined a b) 0%nat = if (nth k a 0 =? 1)%nat then nth k b 0%nat else nth k a 0%nat.
Proof. induction a as [|x a IH]; intros [|y b] [|k] L H; cbn in *; try lia; try reflexivity. apply IH; lia. Qed.
Definition axis_shape (ndim d n : nat) : list nat := repeat 1%nat (ndim - d) ++ n :: repeat 1%nat d.
Lemma axis_length ndim d n : (d < ndim)%nat -> length (axis_shape ndim d n) = (ndim + 1)%nat.
Proof. intros H. unfold axis_shape. rewrite app_length. cbn [length]. rewrite !repeat_length. lia. Qed.
Lemma nth_repeat' {A} (a b : A) n k : (k < n)%nat -> nth k (repeat a n) b = a.
Proof. revert k. induction n as [|n IH]; intros [|k] H; cbn; try lia; auto. apply IH. lia. Qed.
Lemma axis_nth ndim d n k : (d < ndim)%nat -> (k < ndim + 1)%nat -> nth k (axis_shape ndim d n) 0%nat = if (k =? ndim - d)%nat then n else 1%nat.
Proof.
  intros H K. unfold axis_shape. destruct (Nat.eqb_spec k (ndim - d)) as [->|N].
  - rewrite app_nth2 by (rewrite repeat_length; lia). now rewrite repeat_length, Nat.sub_diag.
  - destruct (Nat.lt_ge_cases k (ndim - d)).
    + rewrite app_nth1 by (rewrite repeat_length; lia). now apply nth_repeat'.
    + rewrite app_nth2 by (rewrite repeat_length; lia). rewrite repeat_length.
      replace (k - (ndim - d))%nat with (S (k - (ndim - d) - 1)) by lia. cbn [nth]. apply nth_repeat'. lia.
Qed.
Lemma shear_spec factor unit a b s data x y : well_formed data -> a <> b ->
  nth_error (dims data) a = Some x -> nth_error (dims data) b = Some y -> valid_selection (length (dvs data)) s ->
  exists data', shear factor unit (Z.of_nat a) (Z.of_nat b) s data = Ok data' /\ same_shape data data' /\
    forall j v v', nth_error (dvs data) j = Some v -> nth_error (dvs data') j = Some v' -> forall p ix, point (dims data) ix ->
      entry v' p ix = (entry v p ix * cpow (cis (-2 * PI * (nth (nth a ix 0%nat) (coordinates x) 0 * nth (nth b ix 0%nat) (coordinates y) 0) * factor *
        (/ unit / (d_unit x * d_unit y)))) (selected (length (dvs data)) j s))%C.
Proof.
  intros W Nab Ex Ey Hs. unfold shear. set (ds := dims data) in *.
  assert (La : (a < length ds)%nat) by (apply nth_error_Some; congruence).
  assert (Lb : (b < length ds)%nat) by (apply nth_error_Some; congruence).
  rewrite !py_index_wrap by (unfold in_range; lia).
  replace (wrap (length ds) (Z.of_nat a)) with a by (unfold wrap; destruct (Z.ltb_spec (Z.of_nat a) 0); lia).
  replace (wrap (length ds) (Z.of_nat b)) with b by (unfold wrap; destruct (Z.ltb_spec (Z.of_nat b) 0); lia).
  rewrite Ex, Ey. cbn [bind].
  destruct (broadcast_shape (map RtoC (coordinates x)) a (length ds) La) as [wx [Ewx [Sx Ax]]].
  destruct (broadcast_shape (map RtoC (coordinates y)) b (length ds) Lb) as [wy [Ewy [Sy Ay]]].
  rewrite map_length, coordinates_length in Sx, Ax, Sy, Ay. rewrite Ewx. cbn [bind]. rewrite Ewy. cbn [bind].
  fold (axis_shape (length ds) a (d_count x)) in Sx. fold (axis_shape (length ds) b (d_count y)) in Sy.
  fold (joined (v_shape wx) (v_shape wy)). set (w := mkVar _ _).
  assert (Bw : Forall (fun v => broadcasts (v_shape v) (v_shape w) = true) (dvs data)).
  { eapply Forall_impl; [|exact W]. intros v Hv. cbn [v_shape w]. apply joined_broadcasts.
    - rewrite Sx. now apply (shape_broadcasts ds v a x).
    - rewrite Sy. now apply (shape_broadcasts ds v b y). }
  destruct (multiply_loop w (get_dv_indexes s (length (dvs data))) (dvs data) (indexes_in_range _ _ Hs) Bw) as [l1 [E1 [S1 P1]]].
  rewrite E1. cbn [bind]. exists (mkData ds l1). split; [reflexivity|]. split; [split; [reflexivity | exact S1]|].
  intros j v v' Ej Ej' p ix Hp. assert (J : (j < length (dvs data))%nat) by (apply nth_error_Some; congruence).
  unfold entry. cbn [dvs] in Ej'. rewrite (P1 j v v' Ej Ej'). rewrite selected_times by exact J. pose proof (point_length _ _ Hp) as Lp.
  assert (Nx : forall d, (d < length ds)%nat -> nth (length ds - d) (p :: rev ix) 0%nat = nth d ix 0%nat).
  { intros d Hd. replace (length ds - d)%nat with (S (length ix - 1 - d)) by lia. cbn [nth]. apply rev_axis. lia. }
  assert (Li : length (p :: rev ix) = (length ds + 1)%nat) by (cbn [length]; rewrite rev_length; lia).
  assert (Lw : length (joined (v_shape wx) (v_shape wy)) = (length ds + 1)%nat)
    by (rewrite joined_length; rewrite Sx, ?Sy, !axis_length; auto).
  assert (Cx : nth (length ds - a) (clip (joined (v_shape wx) (v_shape wy)) (p :: rev ix)) 0%nat = nth a ix 0%nat).
  { rewrite clip_nth by (rewrite ?Lw; auto; lia). rewrite joined_nth by (rewrite Sx, ?Sy, !axis_length by assumption; lia).
    rewrite Sx, Sy, !axis_nth by lia. rewrite Nat.eqb_refl. destruct (Nat.eqb_spec (length ds - a) (length ds - b)); [lia|].
    rewrite Nx by exact La. pose proof (point_nth ds ix a x Hp Ex). destruct (Nat.eqb_spec (d_count x) 1) as [E|E]; cbn [Nat.eqb]; [lia|].
    destruct (Nat.eqb_spec (d_count x) 1); [lia | reflexivity]. }
  assert (Cy : nth (length ds - b) (clip (joined (v_shape wx) (v_shape wy)) (p :: rev ix)) 0%nat = nth b ix 0%nat).
  { rewrite clip_nth by (rewrite ?Lw; auto; lia). rewrite joined_nth by (rewrite Sx, ?Sy, !axis_length by assumption; lia).
    rewrite Sx, Sy, !axis_nth by lia. rewrite Nat.eqb_refl. destruct (Nat.eqb_spec (length ds - b) (length ds - a)); [lia|]. cbn [Nat.eqb].
    rewrite Nx by exact Lb. pose proof (point_nth ds ix b y Hp Ey). destruct (Nat.eqb_spec (d_count y) 1) as [E|E]; [lia | reflexivity]. }
  cbn [v_at v_shape w].
  rewrite Ax; [|rewrite clip_length; congruence | rewrite Cx; now apply (point_nth ds ix a x)].
  rewrite Ay; [|rewrite clip_length; congruence | rewrite Cy; now apply (point_nth ds ix b y)].
  rewrite Cx, Cy, !nth_map_C. cbn [fst Cmult RtoC]. do 3 f_equal. cbn. ring.
Qed.

(** * Objects *)
Section Objects.
  Variable fft : Z -> dataset -> pyres dataset.
  Lemma objects_loop ops : forall g c b h, for_each ops (operate_on_objects fft) (mkObj g c b) = Ok h ->
    for_each ops (operate fft) c = Ok (current h) /\
    (b = true -> g = c -> for_each (before_transform ops) (operate fft) c = Ok (given h)) /\ (b = false -> given h = g).
  Proof.
    induction ops as [|o ops IH]; intros g c b h H.
    - cbn in H. injection H as <-. cbn. split; [reflexivity|]. split; [intros _ ->; reflexivity | reflexivity].
    - cbn [for_each] in H. unfold operate_on_objects at 1 in H. cbn [current given same] in H. cbn [for_each before_transform].
      destruct (operate fft o c) as [d|e] eqn:E; [|discriminate]. cbn [bind] in H. cbn [bind].
      destruct (new_object o) eqn:N.
      + destruct (IH _ _ _ _ H) as [A [_ B]]. split; [exact A|]. split; [intros _ ->; cbn; now rewrite B | intros _; now apply B].
      + destruct (IH _ _ _ _ H) as [A [B C]]. split; [exact A|]. cbn [for_each]. rewrite E. cbn [bind]. split.
        * intros -> _. now apply B.
        * intros ->. now apply C.
  Qed.
  Lemma objects_total ops : forall g c b r, for_each ops (operate fft) c = Ok r -> exists h, for_each ops (operate_on_objects fft) (mkObj g c b) = Ok h.
  Proof.
    induction ops as [|o ops IH]; intros g c b r H; [eexists; reflexivity|]. cbn [for_each] in *. unfold operate_on_objects at 1. cbn [current given same].
    destruct (operate fft o c) as [d|e]; [|discriminate]. cbn [bind] in *. destruct (new_object o); eapply IH; eauto.
  Qed.
End Objects.

(** * Parameters of operations *)
Open Scope string_scope.
Definition attr_of (o : operation) : string := match o with Scale _ | AffineScale _ _ => "factor" | _ => "FWHM" end.
Definition operation_name (i : nat) (o : operation) : string := "operation_" ++ dec i ++ "_" ++ class_name o ++ "_" ++ attr_of o.
Lemma operation_tok i o : operation_name i o = denote (lit "operation_" ++ [Num i] ++ lit "_" ++ lit (class_name o) ++ lit "_" ++ lit (attr_of o))%list.
Proof. rewrite !denote_app, !denote_lit, denote_num. reflexivity. Qed.
Lemma split_operation i o : fitted o = true -> split "_"%char (operation_name i o) = ["operation"; dec i; class_name o; attr_of o].
Proof.
  intros H. rewrite operation_tok, split_tok by reflexivity.
  assert (E : tsplit "_"%char (lit "operation_" ++ [Num i] ++ lit "_" ++ lit (class_name o) ++ lit "_" ++ lit (attr_of o))%list =
    [lit "operation"; [Num i]; lit (class_name o); lit (attr_of o)]) by (destruct o; try discriminate; reflexivity).
  rewrite E. cbn [map]. now rewrite !denote_lit, denote_num.
Qed.
Lemma contains_operation i o : contains "operation_" (operation_name i o) = true.
Proof. unfold operation_name. apply contains_head. Qed.
Lemma params_from ops : forall i, post_sim_params_from i ops =
  Ok (map (fun io => (operation_name (fst io) (snd io), number (snd io))) (filter (fun io => fitted (snd io)) (numbered i ops))).
Proof.
  induction ops as [|o ops IH]; intros i; [reflexivity|]. cbn [post_sim_params_from numbered filter snd].
  destruct o; cbn [class_name fitted post_attr POST_SIM_DICT]; cbn [find fst snd String.eqb Ascii.eqb Bool.eqb];
    try (change (post_attr _) with (Some "factor")); try (change (post_attr _) with (Some "FWHM")); try (change (post_attr _) with (@None string));
    rewrite ?IH; cbn; rewrite ?IH; reflexivity.
Qed.
Lemma update_from (vs : nat -> R) rest : forall pre,
  update_post_sim (map (fun io => (operation_name (fst io) (snd io), vs (fst io))) (filter (fun io => fitted (snd io)) (numbered (length pre) rest))) (pre ++ rest)%list =
  Ok (pre ++ map (fun io => if fitted (snd io) then with_number (snd io) (vs (fst io)) else snd io) (numbered (length pre) rest))%list.
Proof.
  induction rest as [|o rest IH]; intros pre; [reflexivity|]. cbn [numbered filter map snd fst].
  assert (Lp : S (length pre) = length (pre ++ [if fitted o then with_number o (vs (length pre)) else o])) by (rewrite app_length; cbn; lia).
  destruct (fitted o) eqn:F.
  - cbn [map fst snd]. unfold update_post_sim. cbn [for_each fst snd]. rewrite contains_operation, (split_operation _ _ F).
    change (py_index ["operation"; dec (length pre); class_name o; attr_of o] 1) with (@Ok string (dec (length pre))).
    change (py_index ["operation"; dec (length pre); class_name o; attr_of o] 2) with (@Ok string (class_name o)).
    cbn [bind]. rewrite numeric_dec, int_dec. rewrite py_index_wrap by (unfold in_range; rewrite app_length; cbn [length]; lia).
    replace (wrap (length (pre ++ o :: rest)) (Z.of_nat (length pre))) with (length pre) by (unfold wrap; destruct (Z.ltb_spec (Z.of_nat (length pre)) 0); lia).
    rewrite nth_error_app2 by lia. rewrite Nat.sub_diag. cbn [nth_error bind].
    assert (A : post_attr (class_name o) = Some (attr_of o)) by (destruct o; try discriminate; reflexivity). rewrite A.
    assert (B : SigModel.set_attr o (attr_of o) (vs (length pre)) = Ok (with_number o (vs (length pre)))) by (destruct o; try discriminate; reflexivity).
    rewrite B. cbn [bind]. rewrite py_assign_wrap by (unfold in_range; rewrite app_length; cbn [length]; lia).
    replace (wrap (length (pre ++ o :: rest)) (Z.of_nat (length pre))) with (length pre) by (unfold wrap; destruct (Z.ltb_spec (Z.of_nat (length pre)) 0); lia).
    cbn [bind]. assert (U : upd_nat (pre ++ o :: rest) (length pre) (with_number o (vs (length pre))) = ((pre ++ [with_number o (vs (length pre))]) ++ rest)%list).
    { clear. generalize (with_number o (vs (length pre))). intros w. induction pre as [|x pre IH]; cbn; [reflexivity|]. now rewrite IH. }
    rewrite U. specialize (IH (pre ++ [with_number o (vs (length pre))])%list). rewrite <- Lp in IH. unfold update_post_sim in IH. rewrite IH.
    now rewrite <- app_assoc.
  - specialize (IH (pre ++ [o])%list). rewrite <- Lp in IH. rewrite <- app_assoc in IH. cbn [app] in IH. rewrite IH. now rewrite <- app_assoc.
Qed.
