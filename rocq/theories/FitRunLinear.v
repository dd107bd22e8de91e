(** Proofs for C98: operations on every variable commute with adding up the variables. *)
From Coq Require Import Reals ZArith Bool String List Lia Lra.
From Coquelicot Require Import Complex.
From Verif Require Import Base BaseProofs DftModel SigModel SigSpec SigProofs FitRunModel FitRunSpec.
Import ListNotations.
Open Scope list_scope.

Lemma csum_scale (c : C) l : csum (map (fun x => x * c)%C l) = (csum l * c)%C.
Proof.
  unfold csum. induction l as [|x l IH]; cbn [map fold_right].
  - apply injective_projections; cbn; ring.
  - rewrite IH. apply injective_projections; cbn; ring.
Qed.
Lemma csum_re l : Re (csum l) = fold_right Rplus 0%R (map Re l).
Proof. unfold csum. induction l as [|x l IH]; cbn [map fold_right]; [reflexivity|]. rewrite <- IH. reflexivity. Qed.

(** The variables of the two datasets. *)
Definition vsum (parts whole : list variable) : Prop :=
  exists w, whole = [w] /\ parts <> [] /\ Forall (fun v => v_shape v = v_shape w) parts /\
  forall idx, v_at w idx = csum (map (fun v => v_at v idx) parts).
Lemma adds_up_iff a b : adds_up a b <-> dims b = dims a /\ vsum (dvs a) (dvs b).
Proof. unfold adds_up, vsum. firstorder. Qed.

Lemma multiply_all w : forall r pre, for_each (map Z.of_nat (seq (length pre) (length r)))
    (fun i l => let* v := py_index l i in let* v' := imul v w in py_assign l i v') (pre ++ r) =
  let* r' := mapM (fun v => imul v w) r in Ok (pre ++ r').
Proof.
  induction r as [|v r IH]; intros pre; [cbn; reflexivity|]. cbn [length seq map for_each mapM].
  assert (R : in_range (length (pre ++ v :: r)) (Z.of_nat (length pre))) by (unfold in_range; rewrite app_length; cbn; lia).
  assert (W : wrap (length (pre ++ v :: r)) (Z.of_nat (length pre)) = length pre).
  { unfold wrap. destruct (Z.of_nat (length pre) <? 0)%Z eqn:E; [apply Z.ltb_lt in E; lia|]. lia. }
  rewrite (py_index_wrap _ _ R), W, nth_error_app2, Nat.sub_diag by lia. cbn [nth_error bind].
  destruct (imul v w) as [v'|e]; [|reflexivity]. cbn [bind]. rewrite (py_assign_wrap _ _ _ R), W. cbn [bind].
  assert (U : upd_nat (pre ++ v :: r) (length pre) v' = (pre ++ [v']) ++ r).
  { rewrite <- app_assoc. clear. induction pre as [|x pre IH]; cbn; [reflexivity|]. now rewrite IH. }
  rewrite U. specialize (IH (pre ++ [v'])). rewrite app_length in IH. cbn [length] in IH.
  replace (length pre + 1)%nat with (S (length pre)) in IH by lia. rewrite IH.
  destruct (mapM (fun v => imul v w) r) as [r'|e]; [|reflexivity]. cbn [bind]. now rewrite <- app_assoc.
Qed.
Lemma multiply_none w l : multiply_variables (get_dv_indexes None (length l)) w l = mapM (fun v => imul v w) l.
Proof.
  unfold multiply_variables, get_dv_indexes. rewrite zrange_0. pose proof (multiply_all w l []) as M. cbn [app length] in M. rewrite M.
  destruct (mapM (fun v => imul v w) l); reflexivity.
Qed.
Lemma multiply_sum w a b : vsum a b ->
  agree vsum (multiply_variables (get_dv_indexes None (length a)) w a) (multiply_variables (get_dv_indexes None (length b)) w b).
Proof.
  intros (x & -> & N & F & S). rewrite !multiply_none. cbn [mapM].
  destruct (broadcasts (v_shape x) (v_shape w)) eqn:B.
  - assert (E : mapM (fun v => imul v w) a =
        Ok (map (fun v => mkVar (v_shape v) (fun idx => v_at v idx * v_at w (clip (v_shape w) idx))%C) a)).
    { clear N S. induction F as [|v a H F IH]; [reflexivity|]. cbn [mapM map]. rewrite IH. unfold imul. rewrite H, B. reflexivity. }
    rewrite E. unfold imul. rewrite B. cbn [bind agree]. eexists. split; [reflexivity|]. split; [|split].
    + destruct a; [congruence|discriminate].
    + apply Forall_map. revert F. apply Forall_impl. intros v H. exact H.
    + intros idx. cbn [v_at]. rewrite S, <- csum_scale, !map_map. reflexivity.
  - destruct a as [|v a]; [congruence|]. inversion F as [|? ? H F']; subst. cbn [mapM]. unfold imul. rewrite H, B. reflexivity.
Qed.
Lemma agree_bind {A B A' B'} (R : A -> B -> Prop) (S : A' -> B' -> Prop) a b f g :
  agree R a b -> (forall x y, R x y -> agree S (f x) (g y)) -> agree S (bind a f) (bind b g).
Proof. destruct a, b; cbn; intros H G; auto; contradiction. Qed.
Lemma agree_same {A A' B'} (S : A' -> B' -> Prop) (a : pyres A) f g : (forall x, agree S (f x) (g x)) -> agree S (bind a f) (bind a g).
Proof. destruct a; cbn; intros H; auto. Qed.
Lemma agree_for {X A B} (R : A -> B -> Prop) (l : list X) f g : (forall x a b, R a b -> agree R (f x a) (g x b)) ->
  forall a b, R a b -> agree R (for_each l f a) (for_each l g b).
Proof. intros H. induction l as [|x l IH]; intros a b I; cbn [for_each]; [exact I|]. eapply agree_bind; [apply H; exact I|exact IH]. Qed.

Lemma operate_sum fft o a b : (forall i p w, adds_up p w -> agree adds_up (fft i p) (fft i w)) -> on_all_variables o -> adds_up a b ->
  agree adds_up (operate fft o a) (operate fft o b).
Proof.
  intros L O H. pose proof H as H'. apply adds_up_iff in H' as [D V].
  assert (AP : forall fn s, agree adds_up (apodize fn s None a) (apodize fn s None b)).
  { intros fn s. unfold apodize. rewrite D. eapply agree_bind with (R := vsum).
    - apply agree_for; [|exact V]. intros i x y Vxy. apply agree_same. intros d. apply agree_same. intros f. apply agree_same. intros w.
      apply multiply_sum. exact Vxy.
    - intros x y Vxy. cbn. apply adds_up_iff. auto. }
  destruct o; cbn [operate on_all_variables] in *.
  - cbn. apply adds_up_iff. split; [exact D|]. destruct V as (x & E & N & F & S). cbn [dvs scale_data]. rewrite E. cbn [map]. eexists.
    split; [reflexivity|]. split; [|split].
    + destruct (dvs a); [congruence|discriminate].
    + apply Forall_map. revert F. apply Forall_impl. intros v E'. exact E'.
    + intros idx. cbn [v_at]. rewrite S, <- csum_scale, !map_map. reflexivity.
  - apply agree_for; auto.
  - subst. apply AP.
  - subst. apply AP.
  - subst. unfold shear. rewrite D. apply agree_same. intros x. apply agree_same. intros y. apply agree_same. intros vx. apply agree_same. intros vy.
    eapply agree_bind; [apply multiply_sum; exact V|]. intros p q Vpq. cbn. apply adds_up_iff. auto.
  - unfold scale_dimension. rewrite D. apply agree_same. intros x. destruct (Req_EM_T factor 0); [reflexivity|].
    apply agree_same. intros l. cbn. apply adds_up_iff. auto.
Qed.
Lemma apply_sum fft ops a b : (forall i p w, adds_up p w -> agree adds_up (fft i p) (fft i w)) -> List.Forall on_all_variables ops -> adds_up a b ->
  agree adds_up (apply_operations fft ops a) (apply_operations fft ops b).
Proof.
  intros L F. unfold apply_operations. revert a b. induction F as [|o ops O F IH]; intros a b H; cbn [for_each]; [exact H|].
  eapply agree_bind; [apply operate_sum; eauto|exact IH].
Qed.
(** The dataset returned is that of the plain operations. *)
Lemma objects_result fft ops : forall h, agree (fun x y => current x = y) (for_each ops (operate_on_objects fft) h) (apply_operations fft ops (current h)).
Proof.
  unfold apply_operations. induction ops as [|o ops IH]; intros h; cbn [for_each]; [reflexivity|].
  unfold operate_on_objects at 1. destruct (operate fft o (current h)) as [x|e]; cbn [bind]; [|reflexivity].
  destruct (new_object o); apply IH.
Qed.
Lemma shapes_sum shape a b : vsum a b ->
  agree (fun l m => forall idx, fold_right Rplus 0%R (map (fun f : list nat -> C => Re (f idx)) l) = fold_right Rplus 0%R (map (fun f : list nat -> C => Re (f idx)) m))
    (mapM (same_shape_as shape) a) (mapM (same_shape_as shape) b).
Proof.
  intros (x & -> & N & F & S). cbn [mapM]. unfold same_shape_as at 2, first_component at 1.
  destruct (v_shape x) as [|[|n] s] eqn:E; cbn [bind].
  - destruct a as [|v a]; [congruence|]. inversion F as [|? ? H F']; subst. cbn [mapM]. unfold same_shape_as at 1, first_component. rewrite H. reflexivity.
  - destruct a as [|v a]; [congruence|]. inversion F as [|? ? H F']; subst. cbn [mapM]. unfold same_shape_as at 1, first_component. rewrite H. reflexivity.
  - cbn [fst snd]. destruct (list_eq_dec Nat.eq_dec s shape) as [Es|Es]; cbn [bind].
    + assert (M : mapM (same_shape_as shape) a = Ok (map (fun v idx => v_at v (O :: idx)) a)).
      { clear N S. induction F as [|v a H F IH]; [reflexivity|]. cbn [mapM map]. unfold same_shape_as at 1, first_component. rewrite H.
        cbn [bind fst snd]. destruct (list_eq_dec Nat.eq_dec s shape); [|congruence]. cbn [bind]. rewrite IH. reflexivity. }
      rewrite M. cbn [agree]. intros idx. cbn [map fold_right]. rewrite S, csum_re, !map_map, Rplus_0_r. reflexivity.
    + destruct a as [|v a]; [congruence|]. inversion F as [|? ? H F']; subst. cbn [mapM]. unfold same_shape_as at 1, first_component. rewrite H.
      cbn [bind fst snd]. destruct (list_eq_dec Nat.eq_dec s shape); [congruence|]. reflexivity.
Qed.
