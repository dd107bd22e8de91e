(** Proofs for C99. *)
From Coq Require Import ZArith QArith Qcanon Bool Ascii String List Lia.
From Verif Require Import Base BaseProofs SitesModel JsonModel ProcModel ProcSpec.
Import ListNotations.
Open Scope string_scope.
Open Scope list_scope.

Lemma int_of_Z z : int_of (Qc_of_Z z) = z.
Proof.
  unfold int_of, Qc_of_Z. cbn [this Q2Qc]. unfold Qred, inject_Z. cbn [Qnum Qden].
  pose proof (Z.ggcd_gcd z 1) as G. pose proof (Z.ggcd_correct_divisors z 1) as D. destruct (Z.ggcd z 1) as [g [a b]]. cbn [fst snd] in *.
  rewrite Z.gcd_1_r in G. subst g. destruct D as [D1 D2]. rewrite Z.mul_1_l in D1, D2. subst. cbn. apply Z.quot_1_r.
Qed.
Lemma get_plain i : plain_index i -> get_list (index_val i) = Ok (index_val i).
Proof.
  destruct i as [z|l]; [reflexivity|]. cbn [plain_index index_val get_list]. intros F.
  assert (E : (fix go l := match l with
                 | [] => Ok []
                 | JNone :: r => go r
                 | JStr "" :: r => go r
                 | x :: r => let* y := get_list x in let* s := go r in Ok (y :: s)
                 end) l = Ok l).
  { induction F as [|v l (z & ->) F IH]; [reflexivity|]. cbn [get_list bind]. rewrite IH. reflexivity. }
  rewrite E. reflexivity.
Qed.
Lemma read_plain i : read_index (index_val i) = Ok i.
Proof. destruct i; cbn; [now rewrite int_of_Z|reflexivity]. Qed.
Lemma opt_here d k i : dict_lookup d k = Some (index_val i) -> opt_index d k = Ok (Some i).
Proof. intros E. unfold opt_index. rewrite E. destruct i; cbn; [now rewrite int_of_Z|reflexivity]. Qed.
Lemma opt_none d k : dict_lookup d k = None -> opt_index d k = Ok None.
Proof. intros E. unfold opt_index. now rewrite E. Qed.
Lemma index_here d k i : dict_lookup d k = Some (index_val i) -> def_index d k = Ok i.
Proof. intros E. unfold def_index. rewrite E. apply read_plain. Qed.
Lemma int_here d k z n : dict_lookup d k = Some (JNum (Qc_of_Z z)) -> def_int d k n (fun _ => true) = Ok z.
Proof. intros E. unfold def_int. rewrite E. cbn -[int_of Qc_of_Z]. now rewrite int_of_Z. Qed.

Section Proc.
  Context {unit_ : Type} (show : unit_ -> string) (read : string -> option unit_) (imported : submodule -> bool).
  Hypothesis Units : forall u, show u <> "" -> read (show u) = Some u.
  Hypothesis Loaded : forall m, imported m = true.
  Definition unit_after (u : option (entry unit_)) : option (entry unit_) :=
    match u with Some (Unit_ _ x) => if String.eqb (show x) "" then None else u | _ => None end.
  Lemma read_quantity q u : match u with Some (One _) => False | _ => True end ->
    str_to_quantity unit_ read (json_quantity unit_ show q u) None = Ok (q, unit_after u).
  Proof.
    destruct u as [[| |x]|]; cbn; try reflexivity; [contradiction|]. intros _. destruct (String.eqb_spec (show x) "") as [E|E]; [reflexivity|].
    now rewrite (Units x E).
  Qed.
  Definition after (o : op unit_) : op unit_ :=
    match o with
    | Apodization _ t w u i s => Apodization _ t w (unit_after u) i s
    | Shear _ f u i p s => Shear _ f (unit_after u) i p s
    | AffineScale _ f u i s => AffineScale _ f (unit_after u) i s
    | o => o
    end.
  Lemma quantity_here d k q u n : match u with Some (One _) => False | _ => True end -> dict_lookup d k = Some (json_quantity unit_ show q u) ->
    def_quantity unit_ read d k n None = Ok (q, unit_after u).
  Proof. intros H E. unfold def_quantity. rewrite E. now apply read_quantity. Qed.
  Lemma op_round o : plain o -> not_one o -> exists d, json_op unit_ show o = Ok d /\ parse_op unit_ read imported d = Ok (after o).
  Proof.
    destruct o as [f|i|i| |t w u i s|f u i p s|f u i s]; cbn [plain not_one unit_of json_op after]; unfold json_index; intros P N.
    - eexists. split; [reflexivity|]. reflexivity.
    - rewrite (get_plain i P). eexists. split; [reflexivity|]. unfold parse_op. cbn. unfold make_fft. now rewrite (index_here _ _ i) by reflexivity.
    - rewrite (get_plain i P). eexists. split; [reflexivity|]. unfold parse_op. cbn. unfold make_fft. now rewrite (index_here _ _ i) by reflexivity.
    - eexists. split; reflexivity.
    - destruct P as [Pi Ps]. rewrite (get_plain i Pi). cbn [bind]. destruct s as [s|]; cbn [json_opt_index].
      + unfold json_index. rewrite (get_plain s Ps). cbn [bind app]. eexists. split; [reflexivity|]. unfold parse_op. cbn -[int_of Qc_of_Z make_shear make_affine_scale make_apodization]. rewrite Loaded.
        destruct t; cbn; unfold make_apodization; rewrite (index_here _ _ i) by reflexivity; cbn [bind]; rewrite (opt_here _ _ s) by reflexivity; cbn [bind]; rewrite (quantity_here _ _ w u _ N) by reflexivity; reflexivity.
      + cbn [bind app]. eexists. split; [reflexivity|]. unfold parse_op. cbn -[int_of Qc_of_Z make_shear make_affine_scale make_apodization]. rewrite Loaded.
        destruct t; cbn; unfold make_apodization; rewrite (index_here _ _ i) by reflexivity; cbn [bind]; rewrite (opt_none _ _) by reflexivity; cbn [bind]; rewrite (quantity_here _ _ w u _ N) by reflexivity; reflexivity.
    - destruct s as [s|]; cbn [json_opt_index].
      + unfold json_index. rewrite (get_plain s P). cbn [bind app]. eexists. split; [reflexivity|]. unfold parse_op. cbn -[int_of Qc_of_Z make_shear make_affine_scale make_apodization]. rewrite Loaded.
        cbn -[int_of Qc_of_Z make_shear make_affine_scale]. unfold make_shear. rewrite (int_here _ _ i _) by reflexivity. cbn [bind]. rewrite (opt_here _ _ s) by reflexivity. cbn [bind]. rewrite (quantity_here _ _ f u _ N) by reflexivity. cbn [bind]. rewrite (int_here _ _ p _) by reflexivity. reflexivity.
      + cbn [bind app]. eexists. split; [reflexivity|]. unfold parse_op. cbn -[int_of Qc_of_Z make_shear make_affine_scale make_apodization]. rewrite Loaded.
        cbn -[int_of Qc_of_Z make_shear make_affine_scale]. unfold make_shear. rewrite (int_here _ _ i _) by reflexivity. cbn [bind]. rewrite (opt_none _ _) by reflexivity. cbn [bind]. rewrite (quantity_here _ _ f u _ N) by reflexivity. cbn [bind]. rewrite (int_here _ _ p _) by reflexivity. reflexivity.
    - destruct s as [s|]; cbn [json_opt_index].
      + unfold json_index. rewrite (get_plain s P). cbn [bind app]. eexists. split; [reflexivity|]. unfold parse_op. cbn -[int_of Qc_of_Z make_shear make_affine_scale make_apodization]. rewrite Loaded.
        cbn -[int_of Qc_of_Z make_shear make_affine_scale]. unfold make_affine_scale. rewrite (int_here _ _ i _) by reflexivity. cbn [bind]. rewrite (opt_here _ _ s) by reflexivity. cbn [bind]. rewrite (quantity_here _ _ f u _ N) by reflexivity. cbn [bind]. reflexivity.
      + cbn [bind app]. eexists. split; [reflexivity|]. unfold parse_op. cbn -[int_of Qc_of_Z make_shear make_affine_scale make_apodization]. rewrite Loaded.
        cbn -[int_of Qc_of_Z make_shear make_affine_scale]. unfold make_affine_scale. rewrite (int_here _ _ i _) by reflexivity. cbn [bind]. rewrite (opt_none _ _) by reflexivity. cbn [bind]. rewrite (quantity_here _ _ f u _ N) by reflexivity. cbn [bind]. reflexivity.
  Qed.
  Lemma processor_round l : Forall plain l -> Forall not_one l ->
    exists d, json_processor unit_ show l = Ok d /\ parse_processor unit_ read imported d = Ok (map after l).
  Proof.
    intros P N. assert (E : exists m, mapM (fun o => let* d := json_op unit_ show o in Ok (JDict d)) l = Ok m /\
        mapM (fun v => match v with JDict d => parse_op unit_ read imported d | _ => Err AttributeError end) m = Ok (map after l)).
    { induction P as [|o l Po P IH]; [exists []; auto|]. inversion N as [|? ? No N']; subst. destruct (IH N') as (m & E1 & E2).
      destruct (op_round o Po No) as (d & D1 & D2). exists (JDict d :: m). cbn [mapM map]. rewrite D1. cbn [bind]. rewrite E1. cbn [bind]. split; [reflexivity|].
      rewrite D2. cbn [bind]. now rewrite E2. }
    destruct E as (m & E1 & E2). eexists. split; [unfold json_processor; rewrite E1; reflexivity|]. exact E2.
  Qed.
  Lemma after_given o : given_with_unit show o -> after o = o.
  Proof.
    destruct o; cbn; try reflexivity; intros (x & -> & H); cbn; destruct (String.eqb_spec (show x) ""); congruence.
  Qed.
  Lemma given_not_one o : given_with_unit show o -> not_one o.
  Proof. unfold given_with_unit, not_one. destruct (unit_of o); [|trivial]. intros (x & -> & _). exact I. Qed.
  Lemma after_same o : same_but_unit show o (after o).
  Proof.
    assert (S : forall u, same_unit show u (unit_after u)).
    { intros [[| |x]|]; cbn; try reflexivity. destruct (String.eqb (show x) ""); reflexivity. }
    destruct o; cbn; auto.
  Qed.
  Lemma after_not_one o : not_one (after o).
  Proof.
    assert (S : forall u, match unit_after u with Some (One _) => False | _ => True end).
    { intros [[| |x]|]; cbn; trivial. destruct (String.eqb (show x) ""); trivial. }
    destruct o; try exact I; apply S.
  Qed.
  Lemma after_plain o : plain o -> plain (after o).
  Proof. destruct o; auto. Qed.
  Lemma after_after o : after (after o) = after o.
  Proof.
    assert (S : forall u, unit_after (unit_after u) = unit_after u).
    { intros [[| |x]|]; cbn; try reflexivity. destruct (String.eqb (show x) "") eqn:E; cbn; [reflexivity|now rewrite E]. }
    destruct o; cbn; congruence.
  Qed.
End Proc.
