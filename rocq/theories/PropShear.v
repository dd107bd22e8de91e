(** Property theorems about the shears of MQ-VAS and ST-VAS (C28).  [QR]: the real number of a rational; [sheared f w0 w1 ...]: the
    combination w0, w1 of the fourth-rank second-order quadrupolar frequencies of the transition m -> m' and of the central
    transition (MethodsShear); [anisotropic], [contribution]: FreqSpec; [ideal_f], [decimal_f]: the constants, exact or as rounded in
    the sources. *)
From Coq Require Import Reals Lra Lia List ZArith QArith Qreals Qcanon String.
From Coquelicot Require Import Complex.
From Verif Require Import Base DftModel DftProofs WignerModel WignerSpec WignerProofs FreqModel FreqSpec FreqProofs FreqConst PathwayModel MethodsModel MethodsShear.
Import ListNotations.
Open Scope R_scope.

(** The methods that exist without a user's affine matrix: name, 2 m and 2 I. *)
Definition mq_methods : list (string * Z * Z) :=
  [("ThreeQ_VAS", 3%Z, 3%Z); ("ThreeQ_VAS", 3%Z, 5%Z); ("ThreeQ_VAS", 3%Z, 7%Z); ("ThreeQ_VAS", 3%Z, 9%Z); ("FiveQ_VAS", 5%Z, 5%Z); ("FiveQ_VAS", 5%Z, 7%Z);
   ("FiveQ_VAS", 5%Z, 9%Z); ("SevenQ_VAS", 7%Z, 7%Z); ("SevenQ_VAS", 7%Z, 9%Z)]%string.
Lemma lookup_spin (row : list (Qc * Qc)) spin k : lookup qc_eqb row spin = Ok k -> In (spin, k) row.
Proof.
  induction row as [|[a b] row IH]; cbn; [discriminate|]. unfold qc_eqb. destruct (Qc_eq_dec spin a) as [->|]; [intros [= ->]; auto|auto].
Qed.
Lemma lookup_name (d : list (string * Qc)) name k : lookup String.eqb d name = Ok k -> In (name, k) d.
Proof.
  induction d as [|[a b] d IH]; cbn; [discriminate|]. destruct (String.eqb_spec name a) as [->|]; [intros [= ->]; auto|auto].
Qed.
Lemma shear_in table n spin k : shear table n spin = Ok k -> exists row, lookup Z.eqb table n = Ok row /\ In (spin, k) row.
Proof. unfold shear. destruct (lookup Z.eqb table n) as [row|]; [|discriminate]. cbn [bind]. intros H. exists row. auto using lookup_spin. Qed.
Definition mq_entries : list (string * Z * Z * Qc) :=
  [("ThreeQ_VAS", 3%Z, 3%Z, quot 21 27); ("ThreeQ_VAS", 3%Z, 5%Z, quot 114 72); ("ThreeQ_VAS", 3%Z, 7%Z, quot 303 135); ("ThreeQ_VAS", 3%Z, 9%Z, quot 546 216);
   ("FiveQ_VAS", 5%Z, 5%Z, quot 150 72); ("FiveQ_VAS", 5%Z, 7%Z, quot 165 135); ("FiveQ_VAS", 5%Z, 9%Z, quot 570 216); ("SevenQ_VAS", 7%Z, 7%Z, quot 483 135);
   ("SevenQ_VAS", 7%Z, 9%Z, quot 84 216)]%string.
Ltac entries table K :=
  match type of K with shear _ ?z _ = _ => let z' := eval vm_compute in z in change z with z' in K end;
  apply shear_in in K; destruct K as [row [E K]]; unfold table in E; cbn [lookup Z.eqb Pos.eqb] in E; injection E as <-;
  repeat (destruct K as [K|K]; [injection K as <- <-; eexists _, _, _; split; [|split; reflexivity]; cbn [In]; tauto|]); destruct K.
Lemma mq_cases name spin queries a : MQ_update name spin None = Ok (queries, a) ->
  exists mq2 n k, In (name, mq2, n, k) mq_entries /\ spin = half n /\ a = [1 / (1 + k); k / (1 + k); 0; 1]%Qc.
Proof.
  unfold MQ_update. intros H. destruct (lookup String.eqb _ _) as [mq|] eqn:L; [|discriminate]. cbn [bind] in H. apply lookup_name in L.
  destruct (affine_of _ _ _ _) as [a'|] eqn:A; [|discriminate]. cbn [bind] in H. injection H as _ <-. unfold affine_of in A.
  destruct (shear _ _ _) as [k|] eqn:K; [|discriminate]. injection A as <-. unfold mq_entries.
  destruct L as [[= <- <-]|[[= <- <-]|[[= <- <-]|[]]]]; entries shear_factor_MQ_MAS K.
Qed.
Lemma QR_w0 n d q : (this q == n # d)%Q -> QR q = IZR n / IZR (Zpos d).
Proof. intros H. unfold QR. rewrite (Qeq_eqR _ _ H). reflexivity. Qed.

(** ** C28 *)
(** Multiple-quantum methods.  For every name and channel spin for which the method exists without an affine matrix from the user,
    the affine matrix is [w0 w1; 0 1] with w0 + w1 = 1, and for every site of that spin (whatever its couplings Cq, eta and angles),
    field, orientation and rotor angle the fourth-rank second-order frequency along the first dimension vanishes: exactly with the
    exact constants, and to 1e-8 of the central transition's with the constants of the code.  The transition is that selected by
    the method (C29_mq). *)
Theorem C28_mq : forall (name : string) (spin : Qc) queries (a : list Qc), MQ_update name spin None = Ok (queries, a) ->
  exists (mq2 n : Z) (w0 w1 : Qc), In (name, mq2, n) mq_methods /\ spin = half n /\ a = [w0; w1; 0; 1]%Qc /\ (w0 + w1)%Qc = 1%Qc /\
  forall (B0 : R) (s : site) (alpha : R) (e_beta : C) (angle : R), s_spin s = IZR n / 2 ->
  let m := if Z.eqb mq2 n then IZR mq2 / 2 else - (IZR mq2 / 2) in
  sheared ideal_f (QR w0) (QR w1) B0 s m (- m) alpha e_beta angle = 0 /\
  Rabs (sheared decimal_f (QR w0) (QR w1) B0 s m (- m) alpha e_beta angle) <=
    1e-8 * Rabs (anisotropic true (contribution decimal_f B0 s (1 / 2) (- (1 / 2)) Quad2_4) alpha e_beta angle).
Proof.
  intros name spin queries a H. destruct (mq_cases name spin queries a H) as [mq2 [n [k [HI [-> ->]]]]]. exists mq2, n, (1 / (1 + k))%Qc, (k / (1 + k))%Qc.
  unfold mq_entries in HI. cbn [In] in HI. unfold mq_methods.
  repeat (destruct HI as [HI|HI]; [injection HI as <- <- <- <-; split; [cbn [In]; tauto|]|]); [..|destruct HI].
  all: do 2 (split; [reflexivity|]); split; [apply Qc_is_canon; reflexivity|]; intros B0 s al e th S; cbn [Z.eqb Pos.eqb].
  all: match goal with |- context[sheared ideal_f (QR ?a) (QR ?b)] =>
         let x := eval vm_compute in (this a) in let y := eval vm_compute in (this b) in
         match x with ?xn # ?xd => match y with ?yn # ?yd => rewrite (QR_w0 xn xd a), (QR_w0 yn yd b) by reflexivity end end end.
  all: split; [apply sheared_ideal; rewrite S; unfold c4_poly; lra|apply sheared_decimal; rewrite S; unfold tf_c, tf_f, tf_p; cbn [c4p c4f f_f decimal_f]].
  all: unfold Rabs; repeat destruct (Rcase_abs _); lra.
Qed.
Print Assumptions C28_mq.
Example C28_mq_example : exists queries a, MQ_update "ThreeQ_VAS" (half 3) None = Ok (queries, a) /\ map this a = [9 # 16; 7 # 16; 0; 1]%Q.
Proof. eexists _, _. split; reflexivity. Qed.

(** Satellite-transition methods: the same claim holds, for both satellite transitions (C29_st), only for ST1_VAS on spin 3/2 and
    ST2_VAS on spins 5/2 and 7/2. *)
Definition st_entries : list (string * Z * Z * Qc) :=
  [("ST1_VAS", 3%Z, 3%Z, quot 24 27); ("ST1_VAS", 3%Z, 5%Z, quot 21 72); ("ST1_VAS", 3%Z, 7%Z, quot 84 135); ("ST1_VAS", 3%Z, 9%Z, quot 165 216);
   ("ST2_VAS", 5%Z, 5%Z, quot 132 72); ("ST2_VAS", 5%Z, 7%Z, quot 69 135); ("ST2_VAS", 5%Z, 9%Z, quot 12 216)]%string.
Lemma st_cases name spin queries a : ST_update name spin None = Ok (queries, a) ->
  exists st2 n k, In (name, st2, n, k) st_entries /\ spin = half n /\ a = [1 / (1 + k); k / (1 + k); 0; 1]%Qc.
Proof.
  unfold ST_update. intros H. destruct (lookup String.eqb _ _) as [st|] eqn:L; [|discriminate]. cbn [bind] in H. apply lookup_name in L.
  destruct (affine_of _ _ _ _) as [a'|] eqn:A; [|discriminate]. cbn [bind] in H. injection H as _ <-. unfold affine_of in A.
  destruct (shear _ _ _) as [k|] eqn:K; [|discriminate]. injection A as <-. unfold st_entries.
  destruct L as [[= <- <-]|[[= <- <-]|[]]]; entries shear_factor_ST_MAS K.
Qed.
Definition st_right : list (string * Z * Z) := [("ST1_VAS", 3%Z, 3%Z); ("ST2_VAS", 5%Z, 5%Z); ("ST2_VAS", 5%Z, 7%Z)]%string.
Definition st_wrong : list (string * Z * Z) := [("ST1_VAS", 3%Z, 5%Z); ("ST1_VAS", 3%Z, 7%Z); ("ST1_VAS", 3%Z, 9%Z); ("ST2_VAS", 5%Z, 9%Z)]%string.
Ltac weights := match goal with |- context[sheared ideal_f (QR ?a) (QR ?b)] =>
         let x := eval vm_compute in (this a) in let y := eval vm_compute in (this b) in
         match x with ?xn # ?xd => match y with ?yn # ?yd => rewrite (QR_w0 xn xd a), (QR_w0 yn yd b) by reflexivity end end end.
Theorem C28_st_partial : forall (name : string) (spin : Qc) queries (a : list Qc), ST_update name spin None = Ok (queries, a) ->
  exists (st2 n : Z) (w0 w1 : Qc), In (name, st2, n) (st_right ++ st_wrong) /\ spin = half n /\ a = [w0; w1; 0; 1]%Qc /\ (w0 + w1)%Qc = 1%Qc /\
  (In (name, st2, n) st_right ->
   forall (m m' : R), m = IZR st2 / 2 /\ m' = IZR st2 / 2 - 1 \/ m = 1 - IZR st2 / 2 /\ m' = - (IZR st2 / 2) ->
   forall (B0 : R) (s : site) (alpha : R) (e_beta : C) (angle : R), s_spin s = IZR n / 2 ->
   sheared ideal_f (QR w0) (QR w1) B0 s m m' alpha e_beta angle = 0 /\
   Rabs (sheared decimal_f (QR w0) (QR w1) B0 s m m' alpha e_beta angle) <=
     1e-8 * Rabs (anisotropic true (contribution decimal_f B0 s (1 / 2) (- (1 / 2)) Quad2_4) alpha e_beta angle)).
Proof.
  intros name spin queries a H. destruct (st_cases name spin queries a H) as [st2 [n [k [HI [-> ->]]]]]. exists st2, n, (1 / (1 + k))%Qc, (k / (1 + k))%Qc.
  unfold st_entries in HI. cbn [In] in HI. unfold st_right, st_wrong.
  repeat (destruct HI as [HI|HI]; [injection HI as <- <- <- <-; split; [cbn [In app]; tauto|]|]); [..|destruct HI].
  all: do 2 (split; [reflexivity|]); split; [apply Qc_is_canon; reflexivity|]; intros R; cbn [In] in R; repeat destruct R as [R|R]; try discriminate R; try contradiction; clear R.
  all: intros m m' M B0 s al e th S; weights.
  all: destruct M as [[-> ->]|[-> ->]].
  all: split; [apply sheared_ideal; rewrite S; unfold c4_poly; lra|apply sheared_decimal; rewrite S; unfold tf_c, tf_f, tf_p; cbn [c4p c4f f_f decimal_f]].
  all: unfold Rabs; repeat destruct (Rcase_abs _); lra.
Qed.
Print Assumptions C28_st_partial.
Example C28_st_example : exists queries a, ST_update "ST1_VAS" (half 3) None = Ok (queries, a) /\ map this a = [9 # 17; 8 # 17; 0; 1]%Q.
Proof. eexists _, _. split; reflexivity. Qed.

(** Refuted for ST1_VAS on spins 5/2, 7/2, 9/2 and ST2_VAS on spin 9/2: the factors of the table have the wrong sign, and twice the
    central transition's share of the fourth-rank frequency is left in the first dimension, for every site of that spin, field and
    orientation.  It is not zero for a tensor along the field. *)
Definition axial_site (spin : R) : site := {| s_spin := spin; s_gamma := 1; s_iso := 0; s_zeta := 0; s_eta := 0; s_theta := (0, 0, 0); s_Cq := 1; s_qeta := 0; s_qtheta := (0, 0, 0) |}.
Theorem C28_st_refuted : forall (name : string) (st2 n : Z), In (name, st2, n) st_wrong ->
  exists queries (w0 w1 : Qc), ST_update name (half n) None = Ok (queries, [w0; w1; 0; 1]%Qc) /\ 0 < QR w1 /\
  let m := IZR st2 / 2 in
  (forall (B0 : R) (s : site) (alpha : R) (e_beta : C) (angle : R), s_spin s = IZR n / 2 ->
     sheared ideal_f (QR w0) (QR w1) B0 s m (m - 1) alpha e_beta angle =
     2 * QR w1 * anisotropic true (contribution ideal_f B0 s (1 / 2) (- (1 / 2)) Quad2_4) alpha e_beta angle) /\
  sheared ideal_f (QR w0) (QR w1) 1 (axial_site (IZR n / 2)) m (m - 1) 0 (RtoC 1) 0 <> 0.
Proof.
  intros name st2 n HI.
  assert (G : exists queries (w0 w1 : Qc), ST_update name (half n) None = Ok (queries, [w0; w1; 0; 1]%Qc) /\ 0 < QR w1 /\ (n = 5 \/ n = 7 \/ n = 9)%Z /\
    (forall (B0 : R) (s : site) (alpha : R) (e_beta : C) (angle : R), s_spin s = IZR n / 2 ->
     sheared ideal_f (QR w0) (QR w1) B0 s (IZR st2 / 2) (IZR st2 / 2 - 1) alpha e_beta angle =
     2 * QR w1 * anisotropic true (contribution ideal_f B0 s (1 / 2) (- (1 / 2)) Quad2_4) alpha e_beta angle)).
  { unfold st_wrong in HI. cbn [In] in HI. repeat (destruct HI as [HI|HI]; [injection HI as <- <- <-|]); [..|destruct HI].
    all: eexists _, _, _; split; [reflexivity|].
    all: match goal with |- context[sheared ideal_f (QR ?a) (QR ?b)] =>
         let x := eval vm_compute in (this a) in let y := eval vm_compute in (this b) in
         match x with ?xn # ?xd => match y with ?yn # ?yd => rewrite (QR_w0 yn yd b) by reflexivity;
           assert (W0 : QR a = IZR xn / IZR (Zpos xd)) by (apply QR_w0; reflexivity) end end end.
    all: split; [lra|]; split; [lia|]; intros B0 s al e th S; rewrite W0.
    all: destruct (sheared_factor ideal_f B0 s al e th) as [x X].
    all: match goal with |- sheared _ ?w0 ?w1 _ _ ?m ?m' _ _ _ = _ => rewrite (proj2 (X w0 w1 m m')), (proj1 (X w0 w1 (1 / 2) (- (1 / 2)))) end.
    all: rewrite !c4_ideal, S; unfold c4_poly; field. }
  destruct G as [queries [w0 [w1 [U [P [N G]]]]]]. exists queries, w0, w1. split; auto. split; auto. split; auto. rewrite (G 1 (axial_site (IZR n / 2)) 0 (RtoC 1) 0 eq_refl).
  assert (L : anisotropic true (contribution ideal_f 1 (axial_site (IZR n / 2)) (1 / 2) (- (1 / 2)) Quad2_4) 0 (RtoC 1) 0 <> 0).
  { cbn [contribution axial_site s_spin s_gamma s_iso s_zeta s_eta s_theta s_Cq s_qeta s_qtheta]. cbv zeta. rewrite aniso4. unfold anisotropic. cbn [only4 r2 r4].
    unfold turn, single_wigner_rotation. rewrite table_zero, !rotation_zero by (auto; rewrite ?rotation_length; reflexivity).
    rewrite cos_0, c4_ideal. cbn [nth vzero pas4 repeat fst RtoC]. unfold P2, P4, c4_poly.
    assert (S1 : 0 < sqrt (18 / 875)) by (apply sqrt_lt_R0; lra). assert (S2 : 0 < sqrt 70) by (apply sqrt_lt_R0; lra).
    assert (Q : 0 < / sqrt 70) by (apply Rinv_0_lt_compat; auto). cbn [c4p q40 i18 ideal_f].
    assert (M : 0 < sqrt (18 / 875) * / sqrt 70) by (apply Rmult_lt_0_compat; auto).
    assert (K : exists k, 0 < k /\ (3 * 1 / (2 * (IZR n / 2) * (2 * (IZR n / 2) - 1))) ^ 2 / (- (1 * 1) * 1000000) = - k).
    { exists ((3 / (IZR n * (IZR n - 1))) ^ 2 / 1000000). destruct N as [->|[->| ->]]; split; try lra; field. }
    destruct K as [k [K0 ->]]. assert (0 < k * (sqrt (18 / 875) * / sqrt 70)) by (apply Rmult_lt_0_compat; auto).
    unfold Rdiv. destruct N as [->|[->| ->]]; intros Z; ring_simplify in Z; nra. }
  intros Z. apply Rmult_integral in Z. destruct Z as [Z|Z]; [lra|contradiction].
Qed.
Print Assumptions C28_st_refuted.
