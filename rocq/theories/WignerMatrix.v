(** Model of src/c_lib/lib/angular_momentum.c: the Wigner matrices of rank 2 and 4.
    Numbers are exact reals.  The decimal constants of the source approximate square roots; the matrices are parametrised by the
    constants, [decimal] has the values of the source and [ideal] the square roots. *)
From Coq Require Import Reals List ZArith.
From Coquelicot Require Import Complex.
From Verif Require Import DftModel.
Import ListNotations.
Open Scope R_scope.

Record wconst := { k38 : R; k32 : R; k2_8 : R; k14_8 : R; k70_16 : R; k35_4 : R; k7_8 : R; k10_8 : R; k5_4 : R; k2_4 : R }.
Definition decimal : wconst :=
  {| k38 := 0.6123724355; k32 := 1.224744871; k2_8 := 0.1767766953; k14_8 := 0.4677071733; k70_16 := 0.5229125166;
     k35_4 := 1.4790199458; k7_8 := 0.3307189139; k10_8 := 0.3952847075; k5_4 := 0.5590169944; k2_4 := 0.3535533906 |}.
Definition ideal : wconst :=
  {| k38 := sqrt (3 / 8); k32 := sqrt (3 / 2); k2_8 := sqrt 2 / 8; k14_8 := sqrt 14 / 8; k70_16 := sqrt 70 / 16;
     k35_4 := sqrt 35 / 4; k7_8 := sqrt 7 / 8; k10_8 := sqrt 10 / 8; k5_4 := sqrt 5 / 4; k2_4 := sqrt 2 / 4 |}.

(** lines 54-109, one matrix; the array written out in index order. *)
Definition wigner_2j (k : wconst) (cx sx : R) : list R :=
  let cx2 := cx * cx in
  let t1_1 := (1 + cx) in
  let temp_2 := -sx * t1_1 * (1 / 2) in
  let temp_3 := t1_1 * t1_1 * (1 / 4) in
  let t1_4 := (1 - cx) in
  let temp_5 := -sx * t1_4 * (1 / 2) in
  let temp_6 := t1_4 * t1_4 * (1 / 4) in
  let temp_7 := k38 k * sx * sx in
  let temp_8 := k32 k * sx * cx in
  let temp_9 := (2 * cx2 + cx - 1) * (1 / 2) in
  let temp_10 := -(2 * cx2 - cx - 1) * (1 / 2) in
  [temp_3; temp_2; temp_7; temp_5; temp_6;
   - temp_2; temp_9; - temp_8; temp_10; temp_5;
   temp_7; temp_8; ((3 / 2) * cx2 - (1 / 2)); - temp_8; temp_7;
   - temp_5; temp_10; temp_8; temp_9; temp_2;
   temp_6; - temp_5; temp_7; - temp_2; temp_3].

(** lines 112-157, one matrix; the array written out in index order. *)
Definition wigner_2j_half (k : wconst) (cx sx : R) : list R :=
  let cx2 := cx * cx in
  let t1_1 := (1 + cx) in
  let temp_2 := t1_1 * t1_1 * (1 / 4) in
  let temp_3 := -sx * t1_1 * (1 / 2) in
  let t1_4 := (1 - cx) in
  let temp_5 := -sx * t1_4 * (1 / 2) in
  let temp_6 := t1_4 * t1_4 * (1 / 4) in
  let temp_7 := k38 k * sx * sx in
  let temp_8 := k32 k * sx * cx in
  let temp_9 := (2 * cx2 + cx - 1) * (1 / 2) in
  let temp_10 := -(2 * cx2 - cx - 1) * (1 / 2) in
  [temp_2; temp_3; temp_7; temp_5; temp_6;
   - temp_3; temp_9; - temp_8; temp_10; temp_5;
   temp_7; temp_8; ((3 / 2) * cx2 - (1 / 2)); - temp_8; temp_7].

(** lines 160-313, one matrix; the array written out in index order. *)
Definition wigner_4j (k : wconst) (cx sx : R) : list R :=
  let cx2 := cx * cx in
  let sx2 := sx * sx in
  let sx3 := sx2 * sx in
  let cxp1 := (1 + cx) in
  let cxm1 := (1 - cx) in
  let cxp12 := cxp1 * cxp1 in
  let cxm12 := cxm1 * cxm1 in
  let cxm13 := cxm12 * cxm1 in
  let cxp13 := cxp12 * cxp1 in
  let temp_1 := (1 / 16) * cxp12 * cxp12 in
  let temp_2 := (1 / 16) * cxm12 * cxm12 in
  let temp_3 := -k2_8 k * cxp13 * sx in
  let temp_4 := -k2_8 k * cxm13 * sx in
  let temp_5 := -k14_8 k * cxp1 * sx3 in
  let temp_6 := -k14_8 k * cxm1 * sx3 in
  let temp_7 := k70_16 k * sx3 * sx in
  let temp_8 := -k35_4 k * sx3 * cx in
  let temp_9 := k7_8 k * sx2 * cxp12 in
  let temp_10 := k7_8 k * sx2 * cxm12 in
  let temp_11 := k14_8 k * cxp12 * sx * (2 * cx - 1) in
  let temp_12 := k14_8 k * cxm12 * sx * (-2 * cx - 1) in
  let temp_13 := (1 / 4) * cxp12 * (1 - 7 * cxm1 + 7 * cxm12) in
  let temp_14 := (1 / 4) * cxm12 * (1 - 7 * cxp1 + 7 * cxp12) in
  let temp_15 := k10_8 k * sx2 * (7 * cx2 - 1) in
  let temp_16 := (1 / 8) * cxp13 * (-3 + 4 * cx) in
  let temp_17 := (1 / 8) * cxm13 * (3 + 4 * cx) in
  let temp_18 := k7_8 k * cxm1 * cxp12 * (-1 + 4 * cx) in
  let temp_19 := k7_8 k * cxm12 * cxp1 * (1 + 4 * cx) in
  let temp_20 := -k5_4 k * (4 - 18 * cxm1 + 21 * cxm12 - 7 * cxm13) * sx in
  let temp_21 := -k2_4 k * (3 - (21 / 2) * cxm1 + 7 * cxm12) * sx * cxp1 in
  let temp_22 := -k2_4 k * (10 - (35 / 2) * cxm1 + 7 * cxm12) * sx * cxm1 in
  let temp_23 := (1 / 2) * (1 - 9 * cxm1 + (63 / 4) * cxm12 - 7 * cxm13) * cxp1 in
  let temp_24 := (1 / 2) * (10 - 30 * cxm1 + (105 / 4) * cxm12 - 7 * cxm13) * cxm1 in
  let temp_25 := (1 / 8) * (3 - 30 * cx2 + 35 * cx2 * cx2) in
  [temp_1; temp_3; temp_9; temp_5; temp_7; temp_6; temp_10; temp_4; temp_2;
   - temp_3; temp_16; - temp_11; temp_18; temp_8; temp_19; temp_12; temp_17; temp_4;
   temp_9; temp_11; temp_13; temp_21; temp_15; temp_22; temp_14; temp_12; temp_10;
   - temp_5; temp_18; - temp_21; temp_23; temp_20; temp_24; temp_22; temp_19; temp_6;
   temp_7; - temp_8; temp_15; - temp_20; temp_25; temp_20; temp_15; temp_8; temp_7;
   - temp_6; temp_19; - temp_22; temp_24; - temp_20; temp_23; temp_21; temp_18; temp_5;
   temp_10; - temp_12; temp_14; - temp_22; temp_15; - temp_21; temp_13; - temp_11; temp_9;
   - temp_4; temp_17; - temp_12; temp_19; - temp_8; temp_18; temp_11; temp_16; temp_3;
   temp_2; - temp_4; temp_10; - temp_6; temp_7; - temp_5; temp_9; - temp_3; temp_1].

(** lines 316-433, one matrix; the array written out in index order. *)
Definition wigner_4j_half (k : wconst) (cx sx : R) : list R :=
  let cx2 := cx * cx in
  let sx2 := sx * sx in
  let sx3 := sx2 * sx in
  let cxp1 := (1 + cx) in
  let cxm1 := (1 - cx) in
  let cxp12 := cxp1 * cxp1 in
  let cxm12 := cxm1 * cxm1 in
  let cxm13 := cxm12 * cxm1 in
  let cxp13 := cxp12 * cxp1 in
  let temp_1 := (1 / 16) * cxp12 * cxp12 in
  let temp_2 := (1 / 16) * cxm12 * cxm12 in
  let temp_3 := -k2_8 k * cxp13 * sx in
  let temp_4 := -k2_8 k * cxm13 * sx in
  let temp_5 := -k14_8 k * cxp1 * sx3 in
  let temp_6 := -k14_8 k * cxm1 * sx3 in
  let temp_7 := k70_16 k * sx3 * sx in
  let temp_8 := -k35_4 k * sx3 * cx in
  let temp_9 := k7_8 k * sx2 * cxp12 in
  let temp_10 := k7_8 k * sx2 * cxm12 in
  let temp_11 := k14_8 k * cxp12 * sx * (2 * cx - 1) in
  let temp_12 := k14_8 k * cxm12 * sx * (-2 * cx - 1) in
  let temp_13 := (1 / 4) * cxp12 * (1 - 7 * cxm1 + 7 * cxm12) in
  let temp_14 := (1 / 4) * cxm12 * (1 - 7 * cxp1 + 7 * cxp12) in
  let temp_15 := k10_8 k * sx2 * (7 * cx2 - 1) in
  let temp_16 := (1 / 8) * cxp13 * (-3 + 4 * cx) in
  let temp_17 := (1 / 8) * cxm13 * (3 + 4 * cx) in
  let temp_18 := k7_8 k * cxm1 * cxp12 * (-1 + 4 * cx) in
  let temp_19 := k7_8 k * cxm12 * cxp1 * (1 + 4 * cx) in
  let temp_20 := -k5_4 k * (4 - 18 * cxm1 + 21 * cxm12 - 7 * cxm13) * sx in
  let temp_21 := -k2_4 k * (3 - (21 / 2) * cxm1 + 7 * cxm12) * sx * cxp1 in
  let temp_22 := -k2_4 k * (10 - (35 / 2) * cxm1 + 7 * cxm12) * sx * cxm1 in
  let temp_23 := (1 / 2) * (1 - 9 * cxm1 + (63 / 4) * cxm12 - 7 * cxm13) * cxp1 in
  let temp_24 := (1 / 2) * (10 - 30 * cxm1 + (105 / 4) * cxm12 - 7 * cxm13) * cxm1 in
  let temp_25 := (1 / 8) * (3 - 30 * cx2 + 35 * cx2 * cx2) in
  [temp_1; temp_3; temp_9; temp_5; temp_7; temp_6; temp_10; temp_4; temp_2;
   - temp_3; temp_16; - temp_11; temp_18; temp_8; temp_19; temp_12; temp_17; temp_4;
   temp_9; temp_11; temp_13; temp_21; temp_15; temp_22; temp_14; temp_12; temp_10;
   - temp_5; temp_18; - temp_21; temp_23; temp_20; temp_24; temp_22; temp_19; temp_6;
   temp_7; - temp_8; temp_15; - temp_20; temp_25; temp_20; temp_15; temp_8; temp_7].


(** Lines 436-459, [wigner_d_matrices_from_exp_I_beta], one matrix. *)
Definition wigner_d (k : wconst) (half : bool) (l : nat) (e : C) : list R :=
  match half, l with
  | true, 2%nat => wigner_2j_half k (fst e) (snd e)
  | true, 4%nat => wigner_4j_half k (fst e) (snd e)
  | false, 2%nat => wigner_2j k (fst e) (snd e)
  | false, 4%nat => wigner_4j k (fst e) (snd e)
  | _, _ => []
  end.

(** Lines 596-622, [wigner_dm0_vector]; libm's cosine and sine. *)
Definition wigner_dm0 (k : wconst) (l : nat) (beta : R) : list R :=
  let cx := cos beta in let sx := sin beta in
  match l with
  | 2%nat => let r0 := k38 k * sx * sx in let r1 := k32 k * sx * cx in [r0; r1; (3 / 2) * cx * cx - (1 / 2); - r1; r0]
  | 4%nat =>
      let sx2 := sx * sx in let sx3 := sx2 * sx in let cx2 := 1 - sx2 in
      let cxm1 := 1 - cx in let cxm12 := cxm1 * cxm1 in
      let temp := 4 - 18 * cxm1 + 21 * cxm12 - 7 * cxm12 * cxm1 in
      let r0 := k70_16 k * sx3 * sx in let r1 := k35_4 k * sx3 * cx in
      let r2 := k10_8 k * sx2 * (7 * cx2 - 1) in let r3 := k5_4 k * temp * sx in
      [r0; r1; r2; r3; (1 / 8) * (3 - 30 * cx2 + 35 * cx2 * cx2); - r3; r2; - r1; r0]
  | _ => []
  end.

