(** Specification vocabulary for the axis properties. *)
From Coq Require Import ZArith QArith Bool List.
From Verif Require Import Base InterpModel AxisModel.
Import ListNotations.
Open Scope Q_scope.

Definition valid_dim (d : sdim) : Prop := (0 < sd_count d)%Z /\ 0 < sd_width d.

(** The coordinates of a linear CSDM dimension (CSDM specification, as implemented by csdmpy): the k-th coordinate is
    (k - T) * increment + offset with T = 0, or T = floor(count / 2) when complex_fft is set. *)
Definition csdm_coordinates (c : csdm_dim) : list Q :=
  map (fun k => (zq k - (if cd_fft c then zq (cd_count c / 2) else 0)) * cd_inc c + cd_ref c) (zrange 0 (cd_count c)).

(** Elementwise equality of lists of rationals. *)
Definition qlist_eq (a b : list Q) : Prop := Forall2 Qeq a b.
Definition no_coord : Q := 0.
(** The k-th reported coordinate. *)
Definition coordinate (d : sdim) (k : Z) : Q := nth (Z.to_nat k) (coordinates_Hz d) no_coord.

(** Same axis. *)
Definition dim_eq (a b : sdim) : Prop :=
  sd_count a = sd_count b /\ sd_width a == sd_width b /\ sd_ref a == sd_ref b /\ sd_origin a = sd_origin b.

(** A static event: the code treats rotor frequencies below 1e-3 Hz as zero. *)
Definition static (e : rotor_event) : Prop := re_frequency e < 1 # 1000.
