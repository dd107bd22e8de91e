(** Vocabulary of the properties C93 - C96. *)
From Coq Require Import String List ZArith QArith.
From Verif Require Import Base InterpModel AxisModel AxisSpec OutModel.
Import ListNotations.

(** A text that is there and not empty. *)
Definition nonempty (x : option string) : Prop := exists s, x = Some s /\ s <> ""%string.

(** [x] is the last non-empty text of the list, or None when there is none. *)
Definition is_last_nonempty (x : option string) (l : list (option string)) : Prop :=
  (x = None /\ Forall (fun y => ~ nonempty y) l) \/
  (nonempty x /\ exists a b, l = a ++ x :: b /\ Forall (fun y => ~ nonempty y) b).

(** The spectra that are not empty, each with its position. *)
Fixpoint positions {D} (i : nat) (data : list (option D)) : list (nat * D) :=
  match data with
  | [] => []
  | None :: r => positions (S i) r
  | Some d :: r => (i, d) :: positions (S i) r
  end.

(** The same coordinates, dimension by dimension. *)
Definition same_axes (a b : list csdm_dim) : Prop :=
  Forall2 (fun x y => cd_count x = cd_count y /\ qlist_eq (csdm_coordinates x) (csdm_coordinates y)) a b.

(** A dimension as NMR software writes it for csdmpy: complex_fft, at least one point, positive increment. *)
Definition spectrum_axis (c : csdm_dim) : Prop := cd_fft c = true /\ (0 < cd_count c)%Z /\ (0 < cd_inc c)%Q.

(** The whole text of an object that can be written, the pieces in order. *)
Fixpoint whole_text (l : list piece) : option string :=
  match l with
  | [] => Some ""%string
  | Raise _ :: _ => None
  | Text s :: r => match whole_text r with None => None | Some t => Some (s ++ t)%string end
  end.
