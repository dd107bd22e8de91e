(** Vocabulary of C99. *)
From Coq Require Import ZArith QArith Qcanon String List.
From Verif Require Import Base JsonModel ProcModel.
Import ListNotations.
Open Scope list_scope.

(** An integer or a list of integers. *)
Definition plain_index (i : index) : Prop :=
  match i with At _ => True | Several l => Forall (fun v => exists z, v = JNum (Qc_of_Z z)) l end.
Definition plain_opt (i : option index) : Prop := match i with None => True | Some i => plain_index i end.

Section Spec.
  Context {unit_ : Type} (show : unit_ -> string).
  Definition plain (o : op unit_) : Prop :=
    match o with
    | IFFT _ i | FFT _ i => plain_index i
    | Apodization _ _ _ _ i s => plain_index i /\ plain_opt s
    | Shear _ _ _ _ _ s | AffineScale _ _ _ _ s => plain_opt s
    | _ => True
    end.
  Definition unit_of (o : op unit_) : option (option (entry unit_)) :=
    match o with Apodization _ _ _ u _ _ | Shear _ _ u _ _ _ | AffineScale _ _ u _ _ => Some u | _ => None end.
  (** The width or factor, if there is one with units, was given with a unit that has a name. *)
  Definition given_with_unit (o : op unit_) : Prop :=
    match unit_of o with None => True | Some u => exists x, u = Some (Unit_ _ x) /\ show x <> EmptyString end.
  (** The width or factor has no unit of the form of affine's default. *)
  Definition not_one (o : op unit_) : Prop := match unit_of o with Some (Some (One _)) => False | _ => True end.
  (** The same operation, and the same unit if it has a name. *)
  Definition same_unit (u v : option (entry unit_)) : Prop :=
    match u with Some (Unit_ _ x) => if String.eqb (show x) EmptyString then v = None else v = u | _ => v = None end.
  Definition same_but_unit (o o' : op unit_) : Prop :=
    match o, o' with
    | Apodization _ t w u i s, Apodization _ t' w' u' i' s' => t' = t /\ w' = w /\ same_unit u u' /\ i' = i /\ s' = s
    | Shear _ f u i p s, Shear _ f' u' i' p' s' => f' = f /\ same_unit u u' /\ i' = i /\ p' = p /\ s' = s
    | AffineScale _ f u i s, AffineScale _ f' u' i' s' => f' = f /\ same_unit u u' /\ i' = i /\ s' = s
    | Apodization _ _ _ _ _ _, _ | Shear _ _ _ _ _ _, _ | AffineScale _ _ _ _ _, _ => False
    | _, _ => o' = o
    end.
End Spec.
