(** Vocabulary of C97 and C98. *)
From Coq Require Import Reals ZArith List.
From Coquelicot Require Import Complex.
From Verif Require Import Base SigModel.
Import ListNotations.
Open Scope list_scope.

Definition csum (l : list C) : C := fold_right Cplus (RtoC 0) l.

(** [whole] holds one variable, the sum of those of [parts], on the same dimensions. *)
Definition adds_up (parts whole : dataset) : Prop :=
  dims whole = dims parts /\ exists w, dvs whole = [w] /\ dvs parts <> [] /\
  Forall (fun v => v_shape v = v_shape w) (dvs parts) /\
  forall idx, v_at w idx = csum (map (fun v => v_at v idx) (dvs parts)).

(** Both raise the same exception, or both return, related by [R]. *)
Definition agree {A B} (R : A -> B -> Prop) (a : pyres A) (b : pyres B) : Prop :=
  match a, b with Ok x, Ok y => R x y | Err e, Err e' => e = e' | _, _ => False end.

(** The operation is applied to every variable. *)
Definition on_all_variables (o : operation) : Prop :=
  match o with
  | Exponential _ _ _ s | Gaussian _ _ _ s | Shear _ _ _ _ s => s = None
  | Scale _ | FFT _ | AffineScale _ _ => True
  end.

(** [r] is the difference between the experiment's first component and the real parts of the processed data's first components,
    added over the spin systems when the spectrum is decomposed, divided by [sigma]. *)
Definition difference (experiment : option (list variable)) (decompose : bool) (sigma : R) (processed : dataset) (r : list nat -> C) : Prop :=
  exists e rest, experiment = Some (e :: rest) /\ sigma <> 0%R /\
  let l := if decompose then dvs processed else firstn 1 (dvs processed) in
  (decompose = false -> l <> []) /\ v_shape e <> [] /\ nth 0 (v_shape e) O <> O /\
  (forall v, In v l -> tl (v_shape v) = tl (v_shape e) /\ v_shape v <> [] /\ nth 0 (v_shape v) O <> O) /\
  forall idx, r idx = ((v_at e (O :: idx) - RtoC (fold_right Rplus 0%R (map (fun v => Re (v_at v (O :: idx))) l))) / RtoC sigma)%C.

(** The operations differ at most in the numbers a fit changes. *)
Definition same_but_numbers (a b : list operation) : Prop :=
  Forall2 (fun x y => x = y \/ exists v, (match x with
     | Scale _ => y = Scale v | AffineScale _ d => y = AffineScale v d
     | Exponential _ u d s => y = Exponential v u d s | Gaussian _ u d s => y = Gaussian v u d s
     | Shear _ _ _ _ _ | FFT _ => False end)) a b.
