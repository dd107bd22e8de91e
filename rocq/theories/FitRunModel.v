(** Model of [LMFIT_min_function], src/mrsimulator/utils/spectral_fitting.py lines 302-355: the function a fit minimises, with the
    objects it changes on the way. *)
From Coq Require Import Reals ZArith QArith Qreals Bool String List.
From Coquelicot Require Import Complex.
From Verif Require Import Base SitesModel DictModel FitModel SigModel.
Import ListNotations.
Open Scope list_scope.

(** The simulator's attributes as a tree (FitModel), the operations of the SignalProcessor when one is given, and
    [sim.methods[0].simulation]. *)
Record fstate := mkFit { f_sim : pv; f_ops : option (list operation); f_simulation : option dataset }.

Section FitRun.
  (** csdmpy's transform along a dimension. *)
  Variable fft : Z -> dataset -> pyres dataset.
  (** [sim.run()]: what it stores as [sim.methods[0].simulation], if there is a method and the run came so far, and the exception
      that ended it. *)
  Variable run : pv -> option dataset * option exn.
  (** The content of the dataset when an operation raised half way. *)
  Variable spoilt : list operation -> dataset -> dataset.
  (** [sim.methods[0].experiment.y], [sim.config.decompose_spectrum == "spin_system"], [sigma]. *)
  Variables (experiment : option (list variable)) (decompose : bool) (sigma : R).

  (** Lines 331-336.  A post processor whose update raises is left as it was (in Python some operations may already be changed). *)
  Fixpoint set_values (all values : list (string * Q)) (st : fstate) : fstate * option exn :=
    match values with
    | [] => (st, None)
    | (items, v) :: r =>
        if negb (contains "operation_" items) then
          match set_simulator_object_value (f_sim st) items (PFloat v) with
          | Ok s => set_values all r (mkFit s (f_ops st) (f_simulation st))
          | Err e => (st, Some e)
          end
        else match f_ops st with
             | None => set_values all r st
             | Some ops =>
                 match update_post_sim (map (fun nv => (fst nv, Q2R (snd nv))) all) ops with
                 | Ok ops' => set_values all r (mkFit (f_sim st) (Some ops') (f_simulation st))
                 | Err e => (st, Some e)
                 end
             end
    end.

  (** [x.components[0]]: the shape of one component and its entries. *)
  Definition first_component (v : variable) : pyres (list nat * (list nat -> C)) :=
    match v_shape v with
    | [] | O :: _ => Err IndexError
    | S _ :: shape => Ok (shape, fun idx => v_at v (O :: idx))
    end.
  (** [datum += x.real] and the difference need arrays of one shape; numpy would also stretch axes of length 1. *)
  Definition same_shape_as (shape : list nat) (v : variable) : pyres (list nat -> C) :=
    let* x := first_component v in
    if list_eq_dec Nat.eq_dec (fst x) shape then Ok (snd x) else Err ValueError.

  (** Lines 341-350. *)
  Definition residual (processed : dataset) : pyres (list nat -> C) :=
    let* datum :=
      if decompose then Ok (dvs processed)
      else match dvs processed with [] => Err IndexError | v :: _ => Ok [v] end in
    match experiment with
    | None => Err AttributeError
    | Some [] => Err IndexError
    | Some (e :: _) =>
        let* x := first_component e in
        let* l := mapM (same_shape_as (fst x)) datum in
        if Req_EM_T sigma 0 then Err OtherException
        else Ok (fun idx => ((snd x idx - RtoC (fold_right Rplus 0%R (map (fun f => Re (f idx)) l))) / RtoC sigma)%C)
    end.

  (** Lines 302-350; numbers divided by zero are an error here, inf in numpy. *)
  Definition min_function (values : list (string * Q)) (st : fstate) : fstate * pyres (list nat -> C) :=
    match set_values values values st with
    | (st, Some e) => (st, Err e)
    | (st, None) =>
        let (stored, raised) := run (f_sim st) in
        let st := mkFit (f_sim st) (f_ops st) (match stored with Some d => Some d | None => f_simulation st end) in
        match raised with
        | Some e => (st, Err e)
        | None =>
            match f_ops st with
            | None => (st, Err AttributeError)
            | Some ops =>
                match stored with
                | None => (st, Err IndexError)
                | Some d =>
                    match apply_on_objects fft ops d with
                    | Err e => (mkFit (f_sim st) (f_ops st) (Some (spoilt ops d)), Err e)
                    | Ok h => (mkFit (f_sim st) (f_ops st) (Some (given h)), residual (current h))
                    end
                end
            end
        end
    end.

  (** The objects after a number of evaluations. *)
  Definition evaluations (l : list (list (string * Q))) (st : fstate) : fstate :=
    fold_left (fun st values => fst (min_function values st)) l st.
End FitRun.
