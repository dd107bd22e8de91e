(** Model of an interrupted Simulator.run (simulator/__init__.py lines 432-479): the writes to the methods, one by one.  Two methods share no dimension, and the assignment of a simulation is one step. *)
From Coq Require Import ZArith Bool String Qcanon List Lia.
From Verif Require Import Base.
Import ListNotations.

Section Run.
  (** [I]: the part of a method the simulation reads; [A]: the computed amplitudes; [R]: a stored simulation. *)
  Variables (I A R : Type).
  (** A method: what is read, the origin offset of every spectral dimension (None at first), and the stored simulation. *)
  Record meth := mkMeth { input : I; origins : list (option Qc); simulation : option R }.
  (** Lines 439-460: the spectra of the chunks.  [progress] is the number of dimensions whose offset has been set when it raises. *)
  Variable compute : I -> pyres A.
  Variable progress : I -> nat.
  (** Lines 462-464: the offset; base_model.pyx line 154 computes the same. *)
  Variable origin : I -> Qc.
  (** Lines 468-479: packing the amplitudes; the dimensions are read, with their offsets. *)
  Variable pack : I -> list (option Qc) -> A -> pyres R.
  (** Whether one_d_spectrum runs on the methods themselves (n_jobs=1) or on copies of them in other processes. *)
  Variable in_process : bool.

  Inductive write := SetOrigin (k d : nat) (q : Qc) | SetSimulation (k : nat) (r : R).
  Fixpoint upd {X} (k : nat) (f : X -> X) (l : list X) {struct l} : list X := match l, k with [], _ => [] | x :: l, O => f x :: l | x :: l, S k => x :: upd k f l end.
  Definition perform (ms : list meth) (w : write) : list meth :=
    match w with
    | SetOrigin k d q => upd k (fun m => mkMeth (input m) (upd d (fun _ => Some q) (origins m)) (simulation m)) ms
    | SetSimulation k r => upd k (fun m => mkMeth (input m) (origins m) (Some r)) ms
    end.
  Definition perform_all (ws : list write) (ms : list meth) : list meth := fold_left perform ws ms.
  (** A method of the list by its index. *)
  Definition place (n : nat) (i : Z) : option nat := let j := if (i <? 0)%Z then (i + Z.of_nat n)%Z else i in if ((0 <=? j) && (j <? Z.of_nat n))%Z then Some (Z.to_nat j) else None.
  (** Lines 465-466 (and base_model.pyx line 154). *)
  Definition set_origins (k : nat) (m : meth) : list write := map (fun d => SetOrigin k d (origin (input m))) (seq 0 (List.length (origins m))).
  (** Lines 437-479: the writes of a run on the methods [ms], and how it ends.  What a method is, but for its offsets and its simulation, does not change during the run. *)
  Fixpoint writes (ms : list meth) (idx : list Z) : list write * pyres unit :=
    match idx with
    | [] => ([], Ok tt)
    | i :: rest =>
        match place (List.length ms) i with
        | None => ([], Err IndexError)
        | Some k =>
            match nth_error ms k with
            | None => ([], Err IndexError)
            | Some m =>
                let first := if in_process then set_origins k m else [] in
                match compute (input m) with
                | Err e => (firstn (progress (input m)) first, Err e)
                | Ok a =>
                    match pack (input m) (map (fun _ => Some (origin (input m))) (origins m)) a with
                    | Err e => (first ++ set_origins k m, Err e)
                    | Ok r => let (ws, o) := writes ms rest in (first ++ set_origins k m ++ SetSimulation k r :: ws, o)
                    end
                end
            end
        end
    end.
End Run.
