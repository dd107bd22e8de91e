(** What C89 and C90 are about, in terms of the heap only: which blocks are there, how many, and what the tables of a plan hold. *)
From Coq Require Import List Arith Bool.
From Verif Require Import MemModel.
Import ListNotations.
Set Implicit Arguments.

Section Spec.
Variables (T V : Type) (N : numerics T V).
Notation heap := (heap T V).

(** A heap as malloc keeps it: nothing at NULL, nothing at the addresses not given out so far. *)
Definition sane (h : heap) : Prop := 0 < next h /\ mem h 0 = None /\ forall a, next h <= a -> mem h a = None.
(** How many blocks are allocated. *)
Definition allocated (h : heap) (a : ptr) : bool := match mem h a with Some _ => true | None => false end.
Definition live (h : heap) : nat := length (filter (allocated h) (seq 0 (next h))).
(** Whatever was allocated before is still there, unchanged. *)
Definition untouched (h h' : heap) : Prop := forall a, a < next h -> mem h' a = mem h a.

(** Every event of the dimension shares the rotor frequency or the rotor angle with the first one (C56). *)
Definition follows_first (events : list (T * T)) : Prop :=
  match events with [] => False | (vr0, angle0) :: _ => forall vr angle, In (vr, angle) events -> vr = vr0 \/ angle = angle0 end.

(** The blocks a simulation keeps for each of its parts. *)
Definition sum (l : list nat) : nat := fold_right Nat.add 0 l.
(** Tables that depend on the rotor angle: d2 and pre_phase_2, with fourth rank also d4 and pre_phase_4. *)
Definition angle_tables (fourth : bool) : nat := if fourth then 4 else 2.
(** A plan of its own (with its structure) for an event that differs from the first one: another angle needs the tables of the angle,
    another frequency those of the frequency (vr_freq, pre_phase) too. *)
Definition event_plan_blocks (fourth : bool) (first e : T * T) : nat :=
  if n_eqT N (fst e) (fst first)
  then if n_eqT N (snd e) (snd first) then 0 else 1 + angle_tables fourth
  else 3 + angle_tables fourth.
(** The array of events, the plan of the first event (with its structure and norm_amplitudes, vr_freq, pre_phase), the other plans. *)
Definition plan_blocks (fourth : bool) (events : list (T * T)) : nat :=
  match events with [] => 0 | first :: _ => 1 + (4 + angle_tables fourth) + sum (map (event_plan_blocks fourth first) events) end.
(** Tables of the averaging scheme, without its structure: weights, exp_Im_alpha, the Wigner matrices and the buffer of either rank. *)
Definition scheme_tables (fourth : bool) : nat := if fourth then 6 else 4.
(** The amplitudes of every event, local_frequency and freq_offset. *)
Definition buffers (events : list (T * T)) : nat := length events + 2.
(** The structures of the scheme and of the FFT and the array of dimensions, and everything of the plans. *)
Definition left_behind (fourth : bool) (dims : list (list (T * T))) : nat := 3 + sum (map (plan_blocks fourth) dims).
(** Everything: with the tables of the scheme, the FFT's vector and plan, and the buffers. *)
Definition everything (fourth : bool) (dims : list (list (T * T))) : nat :=
  left_behind fourth dims + scheme_tables fourth + 2 + sum (map buffers dims).

(** The tables of the plan at [q]: vr_freq, pre_phase, norm_amplitudes, d2, pre_phase_2, and with fourth rank d4 and pre_phase_4. *)
Definition array (h : heap) (p : option ptr) : option (list (option V)) :=
  match p with Some a => match mem h a with Some (Arr _ l) => Some l | _ => None end | None => None end.
Definition plan_tables (h : heap) (q : ptr) : option (list (option (list (option V)))) :=
  match mem h q with
  | Some (Plan _ p) => Some (map (array h) ([p_vrfreq p; p_pre p; p_norm p; p_d2 p; p_pre2 p] ++ (if p_fourth p then [p_d4 p; p_pre4 p] else [])))
  | _ => None
  end.
(** The plan of the [k]-th event of the [i]-th dimension. *)
Definition plan_of (h : heap) (dimensions : ptr) (i k : nat) : option ptr :=
  match mem h dimensions with
  | Some (Dims _ _ ds) => match nth_error ds i with
      | Some d => match mem h (d_events d) with
          | Some (Events _ _ evs) => match nth_error evs k with Some e => e_plan e | None => None end
          | _ => None
          end
      | None => None
      end
  | _ => None
  end.
(** The tables computed for this very rotor frequency and angle: [n] sidebands, weights of a grid of this density. *)
Definition numbers (n : nat) (f : nat -> V) : option (list (option V)) := Some (map (fun i => Some (f i)) (seq 0 n)).
Definition own_tables (density volume : nat) (fourth : bool) (n : nat) (vr angle : T) : option (list (option (list (option V)))) :=
  Some ([ numbers n (n_vr_table N n vr);
          numbers (4 * n) (n_phase_table N n vr);
          numbers ((density + 1) * (density + 2) / 2) (fun i => n_mul N (n_norm_scale N n (octants_of volume)) (n_octa_weight N density i));
          numbers 5 (n_dm0 N 2 angle);
          numbers (2 * n) (fun i => n_mul N (n_dm0 N 2 angle (i / n)) (n_phase_table N n vr (2 * n + i))) ] ++
        (if fourth then [ numbers 9 (n_dm0 N 4 angle);
                          numbers (4 * n) (fun i => n_mul N (n_dm0 N 4 angle (i / n)) (n_phase_table N n vr i)) ] else [])).
End Spec.

(** The products of amplitudes of two dimensional spectra stay inside their arrays: there is one octant, or no pair with the last sideband
    of a dimension has its centre in the window. *)
Definition in_reach T V (N : numerics T V) (volume nsb : nat) (dims : list (list (T * T))) : Prop :=
  length dims = 2 -> volume = 0 \/ forall l i k, n_visible N l i k = true -> S i < nsb /\ S k < nsb.

(** The same call made [k] times. *)
Fixpoint times T V (k : nat) (m : M T V outcome) : M T V unit :=
  match k with 0 => ret tt | S k => bind m (fun _ => times k m) end.
