(** Model of the memory a simulation allocates, uses and releases:
    src/c_lib/lib/schemes.c lines 12-216, src/c_lib/lib/mrsimulator.c lines 18-234, 241-351 and 409-451, src/c_lib/lib/method.c,
    src/c_lib/lib/simulation.c lines 36-174, src/c_lib/lib/octahedron.c lines 88-159 and 184-188,
    src/c_lib/lib/frequency_averaging.c, src/c_lib/lib/angular_momentum.c lines 525-531, 592 and 883-975,
    src/c_lib/include/vm_common.h lines 96-117, src/c_lib/base/base_model.pyx lines 81-184, 285-300 and 438-508.

    The heap maps addresses to blocks: arrays of numbers (None: never written) and the structures that hold pointers.  A program is a
    function from heaps to an outcome and a heap; None stands for undefined behaviour: a pointer that was never set, NULL or released
    memory used as a block, a second release, an access outside of a block, the value of a number never written.

    Simplifications.  Allocation always succeeds and never reuses an address.  A complex number is one cell, as is a double.  Numbers are
    of an abstract type, and what the numerical routines compute is given by abstract functions of what they read, so the theorems hold
    whatever is computed.  Scalars of the structures that are neither sizes nor pointers nor compared (increments, offsets,
    plan->buffer) are left out.  The arrays owned by Python (sites, couplings, pathways, the spectrum) are not on this heap. *)
From Coq Require Import List Arith Bool.
Import ListNotations.
Set Implicit Arguments.

Definition ptr := nat.
Definition NULL : ptr := 0.

(** The outcome of the Python function: the spectrum is returned, or an exception is raised. *)
Inductive outcome := Returned | Raised.

(** Doubles that are only compared ([T]: rotor frequencies and angles; NaN is left out), other numbers ([V]) and what the numerical
    routines compute (see the definitions that use them). *)
Record numerics (T V : Type) := {
  n_eqT : forall x y : T, {x = y} + {x <> y};
  n_is_static : T -> bool;                       (* base_model.pyx line 120: rotor_frequency < 1.0e-3 *)
  n_static_vr : T; n_zero_angle : T;             (* lines 121-122: 1.0e9 and 0.0 *)
  n_zero : V; n_one : V; n_mul : V -> V -> V;
  n_vr_table : nat -> T -> nat -> V;             (* sidebands, rotor frequency, index *)
  n_phase_table : nat -> T -> nat -> V;          (* sidebands, rotor frequency, index *)
  n_dm0 : nat -> T -> nat -> V;                  (* rank, angle, index *)
  n_octa_alpha : nat -> nat -> V; n_octa_beta : nat -> nat -> V; n_octa_weight : nat -> nat -> V; (* density, index *)
  n_norm_scale : nat -> nat -> V;                (* sidebands, octants *)
  n_visible : list (list V) -> nat -> nat -> bool; (* frequency_averaging.c lines 194 and 200: whether the window holds the centre of a pair of sidebands *)
  n_kernel : nat -> list (list V) -> nat -> V    (* the other routines: which one, what it reads, index *)
}.

Section Mem.
Variables (T V : Type) (N : numerics T V).
Local Notation eqT := (n_eqT N).
Local Notation is_static := (n_is_static N).
Local Notation static_vr := (n_static_vr N).
Local Notation zero_angle := (n_zero_angle N).
Local Notation zero := (n_zero N).
Local Notation one := (n_one N).
Local Notation mul := (n_mul N).
Local Notation vr_table := (n_vr_table N).
Local Notation phase_table := (n_phase_table N).
Local Notation dm0 := (n_dm0 N).
Local Notation octa_alpha := (n_octa_alpha N).
Local Notation octa_beta := (n_octa_beta N).
Local Notation octa_weight := (n_octa_weight N).
Local Notation norm_scale := (n_norm_scale N).
Local Notation kernel := (n_kernel N).
Local Notation visible := (n_visible N).

(** ** Structures *)
(** mrsimulator.h lines 40-78; a pointer is None before it is set. *)
Record plan_s := { p_nsb : nat; p_vr : T; p_angle : T; p_fourth : bool; p_size : nat; p_octants : nat;
                   p_vrfreq : option ptr; p_norm : option ptr; p_d2 : option ptr; p_d4 : option ptr;
                   p_pre : option ptr; p_pre2 : option ptr; p_pre4 : option ptr }.
(** schemes.h lines 39-58. *)
Record scheme_s := { s_total : nat; s_density : nat; s_volume : nat; s_npts : nat; s_fourth : bool;
                     s_exp : ptr; s_weights : ptr; s_w2d : ptr; s_w4d : ptr; s_w2 : ptr; s_w4 : ptr }.
(** schemes.h lines 105-110. *)
Record fftw_s := { f_vector : ptr; f_plan : ptr }.
(** method.h lines 13-22 (the plan is None where it is left uninitialised) and 24-39. *)
Record event_s := { e_plan : option ptr; e_amp : ptr }.
Record dim_s := { d_events : ptr; d_n : nat; d_local : ptr; d_offset : ptr }.
Inductive block :=
| Arr (l : list (option V)) | Plan (p : plan_s) | Scheme (s : scheme_s) | Fftw (f : fftw_s) | FftwPlan
| Events (l : list event_s) | Dims (l : list dim_s).

(** ** The heap *)
Record heap := { next : nat; mem : ptr -> option block }.
Definition M (A : Type) := heap -> option (A * heap).
Definition ret {A} (x : A) : M A := fun h => Some (x, h).
Definition undefined {A} : M A := fun _ => None.
Definition bind {A B} (m : M A) (k : A -> M B) : M B := fun h => match m h with Some (x, h') => k x h' | None => None end.
Notation "x <- m ;; k" := (bind m (fun x => k)) (at level 61, m at next level, right associativity).
Notation "m ;;; k" := (bind m (fun _ => k)) (at level 61, right associativity).

Definition upd (f : ptr -> option block) (p : ptr) (b : option block) : ptr -> option block := fun q => if q =? p then b else f q.
Definition alloc_h (h : heap) (b : block) : heap := {| next := S (next h); mem := upd (mem h) (next h) (Some b) |}.
Definition set_h (h : heap) (p : ptr) (b : block) : heap := {| next := next h; mem := upd (mem h) p (Some b) |}.
Definition free_h (h : heap) (p : ptr) : heap := {| next := next h; mem := upd (mem h) p None |}.

(** malloc. *)
Definition new_block (b : block) : M ptr := fun h => Some (next h, alloc_h h b).
Definition malloc (n : nat) : M ptr := new_block (Arr (repeat None n)).
(** free: nothing for NULL, otherwise the block must be there. *)
Definition free (p : ptr) : M unit :=
  fun h => if p =? NULL then Some (tt, h) else match mem h p with Some _ => Some (tt, free_h h p) | None => None end.
Definition load (p : ptr) : M block := fun h => match mem h p with Some b => Some (b, h) | None => None end.
Definition load_plan (p : ptr) : M plan_s := b <- load p ;; match b with Plan x => ret x | _ => undefined end.
Definition load_scheme (p : ptr) : M scheme_s := b <- load p ;; match b with Scheme x => ret x | _ => undefined end.
Definition load_fftw (p : ptr) : M fftw_s := b <- load p ;; match b with Fftw x => ret x | _ => undefined end.
Definition load_events (p : ptr) : M (list event_s) := b <- load p ;; match b with Events x => ret x | _ => undefined end.
Definition load_dims (p : ptr) : M (list dim_s) := b <- load p ;; match b with Dims x => ret x | _ => undefined end.
Definition load_arr (p : ptr) : M (list (option V)) := b <- load p ;; match b with Arr x => ret x | _ => undefined end.
Definition put (p : ptr) (b : block) : M unit := fun h => match mem h p with Some _ => Some (tt, set_h h p b) | None => None end.
(** The value of a pointer or of a number that may not have been set. *)
Definition known {A} (x : option A) : M A := match x with Some y => ret y | None => undefined end.
Fixpoint values (l : list (option V)) : option (list V) :=
  match l with
  | [] => Some []
  | Some v :: r => match values r with Some vs => Some (v :: vs) | None => None end
  | None :: _ => None
  end.
(** [n] numbers from index [off] on are read, all inside of the block and all written before. *)
Definition read (p : ptr) (off n : nat) : M (list V) :=
  l <- load_arr p ;; if off + n <=? length l then known (values (firstn n (skipn off l))) else undefined.
(** The numbers [vs] are written from index [off] on, all inside of the block. *)
Definition splice (off : nat) (vs : list V) (l : list (option V)) : list (option V) :=
  firstn off l ++ map (@Some V) vs ++ skipn (off + length vs) l.
Definition store (p : ptr) (off : nat) (vs : list V) : M unit :=
  l <- load_arr p ;; if off + length vs <=? length l then put p (Arr (splice off vs l)) else undefined.
(** The numbers f 0, ..., f (n-1). *)
Definition tab (n : nat) (f : nat -> V) : list V := map f (seq 0 n).
(** cblas_dscal and cblas_zdscal: [n] numbers from index [off] on are multiplied in place. *)
Definition scale (p : ptr) (off n : nat) (v : V) : M unit := l <- read p off n ;; store p off (map (mul v) l).
Fixpoint iter {A} (l : list A) (f : A -> M unit) : M unit :=
  match l with [] => ret tt | x :: r => f x ;;; iter r f end.
Fixpoint collect {A B} (l : list A) (f : A -> M B) : M (list B) :=
  match l with [] => ret [] | x :: r => y <- f x ;; ys <- collect r f ;; ret (y :: ys) end.
Definition when (b : bool) (m : M unit) : M unit := if b then m else ret tt.

(** ** Plans *)
(** vm_common.h lines 96-117. *)
Definition get_frequency_in_FFT_order (n : nat) (increment : T) : M ptr :=
  p <- malloc n ;; store p 0 (tab n (vr_table n increment)) ;;; ret p.
(** mrsimulator.c lines 708-732. *)
Definition get_components (nsb : nat) (vr : T) (pre : ptr) : M unit := store pre 0 (tab (4 * nsb) (phase_table nsb vr)).
(** angular_momentum.c lines 596-624. *)
Definition wigner_dm0_vector (rank : nat) (angle : T) (out : ptr) : M unit := store out 0 (tab (2 * rank + 1) (dm0 rank angle)).
(** mrsimulator.c lines 134-208. *)
Definition update_from_rotor_angle (plan : ptr) (angle : T) (fourth : bool) : M unit :=
  p <- load_plan plan ;;
  d2 <- malloc 5 ;; wigner_dm0_vector 2 angle d2 ;;;
  d4 <- (if fourth then d4 <- malloc 9 ;; wigner_dm0_vector 4 angle d4 ;;; ret d4 else ret NULL) ;;
  pre2 <- malloc (2 * p_nsb p) ;;
  pre <- known (p_pre p) ;;
  l <- read pre (2 * p_nsb p) (2 * p_nsb p) ;; store pre2 0 l ;;;
  iter (seq 0 2) (fun i => v <- read d2 i 1 ;; scale pre2 (i * p_nsb p) (p_nsb p) (hd zero v)) ;;;
  pre4 <- (if fourth then
             pre4 <- malloc (4 * p_nsb p) ;;
             l <- read pre 0 (4 * p_nsb p) ;; store pre4 0 l ;;;
             iter (seq 0 4) (fun i => v <- read d4 i 1 ;; scale pre4 (i * p_nsb p) (p_nsb p) (hd zero v)) ;;;
             ret pre4
           else ret NULL) ;;
  put plan (Plan {| p_nsb := p_nsb p; p_vr := p_vr p; p_angle := angle; p_fourth := p_fourth p; p_size := p_size p;
                    p_octants := p_octants p; p_vrfreq := p_vrfreq p; p_norm := p_norm p; p_d2 := Some d2; p_d4 := Some d4;
                    p_pre := p_pre p; p_pre2 := Some pre2; p_pre4 := Some pre4 |}).
(** Lines 100-129. *)
Definition update_from_rotor_frequency (plan : ptr) (vr : T) : M unit :=
  p <- load_plan plan ;;
  vrfreq <- get_frequency_in_FFT_order (p_nsb p) vr ;;
  pre <- malloc (4 * p_nsb p) ;;
  get_components (p_nsb p) vr pre ;;;
  put plan (Plan {| p_nsb := p_nsb p; p_vr := vr; p_angle := p_angle p; p_fourth := p_fourth p; p_size := p_size p;
                    p_octants := p_octants p; p_vrfreq := Some vrfreq; p_norm := p_norm p; p_d2 := p_d2 p; p_d4 := p_d4 p;
                    p_pre := Some pre; p_pre2 := p_pre2 p; p_pre4 := p_pre4 p |}) ;;;
  update_from_rotor_angle plan (p_angle p) (p_fourth p).
(** Lines 75-77. *)
Definition octants_of (volume : nat) : nat := match volume with 1 => 4 | 2 => 8 | _ => 1 end.
(** Lines 53-95. *)
Definition create_plan (scheme : ptr) (nsb : nat) (vr angle : T) (fourth : bool) : M ptr :=
  s <- load_scheme scheme ;;
  plan <- new_block (Plan {| p_nsb := nsb; p_vr := vr; p_angle := angle; p_fourth := fourth; p_size := 0; p_octants := 0;
                             p_vrfreq := None; p_norm := None; p_d2 := None; p_d4 := None; p_pre := None; p_pre2 := None;
                             p_pre4 := None |}) ;;
  norm <- malloc (s_npts s) ;;
  l <- read (s_weights s) 0 (s_npts s) ;; store norm 0 l ;;;
  scale norm 0 (s_npts s) (norm_scale nsb (octants_of (s_volume s))) ;;;
  put plan (Plan {| p_nsb := nsb; p_vr := vr; p_angle := angle; p_fourth := fourth; p_size := s_total s * nsb;
                    p_octants := octants_of (s_volume s); p_vrfreq := None; p_norm := Some norm; p_d2 := None; p_d4 := None;
                    p_pre := None; p_pre2 := None; p_pre4 := None |}) ;;;
  update_from_rotor_frequency plan vr ;;;
  ret plan.
(** Lines 213-232: the pointers are copied, not what they point to. *)
Definition copy_plan (plan : ptr) : M ptr := p <- load_plan plan ;; new_block (Plan p).
(** Lines 18-26: a table is released when its pointer is NULL. *)
Definition free_plan (plan : ptr) : M unit :=
  p <- load_plan plan ;;
  iter [p_vrfreq p; p_d2 p; p_d4 p; p_norm p; p_pre p; p_pre2 p; p_pre4 p]
       (fun x => q <- known x ;; when (q =? NULL) (free q)).

(** ** Events and dimensions *)
(** method.c lines 20-54: the plan of the event; None where none of the three tests holds. *)
Definition set_event (vr angle : T) (plan : ptr) : M (option ptr) :=
  p <- load_plan plan ;;
  if eqT vr (p_vr p) then
    if eqT angle (p_angle p) then ret (Some plan)
    else new <- copy_plan plan ;; update_from_rotor_angle new angle (p_fourth p) ;;; ret (Some new)
  else
    if eqT angle (p_angle p) then new <- copy_plan plan ;; update_from_rotor_frequency new vr ;;; ret (Some new)
    else ret None.
(** method.c lines 61-92; an event is its rotor frequency and angle.  The events array is written event by event in the code, at once here. *)
Definition create_plans_for_events (scheme : ptr) (events : list (T * T)) (nsb : nat) : M dim_s :=
  s <- load_scheme scheme ;;
  array <- new_block (Events []) ;;
  match events with
  | [] => undefined
  | (vr0, angle0) :: _ =>
      plan <- create_plan scheme nsb vr0 angle0 (s_fourth s) ;;
      evs <- collect events (fun e =>
        p <- load_plan plan ;;
        amp <- malloc (p_size p) ;; store amp 0 (tab (p_size p) (fun _ => one)) ;;;
        q <- set_event (fst e) (snd e) plan ;;
        ret {| e_plan := q; e_amp := amp |}) ;;
      put array (Events evs) ;;;
      local <- malloc (s_total s) ;;
      offset <- malloc (s_npts s) ;;
      ret {| d_events := array; d_n := length events; d_local := local; d_offset := offset |}
  end.
(** Lines 94-130. *)
Definition create_dimensions (scheme : ptr) (dims : list (list (T * T))) (nsb : nat) : M ptr :=
  array <- new_block (Dims []) ;;
  ds <- collect dims (fun events => create_plans_for_events scheme events nsb) ;;
  put array (Dims ds) ;;; ret array.
(** Lines 13-18: the plan is released when its pointer is NULL. *)
Definition free_event (e : event_s) : M unit :=
  q <- known (e_plan e) ;; when (q =? NULL) (free_plan q) ;;; free (e_amp e).
(** Lines 132-143. *)
Definition free_dimension (dimensions : ptr) (n : nat) : M unit :=
  iter (seq 0 n) (fun i =>
    ds <- load_dims dimensions ;; d <- known (nth_error ds i) ;;
    iter (seq 0 (d_n d)) (fun k => evs <- load_events (d_events d) ;; e <- known (nth_error evs k) ;; free_event e) ;;;
    free (d_local d) ;;; free (d_offset d)).

(** ** The averaging scheme and the FFT *)
(** octahedron.c lines 88-159 and 184-188. *)
Definition averaging_setup (density npts : nat) (exp : ptr) (exp_off : nat) (beta weights : ptr) : M unit :=
  x <- malloc npts ;; y <- malloc npts ;; z <- malloc npts ;;
  store x 0 (tab npts (kernel 0 [])) ;;; store y 0 (tab npts (kernel 1 [])) ;;; store z 0 (tab npts (kernel 2 [])) ;;;
  store weights 0 (tab npts (octa_weight density)) ;;;
  store beta 0 (tab npts (octa_beta density)) ;;;
  store exp exp_off (tab npts (octa_alpha density)) ;;;
  free x ;;; free y ;;; free z.
(** angular_momentum.c lines 960-981. *)
Definition get_exp_Im_alpha (n : nat) (fourth : bool) (exp : ptr) : M unit :=
  l1 <- read exp (3 * n) n ;; store exp (2 * n) (tab n (kernel 3 [l1; l1])) ;;;
  when fourth
    (l2 <- read exp (2 * n) n ;; store exp n (tab n (kernel 3 [l2; l1])) ;;;
     l3 <- read exp n n ;; store exp 0 (tab n (kernel 3 [l3; l1]))).
(** schemes.c lines 12-116.  wigner_d_matrices_from_exp_I_beta reads exp_I_beta and writes (2l+1)(l+1) numbers for each of its angles. *)
Definition wigner_matrices (which n width : nat) (beta out : ptr) (off : nat) : M unit :=
  l <- read beta 0 n ;; store out off (tab (width * n) (kernel which [l])).
Definition averaging_scheme_setup (scheme : ptr) (density volume npts : nat) (fourth : bool) (exp weights beta : ptr) : M unit :=
  let total := npts * octants_of volume in
  get_exp_Im_alpha npts fourth exp ;;;
  let size2 := 15 * npts in let size4 := 45 * npts in
  let sphere := volume =? 2 in
  w2d <- malloc (if sphere then size2 * 2 else size2) ;;
  wigner_matrices 4 npts 15 beta w2d 0 ;;;
  w4d <- (if fourth then w4d <- malloc (if sphere then size4 * 2 else size4) ;; wigner_matrices 5 npts 45 beta w4d 0 ;;; ret w4d
          else ret NULL) ;;
  when sphere
    (l <- read beta 0 npts ;; store beta 0 (tab npts (kernel 6 [l])) ;;;
     wigner_matrices 4 npts 15 beta w2d size2 ;;;
     when fourth (wigner_matrices 5 npts 45 beta w4d size4)) ;;;
  free beta ;;;
  w2 <- malloc (3 * total) ;;
  w4 <- (if fourth then malloc (5 * total) else ret NULL) ;;
  put scheme (Scheme {| s_total := total; s_density := density; s_volume := volume; s_npts := npts; s_fourth := fourth; s_exp := exp;
                        s_weights := weights; s_w2d := w2d; s_w4d := w4d; s_w2 := w2; s_w4 := w4 |}).
(** schemes.c lines 130-155. *)
Definition create_averaging_scheme (density : nat) (fourth : bool) (volume : nat) : M ptr :=
  scheme <- new_block (Scheme {| s_total := 0; s_density := density; s_volume := volume; s_npts := 0; s_fourth := fourth; s_exp := NULL;
                                 s_weights := NULL; s_w2d := NULL; s_w4d := NULL; s_w2 := NULL; s_w4 := NULL |}) ;;
  let npts := (density + 1) * (density + 2) / 2 in
  exp <- malloc (4 * npts) ;;
  beta <- malloc npts ;;
  weights <- malloc npts ;;
  averaging_setup density npts exp (3 * npts) beta weights ;;;
  averaging_scheme_setup scheme density volume npts fourth exp weights beta ;;;
  ret scheme.
(** schemes.c lines 118-127: the tables, not the structure. *)
Definition free_averaging_scheme (scheme : ptr) : M unit :=
  s <- load_scheme scheme ;;
  free (s_weights s) ;;; free (s_exp s) ;;; free (s_w2 s) ;;; free (s_w4 s) ;;; free (s_w2d s) ;;; free (s_w4d s).
(** schemes.c lines 184-210 and 212-216.  fftw_plan_many_dft allocates a plan of its own. *)
Definition create_fftw_scheme (total nsb : nat) : M ptr :=
  vector <- malloc (total * nsb) ;;
  plan <- new_block FftwPlan ;;
  new_block (Fftw {| f_vector := vector; f_plan := plan |}).
Definition free_fftw_scheme (fftw : ptr) : M unit := f <- load_fftw fftw ;; free (f_plan f) ;;; free (f_vector f).

(** ** One transition pathway *)
(** angular_momentum.c lines 525-593: __wigner_rotation_2 of rank 2 reads the last two rows of exp_Im_alpha, of rank 4 all four.
    [woff]: where the matrices start; [ooff]: where the result is written. *)
Definition wigner_rotation (rank n : nat) (wig : ptr) (woff : nat) (exp R out : ptr) (ooff : nat) : M unit :=
  temp <- malloc (2 * (2 * rank + 1)) ;;
  r <- read R 0 (2 * rank + 1) ;;
  e <- read exp ((4 - rank) * n) (rank * n) ;;
  d <- read wig woff ((2 * rank + 1) * (rank + 1) * n) ;;
  store out ooff (tab ((rank + 1) * n) (kernel 7 [r; e; d])) ;;;
  free temp.
(** Lines 883-975; [j]: the octants done, [k]: the octants written. *)
Fixpoint batch_rotation (todo n octants : nat) (w2d R2 w4d R4 exp w2 w4 : ptr) (k : nat) : M unit :=
  match todo with
  | 0 => ret tt
  | S todo' =>
      let sphere := octants =? 8 in let fourth := negb (w4 =? NULL) in
      wigner_rotation 2 n w2d 0 exp R2 w2 (k * (3 * n)) ;;;
      when sphere (wigner_rotation 2 n w2d (15 * n) exp R2 w2 ((k + 1) * (3 * n))) ;;;
      when fourth
        (wigner_rotation 4 n w4d 0 exp R4 w4 (k * (5 * n)) ;;;
         when sphere (wigner_rotation 4 n w4d (45 * n) exp R4 w4 ((k + 1) * (5 * n)))) ;;;
      when (negb (octants =? 1))
        (l <- read exp (3 * n) n ;; store exp (3 * n) (tab n (kernel 8 [l])) ;;;
         l <- read exp (2 * n) n ;; store exp (2 * n) (tab n (kernel 9 [l])) ;;;
         when fourth (l <- read exp n n ;; store exp n (tab n (kernel 10 [l])))) ;;;
      batch_rotation todo' n octants w2d R2 w4d R4 exp w2 w4 (if sphere then k + 2 else k + 1)
  end.
(** mrsimulator.c lines 409-451.  Clearing local_frequency by a multiplication with 0.0 is a store of zeros here: the numbers it reads
    the first time were never written. *)
Definition get_frequencies (s : scheme_s) (p : plan_s) (R2 R4 : ptr) (refresh : bool) (d : dim_s) : M unit :=
  batch_rotation (p_octants p) (s_npts s) (p_octants p) (s_w2d s) R2 (s_w4d s) R4 (s_exp s) (s_w2 s) (s_w4 s) 0 ;;;
  when refresh (store (d_local d) 0 (tab (s_total s) (fun _ => zero))) ;;;
  d2 <- known (p_d2 p) ;; v <- read d2 2 1 ;; w <- read (s_w2 s) 0 (3 * s_total s) ;; f <- read (d_local d) 0 (s_total s) ;;
  store (d_local d) 0 (tab (s_total s) (kernel 11 [v; w; f])) ;;;
  when (p_fourth p)
    (d4 <- known (p_d4 p) ;; v <- read d4 4 1 ;; w <- read (s_w4 s) 0 (5 * s_total s) ;; f <- read (d_local d) 0 (s_total s) ;;
     store (d_local d) 0 (tab (s_total s) (kernel 11 [v; w; f]))).
(** mrsimulator.c lines 241-351, with the copy of simulation.c lines 139-142. *)
Definition get_amplitudes (s : scheme_s) (p : plan_s) (f : fftw_s) (e : event_s) : M unit :=
  when (negb (p_nsb p =? 1))
    (pre2 <- known (p_pre2 p) ;; a <- read pre2 0 (2 * p_nsb p) ;; w <- read (s_w2 s) 0 (3 * s_total s) ;;
     store (f_vector f) 0 (tab (p_nsb p * s_total s) (kernel 12 [a; w])) ;;;
     when (negb (s_w4 s =? NULL))
       (pre4 <- known (p_pre4 p) ;; a <- read pre4 0 (4 * p_nsb p) ;; w <- read (s_w4 s) 0 (5 * s_total s) ;;
        v <- read (f_vector f) 0 (p_nsb p * s_total s) ;;
        store (f_vector f) 0 (tab (p_nsb p * s_total s) (kernel 13 [a; w; v]))) ;;;
     v <- read (f_vector f) 0 (p_size p) ;; store (f_vector f) 0 (tab (p_size p) (kernel 14 [v])) ;;;
     v <- read (f_vector f) 0 (p_size p) ;; store (e_amp e) 0 v).
(** frequency_averaging.c lines 13-108, for one dimension: the amplitudes of all events, then the interpolation of every sideband and
    octant (which writes freq_offset and the spectrum; what is interpolated is in InterpModel and AxisModel). *)
Definition one_dimensional_averaging (s : scheme_s) (d : dim_s) : M unit :=
  evs <- load_events (d_events d) ;;
  e0 <- known (nth_error evs 0) ;; plan <- known (e_plan e0) ;; p <- load_plan plan ;;
  iter (seq 1 (d_n d - 1)) (fun k =>
    e <- known (nth_error evs k) ;;
    a <- read (e_amp e) 0 (p_size p) ;; b <- read (e_amp e0) 0 (p_size p) ;;
    store (e_amp e0) 0 (tab (p_size p) (kernel 15 [a; b]))) ;;;
  norm <- known (p_norm p) ;; n <- read norm 0 (s_npts s) ;;
  (if p_nsb p =? 1 then iter (seq 0 (p_octants p)) (fun j => store (e_amp e0) (j * s_npts s) n)
   else a <- read (e_amp e0) 0 (p_octants p * p_nsb p * s_npts s) ;;
        store (e_amp e0) 0 (tab (p_octants p * p_nsb p * s_npts s) (kernel 16 [a; n]))) ;;;
  vrf <- known (p_vrfreq p) ;; vr <- read vrf 0 (p_nsb p) ;;
  f <- read (d_local d) 0 (p_octants p * s_npts s) ;;
  store (d_offset d) 0 (tab (s_npts s) (kernel 17 [vr; f])) ;;;
  _ <- read (d_offset d) 0 (s_npts s) ;;
  _ <- read (e_amp e0) 0 (p_size p) ;; ret tt.
(** frequency_averaging.c lines 110-230, for two dimensions. *)
Definition two_dimensional_averaging (s : scheme_s) (nsb : nat) (d0 d1 : dim_s) : M unit :=
  let size := s_total s * nsb in
  ampA <- malloc size ;; ampB <- malloc size ;; amp <- malloc (s_total s) ;;
  store ampA 0 (tab size (fun _ => one)) ;;; store ampB 0 (tab size (fun _ => one)) ;;;
  f0 <- read (d_local d0) 0 (s_total s) ;; f1 <- read (d_local d1) 0 (s_total s) ;;
  store (d_local d0) 0 (tab (s_total s) (kernel 18 [f0; f1])) ;;;
  f0 <- read (d_local d0) 0 (s_total s) ;;
  store (d_local d1) 0 (tab (s_total s) (kernel 19 [f0; f1])) ;;;
  let multiply d out := iter (seq 0 (d_n d)) (fun k =>
    evs <- load_events (d_events d) ;; e <- known (nth_error evs k) ;;
    a <- read (e_amp e) 0 size ;; b <- read out 0 size ;; store out 0 (tab size (kernel 15 [a; b]))) in
  let last_plan d := evs <- load_events (d_events d) ;; e <- known (nth_error evs (d_n d - 1)) ;; known (e_plan e) in
  multiply d0 ampA ;;; multiply d1 ampB ;;;
  planA <- last_plan d0 ;; planB <- last_plan d1 ;; pA <- load_plan planA ;; pB <- load_plan planB ;;
  norm <- known (p_norm pA) ;; n <- read norm 0 (s_npts s) ;;
  b <- read ampB 0 (p_octants pA * nsb * s_npts s) ;;
  store ampB 0 (tab (p_octants pA * nsb * s_npts s) (kernel 16 [b; n])) ;;;
  vA <- known (p_vrfreq pA) ;; vB <- known (p_vrfreq pB) ;; a <- read vA 0 nsb ;; b <- read vB 0 nsb ;;
  iter (seq 0 nsb) (fun i => iter (seq 0 nsb) (fun k => when (visible [a; b; f0; f1] i k)
    (iter (seq 0 (p_octants pA)) (fun j =>
       f0 <- read (d_local d0) (j * s_npts s) (s_npts s) ;; store (d_offset d0) 0 (tab (s_npts s) (kernel 17 [a; f0])) ;;;
       f1 <- read (d_local d1) (j * s_npts s) (s_npts s) ;; store (d_offset d1) 0 (tab (s_npts s) (kernel 17 [b; f1])) ;;;
       x <- read ampA (i * s_total s + j * s_npts s) (s_total s) ;; y <- read ampB (k * s_total s + j * s_npts s) (s_total s) ;;
       store amp 0 (tab (s_total s) (kernel 15 [x; y])))))) ;;;
  free amp ;;; free ampA ;;; free ampB.
(** simulation.c lines 36-174.  Between the allocations and the releases of [R2], [R4] and their temporaries they are written for every
    event; the sites and couplings are read from Python's arrays. *)
Definition core (dimensions : ptr) (n_dim : nat) (fftw scheme : ptr) (nsb : nat) : M unit :=
  R2 <- malloc 5 ;; R4 <- malloc 9 ;; R2_temp <- malloc 5 ;; R4_temp <- malloc 9 ;;
  s <- load_scheme scheme ;; f <- load_fftw fftw ;;
  iter (seq 0 n_dim) (fun i =>
    ds <- load_dims dimensions ;; d <- known (nth_error ds i) ;;
    iter (seq 0 (d_n d)) (fun k =>
      evs <- load_events (d_events d) ;; e <- known (nth_error evs k) ;;
      plan <- known (e_plan e) ;; p <- load_plan plan ;;
      store R2 0 (tab 5 (fun _ => zero)) ;;; store R4 0 (tab 9 (fun _ => zero)) ;;;
      store R2_temp 0 (tab 5 (kernel 20 [])) ;;; store R2 0 (tab 5 (kernel 21 [])) ;;;
      when (p_fourth p) (store R4_temp 0 (tab 9 (kernel 22 [])) ;;; store R4 0 (tab 9 (kernel 23 []))) ;;;
      get_frequencies s p R2 R4 (k =? 0) d ;;;
      get_amplitudes s p f e)) ;;;
  free R2 ;;; free R4 ;;; free R2_temp ;;; free R4_temp ;;;
  ds <- load_dims dimensions ;;
  match n_dim with
  | 1 => d <- known (nth_error ds 0) ;; one_dimensional_averaging s d
  | 2 => d0 <- known (nth_error ds 0) ;; d1 <- known (nth_error ds 1) ;; two_dimensional_averaging s nsb d0 d1
  | _ => ret tt
  end.

(** ** The whole call *)
(** base_model.pyx lines 117-142: what becomes of the rotor frequency and angle of every event, and of the number of sidebands; None: the
    ValueError of lines 132-139. *)
Fixpoint rotor_events (prev nsb : nat) (events : list (T * T)) : option (nat * nat * list (T * T)) :=
  match events with
  | [] => Some (prev, nsb, [])
  | (vr, angle) :: r =>
      let static := is_static vr in
      let nsb := if static then 1 else nsb in
      let prev := if prev =? 0 then nsb else prev in
      if prev =? nsb then
        match rotor_events prev nsb r with
        | Some (prev, nsb, l) => Some (prev, nsb, (if static then (static_vr, zero_angle) else (vr, angle)) :: l)
        | None => None
        end
      else None
  end.
Fixpoint rotor_dims (prev nsb : nat) (dims : list (list (T * T))) : option (nat * list (list (T * T))) :=
  match dims with
  | [] => Some (nsb, [])
  | d :: r => match rotor_events prev nsb d with
              | Some (prev, nsb, l) => match rotor_dims prev nsb r with Some (nsb, ls) => Some (nsb, l :: ls) | None => None end
              | None => None
              end
  end.
(** base_model.pyx lines 81-508.  [systems]: for every spin system that holds the observed isotope, the number of its transition
    pathways; with none of them line 450 raises a ValueError. *)
Fixpoint simulate_systems (systems : list nat) (dimensions : ptr) (n_dim : nat) (fftw scheme : ptr) (nsb : nat) : M outcome :=
  match systems with
  | [] => ret Returned
  | 0 :: _ => ret Raised
  | n :: r => iter (seq 0 n) (fun _ => core dimensions n_dim fftw scheme nsb) ;;; simulate_systems r dimensions n_dim fftw scheme nsb
  end.
Definition one_d_spectrum (density volume : nat) (fourth : bool) (nsb : nat) (dims : list (list (T * T))) (systems : list nat) : M outcome :=
  scheme <- create_averaging_scheme density fourth volume ;;
  match rotor_dims 0 nsb dims with
  | None => ret Raised
  | Some (nsb, dims) =>
      dimensions <- create_dimensions scheme dims nsb ;;
      s <- load_scheme scheme ;;
      fftw <- create_fftw_scheme (s_total s) nsb ;;
      o <- simulate_systems systems dimensions (length dims) fftw scheme nsb ;;
      match o with
      | Raised => ret Raised
      | Returned =>
          free_dimension dimensions (length dims) ;;; free_averaging_scheme scheme ;;; free_fftw_scheme fftw ;;; ret Returned
      end
  end.
End Mem.
