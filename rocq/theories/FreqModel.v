(** Model of the frequency calculation: src/c_lib/include/frequency/*.h, src/c_lib/lib/mrsimulator.c lines 53-231 and 402-609,
    src/c_lib/lib/method.c lines 20-92, the loops of src/c_lib/lib/simulation.c lines 30-151, the packing of the sites and couplings
    in src/c_lib/base/base_model.pyx lines 258-428 and the flags of src/mrsimulator/method/event.py.
    Numbers are exact reals.  The decimal constants of the sources approximate square roots; the functions are parametrised by them:
    [decimal_f] has the values of the sources and [ideal_f] those of the formulas in the comments of the sources. *)
From Coq Require Import Reals List ZArith.
From Coquelicot Require Import Complex.
From Verif Require Import DftModel WignerModel.
From Verif Require AxisModel.
Import ListNotations.
Open Scope R_scope.

Record fconst := {
  f_d : R; f_f : R;                                         (* spin_transition_functions.h lines 47, 70 *)
  c0p : R; c0f : R; c2p : R; c2f : R; c4p : R; c4f : R;     (* lines 105-107 *)
  s6 : R; i6 : R; i3 : R;                                   (* spatial_orientation_tensor_components.h lines 95, 169, 284 *)
  q00 : R; q22 : R; q20 : R; q44 : R; q42 : R; q40 : R; i18 : R (* lines 284-303 *) }.
Definition decimal_f : fconst :=
  {| f_d := 1.2247448714; f_f := 0.316227766;
     c0p := 0.3577708764; c0f := 0.8485281374; c2p := 0.1069044968; c2f := -1.0141851057; c4p := -0.1434274331; c4f := -1.2850792082;
     s6 := 0.4082482905; i6 := 0.1666666667; i3 := 0.33333333333;
     q00 := 0.07453559925; q22 := 0.07273929675; q20 := 0.08908708064; q44 := 0.02777777778; q42 := 0.06299407883; q40 := 0.1195228609;
     i18 := 0.05555555556 |}.
Definition ideal_f : fconst :=
  {| f_d := sqrt (3 / 2); f_f := 1 / sqrt 10;
     c0p := 4 / sqrt 125; c0f := sqrt (18 / 25); c2p := sqrt (2 / 175); c2f := - (6 / sqrt 35); c4p := - sqrt (18 / 875); c4f := - (17 / sqrt 175);
     s6 := 1 / sqrt 6; i6 := 1 / 6; i3 := 1 / 3;
     q00 := 1 / (6 * sqrt 5); q22 := 1 / (3 * sqrt 21); q20 := sqrt 2 / (6 * sqrt 7); q44 := 1 / 36; q42 := 1 / (6 * sqrt 7); q40 := 1 / sqrt 70;
     i18 := 1 / 18 |}.

(** ** Vectors of complex numbers *)
(** vm_double_zeros, cblas_dscal, vm_double_add_inplace on arrays of complex numbers. *)
Definition vzero (n : nat) : list C := repeat (RtoC 0) n.
Definition vscale (t : R) (v : list C) : list C := map (fun z => (t * fst z, t * snd z)) v.
Fixpoint vadd (a b : list C) : list C := match a, b with x :: a', y :: b' => (fst x + fst y, snd x + snd y) :: vadd a' b' | _, _ => [] end.

(** ** spin_transition_functions.h *)
(** Lines 29, 46-48, 66-72, 98-108, 139-142. *)
Definition STF_p (mf mi : R) : R := mf - mi.
Definition STF_d (f : fconst) (mf mi : R) : R := f_d f * (mf * mf - mi * mi).
Definition STF_f (f : fconst) (mf mi spin : R) : R :=
  let v := 1 - 3 * spin * (spin + 1) in let v := v * (mf - mi) in
  let v := v + 5 * (mf * mf * mf - mi * mi * mi) in v * f_f f.
Definition STF_cL (f : fconst) (mf mi spin : R) : R * R * R :=
  let f_value := STF_f f mf mi spin in let p_value := STF_p mf mi in
  let temp := spin * (spin + 1) - 3 / 4 in let temp := temp * p_value in
  (c0p f * temp + c0f f * f_value, c2p f * temp + c2f f * f_value, c4p f * temp + c4f f * f_value).
Definition STF_dIS (mIf mIi mSf mSi : R) : R := mIf * mSf - mIi * mSi.

(** ** spatial_orientation_tensor_components.h *)
Definition euler := (R * R * R)%type.
(** Lines 101-104 and the same lines of the other functions: the rotation is skipped when the three angles are zero. *)
Definition rotate_pas (l : nat) (th : euler) (v : list C) : list C :=
  let '(a, b, g) := th in
  if Req_EM_T a 0 then if Req_EM_T b 0 then if Req_EM_T g 0 then v else single_wigner_rotation decimal l a b g v
                       else single_wigner_rotation decimal l a b g v else single_wigner_rotation decimal l a b g v.
Definition pas2 (r2 r0 : R) : list C := [RtoC r2; RtoC 0; RtoC r0; RtoC 0; RtoC r2].
Definition pas4 (r4 r2 r0 : R) : list C := [RtoC r4; RtoC 0; RtoC r2; RtoC 0; RtoC r0; RtoC 0; RtoC r2; RtoC 0; RtoC r4].
(** Lines 85-105. *)
Definition sSOT_shielding (f : fconst) (iso zeta eta : R) (th : euler) : R * list C :=
  (iso, rotate_pas 2 th (pas2 (s6 f * (zeta * eta)) (- zeta))).
(** Lines 156-180. *)
Definition vq (spin Cq : R) : R := 3 * Cq / (2 * spin * (2 * spin - 1)).
Definition sSOT_quad1 (f : fconst) (spin Cq eta : R) (th : euler) : list C :=
  rotate_pas 2 th (pas2 (- i6 f * (vq spin Cq * eta)) (s6 f * vq spin Cq)).
(** Lines 270-317. *)
Definition sSOT_quad2 (f : fconst) (spin v0 Cq eta : R) (th : euler) : R * list C * list C :=
  let scale := vq spin Cq * vq spin Cq / v0 in let eta2 := eta * eta in
  ((eta2 * i3 f + 1) * q00 f * scale,
   rotate_pas 2 th (pas2 (- eta * q22 f * scale) (q20 f * scale * (eta2 * i3 f - 1))),
   rotate_pas 4 th (pas4 (eta2 * q44 f * scale) (- q42 f * eta * scale) (q40 f * scale * (eta2 * i18 f + 1)))).
(** Lines 378-398. *)
Definition sSOT_J (f : fconst) (iso zeta eta : R) (th : euler) : R * list C :=
  (iso, rotate_pas 2 th (pas2 (- s6 f * (zeta * eta)) zeta)).
(** Lines 443-456. *)
Definition sSOT_dipolar (D : R) (th : euler) : list C := rotate_pas 2 th (pas2 0 (2 * D)).

(** ** frequency_tensor_components.h *)
(** Lines 48-74, 101-120, 161-182, 224-249, 279-296. *)
Definition FCF_shielding (f : fconst) (iso zeta eta : R) (th : euler) (mf mi : R) : R * list C :=
  let t := STF_p mf mi in
  if Req_EM_T t 0 then (0, vzero 5) else let '(r0, r2) := sSOT_shielding f iso zeta eta th in (r0 * t, vscale t r2).
Definition FCF_quad1 (f : fconst) (spin Cq eta : R) (th : euler) (mf mi : R) : list C :=
  let t := STF_d f mf mi in if Req_EM_T t 0 then vzero 5 else vscale t (sSOT_quad1 f spin Cq eta th).
Definition FCF_quad2 (f : fconst) (spin v0 Cq eta : R) (th : euler) (mf mi : R) : R * list C * list C :=
  let '(t0, t2, t4) := STF_cL f mf mi spin in
  let '(r0, r2, r4) := sSOT_quad2 f spin v0 Cq eta th in (r0 * t0, vscale t2 r2, vscale t4 r4).
Definition FCF_J (f : fconst) (iso zeta eta : R) (th : euler) (mIf mIi mSf mSi : R) : R * list C :=
  let t := STF_dIS mIf mIi mSf mSi in
  if Req_EM_T t 0 then (0, vzero 5) else let '(r0, r2) := sSOT_J f iso zeta eta th in (r0 * t, vscale t r2).
Definition FCF_dipolar (D : R) (th : euler) (mIf mIi mSf mSi : R) : list C :=
  let t := STF_dIS mIf mIi mSf mSi in if Req_EM_T t 0 then vzero 5 else vscale t (sSOT_dipolar D th).

(** ** Sites and couplings *)
(** site_struct and coupling_struct (object_struct.h), one record per site or coupling.  The C struct also has the asymmetry of the
    dipolar tensor, which no function reads. *)
Record site := { s_spin : R; s_gamma : R; s_iso : R; s_zeta : R; s_eta : R; s_theta : euler; s_Cq : R; s_qeta : R; s_qtheta : euler }.
Record coupling := { c_A : nat; c_X : nat; c_J : R; c_zeta : R; c_eta : R; c_theta : euler; c_D : R; c_dtheta : euler }.

(** base_model.pyx lines 264-329 and 353-403: missing attributes count as zero; the quadrupolar tensor is read only if the spin of
    the first channel is above 1/2.  [None] is Python's None. *)
Record tensor := { t_zeta : option R; t_eta : option R; t_alpha : option R; t_beta : option R; t_gamma : option R }.
Record psite := { ps_spin : R; ps_gamma : R; ps_shift : option R; ps_shielding : option tensor; ps_quad : option tensor }.
Record pcoupling := { pc_index : nat * nat; pc_J : option R; pc_Jsym : option tensor; pc_dip : option tensor }.
Definition or0 (x : option R) : R := match x with Some v => v | None => 0 end.
Definition pack (t : option tensor) : R * R * euler :=
  match t with None => (0, 0, (0, 0, 0)) | Some t => (or0 (t_zeta t), or0 (t_eta t), (or0 (t_alpha t), or0 (t_beta t), or0 (t_gamma t))) end.
Definition pack_site (channel_spin : R) (p : psite) : site :=
  let '(z, e, th) := pack (ps_shielding p) in
  let '(q, qe, qth) := pack (if Rlt_dec (1 / 2) channel_spin then ps_quad p else None) in
  {| s_spin := ps_spin p; s_gamma := ps_gamma p; s_iso := or0 (ps_shift p); s_zeta := z; s_eta := e; s_theta := th; s_Cq := q; s_qeta := qe; s_qtheta := qth |}.
Definition pack_coupling (p : pcoupling) : coupling :=
  let '(z, e, th) := pack (pc_Jsym p) in let '(d, _, dth) := pack (pc_dip p) in
  {| c_A := fst (pc_index p); c_X := snd (pc_index p); c_J := or0 (pc_J p); c_zeta := z; c_eta := e; c_theta := th; c_D := d; c_dtheta := dth |}.

(** ** Components of one event *)
Record comps := { r0 : R; r2 : list C; r4 : list C }.
(** simulation.c lines 30-34. *)
Definition zero_comps : comps := {| r0 := 0; r2 := vzero 5; r4 := vzero 9 |}.
Definition add0 (x : R) (c : comps) : comps := {| r0 := r0 c + x; r2 := r2 c; r4 := r4 c |}.
Definition add2 (v : list C) (c : comps) : comps := {| r0 := r0 c; r2 := vadd v (r2 c); r4 := r4 c |}.
Definition add4 (v : list C) (c : comps) : comps := {| r0 := r0 c; r2 := r2 c; r4 := vadd v (r4 c) |}.

(** frequency_contrib.py lines 7-14, 54-56 and event.py lines 108-112: the six flags of an event. *)
Inductive contrib := Shielding1_0 | Shielding1_2 | Quad1_2 | Quad2_0 | Quad2_2 | Quad2_4.
Definition freq_list_all : list contrib := [Shielding1_0; Shielding1_2; Quad1_2; Quad2_0; Quad2_2; Quad2_4].
Definition contrib_eqb (a b : contrib) : bool :=
  match a, b with
  | Shielding1_0, Shielding1_0 | Shielding1_2, Shielding1_2 | Quad1_2, Quad1_2 | Quad2_0, Quad2_0 | Quad2_2, Quad2_2 | Quad2_4, Quad2_4 => true
  | _, _ => false
  end.
Definition freq_contrib_flags (listed : list contrib) : list bool := map (fun c => existsb (contrib_eqb c) listed) freq_list_all.

(** [*freq_contrib++]: the flags of all the events of the method from the current pointer on; None is a read past the end of the array
    (the C code reads whatever follows it). *)
Definition obind {A B} (x : option A) (g : A -> option B) : option B := match x with Some y => g y | None => None end.
Notation "'let?' x := m 'in' g" := (obind m (fun x => g)) (at level 60, x pattern, m at level 60, right associativity).
Definition next_flag (fl : list bool) : option (bool * list bool) := match fl with b :: r => Some (b, r) | [] => None end.

(** mrsimulator.c lines 470-523, one turn of the loop over the sites. *)
Definition site_step (f : fconst) (fourth : bool) (B0 : R) (s : site) (mi mf : R) (st : comps * list bool) : option (comps * list bool) :=
  let '(c, fl) := st in
  if Req_EM_T mi mf then Some (c, fl) else
  let larmor := - B0 * s_gamma s in
  let '(t0, t2) := FCF_shielding f (s_iso s * larmor) (s_zeta s * larmor) (s_eta s) (s_theta s) mf mi in
  let? (b, fl) := next_flag fl in let c := if b then add0 t0 c else c in
  let? (b, fl) := next_flag fl in let c := if b then add2 t2 c else c in
  if Req_EM_T (s_spin s) (1 / 2) then Some (c, fl) else
  let? (b, fl) := next_flag fl in
  let c := if b then add2 (FCF_quad1 f (s_spin s) (s_Cq s) (s_qeta s) (s_qtheta s) mf mi) c else c in
  if fourth then
    let '(t0, t2, t4) := FCF_quad2 f (s_spin s) (larmor * 1000000) (s_Cq s) (s_qeta s) (s_qtheta s) mf mi in
    let? (b, fl) := next_flag fl in let c := if b then add0 t0 c else c in
    let? (b, fl) := next_flag fl in let c := if b then add2 t2 c else c in
    let? (b, fl) := next_flag fl in let c := if b then add4 t4 c else c in
    Some (c, fl)
  else Some (c, fl).
Fixpoint site_loop (f : fconst) (fourth : bool) (B0 : R) (sites : list site) (mi mf : list R) (st : comps * list bool) : option (comps * list bool) :=
  match sites with
  | [] => Some st
  | s :: rest => let? st := site_step f fourth B0 s (hd 0 mi) (hd 0 mf) st in site_loop f fourth B0 rest (tl mi) (tl mf) st
  end.
(** Lines 536-567. *)
Definition coupling_step (f : fconst) (n_sites : nat) (transition : list R) (cp : coupling) (c : comps) : comps :=
  let mIi := nth (c_A cp) transition 0 in let mSi := nth (c_X cp) transition 0 in
  let mIf := nth (c_A cp + n_sites) transition 0 in let mSf := nth (c_X cp + n_sites) transition 0 in
  let '(t0, t2) := FCF_J f (c_J cp) (c_zeta cp) (c_eta cp) (c_theta cp) mIf mIi mSf mSi in
  add2 (FCF_dipolar (c_D cp) (c_dtheta cp) mIf mIi mSf mSi) (add2 t2 (add0 t0 c)).
(** Lines 570-609 with the zeroing of simulation.c line 114.  [transition]: the quantum numbers of the initial state of all sites,
    then those of the final state. *)
Definition event_components (f : fconst) (fourth : bool) (B0 : R) (sites : list site) (couplings : list coupling) (transition : list R)
    (flags : list bool) : option comps :=
  let n := length sites in
  let? (c, _) := site_loop f fourth B0 sites transition (skipn n transition) (zero_comps, flags) in
  Some (fold_left (fun c cp => coupling_step f n transition cp c) couplings c).

(** ** Plans *)
(** The fields of MRS_plan read during a simulation. *)
Record plan := { pl_nsb : nat; pl_vr : R; pl_angle : R; pl_fourth : bool; pl_octants : nat; pl_norm : nat -> R; pl_vrfreq : list R;
                 pl_d2 : list R; pl_d4 : list R; pl_pre : nat -> nat -> C; pl_pre2 : nat -> nat -> C; pl_pre4 : nat -> nat -> C }.
Record scheme := { sc_npts : nat; sc_octants : nat; sc_fourth : bool; sc_weights : nat -> R; sc_beta : nat -> C }.
(** mrsimulator.c lines 134-208.  Without fourth rank d4 and pre_phase_4 are NULL, here empty or zero. *)
Definition update_angle (angle : R) (fourth : bool) (p : plan) : plan :=
  let d2 := wigner_dm0 decimal 2 angle in let d4 := if fourth then wigner_dm0 decimal 4 angle else [] in
  {| pl_nsb := pl_nsb p; pl_vr := pl_vr p; pl_angle := angle; pl_fourth := pl_fourth p; pl_octants := pl_octants p; pl_norm := pl_norm p;
     pl_vrfreq := pl_vrfreq p; pl_d2 := d2; pl_d4 := d4; pl_pre := pl_pre p;
     pl_pre2 := fun i step => (RtoC (nth i d2 0%R) * pl_pre p (i + 2)%nat step)%C;
     pl_pre4 := fun i step => if fourth then (RtoC (nth i d4 0%R) * pl_pre p i step)%C else RtoC 0 |}.
(** Lines 100-129; [pre_phase] is in DftModel. *)
Definition update_frequency (vr : R) (p : plan) : plan :=
  update_angle (pl_angle p) (pl_fourth p)
    {| pl_nsb := pl_nsb p; pl_vr := vr; pl_angle := pl_angle p; pl_fourth := pl_fourth p; pl_octants := pl_octants p; pl_norm := pl_norm p;
       pl_vrfreq := map (fun m => IZR m * vr) (AxisModel.fft_order (Z.of_nat (pl_nsb p)));
       pl_d2 := pl_d2 p; pl_d4 := pl_d4 p; pl_pre := pre_phase (pl_nsb p) vr; pl_pre2 := pl_pre2 p; pl_pre4 := pl_pre4 p |}.
(** Lines 53-95.  The fields not yet set are zero here. *)
Definition create_plan (sc : scheme) (nsb : nat) (vr angle : R) : plan :=
  update_frequency vr
    {| pl_nsb := nsb; pl_vr := vr; pl_angle := angle; pl_fourth := sc_fourth sc; pl_octants := sc_octants sc;
       pl_norm := fun o => norm_amplitude nsb (sc_octants sc) (sc_weights sc o); pl_vrfreq := []; pl_d2 := []; pl_d4 := [];
       pl_pre := fun _ _ => RtoC 0; pl_pre2 := fun _ _ => RtoC 0; pl_pre4 := fun _ _ => RtoC 0 |}.
(** method.c lines 20-54: the plan of an event, from the plan of the dimension; None where [event->plan] is left uninitialised. *)
Definition set_event (vr angle : R) (p : plan) : option plan :=
  if Req_EM_T vr (pl_vr p)
  then if Req_EM_T angle (pl_angle p) then Some p else Some (update_angle angle (pl_fourth p) p)
  else if Req_EM_T angle (pl_angle p) then Some (update_frequency vr p) else None.

(** ** The loops over the dimensions and events *)
Record event := { ev_fraction : R; ev_B0 : R; ev_vr : R; ev_angle : R }.
Record dimension := { dm_increment : R; dm_events : list event }.
(** What a dimension accumulates: R0_offset and local_frequency. *)
Record freqs := { fq_R0 : R; fq_local : nat -> R }.
(** method.c lines 73-83. *)
Definition dimension_plans (sc : scheme) (nsb : nat) (d : dimension) : list (option plan) :=
  match dm_events d with
  | [] => []
  | e :: _ => map (fun ev => set_event (ev_vr ev) (ev_angle ev) (create_plan sc nsb (ev_vr e) (ev_angle e))) (dm_events d)
  end.

(** mrsimulator.c lines 409-451, after the batch rotation to the components [w] of every orientation; [inv] is inverse_increment. *)
Definition normalized_frequencies (p : plan) (R0 : R) (w : list (list C * list C)) (refresh : bool) (inv fraction : R) (st : freqs) : freqs :=
  let st := if refresh then {| fq_R0 := 0; fq_local := fun o => 0 * fq_local st o |} else st in
  let R0_offset := fq_R0 st + R0 * inv * fraction in
  let buffer2 := inv * nth 2 (pl_d2 p) 0 * fraction in
  let local o := fq_local st o + buffer2 * fst (nth 2 (fst (nth o w ([], []))) (RtoC 0)) in
  let buffer4 := inv * nth 4 (pl_d4 p) 0 * fraction in
  let local o := if pl_fourth p then local o + buffer4 * fst (nth 4 (snd (nth o w ([], []))) (RtoC 0)) else local o in
  {| fq_R0 := R0_offset; fq_local := local |}.

(** simulation.c lines 103-151: the state is the pointers to the pathway and to the flags, the phase table of the averaging scheme
    (updated in place by the batch rotation) and the frequencies of the dimension.  None: undefined behaviour. *)
Record core_state := { cs_path : list R; cs_flags : list bool; cs_table : exp_table }.
Definition event_step (f : fconst) (sc : scheme) (sites : list site) (couplings : list coupling) (inv : R) (e : event) (p : option plan)
    (refresh : bool) (st : core_state) (fq : freqs) : option (core_state * freqs) :=
  let? p := p in
  let? c := event_components f (pl_fourth p) (ev_B0 e) sites couplings (cs_path st) (cs_flags st) in
  let '(w, t) := batch_rotation decimal (sc_npts sc) (pl_octants p) (sc_fourth sc) (sc_beta sc) (r2 c) (r4 c) (cs_table st) in
  Some ({| cs_path := skipn (2 * length sites) (cs_path st); cs_flags := skipn 6 (cs_flags st); cs_table := t |},
        normalized_frequencies p (r0 c) w refresh inv (ev_fraction e) fq).
Fixpoint event_loop (f : fconst) (sc : scheme) (sites : list site) (couplings : list coupling) (inv : R) (l : list (event * option plan))
    (refresh : bool) (st : core_state) (fq : freqs) : option (core_state * freqs) :=
  match l with
  | [] => Some (st, fq)
  | (e, p) :: rest => let? (st, fq) := event_step f sc sites couplings inv e p refresh st fq in
                      event_loop f sc sites couplings inv rest false st fq
  end.
(** [fqs]: the frequencies of every dimension as the previous pathway left them (at first, uninitialised memory). *)
Fixpoint dimension_loop (f : fconst) (sc : scheme) (nsb : nat) (sites : list site) (couplings : list coupling) (dims : list dimension)
    (st : core_state) (fqs : list freqs) : option (core_state * list freqs) :=
  match dims, fqs with
  | d :: dims', fq :: fqs' =>
      let? (st, fq) := event_loop f sc sites couplings (1 / dm_increment d) (combine (dm_events d) (dimension_plans sc nsb d)) true st fq in
      let? (st, fqs) := dimension_loop f sc nsb sites couplings dims' st fqs' in
      Some (st, fq :: fqs)
  | _, _ => Some (st, [])
  end.
(** One call of [__mrsimulator_core]: the frequencies for one pathway; the table is kept for the next call. *)
Definition core (f : fconst) (sc : scheme) (nsb : nat) (sites : list site) (couplings : list coupling) (dims : list dimension)
    (flags : list bool) (path : list R) (t : exp_table) (fqs : list freqs) : option (exp_table * list freqs) :=
  let? (st, fqs) := dimension_loop f sc nsb sites couplings dims {| cs_path := path; cs_flags := flags; cs_table := t |} fqs in
  Some (cs_table st, fqs).
(** base_model.pyx lines 468-482: all the pathways of a spin system one after the other; the frequencies of every one. *)
Fixpoint pathways_loop (f : fconst) (sc : scheme) (nsb : nat) (sites : list site) (couplings : list coupling) (dims : list dimension)
    (flags : list bool) (paths : list (list R)) (t : exp_table) (fqs : list freqs) : option (list (list freqs)) :=
  match paths with
  | [] => Some []
  | path :: rest => let? (t, fqs) := core f sc nsb sites couplings dims flags path t fqs in
                    let? out := pathways_loop f sc nsb sites couplings dims flags rest t fqs in Some (fqs :: out)
  end.

(** ** Sideband amplitudes of several events *)
(** mrsimulator.c lines 241-341 for one event: intensities of an orientation with components w2, w4 (C64 is about the exponential). *)
Definition event_amplitude (p : plan) (w2 w4 : nat -> C) (sideband : nat) : R :=
  sideband_intensity (pl_nsb p) (fun step => exp_imag_only (snd (csum 2 (fun i => pl_pre2 p i step * w2 i)
      + (if pl_fourth p then csum 4 (fun i => pl_pre4 p i step * w4 i) else RtoC 0)))%C) sideband.
(** frequency_averaging.c lines 12-21 and 49-56: the amplitudes of all the events of a dimension multiplied together and scaled once
    with the weight of the first event's plan.  [o]: orientation of the octant. *)
Definition dimension_amplitude (p : plan) (amps : list (nat -> R)) (o sideband : nat) : R :=
  fold_left (fun a amp => a * amp sideband) (tl amps) (hd (fun _ => 1) amps sideband) * pl_norm p o.
(** frequency_averaging.c lines 152-176 and 214-216: the amplitude of sideband i of the first and k of the second dimension. *)
Definition amplitude_2d (p : plan) (ampsA ampsB : list (nat -> R)) (o i k : nat) : R :=
  fold_left (fun a amp => a * amp i) ampsA 1 * (fold_left (fun a amp => a * amp k) ampsB 1 * pl_norm p o).
