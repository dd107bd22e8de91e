(** Specification of the energies of a spin system in a strong field, in Hz, to first order in the shieldings and couplings and to
    second order in the quadrupolar interaction.  Only the records of the model of the code that hold the parameters are used. *)
From Coq Require Import Reals List ZArith.
From Coquelicot Require Import Coquelicot.
From Verif Require Import DftModel FreqModel PhysSpec.
Import ListNotations.
Open Scope R_scope.

(** The Euler angles of a frame in another one, and a tensor in the frame reached by Euler angles one after the other. *)
Definition turned (th : euler) (T : tensor3) : tensor3 := let '(a, b, g) := th in along (euler_axes a b g) T.
Definition lab (fr : list euler) (T : tensor3) : tensor3 := fold_left (fun T th => turned th T) fr T.

(** A site of spin n/2 in state a; [fr]: from the frame of the crystallite to the one with z along the field.  The Larmor frequency is
    - B0 gamma (in MHz, with shifts in ppm); the shielding lowers the shift by its element along the field; nuclei of spin 1 and more
    have the quadrupolar interaction, with its second order if [second]. *)
Definition site_level (second : bool) (B0 : R) (s : site) (fr : list euler) (n a : nat) : R :=
  let larmor := - (B0 * s_gamma s) in
  let H := H_quad n (s_Cq s) (lab fr (turned (s_qtheta s) (principal 1 (s_qeta s)))) in
  larmor * (s_iso s - lab fr (turned (s_theta s) (principal (s_zeta s) (s_eta s))) Z Z) * quantum n a +
  (if Nat.ltb n 2 then 0 else energy1 H a + (if second then energy2 n (larmor * 1000000) H a else 0)).
(** Two coupled sites with quantum numbers mA, mX: the J coupling with its anisotropic part, and D (3 cos^2 - 1). *)
Definition coupling_level (cp : coupling) (fr : list euler) (mA mX : R) : R :=
  mA * mX * (c_J cp + lab fr (turned (c_theta cp) (principal (c_zeta cp) (c_eta cp))) Z Z + 2 * c_D cp * lab fr (turned (c_dtheta cp) (principal 1 0)) Z Z).

(** A spin system: its sites with twice their spin and their state, and its couplings. *)
Definition rtotal {A} (g : A -> R) (l : list A) : R := fold_right (fun x r => g x + r) 0 l.
Definition state_of (ns levels : list nat) (i : nat) : R := quantum (nth i ns O) (nth i levels O).
Definition system_level (second : bool) (B0 : R) (sites : list site) (couplings : list coupling) (fr : list euler) (ns levels : list nat) : R :=
  rtotal (fun x => site_level second B0 (fst x) fr (fst (snd x)) (snd (snd x))) (combine sites (combine ns levels)) +
  rtotal (fun cp => coupling_level cp fr (state_of ns levels (c_A cp)) (state_of ns levels (c_X cp))) couplings.

(** The mean over a turn of a rotor. *)
Definition mean_over_turn (g : R -> R) (v : R) : Prop := is_RInt g 0 (2 * PI) (2 * PI * v).
(** Frames: a static sample whose field is at azimuth alpha and polar angle beta from the axes of the crystallite; and a rotor whose
    axis is at (alpha, beta), turned by phi, inclined by theta to the field. *)
Definition static_frame (alpha beta : R) : list euler := [(alpha, beta, 0)].
Definition rotor_frame (alpha beta phi theta : R) : list euler := [(alpha, beta, phi); (0, theta, 0)].

(** How exact the frequency of a transition is (the code has rounded constants and tables of cosines): relative to the sizes of the
    interactions, 1e-6 for those of first order and 5e-6 for the second order. *)
Definition second_order_size (I m m' : R) : R := Rabs ((I * (I + 1) - 3 / 4) * (m' - m)) + Rabs (5 * (m' ^ 3 - m ^ 3) + (1 - 3 * (I * (I + 1))) * (m' - m)).
Definition site_tolerance (second : bool) (B0 : R) (s : site) (n : nat) (m m' : R) : R :=
  let larmor := - (B0 * s_gamma s) in
  let nuq := 3 * s_Cq s / (2 * spin n * (2 * spin n - 1)) in
  1e-6 * (Rabs (larmor * s_zeta s * (m' - m)) * (1 + Rabs (s_eta s))) +
  (if Nat.ltb n 2 then 0 else 1e-6 * (Rabs (nuq * (m' ^ 2 - m ^ 2)) * (1 + Rabs (s_qeta s))) +
    (if second then 5e-6 * (Rabs (nuq ^ 2 / (larmor * 1000000)) * (1 + s_qeta s ^ 2) * second_order_size (spin n) m m') else 0)).
Definition coupling_tolerance (cp : coupling) (dm : R) : R := 1e-6 * (Rabs (c_zeta cp * dm) * (1 + Rabs (c_eta cp)) + Rabs (2 * c_D cp * dm)).
Definition system_tolerance (second : bool) (B0 : R) (sites : list site) (couplings : list coupling) (ns levels levels' : list nat) : R :=
  rtotal (fun x => let '(s, (n, (a, a'))) := x in site_tolerance second B0 s n (quantum n a) (quantum n a')) (combine sites (combine ns (combine levels levels'))) +
  rtotal (fun cp => coupling_tolerance cp (state_of ns levels' (c_A cp) * state_of ns levels' (c_X cp) - state_of ns levels (c_A cp) * state_of ns levels (c_X cp))) couplings.
(** Parameters the theorems are about: the spins of the sites, states that exist, Euler angles beta that the tables cover, a field where there is a second order. *)
Definition covered (th : euler) : Prop := let '(_, b, _) := th in 0 <= b < 6.2831.
Definition site_fine (second : bool) (B0 : R) (s : site) (n a a' : nat) : Prop :=
  (1 <= n)%nat /\ s_spin s = spin n /\ (a <= n)%nat /\ (a' <= n)%nat /\ covered (s_theta s) /\ covered (s_qtheta s) /\ (second = true -> B0 * s_gamma s <> 0).
Fixpoint sites_fine (second : bool) (B0 : R) (sites : list site) (ns levels levels' : list nat) : Prop :=
  match sites, ns, levels, levels' with
  | [], [], [], [] => True
  | s :: sites, n :: ns, a :: levels, a' :: levels' => site_fine second B0 s n a a' /\ sites_fine second B0 sites ns levels levels'
  | _, _, _, _ => False
  end.
Definition couplings_fine (couplings : list coupling) (k : nat) : Prop :=
  forall cp, In cp couplings -> (c_A cp < k)%nat /\ (c_X cp < k)%nat /\ covered (c_theta cp) /\ covered (c_dtheta cp).
(** The quantum numbers of the sites. *)
Definition states (ns levels : list nat) : list R := map (fun x => quantum (fst x) (snd x)) (combine ns levels).
