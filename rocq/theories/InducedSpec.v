(** The isotropic part of the energies with the quadrupolar interaction to second order. *)
From Coq Require Import Reals List.
From Verif Require Import DftModel FreqModel PhysSpec PhysLevels AverageSpec.
Import ListNotations.
Open Scope R_scope.

(** The shift of level m of a spin I by the second order of the quadrupolar interaction, without its dependence on the orientation (Samoson 1985; for the
    central transition - (3/40) (Cq^2 / nu0) (I (I + 1) - 3/4) / (I^2 (2 I - 1)^2) (1 + eta^2 / 3)). *)
Definition induced_shift (n : nat) (nu0 Cq eta m : R) : R :=
  let I := spin n in (Cq / (2 * I * (2 * I - 1))) ^ 2 * (3 / 2 * (1 + eta ^ 2 / 3)) * (m * (3 * m ^ 2 - I * (I + 1))) / (5 * nu0).
Definition site_shift (B0 : R) (s : site) (n a : nat) : R := if Nat.ltb n 2 then 0 else induced_shift n (- (B0 * s_gamma s) * 1000000) (s_Cq s) (s_qeta s) (quantum n a).
(** Energy of a spin system whose sites and couplings have lost their anisotropies and keep the shifts. *)
Definition isotropic_energy (second : bool) (B0 : R) (sites : list site) (couplings : list coupling) (ns levels : list nat) : R :=
  system_level false B0 (map isotropic_site sites) (map isotropic_coupling couplings) [] ns levels +
  (if second then rtotal (fun x => site_shift B0 (fst x) (fst (snd x)) (snd (snd x))) (combine sites (combine ns levels)) else 0).
