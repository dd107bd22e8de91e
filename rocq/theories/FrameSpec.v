(** Turning the frame in which a spin system is described. *)
From Coq Require Import Reals List.
From Verif Require Import FreqModel PhysSpec PhysLevels.
Import ListNotations.
Open Scope R_scope.

(** The Euler angles th' describe the axes that th describes after one more turn of the whole frame by the Euler angles r. *)
Definition turned_by (r th th' : euler) : Prop := forall T i j, turned th' T i j = turned r (turned th T) i j.
(** The same site, the same coupling, described in the turned frame: every tensor is turned by r, nothing else changes.  The axes of a tensor that is zero do not matter. *)
Definition site_turned (r : euler) (s s' : site) : Prop :=
  s_spin s' = s_spin s /\ s_gamma s' = s_gamma s /\ s_iso s' = s_iso s /\ s_zeta s' = s_zeta s /\ s_eta s' = s_eta s /\ s_Cq s' = s_Cq s /\ s_qeta s' = s_qeta s /\
  (s_zeta s = 0 \/ turned_by r (s_theta s) (s_theta s')) /\ (s_Cq s = 0 \/ turned_by r (s_qtheta s) (s_qtheta s')).
Definition coupling_turned (r : euler) (c c' : coupling) : Prop :=
  c_A c' = c_A c /\ c_X c' = c_X c /\ c_J c' = c_J c /\ c_zeta c' = c_zeta c /\ c_eta c' = c_eta c /\ c_D c' = c_D c /\
  (c_zeta c = 0 \/ turned_by r (c_theta c) (c_theta c')) /\ (c_D c = 0 \/ turned_by r (c_dtheta c) (c_dtheta c')).
(** A spin system and the same spin system with its frame turned. *)
Definition system_turned (r : euler) (sites sites' : list site) (couplings couplings' : list coupling) : Prop :=
  Forall2 (site_turned r) sites sites' /\ Forall2 (coupling_turned r) couplings couplings'.
