(** C129: which numbers of the sites and couplings the simulation is given. *)
From Coq Require Import Reals List Lra.
From Verif Require Import FreqModel.
Open Scope R_scope.

(** What is left out counts as zero. *)
Definition number (x : option R) : R := match x with Some v => v | None => 0 end.
Definition zero_tensor : tensor := {| t_zeta := Some 0; t_eta := Some 0; t_alpha := Some 0; t_beta := Some 0; t_gamma := Some 0 |}.
Definition given (t : option tensor) : tensor := match t with Some t => t | None => zero_tensor end.
Definition angles (t : tensor) : euler := (number (t_alpha t), number (t_beta t), number (t_gamma t)).
(** The site arrays hold the attributes of the site; the quadrupolar tensor is used only if the nucleus of the first channel has a spin above 1/2. *)
Theorem C129_site : forall (channel_spin : R) (p : psite), let s := pack_site channel_spin p in
  s_spin s = ps_spin p /\ s_gamma s = ps_gamma p /\ s_iso s = number (ps_shift p) /\
  s_zeta s = number (t_zeta (given (ps_shielding p))) /\ s_eta s = number (t_eta (given (ps_shielding p))) /\ s_theta s = angles (given (ps_shielding p)) /\
  (1 / 2 < channel_spin -> s_Cq s = number (t_zeta (given (ps_quad p))) /\ s_qeta s = number (t_eta (given (ps_quad p))) /\ s_qtheta s = angles (given (ps_quad p))) /\
  (channel_spin <= 1 / 2 -> s_Cq s = 0 /\ s_qeta s = 0 /\ s_qtheta s = (0, 0, 0)).
Proof.
  intros spin p. unfold pack_site. destruct (Rlt_dec (1 / 2) spin) as [L|L]; destruct (ps_shielding p) as [t|], (ps_quad p) as [q|]; cbn; repeat split; intros; try reflexivity; lra.
Qed.
Print Assumptions C129_site.
(** The coupling arrays: the two sites of the coupling in their order, J, the symmetric J tensor and the dipolar tensor. *)
Theorem C129_coupling : forall (p : pcoupling), let c := pack_coupling p in
  (c_A c, c_X c) = pc_index p /\ c_J c = number (pc_J p) /\
  c_zeta c = number (t_zeta (given (pc_Jsym p))) /\ c_eta c = number (t_eta (given (pc_Jsym p))) /\ c_theta c = angles (given (pc_Jsym p)) /\
  c_D c = number (t_zeta (given (pc_dip p))) /\ c_dtheta c = angles (given (pc_dip p)).
Proof. intros [[a b] j js dp]. unfold pack_coupling. destruct js, dp; cbn; auto 10. Qed.
Print Assumptions C129_coupling.
(** A left out tensor and a tensor of zeros are the same to the simulation. *)
Theorem C129_left_out : forall (channel_spin : R) (p : psite), pack_site channel_spin p =
  pack_site channel_spin {| ps_spin := ps_spin p; ps_gamma := ps_gamma p; ps_shift := Some (number (ps_shift p)); ps_shielding := Some (given (ps_shielding p)); ps_quad := Some (given (ps_quad p)) |}.
Proof. intros spin p. unfold pack_site. destruct (Rlt_dec (1 / 2) spin), (ps_shielding p), (ps_quad p); reflexivity. Qed.
Print Assumptions C129_left_out.
Example C129_pack_example : let q := {| t_zeta := Some 3; t_eta := Some (1 / 2); t_alpha := None; t_beta := Some 1; t_gamma := None |} in
  let p := {| ps_spin := 5 / 2; ps_gamma := 11; ps_shift := None; ps_shielding := None; ps_quad := Some q |} in
  s_Cq (pack_site (5 / 2) p) = 3 /\ s_qtheta (pack_site (5 / 2) p) = (0, 1, 0) /\ s_iso (pack_site (5 / 2) p) = 0 /\ s_Cq (pack_site (1 / 2) p) = 0 /\
  c_D (pack_coupling {| pc_index := (0, 1)%nat; pc_J := None; pc_Jsym := None; pc_dip := Some q |}) = 3 /\ c_X (pack_coupling {| pc_index := (0, 1)%nat; pc_J := None; pc_Jsym := None; pc_dip := Some q |}) = 1%nat.
Proof.
  cbv zeta. unfold pack_site. destruct (Rlt_dec (1 / 2) (5 / 2)); [|lra]. destruct (Rlt_dec (1 / 2) (1 / 2)); [lra|]. cbn. auto 10.
Qed.
