(** C03-C09: how Simulator.run combines spin systems and methods. *)
From Coq Require Import ZArith QArith Bool String Qcanon Lia List Permutation.
From Verif Require Import Base SimModel SimProofs SimExamples.
Import ListNotations.
Open Scope Qc_scope.

(** [cache_safe m l]: whenever two consecutive systems of [l] that contain the channel have equally many sites, they
    have the same isotopes (in order) and the same user-supplied pathways.  [cache_safe_all m l]: the same for any two
    of them.  [wf_meth m]: at least one point, and the axis reversal maps bins to bins.  (SimProofs.v) *)

(** C03, restricted to cache-safe lists.  Missing: arbitrary lists, for which it is false (next theorem). *)
Theorem C03_jobs_independent_partial :
  forall (P D : Type) (cpu : Z) (m : meth P D) (l : list (spin_sys P D)) (n1 n2 : nat),
  wf_meth m -> cache_safe m l -> (1 <= n1)%nat -> (1 <= n2)%nat ->
  run_sum cpu m l (Z.of_nat n1) = run_sum cpu m l (Z.of_nat n2).
Proof. exact run_sum_jobs_indep. Qed.
Print Assumptions C03_jobs_independent_partial.

(** C03 fails for a 13C-1H system followed by a 1H-13C system: one job and two jobs give different spectra. *)
Theorem C03_jobs_independent_refuted :
  exists m (l : list (spin_sys (list PathwayModel.transition) (list nat))) n1 n2, wf_meth m /\ (1 <= n1)%nat /\ (1 <= n2)%nat /\
  run_sum 4 m l (Z.of_nat n1) <> run_sum 4 m l (Z.of_nat n2).
Proof.
  exists (ex_method false), [CH; HC], 1%nat, 2%nat. repeat split; try lia; try apply ex_wf.
  intros E. apply (f_equal show) in E. vm_compute in E. discriminate.
Qed.
Print Assumptions C03_jobs_independent_refuted.

Example C03_example : wf_meth (ex_method false) /\ cache_safe (ex_method false) [CH; H1; CH] /\
  show (run_sum 4 (ex_method false) [CH; H1; CH] 1) = Some [0; 4; 0; 1]%Q /\
  show (run_sum 4 (ex_method false) [CH; H1; CH] 2) = Some [0; 4; 0; 1]%Q.
Proof. split; [apply ex_wf|split; [apply cache_safe_all_safe, ex_safe|split; vm_compute; reflexivity]]. Qed.

(** C04, restricted to cache-safe lists: the whole run equals the sum of the single runs, or raises the exception of
    the first single run that raises. *)
Theorem C04_additive_partial :
  forall (P D : Type) (m : meth P D) (l : list (spin_sys P D)), wf_meth m -> cache_safe m l ->
  one_d_sum m l = let* vs := mapM (fun s => one_d_sum m [s]) l in Ok (vsum (npts m) vs).
Proof. exact one_d_sum_additive. Qed.
Print Assumptions C04_additive_partial.

(** C04 fails in general. *)
Theorem C04_additive_refuted :
  exists m (s t : spin_sys (list PathwayModel.transition) (list nat)) v1 v2 v, wf_meth m /\
  one_d_sum m [s] = Ok v1 /\ one_d_sum m [t] = Ok v2 /\ one_d_sum m [s; t] = Ok v /\ v <> vadd v1 v2.
Proof.
  exists (ex_method false), CH, HC. do 3 eexists.
  split; [apply ex_wf|]. split; [vm_compute; reflexivity|]. split; [vm_compute; reflexivity|]. split; [vm_compute; reflexivity|].
  intros E. apply (f_equal (map this)) in E. vm_compute in E. discriminate.
Qed.
Print Assumptions C04_additive_refuted.

Example C04_example :
  show (one_d_sum (ex_method false) [CH; H1; CH]) = Some [0; 4; 0; 1]%Q /\
  show (one_d_sum (ex_method false) [CH]) = Some [0; 2; 0; 0]%Q /\ show (one_d_sum (ex_method false) [H1]) = Some [0; 0; 0; 1]%Q.
Proof. repeat split; vm_compute; reflexivity. Qed.

(** C05, restricted to cache-safe lists. *)
Theorem C05_order_independent_partial :
  forall (P D : Type) (m : meth P D) (l l' : list (spin_sys P D)) v, wf_meth m -> cache_safe_all m l -> Permutation l l' ->
  one_d_sum m l = Ok v -> one_d_sum m l' = Ok v.
Proof. exact one_d_sum_perm. Qed.
Print Assumptions C05_order_independent_partial.

(** C05 fails in general: swapping two systems changes the spectrum. *)
Theorem C05_order_independent_refuted :
  exists m (s t : spin_sys (list PathwayModel.transition) (list nat)) v v', wf_meth m /\
  one_d_sum m [s; t] = Ok v /\ one_d_sum m [t; s] = Ok v' /\ v <> v'.
Proof.
  exists (ex_method false), CH, HC. do 2 eexists.
  split; [apply ex_wf|]. split; [vm_compute; reflexivity|]. split; [vm_compute; reflexivity|].
  intros E. apply (f_equal (map this)) in E. vm_compute in E. discriminate.
Qed.
Print Assumptions C05_order_independent_refuted.

Example C05_example : cache_safe_all (ex_method true) [CH; H1; CH] /\
  show (one_d_sum (ex_method true) [CH; H1; CH]) = Some [0; 1; 0; 4]%Q /\
  show (one_d_sum (ex_method true) [H1; CH; CH]) = Some [0; 1; 0; 4]%Q.
Proof. split; [apply ex_safe|split; vm_compute; reflexivity]. Qed.

(** C06.  Multiplying every abundance by c multiplies the spectrum by c (any list). *)
Theorem C06_abundance_scaling :
  forall (P D : Type) (m : meth P D) (c : Qc) (l : list (spin_sys P D)),
  one_d_sum m (map (scale_abundance c) l) = let* v := one_d_sum m l in Ok (map (fun x => c * x) v).
Proof. exact one_d_sum_scale. Qed.
Print Assumptions C06_abundance_scaling.

(** C06.  A system of abundance zero alone gives the zero spectrum ... *)
Theorem C06_zero_abundance_alone :
  forall (P D : Type) (m : meth P D) (s : spin_sys P D) v, wf_meth m -> ss_abundance s = 0 ->
  one_d_sum m [s] = Ok v -> v = vzero (npts m).
Proof. exact one_d_sum_zero_abundance. Qed.
Print Assumptions C06_zero_abundance_alone.

(** ... and can be dropped from a cache-safe list.  Missing: arbitrary lists (false, next theorem). *)
Theorem C06_zero_abundance_dropped_partial :
  forall (P D : Type) (m : meth P D) l1 (s : spin_sys P D) l2 v, wf_meth m -> cache_safe_all m (l1 ++ s :: l2) ->
  ss_abundance s = 0 -> one_d_sum m (l1 ++ s :: l2) = Ok v -> one_d_sum m (l1 ++ l2) = Ok v.
Proof. exact one_d_sum_drop_zero. Qed.
Print Assumptions C06_zero_abundance_dropped_partial.

Theorem C06_zero_abundance_dropped_refuted :
  exists m (s t : spin_sys (list PathwayModel.transition) (list nat)) v v', wf_meth m /\ ss_abundance s = 0 /\
  one_d_sum m [s; t] = Ok v /\ one_d_sum m [t] = Ok v' /\ v <> v'.
Proof.
  exists (ex_method false), (scale_abundance 0 CH), HC. do 2 eexists.
  split; [apply ex_wf|]. split; [apply Qcmult_0_l|]. split; [vm_compute; reflexivity|]. split; [vm_compute; reflexivity|].
  intros E. apply (f_equal (map this)) in E. vm_compute in E. discriminate.
Qed.
Print Assumptions C06_zero_abundance_dropped_refuted.

Example C06_example :
  show (one_d_sum (ex_method false) (map (scale_abundance (Q2Qc (3#2))) [CH; H1])) = Some [0; 3; 0; 3#2]%Q.
Proof. vm_compute; reflexivity. Qed.

(** C07.  Two lists with the same subsequence of systems that contain the channel give the same result. *)
Theorem C07_inert_systems :
  forall (P D : Type) (m : meth P D) (l l' : list (spin_sys P D)),
  filter (fun s => existsb (String.eqb (channel m)) (ss_isotopes s)) l =
  filter (fun s => existsb (String.eqb (channel m)) (ss_isotopes s)) l' ->
  one_d_sum m l = one_d_sum m l'.
Proof. exact one_d_sum_inert. Qed.
Print Assumptions C07_inert_systems.

Example C07_example : show (one_d_sum (ex_method false) [C1; CH; C1; C1; H1]) = Some [0; 2; 0; 1]%Q
  /\ show (one_d_sum (ex_method false) [CH; H1]) = Some [0; 2; 0; 1]%Q.
Proof. split; vm_compute; reflexivity. Qed.

(** C08: entry i is the spectrum of system i alone, or empty when it lacks the channel; for any number of jobs.
    Missing: lists that are not cache safe, more jobs than systems when a system lacks the channel, and a negative
    gyromagnetic ratio when a system lacks the channel; see the refutations. *)
Theorem C08_decomposed_entries_partial :
  forall (P D : Type) (cpu : Z) (m : meth P D) (l : list (spin_sys P D)) (n_jobs : nat),
  wf_meth m -> cache_safe m l -> l <> [] -> (1 <= n_jobs)%nat ->
  (gamma_negative m = true -> forall s, In s l -> has_channel m s = true) ->
  ((n_jobs <= List.length l)%nat \/ forall s, In s l -> has_channel m s = true) ->
  run_dec cpu m l (Z.of_nat n_jobs) =
  mapM (fun s => if existsb (String.eqb (channel m)) (ss_isotopes s) then one_d_sum m [s] else Ok []) l.
Proof. exact run_dec_any_jobs. Qed.
Print Assumptions C08_decomposed_entries_partial.

(** C08: the non-empty entries add up to the summed spectrum. *)
Theorem C08_decomposed_sum_partial :
  forall (P D : Type) (m : meth P D) (l : list (spin_sys P D)) es, wf_meth m -> cache_safe m l ->
  mapM (fun s => if existsb (String.eqb (channel m)) (ss_isotopes s) then one_d_sum m [s] else Ok []) l = Ok es ->
  one_d_sum m l = Ok (vsum (npts m) (filter (fun e => match e with [] => false | _ => true end) es)).
Proof. exact dec_sum. Qed.
Print Assumptions C08_decomposed_sum_partial.

(** C08 fails when a system lacks the channel and either gamma is negative or there are more jobs than systems,
    although the summed run succeeds. *)
Theorem C08_decomposed_refuted :
  exists (l : list (spin_sys (list PathwayModel.transition) (list nat))),
  (exists m v, wf_meth m /\ gamma_negative m = true /\ run_sum 4 m l 1 = Ok v /\ run_dec 4 m l 1 = Err ValueError) /\
  (exists m v, wf_meth m /\ gamma_negative m = false /\ run_sum 4 m l 3 = Ok v /\ run_dec 4 m l 3 = Err ValueError).
Proof.
  exists [CH; C1]. split.
  - exists (ex_method true). eexists. split; [apply ex_wf|]. split; [reflexivity|]. split; vm_compute; reflexivity.
  - exists (ex_method false). eexists. split; [apply ex_wf|]. split; [reflexivity|]. split; vm_compute; reflexivity.
Qed.
Print Assumptions C08_decomposed_refuted.

(** C08: without any spin system the decomposed result is not empty: it has one entry. *)
Theorem C08_decomposed_empty_refuted :
  forall (P D : Type) (cpu : Z) (m : meth P D), wf_meth m ->
  exists e, run_dec cpu m [] 1 = Ok [e].
Proof. exact run_dec_empty. Qed.
Print Assumptions C08_decomposed_empty_refuted.

Example C08_example : show_list (run_dec 4 (ex_method false) [CH; C1; H1] 2) = Some [[0; 2; 0; 0]; []; [0; 0; 0; 1]]%Q
  /\ show (run_sum 4 (ex_method false) [CH; C1; H1] 2) = Some [0; 2; 0; 1]%Q.
Proof. split; vm_compute; reflexivity. Qed.

(** C09.  A successful run keeps the number and order of the methods; a method whose index is listed gets the
    simulation of its own input (and its origin offset); any other method is untouched. *)
Theorem C09_run_frame :
  forall (I S : Type) (simulate : I -> pyres S) (origin : I -> Qc) (ms ms' : list (method_obj I S)) (idx : list Z),
  run_methods simulate origin ms (Some idx) = Ok ms' ->
  List.length ms' = List.length ms /\
  forall k m, nth_error ms k = Some m ->
    ((exists i, In i idx /\ denotes (List.length ms) i k) ->
       exists s, simulate (m_input m) = Ok s /\
       nth_error ms' k = Some {| m_input := m_input m; m_origin := origin (m_input m); m_simulation := Some s |}) /\
    (~ (exists i, In i idx /\ denotes (List.length ms) i k) -> nth_error ms' k = Some m).
Proof. exact (fun I S sim org ms ms' idx => run_methods_spec I S sim org ms idx ms'). Qed.
Print Assumptions C09_run_frame.

(** C09.  Running the same selection (or all methods) twice is running it once. *)
Theorem C09_run_idempotent :
  forall (I S : Type) (simulate : I -> pyres S) (origin : I -> Qc) (ms ms' : list (method_obj I S)) (idx : option (list Z)),
  run_methods simulate origin ms idx = Ok ms' -> run_methods simulate origin ms' idx = Ok ms'.
Proof. exact (fun I S sim org ms ms' idx => run_methods_idem I S sim org ms idx ms'). Qed.
Print Assumptions C09_run_idempotent.

(** C09.  With no selection every method is simulated. *)
Theorem C09_run_all :
  forall (I S : Type) (simulate : I -> pyres S) (origin : I -> Qc) (ms ms' : list (method_obj I S)),
  run_methods simulate origin ms None = Ok ms' ->
  List.length ms' = List.length ms /\
  forall k m, nth_error ms k = Some m -> exists s, simulate (m_input m) = Ok s /\
    nth_error ms' k = Some {| m_input := m_input m; m_origin := origin (m_input m); m_simulation := Some s |}.
Proof. exact run_methods_all. Qed.
Print Assumptions C09_run_all.

Example C09_example :
  run_methods (fun i : nat => Ok (i * i)%nat) (fun _ => 0)
    [{| m_input := 2%nat; m_origin := 0; m_simulation := None |}; {| m_input := 3%nat; m_origin := 0; m_simulation := None |}] (Some [-1]%Z)
  = Ok [{| m_input := 2%nat; m_origin := 0; m_simulation := None |}; {| m_input := 3%nat; m_origin := 0; m_simulation := Some 9%nat |}].
Proof. reflexivity. Qed.

(** C59.  The spectrum of one system holding the channel: bin k is the sum over its pathways w (the user's, if given) of the
    core contribution, times the abundance over the normalisation; the bins are permuted by [flip] for a negative
    gyromagnetic ratio.  Without a pathway ValueError is raised. *)
Theorem C59_one_system :
  forall (P D : Type) (m : meth P D) (s : spin_sys P D) (w : list P), wf_meth m -> In (channel m) (ss_isotopes s) ->
  match ss_pathways s with Some u => Ok u | None => get_pathways m (ss_isotopes s) end = Ok w ->
  one_d_sum m [s] =
    if (0 <? List.length w)%nat then
      Ok (map (fun k => qcsum (map (fun p => core m (ss_isotopes s) (ss_data s) p (if gamma_negative m then flip m k else k)) w)
                        * ss_abundance s / norm m) (seq 0 (npts m)))
    else Err ValueError.
Proof. exact one_system_formula. Qed.
Print Assumptions C59_one_system.

Example C59_example : show (one_d_sum (ex_method true) [CH]) = Some [0; 0; 0; 2]%Q /\ In (channel (ex_method true)) (ss_isotopes CH).
Proof. split; [vm_compute; reflexivity|simpl; auto]. Qed.
