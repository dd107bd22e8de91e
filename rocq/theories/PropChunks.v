(** C01, C02: work splitting in Simulator.run. *)
From Coq Require Import List ZArith Lia.
From Verif Require Import Base ChunksModel ChunksProofs.
Import ListNotations.
Open Scope Z_scope.

(** C01.  For every list and every positive number of jobs the call succeeds, the chunks
    concatenate to the list, there are exactly that many chunks, and an earlier chunk is as
    long as, or one longer than, a later one. *)
Theorem C01_chunks_partition :
  forall (A : Type) (cpu : Z) (items : list A) (n_jobs : nat), (1 <= n_jobs)%nat ->
  exists chunks, get_chunks cpu items (Z.of_nat n_jobs) = Ok chunks /\
    concat chunks = items /\ length chunks = n_jobs /\
    (forall i j ci cj, nth_error chunks i = Some ci -> nth_error chunks j = Some cj -> (i <= j)%nat ->
       (length cj <= length ci <= length cj + 1)%nat).
Proof. exact @get_chunks_partition. Qed.
Print Assumptions C01_chunks_partition.

Example C01_example : get_chunks 8 [10; 11; 12; 13; 14; 15; 16] 3 = Ok [[10; 11; 12]; [13; 14]; [15; 16]].
Proof. reflexivity. Qed.

(** C02.  n_jobs = -k means cpu+1-k jobs, which is positive; so C01 applies. *)
Theorem C02_negative_jobs :
  forall (A : Type) (items : list A) (cpu k : Z), 1 <= k <= cpu ->
  get_chunks cpu items (- k) = get_chunks cpu items (cpu + 1 - k) /\
  exists chunks, get_chunks cpu items (- k) = Ok chunks /\ concat chunks = items /\
                 Z.of_nat (length chunks) = cpu + 1 - k.
Proof.
  exact (fun A items cpu k H =>
    conj (get_chunks_neg items cpu k H) (get_chunks_neg_cover items cpu k H)).
Qed.
Print Assumptions C02_negative_jobs.

(** C02.  n_jobs = 0 and n_jobs = -(cpu+1) are rejected. *)
Theorem C02_zero_jobs_rejected :
  forall (A : Type) (items : list A) (cpu : Z), 0 <= cpu ->
  get_chunks cpu items 0 = Err ZeroDivisionError /\
  get_chunks cpu items (- (cpu + 1)) = Err ZeroDivisionError.
Proof. exact (fun A items cpu H => conj (get_chunks_zero items cpu) (get_chunks_zero' items cpu H)). Qed.
Print Assumptions C02_zero_jobs_rejected.

(** C02, the part that fails: below -(cpu+1) the call succeeds with no chunk at all,
    so every spin system is dropped. *)
Theorem C02_too_negative_loses_everything_refuted :
  forall (A : Type) (items : list A) (cpu n_jobs : Z), 0 <= cpu -> n_jobs < - (cpu + 1) ->
  get_chunks cpu items n_jobs = Ok [].
Proof. exact @get_chunks_too_negative. Qed.
Print Assumptions C02_too_negative_loses_everything_refuted.

Example C02_example : get_chunks 4 [1; 2; 3; 4; 5] (-2) = Ok [[1; 2]; [3; 4]; [5]]
                   /\ get_chunks 4 [1; 2; 3; 4; 5] (-6) = Ok [].
Proof. split; reflexivity. Qed.
