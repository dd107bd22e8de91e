(** Model of [get_chunks], src/mrsimulator/simulator/__init__.py lines 659-678. *)
From Coq Require Import List ZArith Bool.
From Verif Require Import Base.
Import ListNotations.
Open Scope Z_scope.

(** Lines 671-676: the chunk boundaries.
    [chunks = [0] + [n_blocks] * n_jobs], then the first [n_left] entries after the
    leading zero are incremented, then running sums are taken in place. *)
Definition chunk_bounds (n_jobs n_blocks n_left : Z) : pyres (list Z) :=
  let chunks := 0 :: repeat n_blocks (Z.to_nat n_jobs) in
  let* chunks := for_each (zrange 0 n_left)
    (fun i c => let* v := py_index c (i + 1) in py_assign c (i + 1) (v + 1)) chunks in
  for_each (zrange 1 (n_jobs + 1))
    (fun i c => let* v := py_index c i in
                let* w := py_index c (i - 1) in py_assign c i (v + w)) chunks.

(** Lines 666-678. [cpu] is the module constant [__CPU_count__] = os.cpu_count().
    Python's [//] and [%] on ints are floor division, as Coq's [Z.div], [Z.modulo]. *)
Definition get_chunks {A} (cpu : Z) (items : list A) (n_jobs0 : Z) : pyres (list (list A)) :=
  let n_jobs := if n_jobs0 <? 0 then n_jobs0 + (cpu + 1) else n_jobs0 in
  let list_len := Z.of_nat (length items) in
  if n_jobs =? 0 then Err ZeroDivisionError else
  let n_blocks := list_len / n_jobs in
  let n_left := list_len mod n_jobs in
  let* chunks := chunk_bounds n_jobs n_blocks n_left in
  mapM (fun i => let* a := py_index chunks i in
                 let* b := py_index chunks (i + 1) in
                 Ok (py_slice items a b)) (zrange 0 n_jobs).
