(** Tuning of the parallel output: src/output/utils/tuning.cpp:16-56 (TotalAggregators,
    ApplyBp5Tuning), called from output/writer.cpp:41-49 and output/checkpoint.cpp:42.

    int has 32 bits; overflow of a product is undefined.  A job is the list of the numbers of ranks
    of its nodes (the groups of MPI_COMM_TYPE_SHARED). *)
From Coq Require Import ZArith List Bool String.
From Verif Require Import Base BcModel.
Import ListNotations.
Open Scope Z_scope.

(** tuning.cpp:16-31. *)
Definition total_aggregators (mpi : bool) (world_size local_size aggregators_per_node : Z) : res Z :=
  if aggregators_per_node <=? 0 then Ok 0
  else
    let num_nodes := if mpi then (if 0 <? local_size then world_size / local_size else 1) else 1 in
    let n := num_nodes * aggregators_per_node in
    if n <? 2 ^ 31 then Ok (Z.max 1 n) else UB.

(** The value on a rank of node [k]. *)
Definition on_node (nodes : list Z) (k : nat) (per_node : Z) : res Z :=
  match nth_error nodes k with
  | Some local => total_aggregators true (sumZ nodes) local per_node
  | None => UB
  end.

Inductive setting := Num (z : Z) | Txt (s : string).
(** tuning.cpp:33-56: the parameters set, [total]: the result of TotalAggregators. *)
Definition apply_tuning (engine : string) (total max_shm_size buffer_chunk_size : Z) : list (string * setting) :=
  let eng := to_lower engine in
  if negb (String.eqb eng "bpfile") && negb (String.eqb eng "bp5") then []
  else [("AggregationType", Txt "TwoLevelShm"); ("NumAggregators", Num total); ("NumSubFiles", Num total);
        ("BufferChunkSize", Num buffer_chunk_size); ("MaxShmSize", Num max_shm_size);
        ("AsyncOpen", Txt "true"); ("AsyncWrite", Txt "true"); ("OpenTimeoutSecs", Txt "600")]%string.
