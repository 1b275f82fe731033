(** C94: number of aggregators of the parallel output. *)
From Coq Require Import ZArith List Bool Ascii String Lia.
From Verif Require Import Base BcModel AggModel AggSpec AggProofs.
Import ListNotations.
Open Scope Z_scope.

(** With equally filled nodes every rank asks for the number per node times the number of nodes. *)
Theorem C94_equal_nodes_partial :
  forall s nodes k per_node, job nodes -> Forall (fun n => n = s) nodes -> (k < List.length nodes)%nat -> 0 < per_node ->
  nodes_of nodes * per_node < 2 ^ 31 -> on_node nodes k per_node = Ok (nodes_of nodes * per_node).
Proof. exact equal_nodes. Qed.
Print Assumptions C94_equal_nodes_partial.
Example C94_equal_nodes_ex : job [4; 4; 4] /\ on_node [4; 4; 4] 1 2 = Ok 6.
Proof. split; [split; [discriminate|repeat constructor]|reflexivity]. Qed.

(** Otherwise ranks on the fullest nodes ask for at most that, on the emptiest for at least that. *)
Theorem C94_bounds :
  forall nodes k per_node local n, job nodes -> nth_error nodes k = Some local -> 0 < per_node -> on_node nodes k per_node = Ok n ->
  (Forall (fun m => m <= local) nodes -> n <= nodes_of nodes * per_node) /\
  (Forall (fun m => local <= m) nodes -> nodes_of nodes * per_node <= n).
Proof. intros nodes k per local n J E P H. exact (conj (fun F => largest nodes k per local n J E F P H) (fun F => smallest nodes k per local n J E F P H)). Qed.
Print Assumptions C94_bounds.
Example C94_bounds_ex : job [4; 4; 1] /\ on_node [4; 4; 1] 0 1 = Ok 2 /\ on_node [4; 4; 1] 2 1 = Ok 9.
Proof. split; [split; [discriminate|repeat constructor]|]. split; reflexivity. Qed.

(** Ranks of one job do not agree on the number of aggregators if a node is not full. *)
Theorem C94_ranks_agree_refuted :
  exists nodes per_node j k a b, job nodes /\ 0 < per_node /\ on_node nodes j per_node = Ok a /\ on_node nodes k per_node = Ok b /\ a <> b.
Proof. exists [2; 1], 1, 0%nat, 1%nat, 1, 3. split; [split; [discriminate|repeat constructor]|]. split; [lia|]. split; [reflexivity|]. split; [reflexivity|discriminate]. Qed.
Print Assumptions C94_ranks_agree_refuted.

(** Without a number per node the choice is left to the library, on every rank. *)
Theorem C94_left_to_the_library :
  forall nodes k per_node, (k < List.length nodes)%nat -> per_node <= 0 -> on_node nodes k per_node = Ok 0.
Proof. exact no_tuning. Qed.
Print Assumptions C94_left_to_the_library.
Example C94_left_ex : (1 < List.length [2; 1])%nat.
Proof. cbn. lia. Qed.

(** Without MPI there is one node. *)
Theorem C94_one_process :
  forall per_node, 0 < per_node < 2 ^ 31 -> forall world local, total_aggregators false world local per_node = Ok per_node.
Proof. exact one_process. Qed.
Print Assumptions C94_one_process.
Example C94_one_process_ex : 0 < 3 < 2 ^ 31.
Proof. lia. Qed.

(** The engines BPFile and BP5, in any case of letters, get the numbers; others get nothing. *)
Theorem C94_tuned :
  forall engine total shm chunk, same_word engine "bpfile" \/ same_word engine "bp5" ->
  let l := apply_tuning engine total shm chunk in
  value l "NumAggregators" = Some (Num total) /\ value l "NumSubFiles" = Some (Num total) /\
  value l "MaxShmSize" = Some (Num shm) /\ value l "BufferChunkSize" = Some (Num chunk) /\
  value l "AggregationType" = Some (Txt "TwoLevelShm") /\ value l "AsyncWrite" = Some (Txt "true").
Proof. exact tuned. Qed.
Print Assumptions C94_tuned.
Theorem C94_untuned :
  forall engine total shm chunk, ~ same_word engine "bpfile" -> ~ same_word engine "bp5" ->
  apply_tuning engine total shm chunk = [].
Proof. exact untuned. Qed.
Print Assumptions C94_untuned.
Example C94_tuned_ex : same_word "BPFile" "bpfile" /\ ~ same_word "hdf5" "bpfile" /\ ~ same_word "hdf5" "bp5".
Proof.
  split; [|split].
  - apply lower_word; reflexivity.
  - rewrite <- lower_word by reflexivity. discriminate.
  - rewrite <- lower_word by reflexivity. discriminate.
Qed.
