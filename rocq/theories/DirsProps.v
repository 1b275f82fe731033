(** Properties C09 and C10. *)
From Coq Require Import ZArith List.
From Verif Require Import Base DecompSpec DirsModel DirsSpec DirsProofs.
Import ListNotations.
Open Scope Z_scope.

(** C09: the direction table lists exactly the non-zero directions, each once. *)
Theorem C09_direction_table_is_complete :
  forall D, dimension D ->
  NoDup (all_dirs D) /\ (forall d, In d (all_dirs D) <-> nonzero_direction D d).
Proof. exact table_complete. Qed.
Print Assumptions C09_direction_table_is_complete.

(** C09: the table of unique directions holds exactly one of each opposite pair. *)
Theorem C09_unique_table_is_half :
  forall D d, dimension D -> nonzero_direction D d ->
  (In d (unique_dirs D) /\ ~ In (opp_dir d) (unique_dirs D)) \/
  (~ In d (unique_dirs D) /\ In (opp_dir d) (unique_dirs D)).
Proof. exact unique_half. Qed.
Print Assumptions C09_unique_table_is_half.

(** C09: tag encoding and decoding are inverse to each other, onto the 3^D - 1 tags after
    "dead" (0) and "alive" (1). *)
Theorem C09_tags_are_invertible :
  forall D, dimension D ->
  (forall d, nonzero_direction D d -> exists t,
     dir2tag d = Ok t /\ 2 <= t < 1 + 3 ^ Z.of_nat D /\ tag2dir D t = Ok d) /\
  (forall t, 2 <= t < 1 + 3 ^ Z.of_nat D -> exists d,
     tag2dir D t = Ok d /\ nonzero_direction D d /\ dir2tag d = Ok t).
Proof. exact tags_inverse. Qed.
Print Assumptions C09_tags_are_invertible.

(** C09: a live particle is tagged as staying when it is inside the local box; otherwise
    with the tag of the direction whose component in every dimension is the side through
    which it left; a dead particle remains dead. *)
Theorem C09_tag_is_direction_of_departure :
  forall D x n, dimension D -> length x = D -> length n = D -> Forall (fun k => 0 <= k) n ->
  retag 0 x n = Ok 0 /\
  exists t, retag 1 x n = Ok t /\
    (in_box x n -> t = 1) /\
    (~ in_box x n -> dir2tag (map2 side x n) = Ok t).
Proof. exact tag_of_departure. Qed.
Print Assumptions C09_tag_is_direction_of_departure.

Example C09_case : retag 1 [-3; 7; 40] [16; 16; 32] = dir2tag [-1; 0; 1] /\
  retag 1 [3; 7; 31] [16; 16; 32] = Ok 1 /\ In [-1; 0; 1] (all_dirs 3).
Proof. vm_compute. intuition. Qed.

(** C10, axis-aligned directions.  Full statement: the dimension accessor also rejects every
    direction that is not axis-aligned; false, see below. *)
Theorem C10_accessors_on_axis_aligned_partial :
  forall D d k s, dimension D -> axis_aligned D d k s ->
  get_sign d = Ok s /\ get_dim d = Ok (Z.of_nat k).
Proof. exact accessors_axis. Qed.
Print Assumptions C10_accessors_on_axis_aligned_partial.

(** C10, the sign accessor rejects every other direction. *)
Theorem C10_get_sign_rejects_others :
  forall D d, dimension D -> direction D d -> (forall k s, ~ axis_aligned D d k s) ->
  get_sign d = Err.
Proof. exact sign_rejects. Qed.
Print Assumptions C10_get_sign_rejects_others.

(** C10 fails for the dimension accessor on diagonals: a diagonal is accepted. *)
Theorem C10_get_dim_refuted :
  exists D d, dimension D /\ direction D d /\ (forall k s, ~ axis_aligned D d k s) /\
    get_dim d = Ok 1.
Proof. exact get_dim_witness. Qed.
Print Assumptions C10_get_dim_refuted.

(** C10: directions used as map keys never collide. *)
Theorem C10_hash_is_injective :
  forall D a b, dimension D -> direction D a -> direction D b -> hash a = hash b -> a = b.
Proof. exact hash_injective. Qed.
Print Assumptions C10_hash_is_injective.

Example C10_case : axis_aligned 3 [0; -1; 0] 1 (-1) /\ get_sign [0; -1; 0] = Ok (-1) /\
  get_dim [0; -1; 0] = Ok 1.
Proof.
  split; [|split; reflexivity].
  split; [split; [reflexivity|repeat apply Forall_cons; try apply Forall_nil; split; discriminate]|].
  split; [repeat constructor|]. split; [discriminate|].
  intros [|[|[|j]]] H; try reflexivity. do 3 apply le_S_n in H. inversion H.
Qed.
