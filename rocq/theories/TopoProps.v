(** Properties C04, C05 and C06. *)
From Coq Require Import ZArith List.
From Verif Require Import Base DecompModel DecompSpec DirsModel DirsSpec TopoModel TopoSpec
  TopoProofs TopoTop MpiModel.
Import ListNotations.
Open Scope Z_scope.

(** C04, field conditions: on the global boundary a face carries the user's condition,
    except that a periodic boundary shared by several subdomains is synchronised; every
    other face is synchronised. *)
Theorem C04_field_condition_of_a_face :
  forall ns gbc o dir k s,
  length gbc = length ns -> in_box o ns -> axis_aligned (length ns) dir k s ->
  Forall (fun b => fst b <> F_SYNC /\ snd b <> F_SYNC) gbc ->
  let bc := flds_bc_in ns gbc o dir in
  let user := user_bc F_INVALID gbc k s in
  (on_global_boundary ns o k s ->
     (user <> F_PERIODIC -> bc = user) /\
     (user = F_PERIODIC -> nth k ns 0 = 1 -> bc = F_PERIODIC) /\
     (user = F_PERIODIC -> 1 < nth k ns 0 -> bc = F_SYNC)) /\
  (~ on_global_boundary ns o k s -> bc = F_SYNC).
Proof. exact (face_condition flds_bc_eq_dec F_INVALID F_PERIODIC F_SYNC). Qed.
Print Assumptions C04_field_condition_of_a_face.

(** C04, particle conditions. *)
Theorem C04_particle_condition_of_a_face :
  forall ns gbc o dir k s,
  length gbc = length ns -> in_box o ns -> axis_aligned (length ns) dir k s ->
  Forall (fun b => fst b <> P_SYNC /\ snd b <> P_SYNC) gbc ->
  let bc := prtl_bc_in ns gbc o dir in
  let user := user_bc P_INVALID gbc k s in
  (on_global_boundary ns o k s ->
     (user <> P_PERIODIC -> bc = user) /\
     (user = P_PERIODIC -> nth k ns 0 = 1 -> bc = P_PERIODIC) /\
     (user = P_PERIODIC -> 1 < nth k ns 0 -> bc = P_SYNC)) /\
  (~ on_global_boundary ns o k s -> bc = P_SYNC).
Proof. exact (face_condition prtl_bc_eq_dec P_INVALID P_PERIODIC P_SYNC). Qed.
Print Assumptions C04_particle_condition_of_a_face.

Example C04_case :
  let gbc := [(F_PERIODIC, F_PERIODIC); (F_CONDUCTOR, F_MATCH)] in
  flds_bc_in [3; 2] gbc [2; 1] [1; 0] = F_SYNC /\
  flds_bc_in [1; 2] gbc [0; 1] [1; 0] = F_PERIODIC /\
  flds_bc_in [3; 2] gbc [2; 1] [0; 1] = F_MATCH /\
  flds_bc_in [3; 2] gbc [2; 1] [0; -1] = F_SYNC.
Proof. vm_compute. auto. Qed.

(** C05: with paired periodicity no partner search fails, and [o] sends to [b] in a
    direction exactly when [b] expects a message from [o] for that direction. *)
Theorem C05_every_send_has_its_receive :
  forall ls gbc, length gbc = length ls -> paired_flds gbc ->
  forall o b dir, in_box o (counts ls) -> in_box b (counts ls) ->
  nonzero_direction (length ls) dir ->
  (exists p, partners (counts ls) gbc o dir = Ok p) /\
  (send_to (counts ls) gbc o dir = Some b <-> recv_from (counts ls) gbc b dir = Some o).
Proof. exact partners_match. Qed.
Print Assumptions C05_every_send_has_its_receive.

(** C05: sender and receiver agree on the extent of the message in every dimension, for ghost
    exchange and for additive synchronisation, for any ghost width [g]. *)
Theorem C05_message_extents_agree :
  forall ls gbc g da db dir,
  length gbc = length ls -> paired_flds gbc -> nonzero_direction (length ls) dir ->
  let doms := create_domains (prodZ (counts ls)) ls in
  In da doms -> In db doms ->
  send_to (counts ls) gbc (sub_offset_ndomains da) dir = Some (sub_offset_ndomains db) ->
  extents (send_slice g) (sub_ncells da) dir = extents (recv_slice g) (sub_ncells db) dir /\
  extents (send_slice_sync g) (sub_ncells da) dir =
  extents (recv_slice_sync g) (sub_ncells db) dir.
Proof. exact message_extents. Qed.
Print Assumptions C05_message_extents_agree.

(** C05: an exchange over any list of directions cannot hang, however MPI buffers its
    messages ([eager] is arbitrary): executions are bounded in length; as long as some
    rank has not finished, some event is possible; at the end no message is left over;
    and every message is received in the round in which it was sent. *)
Theorem C05_no_exchange_can_hang :
  forall ls gbc, length gbc = length ls -> paired_flds gbc ->
  forall prog, Forall (nonzero_direction (length ls)) prog ->
  forall eager es s,
  let dst := exch_dst (counts ls) gbc prog in
  let src := exch_src (counts ls) gbc prog in
  let ranks := positions ls in
  let K := length prog in
  steps (list_eq_dec Z.eq_dec) ranks K dst src eager init es s ->
  (length es <= 4 * K * length ranks)%nat /\
  (~ finished ranks K s ->
     exists e s', step (list_eq_dec Z.eq_dec) ranks K dst src eager s e s') /\
  (finished ranks K s -> forall a b, In a ranks -> In b ranks -> chan s a b = []) /\
  (forall a b m k, In (Deliver a b m k) es ->
     m = k /\ dst a k = Some b /\ src b k = Some a).
Proof. exact no_deadlock. Qed.
Print Assumptions C05_no_exchange_can_hang.

Example C05_case :
  let ls := [[11; 11; 10]; [9; 8]] in
  let gbc := [(F_PERIODIC, F_PERIODIC); (F_CONDUCTOR, F_MATCH)] in
  length gbc = length ls /\ paired_flds gbc /\
  Forall (nonzero_direction (length ls)) (all_dirs 2) /\
  send_to (counts ls) gbc [2; 0] [1; 0] = Some [0; 0] /\
  recv_from (counts ls) gbc [0; 0] [1; 0] = Some [2; 0] /\
  send_to (counts ls) gbc [2; 0] [0; -1] = None.
Proof.
  split; [reflexivity|]. split; [repeat constructor; cbn; intuition discriminate|].
  split; [|vm_compute; auto].
  repeat (apply Forall_cons; [split; [split; [reflexivity|
    repeat apply Forall_cons; try apply Forall_nil; split; discriminate]|
    (exists 1; split; [vm_compute; tauto|discriminate]) ||
    (exists (-1); split; [vm_compute; tauto|discriminate])]|]).
  apply Forall_nil.
Qed.

(** C06 through faces.  Full statement: the same for every direction with a component
    crossing a non-periodic boundary, including edges and corners; false, see below. *)
Theorem C06_no_wrap_through_a_face_partial :
  forall ls gbc o dir k s,
  length gbc = length ls -> paired_flds gbc -> in_box o (counts ls) ->
  axis_aligned (length ls) dir k s -> on_global_boundary (counts ls) o k s ->
  user_bc F_INVALID gbc k s <> F_PERIODIC ->
  send_to (counts ls) gbc o dir = None /\ recv_from (counts ls) gbc o (opp_dir dir) = None.
Proof. exact no_wrap_face. Qed.
Print Assumptions C06_no_wrap_through_a_face_partial.

(** C06 fails at corners: with several subdomains along a periodic dimension, a corner
    direction that leaves the grid through a conducting boundary still has a partner, on
    the opposite side of the grid. *)
Theorem C06_corner_refuted :
  exists ls gbc o dir b k,
    length gbc = length ls /\ paired_flds gbc /\ in_box o (counts ls) /\
    nonzero_direction (length ls) dir /\ crosses (counts ls) o dir k /\
    user_bc F_INVALID gbc k (nth k dir 0) = F_CONDUCTOR /\
    send_to (counts ls) gbc o dir = Some b.
Proof. exact corner_leak. Qed.
Print Assumptions C06_corner_refuted.

Example C06_case :
  let ls := [[11; 11; 10]; [9; 8]] in
  let gbc := [(F_PERIODIC, F_PERIODIC); (F_CONDUCTOR, F_MATCH)] in
  in_box [1; 0] (counts ls) /\ on_global_boundary (counts ls) [1; 0] 1 (-1) /\
  user_bc F_INVALID gbc 1 (-1) = F_CONDUCTOR.
Proof. split; [repeat constructor; discriminate|]. split; [left; auto|reflexivity]. Qed.
