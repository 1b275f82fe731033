(** Properties C07 and C08. *)
From Coq Require Import ZArith List Reals.
From Verif Require Import Base DecompModel DecompSpec DirsModel DirsSpec TopoModel TopoSpec TopoTop
  HaloModel HaloSpec HaloProofs SyncProofs HaloTop.
Import ListNotations.
Open Scope Z_scope.

(** C07: on a periodic grid, whatever the interleaving of the sends and receives of the
    subdomains, once every message has been received each cell of each subdomain, ghost
    cells included, holds the value of the grid cell it stands for. *)
Theorem C07_ghost_cells_hold_the_periodic_grid :
  forall (V : Type) g ls gbc (s s' : hstate V) G es,
  wide g ls -> length gbc = length ls -> all_periodic gbc -> fresh s ->
  holds g ls (fld s) G -> Forall (wf_event ls) es -> all_received ls es ->
  hexec g ls gbc s es = Some s' ->
  forall d y, In d (domains ls) -> in_extended g y (sub_ncells d) ->
    fld s' (sub_offset_ndomains d) (loc g y) = G (wrapped ls d y).
Proof. exact @periodic_exchange. Qed.
Print Assumptions C07_ghost_cells_hold_the_periodic_grid.

(** C07: hence two decompositions of the same grid agree, cell by cell. *)
Theorem C07_independent_of_the_decomposition :
  forall (V : Type) g g' ls ls' gbc gbc' (s t s' t' : hstate V) G es es',
  wide g ls -> length gbc = length ls -> all_periodic gbc -> fresh s ->
  wide g' ls' -> length gbc' = length ls' -> all_periodic gbc' -> fresh s' ->
  holds g ls (fld s) G -> Forall (wf_event ls) es -> all_received ls es ->
  holds g' ls' (fld s') G -> Forall (wf_event ls') es' -> all_received ls' es' ->
  hexec g ls gbc s es = Some t -> hexec g' ls' gbc' s' es' = Some t' ->
  forall d y d' y', In d (domains ls) -> in_extended g y (sub_ncells d) ->
    In d' (domains ls') -> in_extended g' y' (sub_ncells d') ->
    wrapped ls d y = wrapped ls' d' y' ->
    fld t (sub_offset_ndomains d) (loc g y) = fld t' (sub_offset_ndomains d') (loc g' y').
Proof. exact @exchange_independent. Qed.
Print Assumptions C07_independent_of_the_decomposition.

(** C07, any boundary conditions: active cells never change; a ghost zone that has a
    partner receives the values of the periodically continued grid, a ghost zone that has
    none keeps what it had. *)
Theorem C07_exchange_with_any_boundary_conditions :
  forall (V : Type) g ls gbc (G : list Z -> V),
  wide g ls -> length gbc = length ls -> paired_flds gbc ->
  forall s es s', fresh s -> holds g ls (fld s) G -> Forall (wf_event ls) es ->
  hexec g ls gbc s es = Some s' ->
  holds g ls (fld s') G /\
  forall d y, In d (domains ls) -> in_extended g y (sub_ncells d) -> ~ in_box y (sub_ncells d) ->
    let dir := opp_dir (zone y (sub_ncells d)) in
    let o := sub_offset_ndomains d in
    (recv_from (counts ls) gbc o dir = None -> fld s' o (loc g y) = fld s o (loc g y)) /\
    (recv_from (counts ls) gbc o dir <> None -> In (Unpack o dir) es ->
       fld s' o (loc g y) = G (wrapped ls d y)).
Proof. exact @exchange_result. Qed.
Print Assumptions C07_exchange_with_any_boundary_conditions.

(** C07: the hypotheses are not vacuous.  Any contents of the active cells are some grid, and
    the schedule in which for each direction all subdomains send and then receive completes. *)
Theorem C07_every_state_is_a_grid :
  forall (V : Type) g ls (dflt : V) F, wide g ls -> dimension (length ls) ->
  holds g ls F (glue g ls dflt F).
Proof. exact @glue_holds. Qed.
Print Assumptions C07_every_state_is_a_grid.

Theorem C07_exchange_can_complete :
  forall (V : Type) g ls gbc, length gbc = length ls -> paired_flds gbc ->
  dimension (length ls) -> forall s : hstate V,
  exists es s', hexec g ls gbc s es = Some s' /\ Forall (wf_event ls) es /\ all_received ls es.
Proof. exact @exchange_completes. Qed.
Print Assumptions C07_exchange_can_complete.

Example C07_case :
  let ls := [[3; 4]; [5]] in
  let gbc := [(F_PERIODIC, F_PERIODIC); (F_PERIODIC, F_PERIODIC)] in
  let s := {| fld := fun o x => 100 * (nth 0 x 0 + 3 * nth 0 o 0 - 2) + (nth 1 x 0 - 2);
              msg := fun _ _ => None |} in
  wide 2 ls /\ all_periodic gbc /\
  match hexec 2 ls gbc s (rounds ls (all_dirs 2)) with
  | Some s' => fld s' [0; 0] [1; 1] = 604 /\ fld s' [1; 0] [6; 8] = 1
  | None => False
  end.
Proof.
  cbv zeta. split; [|split].
  - split; [discriminate|]. repeat (apply Forall_cons || apply Forall_nil); split; (discriminate || reflexivity).
  - repeat constructor.
  - vm_compute. auto.
Qed.

(** C08: on a periodic grid every active cell ends up with the sum of all contributions
    made, by any subdomain and in ghost or active cells, to that cell of the grid. *)
Theorem C08_active_cells_collect_every_contribution :
  forall g ls gbc, wide g ls -> length gbc = length ls -> all_periodic gbc ->
  dimension (length ls) -> forall f d y, In d (domains ls) -> in_box y (sub_ncells d) ->
  synchronize g ls gbc f (length ls) (sub_offset_ndomains d) (loc g y) =
  rsum (cells g ls) (fun c => if same_cell ls (d, y) c
     then f (sub_offset_ndomains (fst c)) (loc g (snd c)) else 0%R).
Proof. exact sync_result. Qed.
Print Assumptions C08_active_cells_collect_every_contribution.

(** C08: the total over active cells afterwards is the total over all cells before. *)
Theorem C08_total_is_conserved :
  forall g ls gbc, wide g ls -> length gbc = length ls -> all_periodic gbc ->
  dimension (length ls) -> forall f,
  rsum (cells 0 ls) (fun c => synchronize g ls gbc f (length ls) (sub_offset_ndomains (fst c)) (loc g (snd c)))
  = rsum (cells g ls) (fun c => f (sub_offset_ndomains (fst c)) (loc g (snd c))).
Proof. exact sync_total. Qed.
Print Assumptions C08_total_is_conserved.

Example C08_case :
  wide 2 [[3; 4]; [5]] /\ dimension (length [[3; 4]; [5]]) /\
  length (cells 2 [[3; 4]; [5]]) = 135%nat /\ length (cells 0 [[3; 4]; [5]]) = 35%nat.
Proof.
  split; [|split; [|vm_compute; auto]].
  - split; [discriminate|]. repeat (apply Forall_cons || apply Forall_nil); split; (discriminate || reflexivity).
  - unfold dimension. simpl. auto with arith.
Qed.
