(** Properties: field boundaries of the general-relativistic engine (C78). *)
From Coq Require Import ZArith List Bool Reals Lra Lia Permutation.
From Verif Require Import Base DecompModel DecompSpec FieldModel FieldProofs HaloSpec InterpSpec StepSpec MatchModel MatchSpec AxisModel HorModel HorSpec HorProofs.
Import ListNotations.
Open Scope R_scope.

(** C78. The horizon condition on a subdomain of [n1] by [n2] cells with [nf] filter passes, columns
    in any order: rows up to [nf + 2 - g] become copies of row [nf + 1] in columns 0 to [n2], all else
    is unchanged; it reads outside the array if and only if that row is beyond the ghost cells. *)
Theorem C78_horizon : forall g n1 n2 nf tags on order F, (2 <= g)%Z -> (forall c, on c = true <-> asked tags c) -> (forall l, Permutation (order l) l) ->
  (n1 + g <= nf + 1 -> horizon_kernel g [n1; n2] nf tags order F = UB)%Z /\
  ((nf + 1 < n1 + g)%Z -> exists F', horizon_kernel g [n1; n2] nf tags order F = Ok F' /\
   forall c i j, (- g <= i)%Z -> active g F' c [i; j] = if (0 <=? j)%Z && (j <=? n2)%Z then opened (nf + 2 - g) (nf + 1) on (active g F) c [i; j] else active g F c [i; j]).
Proof. exact horizon_pass. Qed.
Print Assumptions C78_horizon.

Example C78_horizon_case : opened 4 5 electric (fun _ X => IZR (nth 0 X 0%Z)) Ex2 [(-1)%Z; 3%Z] = 5 /\ opened 4 5 electric (fun _ X => IZR (nth 0 X 0%Z)) Bx2 [(-1)%Z; 3%Z] = -1.
Proof. split; reflexivity. Qed.

(** C78 (shapes of order up to two): on a divided grid the calls of the subdomains at the horizon
    together open any global field, in all active cells, ghost cells along the radius and the first
    ghost column above.  Missing: the other ghost columns, which keep old values (below). *)
Theorem C78_divided_partial : forall l1 l2 nf tags on order st F, wide 2 [l1; l2] -> (0 <= nf)%Z -> (nf + 2 < nth 0 l1 0)%Z ->
  (forall c, on c = true <-> asked tags c) -> (forall p l, Permutation (order p l) l) -> agree 2 [l1; l2] st F ->
  let run d := if (nth 0 (sub_offset_ncells d) 0 =? 0)%Z then horizon_kernel 2 (sub_ncells d) nf tags (order (sub_offset_ndomains d)) (st (sub_offset_ndomains d))
               else Ok (st (sub_offset_ndomains d)) in
  (forall d, In d (domains [l1; l2]) -> exists m, run d = Ok m) /\
  forall st', (forall d, In d (domains [l1; l2]) -> run d = Ok (st' (sub_offset_ndomains d))) ->
  forall d c i j, In d (domains [l1; l2]) -> in_extended 2 [i; j] (sub_ncells d) -> (0 <= j <= nth 1 (sub_ncells d) 0)%Z ->
    st' (sub_offset_ndomains d) c (loc 2 [i; j]) = opened nf (nf + 1) on F c (map2 Z.add (sub_offset_ncells d) [i; j]).
Proof. exact divided_horizon. Qed.
Print Assumptions C78_divided_partial.

Example C78_divided_case : wide 2 [[8; 6]; [4; 5]]%Z /\ (4 + 2 < nth 0 [8; 6] 0)%Z /\ (forall c, (fun _ : comp => true) c = true <-> asked 63 c).
Proof.
  split; [split; [lia|]; repeat constructor; lia|]. split; [cbn; lia|]. intro c. split; [|reflexivity].
  intros _. destruct (electric c) eqn:E; [exists 0%Z|exists 3%Z]; rewrite E; split; [lia|reflexivity|lia|reflexivity].
Qed.

(** C78. Opening twice changes nothing more. *)
Theorem C78_idempotent : forall last src on F c i j, (last < src)%Z -> opened last src on (opened last src on F) c [i; j] = opened last src on F c [i; j].
Proof. exact opened_twice. Qed.
Print Assumptions C78_idempotent.

(** C78, refuted for shapes of order three and more (three or more ghost cells): the loop counts two
    ghost cells, so the row next to the source keeps its own values. *)
Theorem C78_wide_shapes_refuted : forall g n1 n2 nf order, (3 <= g)%Z -> (0 <= nf)%Z -> (nf + 1 < n1 + g)%Z -> (0 <= n2)%Z -> (forall l, Permutation (order l) l) ->
  exists F F', horizon_kernel g [n1; n2] nf 63 order F = Ok F' /\ forall c, active g F' c [nf; 0%Z] <> active g F' c [(nf + 1)%Z; 0%Z].
Proof. exact gap. Qed.
Print Assumptions C78_wide_shapes_refuted.

(** C78, refuted for the ghost columns between subdomains: a cell and its copy in the neighbour end
    up with different values. *)
Theorem C78_ghost_columns_refuted : forall nf order, (0 <= nf)%Z -> (forall p l, Permutation (order p l) l) ->
  let ls := [[(nf + 4)%Z]; [4%Z; 4%Z]] in
  exists st F, wide 2 ls /\ agree 2 ls st F /\
  forall st', (forall d, In d (domains ls) -> horizon_kernel 2 (sub_ncells d) nf 63 (order (sub_offset_ndomains d)) (st (sub_offset_ndomains d)) = Ok (st' (sub_offset_ndomains d))) ->
  ~ exists F', agree 2 ls st' F'.
Proof. exact stale. Qed.
Print Assumptions C78_ghost_columns_refuted.

(** C78. With a horizon inside, a matching layer outside and two axes, the main fields of a subdomain
    get the conditions of the sides it touches, in this order; matching is left to the layer's own
    test of the extent. *)
Theorem C78_main : forall (S : Type) (mk ak xk hk : dir -> S -> res S) global local absorbs s,
  global (0%nat, false) = HORIZON -> global (0%nat, true) = MATCH -> global (1%nat, false) = AXIS -> global (1%nat, true) = AXIS ->
  (forall d, local d = global d \/ local d = OTHER) ->
  let at_ d f s := match local d with OTHER => Ok s | _ => f d s end in
  field_boundaries mk ak xk hk global local absorbs false main s =
  rbind (at_ (0%nat, false) hk s) (fun s => rbind (at_ (1%nat, false) xk s) (fun s => rbind (at_ (1%nat, true) xk s) (mk (0%nat, true)))).
Proof. exact (@main_order). Qed.
Print Assumptions C78_main.

(** C78, refuted for the auxiliary fields: the engine calls for their boundary conditions, but nothing
    is done to any array, whatever the conditions of the grid. *)
Theorem C78_auxiliary_refuted : forall (S : Type) (mk ak xk hk : dir -> S -> res S) global local absorbs s,
  (forall d, local d = HORIZON -> fst d = 0%nat) -> field_boundaries mk ak xk hk global local absorbs false aux s = Ok s.
Proof. exact (@aux_nothing). Qed.
Print Assumptions C78_auxiliary_refuted.

(** C78. Currents are damped only by subdomains whose own outer radial boundary absorbs particles, and
    an absorbing inner boundary is an error. *)
Theorem C78_currents : forall (S : Type) (mk ak xk hk : dir -> S -> res S) global local absorbs s,
  ((forall d, In d orth -> absorbs d = true -> d = (0%nat, true)) ->
   field_boundaries mk ak xk hk global local absorbs false curr s = if absorbs (0%nat, true) then ak (0%nat, true) s else Ok s) /\
  (absorbs (0%nat, false) = true -> field_boundaries mk ak xk hk global local absorbs false curr s = Err).
Proof. exact (@currents). Qed.
Print Assumptions C78_currents.

(** C78. Damping in a set of cells, in any order and any radial coordinate: each current of a cell is
    multiplied by the weight of the matching layer at the cell's inner edge; it never grows nor
    changes sign, and vanishes at the edge of the grid. *)
Theorem C78_absorbed : forall g phi edge ds cells order J c y, ds <> 0 -> NoDup cells -> Permutation order (map (loc g) cells) -> (0 < length y)%nat ->
  par_for (absorb_body g phi edge ds) order J c (loc g y) =
  if in_dec cell_dec y cells then weight ds (Rabs (phi (IZR (nth 0 y 0%Z)) - edge)) * J c (loc g y) else J c (loc g y).
Proof. exact absorbed. Qed.
Print Assumptions C78_absorbed.

Theorem C78_damped : forall ds d j, 0 < ds -> 0 <= d ->
  Rabs (weight ds d * j) <= Rabs j /\ (d = 0 -> weight ds d * j = 0) /\ 0 <= j * (weight ds d * j).
Proof. exact absorbed_size. Qed.
Print Assumptions C78_damped.

Example C78_absorbed_case : (2 <> 0 :> R) /\ NoDup [[0%Z; 1%Z]; [1%Z; 1%Z]] /\
  Permutation [[3%Z; 3%Z]; [2%Z; 3%Z]] (map (loc 2) [[0%Z; 1%Z]; [1%Z; 1%Z]]).
Proof.
  split; [lra|]. split; [repeat constructor; cbn; intuition discriminate|]. cbn. apply perm_swap.
Qed.
