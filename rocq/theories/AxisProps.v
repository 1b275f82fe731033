(** Properties: fields at the polar axis (C75). *)
From Coq Require Import ZArith List Bool Reals Lra Lia Permutation.
From Verif Require Import Base DecompModel DecompSpec FieldModel HaloSpec ShapeSpec InterpModel InterpSpec StepSpec MatchSpec AxisModel AxisSpec AxisProofs.
Import ListNotations.
Open Scope R_scope.

(** C75. The boundary condition on a subdomain at the axis, columns in any order: images in the
    first row beyond the axis, zero on the axis, all else (and all components not asked for)
    unchanged; doing it twice changes nothing more. *)
Theorem C75_boundary : forall g up n1 n2 tags on order F,
  (forall c, on c = true <-> asked tags c) -> (forall l, Permutation (order l) l) ->
  exists F', axis_fields_in g false 1 up [n1; n2] tags order F = Ok F' /\
  forall c i j, F' c [i; j] = if (0 <=? i)%Z && (i <? n1 + 2 * g)%Z then at_pole up (if up then g + n2 else g)%Z on F c [i; j] else F c [i; j].
Proof. exact pass. Qed.
Print Assumptions C75_boundary.

Theorem C75_idempotent : forall up a on F c i j, at_pole up a on (at_pole up a on F) c [i; j] = at_pole up a on F c [i; j].
Proof. exact pole_twice. Qed.
Print Assumptions C75_idempotent.

(** C75. The image row is opposite: equally far from the axis, on the other side; there the field
    has the parity of its component, and on the axis it vanishes. *)
Theorem C75_images : forall up a on F c i, on c = true -> c <> Ex1 -> let j := first_beyond up c a in
  node (mid_cell c 1) (mirror c a j) - IZR a = - (node (mid_cell c 1) j - IZR a) /\
  beyond up c a j = true /\ beyond up c a (mirror c a j) = false /\
  at_pole up a on F c [i; j] = parity c * at_pole up a on F c [i; mirror c a j] /\
  (mid_cell c 1 = false -> at_pole up a on F c [i; a] = 0).
Proof.
  intros up a on F c i O N j. exact (conj (mirror_place c a j) (conj (proj1 (mirror_first up c a)) (conj (proj1 (proj2 (mirror_first up c a))) (pole_image up a on F c i O N)))).
Qed.
Print Assumptions C75_images.

(** C75 (particle shapes of order up to one): a particle on the grid's side of the axis feels the
    field continued across the axis, whatever the ghost cells held.
    Missing: wider shapes, for which it is false (below). *)
Theorem C75_felt_partial : forall (up : bool) (a : Z) on F G (o : nat) c (p1 : pos) (i : Z) (dx : R),
  (o <= 1)%nat -> 0 <= dx <= 1 -> (if up then i < a else a <= i)%Z -> on c = true -> symmetric a G -> same_inside up a F G ->
  interp o c [p1; (i, dx)] (at_pole up a on F) = interp o c [p1; (i, dx)] G.
Proof. exact seen. Qed.
Print Assumptions C75_felt_partial.

Example C75_felt_case : symmetric 0 even_field /\ even_field Bx1 [1%Z; 1%Z] = 10 /\ even_field Bx2 [2%Z; 3%Z] = 6.
Proof. exact case_symmetric. Qed.

(** C75, refuted for quadratic shapes: no image of the first electric component is set, and a
    particle on the axis in a unit radial field feels seven eighths of it if the ghost cells are
    zero. *)
Theorem C75_wide_shapes_refuted : forall a on, exists F G, symmetric a G /\ same_inside false a F G /\
  forall i, interp 2 Ex1 [(i, 0); (a, 0)] (at_pole false a on F) = Some (7 / 8) /\ interp 2 Ex1 [(i, 0); (a, 0)] G = Some 1.
Proof. exact wide_refuted. Qed.
Print Assumptions C75_wide_shapes_refuted.

(** C75. On a divided grid the calls of the subdomains that touch the axis together make of any
    global field the one with images, in all cells of all subdomains. *)
Theorem C75_divided : forall g l1 l2, wide g [l1; l2] -> Forall (fun n => g < n)%Z l2 ->
  forall up tags on order st F,
  (forall c, on c = true <-> asked tags c) -> (forall p l, Permutation (order p l) l) -> agree g [l1; l2] st F ->
  let run d := if at_edge up (sumZ l2) d then axis_fields_in g false 1 up (sub_ncells d) tags (order (sub_offset_ndomains d)) (st (sub_offset_ndomains d))
               else Ok (st (sub_offset_ndomains d)) in
  (forall d, In d (domains [l1; l2]) -> exists m, run d = Ok m) /\
  forall st', (forall d, In d (domains [l1; l2]) -> run d = Ok (st' (sub_offset_ndomains d))) ->
    agree g [l1; l2] st' (at_pole up (if up then sumZ l2 else 0%Z) on F).
Proof. exact divided_axis. Qed.
Print Assumptions C75_divided.

Example C75_divided_case : wide 2 [[4; 5]; [3; 3; 4]]%Z /\ Forall (fun n => 2 < n)%Z [3; 3; 4]%Z.
Proof. split; [split; [lia|]|]; repeat constructor; lia. Qed.
