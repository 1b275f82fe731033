(** Perfect-conductor walls: src/engines/srpic/fields_bcs.h:352-480 (PerfectConductorFieldsIn),
    622-669 (FieldBoundaries) and src/kernels/fields_bcs.hpp:523-816 (ConductorBoundaries_kernel).

    The kernel has one overload per dimension of the grid, each with one branch per direction
    [o] of the wall.  The overloads differ only in the number of indices that are passed on
    unchanged, so a cell is a list and [at_o] replaces its index in direction [o]. *)
From Coq Require Import ZArith List Bool Reals.
From Verif Require Import FieldModel.
Import ListNotations.
Open Scope Z_scope.

Fixpoint at_o (o : nat) (v : Z) (x : list Z) : list Z :=
  match x, o with
  | [], _ => []
  | _ :: x', O => v :: x'
  | a :: x', S o' => a :: at_o o' v x'
  end.

Section Conductor.
  (** [e]: i_edge, [o]: direction of the wall, [P]: upper side, then BC::E and BC::B. *)
  Variables (e : Z) (o : nat) (P setE setB : bool).

  (** [Fld(i_edge, c) = ZERO]. *)
  Definition zero (c : comp) (x : list Z) (F : fields) : fields := fset F c (at_o o e x) 0%R.
  (** [Fld(i_edge - i, c) = Fld(i_edge + i - 1, c)], upper side
      [Fld(i_edge + i - 1, c) = Fld(i_edge - i, c)]. *)
  Definition copy (c : comp) (x : list Z) (F : fields) : fields :=
    let i := nth o x 0 in
    if P then fset F c (at_o o (e + i - 1) x) (F c (at_o o (e - i) x))
    else fset F c (at_o o (e - i) x) (F c (at_o o (e + i - 1) x)).
  (** [Fld(i_edge - i, c) = -Fld(i_edge + i, c)], upper side with the sides exchanged. *)
  Definition flip (c : comp) (x : list Z) (F : fields) : fields :=
    let i := nth o x 0 in
    if P then fset F c (at_o o (e + i) x) (- F c (at_o o (e - i) x))%R
    else fset F c (at_o o (e - i) x) (- F c (at_o o (e + i) x))%R.

  (** One thread: the E part, then the B part; the branches are those of the three directions. *)
  Definition wall_E (x : list Z) (F : fields) : fields :=
    if nth o x 0 =? 0 then
      match o with
      | 0%nat => zero Ex3 x (zero Ex2 x F)
      | 1%nat => zero Ex3 x (zero Ex1 x F)
      | _ => zero Ex2 x (zero Ex1 x F)
      end
    else
      match o with
      | 0%nat => flip Ex3 x (flip Ex2 x (copy Ex1 x F))
      | 1%nat => flip Ex3 x (copy Ex2 x (flip Ex1 x F))
      | _ => copy Ex3 x (flip Ex2 x (flip Ex1 x F))
      end.
  Definition wall_B (x : list Z) (F : fields) : fields :=
    if nth o x 0 =? 0 then
      match o with
      | 0%nat => zero Bx1 x F
      | 1%nat => zero Bx2 x F
      | _ => zero Bx3 x F
      end
    else
      match o with
      | 0%nat => copy Bx3 x (copy Bx2 x (flip Bx1 x F))
      | 1%nat => copy Bx3 x (flip Bx2 x (copy Bx1 x F))
      | _ => flip Bx3 x (copy Bx2 x (copy Bx1 x F))
      end.
  Definition conductor (F : fields) (x : list Z) : fields :=
    let F := if setE then wall_E x F else F in
    if setB then wall_B x F else F.
End Conductor.

(** fields_bcs.h:373-382: number of indices the kernel runs over in each direction, from 0;
    [n]: active cells, [g]: N_GHOSTS. *)
Definition wall_range (g : Z) (n : list Z) (o : nat) (P : bool) : list Z :=
  map (fun d => if Nat.eqb d o then (if P then g else g + 1) else nth d n 0 + 2 * g) (seq 0 (length n)).
(** fields_bcs.h:400-405: i_max or i_min. *)
Definition wall_edge (g : Z) (n : list Z) (o : nat) (P : bool) : Z := if P then nth o n 0 + g else g.
(** One face; [order]: the order in which the cells of the range run. *)
Definition conductor_in (g : Z) (n : list Z) (setE setB : bool) (o : nat) (P : bool) (order : list (list Z)) (F : fields) : fields :=
  par_for (conductor (wall_edge g n o P) o P setE setB) order F.
(** fields_bcs.h:622-669 for a subdomain whose other faces are periodic or interior: the faces
    in the order of dir::Directions::orth. *)
Definition conductors (g : Z) (n : list Z) (setE setB : bool) (faces : list (nat * bool * list (list Z))) (F : fields) : fields :=
  fold_left (fun F '(o, P, order) => conductor_in g n setE setB o P order F) faces F.
