(** Fields at the polar axis: mirror images. *)
From Coq Require Import ZArith List Bool Reals.
From Verif Require Import Base DecompModel DecompSpec FieldModel HaloSpec InterpModel InterpSpec ShapeSpec MatchSpec.
Import ListNotations.
Open Scope R_scope.

(** Components are contravariant: passing the axis, the second changes sign; the third does so in
    physical units, but so does the sine in its scale. *)
Definition parity (c : comp) : R := match c with Ex2 | Bx2 => -1 | _ => 1 end.

(** Row of [c] opposite row [j] across the axis, which is the lower side of row [a]; the first row
    beyond the axis seen from above ([up = false]) or from below. *)
Definition mirror (c : comp) (a j : Z) : Z := if mid_cell c 1 then (2 * a - 1 - j)%Z else (2 * a - j)%Z.
Definition first_beyond (up : bool) (c : comp) (a : Z) : Z :=
  if up then (if mid_cell c 1 then a else a + 1)%Z else (a - 1)%Z.
(** Beyond the axis, on the side of the ghost cells. *)
Definition beyond (up : bool) (c : comp) (a j : Z) : bool :=
  if up then (first_beyond true c a <=? j)%Z else (j <? a)%Z.

(** The field after the boundary condition: images in the first row beyond the axis, zero on the
    axis, the first electric component as it was. *)
Definition is_ex1 (c : comp) : bool := match c with Ex1 => true | _ => false end.
Definition at_pole (up : bool) (a : Z) (on : comp -> bool) (F : fields) : fields := fun c X =>
  match X with
  | [i; j] =>
      if on c && negb (is_ex1 c) then
        if (j =? first_beyond up c a)%Z then parity c * F c [i; mirror c a j]
        else if (j =? a)%Z && negb (mid_cell c 1) then 0 else F c X
      else F c X
  | _ => F c X
  end.

(** A field continued across the axis, zero on it where the boundary condition says so. *)
Definition symmetric (a : Z) (G : fields) : Prop :=
  (forall c i j, G c [i; mirror c a j] = parity c * G c [i; j]) /\ (forall i, G Ex3 [i; a] = 0).
(** Same values in the rows not beyond the axis; on the axis only of the first electric component. *)
Definition same_inside (up : bool) (a : Z) (F G : fields) : Prop :=
  forall c i j, beyond up c a j = false -> (mid_cell c 1 = false -> c = Ex1 \/ j <> a) -> F c [i; j] = G c [i; j].

(** The subdomain touches the lower (upper) axis. *)
Definition at_edge (up : bool) (N2 : Z) (d : subdomain) : bool :=
  if up then (nth 1 (sub_offset_ncells d) 0 + nth 1 (sub_ncells d) 0 =? N2)%Z else (nth 1 (sub_offset_ncells d) 0 =? 0)%Z.
