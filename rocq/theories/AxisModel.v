(** Fields at the polar axis: src/kernels/fields_bcs.hpp:825-868 (AxisBoundaries_kernel) and
    AxisFieldsIn of src/engines/srpic/fields_bcs.h:203-236 and src/engines/grpic/fields_bcs.h:178-218
    (there the same kernel runs on a second array).  Exact reals. *)
From Coq Require Import ZArith List Bool Reals.
From Verif Require Import Base FieldModel HaloSpec MatchModel.
Import ListNotations.
Open Scope R_scope.

Section Kernel.
  Variables (i_edge : Z) (tags : Z).
  (** Lines 830-834; the bits Ex1, Ex2, Ex3 (Bx1, Bx2, Bx3) together are [tag_e] ([tag_b]). *)
  Definition setE : bool := negb (Z.land tags tag_e =? 0)%Z.
  Definition setB : bool := negb (Z.land tags tag_b =? 0)%Z.

  (** Lines 839-850. *)
  Definition axis_neg (F : fields) (i1 : Z) : fields :=
    let F := if setE then
        let F := fset F Ex2 [i1; (i_edge - 1)%Z] (- F Ex2 [i1; i_edge]) in
        let F := fset F Ex3 [i1; i_edge] 0 in
        fset F Ex3 [i1; (i_edge - 1)%Z] (F Ex3 [i1; (i_edge + 1)%Z])
      else F in
    if setB then
      let F := fset F Bx1 [i1; (i_edge - 1)%Z] (F Bx1 [i1; i_edge]) in
      let F := fset F Bx2 [i1; i_edge] 0 in
      let F := fset F Bx2 [i1; (i_edge - 1)%Z] (- F Bx2 [i1; (i_edge + 1)%Z]) in
      fset F Bx3 [i1; (i_edge - 1)%Z] (F Bx3 [i1; i_edge])
    else F.
  (** Lines 851-863. *)
  Definition axis_pos (F : fields) (i1 : Z) : fields :=
    let F := if setE then
        let F := fset F Ex2 [i1; i_edge] (- F Ex2 [i1; (i_edge - 1)%Z]) in
        let F := fset F Ex3 [i1; i_edge] 0 in
        fset F Ex3 [i1; (i_edge + 1)%Z] (F Ex3 [i1; (i_edge - 1)%Z])
      else F in
    if setB then
      let F := fset F Bx1 [i1; i_edge] (F Bx1 [i1; (i_edge - 1)%Z]) in
      let F := fset F Bx2 [i1; i_edge] 0 in
      let F := fset F Bx2 [i1; (i_edge + 1)%Z] (- F Bx2 [i1; (i_edge - 1)%Z]) in
      fset F Bx3 [i1; i_edge] (F Bx3 [i1; (i_edge - 1)%Z])
    else F.
End Kernel.

(** srpic/fields_bcs.h:203-236 on a subdomain of [n] cells; [dim]: axis of the direction (from 0);
    [sign]: its sign; [cartesian]: coordinates; [order]: execution order of the loop over x1. *)
Definition axis_fields_in (g : Z) (cartesian : bool) (dim : nat) (sign : bool) (n : list Z) (tags : Z)
    (order : list Z -> list Z) (F : fields) : res fields :=
  if cartesian then Err else if negb (Nat.eqb dim 1) then Err
  else match n with
  | [n1; n2] =>
      let i2_min := g in let i2_max := (g + n2)%Z in
      let columns := order (zrange 0 (n1 + 2 * g)) in
      Ok (if sign then fold_left (axis_pos i2_max tags) columns F else fold_left (axis_neg i2_min tags) columns F)
  | _ => Err
  end.
