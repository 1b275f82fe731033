(** Fixed fields at a boundary: what the fields become. *)
From Coq Require Import ZArith List Bool Reals.
From Verif Require Import Base DecompModel DecompSpec FieldModel HaloSpec.
Import ListNotations.
Open Scope R_scope.

(** Cells beyond the grid of [N] cells along axis [o]. *)
Definition past (up : bool) (o : nat) (N : Z) (X : list Z) : bool :=
  if up then (N <=? nth o X 0)%Z else (nth o X 0 <? 0)%Z.
(** Constant values there, for the components that are asked for and that the user fixes. *)
Definition fixed_past (up : bool) (o : nat) (N : Z) (on : comp -> bool) (value : comp -> option R) (F : fields) : fields := fun c X =>
  match value c with
  | Some v => if on c && past up o N X then v else F c X
  | None => F c X
  end.
(** The subdomain touches the boundary. *)
Definition touches (up : bool) (o : nat) (N : Z) (d : subdomain) : bool :=
  if up then (nth o (sub_offset_ncells d) 0 + nth o (sub_ncells d) 0 =? N)%Z else (nth o (sub_offset_ncells d) 0 =? 0)%Z.
