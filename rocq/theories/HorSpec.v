(** Field boundaries of the general-relativistic engine: what the fields become. *)
From Coq Require Import ZArith List Bool Reals.
From Verif Require Import Base DecompModel DecompSpec FieldModel HaloSpec.
Import ListNotations.
Open Scope R_scope.

(** An open inner boundary: the rows up to [last] are copies of row [src]. *)
Definition opened (last src : Z) (on : comp -> bool) (F : fields) : fields := fun c X =>
  match X with
  | [i; j] => if on c && (i <=? last)%Z then F c [src; j] else F c X
  | _ => F c X
  end.
(** The array of a subdomain with indices counted from its first active cell. *)
Definition active (g : Z) (F : fields) : fields := fun c X => F c (loc g X).
