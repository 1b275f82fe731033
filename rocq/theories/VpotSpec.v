(** The vector potential on the whole grid: integral of sqrt(h) B^1 along the second direction
    by the trapezoidal rule over the faces k + 1/2, from the one below the grid. *)
From Coq Require Import ZArith List Reals.
From Verif Require Import Base HaloSpec.
Import ListNotations.
Open Scope R_scope.

(** [w i k]: sqrt(h) B^1 at node i and at k + 1/2. *)
Definition potential (w : Z -> Z -> R) (i J : Z) : R :=
  rsum (zrange 0 (J + 1)) (fun k => (w i (k - 1)%Z + w i k) / 2).
