(** Output of the divergence of E: what it should be. *)
From Coq Require Import ZArith List Bool Reals.
From Verif Require Import Base FieldModel HaloSpec.
Import ListNotations.
Open Scope R_scope.

(** The neighbour of a cell one below along axis [d]. *)
Definition below (d : nat) (y : list Z) : list Z := map2 Z.sub y (map (fun j => if Nat.eqb j d then 1 else 0)%Z (seq 0 (length y))).
(** Along every axis of the grid, the component along that axis minus its neighbour below: on the
    staggered grid the centred difference at the node. *)
Definition node_divergence (F : fields) (y : list Z) : R :=
  rsum (seq 0 (length y)) (fun d => F (nth d [Ex1; Ex2; Ex3] Ex1) y - F (nth d [Ex1; Ex2; Ex3] Ex1) (below d y)).
(** The flux of E out of the cell of half spacings around a node: the component times the area of
    the face it crosses. [A d p]: area element of faces normal to [d] at position [p]. *)
Definition half_step (d : nat) (up : bool) (y : list Z) : list R :=
  map2 (fun i j => if Nat.eqb j d then if up then IZR i + / 2 else IZR i - / 2 else IZR i) y (seq 0 (length y)).
Definition node_flux (A : list R -> R) (F : fields) (y : list Z) : R :=
  rsum (seq 0 (length y)) (fun d => F (nth d [Ex1; Ex2; Ex3] Ex1) y * A (half_step d true y)
                                  - F (nth d [Ex1; Ex2; Ex3] Ex1) (below d y) * A (half_step d false y)).
(** The middle of a cell. *)
Definition middle (y : list Z) : list R := map (fun i => IZR i + / 2) y.
