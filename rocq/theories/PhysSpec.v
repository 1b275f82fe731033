(** What the file should contain: every component of the requested field at the centre of the
    cell, in the basis of the output. *)
From Coq Require Import ZArith List Bool Reals.
From Verif Require Import Base FieldModel PhysModel.
Import ListNotations.
Open Scope R_scope.

(** Staggering: along axis [k] component [a] (0, 1, 2) sits half a cell above the node ([true])
    or on it.  Electric fields and currents live on edges, magnetic fields on faces. *)
Definition on_edge (a k : nat) : bool := Nat.eqb k a.
Definition on_face (a k : nat) : bool := negb (Nat.eqb k a).
Definition stagger (f : fid) (a : nat) : nat -> bool :=
  match f with FE | FD | FJ => on_edge a | FB | FH => on_face a end.

(** Value at the centre of cell [x] of an array staggered by [half]: along every axis the value
    itself if it is there already, otherwise the mean of the two neighbours. *)
Fixpoint centre (half : nat -> bool) (F : list Z -> R) (x : list Z) : R :=
  match x with
  | [] => F []
  | i :: x' =>
      let at_ j := centre (fun k => half (S k)) (fun y => F (j :: y)) x' in
      if half 0%nat then at_ i else (at_ i + at_ (i + 1)%Z) / 2
  end.

(** Which array and components hold the field: GR keeps E and H apart from D and B, in SR D and
    H are E and B. *)
Definition array_of (S : engine) (f : fid) (em aux cur : mem Z) (a : nat) : list Z -> R :=
  match f, S with
  | FJ, _ => cur (Z.of_nat a)
  | FE, GRPIC => aux (Z.of_nat a)
  | FH, GRPIC => aux (Z.of_nat a + 3)%Z
  | FE, SRPIC | FD, _ => em (Z.of_nat a)
  | FH, SRPIC | FB, _ => em (Z.of_nat a + 3)%Z
  end.
(** Basis of the output: orthonormal in SR; in GR the fields E and H that enter the curls as
    covariant, the others as contravariant vectors. *)
Definition basis_of (S : engine) (f : fid) : basis :=
  match S, f with
  | SRPIC, _ => Hat
  | GRPIC, FE | GRPIC, FH => PhysCov
  | GRPIC, _ => PhysCntrv
  end.
Definition cell_centre (z : list Z) : list R := map (fun i => IZR i + / 2) z.

(** Where an array element sits, in cells. *)
Fixpoint position (half : nat -> bool) (z : list Z) : list R :=
  match z with
  | [] => []
  | i :: z' => (IZR i + if half 0%nat then / 2 else 0) :: position (fun k => half (S k)) z'
  end.
(** Functions that are affine in every coordinate separately (affine functions, but also
    products of coordinates). *)
Definition multi_affine (f : list R -> R) : Prop :=
  forall u v a b t, f (u ++ ((1 - t) * a + t * b) :: v) = (1 - t) * f (u ++ a :: v) + t * f (u ++ b :: v).
(** The cells whose values enter the centre of [x]. *)
Definition corner (x y : list Z) : Prop := Forall2 (fun i j => j = i \/ j = i + 1)%Z x y.
