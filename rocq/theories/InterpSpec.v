(** Positions of field components and allocated arrays. *)
From Coq Require Import ZArith List Reals.
From Verif Require Import FieldModel ShapeSpec InterpModel.
Import ListNotations.
Open Scope R_scope.

(** An affine function of the position: [a + b1 x1 + b2 x2 + ...]. *)
Fixpoint affine (a : R) (b : list R) (x : list R) : R :=
  match b, x with
  | b0 :: b', x0 :: x' => b0 * x0 + affine a b' x'
  | _, _ => a
  end.

(** The Yee grid: component j of the electric field sits in the middle of the cell along axis j
    and on the nodes along the others; component j of the magnetic field the other way round. *)
Definition axis_of (c : comp) : nat :=
  match c with Ex1 | Bx1 => 0 | Ex2 | Bx2 => 1 | Ex3 | Bx3 => 2 end.
Definition electric (c : comp) : bool :=
  match c with Ex1 | Ex2 | Ex3 => true | _ => false end.
Definition mid_cell (c : comp) (d : nat) : bool := Bool.eqb (electric c) (Nat.eqb d (axis_of c)).

(** Where the element with index [k] of component [c] sits. *)
Fixpoint place_from (c : comp) (d : nat) (k : list Z) : list R :=
  match k with
  | [] => []
  | i :: k' => node (mid_cell c d) i :: place_from c (S d) k'
  end.
Definition place (c : comp) (k : list Z) : list R := place_from c 0 k.

(** src/global/global.h:130-136. *)
Definition n_ghosts (o : nat) : Z := match o with O => 2%Z | _ => ((Z.of_nat o + 1) / 2 + 1)%Z end.

(** Index inside an array with [n] active cells and [g] ghost cells on both sides, per axis. *)
Definition allocated (g : Z) (ns : list Z) (x : list Z) : Prop :=
  Forall2 (fun n i => (0 <= i < n + 2 * g)%Z) ns x.

(** A coordinate (without ghost offset) inside or one cell outside a box of [n] cells; for even
    orders not in the upper half of the cell above the box. *)
Definition inside_or_next (o : nat) (n : Z) (p : pos) : Prop :=
  0 <= snd p <= 1 /\ (-1 <= fst p <= n)%Z /\
  (Nat.even o = true -> (0 < o)%nat -> fst p = n -> snd p < 1/2).
