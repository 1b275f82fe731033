(** Charge densities and admissible moves. *)
From Coq Require Import ZArith List Reals.
From Verif Require Import FieldModel FieldSpec ShapeSpec DepositModel.
Import ListNotations.
Open Scope R_scope.

(** Positions before and after the move. *)
Definition now (m : mv) : R := IZR (ci m) + cdx m.
Definition before (m : mv) : R := IZR (pi m) + pdx m.

(** Weight of a particle at [x] on node [k]: product of splines. *)
Fixpoint weight (o : nat) (x : list R) (k : list Z) : R :=
  match x, k with
  | a :: x', b :: k' => bspline o (a - IZR b) * weight o x' k'
  | _, _ => 1
  end.

(** Charge on the node with array index [k] (the array has [g] ghost cells in front). *)
Fixpoint rho (o : nat) (g : Z) (pos : mv -> R) (ps : list prtl) (k : list Z) : R :=
  match ps with
  | [] => 0
  | p :: ps' => (if dead p then 0 else qw p * weight o (map pos (mvs p)) (map (fun a => (a - g)%Z) k))
                + rho o g pos ps' k
  end.

(** Offsets are in their cell and the move leads to the same or a neighbouring cell. *)
Definition valid_move (m : mv) : Prop :=
  0 <= cdx m <= 1 /\ 0 <= pdx m <= 1 /\ (-1 <= ci m - pi m <= 1)%Z.

(** The particle moves by less than one cell. *)
Definition short_move (m : mv) : Prop := valid_move m /\ Rabs (now m - before m) < 1.

(** The corrector missing from the 3D zig-zag scheme: the move is split at the relay point, and
    each straight piece inside one cell contributes its displacement product. *)
Definition relay (m : mv) : R :=
  if Z.eq_dec (ci m) (pi m) then (now m + before m) / 2 else IZR (Z.max (ci m) (pi m)).
Definition corner (c k : Z) : R := (if Z.eq_dec k c then 1 else 0) - (if Z.eq_dec k (c + 1) then 1 else 0).
Definition zigzag_defect (g : Z) (p : prtl) (k : list Z) : R :=
  match mvs p, k with
  | [m1; m2; m3], [k1; k2; k3] =>
      qw p / 4 *
      ((relay m1 - before m1) * (relay m2 - before m2) * (relay m3 - before m3)
         * (corner (pi m1 + g) k1 * corner (pi m2 + g) k2 * corner (pi m3 + g) k3)
       + (now m1 - relay m1) * (now m2 - relay m2) * (now m3 - relay m3)
         * (corner (ci m1 + g) k1 * corner (ci m2 + g) k2 * corner (ci m3 + g) k3))
  | _, _ => 0
  end.
Fixpoint zigzag_defects (g : Z) (ps : list prtl) (k : list Z) : R :=
  match ps with
  | [] => 0
  | p :: ps' => (if dead p then 0 else zigzag_defect g p k) + zigzag_defects g ps' k
  end.
