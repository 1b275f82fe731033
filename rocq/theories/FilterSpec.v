(** The filter a user expects, and what the three-dimensional kernel computes. *)
From Coq Require Import ZArith List Reals.
From Verif Require Import Base InterpSpec HaloSpec FieldModel StepModel StepSpec EnergySpec.
Import ListNotations.
Open Scope R_scope.

(** One-dimensional filter along axis [a], and the product over all axes; along an axis the grid
    does not have, nothing changes. *)
Definition smooth (a : nat) (F : list Z -> R) (x : list Z) : R :=
  / 4 * F (shift a (-1) x) + / 2 * F x + / 4 * F (shift a 1 x).
Definition product_filter (F : list Z -> R) : list Z -> R := smooth 0 (smooth 1 (smooth 2 F)).

(** In three dimensions the kernel reads the neighbours along axis 2 instead of two of the
    diagonal neighbours (digital_filter.hpp, the group with weight 1/32). *)
Definition misplaced (F : list Z -> R) (x : list Z) : R :=
  / 32 * (F (shift 2 (-1) x) + F (shift 2 1 x) - F (shift 1 (-1) (shift 2 1 x)) - F (shift 1 1 (shift 2 (-1) x))).
Definition coded_filter (F : list Z -> R) (x : list Z) : R :=
  product_filter F x + if Nat.eqb (length x) 3 then misplaced F x else 0.

Fixpoint passes (n : nat) (F : list Z -> R) : list Z -> R :=
  match n with O => F | S n' => passes n' (coded_filter F) end.
Fixpoint product_passes (n : nat) (F : list Z -> R) : list Z -> R :=
  match n with O => F | S n' => product_passes n' (product_filter F) end.

(** Divergence of a vector field given on faces. *)
Definition divergence (V : nat -> list Z -> R) (x : list Z) : R := bwd 0 (V 0%nat) x + bwd 1 (V 1%nat) x + bwd 2 (V 2%nat) x.
