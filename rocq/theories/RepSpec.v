(** Specification for the report of a step. *)
From Coq Require Import ZArith List Reals.
Import ListNotations.
Open Scope R_scope.

(** Microseconds in a microsecond, a millisecond, a second, a minute, an hour. *)
Definition micros : list R := [1; 1000; 1000 * 1000; 60 * (1000 * 1000); 60 * (60 * (1000 * 1000))].
Definition micros_in (u : nat) : R := nth u micros 0.
(** [a] of unit [u] and [b] of unit [v] is [t], cut to whole numbers of the smaller unit, written in the usual way:
    the larger unit is the largest that is not longer than [t], and the smaller the next one. *)
Definition reads (t : R) (a : Z) (u : nat) (b : Z) (v : nat) : Prop :=
  (u < 5)%nat /\ v = pred u
  /\ IZR a * micros_in u + IZR b * micros_in v <= t < IZR a * micros_in u + IZR (b + 1) * micros_in v
  /\ (0 <= a)%Z /\ (0 <= b)%Z /\ (IZR b * micros_in v < micros_in u)
  /\ (u <> 0%nat -> 1 <= IZR a) /\ ((u < 4)%nat -> IZR a * micros_in u < micros_in (S u)).
(** A measure of imbalance: nothing for equal shares, the same in all units. *)
Definition balanced_is_zero (f : list R -> option Z) : Prop := forall x n, 0 < x -> (0 < n)%nat -> f (repeat x n) = Some 0%Z.
Definition unit_free (f : list R -> option Z) : Prop := forall k l, 0 < k -> f (map (Rmult k) l) = f l.
