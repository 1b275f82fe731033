(** Vocabulary for directions and send tags. *)
From Coq Require Import ZArith List.
From Verif Require Import Base DecompSpec.
Import ListNotations.
Open Scope Z_scope.

Definition dimension (D : nat) : Prop := (1 <= D <= 3)%nat.

(** Non-zero direction in D dimensions ([direction]: entries in {-1,0,1}). *)
Definition nonzero_direction (D : nat) (d : list Z) : Prop :=
  direction D d /\ exists a, In a d /\ a <> 0.

(** Axis-aligned direction: entry [s] (non-zero) in dimension [k], zero elsewhere. *)
Definition axis_aligned (D : nat) (d : list Z) (k : nat) (s : Z) : Prop :=
  direction D d /\ (k < D)%nat /\ s <> 0 /\
  forall j, (j < D)%nat -> nth j d 0 = if Nat.eqb j k then s else 0.

(** Which side of [0, n) a cell index has left through: -1 below, 1 above, 0 inside. *)
Definition side (x n : Z) : Z := if x <? 0 then -1 else if n <=? x then 1 else 0.
