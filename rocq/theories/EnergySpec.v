(** Energy of the fields on a periodic box of [N] cells, and other totals over the box. *)
From Coq Require Import ZArith List Reals.
From Verif Require Import Base HaloSpec FieldModel StepModel StepSpec.
Import ListNotations.
Open Scope R_scope.

(** Sum over all cells of the box. *)
Definition total (N : list Z) (f : list Z -> R) : R := rsum (box (map (fun n => (0%Z, n)) N)) f.

(** Product of two vector fields. *)
Definition inner (N : list Z) (V W : nat -> list Z -> R) : R :=
  total N (fun x => V 0%nat x * W 0%nat x + V 1%nat x * W 1%nat x + V 2%nat x * W 2%nat x).

Definition elec (F : fields) (a : nat) : list Z -> R := F (E a).
Definition magn (F : fields) (a : nat) : list Z -> R := F (B a).

(** At the end of a step E is known at time n and B half a step earlier.  [magn_after] is B
    half a step later; [magn_at] is B at the time of E. *)
Definition magn_after (l : R) (F : fields) (a : nat) (x : list Z) : R :=
  magn F a x - l * curl fwd (elec F) a x.
Definition magn_at (l : R) (F : fields) (a : nat) (x : list Z) : R :=
  magn F a x - l / 2 * curl fwd (elec F) a x.

(** Twice the energy; [l] is time step over cell size. *)
Definition energy (N : list Z) (l : R) (F : fields) : R :=
  inner N (elec F) (elec F) + inner N (magn F) (magn_after l F).

(** No tuning of the stencil, which is the default. *)
Definition plain (k : fcoef) : Prop := forall a b, delta k a = 0 /\ beta k a b = 0.

(** No currents in any step. *)
Definition vacuum (n : nat) : list (jcomp -> list Z -> R) := repeat (fun _ _ => 0) n.
