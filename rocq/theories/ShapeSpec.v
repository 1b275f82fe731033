(** What the particle shapes are supposed to be: central B-splines. *)
From Coq Require Import ZArith Reals.
Open Scope R_scope.

(** The central cardinal B-spline of order [o]: the indicator of [-1/2, 1/2) convolved with
    itself, given by its standard recursion. *)
Fixpoint bspline (o : nat) (x : R) : R :=
  match o with
  | O => if Rle_dec (-(1/2)) x then if Rlt_dec x (1/2) then 1 else 0 else 0
  | S o' => ((INR (S o) / 2 + x) * bspline o' (x + 1/2)
           + (INR (S o) / 2 - x) * bspline o' (x - 1/2)) / INR o
  end.

(** Sum of [f] over [lo], ..., [lo + n - 1]. *)
Fixpoint zsum (f : Z -> R) (lo : Z) (n : nat) : R :=
  match n with
  | O => 0
  | S n' => f lo + zsum f (lo + 1) n'
  end.

(** Position of a node along one axis: integer nodes, or mid-way between them. *)
Definition node (stag : bool) (k : Z) : R := IZR k + (if stag then 1/2 else 0).
