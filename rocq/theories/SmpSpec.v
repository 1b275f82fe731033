(** Specification for sampled velocities. *)
From Coq Require Import Reals List Bool.
From Coquelicot Require Import Hierarchy Derive RInt.
From Verif Require Import VelModel.
Import ListNotations.
Open Scope R_scope.

(** [F] is the distribution function on [a, b] of a density proportional to [f]. *)
Definition distribution_of (f : R -> R) (a b : R) (F : R -> R) : Prop :=
  F a = 0 /\ F b = 1 /\ exists c, 0 < c /\ forall x, a < x < b -> is_derive F x (c * f x).
(** [g X], for [X] uniform on [0, 1], has the distribution function [F] on [a, b]. *)
Definition samples (g : R -> R) (a b : R) (F : R -> R) : Prop :=
  forall X, 0 <= X <= 1 -> a <= g X <= b /\ forall x, a <= x <= b -> (g X <= x <-> X <= F x).

(** [chance k p v]: the product of [k] independent uniform numbers is at most [p] with probability [v]. *)
Fixpoint chance (k : nat) (p v : R) : Prop :=
  match k with
  | O => False
  | S O => v = p
  | S k' => exists f, (forall q, 0 < q <= 1 -> chance k' q (f q)) /\ is_RInt (fun x => f (Rmin 1 (p / x))) 0 1 v
  end.

(** One turn of the rejection loop: numbers redrawn, the three factors, numbers redrawn, the last one. *)
Record turn := Turn { again3 : list (R * R * R); factors : R * R * R; again1 : list R; last1 : R }.
Definition prod3 (t : R * R * R) : R := let '(a, b, c) := t in a * b * c.
Definition list3 (t : R * R * R) : list R := let '(a, b, c) := t in [a; b; c].
Definition numbers (t : turn) : list R :=
  (flat_map list3 (again3 t) ++ list3 (factors t) ++ again1 t ++ [last1 t])%list.
Definition turn_ok (eps : R) (t : turn) : Prop :=
  List.Forall (fun q => 0 <= prod3 q <= eps) (again3 t) /\ eps < prod3 (factors t) < 1
  /\ List.Forall (fun x => 0 <= x <= eps) (again1 t) /\ eps < last1 t < 1.

(** The momentum a turn proposes, and when the turn counts. *)
Definition proposes (temp : R) (t : turn) : R := temp * ln (/ prod3 (factors t)).
Definition counts (temp : R) (t : turn) : Prop :=
  let u := proposes temp t in last1 t < exp (- (sqrt (1 + u * u) - u) / temp).

(** The Juttner-Synge density of the momentum and its non-relativistic limit, not normalised. *)
Definition juttner_density (temp u : R) : R := u * u * exp (- (sqrt (1 + u * u) - 1) / temp).
Definition maxwell_density (temp u : R) : R := u * u * exp (- (u * u) / (2 * temp)).

(** One component of a cool plasma: numbers redrawn, then two numbers (Box and Muller). *)
Definition normal_draw (eps temp : R) (l : list R) (v : R) : Prop :=
  exists again x1 x2, l = (again ++ [x1; x2])%list /\ List.Forall (fun x => 0 <= x <= eps) again /\ eps < x1 < 1
    /\ v = sqrt temp * (sqrt (-2 * ln x1) * cos (2 * PI * x2)).

(** The boost along the first axis with four-velocity [u4], and reflection of the first component. *)
Definition boosted (u4 : R) (v : vec) : vec := (sqrt (1 + u4 * u4) * v1 v + u4 * u2gamma v, v2 v, v3 v).
Definition mirrored (v : vec) : vec := (- v1 v, v2 v, v3 v).
(** The density of a normal number of variance one. *)
Definition normal_density (x : R) : R := exp (- (x * x) / 2) / sqrt (2 * PI).
(** The share of the random numbers for which a velocity is mirrored before it is boosted. *)
Definition turned (u4 : R) (v : vec) : R := Rmax 0 (- (u4 / sqrt (1 + u4 * u4) * v1 v / u2gamma v)).
