(** Vocabulary for positions and particle boundary conditions. *)
From Coq Require Import Reals ZArith List.
From Verif Require Import Base DirsSpec TopoModel VelModel PushModel.
Import ListNotations.
Open Scope R_scope.

(** Coordinate in cells, now and before the step. *)
Definition coord (c : pos) : R := IZR (ci c) + cx c.
Definition coord_prev (c : pos) : R := IZR (ci_prev c) + cx_prev c.
(** Physical coordinate on a grid of cell size [h] starting at [x0]. *)
Definition phys (h x0 : R) (c : pos) : R := x0 + h * coord c.
Definition phys_prev (h x0 : R) (c : pos) : R := x0 + h * coord_prev c.

(** Which side of the [n] active cells a position is on. *)
Definition below (c : pos) : Prop := (ci c < 0)%Z.
Definition above (n : Z) (c : pos) : Prop := (n <= ci c)%Z.
Definition inside (n : Z) (c : pos) : Prop := (0 <= ci c < n)%Z.
(** Within one cell of the active region, where a push of less than a cell ends. *)
Definition near (n : Z) (c : pos) : Prop := (-1 <= ci c <= n)%Z.

(** The condition that applies to a particle outside dimension [k]. *)
Definition met (n : Z) (bc : prtl_bc * prtl_bc) (c : pos) (b : prtl_bc) : Prop :=
  (below c /\ b = fst bc) \/ (above n c /\ b = snd bc).
(** Images of a position. *)
Definition moved_by (s : Z) (c c' : pos) : Prop :=
  ci c' = (ci c + s)%Z /\ ci_prev c' = (ci_prev c + s)%Z /\ cx c' = cx c /\ cx_prev c' = cx_prev c.
Definition mirrored_at (x : R) (c c' : pos) : Prop :=
  coord c' = 2 * x - coord c /\ ci_prev c' = ci_prev c /\ cx_prev c' = cx_prev c.

(** Conditions under which the boundary step leaves no particle outside unless it belongs to a
    neighbouring subdomain. *)
Definition handled (k : nat) (b : prtl_bc) : Prop :=
  b = P_PERIODIC \/ b = P_ABSORB \/ b = P_ATMOSPHERE \/ b = P_REFLECT \/ (b = P_AXIS /\ k = 1%nat).

(** Fields and particles are periodic across the same faces. *)
Definition same_periodicity (f : flds_bc * flds_bc) (p : prtl_bc * prtl_bc) : Prop :=
  (fst f = F_PERIODIC <-> fst p = P_PERIODIC) /\ (snd f = F_PERIODIC <-> snd p = P_PERIODIC).

(** A rounding: monotone, exact on small integers. *)
Definition rounding (rnd : R -> R) : Prop :=
  (forall x y, x <= y -> rnd x <= rnd y) /\ rnd (-1) = -1 /\ rnd 0 = 0 /\ rnd 1 = 1 /\ rnd 2 = 2.
(** Exact arithmetic. *)
Definition exactly : R -> R := fun x => x.
