(** What the current filter should do at a conducting wall and at a polar axis: filter the
    currents continued across it. *)
From Coq Require Import ZArith List Bool Reals.
From Verif Require Import FieldModel WallModel FilterModel.
Import ListNotations.
Open Scope R_scope.

(** Axis along which a component points; along it the component sits half a cell above the
    node with the same index, along the other axes on the nodes. *)
Definition along (c : jcomp) : nat := match c with Jx1 => 0 | Jx2 => 1 | Jx3 => 2 end%nat.

(** Images of the currents behind a perfect conductor at node [e] of axis [d]: the component
    across the wall is even about the wall, the others are odd and vanish on it.  [up]: the
    conductor fills the side above the wall. *)
Definition beyond (up : bool) (i e : Z) : bool := if up then (e <? i)%Z else (i <? e)%Z.
Definition images (up : bool) (e : Z) (d : nat) (c : jcomp) (F : list Z -> R) (x : list Z) : R :=
  let i := nth d x 0%Z in
  if Nat.eqb (along c) d then
    if (if up then (e <=? i)%Z else (i <? e)%Z) then F (at_o d (2 * e - 1 - i)%Z x) else F x
  else if beyond up i e then - F (at_o d (2 * e - i)%Z x)
  else if (i =? e)%Z then 0 else F x.

(** Continuation across the polar axis at node [e] of axis 1 (the colatitude): the radial
    component is even; the azimuthal one is odd and vanishes on the axis; the component along
    the colatitude is odd. *)
Definition across_axis (up : bool) (e : Z) (c : jcomp) (F : list Z -> R) (x : list Z) : R :=
  let j := nth 1 x 0%Z in
  match c with
  | Jx1 => if beyond up j e then F (at_o 1 (2 * e - j)%Z x) else F x
  | Jx2 => if (if up then (e <=? j)%Z else (j <? e)%Z) then - F (at_o 1 (2 * e - 1 - j)%Z x) else F x
  | Jx3 => if beyond up j e then - F (at_o 1 (2 * e - j)%Z x) else if (j =? e)%Z then 0 else F x
  end.

(** With an axis on neither, one or both sides. *)
Definition axes_of (lo hi : Z) (a : bool * bool) (c : jcomp) (F : list Z -> R) : list Z -> R :=
  (if fst a then across_axis false lo c else (fun F => F)) ((if snd a then across_axis true hi c else (fun F => F)) F).

(** The only special boundary of a [D]-dimensional Cartesian subdomain is a conductor below
    (above) it along axis [d]. *)
Definition one_wall (up : bool) (D d : nat) (cfg : filter_cfg) : Prop :=
  fcart cfg = true /\ (1 <= D <= 3)%nat /\ (d < D)%nat /\
  fcond cfg = map (fun k => if Nat.eqb k d then (negb up, up) else (false, false)) (seq 0 D).
