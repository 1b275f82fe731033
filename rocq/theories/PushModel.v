(** Position update and particle boundary conditions: src/kernels/pushers/sr.hpp:528-815 and
    src/kernels/pushers/context.h:124-178; reflection off a piston: src/archetypes/piston.h.

    A position along one dimension is a cell index and an offset within the cell.  Cell indices
    are unbounded integers (int in the code).  Arithmetic is exact except where a rounding [rnd]
    is given as a parameter. *)
From Coq Require Import Reals ZArith List Bool.
From Verif Require Import Base DirsModel TopoModel VelModel.
Import ListNotations.
Open Scope R_scope.

(** i1, dx1, i1_prev, dx1_prev of one particle, and the same for the other dimensions. *)
Record pos := { ci : Z; cx : R; ci_prev : Z; cx_prev : R }.
(** Cartesian four-velocity and tag. *)
Record prt := { p_pos : list pos; p_u : vec; p_tag : Z }.

Definition comp (k : nat) (u : vec) : R := match k with 0%nat => v1 u | 1%nat => v2 u | _ => v3 u end.
Definition neg_comp (k : nat) (u : vec) : vec :=
  match k with 0%nat => (- v1 u, v2 u, v3 u) | 1%nat => (v1 u, - v2 u, v3 u) | _ => (v1 u, v2 u, - v3 u) end.

(** C++ conversion of a floating point number to int: towards zero. *)
Definition trunc (x : R) : Z := if Rle_dec 0 x then Int_part x else (- Int_part (- x))%Z.
(** sr.hpp:41-50, from_Xi_to_i and from_Xi_to_i_di. *)
Definition from_Xi_to_i (X : R) : Z := (trunc (X + 1) - 1)%Z.
Definition from_Xi_to_i_di (X : R) : Z * R := (from_Xi_to_i X, X - IZR (from_Xi_to_i X)).
(** sr.hpp:52, i_di_to_Xi. *)
Definition i_di_to_Xi (i : Z) (dx : R) : R := IZR i + dx.

(** sr.hpp:547-550 (repeated at 559-562, 571-574 and in piston.h:148-151, 159-162): move the
    whole cells of an offset to the index; every result stored in a prtldx_t is rounded. *)
Definition carry (rnd : R -> R) (i : Z) (dx : R) : Z * R :=
  let i := (i + (if Rle_dec 1 dx then 1 else 0) - (if Rlt_dec dx 0 then 1 else 0))%Z in
  let dx := if Rle_dec 1 dx then rnd (dx - 1) else dx in
  let dx := if Rlt_dec dx 0 then rnd (dx + 1) else dx in
  (i, dx).

(** sr.hpp:541-550, one dimension; [del]: displacement in cells. *)
Definition push1 (rnd : R -> R) (del : R) (c : pos) : pos :=
  let '(i, dx) := carry rnd (ci c) (rnd (cx c + del)) in
  {| ci := i; cx := dx; ci_prev := ci c; cx_prev := cx c |}.

(** sr.hpp:532-538. *)
Definition dt_inv_energy (massive : bool) (dt : R) (u : vec) : R := dt / energy massive u.

(** sr.hpp:528-575, positionPush, Cartesian branch; [dxs]: cell sizes
    (minkowski.h:263-299, transform<Idx::XYZ, Idx::U> divides by the cell size). *)
Fixpoint push_from (rnd : R -> R) (massive : bool) (dt : R) (u : vec) (k : nat) (dxs : list R) (cs : list pos) : list pos :=
  match dxs, cs with
  | d :: dxs', c :: cs' =>
      push1 rnd (comp k u / d * dt_inv_energy massive dt u) c :: push_from rnd massive dt u (S k) dxs' cs'
  | _, _ => []
  end.
Definition push_cart (rnd : R -> R) (massive : bool) (dt : R) (dxs : list R) (p : prt) : prt :=
  {| p_pos := push_from rnd massive dt (p_u p) 0 dxs (p_pos p); p_u := p_u p; p_tag := p_tag p |}.

(** sr.hpp:590-622, non-Cartesian branch: [X'] is the code coordinate after the move, obtained
    by converting to Cartesian, moving along the straight line and converting back (see C42 for
    the conversions). *)
Definition move_to (X' : R) (c : pos) : pos :=
  let '(i, dx) := from_Xi_to_i_di X' in
  {| ci := i; cx := dx; ci_prev := ci c; cx_prev := cx c |}.
(** sr.hpp:624-651: the position at which a velocity is converted when it is reflected, along
    one dimension ([custom]: a custom particle update is compiled in). *)
Definition velocity_aligned (custom : bool) (c : pos) : R :=
  let X := i_di_to_Xi (ci c) (cx c) in
  let X0 := i_di_to_Xi (ci_prev c) (cx_prev c) in
  let X1 := 1 / 2 * (X + X0) in
  let X1 := if custom then X else X1 in
  1 / 2 * (X1 + X0).

(** context.h:124-178, PusherBoundaries: what is done with a condition of dimension [k]
    (0-based); only the second dimension has an axis. *)
Inductive action := Shift | Kill | Mirror | Fold | Leave.
Definition action_of (k : nat) (b : prtl_bc) : action :=
  match b with
  | P_PERIODIC => Shift
  | P_ABSORB | P_ATMOSPHERE => Kill
  | P_REFLECT => Mirror
  | P_AXIS => if Nat.eqb k 1 then Fold else Leave
  | _ => Leave
  end.

(** sr.hpp:653-684 (and 700-735, 752-777): one dimension with [n] cells; the new position,
    whether the particle dies and whether its velocity is inverted. *)
Definition bc_side (n : Z) (shift edge : Z) (a : action) (c : pos) : pos * bool * bool :=
  match a with
  | Shift => ({| ci := ci c + shift; cx := cx c; ci_prev := ci_prev c + shift; cx_prev := cx_prev c |}%Z, false, false)
  | Kill => (c, true, false)
  | Mirror => ({| ci := edge; cx := 1 - cx c; ci_prev := ci_prev c; cx_prev := cx_prev c |}, false, true)
  | Fold => ({| ci := edge; cx := 1 - cx c; ci_prev := ci_prev c; cx_prev := cx_prev c |}, false, false)
  | Leave => (c, false, false)
  end.
Definition bc_dim (k : nat) (n : Z) (lo hi : prtl_bc) (c : pos) : pos * bool * bool :=
  if (ci c <? 0)%Z then bc_side n n 0 (action_of k lo) c
  else if (n <=? ci c)%Z then bc_side n (- n) (n - 1) (action_of k hi) c
  else (c, false, false).

(** sr.hpp:653-792: dimension by dimension.  [flip k] inverts the velocity along dimension [k]:
    negates the component (Cartesian) or converts to the curvilinear basis and back. *)
Fixpoint bc_from (flip : nat -> vec -> vec) (k : nat) (ns : list Z) (bcs : list (prtl_bc * prtl_bc))
    (cs : list pos) (u : vec) (tag : Z) : list pos * vec * Z :=
  match ns, bcs, cs with
  | n :: ns', (lo, hi) :: bcs', c :: cs' =>
      let '(c', dies, inv) := bc_dim k n lo hi c in
      let tag := if dies then 0%Z else tag in
      let u := if inv then flip k u else u in
      let '(cs'', u'', tag'') := bc_from flip (S k) ns' bcs' cs' u tag in
      (c' :: cs'', u'', tag'')
  | _, _, _ => (cs, u, tag)
  end.
Definition boundary (flip : nat -> vec -> vec) (ns : list Z) (bcs : list (prtl_bc * prtl_bc)) (p : prt) : prt :=
  let '(cs, u, tag) := bc_from flip 0 ns bcs (p_pos p) (p_u p) (p_tag p) in
  {| p_pos := cs; p_u := u; p_tag := tag |}.
(** sr.hpp:793-813: with MPI the particle is then tagged for the neighbour it has left to. *)
Definition boundary_mpi (flip : nat -> vec -> vec) (ns : list Z) (bcs : list (prtl_bc * prtl_bc)) (p : prt) : res prt :=
  let q := boundary flip ns bcs p in
  rbind (retag (p_tag q) (map ci (p_pos q)) ns) (fun t =>
    Ok {| p_pos := p_pos q; p_u := p_u q; p_tag := t |}).

(** src/framework/domain/grid.cpp:188-212, Grid<D>::prtl_bc(), passed to the pusher in
    src/engines/srpic/particle_pusher.h:137: conditions of the faces of the subdomain at [o]. *)
Definition axis_dir (D k : nat) (s : Z) : list Z := repeat 0%Z k ++ [s] ++ repeat 0%Z (D - S k).
Definition local_bcs (ns : list Z) (gbc : list (prtl_bc * prtl_bc)) (o : list Z) : list (prtl_bc * prtl_bc) :=
  let D := length ns in
  map (fun k => (prtl_bc_in ns gbc o (axis_dir D k (-1)), prtl_bc_in ns gbc o (axis_dir D k 1))) (seq 0 D).

(** sr.hpp:689-697: inversion in a curvilinear basis; [to_U], [from_U] are transform_xyz at the
    aligned position. *)
Definition flip_curved (to_U from_U : vec -> vec) (k : nat) (u : vec) : vec := from_U (neg_comp k (to_U u)).

(** piston.h:52-74, CrossesPiston with is_left (the only value used): [h], [x0]: cell size and
    left end of the grid (minkowski.h convert<1, Crd::Cd, Crd::Ph>); [xw], [V]: position of the
    piston at the start of the step and its velocity. *)
Definition crosses_piston (h x0 dt xw V : R) (c : pos) : bool :=
  if Rlt_dec ((i_di_to_Xi (ci c) (cx c) - V / h * dt) * h + x0) xw then true else false.
(** piston.h:88-163, Piston. *)
Definition piston (massive : bool) (h x0 dt xw V : R) (c : pos) (u : vec) : pos * vec :=
  if negb (crosses_piston h x0 dt xw V c) then (c, u) else
  let beta := v1 u / energy massive u in
  let '(i_w, dx_w) := from_Xi_to_i_di ((xw - x0) / h) in
  let dx_to := i_di_to_Xi (i_w - ci_prev c) (dx_w - cx_prev c) in
  let dt_to := dx_to / ((beta - V) / h) in
  let remaining := dt - dt_to in
  let u' := piston_velocity massive V u in
  let inv := remaining / energy massive u' in
  let '(i_c, dx_c) := carry (fun x => x) i_w (dx_w + V / h * dt_to) in
  let '(i, dx) := carry (fun x => x) i_c (v1 u' / h * inv + dx_c) in
  ({| ci := i; cx := dx; ci_prev := ci_prev c; cx_prev := cx_prev c |}, u').
