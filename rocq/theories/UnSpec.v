(** Specification for the units. *)
From Coq Require Import Reals List ZArith.
From Verif Require Import FieldModel DepositModel DepositSpec VelModel UnModel.
Import ListNotations.
Open Scope R_scope.

(** Velocity of a particle in cells per unit of time: displacement over the time step where there is a coordinate,
    the velocity itself elsewhere. *)
Definition speed (inv_dt : R) (c : jcomp) (p : prtl) : R :=
  match c, mvs p with
  | Jx1, m :: _ => (now m - before m) * inv_dt
  | Jx2, _ :: m :: _ => (now m - before m) * inv_dt
  | Jx3, [_; _; m] => (now m - before m) * inv_dt
  | Jx1, _ => 0
  | Jx2, _ => vp1 p
  | Jx3, _ => vp2 p
  end.
Fixpoint sumf {A} (f : A -> R) (l : list A) : R := match l with [] => 0 | a :: r => f a + sumf f r end.
(** Charge times velocity, over the particles that are there. *)
Definition flux (inv_dt : R) (c : jcomp) (ps : list prtl) : R :=
  sumf (fun p => if dead p then 0 else qw p * speed inv_dt c p) ps.

(** Kinds of particles of a uniform plasma: density in units of n0, charge, mass. *)
Record kind := Kind { dens : R; chg : R; mss : R }.
Definition velocity (u : vec) : vec := vscale (1 / u2gamma u) u.
(** Square of the plasma frequency for the skin depth [d]. *)
Definition wp2 (d : R) (ks : list kind) : R := sumf (fun k => dens k * (chg k * chg k / mss k)) ks / (d * d).
(** Rotation about the third axis. *)
Definition turn (a : R) (u : vec) : vec := (v1 u * cos a + v2 u * sin a, - v1 u * sin a + v2 u * cos a, v3 u).

(** A uniform cold plasma: the mean field along one axis, and a momentum along it for each kind.  In each cell there
    are [ppc0 * dens] particles of a kind.  One step: push, deposit, add the current. *)
Definition drive (s : scales) (st : list (kind * R)) : R :=
  sumf (fun ku => ppc0 s * dens (fst ku) * chg (fst ku) * v1 (velocity (snd ku, 0, 0))) st.
Definition plasma_step (s : scales) (dt : R) (x : R * list (kind * R)) : R * list (kind * R) :=
  let st := map (fun ku => (fst ku, v1 (push s dt (chg (fst ku)) (mss (fst ku)) (snd ku, 0, 0) (fst x, 0, 0) (0, 0, 0)))) (snd x) in
  (fst (mink_currents s dt 0 (fst x) (drive s st)), st).
Definition cubed (x : R) : R := x * x * x.
