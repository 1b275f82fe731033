(** What the columns of the statistics file mean. *)
From Coq Require Import ZArith List Bool Reals.
From Verif Require Import Base FieldModel HaloSpec MomentModel MomentSpec PhysModel PhysSpec StatsModel MetModel.
Import ListNotations.
Open Scope R_scope.

(** Densities on the undivided grid; component I = 1, 2, 3.
    Squares: contravariant times covariant component where the component lives.  Poynting flux
    and work: from the orthonormal components at the centre of the cell. *)
Section Densities.
  Variables (down hat : nat -> list R -> R -> R) (hatv : list R -> vec -> vec) (sd : list R -> R) (EM CUR : mem Z).
  Definition comp_square (f : fid) (a : nat) (X : list Z) : R :=
    let v := array_of SRPIC f EM EM CUR a X in let p := position (stagger f a) X in v * down a p v * sd p.
  Definition at_centre (f : fid) (X : list Z) : vec :=
    let c a := centre (stagger f a) (array_of SRPIC f EM EM CUR a) X in (c 0%nat, c 1%nat, c 2%nat).
  Definition cross (u v : vec) (a : nat) : R :=
    let '(u1, u2, u3) := u in let '(v1, v2, v3) := v in
    match a with O => u2 * v3 - u3 * v2 | 1%nat => u3 * v1 - u1 * v3 | _ => u1 * v2 - u2 * v1 end.
  Definition dot (u v : vec) : R :=
    let '(u1, u2, u3) := u in let '(v1, v2, v3) := v in u1 * v1 + u2 * v2 + u3 * v3.
  Definition each (p : list R) (v : vec) : vec := let '(a, b, c) := v in (hat 0 p a, hat 1 p b, hat 2 p c).
  Definition density (q : stat) (X : list Z) : R :=
    let m := cell_centre X in
    match q with
    | SE2 c => comp_square FE (c - 1) X
    | SB2 c => comp_square FB (c - 1) X
    | SExB c => cross (each m (at_centre FE X)) (each m (at_centre FB X)) (c - 1) * sd m
    | SJdotE => dot (hatv m (at_centre FE X)) (hatv m (at_centre FJ X)) * sd m
    end.
End Densities.
Definition valid_stat (q : stat) : Prop := match q with SE2 c | SB2 c | SExB c => (1 <= c <= 3)%nat | SJdotE => True end.

(** The field output with the same name. *)
Definition moment_of (q : pstat) : moment :=
  match q with PRho => Rho | PCharge => Charge | PN | PNpart => N | PT _ _ => T end.
Definition index1 (q : pstat) : Z := match q with PT c1 _ => Z.of_nat c1 | _ => 0%Z end.
Definition index2 (q : pstat) : Z := match q with PT _ c2 => Z.of_nat c2 | _ => 0%Z end.
(** Masses for which T is right, see [C70_stress_refuted]. *)
Definition plain_mass (q : pstat) (s : species) : Prop :=
  match q with PT O O => True | PT _ _ => smass s = 0 \/ smass s = 1 | _ => True end.
(** Species far enough from the threshold below which they are left out. *)
Definition clear_of (eps : R) (q : pstat) (s : species) : Prop :=
  match q with
  | PRho => eps < Rabs (smass s)
  | PCharge => scharge s = 0 \/ eps < Rabs (scharge s)
  | _ => True
  end.

(** Square of a velocity in a Cartesian frame. *)
Definition sq3 (v : R * R * R) : R := let '(a, b, c) := v in a * a + b * b + c * c.

(** Spherical coordinates: the volume of the cell at a code position; the average of the constant
    one, as the file computes averages; the same grid, with all radii multiplied. *)
Definition volume_of (m : grid) (x : list R) : R := match x with [a; b] => s_sqrt_det_h m (a, b) | _ => 0 end.
Definition unit_mean (m : grid) : R :=
  rsum (box [(0, nx1 m); (0, nx2 m)]%Z) (fun z => match z with [i; j] => s_sqrt_det_h m (IZR i + / 2, IZR j + / 2) | _ => 0 end) /
  tot_volume_spherical (x1_min m) (x1_max m) (x2_min m) (x2_max m).
Definition scaled (l : R) (m : grid) : grid :=
  Grid (nx1 m) (nx2 m) (nx3 m) (l * x1_min m) (l * x1_max m) (x2_min m) (x2_max m) (x3_min m) (x3_max m).
(** A grid of two shells, radii 1 to 3, and a species with one particle at rest in the middle of shell [i]. *)
Definition still (i : Z) : part := {| ptag := 1; ppos := [(i, / 2); (0%Z, / 2)]; pvel := (0, 0, 0); pweight := 1 |}.
Definition lone (i : Z) : species := {| smass := 1; scharge := 1; sparts := [still i] |}.
Definition shell : grid := Grid 2 1 1 1 3 0 PI 0 1.
