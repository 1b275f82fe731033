(** Reference solution: Maxwell's equations on the whole grid, as a textbook staggered scheme.
    Fields are functions on all of Z^D in physical units; periodic boxes are functions that
    repeat. *)
From Coq Require Import ZArith List Reals Permutation.
From Verif Require Import Base DecompModel DecompSpec FieldModel InterpSpec HaloSpec HaloModel StepModel TopoModel.
Import ListNotations.
Open Scope R_scope.

(** The neighbour [k] cells along axis [a].  A grid of D dimensions has axes 0 .. D-1; nothing
    changes along the others. *)
Fixpoint shift (a : nat) (k : Z) (x : list Z) : list Z :=
  match x, a with
  | i :: x', O => (i + k)%Z :: x'
  | i :: x', S a' => i :: shift a' k x'
  | [], _ => []
  end.

Definition fwd (a : nat) (F : list Z -> R) (x : list Z) : R := F (shift a 1 x) - F x.
Definition bwd (a : nat) (F : list Z -> R) (x : list Z) : R := F x - F (shift a (-1) x).

(** The two axes following [a] cyclically. *)
Definition next (a : nat) : nat := match a with 0 => 1 | 1 => 2 | _ => 0 end%nat.
Definition E (a : nat) : comp := match a with 0%nat => Ex1 | 1%nat => Ex2 | _ => Ex3 end.
Definition B (a : nat) : comp := match a with 0%nat => Bx1 | 1%nat => Bx2 | _ => Bx3 end.
Definition J (a : nat) : jcomp := match a with 0%nat => Jx1 | 1%nat => Jx2 | _ => Jx3 end.

(** Optional tuning of the derivative along axis [a]: second neighbours, and smoothing across
    the axis. *)
Definition delta (k : fcoef) (a : nat) : R :=
  match a with 0%nat => deltax k | 1%nat => deltay k | _ => deltaz k end.
Definition beta (k : fcoef) (a b : nat) : R :=
  match a, b with
  | 0%nat, 1%nat => betaxy k | 1%nat, 0%nat => betayx k
  | 0%nat, 2%nat => betaxz k | 2%nat, 0%nat => betazx k
  | 1%nat, 2%nat => betayz k | 2%nat, 1%nat => betazy k
  | _, _ => 0
  end.
Definition across (a b : nat) (F : list Z -> R) (x : list Z) : R :=
  fwd a F (shift b 1 x) + fwd a F (shift b (-1) x) - 2 * fwd a F x.
Definition tuned (k : fcoef) (a : nat) (F : list Z -> R) (x : list Z) : R :=
  fwd a F x
  + delta k a * (F (shift a 2 x) - F (shift a (-1) x) - 3 * fwd a F x)
  + beta k a (next a) * across a (next a) F x
  + beta k a (next (next a)) * across a (next (next a)) F x.

(** Component [a] of the curl for a given derivative. *)
Definition curl (d : nat -> (list Z -> R) -> list Z -> R) (V : nat -> list Z -> R) (a : nat) (x : list Z) : R :=
  d (next a) (V (next (next a))) x - d (next (next a)) (V (next a)) x.

(** dB/dt = - curl E (derivatives from node to node), dE/dt = curl B + currents (backwards). *)
Definition ref_faraday (k : fcoef) (dt h : R) (F : fields) : fields := fun c x =>
  if electric c then F c x else F c x - dt / h * curl (tuned k) (fun a => F (E a)) (axis_of c) x.
Definition ref_ampere (dt h : R) (F : fields) : fields := fun c x =>
  if electric c then F c x + dt / h * curl bwd (fun a => F (B a)) (axis_of c) x else F c x.
Definition ref_currents (k : R) (cur : jcomp -> list Z -> R) (F : fields) : fields := fun c x =>
  if electric c then F c x + k * cur (J (axis_of c)) x else F c x.

(** A whole step and a run, given the currents of every step. *)
Definition ref_step (p : solver) (cur : jcomp -> list Z -> R) (F : fields) : fields :=
  ref_currents (scur p) cur (ref_ampere (sdt p) (sdx p)
    (ref_faraday (tune p) (/ 2 * sdt p) (sdx p) (ref_faraday (tune p) (/ 2 * sdt p) (sdx p) F))).
Fixpoint ref_run (p : solver) (l : list (jcomp -> list Z -> R)) (F : fields) : fields :=
  match l with [] => F | cur :: l' => ref_run p l' (ref_step p cur F) end.

(** Units: along the axes of the grid the arrays hold contravariant components, i.e. physical
    components divided by the cell size [h] (src/metrics/minkowski.h). *)
Definition unit_of (D : nat) (h : R) (a : nat) : R := if Nat.ltb a D then h else 1.
Definition phys (D : nat) (h : R) (F : fields) : fields := fun c x => unit_of D h (axis_of c) * F c x.
Definition axis_of_j (c : jcomp) : nat := match c with Jx1 => 0 | Jx2 => 1 | Jx3 => 2 end.
Definition phys_j (D : nat) (h : R) (F : jcomp -> list Z -> R) : jcomp -> list Z -> R :=
  fun c x => unit_of D h (axis_of_j c) * F c x.

(** [F] repeats with the period of the grid. *)
Definition periodic {K} (N : list Z) (F : K -> list Z -> R) : Prop :=
  forall c x y, length x = length N -> length y = length N ->
  map2 Z.modulo x N = map2 Z.modulo y N -> F c x = F c y.

(** All cells of all subdomains, with ghost cells or without, hold the reference. *)
Definition agree {K} (g : Z) (ls : list (list Z)) (st : list Z -> mem K) (F : K -> list Z -> R) : Prop :=
  forall d c y, In d (domains ls) -> in_extended g y (sub_ncells d) ->
  st (sub_offset_ndomains d) c (loc g y) = F c (map2 Z.add (sub_offset_ncells d) y).
Definition agree_active {K} (g : Z) (ls : list (list Z)) (st : list Z -> mem K) (F : K -> list Z -> R) : Prop :=
  forall d c y, In d (domains ls) -> in_box y (sub_ncells d) ->
  st (sub_offset_ndomains d) c (loc g y) = F c (map2 Z.add (sub_offset_ncells d) y).

(** Threads run in some order; exchanges run to completion. *)
Definition any_order (t : threads) : Prop := forall o l, Permutation (t o l) l.
Definition complete (ls : list (list Z)) (es : list hevent) : Prop :=
  Forall (wf_event ls) es /\ all_received ls es.
Definition good_sched (ls : list (list Z)) (s : field_sched) : Prop :=
  any_order (t_far1 s) /\ any_order (t_far2 s) /\ any_order (t_amp s) /\ any_order (t_cur s) /\
  complete ls (e_b1 s) /\ complete ls (e_b2 s) /\ complete ls (e_e s).
