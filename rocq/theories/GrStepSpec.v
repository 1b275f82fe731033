(** What the GR step promises, independently of how it is coded. *)
From Coq Require Import ZArith List Bool Reals.
From Verif Require Import Base FieldModel MetModel KsModel GrStepModel.
Import ListNotations.
Open Scope Z_scope.

(** ** Time levels
    An array is described by the instant its content belongs to, in quarters of a time step
    ([None]: content that belongs to no single instant); the particles by the instants of their
    positions and of their velocities.  Every operation asks for the inputs the scheme needs:
    fields that are combined belong to the same instant, an update over an interval uses a
    source admitted by [centred frac t src], the push is a leapfrog. *)
Definition lev := option Z.
Definition lev2 (ok : Z -> Z -> bool) (r : Z -> Z -> Z) (a b : lev) : lev :=
  match a, b with Some x, Some y => if ok x y then Some (r x y) else None | _, _ => None end.
Definition levels (centred : Z -> Z -> Z -> bool) : gr_ops lev (option (Z * Z)) :=
  GrOps
    (lev2 (fun x y => (x + y) mod 2 =? 0) (fun x y => (x + y) / 2))
    (fun d b _ => lev2 Z.eqb (fun x _ => x) d b)
    (fun d b _ => lev2 Z.eqb (fun x _ => x) d b)
    (fun frac b _ e => lev2 (centred frac) (fun x _ => x + frac) b e)
    (fun frac d _ h => lev2 (centred frac) (fun x _ => x + frac) d h)
    (* D has just been advanced by a whole step *)
    (fun d j => lev2 (fun x y => centred 4 (x - 4) y) (fun x _ => x) d j)
    (fun _ v => v)
    (fun d b p => match d, b, p with
                  | Some td, Some tb, Some (x, u) =>
                      if (td =? x) && (tb =? x) && (u =? x - 2) then Some (x + 4, u + 4) else None
                  | _, _, _ => None end)
    (fun p => match p with Some (x, u) => if u =? x - 2 then Some u else None | None => None end)
    (fun p => p).
(** The source is at the middle of the interval (second order). *)
Definition midpoint (frac t src : Z) : bool := 2 * (src - t) =? frac.
(** The source is somewhere in the interval. *)
Definition within (frac t src : Z) : bool := (t <=? src) && (src <=? t + frac).

(** The comment in the code, "n" being the step counter of the comment. *)
Definition at_level (n : Z) (deposit : bool) (s : (slot -> lev) * option (Z * Z)) : Prop :=
  fst s SD = Some (4 * n) /\ fst s SB = Some (4 * n - 2) /\
  fst s SD0 = Some (4 * n - 4) /\ fst s SB0 = Some (4 * n - 6) /\
  (if deposit then fst s SJ = Some (4 * n - 2) else True) /\
  snd s = Some (4 * n, 4 * n - 2).

(** ** Freshness of the ghost cells
    [fresh k]: the cells around the active ones hold what the neighbouring subdomains (or the
    boundary conditions) prescribe for the array [k].  The kernels that read neighbouring cells
    read these arrays: *)
Definition stencil_reads (i : instr) : list slot :=
  match i with
  | ComputeAuxE E_D0_B => [SD0; SB] | ComputeAuxE E_D_B0 => [SD; SB0]
  | ComputeAuxH H_D_B0 => [SD; SB0] | ComputeAuxH H_D0_B0 => [SD0; SB0]
  | Faraday _ _ => [SE] | Ampere _ _ => [SH]
  | ParticlePush => [SD; SB0]
  | _ => []
  end.
(** An operation on the active cells only leaves the ghost cells out of date. *)
Definition fresh_ops : gr_ops bool unit :=
  GrOps (fun _ _ => false) (fun _ _ _ => false) (fun _ _ _ => false) (fun _ _ _ _ => false) (fun _ _ _ _ => false)
    (fun _ _ => false) (fun _ _ => true) (fun _ _ p => p) (fun _ => true) (fun p => p).
(** The operations of a program that read ghost cells which are not up to date. *)
Fixpoint stale_reads (l : list instr) (s : (slot -> bool) * unit) : list instr :=
  match l with
  | [] => []
  | i :: l' => (if forallb (fst s) (stencil_reads i) then [] else [i]) ++ stale_reads l' (exec fresh_ops s i)
  end.

(** ** Subdomains
    A subdomain whose first active cell is the cell [(o1, o2)] of the whole domain. *)
Definition same_metric (Ml Mg : grmet) (o1 o2 : Z) : Prop :=
  let f {T} (a b : (R * R) -> T) := forall x y, a (x, y)%R = b (x + IZR o1, y + IZR o2)%R in
  (forall i j, f (m_h_ Ml i j) (m_h_ Mg i j)) /\ f (m_alpha Ml) (m_alpha Mg) /\ f (m_beta1 Ml) (m_beta1 Mg) /\
  f (m_sqrt_det_h Ml) (m_sqrt_det_h Mg) /\ f (m_sqrt_det_h_tilde Ml) (m_sqrt_det_h_tilde Mg).
(** The local memory holds what the memory of the undivided run holds, at the cell (i1, i2) of
    the subdomain, in the listed arrays. *)
Definition agree (ks : list arr) (o1 o2 : Z) (ml mg : gr_fields) (i1 i2 : Z) : Prop :=
  forall a c, In a ks -> ml (a, c) [i1; i2] = mg (a, c) [i1 + o1; i2 + o2].
Definition agree_around (ks : list arr) (o1 o2 : Z) (ml mg : gr_fields) (i1 i2 : Z) : Prop :=
  forall j1 j2, i1 - 1 <= j1 <= i1 + 1 -> i2 - 1 <= j2 <= i2 + 1 -> agree ks o1 o2 ml mg j1 j2.
(** The active cells of a mesh with [g] ghost cells (rangeActiveCells). *)
Definition active (g n1 n2 : Z) (x : list Z) : Prop :=
  exists i1 i2, x = [i1; i2] /\ g <= i1 < n1 + g /\ g <= i2 < n2 + g.

(** The kernels of the field solver that read the field arrays, as one of them is launched. *)
Inductive fkernel :=
| KAvg | KAuxE (md : gr_getE) | KAuxH (md : gr_getH)
| KFar (md : gr_faraday_mode) (coeff : R) | KAmp (md : gr_ampere_mode) (coeff : R).
Definition kbody (g : Z) (M : grmet) (ax_lo ax_hi : bool) (i2max : Z) (k : fkernel) : gr_fields -> list Z -> gr_fields :=
  match k with
  | KAvg => avgDB_body
  | KAuxE md => auxE_body g M md
  | KAuxH md => auxH_body g M md
  | KFar md c => far_body g (met2 M) ax_lo md c
  | KAmp md c => amp_body g (met2 M) ax_lo ax_hi i2max md c
  end.
(** A subdomain of the domain: where it starts, and which of its x2 sides lie on the axis
    ([top] = n2 + N_GHOSTS: index of the node at the upper side). *)
Record subdom (g o2 : Z) (lo hi lo' hi' : bool) (top top' : Z) : Prop := {
  sd_o2 : 0 <= o2;
  sd_top : top + o2 <= top';
  sd_lo : lo = lo' && (o2 =? 0);
  sd_hi : hi = hi' && (top + o2 =? top')
}.
