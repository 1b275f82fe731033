(** Output of the divergence of E: src/kernels/divergences.hpp (ComputeDivergence_kernel) and its
    launch in src/framework/domain/metadomain_io.cpp:469 and 525-537, followed by SynchronizeFields
    (metadomain_io.cpp:566-568).  Exact reals. *)
From Coq Require Import ZArith List Bool Reals.
From Verif Require Import Base FieldModel TopoModel HaloModel SetModel.
Import ListNotations.
Open Scope R_scope.

Section Kernel.
  (** [cartesian]: M::CoordType == Coord::Cartesian; [sd]: metric.sqrt_det_h of code coordinates. *)
  Variables (g : Z) (cartesian : bool) (sd : list R -> R).
  (** COORD, src/global/global.h:139-140, and HALF. *)
  Definition at_ (i : Z) : R := IZR (i - g).
  Definition hlf : R := / 2.

  (** divergences.hpp:45-62, 64-87, 89-122. *)
  Definition div_value (F : fields) (x : list Z) : R :=
    match x with
    | [i1] =>
        if cartesian then F Ex1 [i1] - F Ex1 [(i1 - 1)%Z]
        else (F Ex1 [i1] * sd [at_ i1 + hlf] - F Ex1 [(i1 - 1)%Z] * sd [at_ i1 - hlf]) / sd [at_ i1]
    | [i1; i2] =>
        if cartesian then F Ex1 [i1; i2] - F Ex1 [(i1 - 1)%Z; i2] + F Ex2 [i1; i2] - F Ex2 [i1; (i2 - 1)%Z]
        else (F Ex1 [i1; i2] * sd [at_ i1 + hlf; at_ i2] - F Ex1 [(i1 - 1)%Z; i2] * sd [at_ i1 - hlf; at_ i2]
              + F Ex2 [i1; i2] * sd [at_ i1; at_ i2 + hlf] - F Ex2 [i1; (i2 - 1)%Z] * sd [at_ i1; at_ i2 - hlf])
             / sd [at_ i1 + hlf; at_ i2 + hlf]
    | [i1; i2; i3] =>
        if cartesian then F Ex1 [i1; i2; i3] - F Ex1 [(i1 - 1)%Z; i2; i3] + F Ex2 [i1; i2; i3] - F Ex2 [i1; (i2 - 1)%Z; i3]
                          + F Ex3 [i1; i2; i3] - F Ex3 [i1; i2; (i3 - 1)%Z]
        else (F Ex1 [i1; i2; i3] * sd [at_ i1 + hlf; at_ i2; at_ i3] - F Ex1 [(i1 - 1)%Z; i2; i3] * sd [at_ i1 - hlf; at_ i2; at_ i3]
              + F Ex2 [i1; i2; i3] * sd [at_ i1; at_ i2 + hlf; at_ i3] - F Ex2 [i1; (i2 - 1)%Z; i3] * sd [at_ i1; at_ i2 - hlf; at_ i3]
              + F Ex3 [i1; i2; i3] * sd [at_ i1; at_ i2; at_ i3 + hlf] - F Ex3 [i1; i2; (i3 - 1)%Z] * sd [at_ i1; at_ i2; at_ i3 - hlf])
             / sd [at_ i1 + hlf; at_ i2 + hlf; at_ i3 + hlf]
    | _ => 0
    end.
  (** One thread: [k] is buff_idx. *)
  Definition div_body (F : fields) (k : nat) (m : mem nat) (x : list Z) : mem nat :=
    set Nat.eq_dec m k x (div_value F x).
End Kernel.

(** metadomain_io.cpp:469 (the buffer is zeroed), 525-537 (over the active cells) and 566-568 (the
    component is synchronised); the subdomain at position [o] has the arrays [em o] and the metric
    [sd o].  [order]: the schedule of each subdomain's threads. *)
Definition divergence_output (g : Z) (ls : list (list Z)) (gbc : list (flds_bc * flds_bc)) (cartesian : bool) (sd : list Z -> list R -> R)
    (order : list Z -> list (list Z) -> list (list Z)) (k : nat) (em : list Z -> fields) : res (list Z -> list Z -> R) :=
  if (6 <=? k)%nat then Err else
  let bckp o := par_for (div_body g cartesian (sd o) (em o) k) (order o (active_cells g (size ls o))) (fun _ _ => 0) in
  Ok (synchronize g ls gbc (fun o x => bckp o k x) (length ls)).
