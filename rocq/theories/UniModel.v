(** Uniform injection into a region: src/archetypes/particle_injector.h:42-139 (DeduceRegion,
    ComputeNumInject), 188-262 (InjectUniform), src/kernels/injectors.hpp:193-249 (places and
    weights), src/global/global.h:385 (npart_t is uint32_t).

    Arithmetic is exact.  As in MeshModel, [convs] are the conversions from physical to code
    coordinates by the metric of the subdomain, one per dimension, [ext] its extent and [eps] the
    machine epsilon.  Velocities, payloads and the writes into the arrays are in InjectModel and
    VelModel; here a particle is its cells, its displacements and its weight. *)
From Coq Require Import ZArith List Bool Reals.
From Flocq Require Import Core.Raux.
From Verif Require Import Base MeshModel.
Import ListNotations.
Open Scope R_scope.

(** particle_injector.h:225-232: missing dimensions of the box are whole, further ones dropped. *)
Definition nonempty_box (dim : nat) (box : list (bnd * bnd)) : list (bnd * bnd) :=
  firstn dim box ++ repeat (NInf, PInf) (dim - length box).

(** particle_injector.h:67-80: one dimension. *)
Definition side (conv : R -> R) (e : R * R) (b : bnd * bnd) : R * R :=
  let extent_min := bmin (bmax (Fin (fst e)) (fst b)) (Fin (snd e)) in
  let extent_max := bmax (bmin (Fin (snd e)) (snd b)) (Fin (fst e)) in
  (conv (fin extent_min), conv (fin extent_max)).
Fixpoint sides (convs : list (R -> R)) (ext : list (R * R)) (box : list (bnd * bnd)) : list (R * R) :=
  match convs, ext, box with
  | c :: cs, e :: es, b :: bs => side c e b :: sides cs es bs
  | _, _, _ => []
  end.
(** particle_injector.h:56-95. *)
Definition deduce_region (eps : R) (convs : list (R -> R)) (ext : list (R * R)) (box : list (bnd * bnd))
  : res (option (list (R * R))) :=
  rbind (intersects eps ext box) (fun i => if i then Ok (Some (sides convs ext box)) else Ok None).

(** particle_injector.h:128-132. *)
Definition num_cells (xi : list (R * R)) : R :=
  fold_left (fun acc s => acc * (snd s - fst s)) xi 1.
(** static_cast<npart_t> of a floating point number: truncation, undefined if it does not fit. *)
Definition to_npart (x : R) : res Z :=
  let z := Ztrunc x in if (0 <=? z)%Z && (z <? 2 ^ 32)%Z then Ok z else UB.
(** particle_injector.h:111-139. *)
Definition compute_num_inject (eps : R) (convs : list (R -> R)) (ppc0 number_density : R)
    (ext : list (R * R)) (box : list (bnd * bnd)) : res (option (Z * list (R * R))) :=
  rbind (deduce_region eps convs ext box) (fun r =>
    match r with
    | None => Ok None
    | Some xi =>
        rbind (to_npart (ppc0 * number_density * (1 / 2) * num_cells xi)) (fun n => Ok (Some (n, xi)))
    end).

(** injectors.hpp:202-216: one dimension, [u] is the number drawn. *)
Definition draw (s : R * R) (u : R) : R := fst s + u * (snd s - fst s).
Definition cell_of (x : R) : Z * R := let i := Ztrunc x in (i, x - IZR i).
(** injectors.hpp:245-249. *)
Definition weight_of (cart : bool) (sqrt_det_h : list R -> R) (inv_V0 : R) (x : list R) : R :=
  if cart then 1 else sqrt_det_h x * inv_V0.
Record placed := { p_cells : list (Z * R); p_weight : R }.
(** injectors.hpp:193-287: thread [p]; both species get the same place and weight. *)
Definition place (cart : bool) (sqrt_det_h : list R -> R) (inv_V0 : R) (xi : list (R * R)) (us : list R)
  : placed * placed :=
  let x := map2 draw xi us in
  let q := {| p_cells := map cell_of x; p_weight := weight_of cart sqrt_det_h inv_V0 x |} in
  (q, q).

(** particle_injector.h:203-262, [cart]: Cartesian coordinates, [enabled]: particles.use_weights,
    [us p]: the numbers drawn by thread [p]. *)
Definition inject_uniform (eps : R) (convs : list (R -> R)) (cart : bool) (sqrt_det_h : list R -> R)
    (enabled : bool) (ppc0 V0 : R) (ext : list (R * R))
    (number_density : R) (use_weights : bool) (box : list (bnd * bnd)) (us : nat -> list R)
  : res (list (placed * placed)) :=
  if negb cart && negb use_weights then Err
  else if cart && use_weights then Err
  else if negb (eqb enabled use_weights) then Err
  else rbind (compute_num_inject eps convs ppc0 number_density ext (nonempty_box (length ext) box)) (fun r =>
    match r with
    | None => Ok []
    | Some (n, xi) =>
        Ok (map (fun p => place cart sqrt_det_h (1 / V0) xi (us p)) (seq 0 (Z.to_nat n)))
    end).
