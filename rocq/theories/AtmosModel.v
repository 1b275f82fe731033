(** Atmosphere boundary condition for particles: extent, gravity, target density, injection.
    src/engines/srpic/utils.h:50-102 (GetAtmosphereExtent)
    src/engines/srpic/particle_pusher.h:44-84, src/kernels/pushers/sr.hpp:1420-1484 (gravity)
    src/archetypes/particle_injector.h:141-186 (AtmosphereDensityProfile), 311-387 (InjectNonUniform)
    src/archetypes/spatial_dist.h (Replenish, ReplenishUniform)
    src/kernels/injectors.hpp:527-860 (NonUniformInjector_kernel)
    src/engines/srpic/particles_bcs.h:32-158 (AtmosphereParticlesIn)

    Exact reals.  The random numbers and the sampled velocities are parameters.  Not modelled: the
    numbering of the particles and the array slots they are written to (InjectModel), boxes, user
    distributions that return a weight, the synchronisation of the density with the neighbours
    (nearest-cell deposits stay in active cells). *)
From Coq Require Import ZArith List Bool Reals.
From Verif Require Import Base MomentModel.
Import ListNotations.
Open Scope R_scope.

(** utils.h:57-74: number of buffer cells, and the first and last node of the buffer (ncells_t). *)
Definition buffer_ncells (filters : Z) : Z := (if 5 <? filters + 2 then filters + 2 else 5)%Z.
Definition buffer_nodes (plus : bool) (n filters : Z) : Z * Z :=
  if plus then (w32 (n - buffer_ncells filters), n) else (0%Z, buffer_ncells filters).
(** particles_bcs.h:45 and particle_pusher.h:75-79; [cv]: code to physical on the whole grid. *)
Definition x_surface (plus : bool) (cv : R -> R) (n filters : Z) : R :=
  let '(a, b) := buffer_nodes plus n filters in if plus then cv (IZR a) else cv (IZR b).

(** grid.cpp:349. *)
Definition surface_gravity (temperature height : R) : R := temperature / height.

(** particle_pusher.h:59-74 and sr.hpp:1436-1453: what is added to the acceleration along the
    direction of the atmosphere; [eps] is the threshold of AlmostZero. *)
Definition gravity (eps : R) (cart plus : bool) (g xsurf ds x : R) : R :=
  let gx := if plus then g else - g in
  let almost_zero := if Rle_dec (Rabs gx) eps then true else false in
  let c1 := (if Rlt_dec ds 0 then true else false) || (if Rle_dec x (xsurf + ds) then true else false) in
  let c2 := (if Rlt_dec 0 ds then true else false) || (if Rle_dec (xsurf + ds) x then true else false) in
  if negb almost_zero && (c1 && c2)
  then (if cart then gx else gx * ((xsurf / x) * (xsurf / x)))
  else 0.

(** particle_injector.h:150-185.  The kernel aborts for an upper atmosphere in other than
    Cartesian coordinates: here zero, the construction is refused before (utils.h:59-63). *)
Definition profile (cart plus : bool) (nmax height xsurf ds x : R) : R :=
  if plus then
    if (if Rlt_dec x (xsurf - ds) then true else false) || (if Rle_dec xsurf x then true else false) then 0
    else if cart then nmax * exp (- (xsurf - x) / height) else 0
  else
    if (if Rlt_dec x xsurf then true else false) || (if Rle_dec (xsurf + ds) x then true else false) then 0
    else if cart then nmax * exp (- (x - xsurf) / height)
    else nmax * exp (- (xsurf / height) * (1 - xsurf / x)).

(** What the kernels know of the domain: ghost cells, coordinates, axis flags, cells; conversions
    between code and physical coordinates, volume element; ppc0 and V0. *)
Record dom := {
  d_ghosts : Z; d_cart : bool; d_axis_min : bool; d_axis_max : bool; d_n : list Z;
  d_ph : list R -> list R; d_cd : list R -> list R; d_vol : list R -> R;
  d_ppc0 : R; d_V0 : R;
  d_frame : R -> part -> R * R * R * R
}.

(** particles_bcs.h:59-62, 91-103: the parameters of the moment kernel; n0 = ppc0 / V0
    (parameters.cpp:77). *)
Definition moment_cfg (d : dom) : mcfg := {|
  ghosts := d_ghosts d; cartesian := d_cart d; axis_min := d_axis_min d; axis_max := d_axis_max d;
  ni2 := nth 1 (d_n d) 0%Z; inv_n0 := 1 / (d_ppc0 d / d_V0 d); MomentModel.use_weights := negb (d_cart d);
  order_ := 0; method := SPLINE; sqrt_det_h := d_vol d; frame := d_frame d |}.

(** spatial_dist.h: Replenish with [target] and its maximum. *)
Definition replenish (d : dom) (dens : buffer) (target : list R -> R) (target_max : R) (x_Ph : list R) : R :=
  let v := dens (map (fun x => (Int_part x + d_ghosts d)%Z) (d_cd d x_Ph)) in
  let t := target x_Ph in
  if Rlt_dec v (9/10 * t) then (t - v) / target_max else 0.
(** ReplenishUniform. *)
Definition replenish_uniform (d : dom) (dens : buffer) (t : R) (x_Ph : list R) : R :=
  let v := dens (map (fun x => (Int_part x + d_ghosts d)%Z) (d_cd d x_Ph)) in
  if Rlt_dec v (9/10 * t) then (t - v) / t else 0.

(** injectors.hpp:611-630: [r] the real number of pairs, [u] the random number.  The conversion
    to npart_t of a value outside its range is undefined. *)
Definition injected_ppc (r u : R) : res Z :=
  if Rlt_dec r 0 then UB else
  let k := Int_part r in
  if (k <? 2 ^ 32)%Z then Ok (w32 (if Rlt_dec u (r - IZR k) then k + 1 else k)) else UB.

(** One random number per cell; offsets and velocities per cell and pair. *)
Record draws := { du : list Z -> R; dxs : list Z -> nat -> list R; dv1 : list Z -> nat -> R * R * R; dv2 : list Z -> nat -> R * R * R }.

(** operator(), 680-860, for the cell [i] (without ghosts). *)
Definition cell_pairs (d : dom) (ppc : R) (dist : list R -> R) (rnd : draws) (i : list Z)
    : res (list (part * part)) :=
  let x_Cd := map (fun a => IZR a + 1/2) i in
  rbind (injected_ppc (ppc * dist (d_ph d x_Cd)) (du rnd i)) (fun k =>
  let weight := if d_cart d then 1 else 1 * (d_vol d x_Cd * (1 / d_V0 d)) in
  Ok (map (fun p =>
    ({| ptag := 1; ppos := combine i (dxs rnd i p); pvel := dv1 rnd i p; pweight := weight |},
     {| ptag := 1; ppos := combine i (dxs rnd i p); pvel := dv2 rnd i p; pweight := weight |}))
    (seq 0 (Z.to_nat k)))).

(** All cells of the domain. *)
Fixpoint all_cells (n : list Z) : list (list Z) :=
  match n with
  | [] => [[]]
  | k :: n' => flat_map (fun a => map (cons (Z.of_nat a)) (all_cells n')) (seq 0 (Z.to_nat k))
  end.
Fixpoint rconcat {A} (l : list (res (list A))) : res (list A) :=
  match l with
  | [] => Ok []
  | x :: l' => rbind x (fun a => rbind (rconcat l') (fun b => Ok (a ++ b)))
  end.

(** InjectNonUniform: the cells run in parallel and obtain the slots of their pairs from an
    atomic counter; [slots] is the resulting order. *)
Definition inject_nonuniform (d : dom) (dens_n : R) (dist : list R -> R) (rnd : draws)
    (slots : list (part * part) -> list (part * part)) (s1 s2 : species) : res (species * species) :=
  let ppc := dens_n * d_ppc0 d * (1/2) in
  rbind (rconcat (map (cell_pairs d ppc dist rnd) (all_cells (d_n d)))) (fun l =>
  Ok ({| smass := smass s1; scharge := scharge s1; sparts := sparts s1 ++ map fst (slots l) |},
      {| smass := smass s2; scharge := scharge s2; sparts := sparts s2 ++ map snd (slots l) |})).

(** The atmosphere: direction [along] (0, 1, 2) and side. *)
Record atmos := { a_along : nat; a_plus : bool; a_nmax : R; a_height : R; a_xsurf : R; a_ds : R }.
Definition target (d : dom) (a : atmos) (x : list R) : R :=
  profile (d_cart d) (a_plus a) (a_nmax a) (a_height a) (a_xsurf a) (a_ds a) (nth (a_along a) x 0).

(** AtmosphereParticlesIn: the density of the two species, then the injection. *)
Definition atmosphere_particles (d : dom) (a : atmos) (assume_empty : bool)
    (order : list (list Z * R) -> list (list Z * R)) (rnd : draws)
    (slots : list (part * part) -> list (part * part)) (s1 s2 : species) : res (species * species) :=
  let dens := if assume_empty then Some (fun _ => 0)
              else compute_moments (moment_cfg d) Rho [s1; s2] [1; 2]%Z 0 0 order (fun _ => 0) in
  match dens with
  | None => Err
  | Some b => inject_nonuniform d (a_nmax a) (replenish d b (target d a) (a_nmax a)) rnd slots s1 s2
  end.
