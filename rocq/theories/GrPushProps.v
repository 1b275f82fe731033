(** Theorems on the motion of particles in the GR engine (C49, C65, C66, C68). *)
From Coq Require Import Reals ZArith List Bool Lra Lia.
From Verif Require Import Base DirsModel TopoModel VelModel PushModel PushSpec MetModel MetSpec KsModel KsSpec KsProofs KsDeriv KsDeriv2 KsProps.
From Verif Require Import GrPushModel GrPushSpec GrPushProofs GrPushTop GrPushLast.
Import ListNotations.
Open Scope R_scope.

(* ---------------------------------------------------------------------- *)
(** * C49 *)

(** The stored azimuth of a particle never changes: not in any number of steps of a photon, not in a
    step of a massive particle, whatever the fields ... *)
Theorem C49_azimuth_frozen_refuted : forall M to_cd,
  (forall p q, photon_run M to_cd p q -> g_phi q = g_phi p) /\
  (forall mpi o ng k b DB DB0 p q, push_massive M to_cd mpi o ng k b DB DB0 p = Ok q -> g_phi q = g_phi p).
Proof. exact phi_kept. Qed.
Print Assumptions C49_azimuth_frozen_refuted.
(** ... although the particle orbits the axis. *)
Theorem C49_azimuth_refuted : exists M to_cd k b p q,
  kerr_metric M /\ converts M to_cd /\ gr_regular M (place p) /\ 0 < k_dt k /\
  push_massless M to_cd false k b p = Ok q /\ moving M 0 (place p) (g_u q) /\
  0 < k_dt k * gr_velocity M (place p) 0 (g_u q) 3 < 2 * PI /\ g_phi q = g_phi p.
Proof. exact phi_witness. Qed.
Print Assumptions C49_azimuth_refuted.
(** Full statement: the stored azimuth advances by dt times the azimuthal velocity.  What the code
    computes, and then drops, is that, brought back to [0, 2 pi). *)
Theorem C49_computed_azimuth_partial : forall M nrm dt x u phi, kerr_metric M -> gr_regular M x -> moving M nrm x u ->
  - (2 * PI) <= phi + dt * gr_velocity M x nrm u 3 < 4 * PI ->
  let phi' := update_phi M nrm dt x u phi in
  0 <= phi' < 2 * PI /\ exists n, phi' = phi + dt * gr_velocity M x nrm u 3 + 2 * PI * IZR n.
Proof. exact phi_local. Qed.
Print Assumptions C49_computed_azimuth_partial.

(* ---------------------------------------------------------------------- *)
(** * C65 *)

(** Full statement: in every metric a step follows Hamilton's equations of geodesic motion.  The last
    of [S n] fixed point iterations takes the derivatives of the Hamiltonian half way between the old
    velocity and the previous iterate: in flat space exactly, ... *)
Theorem C65_momentum_flat : forall g nrm dt n x u, sensible g -> gr_regular (ks0 g) x ->
  let M := ks0 g in let m := half_way u (momentum_push M nrm dt n x u) in moving M nrm x m ->
  momentum_law M nrm dt x m u (momentum_push M nrm dt (S n) x u) 0.
Proof. exact momentum_ks0. Qed.
Print Assumptions C65_momentum_flat.
(** ... around a black hole up to the flushing of small angular derivatives to zero. *)
Theorem C65_momentum_kerr_schild : forall eps a g nrm dt n x u, 0 <= eps -> sensible g -> gr_regular (ks eps a g) x ->
  let M := ks eps a g in let m := half_way u (momentum_push M nrm dt n x u) in moving M nrm x m ->
  momentum_law M nrm dt x m u (momentum_push M nrm dt (S n) x u) (Rabs dt * flush_error eps a M nrm x m (s_dr g) (s_dth g)).
Proof. exact momentum_ks. Qed.
Print Assumptions C65_momentum_kerr_schild.
(** In the quasi-spherical metric without angular stretching as well; ... *)
Theorem C65_momentum_quasi_kerr_schild_partial : forall eps a g r0 h m x1 x2 nrm dt n u, q_ok eps g r0 h -> q_make eps g r0 h = Some m ->
  gr_regular (qks a m) (x1, x2) -> q_h0 m = 0 ->
  let M := qks a m in let x := (x1, x2) in let w := half_way u (momentum_push M nrm dt n x u) in moving M nrm x w ->
  exists d1 d2, derivable_pt_lim (m_r M) x1 d1 /\ derivable_pt_lim (m_th M) x2 d2 /\
    momentum_law M nrm dt x w u (momentum_push M nrm dt (S n) x u) (Rabs dt * flush_error eps a M nrm x w d1 d2).
Proof. exact momentum_qks. Qed.
Print Assumptions C65_momentum_quasi_kerr_schild_partial.
(** ... with stretching the radial component is wrong wherever the particle moves in angle. *)
Theorem C65_momentum_quasi_kerr_schild_refuted : forall eps a g r0 h m x1 x2 nrm dt n u, q_ok eps g r0 h -> q_make eps g r0 h = Some m ->
  gr_regular (qks a m) (x1, x2) ->
  let M := qks a m in let x := (x1, x2) in let w := half_way u (momentum_push M nrm dt n x u) in
  moving M nrm x w -> dt <> 0 -> v2 w <> 0 -> dtheta_deta (q_eps m) (q_h0 m) (q_eta m x2) <> 1 ->
  exists D1, by_x1 (fun y => hamiltonian M nrm y w) x D1 /\ v1 (momentum_push M nrm dt (S n) x u) <> v1 u - dt * D1.
Proof. exact qks_wrong. Qed.
Print Assumptions C65_momentum_quasi_kerr_schild_refuted.
(** The position moves with the velocity that Hamilton's equations give half way between the old
    position and the previous iterate, kept 10^-5 off the axis; never further than light. *)
Theorem C65_position : forall M to_cd nrm dt n x u, kerr_metric M -> converts M to_cd ->
  let y := between x (coordinate_push M to_cd nrm dt n x u) in 0 < m_r M (fst y) ->
  exists m, fst m = fst y /\ m_th M (snd m) = kept_off (m_th M (snd y)) /\
    (small_angle_gr <= m_th M (snd y) < PI - small_angle_gr -> m = y) /\
    (moving M nrm m u ->
     let x' := coordinate_push M to_cd nrm dt (S n) x u in
     position_law M nrm dt m u x x' /\
     Rabs (fst x' - fst x) <= Rabs dt / gr_cell_size M m /\ Rabs (snd x' - snd x) <= Rabs dt / gr_cell_size M m).
Proof. exact position_step. Qed.
Print Assumptions C65_position.
(** The conversions of the metrics are as C65_position needs them. *)
Theorem C65_conversions :
  (forall eps a g, sensible g -> converts (ks eps a g) (s_to_cd g 2)) /\
  (forall g, sensible g -> converts (ks0 g) (s_to_cd g 2)) /\
  (forall eps a g r0 h m, q_ok eps g r0 h -> q_make eps g r0 h = Some m ->
     exists to_cd, (forall t, q_to_cd m 2 t = Some (to_cd t)) /\ converts (qks a m) to_cd).
Proof. exact conversions. Qed.
Print Assumptions C65_conversions.

(* ---------------------------------------------------------------------- *)
(** * C66 *)

(** The angular momentum about the axis of a photon, and of a massive particle where there are no
    fields, is exactly the same after any number of steps, whatever the time steps, the boundaries
    and the numbers of iterations. *)
Theorem C66_angular_momentum : forall M to_cd,
  (forall p q, photon_run M to_cd p q -> v3 (g_u q) = v3 (g_u p)) /\
  (forall p q, kerr_metric M -> vacuum_run M to_cd p q -> v3 (g_u q) = v3 (g_u p)).
Proof. exact angular_momentum. Qed.
Print Assumptions C66_angular_momentum.
(** A massive step is a half kick by the fields, a geodesic push and another half kick.  In a magnetic
    field alone the kicks leave the energy seen by the local observer unchanged; in an electric field
    alone each changes the tetrad components of the velocity by charge * field * lapse * dt / 2;
    without fields they do nothing. *)
Theorem C66_kicks : forall M to_cd k x Dc Bc u, kerr_metric M -> gr_regular M x ->
  let energy2 v := 1 + quad3 (fun i j => m_h M i j x) v in
  exists ua ub, ub = momentum_push M 1 (k_dt k) (k_niter k) (off_axis M to_cd x) ua /\
  let u' := kick_massive M to_cd k x Dc Bc u in
  (Dc = (0, 0, 0) -> energy2 ua = energy2 u /\ energy2 u' = energy2 ub) /\
  (Bc = (0, 0, 0) -> exists E t ta tb t', gr_transform M IU IT x Dc = Some E /\
     in_tetrad M x u t /\ in_tetrad M x ua ta /\ in_tetrad M x ub tb /\ in_tetrad M x u' t' /\
     ta = vadd t (vscale (k_charge k / k_mass k * k_omegaB0 k * k_dt k / 2 * m_alpha M x) E) /\
     t' = vadd tb (vscale (k_charge k / k_mass k * k_omegaB0 k * k_dt k / 2 * m_alpha M x) E)) /\
  (Dc = (0, 0, 0) -> Bc = (0, 0, 0) -> ua = u /\ u' = ub).
Proof. exact kicks. Qed.
Print Assumptions C66_kicks.

(* ---------------------------------------------------------------------- *)
(** * C68 *)

(** Where a step leaves the particle: at the computed radius; at the computed angle if inside or past
    an edge that is not the axis; mirrored, with the angular velocity reversed, past the axis (moving
    less than a cell beyond it).  The previous position is the old one. *)
Theorem C68_landing : forall M to_cd mpi k b p x' u' q, pushed M to_cd mpi k b p x' u' q -> (0 < k_ni1 k)%Z -> (0 < k_ni2 k)%Z ->
  (-1 <= fst x' -> stands_at (fst x') (g1 q)) /\ came_from (g1 p) (g1 q) /\ came_from (g2 p) (g2 q) /\
  (0 <= snd x' < IZR (k_ni2 k) -> stands_at (snd x') (g2 q) /\ velocity_kept u' (g_u q)) /\
  (-1 <= snd x' < 0 -> axis_i2min b = true -> stands_at (- snd x') (g2 q) /\ inside (k_ni2 k) (g2 q) /\ velocity_mirrored u' (g_u q)) /\
  (IZR (k_ni2 k) <= snd x' < IZR (k_ni2 k) + 1 -> axis_i2max b = true ->
     stands_at (2 * IZR (k_ni2 k) - snd x') (g2 q) /\ inside (k_ni2 k) (g2 q) /\ velocity_mirrored u' (g_u q)) /\
  (-1 <= snd x' < 0 -> axis_i2min b = false -> stands_at (snd x') (g2 q) /\ velocity_kept u' (g_u q)) /\
  (IZR (k_ni2 k) <= snd x' -> axis_i2max b = false -> stands_at (snd x') (g2 q) /\ velocity_kept u' (g_u q)).
Proof. exact lands. Qed.
Print Assumptions C68_landing.
(** A particle dies exactly when it ends beyond a radial edge that swallows; any other stays alive,
    with MPI tagged for the neighbour in whose direction it left. *)
Theorem C68_tags : forall M to_cd mpi k b p x' u' q, pushed M to_cd mpi k b p x' u' q -> (0 < k_ni1 k)%Z -> (0 < k_ni2 k)%Z ->
  let swallowed := (below (g1 q) /\ absorb_i1min b = true) \/ (above (k_ni1 k) (g1 q) /\ absorb_i1max b = true) in
  (g_tag q = 0%Z <-> swallowed) /\
  (~ swallowed ->
     (mpi = false -> g_tag q = 1%Z) /\
     (mpi = true -> inside (k_ni1 k) (g1 q) -> inside (k_ni2 k) (g2 q) -> g_tag q = 1%Z) /\
     (mpi = true -> ~ (inside (k_ni1 k) (g1 q) /\ inside (k_ni2 k) (g2 q)) ->
        dir2tag [DirsSpec.side (ci (g1 q)) (k_ni1 k); DirsSpec.side (ci (g2 q)) (k_ni2 k)] = Ok (g_tag q))).
Proof. exact tags. Qed.
Print Assumptions C68_tags.
(** Dead particles are left alone; any tag but dead and alive is an error. *)
Theorem C68_other_tags : forall M to_cd mpi k b p,
  (g_tag p = 0%Z -> push_massless M to_cd mpi k b p = Ok p /\ forall o ng DB DB0, push_massive M to_cd mpi o ng k b DB DB0 p = Ok p) /\
  (g_tag p <> 0%Z -> g_tag p <> 1%Z -> push_massless M to_cd mpi k b p = Err /\ forall o ng DB DB0, push_massive M to_cd mpi o ng k b DB DB0 p = Err).
Proof. exact other_tags. Qed.
Print Assumptions C68_other_tags.
(** Full statement: every boundary condition that the input accepts is applied.  At the radial edges
    only ABSORB and HORIZON are, at the angular ones only AXIS. *)
Theorem C68_which_boundaries_partial : forall lo1 hi1 lo2 hi2 rest b, gr_bcs ((lo1, hi1) :: (lo2, hi2) :: rest) = Ok b ->
  (absorb_i1min b = true <-> lo1 = P_ABSORB \/ lo1 = P_HORIZON) /\ (absorb_i1max b = true <-> hi1 = P_ABSORB \/ hi1 = P_HORIZON) /\
  (axis_i2min b = true <-> lo2 = P_AXIS) /\ (axis_i2max b = true <-> hi2 = P_AXIS).
Proof. exact which_boundaries. Qed.
Print Assumptions C68_which_boundaries_partial.
(** A particle that leaves through an outer boundary of another kind (reflecting, atmosphere, custom)
    stays outside and alive; with MPI it is tagged for a neighbour, and if that does not exist the
    next push fails. *)
Theorem C68_unhandled_boundaries_refuted : forall M to_cd mpi k b p x' u' q, pushed M to_cd mpi k b p x' u' q -> (0 < k_ni1 k)%Z -> (0 < k_ni2 k)%Z ->
  IZR (k_ni1 k) <= fst x' -> absorb_i1max b = false ->
  stands_at (fst x') (g1 q) /\ above (k_ni1 k) (g1 q) /\ g_tag q <> 0%Z /\
  (mpi = false -> g_tag q = 1%Z) /\
  (mpi = true -> forall mpi' k' b', push_massless M to_cd mpi' k' b' q = Err /\ forall o ng DB DB0, push_massive M to_cd mpi' o ng k' b' DB DB0 q = Err).
Proof. exact unhandled. Qed.
Print Assumptions C68_unhandled_boundaries_refuted.

(* ---------------------------------------------------------------------- *)
(** * Examples *)
(** A photon flying radially outwards in the equatorial plane leaves through a reflecting outer boundary
    ([ex_k]: dt = 1, one iteration, 8 x 8 cells; [ex_photon]: at (7.5, 4)). *)
Example C68_ex : exists b q, gr_bcs [(P_HORIZON, P_REFLECT); (P_AXIS, P_AXIS)] = Ok b /\
  pushed (ks0 ex_hole) (s_to_cd ex_hole 2) false ex_k b (ex_photon (1, 0, 0)) (17/2, 4) (1, 0, 0) q /\ absorb_i1max b = false /\ axis_i2min b = true.
Proof. exact photon_out. Qed.
(** A photon with angular momentum; a massive particle at rest; places off the axis. *)
Example C66_ex : exists q, photon_run (ks0 ex_hole) (s_to_cd ex_hole 2) (ex_photon (1, 0, 2)) q /\ v3 (g_u q) = 2 /\
  kerr_metric (ks 0 (9/10) ex_hole) /\ gr_regular (ks 0 (9/10) ex_hole) (1/2, 4) /\
  moving (ks 0 (9/10) ex_hole) 1 (1/2, 4) (0, 0, 0).
Proof. exact orbit. Qed.
(** A particle moving in angle on a stretched grid. *)
Example C65_ex : q_ok 0 ex_hole 0 (1/2) /\ exists m, q_make 0 ex_hole 0 (1/2) = Some m /\ gr_regular (qks (9/10) m) (INR 0 + 1/2, INR 3 + 1/2) /\
  dtheta_deta (q_eps m) (q_h0 m) (q_eta m (INR 3 + 1/2)) <> 1 /\
  let w := half_way (0, 1, 0) (momentum_push (qks (9/10) m) 1 1 0 (INR 0 + 1/2, INR 3 + 1/2) (0, 1, 0)) in
  v2 w <> 0 /\ moving (qks (9/10) m) 1 (INR 0 + 1/2, INR 3 + 1/2) w.
Proof. exact ex_stretched. Qed.
