(** Vocabulary for the motion of a particle in a Kerr-Schild metric. *)
From Coq Require Import Reals ZArith List Bool.
From Verif Require Import Base TopoModel VelModel PushModel PushSpec MetModel MetSpec KsModel KsSpec GrPushModel.
Open Scope R_scope.

(** The metrics of the GR engine. *)
Inductive kerr_metric : grmet -> Prop :=
| km_ks : forall eps a g, sensible g -> kerr_metric (ks eps a g)
| km_ks0 : forall g, sensible g -> kerr_metric (ks0 g)
| km_qks : forall eps a g r0 h m, q_ok eps g r0 h -> q_make eps g r0 h = Some m -> kerr_metric (qks a m).

(** Energy at infinity of a particle of mass^2 [nrm] with covariant velocity [u]: the Hamiltonian
    of geodesic motion. *)
Definition hamiltonian (M : grmet) (nrm : R) (x : coord2) (u : vec3) : R :=
  m_alpha M x * gr_gamma M x nrm u - m_beta1 M x * v1 u.
(** The square of its energy measured by the local observer is positive. *)
Definition moving (M : grmet) (nrm : R) (x : coord2) (u : vec3) : Prop :=
  0 <= nrm /\ 0 < nrm + quad3 (fun i j => m_h M i j x) u.

(** Partial derivatives by position and velocity. *)
Definition by_x1 (f : coord2 -> R) (x : coord2) (D : R) : Prop := derivable_pt_lim (fun s => f (s, snd x)) (fst x) D.
Definition by_x2 (f : coord2 -> R) (x : coord2) (D : R) : Prop := derivable_pt_lim (fun s => f (fst x, s)) (snd x) D.
Definition by_u1 (f : vec3 -> R) (u : vec3) (D : R) : Prop := derivable_pt_lim (fun s => f (s, v2 u, v3 u)) (v1 u) D.
Definition by_u2 (f : vec3 -> R) (u : vec3) (D : R) : Prop := derivable_pt_lim (fun s => f (v1 u, s, v3 u)) (v2 u) D.
Definition by_u3 (f : vec3 -> R) (u : vec3) (D : R) : Prop := derivable_pt_lim (fun s => f (v1 u, v2 u, s)) (v3 u) D.

Definition half_way (u w : vec3) : vec3 := (1 / 2 * (v1 u + v1 w), 1 / 2 * (v2 u + v2 w), 1 / 2 * (v3 u + v3 w)).
Definition between (x y : coord2) : coord2 := (1 / 2 * (fst x + fst y), 1 / 2 * (snd x + snd y)).

(** Hamilton's equation for the momentum over a time [dt], the derivatives of the Hamiltonian taken at
    place [x] and velocity [m]; the second component holds up to [tol]. *)
Definition momentum_law (M : grmet) (nrm dt : R) (x : coord2) (m u u' : vec3) (tol : R) : Prop :=
  exists D1 D2, by_x1 (fun y => hamiltonian M nrm y m) x D1 /\ by_x2 (fun y => hamiltonian M nrm y m) x D2 /\
    v1 u' = v1 u - dt * D1 /\ Rabs (v2 u' - (v2 u - dt * D2)) <= tol /\ v3 u' = v3 u.
(** ... and for the position, taken at place [m]. *)
Definition position_law (M : grmet) (nrm dt : R) (m : coord2) (u : vec3) (x x' : coord2) : Prop :=
  exists V1 V2, by_u1 (hamiltonian M nrm m) u V1 /\ by_u2 (hamiltonian M nrm m) u V2 /\
    fst x' = fst x + dt * V1 /\ snd x' = snd x + dt * V2.

(** The error that flushing angular derivatives below [eps] to zero can make; [d1] and [d2] are the
    extents of a cell in radius and angle. *)
Definition flush_error (eps a : R) (M : grmet) (nrm : R) (x : coord2) (u : vec3) (d1 d2 : R) : R :=
  let r := m_r M (fst x) in
  eps * (gr_gamma M x nrm u / r ^ 3 + Rabs (v1 u) * (2 / r ^ 3 / d1) +
    m_alpha M x / (2 * gr_gamma M x nrm u) *
      ((1 / r ^ 4 + 2 / r ^ 2 + 2 * a ^ 2 / r ^ 4) / d1 ^ 2 * v1 u ^ 2 + 1 / r ^ 4 / d2 ^ 2 * v2 u ^ 2 +
       1 / (r ^ 4 * sin (m_th M (snd x)) ^ 2) * v3 u ^ 2 + 2 * (Rabs a / r ^ 4 / d1) * Rabs (v1 u * v3 u))).

(** Angle kept at least 10^-5 away from the axis. *)
Definition kept_off (th : R) : R := Rmax small_angle_gr (Rmin th (PI - small_angle_gr)).

(** [to_cd] is the conversion of angles to code coordinates of the metric (away from the axis). *)
Definition converts (M : grmet) (to_cd : R -> R) : Prop :=
  forall t, small_angle_gr <= t <= PI - small_angle_gr -> m_th M (to_cd t) = t.

(** Components in the tetrad of the metric. *)
Definition in_tetrad (M : grmet) (x : coord2) (u t : vec3) : Prop := gr_transform M ID IT x u = Some t.

(** ** Outcome of a step *)

(** No component of velocity or azimuth but the second of the velocity changes. *)
Definition velocity_kept (u u' : vec3) : Prop := u' = u.
Definition velocity_mirrored (u u' : vec3) : Prop := u' = (v1 u, - v2 u, v3 u).
(** The particle is at [y], with offset in the cell. *)
Definition stands_at (y : R) (c : pos) : Prop := PushSpec.coord c = y /\ 0 <= cx c <= 1.
Definition came_from (c0 c : pos) : Prop := ci_prev c = ci c0 /\ cx_prev c = cx c0.

(** One step of an alive particle, photon or massive, that computes velocity [u'] and position [x']
    and leaves it as [q]. *)
Definition pushed (M : grmet) (to_cd : R -> R) (mpi : bool) (k : gctx) (b : gbcs) (p : gprt) (x' : coord2) (u' : vec3) (q : gprt) : Prop :=
  g_tag p = 1%Z /\
  ((push_massless M to_cd mpi k b p = Ok q /\
    u' = momentum_push M 0 (k_dt k) (k_niter k) (place p) (g_u p) /\
    x' = coordinate_push M to_cd 0 (k_dt k) (k_niter k) (place p) u') \/
   (exists o ng DB DB0 Dc Bc, push_massive M to_cd mpi o ng k b DB DB0 p = Ok q /\
    interpolate o ng DB DB0 p = Some (Dc, Bc) /\
    u' = kick_massive M to_cd k (place p) Dc Bc (g_u p) /\
    x' = coordinate_push M to_cd 1 (k_dt k) (k_niter k) (place p) u')).

(** Many steps: of a photon; of a massive particle where there are no fields, always found off the axis. *)
Inductive photon_run (M : grmet) (to_cd : R -> R) : gprt -> gprt -> Prop :=
| pr_none : forall p, photon_run M to_cd p p
| pr_step : forall mpi k b p q r, push_massless M to_cd mpi k b p = Ok q -> photon_run M to_cd q r -> photon_run M to_cd p r.
Inductive vacuum_run (M : grmet) (to_cd : R -> R) : gprt -> gprt -> Prop :=
| vr_none : forall p, vacuum_run M to_cd p p
| vr_step : forall mpi o ng k b p q r, gr_regular M (place p) ->
    push_massive M to_cd mpi o ng k b (fun _ _ => 0) (fun _ _ => 0) p = Ok q -> vacuum_run M to_cd q r -> vacuum_run M to_cd p r.
