(** The particle pusher of the GR engine, two dimensions: src/kernels/pushers/gr.hpp and
    src/kernels/pushers/context.h:180-236.  Exact real arithmetic.  The metric is any of the
    records of KsModel; [to_cd] is its convert<2, Ph, Cd>.  GeodesicFullPush (385-454) is not
    called by the kernels and not modelled. *)
From Coq Require Import Reals ZArith List Bool.
From Verif Require Import Base DirsModel TopoModel VelModel PushModel MetModel KsModel.
From Verif Require FieldModel InterpModel.
Import ListNotations.
Open Scope R_scope.

(** One particle: cell, offset and previous values along both directions, covariant velocity,
    azimuth, tag. *)
Record gprt := { g1 : pos; g2 : pos; g_u : vec3; g_phi : R; g_tag : Z }.

(** context.h:181-209, PusherContext; [hdt] is normalized_dt_half (gr.hpp:102-103). *)
Record gctx := { k_mass : R; k_charge : R; k_dt : R; k_omegaB0 : R; k_niter : nat; k_ni1 : Z; k_ni2 : Z }.
Definition hdt (k : gctx) : R := normalized_dt_half (k_charge k) (k_mass k) (k_omegaB0 k) (k_dt k).

(** context.h:211-236, PusherBoundaries. *)
Record gbcs := { absorb_i1min : bool; absorb_i1max : bool; axis_i2min : bool; axis_i2max : bool }.
Definition swallows (b : prtl_bc) : bool := match b with P_ABSORB | P_HORIZON => true | _ => false end.
Definition is_axis (b : prtl_bc) : bool := match b with P_AXIS => true | _ => false end.
Definition gr_bcs (b : list (prtl_bc * prtl_bc)) : res gbcs :=
  match b with
  | (lo1, hi1) :: (lo2, hi2) :: _ =>
      Ok {| absorb_i1min := swallows lo1; absorb_i1max := swallows hi1; axis_i2min := is_axis lo2; axis_i2max := is_axis hi2 |}
  | _ => Err
  end.

(** constant::SMALL_ANGLE_GR, src/global/utils/numeric.h:103. *)
Definition small_angle_gr : R := 1 / 100000.

Section GrPush.
  Variables (M : grmet) (to_cd : R -> R).

  (** metric.transform<i, o>; None only for pairs that the pusher does not use. *)
  Definition tr (i o : idx) (x : coord2) (v : vec3) : vec3 :=
    match gr_transform M i o x v with Some w => w | None => v end.

  (** gr.hpp:177-217, EMHalfPush; [h] is normalized_dt_half. *)
  Definition em_half (h : R) (x : coord2) (u Dh Bh : vec3) : vec3 :=
    let u0 := tr ID IT x u in
    let c := h * (1 / 2) * m_alpha M x in
    let D0 := vscale c Dh in
    let u0 := vadd u0 D0 in
    let c := c * (1 / sqrt (1 + v1 u0 * v1 u0 + v2 u0 * v2 u0 + v3 u0 * v3 u0)) in
    let B0 := vscale c Bh in
    let c := 2 / (1 + v1 B0 * v1 B0 + v2 B0 * v2 B0 + v3 B0 * v3 B0) in
    let w := ((v1 u0 + v2 u0 * v3 B0 - v3 u0 * v2 B0) * c,
              (v2 u0 + v3 u0 * v1 B0 - v1 u0 * v3 B0) * c,
              (v3 u0 + v1 u0 * v2 B0 - v2 u0 * v1 B0) * c) in
    let u0 := (v1 u0 + (v2 w * v3 B0 - v3 w * v2 B0 + v1 D0),
               v2 u0 + (v3 w * v1 B0 - v1 w * v3 B0 + v2 D0),
               v3 u0 + (v1 w * v2 B0 - v2 w * v1 B0 + v3 D0)) in
    tr IT ID x u0.

  (** gr.hpp:235-250, computeGamma; [nrm] is 1 for massive, 0 for massless particles. *)
  Definition compute_gamma (nrm : R) (u w : vec3) : R :=
    sqrt (nrm + v1 u * v1 w + v2 u * v2 w + v3 u * v3 w).

  (** gr.hpp:278-326: the body of the loop of GeodesicMomentumPush. *)
  Definition momentum_iter (nrm dt : R) (x : coord2) (u upd : vec3) : vec3 :=
    let m := (1 / 2 * (v1 u + v1 upd), 1 / 2 * (v2 u + v2 upd), v3 u) in
    let w := tr ID IU x m in
    let u0 := compute_gamma nrm m w / m_alpha M x in
    (v1 u + dt * (- m_alpha M x * u0 * m_dr_alpha M x + v1 m * m_dr_beta1 M x
                  - 1 / 2 / u0 * (m_dr_h11 M x * sqr (v1 m) + m_dr_h22 M x * sqr (v2 m)
                                  + m_dr_h33 M x * sqr (v3 m) + 2 * m_dr_h13 M x * v1 m * v3 m)),
     v2 u + dt * (- m_alpha M x * u0 * m_dt_alpha M x + v1 m * m_dt_beta1 M x
                  - 1 / 2 / u0 * (m_dt_h11 M x * sqr (v1 m) + m_dt_h22 M x * sqr (v2 m)
                                  + m_dt_h33 M x * sqr (v3 m) + 2 * m_dt_h13 M x * v1 m * v3 m)),
     v3 upd).
  (** gr.hpp:260-331, GeodesicMomentumPush. *)
  Definition momentum_push (nrm dt : R) (niter : nat) (x : coord2) (u : vec3) : vec3 :=
    Nat.iter niter (momentum_iter nrm dt x u) (v1 u, v2 u, v3 u).

  (** gr.hpp:352-367 and 749-761: keep away from the axis. *)
  Definition off_axis (x : coord2) : coord2 :=
    let large := PI - small_angle_gr in
    let th := m_th M (snd x) in
    (fst x, if Rlt_dec th small_angle_gr then to_cd small_angle_gr
            else if Rle_dec large th then to_cd large else snd x).

  (** gr.hpp:348-378: the body of the loop of GeodesicCoordinatePush. *)
  Definition coordinate_iter (nrm dt : R) (x : coord2) (u : vec3) (upd : coord2) : coord2 :=
    let m := off_axis (1 / 2 * (fst x + fst upd), 1 / 2 * (snd x + snd upd)) in
    let w := tr ID IU m u in
    let u0 := compute_gamma nrm u w / m_alpha M m in
    (fst x + dt * (v1 w / u0 - m_beta1 M m), snd x + dt * (v2 w / u0)).
  (** gr.hpp:333-383, GeodesicCoordinatePush. *)
  Definition coordinate_push (nrm dt : R) (niter : nat) (x : coord2) (u : vec3) : coord2 :=
    Nat.iter niter (coordinate_iter nrm dt x u) (fst x, snd x).

  (** gr.hpp:459-480, UpdatePhi: what its parameter [phi] holds at the end. *)
  Definition update_phi (nrm dt : R) (x : coord2) (u : vec3) (phi : R) : R :=
    let w := tr ID IU x u in
    let u0 := compute_gamma nrm u w / m_alpha M x in
    let phi := phi + dt * v3 w / u0 in
    if Rle_dec (2 * PI) phi then phi - 2 * PI else if Rlt_dec phi 0 then phi + 2 * PI else phi.

  (** gr.hpp:818-865, boundaryConditions; [mpi]: MPI_ENABLED. *)
  Definition gr_boundary (mpi : bool) (k : gctx) (b : gbcs) (p : gprt) : gprt :=
    let i1 := ci (g1 p) in
    let tag := if ((i1 <? 0)%Z && absorb_i1min b) || ((k_ni1 k <=? i1)%Z && absorb_i1max b) then 0%Z else g_tag p in
    let fold_at edge := {| ci := edge; cx := 1 - cx (g2 p); ci_prev := ci_prev (g2 p); cx_prev := cx_prev (g2 p) |} in
    let back := (v1 (g_u p), - v2 (g_u p), v3 (g_u p)) in
    let '(c2, u) :=
      if (ci (g2 p) <? 0)%Z then if axis_i2min b then (fold_at 0%Z, back) else (g2 p, g_u p)
      else if (k_ni2 k <=? ci (g2 p))%Z then if axis_i2max b then (fold_at (k_ni2 k - 1)%Z, back) else (g2 p, g_u p)
      else (g2 p, g_u p) in
    let tag := if mpi then send_tag2 tag (i1 <? 0)%Z (k_ni1 k <=? i1)%Z (ci c2 <? 0)%Z (k_ni2 k <=? ci c2)%Z else tag in
    {| g1 := g1 p; g2 := c2; g_u := u; g_phi := g_phi p; g_tag := tag |}.

  (** Position of a particle in code coordinates, gr.hpp:687-688, 746-747. *)
  Definition place (p : gprt) : coord2 := (i_di_to_Xi (ci (g1 p)) (cx (g1 p)), i_di_to_Xi (ci (g2 p)) (cx (g2 p))).

  (** gr.hpp:688-719 and 786-810: coordinate push, azimuth, storing of position and velocity,
      boundary conditions.  UpdatePhi takes the azimuth by value (gr.hpp:164-167, 697-702,
      789-793), so what it computes is dropped. *)
  Definition move (mpi : bool) (nrm : R) (k : gctx) (b : gbcs) (p : gprt) (u : vec3) : gprt :=
    let x := place p in
    let x' := coordinate_push nrm (k_dt k) (k_niter k) x u in
    let phi := g_phi p in
    let _ := update_phi nrm (k_dt k) ((fst x + fst x') * (1 / 2), (snd x + snd x') * (1 / 2)) u phi in
    gr_boundary mpi k b
      {| g1 := move_to (fst x') (g1 p); g2 := move_to (snd x') (g2 p); g_u := u; g_phi := phi; g_tag := g_tag p |}.

  (** gr.hpp:667-723, the photon pusher. *)
  Definition push_massless (mpi : bool) (k : gctx) (b : gbcs) (p : gprt) : res gprt :=
    if negb (g_tag p =? 1)%Z then if negb (g_tag p =? 0)%Z then Err else Ok p
    else Ok (move mpi 0 k b p (momentum_push 0 (k_dt k) (k_niter k) (place p) (g_u p))).

  (** gr.hpp:482-663, interpolateFields: the sums of sr.hpp in two dimensions (modelled in
      InterpModel), electric components from [DB], magnetic ones from [DB0]; [ng] ghost cells,
      shape order [o]. *)
  Definition interpolate (o : nat) (ng : Z) (DB DB0 : FieldModel.fields) (p : gprt) : option (vec3 * vec3) :=
    let ps := [((ci (g1 p) + ng)%Z, cx (g1 p)); ((ci (g2 p) + ng)%Z, cx (g2 p))] in
    let D c := InterpModel.interp o c ps DB in
    let B c := InterpModel.interp o c ps DB0 in
    match D FieldModel.Ex1, D FieldModel.Ex2, D FieldModel.Ex3, B FieldModel.Bx1, B FieldModel.Bx2, B FieldModel.Bx3 with
    | Some d1, Some d2, Some d3, Some b1, Some b2, Some b3 => Some ((d1, d2, d3), (b1, b2, b3))
    | _, _, _, _, _, _ => None
    end.

  (** gr.hpp:763-784: the velocity after the two half pushes by the fields [Dc], [Bc]
      (contravariant) and the geodesic push between them. *)
  Definition kick_massive (k : gctx) (x : coord2) (Dc Bc u : vec3) : vec3 :=
    let Dh := tr IU IT x Dc in
    let Bh := tr IU IT x Bc in
    let u := em_half (hdt k) x u Dh Bh in
    let u := momentum_push 1 (k_dt k) (k_niter k) (off_axis x) u in
    em_half (hdt k) x u Dh Bh.

  (** gr.hpp:727-814, the pusher for massive particles. *)
  Definition push_massive (mpi : bool) (o : nat) (ng : Z) (k : gctx) (b : gbcs) (DB DB0 : FieldModel.fields) (p : gprt) : res gprt :=
    if negb (g_tag p =? 1)%Z then if negb (g_tag p =? 0)%Z then Err else Ok p
    else match interpolate o ng DB DB0 p with
         | None => Err
         | Some (Dc, Bc) => Ok (move mpi 1 k b p (kick_massive k (place p) Dc Bc (g_u p)))
         end.
End GrPush.
