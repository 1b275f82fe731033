(** Bulk four-velocity of the GR engine:
    src/kernels/particle_moments.hpp, computeEckartVelocityFluxComponent (259-292),
    Normalize4VelocityByNorm_kernel (483-641), Transform4VelocitySpatialToPhysical_kernel
    (643-710), launched at src/framework/domain/metadomain_io.cpp:706-748.

    Exact reals, so math::isfinite is true; two dimensions (the only ones the GR metrics allow).
    The weight with which a particle enters a cell (its weight, 1/n0, the volume of its cell and
    the smoothing function, particle_moments.hpp:313-427) is one number per particle here; it is
    the subject of MomentModel.v. *)
From Coq Require Import Reals ZArith List Bool.
From Verif Require Import Base MetModel KsModel.
Import ListNotations.
Open Scope R_scope.

(** A particle and the number by which a component is multiplied before it is added to the cell. *)
Record contributor := Con { q_x : coord2; q_u : vec3; q_mass : R; q_share : R }.

(** raise the covariant velocity, 272-281; the norm is 0 for massless particles, else 1. *)
Definition up4 (M : grmet) (p : contributor) : vec4 :=
  let '(u1, u2, u3) := q_u p in
  let u_0_cov := gr_u_0 M (q_x p) (q_u p) (if Req_EM_T (q_mass p) 0 then 0 else 1) in
  gr_cov_to_cntrv4 M (q_x p) (u_0_cov, u1, u2, u3).

Definition massfac (p : contributor) : R := if Req_EM_T (q_mass p) 0 then 1 else q_mass p.

Definition at4 (v : vec4) (c : nat) : R :=
  let '(v0, v1, v2, v3) := v in
  match c with 0%nat => v0 | 1%nat => v1 | 2%nat => v2 | _ => v3 end.

(** 282-291. *)
Definition flux_component (M : grmet) (p : contributor) (c : nat) : R :=
  let u := up4 M p in
  let u0 := at4 u 0 in
  match c with
  | 0%nat => massfac p
  | _ => massfac p * at4 u c / u0
  end.

(** metadomain_io.cpp:709-722: one pass over the particles for every component; the additions are
    atomic and in any order. *)
Definition deposit (M : grmet) (ps : list contributor) (c : nat) : R :=
  fold_left (fun acc p => acc + q_share p * flux_component M p c) ps 0.
Definition cell_flux (M : grmet) (ps : list contributor) : vec4 :=
  (deposit M ps 0, deposit M ps 1, deposit M ps 2, deposit M ps 3).

(** zamo_fallback_2d, 515-529. *)
Definition zamo_fallback (M : grmet) (x : coord2) : vec4 :=
  let al := m_alpha M x in (1 / al, - m_beta1 M x / al, 0, 0).

(** operator(), 547-591. *)
Definition normalize (eps : R) (M : grmet) (x : coord2) (N_cntrv : vec4) : vec4 :=
  let '(n0, n1, n2, n3) := N_cntrv in
  if almost_zero eps n0 then zamo_fallback M x
  else
    let '(d0, d1, d2, d3) := gr_cntrv_to_cov4 M x N_cntrv in
    let N_norm_sq := d0 * n0 + d1 * n1 + d2 * n2 + d3 * n3 in
    if Rlt_dec N_norm_sq 0 then
      let norm := sqrt (- N_norm_sq) in
      if almost_zero eps norm then zamo_fallback M x
      else (n0 / norm, n1 / norm, n2 / norm, n3 / norm)
    else zamo_fallback M x.

(** 670-687. *)
Definition to_physical (M : grmet) (x : coord2) (V : vec4) : option vec4 :=
  let '(v0, v1, v2, v3) := V in
  option_map (fun w : vec3 => let '(w1, w2, w3) := w in (v0, w1, w2, w3)) (gr_transform M IU IPU x (v1, v2, v3)).

(** Centre of the active cell (i1, i2), 549-551. *)
Definition centre (i1 i2 : Z) : coord2 := (IZR i1 + 1 / 2, IZR i2 + 1 / 2).

(** metadomain_io.cpp:706-748 for one cell: deposit, normalise, transform. *)
Definition bulk_velocity4 (eps : R) (M : grmet) (i1 i2 : Z) (ps : list contributor) : option vec4 :=
  let x := centre i1 i2 in to_physical M x (normalize eps M x (cell_flux M ps)).
