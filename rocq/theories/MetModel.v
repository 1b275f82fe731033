(** Flat-space metrics: coordinate conversions and vector transformations
    (src/metrics/metric_base.h, minkowski.h, spherical.h, qspherical.h).
    Real arithmetic is exact; the decimal constants of numeric.h:89-103 and of
    theta2eta are replaced by the exact numbers they abbreviate.  NaN and
    infinities are the value [None]. *)
From Coq Require Import Reals ZArith List Bool.
From Verif Require Import Base.
Open Scope R_scope.

(** SQR, CUBE (src/global/utils/numeric.h:69-70). *)
Definition sqr (x : R) : R := x * x.
Definition cube (x : R) : R := x * x * x.

(** cmp::AlmostZero, cmp::AlmostEqual (src/global/utils/comparators.h:29-42). *)
Definition almost_zero (eps a : R) : bool :=
  if Rle_dec (Rabs a) eps then true else false.
Definition almost_equal (eps a b : R) : bool :=
  if Req_EM_T a b then true
  else if Rle_dec (Rabs (a - b)) (Rmin (Rabs a) (Rabs b) * eps) then true
  else false.

(** math::atan2 on finite arguments; a zero has no sign here. *)
Definition atan2 (y x : R) : R :=
  if Rlt_dec 0 x then atan (y / x)
  else if Rlt_dec x 0 then
         if Rle_dec 0 y then atan (y / x) + PI else atan (y / x) - PI
  else if Rlt_dec 0 y then PI / 2
  else if Rlt_dec y 0 then - (PI / 2)
  else 0.

(** Crd (src/global/global.h) and Idx: coordinate systems and vector bases. *)
Inductive crd := Cd | Ph | CXYZ | CSph.
Inductive idx := IT | IXYZ | ISph | IU | ID | IPU | IPD.
Definition idx_eqb (a b : idx) : bool :=
  match a, b with
  | IT, IT | IXYZ, IXYZ | ISph, ISph | IU, IU | ID, ID | IPU, IPU | IPD, IPD => true
  | _, _ => false
  end.

Definition coord2 : Type := R * R.
Definition vec3 : Type := R * R * R.
Definition opt3 (a b c : option R) : option vec3 :=
  match a, b, c with
  | Some x, Some y, Some z => Some (x, y, z)
  | _, _, _ => None
  end.

(** MetricBase: resolution and extent (src/metrics/metric_base.h:60-120). *)
Record grid := Grid {
  nx1 : Z; nx2 : Z; nx3 : Z;
  x1_min : R; x1_max : R;
  x2_min : R; x2_max : R;
  x3_min : R; x3_max : R }.

(* ---------------------------------------------------------------------- *)
(** * Minkowski (src/metrics/minkowski.h) *)

Section Minkowski.
  Variable d : nat.      (* dimension, 1..3 *)
  Variable g : grid.

  (** minkowski.h:54-55. *)
  Definition mk_dx : R := (x1_max g - x1_min g) / IZR (nx1 g).
  Definition mk_dx_inv : R := 1 / mk_dx.

  (** constructor checks, minkowski.h:57-70; [eps] is the machine epsilon. *)
  Definition mk_make (eps : R) : res grid :=
    if Nat.ltb 1 d
       && negb (almost_equal (eps * 100) ((x2_max g - x2_min g) / IZR (nx2 g)) mk_dx)
    then Err
    else if Nat.eqb d 3
       && negb (almost_equal (eps * 100) ((x3_max g - x3_min g) / IZR (nx3 g)) mk_dx)
    then Err
    else Ok g.

  (** h_, sqrt_h_ on the diagonal, minkowski.h:104-138. *)
  Definition mk_h : R := sqr mk_dx.
  Definition mk_sqrt_h : R := mk_dx.

  (** minkowski.h:144-152. *)
  Definition mk_sqrt_det_h : R :=
    match d with
    | 1%nat => mk_dx
    | 2%nat => sqr mk_dx
    | _ => cube mk_dx
    end.

  (** component-wise convert, minkowski.h:157-183. *)
  Definition mk_min (i : nat) : R :=
    match i with 1%nat => x1_min g | 2%nat => x2_min g | _ => x3_min g end.
  Definition mk_to_ph (i : nat) (x : R) : R := x * mk_dx + mk_min i.
  Definition mk_to_cd (i : nat) (x : R) : R := (x - mk_min i) * mk_dx_inv.

  (** sph <-> code in two dimensions, minkowski.h:211-215 and 225-230. *)
  Definition mk_sph_to_cd2 (x : coord2) : coord2 :=
    let '(r, th) := x in
    (mk_to_cd 1 (r * sin th), mk_to_cd 2 (r * cos th)).
  Definition mk_cd_to_sph2 (x : coord2) : coord2 :=
    let '(a, b) := x in
    let X := mk_to_ph 1 a in
    let Y := mk_to_ph 2 b in
    (sqrt (sqr X + sqr Y), PI / 2 - atan2 Y X).

  (** sph <-> code in three dimensions, minkowski.h:217-221 and 232-239. *)
  Definition mk_sph_to_cd3 (x : vec3) : vec3 :=
    let '(r, th, ph) := x in
    (mk_to_cd 1 (r * sin th * cos ph),
     mk_to_cd 2 (r * sin th * sin ph),
     mk_to_cd 3 (r * cos th)).
  Definition mk_cd_to_sph3 (x : vec3) : vec3 :=
    let '(a, b, c) := x in
    let X := mk_to_ph 1 a in
    let Y := mk_to_ph 2 b in
    let Z := mk_to_ph 3 c in
    (sqrt (sqr X + sqr Y + sqr Z),
     PI / 2 - atan2 Z (sqrt (sqr X + sqr Y)),
     PI - atan2 Y (- X)).

  (** component-wise transform, minkowski.h:263-299; [None] is the
      KernelError branch or a failed static_assert. *)
  Definition mk_transform1 (i : nat) (a b : idx) (v : R) : option R :=
    if idx_eqb a b then None
    else if Nat.ltb d i then Some v
    else match a, b with
         | IT, IXYZ | IXYZ, IT => Some v
         | IT, IU | IXYZ, IU | ID, IT | ID, IXYZ => Some (v / mk_sqrt_h)
         | IU, IT | IU, IXYZ | IT, ID | IXYZ, ID => Some (v * mk_sqrt_h)
         | IU, ID => Some (v * mk_h)
         | ID, IU => Some (v / mk_h)
         | IU, IPU | IPD, ID => Some (v * mk_dx)
         | IPU, IU | ID, IPD => Some (v * mk_dx_inv)
         | _, _ => None
         end.

  (** full transform, minkowski.h:304-312 (transform_xyz, 318-325, is the
      same function). *)
  Definition mk_transform (a b : idx) (v : vec3) : option vec3 :=
    let '(v1, v2, v3) := v in
    opt3 (mk_transform1 1 a b v1) (mk_transform1 2 a b v2) (mk_transform1 3 a b v3).
End Minkowski.

(* ---------------------------------------------------------------------- *)
(** * Rotation between the spherical tetrad and Cartesian axes
    (spherical.h:353-378 = qspherical.h:389-414), position conversion
    (spherical.h:246-266 = qspherical.h:282-302), both after the conversion
    of the code coordinates to (r, theta, phi). *)

Definition sph_to_cart (x : vec3) : vec3 :=
  let '(r, th, ph) := x in
  (r * sin th * cos ph, r * sin th * sin ph, r * cos th).

Definition cart_to_sph (x : vec3) : vec3 :=
  let '(X, Y, Z) := x in
  (sqrt (sqr X + sqr Y + sqr Z),
   PI / 2 - atan2 Z (sqrt (sqr X + sqr Y)),
   PI - atan2 Y (- X)).

Definition tetrad_to_cart (th ph : R) (v : vec3) : vec3 :=
  let '(v1, v2, v3) := v in
  (v1 * sin th * cos ph + v2 * cos th * cos ph - v3 * sin ph,
   v1 * sin th * sin ph + v2 * cos th * sin ph + v3 * cos ph,
   v1 * cos th - v2 * sin th).

Definition cart_to_tetrad (th ph : R) (v : vec3) : vec3 :=
  let '(v1, v2, v3) := v in
  (v1 * sin th * cos ph + v2 * sin th * sin ph + v3 * cos th,
   v1 * cos th * cos ph + v2 * cos th * sin ph - v3 * sin th,
   - v1 * sin ph + v2 * cos ph).

(* ---------------------------------------------------------------------- *)
(** * Spherical, two dimensions (src/metrics/spherical.h) *)

(** constant::SMALL_ANGLE (numeric.h:102). *)
Definition small_angle_lim : R := 1 / 1000.

Section Spherical.
  Variable g : grid.

  (** spherical.h:58-64. *)
  Definition s_dr : R := (x1_max g - x1_min g) / IZR (nx1 g).
  Definition s_dth : R := (x2_max g - x2_min g) / IZR (nx2 g).
  Definition s_dr_inv : R := 1 / s_dr.
  Definition s_dth_inv : R := 1 / s_dth.
  Definition s_small : bool := if Rlt_dec (1 / 2 * s_dth) small_angle_lim then true else false.

  (** component-wise convert, spherical.h:182-216. *)
  Definition s_to_ph (i : nat) (x : R) : R :=
    match i with
    | 1%nat => x * s_dr + x1_min g
    | 2%nat => x * s_dth + x2_min g
    | _ => x
    end.
  Definition s_to_cd (i : nat) (x : R) : R :=
    match i with
    | 1%nat => (x - x1_min g) * s_dr_inv
    | 2%nat => (x - x2_min g) * s_dth_inv
    | _ => x
    end.

  (** h_, sqrt_h_ on the diagonal, spherical.h:95-136. *)
  Definition s_h (i : nat) (x : coord2) : R :=
    let '(a, b) := x in
    match i with
    | 1%nat => sqr s_dr
    | 2%nat => sqr s_dth * sqr (a * s_dr + x1_min g)
    | _ => sqr (a * s_dr + x1_min g) * sqr (sin (b * s_dth + x2_min g))
    end.
  Definition s_sqrt_h (i : nat) (x : coord2) : R :=
    let '(a, b) := x in
    match i with
    | 1%nat => s_dr
    | 2%nat => s_dth * (a * s_dr + x1_min g)
    | _ => (a * s_dr + x1_min g) * sin (b * s_dth + x2_min g)
    end.

  (** spherical.h:142-162. *)
  Definition s_sqrt_det_h (x : coord2) : R :=
    let '(a, b) := x in
    s_dr * s_dth * sqr (a * s_dr + x1_min g) * sin (b * s_dth + x2_min g).
  Definition s_sqrt_det_h_tilde (x : coord2) : R :=
    let '(a, b) := x in s_dr * s_dth * sqr (a * s_dr + x1_min g).

  (** polar_area, spherical.h:169-177. *)
  Definition s_polar_area (x1 : R) : R :=
    if s_small then s_dr * sqr (x1 * s_dr + x1_min g) * (48 - sqr s_dth) * sqr s_dth / 384
    else s_dr * sqr (x1 * s_dr + x1_min g) * (1 - cos (1 / 2 * s_dth)).

  (** convert_xyz, spherical.h:240-267. *)
  Definition s_cd_to_xyz (x : vec3) : vec3 :=
    let '(a, b, c) := x in sph_to_cart (s_to_ph 1 a, s_to_ph 2 b, s_to_ph 3 c).
  Definition s_xyz_to_cd (x : vec3) : vec3 :=
    let '(r, th, ph) := cart_to_sph x in (s_to_cd 1 r, s_to_cd 2 th, s_to_cd 3 ph).

  (** component-wise transform, spherical.h:273-324. *)
  Definition s_phys (i : nat) : R :=
    match i with 1%nat => s_dr | 2%nat => s_dth | _ => 1 end.
  Definition s_phys_inv (i : nat) : R :=
    match i with 1%nat => s_dr_inv | 2%nat => s_dth_inv | _ => 1 end.
  Definition s_transform1 (i : nat) (a b : idx) (x : coord2) (v : R) : option R :=
    match a, b with
    | IT, ISph | ISph, IT => Some v
    | IT, IU | ISph, IU | ID, IT | ID, ISph => Some (v / s_sqrt_h i x)
    | IU, IT | IU, ISph | IT, ID | ISph, ID => Some (v * s_sqrt_h i x)
    | IU, ID => Some (v * s_h i x)
    | ID, IU => Some (v / s_h i x)
    | IU, IPU | IPD, ID => Some (v * s_phys i)
    | IPU, IU | ID, IPD => Some (v * s_phys_inv i)
    | _, _ => None
    end.

  (** full transform, spherical.h:329-341. *)
  Definition s_transform (a b : idx) (x : coord2) (v : vec3) : option vec3 :=
    let '(v1, v2, v3) := v in
    opt3 (s_transform1 1 a b x v1) (s_transform1 2 a b x v2) (s_transform1 3 a b x v3).

  (** transform_xyz, spherical.h:346-398. *)
  Definition s_transform_xyz (a b : idx) (x : vec3) (v : vec3) : option vec3 :=
    let '(c1, c2, c3) := x in
    let th := s_to_ph 2 c2 in
    let ph := s_to_ph 3 c3 in
    match a, b with
    | IT, IXYZ => Some (tetrad_to_cart th ph v)
    | IXYZ, IT => Some (cart_to_tetrad th ph v)
    | IXYZ, _ => s_transform IT b (c1, c2) (cart_to_tetrad th ph v)
    | _, IXYZ =>
      match s_transform a IT (c1, c2) v with
      | Some w => Some (tetrad_to_cart th ph w)
      | None => None
      end
    | _, _ => None
    end.
End Spherical.

(* ---------------------------------------------------------------------- *)
(** * The angular stretching shared by qspherical.h:436-494 and
    qkerr_schild.h (last private section); [h] is the stretching parameter. *)

Section Stretch.
  Variables (eps h : R).

  (** dtheta_deta, qspherical.h:441-449. *)
  Definition dtheta_deta (eta : R) : R :=
    if almost_zero eps h then 1
    else 1 + 2 * h + 12 * h * (eta / PI) * (eta / PI - 1).

  (** eta2theta, qspherical.h:454-461. *)
  Definition eta2theta (eta : R) : R :=
    if almost_zero eps h then eta
    else eta + 2 * h * eta * (PI - 2 * eta) * (PI - eta) / (PI * PI).

  (** theta2eta, qspherical.h:466-493: the argument of the square root, the
      argument of pow(.,1/3), and the result.  pow of a negative number with
      exponent 1/3 and sqrt of a negative number are NaN; a zero root makes
      the quotient by R infinite or NaN. *)
  Definition t2e_disc (th : R) : R :=
    cube h * ((4 - h) * sqr (PI + h * (2 * PI)) - 108 * h * PI * th + 108 * h * sqr th).
  Definition t2e_arg (th : R) : R :=
    -9 * sqr h * (PI - 2 * th) + sqrt 3 * sqrt (t2e_disc th).
  Definition theta2eta (th : R) : option R :=
    if almost_zero eps h then Some th
    else if Rlt_dec (t2e_disc th) 0 then None
    else if Rle_dec (t2e_arg th) 0 then None
    else
      let rho := Rpower (t2e_arg th) (1 / 3) in
      Some (Rpower PI (2 / 3) *
            (6 * Rpower PI (1 / 3)
             + 2 * Rpower 2 (1 / 3) * (h - 1) * Rpower (3 * PI) (2 / 3) / rho
             + Rpower 2 (2 / 3) * Rpower 3 (1 / 3) * rho / h) / 12).
End Stretch.

(* ---------------------------------------------------------------------- *)
(** * QSpherical, two dimensions (src/metrics/qspherical.h) *)

Record qmet := QMet {
  q_eps : R; q_r0 : R; q_h0 : R;
  q_chi_min : R; q_eta_min : R; q_dchi : R; q_deta : R }.

(** The constructor, qspherical.h:59-75; [None] when one of the members is
    not a finite number. *)
Definition q_make (eps : R) (g : grid) (r0 h : R) : option qmet :=
  if Rle_dec (x1_min g - r0) 0 then None
  else if Rle_dec (x1_max g - r0) 0 then None
  else match theta2eta eps h (x2_min g), theta2eta eps h (x2_max g) with
       | Some e0, Some e1 =>
         let c0 := ln (x1_min g - r0) in
         Some (QMet eps r0 h c0 e0
                    ((ln (x1_max g - r0) - c0) / IZR (nx1 g))
                    ((e1 - e0) / IZR (nx2 g)))
       | _, _ => None
       end.

Section QSpherical.
  Variable m : qmet.
  Notation r0 := (q_r0 m).
  Notation e2t := (eta2theta (q_eps m) (q_h0 m)).
  Notation t2e := (theta2eta (q_eps m) (q_h0 m)).
  Notation dtde := (dtheta_deta (q_eps m) (q_h0 m)).

  Definition q_chi (a : R) : R := a * q_dchi m + q_chi_min m.
  Definition q_eta (b : R) : R := b * q_deta m + q_eta_min m.

  (** component-wise convert, qspherical.h:218-252. *)
  Definition q_to_ph (i : nat) (x : R) : R :=
    match i with
    | 1%nat => r0 + exp (q_chi x)
    | 2%nat => e2t (q_eta x)
    | _ => x
    end.
  Definition q_to_cd (i : nat) (x : R) : option R :=
    match i with
    | 1%nat => if Rle_dec (x - r0) 0 then None
               else Some ((ln (x - r0) - q_chi_min m) * (1 / q_dchi m))
    | 2%nat => match t2e x with
               | Some e => Some ((e - q_eta_min m) * (1 / q_deta m))
               | None => None
               end
    | _ => Some x
    end.

  (** h_, sqrt_h_ on the diagonal, qspherical.h:120-166. *)
  Definition q_h (i : nat) (x : coord2) : R :=
    let '(a, b) := x in
    match i with
    | 1%nat => sqr (q_dchi m) * exp (2 * q_chi a)
    | 2%nat => sqr (q_deta m) * sqr (dtde (q_eta b)) * sqr (r0 + exp (q_chi a))
    | _ => sqr ((r0 + exp (q_chi a)) * sin (e2t (q_eta b)))
    end.
  Definition q_sqrt_h (i : nat) (x : coord2) : R :=
    let '(a, b) := x in
    match i with
    | 1%nat => q_dchi m * exp (q_chi a)
    | 2%nat => q_deta m * dtde (q_eta b) * (r0 + exp (q_chi a))
    | _ => (r0 + exp (q_chi a)) * sin (e2t (q_eta b))
    end.

  (** qspherical.h:172-194. *)
  Definition q_sqrt_det_h (x : coord2) : R :=
    let '(a, b) := x in
    q_dchi m * q_deta m * exp (q_chi a) * dtde (q_eta b) *
    sqr (r0 + exp (q_chi a)) * sin (e2t (q_eta b)).
  Definition q_sqrt_det_h_tilde (x : coord2) : R :=
    let '(a, b) := x in
    q_dchi m * q_deta m * exp (q_chi a) * dtde (q_eta b) * sqr (r0 + exp (q_chi a)).

  (** polar_area, qspherical.h:74 and 200-213. *)
  Definition q_small : bool :=
    if Rlt_dec (e2t (1 / 2 * q_deta m)) small_angle_lim then true else false.
  Definition q_polar_area (x1 : R) : R :=
    let ec := exp (q_chi x1) in
    if q_small then
      let dth := e2t (1 / 2 * q_deta m) in
      q_dchi m * ec * sqr (r0 + ec) * (48 - sqr dth) * sqr dth / 384
    else q_dchi m * ec * sqr (r0 + ec) * (1 - cos (e2t (1 / 2 * q_deta m))).

  (** convert_xyz, qspherical.h:276-303. *)
  Definition q_cd_to_xyz (x : vec3) : vec3 :=
    let '(a, b, c) := x in sph_to_cart (q_to_ph 1 a, q_to_ph 2 b, q_to_ph 3 c).
  Definition q_xyz_to_cd (x : vec3) : option vec3 :=
    let '(r, th, ph) := cart_to_sph x in opt3 (q_to_cd 1 r) (q_to_cd 2 th) (q_to_cd 3 ph).

  (** component-wise transform, qspherical.h:309-360. *)
  Definition q_to_phys (i : nat) (x : coord2) (v : R) : R :=
    let '(a, b) := x in
    match i with
    | 1%nat => v * exp (q_chi a) * q_dchi m
    | 2%nat => v * (dtde (q_eta b) * q_deta m)
    | _ => v
    end.
  Definition q_of_phys (i : nat) (x : coord2) (v : R) : R :=
    let '(a, b) := x in
    match i with
    | 1%nat => v * (1 / q_dchi m) / exp (q_chi a)
    | 2%nat => v * (1 / q_deta m) / dtde (q_eta b)
    | _ => v
    end.
  Definition q_transform1 (i : nat) (a b : idx) (x : coord2) (v : R) : option R :=
    match a, b with
    | IT, ISph | ISph, IT => Some v
    | IT, IU | ISph, IU | ID, IT | ID, ISph => Some (v / q_sqrt_h i x)
    | IU, IT | IU, ISph | IT, ID | ISph, ID => Some (v * q_sqrt_h i x)
    | IU, ID => Some (v * q_h i x)
    | ID, IU => Some (v / q_h i x)
    | IU, IPU | IPD, ID => Some (q_to_phys i x v)
    | IPU, IU | ID, IPD => Some (q_of_phys i x v)
    | _, _ => None
    end.

  (** full transform, qspherical.h:365-377. *)
  Definition q_transform (a b : idx) (x : coord2) (v : vec3) : option vec3 :=
    let '(v1, v2, v3) := v in
    opt3 (q_transform1 1 a b x v1) (q_transform1 2 a b x v2) (q_transform1 3 a b x v3).

  (** transform_xyz, qspherical.h:382-434. *)
  Definition q_transform_xyz (a b : idx) (x : vec3) (v : vec3) : option vec3 :=
    let '(c1, c2, c3) := x in
    let th := q_to_ph 2 c2 in
    let ph := q_to_ph 3 c3 in
    match a, b with
    | IT, IXYZ => Some (tetrad_to_cart th ph v)
    | IXYZ, IT => Some (cart_to_tetrad th ph v)
    | IXYZ, _ => q_transform IT b (c1, c2) (cart_to_tetrad th ph v)
    | _, IXYZ =>
      match q_transform a IT (c1, c2) v with
      | Some w => Some (tetrad_to_cart th ph w)
      | None => None
      end
    | _, _ => None
    end.
End QSpherical.
