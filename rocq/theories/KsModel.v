(** Kerr-Schild metrics of the GR engine: src/metrics/kerr_schild.h,
    src/metrics/kerr_schild_0.h and src/metrics/qkerr_schild.h, two
    dimensions (the only ones the static_asserts allow).  Exact real
    arithmetic; [eps] is the tolerance of cmp::AlmostZero.  Code coordinates
    are pairs; a metric component h<i,j> is the function [.. i j x]. *)
From Coq Require Import Reals ZArith List Bool.
From Verif Require Import Base MetModel.
Open Scope R_scope.

(** Delta, Sigma, A, z: kerr_schild.h:45-59 = qkerr_schild.h:44-58. *)
Definition k_Delta (a r : R) : R := sqr r - 2 * r + sqr a.
Definition k_Sigma (a r th : R) : R := sqr r + sqr a * sqr (cos th).
Definition k_A (a r th : R) : R := sqr (sqr r + sqr a) - sqr a * k_Delta a r * sqr (sin th).
Definition k_z (a r th : R) : R := 2 * r / k_Sigma a r th.

(** "if (cmp::AlmostZero(v)) return ZERO; else return v;" *)
Definition flush (eps v : R) : R := if almost_zero eps v then 0 else v.

(** What a metric of the GR engine offers to the kernels. *)
Record grmet := GRMet {
  m_r : R -> R;                          (* convert<1, Cd, Ph> *)
  m_th : R -> R;                         (* convert<2, Cd, Ph> *)
  m_h_ : nat -> nat -> coord2 -> R;      (* h_<i,j> *)
  m_h : nat -> nat -> coord2 -> R;       (* h<i,j> *)
  m_g_ : nat -> nat -> coord2 -> R;      (* g_<i,j> *)
  m_g : nat -> nat -> coord2 -> R;       (* g<i,j> *)
  m_alpha : coord2 -> R;
  m_beta1 : coord2 -> R;
  m_dr_alpha : coord2 -> R; m_dt_alpha : coord2 -> R;
  m_dr_beta1 : coord2 -> R; m_dt_beta1 : coord2 -> R;
  m_dr_h11 : coord2 -> R; m_dr_h22 : coord2 -> R; m_dr_h33 : coord2 -> R; m_dr_h13 : coord2 -> R;
  m_dt_h11 : coord2 -> R; m_dt_h22 : coord2 -> R; m_dt_h33 : coord2 -> R; m_dt_h13 : coord2 -> R;
  m_sqrt_det_h : coord2 -> R;
  m_sqrt_det_h_tilde : coord2 -> R;
  m_polar_area : R -> R;
  m_to_phys : nat -> coord2 -> R -> R;   (* transform<i, U, PU> = transform<i, PD, D> *)
  m_of_phys : nat -> coord2 -> R -> R    (* transform<i, PU, U> = transform<i, D, PD> *)
}.

(* ---------------------------------------------------------------------- *)
(** * KerrSchild *)

Section KerrSchild.
  Variables (eps a : R) (g : grid).

  (** constructor, kerr_schild.h:83-89 (same expressions as spherical.h). *)
  Notation dr := (s_dr g).
  Notation dtheta := (s_dth g).
  Notation dr_inv := (s_dr_inv g).
  Notation dtheta_inv := (s_dth_inv g).

  (** convert, kerr_schild.h:537-575. *)
  Definition k_r (x1 : R) : R := x1 * dr + x1_min g.
  Definition k_th (x2 : R) : R := x2 * dtheta + x2_min g.

  (** h_, kerr_schild.h:143-177. *)
  Definition k_h_ (i j : nat) (x : coord2) : R :=
    let r := k_r (fst x) in
    let th := k_th (snd x) in
    match i, j with
    | 1%nat, 1%nat => sqr dr * (1 + k_z a r th)
    | 2%nat, 2%nat => sqr dtheta * k_Sigma a r th
    | 3%nat, 3%nat => k_A a r th * sqr (sin th) / k_Sigma a r th
    | 1%nat, 3%nat | 3%nat, 1%nat => - dr * a * (1 + k_z a r th) * sqr (sin th)
    | _, _ => 0
    end.

  (** h, kerr_schild.h:183-216. *)
  Definition k_h (i j : nat) (x : coord2) : R :=
    let r := k_r (fst x) in
    let th := k_th (snd x) in
    match i, j with
    | 1%nat, 1%nat => sqr dr_inv * k_A a r th / (k_Sigma a r th * (k_Sigma a r th + 2 * r))
    | 2%nat, 2%nat => sqr dtheta_inv / k_Sigma a r th
    | 3%nat, 3%nat => 1 / (k_Sigma a r th * sqr (sin th))
    | 1%nat, 3%nat | 3%nat, 1%nat => dr_inv * a / k_Sigma a r th
    | _, _ => 0
    end.

  (** g_, kerr_schild.h:222-256. *)
  Definition k_g_ (i j : nat) (x : coord2) : R :=
    let r := k_r (fst x) in
    let th := k_th (snd x) in
    match i, j with
    | 0%nat, 0%nat => - (1 - k_z a r th)
    | 0%nat, 1%nat | 1%nat, 0%nat => dr * k_z a r th
    | 0%nat, 3%nat | 3%nat, 0%nat => - a * k_z a r th * sqr (sin th)
    | 1%nat, 1%nat => sqr dr * (1 + k_z a r th)
    | 2%nat, 2%nat => k_h_ 2 2 x
    | 3%nat, 3%nat => k_h_ 3 3 x
    | 1%nat, 3%nat | 3%nat, 1%nat => k_h_ 1 3 x
    | _, _ => 0
    end.

  (** g, kerr_schild.h:262-288. *)
  Definition k_g (i j : nat) (x : coord2) : R :=
    let r := k_r (fst x) in
    let th := k_th (snd x) in
    match i, j with
    | 0%nat, 0%nat => - (1 + k_z a r th)
    | 0%nat, 1%nat | 1%nat, 0%nat => dr_inv * k_z a r th
    | 1%nat, 1%nat => sqr dr_inv * k_Delta a r / k_Sigma a r th
    | 2%nat, 2%nat => k_h 2 2 x
    | 3%nat, 3%nat => k_h 3 3 x
    | 1%nat, 3%nat | 3%nat, 1%nat => k_h 1 3 x
    | _, _ => 0
    end.

  (** alpha, kerr_schild.h:294-298. *)
  Definition k_alpha (x : coord2) : R :=
    let r := k_r (fst x) in
    let th := k_th (snd x) in 1 / sqrt (1 + k_z a r th).

  (** dt_Sigma, dt_A, kerr_schild.h:414-436. *)
  Definition k_dt_Sigma (th : R) : R := flush eps (- 2 * sqr a * sin th * cos th * dtheta).
  Definition k_dt_A (r th : R) : R := flush eps (- 2 * sqr a * sin th * cos th * k_Delta a r * dtheta).

  (** dr_alpha, dt_alpha, kerr_schild.h:304-321. *)
  Definition k_dr_alpha (x : coord2) : R :=
    let r := k_r (fst x) in
    let th := k_th (snd x) in
    let dr_Sigma := 2 * r * dr in
    - (dr * k_Sigma a r th - r * dr_Sigma) * cube (k_alpha x) / sqr (k_Sigma a r th).
  Definition k_dt_alpha (x : coord2) : R :=
    let r := k_r (fst x) in
    let th := k_th (snd x) in
    cube (k_alpha x) * r * k_dt_Sigma th / sqr (k_Sigma a r th).

  (** beta1, dr_beta1, dt_beta1, kerr_schild.h:327-354. *)
  Definition k_beta1 (x : coord2) : R :=
    let z_ := k_z a (k_r (fst x)) (k_th (snd x)) in dr_inv * z_ / (1 + z_).
  Definition k_dr_beta1 (x : coord2) : R :=
    let r := k_r (fst x) in
    let th := k_th (snd x) in
    let dr_Sigma := 2 * r * dr in
    dr_inv * 2 * (dr * k_Sigma a r th - r * dr_Sigma) / sqr (k_Sigma a r th + 2 * r).
  Definition k_dt_beta1 (x : coord2) : R :=
    let r := k_r (fst x) in
    let th := k_th (snd x) in
    - dr_inv * 2 * r * k_dt_Sigma th / sqr (k_Sigma a r th * (1 + k_z a r th)).

  (** dr_h11 .. dr_h13, kerr_schild.h:360-408. *)
  Definition k_dr_h11 (x : coord2) : R :=
    let r := k_r (fst x) in
    let th := k_th (snd x) in
    let dr_Sigma := 2 * r * dr in
    let dr_Delta := 2 * dr * (r - 1) in
    let dr_A := 4 * r * dr * (sqr r + sqr a) - sqr a * sqr (sin th) * dr_Delta in
    (k_Sigma a r th * (k_Sigma a r th + 2 * r) * dr_A
     - 2 * k_A a r th * (r * dr_Sigma + k_Sigma a r th * (dr_Sigma + dr)))
    / sqr (k_Sigma a r th * (k_Sigma a r th + 2 * r)) * sqr dr_inv.
  Definition k_dr_h22 (x : coord2) : R :=
    let r := k_r (fst x) in
    let th := k_th (snd x) in
    let dr_Sigma := 2 * r * dr in
    - dr_Sigma / sqr (k_Sigma a r th) * sqr dtheta_inv.
  Definition k_dr_h33 (x : coord2) : R :=
    let r := k_r (fst x) in
    let th := k_th (snd x) in
    let dr_Sigma := 2 * r * dr in
    - dr_Sigma / sqr (k_Sigma a r th) / sqr (sin th).
  Definition k_dr_h13 (x : coord2) : R :=
    let r := k_r (fst x) in
    let th := k_th (snd x) in
    let dr_Sigma := 2 * r * dr in
    - a * dr_Sigma / sqr (k_Sigma a r th) * dr_inv.

  (** dt_h11 .. dt_h13, kerr_schild.h:442-480. *)
  Definition k_dt_h11 (x : coord2) : R :=
    let r := k_r (fst x) in
    let th := k_th (snd x) in
    (k_Sigma a r th * (k_Sigma a r th + 2 * r) * k_dt_A r th
     - 2 * k_A a r th * k_dt_Sigma th * (r + k_Sigma a r th))
    / sqr (k_Sigma a r th * (k_Sigma a r th + 2 * r)) * sqr dr_inv.
  Definition k_dt_h22 (x : coord2) : R :=
    let r := k_r (fst x) in
    let th := k_th (snd x) in
    - k_dt_Sigma th / sqr (k_Sigma a r th) * sqr dtheta_inv.
  Definition k_dt_h33 (x : coord2) : R :=
    let r := k_r (fst x) in
    let th := k_th (snd x) in
    - 2 * dtheta * cos th * (k_Sigma a r th - sqr a * sqr (sin th))
    / cube (sin th) / sqr (k_Sigma a r th).
  Definition k_dt_h13 (x : coord2) : R :=
    let r := k_r (fst x) in
    let th := k_th (snd x) in
    - a * k_dt_Sigma th / sqr (k_Sigma a r th) * dr_inv.

  (** sqrt_det_h, sqrt_det_h_tilde, polar_area, kerr_schild.h:486-532. *)
  Definition k_sqrt_det_h (x : coord2) : R :=
    let r := k_r (fst x) in
    let th := k_th (snd x) in
    dr * dtheta * k_Sigma a r th * sin th * sqrt (1 + k_z a r th).
  Definition k_sqrt_det_h_tilde (x : coord2) : R :=
    let r := k_r (fst x) in
    let th := k_th (snd x) in
    dr * dtheta * k_Sigma a r th * sqrt (1 + k_z a r th).
  Definition k_polar_area (x1 : R) : R :=
    let r := k_r x1 in
    if s_small g then
      dr * (sqr r + sqr a) * sqrt (1 + 2 * r / (sqr r + sqr a)) * (48 - sqr dtheta) * sqr dtheta / 384
    else dr * (sqr r + sqr a) * sqrt (1 + 2 * r / (sqr r + sqr a)) * (1 - cos (1 / 2 * dtheta)).

  (** component-wise transform, kerr_schild.h:717-758 (the same factors as in
      the full transform, 640-661). *)
  Definition k_to_phys (i : nat) (x : coord2) (v : R) : R :=
    match i with 1%nat => v * dr | 2%nat => v * dtheta | _ => v end.
  Definition k_of_phys (i : nat) (x : coord2) (v : R) : R :=
    match i with 1%nat => v * dr_inv | 2%nat => v * dtheta_inv | _ => v end.

  Definition ks : grmet :=
    GRMet k_r k_th k_h_ k_h k_g_ k_g k_alpha k_beta1
      k_dr_alpha k_dt_alpha k_dr_beta1 k_dt_beta1
      k_dr_h11 k_dr_h22 k_dr_h33 k_dr_h13 k_dt_h11 k_dt_h22 k_dt_h33 k_dt_h13
      k_sqrt_det_h k_sqrt_det_h_tilde k_polar_area k_to_phys k_of_phys.
End KerrSchild.

(* ---------------------------------------------------------------------- *)
(** * KerrSchild0 (kerr_schild_0.h): Kerr-Schild without a black hole *)

Section KerrSchild0.
  Variable g : grid.
  Notation dr := (s_dr g).
  Notation dtheta := (s_dth g).
  Notation dr_inv := (s_dr_inv g).
  Notation dtheta_inv := (s_dth_inv g).

  (** h_, kerr_schild_0.h:123-144. *)
  Definition k0_h_ (i j : nat) (x : coord2) : R :=
    let r := k_r g (fst x) in
    let th := k_th g (snd x) in
    match i, j with
    | 1%nat, 1%nat => sqr dr
    | 2%nat, 2%nat => sqr dtheta * sqr r
    | 3%nat, 3%nat => sqr (r * sin th)
    | _, _ => 0
    end.
  (** h, kerr_schild_0.h:150-171. *)
  Definition k0_h (i j : nat) (x : coord2) : R :=
    let r := k_r g (fst x) in
    let th := k_th g (snd x) in
    match i, j with
    | 1%nat, 1%nat => sqr dr_inv
    | 2%nat, 2%nat => sqr (dtheta_inv / r)
    | 3%nat, 3%nat => 1 / sqr (r * sin th)
    | _, _ => 0
    end.
  (** g_, kerr_schild_0.h:178-198. *)
  Definition k0_g_ (i j : nat) (x : coord2) : R :=
    match i, j with
    | 0%nat, 0%nat => - 1
    | 1%nat, 1%nat => k0_h_ 1 1 x
    | 2%nat, 2%nat => k0_h_ 2 2 x
    | 3%nat, 3%nat => k0_h_ 3 3 x
    | _, _ => 0
    end.
  (** g, kerr_schild_0.h:204-223. *)
  Definition k0_g (i j : nat) (x : coord2) : R :=
    match i, j with
    | 0%nat, 0%nat => - 1
    | 1%nat, 1%nat => k0_h 1 1 x
    | 2%nat, 2%nat => k0_h 2 2 x
    | 3%nat, 3%nat => k0_h 3 3 x
    | _, _ => 0
    end.
  (** lapse, shift and the derivatives, kerr_schild_0.h:229-341; the ones
      that return ZERO are written out in the record below. *)
  Definition k0_dr_h22 (x : coord2) : R :=
    let r := k_r g (fst x) in - 2 / cube r * sqr dtheta_inv * dr.
  Definition k0_dr_h33 (x : coord2) : R :=
    let r := k_r g (fst x) in
    let th := k_th g (snd x) in - 2 / cube r / sqr (sin th) * dr.
  Definition k0_dt_h33 (x : coord2) : R :=
    let r := k_r g (fst x) in
    let th := k_th g (snd x) in - 2 * cos th / sqr r / cube (sin th) * dtheta.
  (** kerr_schild_0.h:346-374. *)
  Definition k0_sqrt_det_h (x : coord2) : R :=
    dr * dtheta * sqr (k_r g (fst x)) * sin (k_th g (snd x)).
  Definition k0_sqrt_det_h_tilde (x : coord2) : R := dr * dtheta * sqr (k_r g (fst x)).
  Definition k0_polar_area (x1 : R) : R := dr * sqr (k_r g x1) * (1 - cos (1 / 2 * dtheta)).

  Definition ks0 : grmet :=
    GRMet (k_r g) (k_th g) k0_h_ k0_h k0_g_ k0_g (fun _ => 1) (fun _ => 0)
      (fun _ => 0) (fun _ => 0) (fun _ => 0) (fun _ => 0)
      (fun _ => 0) k0_dr_h22 k0_dr_h33 (fun _ => 0) (fun _ => 0) (fun _ => 0) k0_dt_h33 (fun _ => 0)
      k0_sqrt_det_h k0_sqrt_det_h_tilde k0_polar_area (k_to_phys g) (k_of_phys g).
End KerrSchild0.

(* ---------------------------------------------------------------------- *)
(** * QKerrSchild *)

Section QKerrSchild.
  (** The members set by the constructor (qkerr_schild.h:83-96) are those of
      the quasi-spherical metric, [q_make]. *)
  Variables (a : R) (m : qmet).
  Notation eps := (q_eps m).
  Notation r0 := (q_r0 m).
  Notation h0 := (q_h0 m).
  Notation dchi := (q_dchi m).
  Notation deta := (q_deta m).
  Notation dchi_inv := (1 / q_dchi m).
  Notation deta_inv := (1 / q_deta m).
  Notation e2t := (eta2theta (q_eps m) (q_h0 m)).
  Notation dtde := (dtheta_deta (q_eps m) (q_h0 m)).
  Notation chi_ x := (q_chi m (fst x)).
  Notation eta_ x := (q_eta m (snd x)).

  Definition qk_r (x1 : R) : R := r0 + exp (q_chi m x1).
  Definition qk_th (x2 : R) : R := e2t (q_eta m x2).

  (** h_, qkerr_schild.h:147-188. *)
  Definition qk_h_ (i j : nat) (x : coord2) : R :=
    let r := qk_r (fst x) in
    let th := qk_th (snd x) in
    match i, j with
    | 1%nat, 1%nat => sqr dchi * exp (2 * chi_ x) * (1 + k_z a r th)
    | 2%nat, 2%nat => sqr deta * sqr (dtde (eta_ x)) * k_Sigma a r th
    | 3%nat, 3%nat => k_A a r th * sqr (sin th) / k_Sigma a r th
    | 1%nat, 3%nat | 3%nat, 1%nat => - dchi * exp (chi_ x) * a * (1 + k_z a r th) * sqr (sin th)
    | _, _ => 0
    end.
  (** h, qkerr_schild.h:194-232. *)
  Definition qk_h (i j : nat) (x : coord2) : R :=
    let r := qk_r (fst x) in
    let th := qk_th (snd x) in
    match i, j with
    | 1%nat, 1%nat =>
      (exp (- 2 * chi_ x) / sqr dchi) * k_A a r th / (k_Sigma a r th * (k_Sigma a r th + 2 * r))
    | 2%nat, 2%nat => 1 / (k_Sigma a r th * sqr (dtde (eta_ x)) * sqr deta)
    | 3%nat, 3%nat => 1 / (k_Sigma a r th * sqr (sin th))
    | 1%nat, 3%nat | 3%nat, 1%nat => (exp (- chi_ x) * dchi_inv) * a / k_Sigma a r th
    | _, _ => 0
    end.
  (** g_, qkerr_schild.h:239-279. *)
  Definition qk_g_ (i j : nat) (x : coord2) : R :=
    let r := qk_r (fst x) in
    let th := qk_th (snd x) in
    match i, j with
    | 0%nat, 0%nat => - (1 - k_z a r th)
    | 0%nat, 1%nat | 1%nat, 0%nat => dchi * exp (chi_ x) * k_z a r th
    | 0%nat, 3%nat | 3%nat, 0%nat => - a * k_z a r th * sqr (sin th)
    | 1%nat, 1%nat => sqr dchi * exp (2 * chi_ x) * (1 + k_z a r th)
    | 2%nat, 2%nat => qk_h_ 2 2 x
    | 3%nat, 3%nat => qk_h_ 3 3 x
    | 1%nat, 3%nat | 3%nat, 1%nat => qk_h_ 1 3 x
    | _, _ => 0
    end.
  (** g, qkerr_schild.h:285-316. *)
  Definition qk_g (i j : nat) (x : coord2) : R :=
    let r := qk_r (fst x) in
    let th := qk_th (snd x) in
    match i, j with
    | 0%nat, 0%nat => - (1 + k_z a r th)
    | 0%nat, 1%nat | 1%nat, 0%nat => (exp (- chi_ x) * dchi_inv) * k_z a r th
    | 1%nat, 1%nat => (exp (- 2 * chi_ x) / sqr dchi) * k_Delta a r / k_Sigma a r th
    | 2%nat, 2%nat => qk_h 2 2 x
    | 3%nat, 3%nat => qk_h 3 3 x
    | 1%nat, 3%nat | 3%nat, 1%nat => qk_h 1 3 x
    | _, _ => 0
    end.
  (** alpha, qkerr_schild.h:322-326. *)
  Definition qk_alpha (x : coord2) : R :=
    let r := qk_r (fst x) in
    let th := qk_th (snd x) in 1 / sqrt (1 + k_z a r th).

  (** dx_dt, qkerr_schild.h:871-881; dt_Sigma, dt_A, 473-497. *)
  Definition qk_dx_dt (eta : R) : R :=
    if almost_zero eps h0 then deta
    else deta * (1 + 2 * h0 * (1 / (PI * PI)) * (2 * 3 * sqr eta - 2 * 3 * PI * eta + PI * PI)).
  Definition qk_dt_Sigma (eta : R) : R :=
    let th := e2t eta in flush eps (- 2 * sqr a * sin th * cos th * qk_dx_dt eta).
  Definition qk_dt_A (r eta : R) : R :=
    let th := e2t eta in flush eps (- 2 * sqr a * sin th * cos th * k_Delta a r * qk_dx_dt eta).

  (** dr_alpha, dt_alpha, qkerr_schild.h:332-359; dt_alpha has its own copy of
      dx_dt and of dt_Sigma without the AlmostZero tests. *)
  Definition qk_dr_alpha (x : coord2) : R :=
    let r := qk_r (fst x) in
    let th := qk_th (snd x) in
    let dx_r := dchi * exp (chi_ x) in
    let dr_Sigma := 2 * r * dx_r in
    - (dx_r * k_Sigma a r th - r * dr_Sigma) * cube (qk_alpha x) / sqr (k_Sigma a r th).
  Definition qk_dt_alpha (x : coord2) : R :=
    let r := qk_r (fst x) in
    let eta := eta_ x in
    let th := e2t eta in
    let dx_dt := deta * (1 + 2 * h0 * (1 / (PI * PI)) * (2 * 3 * sqr eta - 2 * 3 * PI * eta + PI * PI)) in
    let dt_Sigma := - 2 * sqr a * sin th * cos th * dx_dt in
    r * dt_Sigma * cube (qk_alpha x) / sqr (k_Sigma a r th).

  (** beta1, dr_beta1, dt_beta1, qkerr_schild.h:365-402. *)
  Definition qk_beta1 (x : coord2) : R :=
    let z_ := k_z a (qk_r (fst x)) (qk_th (snd x)) in
    exp (- chi_ x) * dchi_inv * z_ / (1 + z_).
  Definition qk_dr_beta1 (x : coord2) : R :=
    let r := qk_r (fst x) in
    let th := qk_th (snd x) in
    let z_ := k_z a r th in
    let dx_r := dchi * exp (chi_ x) in
    let dr_Sigma := 2 * r * dx_r in
    exp (- chi_ x) * dchi_inv * 2 * (dx_r * k_Sigma a r th - r * dr_Sigma) / sqr (k_Sigma a r th + 2 * r)
    - dchi * exp (- chi_ x) * dchi_inv * z_ / (1 + z_).
  Definition qk_dt_beta1 (x : coord2) : R :=
    let r := qk_r (fst x) in
    let eta := eta_ x in
    let th := e2t eta in
    - exp (- chi_ x) * dchi_inv * 2 * r * qk_dt_Sigma eta / sqr (k_Sigma a r th * (1 + k_z a r th)).

  (** dr_h11 .. dr_h13, qkerr_schild.h:408-467. *)
  Definition qk_dr_h11 (x : coord2) : R :=
    let r := qk_r (fst x) in
    let th := qk_th (snd x) in
    let dx_r := dchi * exp (chi_ x) in
    let dr_Sigma := 2 * r * dx_r in
    let dr_Delta := 2 * dx_r * (r - 1) in
    let dr_A := 4 * r * dx_r * (sqr r + sqr a) - sqr a * sqr (sin th) * dr_Delta in
    exp (- 2 * chi_ x) / sqr dchi *
      (k_Sigma a r th * (k_Sigma a r th + 2 * r) * dr_A
       - 2 * k_A a r th * (r * dr_Sigma + k_Sigma a r th * (dr_Sigma + dx_r)))
      / sqr (k_Sigma a r th * (k_Sigma a r th + 2 * r))
    - 2 * dchi * exp (- 2 * chi_ x) / sqr dchi * k_A a r th / (k_Sigma a r th * (k_Sigma a r th + 2 * r)).
  Definition qk_dr_h22 (x : coord2) : R :=
    let r := qk_r (fst x) in
    let th := qk_th (snd x) in
    let dx_r := dchi * exp (chi_ x) in
    let dr_Sigma := 2 * r * dx_r in
    - dr_Sigma / sqr (k_Sigma a r th) / sqr deta.
  Definition qk_dr_h33 (x : coord2) : R :=
    let r := qk_r (fst x) in
    let th := qk_th (snd x) in
    let dx_r := dchi * exp (chi_ x) in
    let dr_Sigma := 2 * r * dx_r in
    - dr_Sigma / sqr (k_Sigma a r th) / sqr (sin th).
  Definition qk_dr_h13 (x : coord2) : R :=
    let r := qk_r (fst x) in
    let th := qk_th (snd x) in
    let dx_r := dchi * exp (chi_ x) in
    let dr_Sigma := 2 * r * dx_r in
    - a * dr_Sigma / sqr (k_Sigma a r th) * (exp (- chi_ x) * dchi_inv)
    - dchi * (exp (- chi_ x) * dchi_inv) * a / k_Sigma a r th.

  (** dt_h11 .. dt_h13, qkerr_schild.h:503-548. *)
  Definition qk_dt_h11 (x : coord2) : R :=
    let r := qk_r (fst x) in
    let eta := eta_ x in
    let th := e2t eta in
    exp (- 2 * chi_ x) / sqr dchi *
      (k_Sigma a r th * (k_Sigma a r th + 2 * r) * qk_dt_A r eta
       - 2 * k_A a r th * qk_dt_Sigma eta * (r + k_Sigma a r th))
      / sqr (k_Sigma a r th * (k_Sigma a r th + 2 * r)).
  Definition qk_dt_h22 (x : coord2) : R :=
    let r := qk_r (fst x) in
    let eta := eta_ x in
    let th := e2t eta in
    - qk_dt_Sigma eta / sqr (k_Sigma a r th) / sqr deta.
  Definition qk_dt_h33 (x : coord2) : R :=
    let r := qk_r (fst x) in
    let eta := eta_ x in
    let th := e2t eta in
    - (qk_dt_Sigma eta + 2 * cos th / sin th * k_Sigma a r th * qk_dx_dt eta)
    / sqr (k_Sigma a r th * sin th).
  Definition qk_dt_h13 (x : coord2) : R :=
    let r := qk_r (fst x) in
    let eta := eta_ x in
    let th := e2t eta in
    - a * qk_dt_Sigma eta / sqr (k_Sigma a r th) * (exp (- chi_ x) * dchi_inv).

  (** sqrt_det_h, sqrt_det_h_tilde, polar_area, qkerr_schild.h:553-611. *)
  Definition qk_sqrt_det_h (x : coord2) : R :=
    let th := qk_th (snd x) in
    let ec := exp (chi_ x) in
    dchi * ec * dtde (eta_ x) * deta * k_Sigma a (r0 + ec) th * sin th * sqrt (1 + k_z a (r0 + ec) th).
  Definition qk_sqrt_det_h_tilde (x : coord2) : R :=
    let th := qk_th (snd x) in
    let ec := exp (chi_ x) in
    dchi * ec * dtde (eta_ x) * deta * k_Sigma a (r0 + ec) th * sqrt (1 + k_z a (r0 + ec) th).
  Definition qk_polar_area (x1 : R) : R :=
    let ec := exp (q_chi m x1) in
    let r := r0 + ec in
    if q_small m then
      let dth := e2t (1 / 2 * deta) in
      dchi * ec * (sqr r + sqr a) * sqrt (1 + 2 * r / (sqr r + sqr a)) * (48 - sqr dth) * sqr dth / 384
    else dchi * ec * (sqr r + sqr a) * sqrt (1 + 2 * r / (sqr r + sqr a)) * (1 - cos (e2t (1 / 2 * deta))).

  (** component-wise transform: the factors are those of qspherical.h. *)
  Definition qks : grmet :=
    GRMet qk_r qk_th qk_h_ qk_h qk_g_ qk_g qk_alpha qk_beta1
      qk_dr_alpha qk_dt_alpha qk_dr_beta1 qk_dt_beta1
      qk_dr_h11 qk_dr_h22 qk_dr_h33 qk_dr_h13 qk_dt_h11 qk_dt_h22 qk_dt_h33 qk_dt_h13
      qk_sqrt_det_h qk_sqrt_det_h_tilde qk_polar_area (q_to_phys m) (q_of_phys m).
End QKerrSchild.

(* ---------------------------------------------------------------------- *)
(** * Vectors: the same text in kerr_schild.h:595-711 and qkerr_schild.h:673-789 *)

Definition vec4 : Type := (R * R * R * R)%type.

Section Vectors.
  Variable M : grmet.

  (** transform *)
  Definition gr_transform (i o : idx) (x : coord2) (v : vec3) : option vec3 :=
    let '(v1, v2, v3) := v in
    let h_ i j := m_h_ M i j x in
    let h i j := m_h M i j x in
    match i, o with
    | IT, ISph | ISph, IT => Some (v1, v2, v3)
    | IT, IU | ISph, IU =>
      let A0 := sqrt (h 1%nat 1%nat) in
      Some (v1 * A0, v2 / sqrt (h_ 2%nat 2%nat),
            v3 / sqrt (h_ 3%nat 3%nat) - v1 * A0 * h_ 1%nat 3%nat / h_ 3%nat 3%nat)
    | IU, IT | IU, ISph =>
      Some (v1 / sqrt (h 1%nat 1%nat), v2 * sqrt (h_ 2%nat 2%nat),
            v3 * sqrt (h_ 3%nat 3%nat) + v1 * h_ 1%nat 3%nat / sqrt (h_ 3%nat 3%nat))
    | IT, ID | ISph, ID =>
      Some (v1 / sqrt (h 1%nat 1%nat) + v3 * h_ 1%nat 3%nat / sqrt (h_ 3%nat 3%nat),
            v2 * sqrt (h_ 2%nat 2%nat), v3 * sqrt (h_ 3%nat 3%nat))
    | ID, IT | ID, ISph =>
      let A0 := sqrt (h 1%nat 1%nat) in
      Some (v1 * A0 - v3 * A0 * h_ 1%nat 3%nat / h_ 3%nat 3%nat,
            v2 / sqrt (h_ 2%nat 2%nat), v3 / sqrt (h_ 3%nat 3%nat))
    | IU, ID =>
      Some (v1 * h_ 1%nat 1%nat + v3 * h_ 1%nat 3%nat, v2 * h_ 2%nat 2%nat,
            v1 * h_ 1%nat 3%nat + v3 * h_ 3%nat 3%nat)
    | ID, IU =>
      Some (v1 * h 1%nat 1%nat + v3 * h 1%nat 3%nat, v2 * h 2%nat 2%nat,
            v1 * h 1%nat 3%nat + v3 * h 3%nat 3%nat)
    | IU, IPU | IPD, ID =>
      Some (m_to_phys M 1 x v1, m_to_phys M 2 x v2, m_to_phys M 3 x v3)
    | IPU, IU | ID, IPD =>
      Some (m_of_phys M 1 x v1, m_of_phys M 2 x v2, m_of_phys M 3 x v3)
    | _, _ => None
    end.

  (** u_0 (also kerr_schild_0.h:502-511). *)
  Definition gr_u_0 (x : coord2) (u : vec3) (norm : R) : R :=
    let '(u1, u2, u3) := u in
    let g i j := m_g M i j x in
    let A := g 0%nat 0%nat in
    let B := - 2 * g 0%nat 1%nat * u1 in
    let C := g 1%nat 1%nat * sqr u1 + g 2%nat 2%nat * sqr u2 + g 3%nat 3%nat * sqr u3
             + 2 * g 1%nat 3%nat * u1 * u3 + norm in
    (B + sqrt (sqr B - 4 * A * C)) / (2 * A).

  (** transform_4d (also kerr_schild_0.h:516-543). *)
  Definition gr_cov_to_cntrv4 (x : coord2) (v : vec4) : vec4 :=
    let '(v0, v1, v2, v3) := v in
    let g i j := m_g M i j x in
    (v0 * g 0%nat 0%nat + v1 * g 0%nat 1%nat,
     v0 * g 1%nat 0%nat + v1 * g 1%nat 1%nat + v3 * g 1%nat 3%nat,
     v2 * g 2%nat 2%nat,
     v1 * g 3%nat 1%nat + v3 * g 3%nat 3%nat).
  Definition gr_cntrv_to_cov4 (x : coord2) (v : vec4) : vec4 :=
    let '(v0, v1, v2, v3) := v in
    let g_ i j := m_g_ M i j x in
    (v0 * g_ 0%nat 0%nat + v1 * g_ 0%nat 1%nat + v3 * g_ 0%nat 3%nat,
     v0 * g_ 1%nat 0%nat + v1 * g_ 1%nat 1%nat + v3 * g_ 1%nat 3%nat,
     v2 * g_ 2%nat 2%nat,
     v0 * g_ 3%nat 0%nat + v1 * g_ 3%nat 1%nat + v3 * g_ 3%nat 3%nat).
End Vectors.

(** transform of kerr_schild_0.h:437-497. *)
Definition k0_transform (g : grid) (i o : idx) (x : coord2) (v : vec3) : option vec3 :=
  let '(v1, v2, v3) := v in
  let h_ i j := k0_h_ g i j x in
  let h i j := k0_h g i j x in
  match i, o with
  | IT, ISph | ISph, IT => Some (v1, v2, v3)
  | IT, IU | ISph, IU | ID, IT | ID, ISph =>
    Some (v1 * sqrt (h 1%nat 1%nat), v2 / sqrt (h_ 2%nat 2%nat), v3 / sqrt (h_ 3%nat 3%nat))
  | IU, IT | IU, ISph | IT, ID | ISph, ID =>
    Some (v1 / sqrt (h 1%nat 1%nat), v2 * sqrt (h_ 2%nat 2%nat), v3 * sqrt (h_ 3%nat 3%nat))
  | IU, ID => Some (v1 * h_ 1%nat 1%nat, v2 * h_ 2%nat 2%nat, v3 * h_ 3%nat 3%nat)
  | ID, IU => Some (v1 * h 1%nat 1%nat, v2 * h 2%nat 2%nat, v3 * h 3%nat 3%nat)
  | IU, IPU | IPD, ID => Some (k_to_phys g 1 x v1, k_to_phys g 2 x v2, k_to_phys g 3 x v3)
  | IPU, IU | ID, IPD => Some (k_of_phys g 1 x v1, k_of_phys g 2 x v2, k_of_phys g 3 x v3)
  | _, _ => None
  end.

(* ---------------------------------------------------------------------- *)
(** * Cell size: find_dxMin *)

(** One cell, kerr_schild.h:118-121 = qkerr_schild.h:127-131, and
    kerr_schild_0.h:98. *)
Definition gr_cell_size (M : grmet) (x : coord2) : R :=
  1 / (m_alpha M x * sqrt (m_h M 1 1 x + m_h M 2 2 x) + m_beta1 M x).
Definition k0_cell_size (g : grid) (x : coord2) : R :=
  1 / sqrt (k0_h g 1 1 x + k0_h g 2 2 x).

(** The double loop, kerr_schild.h:114-127. *)
Definition cell_centres (n1 n2 : nat) : list coord2 :=
  flat_map (fun i => map (fun j => (INR i + 1 / 2, INR j + 1 / 2)) (seq 0 n2)) (seq 0 n1).
Definition find_min (size : coord2 -> R) (n1 n2 : nat) : R :=
  fold_left (fun min_dx x =>
               let dx := size x in
               if Rlt_dec dx min_dx then dx
               else if Rlt_dec min_dx 0 then dx else min_dx)
            (cell_centres n1 n2) (- 1).

(** find_dxMin of the SR metrics: spherical.h:72-75; qspherical.h:84-100 (whose
    comparison is ">=" where the GR metrics have ">"). *)
Definition s_dxmin (g : grid) : R := 1 / sqrt (1 / sqr (s_dr g) + 1 / sqr (x1_min g * s_dth g)).
Definition s_cell_size (g : grid) (x : coord2) : R := 1 / sqrt (1 / s_h g 1 x + 1 / s_h g 2 x).
Definition q_cell_size (m : qmet) (x : coord2) : R := 1 / sqrt (1 / q_h m 1 x + 1 / q_h m 2 x).
Definition find_min_ge (size : coord2 -> R) (n1 n2 : nat) : R :=
  fold_left (fun min_dx x =>
               let dx := size x in
               if Rle_dec dx min_dx then dx
               else if Rlt_dec min_dx 0 then dx else min_dx)
            (cell_centres n1 n2) (- 1).
