(** What a Kerr-Schild metric is supposed to be, independently of its components. *)
From Coq Require Import Reals ZArith List.
From Verif Require Import MetModel MetSpec KsModel.
Open Scope R_scope.

Definition sum4 (f : nat -> R) : R := f 0%nat + f 1%nat + f 2%nat + f 3%nat.
Definition sum3 (f : nat -> R) : R := f 1%nat + f 2%nat + f 3%nat.
Definition delta (i j : nat) : R := if Nat.eqb i j then 1 else 0.

(** Points outside the origin and off the axis. *)
Definition gr_regular (M : grmet) (x : coord2) : Prop :=
  0 < m_r M (fst x) /\ 0 < m_th M (snd x) < PI.

(** Cartesian position of the point with Kerr-Schild coordinates (r, theta, phi):
    X + iY = (r + ia) sin(theta) exp(i phi), Z = r cos(theta). *)
Definition ks_position (a : R) (p : vec3) : vec3 :=
  let '(r, th, ph) := p in
  (sin th * (r * cos ph - a * sin ph), sin th * (r * sin ph + a * cos ph), r * cos th).

(** ... and of the point with code coordinates [y] and azimuth [c3 y]. *)
Definition gr_position (M : grmet) (a : R) (y : vec3) : vec3 :=
  ks_position a (m_r M (c1 y), m_th M (c2 y), c3 y).

Definition comp4 (u0 : R) (u : vec3) (i : nat) : R :=
  match i with 0%nat => u0 | 1%nat => c1 u | 2%nat => c2 u | _ => c3 u end.
Definition quad4 (G : nat -> nat -> R) (u0 : R) (u : vec3) : R :=
  sum4 (fun i => sum4 (fun j => G i j * comp4 u0 u i * comp4 u0 u j)).
Definition quad3 (G : nat -> nat -> R) (u : vec3) : R :=
  sum3 (fun i => sum3 (fun j => G i j * comp4 0 u i * comp4 0 u j)).

(** The line element of a black hole of the given mass and spin in Kerr-Schild
    form: flat space, plus (2 mass r / Sigma) (dt + dr - a sin^2(theta) dphi)^2.
    It is evaluated on a point moving with code velocity [u], the time running
    at rate [u0]; [w] is the velocity in space of the point and [r'] its radial
    velocity. *)
Definition kerr_interval (mass a : R) (M : grmet) (x : coord2) : Prop :=
  forall ph u0 u, exists w r',
    cartesian_velocity (gr_position M a) (fst x, snd x, ph) u w /\
    derivable_pt_lim (fun s => m_r M (fst x + s * c1 u)) 0 r' /\
    quad4 (fun i j => m_g_ M i j x) u0 u =
      let r := m_r M (fst x) in
      let th := m_th M (snd x) in
      - u0 ^ 2 + dot3 w w
      + 2 * mass * r / (r ^ 2 + a ^ 2 * cos th ^ 2) * (u0 + r' - a * sin th ^ 2 * c3 u) ^ 2.

Definition inverse4 (G H : nat -> nat -> R) : Prop :=
  forall i k, (i < 4)%nat -> (k < 4)%nat -> sum4 (fun j => G i j * H j k) = delta i k.
Definition inverse3 (G H : nat -> nat -> R) : Prop :=
  forall i k, (1 <= i <= 3)%nat -> (1 <= k <= 3)%nat -> sum3 (fun j => G i j * H j k) = delta i k.

(** Lapse, shift and spatial metric are those of the four-metric. *)
Definition shift (M : grmet) (x : coord2) (i : nat) : R :=
  match i with 1%nat => m_beta1 M x | _ => 0 end.
Definition three_plus_one (M : grmet) (x : coord2) : Prop :=
  let h i j := m_h_ M i j x in
  let g i j := m_g_ M i j x in
  0 < m_alpha M x /\
  g 0%nat 0%nat = - m_alpha M x ^ 2 + sum3 (fun i => sum3 (fun j => h i j * shift M x i * shift M x j)) /\
  (forall i, (1 <= i <= 3)%nat -> g 0%nat i = sum3 (fun j => h i j * shift M x j) /\ g i 0%nat = g 0%nat i) /\
  (forall i j, (1 <= i <= 3)%nat -> (1 <= j <= 3)%nat -> g i j = h i j).

Definition det3 (h : nat -> nat -> R) : R :=
  let '(p, q, s) := (1%nat, 2%nat, 3%nat) in
  h p p * (h q q * h s s - h q s * h s q)
  - h p q * (h q p * h s s - h q s * h s p)
  + h p s * (h q p * h s q - h q q * h s p).

(** The volume element, its value without sin(theta). *)
Definition volume_element (M : grmet) (x : coord2) : Prop :=
  0 < m_sqrt_det_h M x /\ m_sqrt_det_h M x ^ 2 = det3 (fun i j => m_h_ M i j x) /\
  m_sqrt_det_h M x = m_sqrt_det_h_tilde M x * sin (m_th M (snd x)).

(** [code] is the derivative of [f] at [x] up to [tol]. *)
Definition derivative_within (f : R -> R) (x code tol : R) : Prop :=
  exists D, derivable_pt_lim f x D /\ Rabs (code - D) <= tol.

(** The radial derivatives (first code coordinate) that the pusher uses. *)
Definition radial_derivatives (M : grmet) (x : coord2) : Prop :=
  let along (f : coord2 -> R) (code : coord2 -> R) := derivable_pt_lim (fun s => f (s, snd x)) (fst x) (code x) in
  along (m_alpha M) (m_dr_alpha M) /\ along (m_beta1 M) (m_dr_beta1 M) /\
  along (m_h M 1 1) (m_dr_h11 M) /\ along (m_h M 3 3) (m_dr_h33 M) /\ along (m_h M 1 3) (m_dr_h13 M).
Definition radial_h22 (M : grmet) (x : coord2) : Prop :=
  derivable_pt_lim (fun s => m_h M 2 2 (s, snd x)) (fst x) (m_dr_h22 M x).

(** The angular ones (second code coordinate), the tolerance of each being
    [eps] times a bound that depends on the place and on the extents [d1] and
    [d2] of a cell in radius and angle. *)
Definition angular_derivatives (eps a : R) (M : grmet) (x : coord2) : Prop :=
  forall d1, derivable_pt_lim (m_r M) (fst x) d1 ->
  let r := m_r M (fst x) in
  let along (f : coord2 -> R) (code : coord2 -> R) tol :=
    derivative_within (fun s => f (fst x, s)) (snd x) (code x) tol in
  along (m_alpha M) (m_dt_alpha M) (eps / r ^ 3) /\
  along (m_beta1 M) (m_dt_beta1 M) (2 * eps / r ^ 3 / d1) /\
  along (m_h M 1 1) (m_dt_h11 M) (eps * (1 / r ^ 4 + 2 / r ^ 2 + 2 * a ^ 2 / r ^ 4) / d1 ^ 2) /\
  along (m_h M 3 3) (m_dt_h33 M) (eps / (r ^ 4 * sin (m_th M (snd x)) ^ 2)) /\
  along (m_h M 1 3) (m_dt_h13 M) (eps * Rabs a / r ^ 4 / d1).
Definition angular_h22 (eps : R) (M : grmet) (x : coord2) : Prop :=
  forall d2, derivable_pt_lim (m_th M) (snd x) d2 ->
  derivative_within (fun s => m_h M 2 2 (fst x, s)) (snd x) (m_dt_h22 M x) (eps / m_r M (fst x) ^ 4 / d2 ^ 2).

(** [d] is the smallest of the sizes of the [n1] x [n2] cells. *)
Definition smallest_cell (size : coord2 -> R) (n1 n2 : nat) (d : R) : Prop :=
  (exists i j, (i < n1)%nat /\ (j < n2)%nat /\ d = size (INR i + 1/2, INR j + 1/2)) /\
  (forall i j, (i < n1)%nat -> (j < n2)%nat -> d <= size (INR i + 1/2, INR j + 1/2)).

(** Coordinate velocity dx^i/dt = u^i / u^0 - beta^i of a particle with
    covariant velocity [u] (norm 1 for massive, 0 for massless particles). *)
Definition gr_gamma (M : grmet) (x : coord2) (norm : R) (u : vec3) : R :=
  sqrt (norm + quad3 (fun i j => m_h M i j x) u).
Definition gr_raise (M : grmet) (x : coord2) (u : vec3) (i : nat) : R :=
  sum3 (fun j => m_h M i j x * comp4 0 u j).
Definition gr_velocity (M : grmet) (x : coord2) (norm : R) (u : vec3) (i : nat) : R :=
  m_alpha M x * gr_raise M x u i / gr_gamma M x norm u - shift M x i.

(** The box lies in the half plane radius >= 0, 0 <= angle <= pi. *)
Definition half_plane (g : grid) : Prop := 0 <= x1_min g /\ 0 <= x2_min g /\ x2_max g <= PI.
