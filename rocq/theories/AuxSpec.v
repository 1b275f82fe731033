(** The auxiliary fields of the 3+1 equations, independently of the kernels:
    E_i = alpha D_i + sqrt(h) eps_ijk beta^j B^k,  H_i = alpha B_i - sqrt(h) eps_ijk beta^j D^k
    with a shift along x1 only, D_i = h_ij D^j. *)
From Coq Require Import ZArith List Reals.
From Verif Require Import FieldModel MetModel KsModel GrStepModel.
Import ListNotations.
Open Scope R_scope.

(** A vector field: its contravariant components at the points of the grid's coordinates. *)
Definition vfield := nat -> coord2 -> R.
Definition lower (M : grmet) (V : vfield) (i : nat) (x : coord2) : R :=
  m_h_ M i 1 x * V 1%nat x + m_h_ M i 2 x * V 2%nat x + m_h_ M i 3 x * V 3%nat x.
Definition beta_cross (M : grmet) (V : vfield) (i : nat) (x : coord2) : R :=
  match i with
  | 2%nat => - (m_sqrt_det_h M x * m_beta1 M x * V 3%nat x)
  | 3%nat => m_sqrt_det_h M x * m_beta1 M x * V 2%nat x
  | _ => 0
  end.
Definition E_of (M : grmet) (D B : vfield) (i : nat) (x : coord2) : R :=
  m_alpha M x * lower M D i x + beta_cross M B i x.
Definition H_of (M : grmet) (D B : vfield) (i : nat) (x : coord2) : R :=
  m_alpha M x * lower M B i x - beta_cross M D i x.

(** The places of the components of a cell whose corner is (a, b). *)
Definition E_place (i : nat) (a b : R) : coord2 :=
  match i with 1%nat => (a + 1/2, b) | 2%nat => (a, b + 1/2) | _ => (a, b) end.
Definition B_place (i : nat) (a b : R) : coord2 :=
  match i with 1%nat => (a, b + 1/2) | 2%nat => (a + 1/2, b) | _ => (a + 1/2, b + 1/2) end.
Definition Ec (i : nat) : comp := match i with 1%nat => Ex1 | 2%nat => Ex2 | _ => Ex3 end.
Definition Bc (i : nat) : comp := match i with 1%nat => Bx1 | 2%nat => Bx2 | _ => Bx3 end.

(** The arrays hold the fields at these places. *)
Definition sampled (g : Z) (m : gr_fields) (d b : arr) (D B : vfield) : Prop :=
  forall i j1 j2, (1 <= i <= 3)%nat ->
    m (d, Ec i) [j1; j2] = D i (E_place i (IZR (j1 - g)) (IZR (j2 - g))) /\
    m (b, Bc i) [j1; j2] = B i (B_place i (IZR (j1 - g)) (IZR (j2 - g))).

(** The metrics of the code have these entries only. *)
Definition ks_like (M : grmet) : Prop := forall x,
  m_h_ M 1 2 x = 0 /\ m_h_ M 2 1 x = 0 /\ m_h_ M 2 3 x = 0 /\ m_h_ M 3 2 x = 0 /\ m_h_ M 3 1 x = m_h_ M 1 3 x.

(** How far a function is from being a straight line along x1 over one cell. *)
Definition bend (f : coord2 -> R) (x : coord2) : R :=
  Rabs ((f (fst x - 1/2, snd x) + f (fst x + 1/2, snd x)) / 2 - f x).
(** The products that are averaged: with the density sqrt(h)/sin(theta). *)
Definition cross_term (M : grmet) (V : vfield) (i : nat) (x : coord2) : R :=
  m_sqrt_det_h_tilde M x * m_h_ M 1 3 x * V i x.
Definition shift_term (M : grmet) (V : vfield) (i : nat) (x : coord2) : R :=
  m_sqrt_det_h_tilde M x * m_sqrt_det_h M x * m_beta1 M x * V i x.
(** The error allowed at the place [x] for the component [i] of alpha U + beta x V. *)
Definition aux_tol (M : grmet) (U V : vfield) (i : nat) (x : coord2) : R :=
  match i with
  | 1%nat => Rabs (m_alpha M x) * bend (cross_term M U 3) x / Rabs (m_sqrt_det_h_tilde M x)
  | 2%nat => bend (shift_term M V 3) x / Rabs (m_sqrt_det_h_tilde M x)
  | _ => (Rabs (m_alpha M x) * bend (cross_term M U 1) x + bend (shift_term M V 2) x)
         / Rabs (m_sqrt_det_h_tilde M x)
  end.
