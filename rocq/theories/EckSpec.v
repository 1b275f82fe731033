(** Four-vectors at a point of a black hole's spacetime. *)
From Coq Require Import Reals ZArith List.
From Verif Require Import MetModel MetSpec KsModel KsSpec EckModel.
Import ListNotations.
Open Scope R_scope.

(** The metrics of the GR engine, at a point off the axis. *)
Inductive engine_metric : grmet -> coord2 -> Prop :=
| em_ks eps a g x : sensible g -> gr_regular (ks eps a g) x -> engine_metric (ks eps a g) x
| em_ks0 g x : sensible g -> gr_regular (ks0 g) x -> engine_metric (ks0 g) x
| em_qks eps a g r0 h m x : q_ok eps g r0 h -> q_make eps g r0 h = Some m -> gr_regular (qks a m) x ->
    engine_metric (qks a m) x.

(** g_ij v^i w^j. *)
Definition inner (M : grmet) (x : coord2) (v w : vec4) : R :=
  sum4 (fun i => sum4 (fun j => m_g_ M i j x * at4 v i * at4 w j)).
Definition scale4 (k : R) (v : vec4) : vec4 :=
  let '(v0, v1, v2, v3) := v in (k * v0, k * v1, k * v2, k * v3).

(** Four-velocity of a massive observer: unit norm, pointing to the future. *)
Definition future_unit (M : grmet) (x : coord2) (v : vec4) : Prop := inner M x v v = -1 /\ 0 < at4 v 0.
(** The observer at rest in the slices of constant time: orthogonal to every spatial vector. *)
Definition normal_observer (M : grmet) (x : coord2) (v : vec4) : Prop :=
  future_unit M x v /\ forall w, at4 w 0 = 0 -> inner M x v w = 0.

(** [N] is the sum of the fluxes mass times u^i / u^0 of the particles, times their shares; [up p]
    is the four-velocity of [p]. *)
Definition sum_list (l : list R) : R := fold_right Rplus 0 l.
Definition is_total (up : contributor -> vec4) (ps : list contributor) (N : vec4) : Prop :=
  forall c, (c < 4)%nat -> at4 N c =
    sum_list (map (fun p => q_share p * (if Req_EM_T (q_mass p) 0 then 1 else q_mass p) * (at4 (up p) c / at4 (up p) 0)) ps).

(** [v] is the four-velocity of [p] at its own place: its lower spatial components are the ones
    stored, its norm -1 (massive) or 0, and it points to the future. *)
Definition four_velocity (M : grmet) (p : contributor) (v : vec4) : Prop :=
  (forall i, (1 <= i <= 3)%nat -> sum4 (fun j => m_g_ M i j (q_x p) * at4 v j) = comp4 0 (q_u p) i) /\
  inner M (q_x p) v v = (if Req_EM_T (q_mass p) 0 then 0 else -1) /\ 0 < at4 v 0.

(** Has a share and a mass that count. *)
Definition counted (p : contributor) : Prop := 0 <= q_share p /\ 0 <= q_mass p.
(** A massless particle must have some momentum. *)
Definition moves (p : contributor) : Prop := q_mass p <> 0 \/ q_u p <> (0, 0, 0).
