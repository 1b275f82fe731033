(** Vocabulary for the atmosphere. *)
From Coq Require Import ZArith List Bool Reals Permutation.
From Verif Require Import Base HaloSpec MomentModel MomentSpec AtmosModel.
Import ListNotations.
Open Scope R_scope.

(** The particle is alive and in the cell. *)
Definition in_cell (y : list Z) (p : part) : bool :=
  live p && if list_eq_dec Z.eq_dec (map fst (ppos p)) y then true else false.
Definition members (y : list Z) (s : species) : list part := filter (in_cell y) (sparts s).

Definition centre (y : list Z) : list R := map (fun a => IZR a + 1/2) y.

(** Mass and number density of a cell in units of n0 = ppc0 / V0; Cartesian particles carry no weights. *)
Definition cell_density (per_particle : species -> R) (d : dom) (y : list Z) (ss : list species) : R :=
  rsum ss (fun s => rsum (members y s) (fun p =>
    per_particle s * (if d_cart d then 1 else pweight p) * d_V0 d / (d_ppc0 d * d_vol d (centre y)))).
Definition mass_density := cell_density smass.
Definition number_density := cell_density (fun _ => 1).

(** A physical set-up: positive scales, a conversion that inverts at the cell centres, and a
    volume element equal to V0 on Cartesian grids. *)
Record sound (d : dom) : Prop := {
  sd_ghosts : (0 <= d_ghosts d)%Z;
  sd_ppc : 0 < d_ppc0 d; sd_V0 : 0 < d_V0 d;
  sd_vol : forall y, in_box y (d_n d) -> 0 < d_vol d (centre y);
  sd_cart : d_cart d = true -> forall y, in_box y (d_n d) -> d_vol d (centre y) = d_V0 d;
  sd_cd : forall y, in_box y (d_n d) -> d_cd d (d_ph d (centre y)) = centre y
}.
Record sound_atmos (d : dom) (a : atmos) : Prop := {
  sa_nmax : 0 < a_nmax a; sa_height : 0 < a_height a; sa_xsurf : d_cart d = false -> 0 < a_xsurf a;
  sa_range : a_nmax a * d_ppc0 d < 2 ^ 32
}.

(** Random numbers of [0, 1), one offset per dimension. *)
Definition uniform (d : dom) (rnd : draws) : Prop :=
  forall y, in_box y (d_n d) -> 0 <= du rnd y < 1 /\
    forall p, length (dxs rnd y p) = length y /\ Forall (fun x => 0 <= x < 1) (dxs rnd y p).

(** Species whose live particles are in the domain. *)
Definition in_domain (d : dom) (s : species) : Prop :=
  forall p, In p (sparts s) -> live p = true -> inside (d_n d) p.

Definition any_slots (f : list (part * part) -> list (part * part)) : Prop := forall l, Permutation l (f l).

(** Pairs at one place: the same position and weight, both alive. *)
Definition together (p q : part) : Prop :=
  ppos p = ppos q /\ pweight p = pweight q /\ live p = true /\ live q = true.

(** New particles are appended; nothing else of the species changes. *)
Definition gains (s s' : species) (new : list part) : Prop :=
  smass s' = smass s /\ scharge s' = scharge s /\ sparts s' = sparts s ++ new.

(** A particle of weight one in units of the cell: it adds 1 / ppc0 to the number density. *)
Definition unit_weight (d : dom) (p : part) : Prop :=
  0 < pweight p /\ (if d_cart d then 1 else pweight p) * d_V0 d / d_vol d (centre (map fst (ppos p))) = 1.

(** What a proper pair is, and how many pairs of a list are in a cell. *)
Definition proper_pair (d : dom) (pq : part * part) : Prop :=
  together (fst pq) (snd pq) /\ inside (d_n d) (fst pq) /\ unit_weight d (fst pq).
Definition pairs_in_cell (y : list Z) (l : list (part * part)) : nat :=
  length (filter (fun pq => in_cell y (fst pq)) l).

(** A whole number between [r - u] and [r - u + 1], for [u] uniform in [0, 1): [r] on average. *)
Definition rounded (r u : R) (k : nat) : Prop := r - u <= INR k < r - u + 1.

(** Charge assigned to any point or cell by any linear deposition [shape]. *)
Definition deposit (shape : list (Z * R) -> R) (ss : list species) : R :=
  rsum ss (fun s => rsum (filter live (sparts s)) (fun p => scharge s * pweight p * shape (ppos p))).
