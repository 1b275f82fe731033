(** Vocabulary for emission. *)
From Coq Require Import Reals Bool.
From Verif Require Import VelModel EmitModel.
Open Scope R_scope.

(** A policy built from positive parameters, a random number in [0, 1). *)
Definition sensible (po : policy) : Prop :=
  0 < ph_weight po /\ 0 < nom_energy po /\ 0 <= nom_prob po /\ 0 < p_mass po.
Definition random (x : R) : Prop := 0 <= x < 1.

(** Momentum, in units of m0 c, of [w] particles of mass [m] with four-velocity [u]; photons
    carry their momentum itself. *)
Definition momentum (m w : R) (u : vec) : vec := vscale (m * w) u.
Definition photon_momentum (ph : vec * R) : vec := vscale (snd ph) (fst ph).
