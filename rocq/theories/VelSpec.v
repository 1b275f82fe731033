(** Vocabulary for velocity updates. *)
From Coq Require Import Reals.
From Verif Require Import VelModel.
Open Scope R_scope.

Definition vzero : vec := (0, 0, 0).
Definition neg (a : vec) : vec := (- v1 a, - v2 a, - v3 a).
Definition sub (a b : vec) : vec := (v1 a - v1 b, v2 a - v2 b, v3 a - v3 b).
Definition lorentz (u : vec) : R := sqrt (1 + norm_sqr u).
(** Three-velocity of a massive particle. *)
Definition velocity (u : vec) : vec := vscale (/ lorentz u) u.

(** First component and time component of the four-velocity (u, g) in a frame moving with
    speed [V] along the first axis. *)
Definition boosted_u1 (V : R) (u : vec) (g : R) : R := (v1 u - V * g) / sqrt (1 - V * V).
Definition boosted_g (V : R) (u : vec) (g : R) : R := (g - V * v1 u) / sqrt (1 - V * V).

(** What the two radiative drags add to the velocity of a particle that moves with
    four-velocity [w], in terms of its velocity and Lorentz factor. *)
Definition synchrotron_change (coeff : R) (e b w : vec) : vec :=
  let g2 := 1 + norm_sqr w in
  let beta := velocity w in
  let f := vadd e (cross beta b) in
  vscale coeff (sub (vadd (cross f b) (vscale (dot beta e) e))
                    (vscale (g2 * (norm_sqr f - dot beta e * dot beta e)) beta)).
Definition compton_change (coeff : R) (w : vec) : vec := vscale (- (coeff * (1 + norm_sqr w))) (velocity w).
(** The velocity at the middle of the step. *)
Definition midpoint (u_old u : vec) : vec := vscale (1 / 2) (vadd u_old u).
