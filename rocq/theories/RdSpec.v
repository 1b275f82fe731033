(** Specification for radiation. *)
From Coq Require Import Reals.
From Coquelicot Require Import Hierarchy RInt.
From Verif Require Import VelModel VelSpec RdModel.
Open Scope R_scope.

(** Mean of a vector over a random number uniform in [0, 1). *)
Definition mean (f : R -> vec) (m : vec) : Prop :=
  is_RInt (fun x => v1 (f x)) 0 1 (v1 m) /\ is_RInt (fun x => v2 (f x)) 0 1 (v2 m) /\ is_RInt (fun x => v3 (f x)) 0 1 (v3 m).

(** What the drag of a process with coefficient [c] adds to the velocity. *)
Definition slowing (k : process) (c : R) (e b mid : vec) : vec :=
  match k with Synchrotron => synchrotron_change c e b mid | Compton => compton_change c mid end.
(** Cosine of the angle between the braking force and the direction against the motion. *)
Definition alignment (k : process) (e b mid : vec) : R :=
  - dot (slowing k 1 e b mid) mid / (norm (slowing k 1 e b mid) * norm mid).
(** Photons (of the given weight) expected per step. *)
Definition chance (omegaB0 dt q m : R) (r : radiation) (k : process) (e b mid : vec) : R :=
  Rabs q / m * (omegaB0 * dt / 10) * ((gamma_qed r / gamma_rad r) * (gamma_qed r / gamma_rad r)) / photon_weight r
  * (- dot (slowing k 1 e b mid) mid / (norm mid * (1 + norm_sqr mid))).
(** Energy of a photon in units of m0 c^2. *)
Definition photon (r : radiation) (m : R) (mid : vec) : R := m * ((1 + norm_sqr mid) / (gamma_qed r * gamma_qed r)).
(** Photons are not emitted with more than a fifth of the kinetic energy. *)
Definition affordable (r : radiation) (mid : vec) : Prop :=
  (1 + norm_sqr mid) / (gamma_qed r * gamma_qed r) < (lorentz mid - 1) / 5.
Definition good (r : radiation) : Prop := 0 < gamma_rad r /\ 0 < gamma_qed r /\ 0 < photon_weight r.
(** Energy that leaves with a photon, if there is one. *)
Definition carried (ph : option (vec * R)) : R := match ph with Some p => snd p * norm (fst p) | None => 0 end.
