(** Emission of photons: src/archetypes/emission/compton.h:110-158, 160-213,
    src/archetypes/emission/synchrotron.h:142-226, 228-281 and
    src/kernels/pushers/sr.hpp:1505-1553.  Exact arithmetic, vectors as in VelModel. *)
From Coq Require Import Reals Bool.
From Verif Require Import VelModel.
Open Scope R_scope.

(** The policy's constants: weight per photon, least energy of a photon that is kept, nominal
    probability and energy (already multiplied by |q|/m and m), mass, recoil switched on. *)
Record policy := { ph_weight : R; ph_min : R; nom_prob : R; nom_energy : R; p_mass : R; should_drag : bool }.

Definition lt_b (a b : R) : bool := if Rlt_dec a b then true else false.
Definition le_b (a b : R) : bool := if Rle_dec a b then true else false.

(** Result of shouldEmit: energy of the photon, change of velocity, the pair of answers. *)
Record response := { r_energy : R; r_delta : vec; r_emit : bool; r_drag : bool }.

(** compton.h:131-152 and synchrotron.h:201-225: the common end, given the unnormalised
    direction [dir] of the photon, its length and the probability; [rnd] is the random number. *)
Definition decide (po : policy) (u dir : vec) (probability rnd : R) : response :=
  let gamma_sqr := 1 + norm_sqr u in
  let e := gamma_sqr * nom_energy po in
  let delta := vscale (- ph_weight po * e / (norm dir * p_mass po)) dir in
  let should_emit := lt_b rnd probability && lt_b e (p_mass po * (sqrt gamma_sqr - 1) * (2 / 10)) in
  {| r_energy := e; r_delta := delta;
     r_emit := should_emit && le_b (ph_min po) e; r_drag := should_drag po && should_emit |}.

(** compton.h:124-158. *)
Definition compton (po : policy) (u : vec) (rnd : R) : response :=
  decide po u u (nom_prob po * sqrt (norm_sqr u / (1 + norm_sqr u))) rnd.

(** synchrotron.h:142-200: kappa_R, chi_R^2, probability, direction. *)
Definition syn_lorentz (u e b : vec) : vec := vadd e (vscale (/ u2gamma u) (cross u b)).
Definition syn_beta_e (u e : vec) : R := dot u e / u2gamma u.
Definition syn_kappa (u e b : vec) : vec := vadd (cross (syn_lorentz u e b) b) (vscale (syn_beta_e u e) e).
Definition syn_chi2 (u e b : vec) : R := norm_sqr (syn_lorentz u e b) - syn_beta_e u e * syn_beta_e u e.
Definition syn_prob (po : policy) (u e b : vec) : R :=
  nom_prob po * (- dot (syn_kappa u e b) u / ((1 + norm_sqr u) * norm u) + norm u / u2gamma u * syn_chi2 u e b).
Definition syn_dir (u e b : vec) : vec :=
  vadd (vscale (-1) (syn_kappa u e b)) (vscale (u2gamma u * syn_chi2 u e b) u).
Definition synchrotron (po : policy) (u e b : vec) (rnd : R) : response :=
  decide po u (syn_dir u e b) (syn_prob po u e b) rnd.

(** sr.hpp:1505-1553 with emit (compton.h:160-213): the new velocity of the particle and,
    if one is created, velocity and weight of the photon. *)
Definition process_emission (po : policy) (r : response) (ux : vec) (w : R) : vec * option (vec * R) :=
  let ux' := if r_drag r then vadd ux (r_delta r) else ux in
  let direction := vscale (- / norm (r_delta r)) (r_delta r) in
  (ux', if r_emit r then Some (vscale (r_energy r) direction, ph_weight po * w) else None).
