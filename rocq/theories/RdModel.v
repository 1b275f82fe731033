(** Radiation of a particle during a step: continuous drags or emission of photons.
    src/framework/parameters/extra.cpp:39-116, src/kernels/pushers/context.h:41-59,
    src/archetypes/emission/compton.h:57-80, src/archetypes/emission/synchrotron.h:57-80,
    src/kernels/pushers/sr.hpp:310-330.  Exact reals. *)
From Coq Require Import Reals Bool.
From Verif Require Import VelModel EmitModel.
Open Scope R_scope.

(** extra.cpp: gamma_rad, gamma_qed, photon_weight, photon_energy_min of one process. *)
Record radiation := Radiation { gamma_rad : R; gamma_qed : R; photon_weight : R; photon_energy_min : R }.

(** extra.cpp:69-76, 109-115 *)
Definition nominal_probability (omegaB0 dt : R) (r : radiation) : R :=
  omegaB0 * (1 / 10) * dt * ((gamma_qed r / gamma_rad r) * (gamma_qed r / gamma_rad r)) / photon_weight r.
Definition nominal_photon_energy (r : radiation) : R := 1 / (gamma_qed r * gamma_qed r).

(** compton.h:66-82, synchrotron.h:66-82: charge and mass are those of the species. *)
Definition emission_policy (omegaB0 dt : R) (r : radiation) (q m : R) (drag : bool) : policy :=
  {| ph_weight := photon_weight r; ph_min := photon_energy_min r;
     nom_prob := Rabs (q / m) * nominal_probability omegaB0 dt r;
     nom_energy := m * nominal_photon_energy r; p_mass := m; should_drag := drag |}.

(** context.h:45-47, 55-57 *)
Definition drag_coeff (dt omegaB0 grad m : R) : R := 1 / 10 * dt * omegaB0 / ((grad * m) * (grad * m)).

(** The emission policy of a species. *)
Inductive process := Synchrotron | Compton.

(** sr.hpp:310-330: [u_old] before and [u] after the push, [w] the weight of the particle, [gca] whether the step was
    made with guiding centres, [sy] and [co] the drags of the species. *)
Definition radiate (gca sy co : bool) (cs cc : R) (em : option (process * policy)) (e b u_old u : vec) (w rnd : R)
  : vec * option (vec * R) :=
  match em with
  | None => (if negb gca && (sy || co) then drags sy co cs cc e b u_old u else u, None)
  | Some (k, po) =>
      let up := vscale (1 / 2) (vadd u_old u) in
      process_emission po (match k with Synchrotron => synchrotron po up e b rnd | Compton => compton po up rnd end) u w
  end.
