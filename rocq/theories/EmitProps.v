(** Property C52: photons and the recoil of the particles that emit them. *)
From Coq Require Import Reals Lra Bool.
From Verif Require Import VelModel EmitModel EmitSpec EmitProofs.
Open Scope R_scope.

(** With the drag switched on, a particle that emits a photon loses exactly the momentum the
    photon carries; the photon has the energy gamma^2 times the nominal one and flies along. *)
Theorem C52_compton_momentum_partial : forall po u rnd ux w ph, sensible po -> should_drag po = true ->
  snd (process_emission po (compton po u rnd) ux w) = Some ph ->
  vadd (momentum (p_mass po) w (fst (process_emission po (compton po u rnd) ux w))) (photon_momentum ph) =
    momentum (p_mass po) w ux /\
  norm (fst ph) = (1 + norm_sqr u) * nom_energy po /\
  fst ph = vscale ((1 + norm_sqr u) * nom_energy po / norm u) u.
Proof. exact compton_conserves. Qed.
Print Assumptions C52_compton_momentum_partial.

(** Synchrotron: the same, the photon within a right angle of the velocity. *)
Theorem C52_synchrotron_momentum_partial : forall po u e b rnd ux w ph, sensible po -> should_drag po = true -> random rnd ->
  snd (process_emission po (synchrotron po u e b rnd) ux w) = Some ph ->
  vadd (momentum (p_mass po) w (fst (process_emission po (synchrotron po u e b rnd) ux w))) (photon_momentum ph) =
    momentum (p_mass po) w ux /\
  norm (fst ph) = (1 + norm_sqr u) * nom_energy po /\ 0 < dot (fst ph) u.
Proof. exact synchrotron_conserves. Qed.
Print Assumptions C52_synchrotron_momentum_partial.

(** A fast particle does emit. *)
Example C52_example : sensible (plain true 0) /\ should_drag (plain true 0) = true /\
  exists ph, snd (process_emission (plain true 0) (compton (plain true 0) fast 0) fast 1) = Some ph.
Proof.
  split; [apply plain_sensible|]. split; [reflexivity|].
  unfold process_emission, compton, decide; cbn [r_emit r_drag r_delta r_energy fst snd].
  rewrite plain_emit. cbn [andb]. rewrite le_b_yes by (rewrite fast_sq; cbn; lra). eexists. reflexivity.
Qed.

(** With the drag off the photon is created without recoil ... *)
Theorem C52_no_recoil_refuted : exists po u rnd ux w ph, sensible po /\ random rnd /\ 0 < w /\
  snd (process_emission po (compton po u rnd) ux w) = Some ph /\
  fst (process_emission po (compton po u rnd) ux w) = ux /\ photon_momentum ph <> (0, 0, 0).
Proof. exact no_recoil. Qed.
Print Assumptions C52_no_recoil_refuted.

(** ... and below the smallest energy the particle recoils without a photon. *)
Theorem C52_recoil_without_photon_refuted : exists po u rnd ux w, sensible po /\ random rnd /\ 0 < w /\
  snd (process_emission po (compton po u rnd) ux w) = None /\
  fst (process_emission po (compton po u rnd) ux w) <> ux.
Proof. exact recoil_without_photon. Qed.
Print Assumptions C52_recoil_without_photon_refuted.
