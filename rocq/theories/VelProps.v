(** Theorems on velocity updates (C25, C26, C46, C47, C54). *)
From Coq Require Import Reals Lra ZArith.
From Verif Require Import VelModel VelSpec VelProofs VelTop Fp32 VelRound.
Open Scope R_scope.

(** C25: no work in a magnetic field. *)
Theorem C25_boris_preserves_the_magnitude :
  forall h u b, norm_sqr (boris h u vzero b) = norm_sqr u.
Proof. exact boris_energy. Qed.
Print Assumptions C25_boris_preserves_the_magnitude.

(** C25: reversing the velocity and the magnetic field undoes the push, whatever the electric
    field. *)
Theorem C25_boris_is_reversible :
  forall h u e b, boris h (neg (boris h u e b)) e (neg b) = neg u.
Proof. exact boris_reversible. Qed.
Print Assumptions C25_boris_is_reversible.

(** C25: the push is half an electric kick, a rotation around the magnetic field (the time-centred
    discretisation of du/dt = u x B / gamma, with the Lorentz factor after the first kick) and
    half an electric kick; [h] is half the normalised time step. *)
Theorem C25_boris_solves_its_equation :
  forall h u e b,
  let um := vadd u (vscale h e) in
  let up := sub (boris h u e b) (vscale h e) in
  sub up um = vscale (h / lorentz um) (cross (vadd up um) b) /\ norm_sqr up = norm_sqr um.
Proof. exact boris_rotation. Qed.
Print Assumptions C25_boris_solves_its_equation.

(** A push that does something: a quarter turn and an acceleration. *)
Example C25_case :
  boris 1 (1, 0, 0) (0, 0, 0) (0, 0, sqrt 2) = (0, -1, 0) /\ boris 1 (0, 0, 0) (1, 2, 3) (0, 0, 0) = (2, 4, 6).
Proof.
  split.
  - unfold boris. cbv [vadd vscale cross norm_sqr v1 v2 v3 fst snd].
    replace (1 + ((1 + 1 * 0) * (1 + 1 * 0) + (0 + 1 * 0) * (0 + 1 * 0) + (0 + 1 * 0) * (0 + 1 * 0))) with 2 by ring.
    assert (P : 0 < sqrt 2) by (apply sqrt_lt_R0; lra).
    set (s := sqrt 2) in *. replace (1 * (1 / s) * s) with 1 by (field; lra). replace (1 * (1 / s) * 0) with 0 by ring.
    f_equal; [f_equal|]; field.
  - unfold boris. cbv [vadd vscale cross norm_sqr v1 v2 v3 fst snd]. set (s := sqrt _). clearbody s.
    replace (1 * (1 / s) * 0) with 0 by ring. f_equal; [f_equal|]; field; lra.
Qed.

(** C26: no work in a magnetic field. *)
Theorem C26_vay_preserves_the_magnitude :
  forall h u b, norm_sqr (vay h u vzero b) = norm_sqr u.
Proof. exact vay_energy. Qed.
Print Assumptions C26_vay_preserves_the_magnitude.

(** C26: the nested square roots give the one and only solution of the implicit equation in which
    the magnetic force is taken with the mean of the old and the new velocity. *)
Theorem C26_vay_is_the_unique_solution :
  forall h u e b w, w = vay h u e b <->
  sub w u = vscale (2 * h) (vadd e (cross (vscale (1 / 2) (vadd (velocity u) (velocity w))) b)).
Proof. exact vay_characterised. Qed.
Print Assumptions C26_vay_is_the_unique_solution.

(** C26: a particle on which electric and magnetic force cancel is not accelerated, and only such
    a particle. *)
Theorem C26_vay_keeps_a_force_free_particle :
  forall h u e b, h <> 0 -> (vay h u e b = u <-> vadd e (cross (velocity u) b) = vzero).
Proof. intros h u e b H. exact (conj (vay_cancels_conv h u e b H) (vay_cancels h u e b)). Qed.
Print Assumptions C26_vay_keeps_a_force_free_particle.

(** The Boris push does accelerate it. *)
Theorem C26_boris_force_free_refuted :
  exists h u e b, vadd e (cross (velocity u) b) = vzero /\ boris h u e b <> u.
Proof. exact boris_drifts. Qed.
Print Assumptions C26_boris_force_free_refuted.

(** C26: reversibility. *)
Theorem C26_vay_is_reversible :
  forall h u e b, vay h (neg (vay h u e b)) e (neg b) = neg u.
Proof. exact vay_reversible. Qed.
Print Assumptions C26_vay_is_reversible.

(** A force-free particle: velocity 3/5 along x, fields E = (0, 3/5, 0), B = (0, 0, 1). *)
Example C26_case : vay 1 (3 / 4, 0, 0) (0, 3 / 5, 0) (0, 0, 1) = (3 / 4, 0, 0).
Proof.
  apply vay_cancels. unfold velocity, lorentz.
  assert (S : sqrt (1 + norm_sqr (3 / 4, 0, 0)) = 5 / 4).
  { replace (1 + norm_sqr (3 / 4, 0, 0)) with (5 / 4 * (5 / 4)) by (unfold norm_sqr, v1, v2, v3; cbn; field). apply sqrt_square. lra. }
  rewrite S. cbv [vadd vscale cross v1 v2 v3 fst snd vzero]. f_equal; [f_equal|]; field.
Qed.

(** C46: each drag alone changes the velocity as it should, at the velocity in the middle of the
    step. *)
Theorem C46_single_drags_partial :
  forall cs cc e b u_old u,
  drags true false cs cc e b u_old u = vadd u (synchrotron_change cs e b (midpoint u_old u)) /\
  drags false true cs cc e b u_old u = vadd u (compton_change cc (midpoint u_old u)) /\
  drags false false cs cc e b u_old u = u.
Proof. intros cs cc e b u_old u. exact (conj (synchrotron_alone cs e b cc u_old u) (conj (compton_alone cs e b cc u_old u) eq_refl)). Qed.
Print Assumptions C46_single_drags_partial.

(** C46 fails with both drags on: the second one gets the three-velocity as if it were the
    four-velocity. *)
Theorem C46_both_drags_compute :
  forall cs cc e b u_old u,
  let w := midpoint u_old u in
  drags true true cs cc e b u_old u =
  vadd (vadd u (synchrotron_change cs e b w)) (compton_change cc (velocity w)).
Proof. intros cs cc e b u_old u. exact (both_drags cs e b cc u_old u). Qed.
Print Assumptions C46_both_drags_compute.

Theorem C46_sum_of_drags_refuted :
  exists cs cc e b u_old u,
  let w := midpoint u_old u in
  drags true true cs cc e b u_old u <>
  vadd (vadd u (synchrotron_change cs e b w)) (compton_change cc w).
Proof. exact both_drags_refuted. Qed.
Print Assumptions C46_sum_of_drags_refuted.

(** The changes are decelerating: power lost in a magnetic field and to background photons. *)
Theorem C46_drags_decelerate :
  forall cs cc b w,
  dot (velocity w) (synchrotron_change cs vzero b w) = - cs * (1 + norm_sqr w) * norm_sqr (cross (velocity w) b) /\
  dot (velocity w) (compton_change cc w) = - cc * norm_sqr w.
Proof. intros cs cc b w. exact (conj (synchrotron_power cs b w) (compton_power cc w)). Qed.
Print Assumptions C46_drags_decelerate.

Example C46_case : compton_change 2 (3 / 4, 0, 0) = (- (15 / 8), 0, 0).
Proof.
  unfold compton_change, velocity, lorentz.
  assert (S : sqrt (1 + norm_sqr (3 / 4, 0, 0)) = 5 / 4).
  { replace (1 + norm_sqr (3 / 4, 0, 0)) with (5 / 4 * (5 / 4)) by (unfold norm_sqr, v1, v2, v3; cbn; field). apply sqrt_square. lra. }
  rewrite S. cbv [vscale norm_sqr v1 v2 v3 fst snd]. f_equal; [f_equal|]; field.
Qed.

(** C47: the rotation to the drift direction is an isometry, for every drift and every test
    [zero] for negligible components that accepts 0. *)
Theorem C47_rotation_is_an_isometry :
  forall zero d v, zero 0 = true ->
  norm_sqr (rotate (drift_dir zero d) (unit_dir d) v) = norm_sqr v.
Proof. exact rotate_isometry. Qed.
Print Assumptions C47_rotation_is_an_isometry.

(** C47: it takes the first axis to the drift direction, if the test accepts nothing but 0. *)
Theorem C47_rotation_hits_the_drift :
  forall zero d, (forall x, zero x = true <-> x = 0) -> norm_sqr d <> 0 ->
  rotate (drift_dir zero d) (unit_dir d) (1, 0, 0) = unit_dir d.
Proof. exact rotate_axis. Qed.
Print Assumptions C47_rotation_hits_the_drift.

(** C47: the boost along the first axis is a Lorentz transformation of the (possibly flipped)
    sampled velocity. *)
Theorem C47_boost_is_a_lorentz_transformation :
  forall u4 r v,
  let beta := u4 / sqrt (1 + u4 * u4) in
  let x := if Rlt_dec (lorentz v * r) (- beta * v1 v) then - v1 v else v1 v in
  lorentz (boost_x1 u4 r v) = sqrt (1 + u4 * u4) * (lorentz v + beta * x).
Proof. exact boost_energy. Qed.
Print Assumptions C47_boost_is_a_lorentz_transformation.

(** C47 fails in single precision near the antipode: the drift is not recognised as lying on an
    axis, and yet the rotation divides by zero. *)
Theorem C47_single_precision_refuted :
  exists d, drift_dir almost_zero32 d = 4%Z /\ v1 (unit_dir_rounded rnd32 d) + 1 = 0.
Proof. exact rotation_divides_by_zero. Qed.
Print Assumptions C47_single_precision_refuted.

Example C47_case : rotate 4 (3 / 5, 4 / 5, 0) (1, 2, 3) = (-1, 2, 3).
Proof. unfold rotate. cbn [Z.eqb orb Pos.eqb]. cbv [v1 v2 v3 fst snd]. f_equal; [f_equal|]; field. Qed.

(** C54: the guiding-centre push.  The component along the magnetic field is accelerated by the
    parallel forces, the rest of the four-velocity is the drift velocity times the Lorentz factor
    of the result, and the drift is slower than light. *)
Theorem C54_guiding_centre_is_consistent :
  forall h dt u f e b, norm_sqr e < norm_sqr b ->
  let u' := gca h dt u f e b in
  let vE := gca_drift e b in
  let bhat := vscale (/ norm b) b in
  let upar := dot u bhat + 2 * h * dot e bhat + dt * dot f bhat in
  dot u' bhat = upar /\ sub u' (vscale upar bhat) = vscale (lorentz u') vE.
Proof. exact gca_energy. Qed.
Print Assumptions C54_guiding_centre_is_consistent.

Theorem C54_drift_is_subluminal :
  forall e b, norm_sqr e < norm_sqr b ->
  0 <= norm_sqr (gca_drift e b) < 1 /\ dot (gca_drift e b) b = 0 /\ dot (gca_drift e b) e = 0.
Proof. intros e b H. exact (conj (gca_drift_speed e b H) (gca_drift_perp e b)). Qed.
Print Assumptions C54_drift_is_subluminal.

(** C54: away from the weak-field branch the drift is E x B / B^2 for perpendicular fields; in
    that branch the factor differs from the exact one [f] by at most 20 w^4. *)
Theorem C54_drift_is_e_cross_b :
  forall e b, norm_sqr e < norm_sqr b -> dot e b = 0 -> 1 / 100 <= norm_sqr (gca_w e b) ->
  gca_drift e b = vscale (/ norm_sqr b) (cross e b).
Proof. exact gca_exb. Qed.
Print Assumptions C54_drift_is_e_cross_b.

Theorem C54_weak_field_branch :
  forall w f, 0 <= w < 1 / 100 -> f = 1 + w * (f * f) -> 0 <= f <= 2 ->
  0 <= f - gca_factor w <= 20 * (w * w * w * w).
Proof. exact gca_series. Qed.
Print Assumptions C54_weak_field_branch.

Example C54_case : norm_sqr (1, 0, 0) < norm_sqr (0, 0, 2) /\ dot (1, 0, 0) (0, 0, 2) = 0 /\
  1 / 100 <= norm_sqr (gca_w (1, 0, 0) (0, 0, 2)) /\ vscale (/ norm_sqr (0, 0, 2)) (cross (1, 0, 0) (0, 0, 2)) = (0, - (1 / 2), 0).
Proof.
  unfold gca_w. cbv [vscale cross dot norm_sqr v1 v2 v3 fst snd]. repeat split; try lra. f_equal; [f_equal|]; field.
Qed.
