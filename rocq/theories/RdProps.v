(** C89: radiation as a continuous drag and as emission of photons. *)
From Coq Require Import Reals Lra Bool.
From Coquelicot Require Import Hierarchy RInt.
From Verif Require Import VelModel VelSpec EmitModel RdModel RdSpec RdProofs RdTop.
Open Scope R_scope.

(** On average over the random number, emission with recoil changes the velocity by what the drag of the same process
    would add, times |q| m, times the cosine of the angle between that force and the direction of motion.  Neither
    gamma_qed nor the weight of the photons matters. *)
Theorem C89_mean gca sy co cs cc W dt r q m k e b u0 u w : good r -> 0 < m -> affordable r (midpoint u0 u) ->
  0 <= chance W dt q m r k e b (midpoint u0 u) <= 1 ->
  mean (fun rnd => fst (radiate gca sy co cs cc (Some (k, emission_policy W dt r q m true)) e b u0 u w rnd))
       (vadd u (vscale (Rabs q * m * alignment k e b (midpoint u0 u)) (slowing k (drag_coeff dt W (gamma_rad r) m) e b (midpoint u0 u)))).
Proof. exact (mean_change gca sy co cs cc W dt r q m k e b u0 u w). Qed.
Print Assumptions C89_mean.

(** The cosine is one for Compton drag and for motion across a magnetic field, and never more than one. *)
Theorem C89_alignment k e b u : Rabs (alignment k e b u) <= 1 /\ (0 < norm_sqr u -> alignment Compton e b u = 1)
  /\ (0 < norm_sqr u -> 0 < norm_sqr b -> dot u b = 0 -> alignment Synchrotron (0, 0, 0) b u = 1).
Proof. exact (conj (alignment_bound k e b u) (conj (compton_aligned e b u) (across u b))). Qed.
Print Assumptions C89_alignment.

(** For unit charge and mass, Compton emission slows a particle on average exactly as Compton drag does. *)
Theorem C89_compton gca w W dt r q m e b u0 u cs : good r -> 0 < m -> affordable r (midpoint u0 u) -> Rabs q * m = 1 ->
  0 <= chance W dt q m r Compton e b (midpoint u0 u) <= 1 ->
  mean (fun rnd => fst (radiate gca false true cs (drag_coeff dt W (gamma_rad r) m) (Some (Compton, emission_policy W dt r q m true)) e b u0 u w rnd))
       (fst (radiate false false true cs (drag_coeff dt W (gamma_rad r) m) None e b u0 u w 0)).
Proof. exact (compton_agrees gca w W dt r q m e b u0 u cs). Qed.
Print Assumptions C89_compton.

(** For other species it does not: with mass 100 and unit charge, the drag is a hundred times weaker than the emission. *)
Theorem C89_heavier_refuted : exists W dt r q m u w x, good r /\ 0 < m /\ affordable r u /\
  0 <= chance W dt q m r Compton (0, 0, 0) (0, 0, 0) u <= 1 /\
  mean (fun rnd => fst (radiate false false true 0 (drag_coeff dt W (gamma_rad r) m) (Some (Compton, emission_policy W dt r q m true)) (0, 0, 0) (0, 0, 0) u u w rnd)) x /\
  v1 (fst (radiate false false true 0 (drag_coeff dt W (gamma_rad r) m) None (0, 0, 0) (0, 0, 0) u u w 0)) - v1 u = 1 / 100 * (v1 x - v1 u) /\ v1 x < v1 u.
Proof. exact heavier_refuted. Qed.
Print Assumptions C89_heavier_refuted.

(** Where more than one photon is expected per step, the excess is lost. *)
Theorem C89_saturation gca sy co cs cc W dt r q m k e b u0 u w : good r -> 0 < m -> affordable r (midpoint u0 u) ->
  1 <= chance W dt q m r k e b (midpoint u0 u) ->
  mean (fun rnd => fst (radiate gca sy co cs cc (Some (k, emission_policy W dt r q m true)) e b u0 u w rnd))
       (vadd u (vscale (Rabs q * m * alignment k e b (midpoint u0 u) / chance W dt q m r k e b (midpoint u0 u))
                       (slowing k (drag_coeff dt W (gamma_rad r) m) e b (midpoint u0 u)))).
Proof. exact (mean_saturated gca sy co cs cc W dt r q m k e b u0 u w). Qed.
Print Assumptions C89_saturation.

(** Energy that leaves with the photons on average, whether or not the particle recoils: free of gamma_qed and of the
    weight of the photons. *)
Theorem C89_radiated gca sy co cs cc W dt r q m d k e b u0 u w : good r -> 0 < m -> affordable r (midpoint u0 u) ->
  photon_energy_min r <= photon r m (midpoint u0 u) -> 0 <= chance W dt q m r k e b (midpoint u0 u) <= 1 ->
  is_RInt (fun rnd => carried (snd (radiate gca sy co cs cc (Some (k, emission_policy W dt r q m d)) e b u0 u w rnd))) 0 1
    (w * Rabs q * (W * dt / 10) / (gamma_rad r * gamma_rad r) * (- dot (slowing k 1 e b (midpoint u0 u)) (midpoint u0 u) / norm (midpoint u0 u))).
Proof. exact (radiated gca sy co cs cc W dt r q m d k e b u0 u w). Qed.
Print Assumptions C89_radiated.

(** Photons are affordable only in a window of Lorentz factors, which is empty unless gamma_qed^2 exceeds 20 ... *)
Theorem C89_window r u : good r -> affordable r u <->
  20 < gamma_qed r * gamma_qed r /\
  gamma_qed r * gamma_qed r / 10 * (1 - sqrt (1 - 20 / (gamma_qed r * gamma_qed r))) < lorentz u
   < gamma_qed r * gamma_qed r / 10 * (1 + sqrt (1 - 20 / (gamma_qed r * gamma_qed r))).
Proof. exact (window r u). Qed.
Print Assumptions C89_window.

(** ... and outside of it a particle neither emits nor slows down. *)
Theorem C89_outside gca sy co cs cc W dt r q m d k e b u0 u w rnd : good r -> 0 < m -> ~ affordable r (midpoint u0 u) ->
  radiate gca sy co cs cc (Some (k, emission_policy W dt r q m d)) e b u0 u w rnd = (u, None).
Proof. exact (unaffordable gca sy co cs cc W dt r q m d k e b u0 u w rnd). Qed.
Print Assumptions C89_outside.

(** So it is not true that every particle the drag slows is slowed by emission: with the default parameters, none of
    Lorentz factor 20 is. *)
Theorem C89_fast_refuted W dt : 0 < W -> 0 < dt -> exists r u, good r /\ forall gca sy co cs cc q m d k e b w rnd, 0 < m ->
  radiate gca sy co cs cc (Some (k, emission_policy W dt r q m d)) e b u u w rnd = (u, None) /\
  v1 (fst (radiate false false true cs (drag_coeff dt W (gamma_rad r) m) None e b u u w rnd)) < v1 u.
Proof. exact (fast_refuted W dt). Qed.
Print Assumptions C89_fast_refuted.

(** A species that emits is not subject to any of its drags, also not to that of the other process; and it emits in the
    guiding-centre mode, in which drags are suspended. *)
Theorem C89_replaces gca gca' sy sy' co co' cs cs' cc cc' k po e b u0 u w rnd :
  radiate gca sy co cs cc (Some (k, po)) e b u0 u w rnd = radiate gca' sy' co' cs' cc' (Some (k, po)) e b u0 u w rnd.
Proof. exact (replaces gca gca' sy sy' co co' cs cs' cc cc' k po e b u0 u w rnd). Qed.
Print Assumptions C89_replaces.

Theorem C89_guiding_centre sy co cs cc e b u0 u w rnd : radiate true sy co cs cc None e b u0 u w rnd = (u, None).
Proof. exact eq_refl. Qed.
Print Assumptions C89_guiding_centre.

Example C89_case : good deflt /\ affordable deflt (midpoint mv0 mv0) /\ chance 1 (1 / 10) (-1) 1 deflt Compton (0, 0, 0) (0, 0, 0) (midpoint mv0 mv0) = 3 / 5
  /\ photon_energy_min deflt <= photon deflt 1 (midpoint mv0 mv0)
  /\ slowing Compton (drag_coeff (1 / 10) 1 1 1) (0, 0, 0) (0, 0, 0) (midpoint mv0 mv0) = (- (15 / 1600), 0, 0).
Proof.
  rewrite mv0_mid. split; [apply deflt_good|]. split; [apply deflt_affordable|]. split; [|split].
  - rewrite chance0 by lra. unfold Rabs. destruct (Rcase_abs _); lra.
  - unfold photon. rewrite mv0_sq. cbn. lra.
  - cbn [slowing]. rewrite slow0. unfold drag_coeff. f_equal. f_equal. field.
Qed.
(** Slow enough steps exist for synchrotron emission as well, across a unit field. *)
Example C89_synchrotron_case : alignment Synchrotron (0, 0, 0) (0, 0, 1) mv0 = 1
  /\ 0 < chance 1 (1 / 100) 1 1 deflt Synchrotron (0, 0, 0) (0, 0, 1) mv0 < 1.
Proof.
  split.
  - apply across; [rewrite mv0_sq; lra| |]; unfold norm_sqr, dot, mv0, v1, v2, v3; cbn; lra.
  - unfold chance. cbn [slowing]. unfold synchrotron_change, VelSpec.velocity. rewrite mv0_lor, mv0_sq, mv0_norm, Rabs_R1.
    unfold dot, vscale, vadd, sub, cross, norm_sqr, mv0, v1, v2, v3. cbn. split; lra.
Qed.
