(** C86: sampled velocities follow the distributions they are named after. *)
From Coq Require Import Reals List Lra.
From Coquelicot Require Import Hierarchy Continuity Derive RInt.
From Verif Require Import VelModel SmpModel SmpSpec SmpProofs SmpTop SmpNormal SmpBoost.
Import ListNotations.
Open Scope R_scope.

(** The Lorentz factor of a power-law particle: [gamma - 1] is a power law between the two limits. *)
Theorem C86_powerlaw : forall gmin gmax p X2 X3, 0 < gmin < gmax -> 0 <= X2 <= 1 ->
  exists F, distribution_of (fun g => Rpower (g - 1) p) (1 + gmin) (1 + gmax) F
    /\ samples (fun X1 => u2gamma (powerlaw gmin gmax p X1 X2 X3)) (1 + gmin) (1 + gmax) F.
Proof. exact pl_vector. Qed.
Print Assumptions C86_powerlaw.
Example C86_powerlaw_ex : exists F, distribution_of (fun g => Rpower (g - 1) (-2)) (1 + 10) (1 + 1000) F
  /\ samples (fun X1 => u2gamma (powerlaw 10 1000 (-2) X1 (1 / 3) (1 / 5))) (1 + 10) (1 + 1000) F.
Proof. apply C86_powerlaw; lra. Qed.

(** The limits are not limits of the Lorentz factor. *)
Theorem C86_powerlaw_limit_refuted : exists gmin gmax p X1 X2 X3, 0 < gmin < gmax /\ 0 <= X1 < 1 /\ 0 <= X2 < 1 /\ 0 <= X3 < 1
  /\ gmax < u2gamma (powerlaw gmin gmax p X1 X2 X3).
Proof. exact pl_above. Qed.
Print Assumptions C86_powerlaw_limit_refuted.

(** Its direction is the one the second and third number give ... *)
Theorem C86_powerlaw_direction : forall gmin gmax p X1 X2 X3, 0 < gmin < gmax -> 0 <= X1 <= 1 -> 0 <= X2 <= 1 ->
  powerlaw gmin gmax p X1 X2 X3 = direction (sqrt (norm_sqr (powerlaw gmin gmax p X1 X2 X3))) X2 X3.
Proof. exact pl_shape. Qed.
Print Assumptions C86_powerlaw_direction.
Example C86_powerlaw_direction_ex : powerlaw 1 2 (-3) 0 (1 / 4) (1 / 8)
  = direction (sqrt (norm_sqr (powerlaw 1 2 (-3) 0 (1 / 4) (1 / 8)))) (1 / 4) (1 / 8).
Proof. apply C86_powerlaw_direction; lra. Qed.

(** ... in polar form about the first axis, of the wanted length ... *)
Theorem C86_direction : forall u X2 X3, 0 <= X2 <= 1 ->
  direction u X2 X3 = (u * (2 * X2 - 1), u * sqrt (1 - (2 * X2 - 1) * (2 * X2 - 1)) * cos (2 * PI * X3),
                       u * sqrt (1 - (2 * X2 - 1) * (2 * X2 - 1)) * sin (2 * PI * X3))
  /\ norm_sqr (direction u X2 X3) = u * u.
Proof. exact isotropic. Qed.
Print Assumptions C86_direction.
Example C86_direction_ex : norm_sqr (direction 7 (1 / 4) (1 / 3)) = 49.
Proof. destruct (C86_direction 7 (1 / 4) (1 / 3)) as [_ ->]; lra. Qed.
(** ... and with a uniform cosine, so no direction is preferred. *)
Theorem C86_isotropic : forall X3,
  samples (fun X => v1 (direction 1 X X3)) (-1) 1 (fun c => (1 + c) / 2)
  /\ distribution_of (fun _ => 1) (-1) 1 (fun c => (1 + c) / 2).
Proof. exact direction_uniform. Qed.
Print Assumptions C86_isotropic.

(** Hot plasma: the rejection loop returns the momentum of the first turn that counts, for every sequence
    of random numbers. *)
Theorem C86_rejection : forall eps temp l v rest, 0 <= eps -> 1 / 2 <= temp -> List.Forall (fun y => 0 <= y < 1) l ->
  juttner eps temp l = Some (v, rest) <->
  exists eta pre t x1 x2, l = (eta :: flat_map numbers (pre ++ [t]) ++ x1 :: x2 :: rest)%list
    /\ List.Forall (turn_ok eps) pre /\ List.Forall (fun q => ~ counts temp q) pre /\ turn_ok eps t /\ counts temp t
    /\ v = direction (proposes temp t) x1 x2.
Proof. exact juttner_iff. Qed.
Print Assumptions C86_rejection.

(** Whatever has been proposed, a turn counts for at least a ninth of the last numbers. *)
Theorem C86_accepts : forall temp t, 1 / 2 <= temp -> 0 < prod3 (factors t) < 1 -> last1 t < 1 / 9 -> counts temp t.
Proof. exact counts_often. Qed.
Print Assumptions C86_accepts.
Example C86_rejection_ex :
  juttner (1 / 100) 1 [0; 0; 0; 0; 1 / 2; 1 / 2; 1 / 2; 1 / 200; 1 / 10; 1 / 2; 1 / 4; 3 / 4]
  = Some (direction (1 * ln (/ (1 / 2 * (1 / 2) * (1 / 2)))) (1 / 2) (1 / 4), [3 / 4]).
Proof.
  apply C86_rejection; [lra|lra|repeat (constructor; [lra|]); constructor|].
  exists 0, [], (Turn [(0, 0, 0)] (1 / 2, 1 / 2, 1 / 2) [1 / 200] (1 / 10)), (1 / 2), (1 / 4).
  assert (Ht : turn_ok (1 / 100) (Turn [(0, 0, 0)] (1 / 2, 1 / 2, 1 / 2) [1 / 200] (1 / 10))).
  { unfold turn_ok. cbn [again3 factors again1 last1 prod3]. split; [constructor; [cbn; lra|constructor]|]. split; [lra|].
    split; [constructor; [lra|constructor]|lra]. }
  split; [reflexivity|]. split; [constructor|]. split; [constructor|]. split; [exact Ht|]. split; [|reflexivity].
  apply C86_accepts; cbn [factors prod3 last1]; lra.
Qed.

(** A turn proposes more than [s] exactly when the product is below [exp (- s / temp)]; *)
Theorem C86_proposal : forall temp t s, 0 < temp -> 0 < prod3 (factors t) ->
  (s < proposes temp t <-> prod3 (factors t) < exp (- s / temp)).
Proof. exact proposes_le. Qed.
Print Assumptions C86_proposal.
Example C86_proposal_ex : 1 / 2 < proposes 1 (Turn [] (1 / 2, 1 / 2, 1 / 2) [] 0).
Proof.
  apply C86_proposal; cbn [factors prod3]; [lra|lra|]. replace (- (1 / 2) / 1) with (- (1 / 2)) by field.
  rewrite exp_Ropp. assert (H3 : exp (1 / 2) < 3).
  { apply (Rlt_le_trans _ (exp 1)); [apply exp_increasing; lra|exact exp_le_3]. }
  pose proof (exp_pos (1 / 2)) as HP. apply (Rmult_lt_reg_l (exp (1 / 2))); [exact HP|]. rewrite Rinv_r by lra. lra.
Qed.
(** the product of three uniform numbers has the distribution [H]; so the density of proposals is [d], and
    with the chance to count it is the Juttner-Synge density, up to a factor that does not depend on the
    momentum. *)
Theorem C86_juttner : forall temp s, 0 < temp -> 0 <= s ->
  exists H d, (forall p, 0 < p <= 1 -> chance 3 p (H p))
    /\ is_derive (fun x => 1 - H (exp (- x / temp))) s d
    /\ d * exp (- (sqrt (1 + s * s) - s) / temp) = exp (- 1 / temp) / (2 * (temp * temp * temp)) * juttner_density temp s.
Proof. exact juttner_law. Qed.
Print Assumptions C86_juttner.
Example C86_juttner_ex : exists H d, (forall p, 0 < p <= 1 -> chance 3 p (H p))
    /\ is_derive (fun x => 1 - H (exp (- x / 2))) 3 d
    /\ d * exp (- (sqrt (1 + 3 * 3) - 3) / 2) = exp (- 1 / 2) / (2 * (2 * 2 * 2)) * juttner_density 2 3.
Proof. apply C86_juttner; lra. Qed.

(** The numbers close to zero that are redrawn cut the tail off. *)
Theorem C86_tail_refuted : forall eps temp, 0 < eps < 1 -> 1 / 2 <= temp ->
  exists u0, 0 < u0 /\ (forall u, u0 <= u -> 0 < juttner_density temp u)
    /\ forall l v rest, List.Forall (fun y => 0 <= y < 1) l ->
         juttner eps temp l = Some (v, rest) -> norm_sqr v < u0 * u0.
Proof. exact cut_tail. Qed.
Print Assumptions C86_tail_refuted.

(** Cool plasma: three independent components, each from its own numbers ... *)
Theorem C86_cool : forall eps temp l a b c rest, 0 <= eps -> temp < 1 / 2 -> List.Forall (fun y => 0 <= y < 1) l ->
  juttner eps temp l = Some ((a, b, c), rest) <->
  exists la lb lc, l = (la ++ lb ++ lc ++ rest)%list /\ normal_draw eps temp la a /\ normal_draw eps temp lb b
    /\ normal_draw eps temp lc c.
Proof. exact cool_iff. Qed.
Print Assumptions C86_cool.
Example C86_cool_ex : exists a b c, juttner (1 / 100) (1 / 4) [0; 1 / 2; 0; 1 / 2; 1 / 2; 1 / 3; 1 / 4; 7 / 8] = Some ((a, b, c), [7 / 8]).
Proof.
  do 3 eexists. apply C86_cool; [lra|lra|repeat (constructor; [lra|]); constructor|].
  exists [0; 1 / 2; 0], [1 / 2; 1 / 2], [1 / 3; 1 / 4]. split; [reflexivity|]. split; [|split].
  - exists [0], (1 / 2), 0. split; [reflexivity|]. split; [constructor; [lra|constructor]|]. split; [lra|reflexivity].
  - exists [], (1 / 2), (1 / 2). split; [reflexivity|]. split; [constructor|]. split; [lra|reflexivity].
  - exists [], (1 / 3), (1 / 4). split; [reflexivity|]. split; [constructor|]. split; [lra|reflexivity].
Qed.
(** ... whose radius has the Rayleigh distribution. *)
Theorem C86_radius : forall x r, 0 < x < 1 -> 0 <= r -> (sqrt (-2 * ln x) <= r <-> exp (- (r * r) / 2) <= x).
Proof. exact rayleigh. Qed.
Print Assumptions C86_radius.
Example C86_radius_ex : sqrt (-2 * ln (exp (- (3 * 3) / 2))) <= 3.
Proof.
  apply C86_radius; [|lra|lra]. split; [apply exp_pos|]. apply (Rlt_le_trans _ (exp 0)); [apply exp_increasing; lra|].
  rewrite exp_0. lra.
Qed.

(** With an independent uniform angle: the numbers for which the point of radius [sqrt (-2 ln x1)] and angle
    [2 pi x2] lies in a polar rectangle fill a rectangle of the unit square, and its area is the integral
    over the polar rectangle (area element [x dx dt]) of the product of two normal densities of variance
    one.  So the first coordinate is normal, and times [sqrt temp] it is the component of C86_cool. *)
Theorem C86_box_muller : forall r r' a b, 0 <= r < r' -> 0 <= a < b /\ b <= 2 * PI ->
  exists lo hi lo' hi' inner, (0 <= lo <= hi /\ hi <= 1) /\ (0 <= lo' <= hi' /\ hi' <= 1)
    /\ (forall x1 x2, 0 < x1 < 1 -> 0 <= x2 < 1 ->
         (r < sqrt (-2 * ln x1) <= r' /\ a < 2 * PI * x2 <= b) <-> (lo <= x1 < hi /\ lo' < x2 <= hi'))
    /\ (forall x : R, is_RInt (fun t : R => normal_density (x * cos t) * normal_density (x * sin t) * x) a b (inner x))
    /\ is_RInt inner r r' ((hi - lo) * (hi' - lo')).
Proof. exact box_muller. Qed.
Print Assumptions C86_box_muller.
Example C86_box_muller_ex : 0 <= 1 < 2 /\ 0 <= 0 < PI / 2 /\ PI / 2 <= 2 * PI.
Proof. pose proof PI_RGT_0. lra. Qed.

(** Normal components are not the Juttner-Synge distribution below the threshold: this is the ratio of the
    densities ... *)
Theorem C86_cool_ratio : forall temp u, 0 < temp ->
  maxwell_density temp u = juttner_density temp u * exp (- ((sqrt (1 + u * u) - 1) * (sqrt (1 + u * u) - 1)) / (2 * temp)).
Proof. exact ratio. Qed.
Print Assumptions C86_cool_ratio.
(** ... and it can be off by more than a factor of two. *)
Theorem C86_cool_refuted : exists temp u u', 0 < temp < 1 / 2 /\ 0 < u /\ 0 < u' /\
  maxwell_density temp u * juttner_density temp u' < 1 / 2 * (juttner_density temp u * maxwell_density temp u').
Proof. exact cool_ratio. Qed.
Print Assumptions C86_cool_refuted.

(** A temperature close to zero gives particles at rest and uses no numbers; above, the distribution. *)
Theorem C86_cold : forall eps temp l, Rabs temp <= eps -> maxwellian_rest eps temp l = Some ((0, 0, 0), l).
Proof. exact cold_zero. Qed.
Print Assumptions C86_cold.
Theorem C86_warm : forall eps temp l, 0 <= eps < temp -> maxwellian_rest eps temp l = juttner eps temp l.
Proof. exact warm. Qed.
Print Assumptions C86_warm.
Example C86_cold_ex : maxwellian_rest (1 / 100) 0 [1 / 2] = Some ((0, 0, 0), [1 / 2]).
Proof. apply C86_cold. rewrite Rabs_R0. lra. Qed.
Example C86_warm_ex : maxwellian_rest (1 / 100) 2 [] = juttner (1 / 100) 2 [].
Proof. apply C86_warm. lra. Qed.

(** Boost with flips: a velocity against the drift is mirrored for a share of the numbers, any other never,
    and then boosted ... *)
Theorem C86_flip : forall u4 r v, 0 <= u4 -> 0 <= r < 1 ->
  let share := u4 / sqrt (1 + u4 * u4) * Rabs (v1 v) / u2gamma v in
  0 <= share < 1
  /\ (v1 v < 0 -> r < share -> boost_x1 u4 r v = boosted u4 (mirrored v))
  /\ (0 <= v1 v \/ share <= r -> boost_x1 u4 r v = boosted u4 v).
Proof. exact flip_iff. Qed.
Print Assumptions C86_flip.
Example C86_flip_ex : boost_x1 3 (1 / 2) (4, 0, 0) = boosted 3 (4, 0, 0).
Proof. apply (C86_flip 3 (1 / 2) (4, 0, 0)); [lra|lra|]. left. unfold v1. cbn [fst]. lra. Qed.
(** ... so that of a symmetric pair a velocity is kept with weight [1 + beta * v1 / gamma], the ratio of the
    energies after and before the boost over the Lorentz factor of the drift: the weight a boosted
    distribution needs. *)
Theorem C86_flip_weight : forall u4 v, 0 <= u4 ->
  u2gamma (boosted u4 v) = sqrt (1 + u4 * u4) * u2gamma v * (1 + u4 / sqrt (1 + u4 * u4) * v1 v / u2gamma v).
Proof. exact weight. Qed.
Print Assumptions C86_flip_weight.
Example C86_flip_weight_ex : u2gamma (boosted 3 (4, 0, 1)) =
  sqrt (1 + 3 * 3) * u2gamma (4, 0, 1) * (1 + 3 / sqrt (1 + 3 * 3) * v1 (4, 0, 1) / u2gamma (4, 0, 1)).
Proof. apply C86_flip_weight. lra. Qed.

(** Together: for which numbers a velocity is mirrored, ... *)
Theorem C86_turned : forall u4 v r, 0 <= u4 -> 0 <= r < 1 ->
  0 <= turned u4 v < 1 /\ boost_x1 u4 r v = (if Rlt_dec r (turned u4 v) then boosted u4 (mirrored v) else boosted u4 v).
Proof. exact turned_iff. Qed.
Print Assumptions C86_turned.
(** ... and the law of the result.  Let [f] be the density of the first component, for given other ones,
    and let it be symmetric.  What is kept in [a, b] and what comes there by a flip is then together, for
    every [a] and [b], the integral over the boosted interval of the density at the velocity before the
    boost, over the Lorentz factor of the drift: the distribution an observer sees against whom the plasma
    drifts. *)
Theorem C86_boosted : forall u4 y z f a b, 0 <= u4 -> (forall x, continuous f x) -> (forall x, f (- x) = f x) ->
  exists stay come, is_RInt (fun x => f x * (1 - turned u4 (x, y, z))) a b stay
    /\ is_RInt (fun x => f x * turned u4 (x, y, z)) (- b) (- a) come
    /\ is_RInt (fun p => f (v1 (boosted (- u4) (p, y, z))) / sqrt (1 + u4 * u4)) (v1 (boosted u4 (a, y, z))) (v1 (boosted u4 (b, y, z))) (stay + come).
Proof. exact (fun u4 y z f a b U => boosted_law u4 y z U f a b). Qed.
Print Assumptions C86_boosted.
Example C86_boosted_ex : turned 3 (4, 0, 0) = 0 /\ (forall x, continuous (fun x : R => x * x) x) /\ (forall x, (- x) * (- x) = x * x).
Proof.
  split; [|split; [|intros; ring]].
  - unfold turned. apply Rmax_left. change (v1 (4, 0, 0)) with 4. assert (0 <= 3 / sqrt (1 + 3 * 3) * 4 / u2gamma (4, 0, 0)); [|lra].
    assert (S : 0 < sqrt (1 + 3 * 3)) by (apply sqrt_lt_R0; lra). assert (S' : 0 < u2gamma (4, 0, 0)) by (apply sqrt_lt_R0; unfold norm_sqr, v1, v2, v3; cbn; lra).
    apply Rmult_le_pos; [apply Rmult_le_pos; [apply Rmult_le_pos; [lra|]|lra]|]; left; now apply Rinv_0_lt_compat.
  - intros x. apply (continuous_mult (K := R_AbsRing) (fun x : R => x) (fun x : R => x)); apply continuous_id.
Qed.
