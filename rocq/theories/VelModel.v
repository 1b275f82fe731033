(** Velocity updates: src/kernels/pushers/sr.hpp:334-523, 1372-1430, 1490-1505,
    src/archetypes/piston.h:52-163 and src/archetypes/energy_dist.h:160-190, 224-292.

    Arithmetic is exact: [real_t] is modelled by R.  Vectors are triples.  Division by zero and
    square roots of negative numbers (NaN in the code) are excluded by hypotheses where the
    code can reach them. *)
From Coq Require Import Reals.
Open Scope R_scope.

Definition vec : Type := (R * R * R)%type.
Definition v1 (a : vec) : R := fst (fst a).
Definition v2 (a : vec) : R := snd (fst a).
Definition v3 (a : vec) : R := snd a.
Definition vadd (a b : vec) : vec := (v1 a + v1 b, v2 a + v2 b, v3 a + v3 b).
Definition vscale (k : R) (a : vec) : vec := (k * v1 a, k * v2 a, k * v3 a).

(** src/global/utils/numeric.h: NORM_SQR, NORM, DOT, CROSS_x1..3, U2GAMMA. *)
Definition norm_sqr (a : vec) : R := v1 a * v1 a + v2 a * v2 a + v3 a * v3 a.
Definition norm (a : vec) : R := sqrt (norm_sqr a).
Definition dot (a b : vec) : R := v1 a * v1 b + v2 a * v2 b + v3 a * v3 b.
Definition cross (a b : vec) : vec :=
  (v2 a * v3 b - v3 a * v2 b, v3 a * v1 b - v1 a * v3 b, v1 a * v2 b - v2 a * v1 b).
Definition u2gamma (u : vec) : R := sqrt (1 + norm_sqr u).

(** sr.hpp:102: q/m omegaB0 dt / 2. *)
Definition normalized_dt_half (charge mass omegaB0 dt : R) : R := 1 / 2 * (charge / mass) * omegaB0 * dt.

(** sr.hpp:334-367, velocityEMPush_Boris. *)
Definition boris (h : R) (u e b : vec) : vec :=
  let e0 := vscale h e in
  let u0 := vadd u e0 in
  let c := h * (1 / sqrt (1 + norm_sqr u0)) in
  let b0 := vscale c b in
  let c := 2 / (1 + norm_sqr b0) in
  let u1 := vscale c (vadd u0 (cross u0 b0)) in
  vadd u0 (vadd (cross u1 b0) e0).

(** sr.hpp:369-435, velocityEMPush_Vay.  [vay_solve] is the part after the half step with the
    old velocity (lines 403-434). *)
Definition vay_gamma_sqr (u1 b0 : vec) : R :=
  let c := dot u1 b0 in
  let c2 := 1 + norm_sqr u1 - norm_sqr b0 in
  1 / 2 * (c2 + sqrt (c2 * c2 + 4 * (norm_sqr b0 + c * c))).
Definition vay_solve (u1 b0 : vec) : vec :=
  let k := 1 / sqrt (vay_gamma_sqr u1 b0) in
  let c2 := 1 / (1 + norm_sqr (vscale k b0)) in
  vscale c2 (vadd u1 (vadd (vscale (k * dot u1 b0) (vscale k b0)) (vscale k (cross u1 b0)))).
Definition vay (h : R) (u e b : vec) : vec :=
  let e0 := vscale h e in
  let b0 := vscale h b in
  let c := 1 / sqrt (1 + norm_sqr u) in
  let u1 := vadd u (vadd (vscale 2 e0) (vscale c (cross u b0))) in
  vay_solve u1 b0.

(** sr.hpp:437-478 (and 480-523 with the force [f]), velocityEMPush_GCA. *)
Definition gca_factor (w2 : R) : R :=
  if Rlt_dec w2 (1 / 100) then 1 + w2 + 2 * (w2 * w2) + 5 * (w2 * w2) * w2
  else (1 - sqrt (1 - 4 * w2)) / (2 * w2).
Definition gca_w (e b : vec) : vec := vscale (/ (norm_sqr e + norm_sqr b)) (cross e b).
Definition gca_drift (e b : vec) : vec := vscale (gca_factor (norm_sqr (gca_w e b))) (gca_w e b).
Definition gca_upar (h dt : R) (u f e bhat : vec) : R :=
  dot u bhat + h * 2 * dot e bhat + dt * dot f bhat.
Definition gca (h dt : R) (u f e b : vec) : vec :=
  let bhat := vscale (1 / norm b) b in
  let upar := gca_upar h dt u f e bhat in
  let vE := gca_drift e b in
  let Gamma := sqrt (1 + upar * upar) / sqrt (1 - norm_sqr vE) in
  vadd (vscale upar bhat) (vscale Gamma vE).

(** sr.hpp:254-308: half a kick by the external force before and after the push. *)
Definition kick (dt : R) (f u : vec) : vec := vadd u (vscale (1 / 2 * dt) f).
Definition with_force (dt : R) (f : vec) (push : vec -> vec) (u : vec) : vec := kick dt f (push (kick dt f u)).

(** sr.hpp:1372-1430, synchrotronDrag: both the new velocity and [u_prime], which is passed by
    reference and overwritten. *)
Definition to_beta (up : vec) : vec := vscale (1 / sqrt (1 + norm_sqr up)) up.
Definition gamma_prime_sqr (up : vec) : R := (1 / (1 / sqrt (1 + norm_sqr up))) * (1 / (1 / sqrt (1 + norm_sqr up))).
Definition synchrotron_drag (coeff : R) (e b : vec) (u up : vec) : vec * vec :=
  let g2 := gamma_prime_sqr up in
  let beta := to_beta up in
  let be := dot beta e in
  let ebb := vadd e (cross beta b) in
  let kappa := vadd (cross ebb b) (vscale be e) in
  let chi := norm_sqr ebb - be * be in
  (vadd u (vscale coeff (vadd kappa (vscale (- (g2 * chi)) beta))), beta).
(** sr.hpp:1490-1503, inverseComptonDrag. *)
Definition compton_drag (coeff : R) (u up : vec) : vec * vec :=
  let g2 := gamma_prime_sqr up in
  let beta := to_beta up in
  (vadd u (vscale (- (coeff * g2)) beta), beta).
(** sr.hpp:310-323: [u_old] is the velocity before the push, [u] after it. *)
Definition drags (synchrotron compton : bool) (cs cc : R) (e b u_old u : vec) : vec :=
  let up := vscale (1 / 2) (vadd u_old u) in
  let '(u, up) := if synchrotron then synchrotron_drag cs e b u up else (u, up) in
  let '(u, up) := if compton then compton_drag cc u up else (u, up) in
  u.

(** piston.h:134-136: new first component of the velocity; [g]: Lorentz factor (massive) or
    magnitude (massless), lines 98-101. *)
Definition energy (massive : bool) (u : vec) : R := if massive then u2gamma u else norm u.
Definition piston_velocity (massive : bool) (V : R) (u : vec) : vec :=
  let pg := 1 / sqrt (1 - V * V) in
  (- (pg * pg) * ((1 + V * V) * v1 u - 2 * V * energy massive u), v2 u, v3 u).

(** energy_dist.h:224-239, 245-247: boost of a sampled velocity along the first axis; [r]: the
    random number. *)
Definition boost_x1 (u4 r : R) (v : vec) : vec :=
  let beta := u4 / sqrt (1 + u4 * u4) in
  let gamma := u2gamma v in
  let x := if Rlt_dec (gamma * r) (- beta * v1 v) then - v1 v else v1 v in
  (sqrt (1 + u4 * u4) * (x + beta * gamma), v2 v, v3 v).

(** energy_dist.h:190-216: which of the cases the drift falls into.  [zero x] is the test
    cmp::AlmostZero. *)
Definition sign (x : R) : Z := if Rlt_dec x 0 then (-1)%Z else 1%Z.
Definition drift_dir (zero : R -> bool) (d : vec) : Z :=
  if zero (norm d) then 0%Z
  else if andb (zero (v3 d)) (zero (v2 d)) then sign (v1 d)
  else if andb (zero (v1 d)) (zero (v3 d)) then (2 * sign (v2 d))%Z
  else if andb (zero (v2 d)) (zero (v1 d)) then (3 * sign (v3 d))%Z
  else 4%Z.
(** energy_dist.h:191-197, the drift direction; the same with every operation rounded. *)
Definition unit_dir (d : vec) : vec := (v1 d / norm d, v2 d / norm d, v3 d / norm d).
Definition norm_rounded (rnd : R -> R) (d : vec) : R :=
  rnd (sqrt (rnd (rnd (rnd (v1 d * v1 d) + rnd (v2 d * v2 d)) + rnd (v3 d * v3 d)))).
Definition unit_dir_rounded (rnd : R -> R) (d : vec) : vec :=
  let n := norm_rounded rnd d in (rnd (v1 d / n), rnd (v2 d / n), rnd (v3 d / n)).
(** energy_dist.h:249-278: rotation of the first axis to the drift direction [n]. *)
Definition rotate (dir : Z) (n v : vec) : vec :=
  if Z.eqb dir (-1) then (- v1 v, v2 v, v3 v)
  else if orb (Z.eqb dir 2) (Z.eqb dir (-2)) then (v2 v, (if Z.ltb 0 dir then v1 v else - v1 v), v3 v)
  else if orb (Z.eqb dir 3) (Z.eqb dir (-3)) then (v3 v, v2 v, (if Z.ltb 0 dir then v1 v else - v1 v))
  else if Z.eqb dir 4 then
    (v1 v * v1 n - v2 v * v2 n - v3 v * v3 n,
     (v1 v * v2 n * (v1 n + 1) + v2 v * (v1 n * v1 n + v1 n + v3 n * v3 n) - v3 v * v2 n * v3 n) / (v1 n + 1),
     (v1 v * v3 n * (v1 n + 1) - v2 v * v2 n * v3 n - v3 v * (- v1 n + v3 n * v3 n - 1)) / (v1 n + 1))
  else v.
