From Coq Require Import Reals Lra Psatz ZArith Lia Bool List.
From Verif Require Import VelModel VelSpec VelProofs.
Open Scope R_scope.

Ltac vc := cbv [vadd vscale cross dot norm_sqr v1 v2 v3 fst snd neg sub vzero].
Lemma neg_scale a : neg a = vscale (-1) a.
Proof. destruct a as [[? ?] ?]. vc. f_equal; [f_equal|]; ring. Qed.
Lemma sub_scale a b : sub a b = vadd a (vscale (-1) b).
Proof. destruct a as [[? ?] ?], b as [[? ?] ?]. vc. f_equal; [f_equal|]; ring. Qed.

(** Boris *)
Lemma boris_energy h u b : norm_sqr (boris h u vzero b) = norm_sqr u.
Proof. apply boris_norm. Qed.
Lemma boris_reversible h u e b : boris h (neg (boris h u e b)) e (neg b) = neg u.
Proof. rewrite !neg_scale. apply boris_reverse. Qed.
Lemma sub_kick a h e : vadd a (vscale (- h) e) = sub a (vscale h e).
Proof. destruct a as [[? ?] ?], e as [[? ?] ?]. vc. f_equal; [f_equal|]; ring. Qed.
Lemma boris_rotation h u e b :
  let um := vadd u (vscale h e) in
  let up := sub (boris h u e b) (vscale h e) in
  sub up um = vscale (h / lorentz um) (cross (vadd up um) b) /\ norm_sqr up = norm_sqr um.
Proof.
  cbv zeta. rewrite <- sub_kick, (sub_scale _ (vadd u _)). split; [apply boris_equation|apply boris_kicks].
Qed.

(** Vay *)
Lemma inv_div x : / x = 1 / x. Proof. unfold Rdiv. ring. Qed.
Lemma vay_energy h u b : norm_sqr (vay h u vzero b) = norm_sqr u.
Proof. apply vay_norm. Qed.
Lemma vay_reversible h u e b : vay h (neg (vay h u e b)) e (neg b) = neg u.
Proof. rewrite !neg_scale. apply vay_reverse. Qed.
Lemma vay_characterised h u e b w :
  w = vay h u e b <->
  sub w u = vscale (2 * h) (vadd e (cross (vscale (1 / 2) (vadd (velocity u) (velocity w))) b)).
Proof.
  unfold velocity, lorentz. rewrite !inv_div. rewrite sub_scale.
  assert (E : forall x y, vscale (2 * h) (vadd e (cross (vscale (1 / 2) (vadd x y)) b)) =
     vscale h (vadd (vscale 2 e) (cross (vadd x y) b))).
  { intros x y. destruct x as [[? ?] ?], y as [[? ?] ?], e as [[? ?] ?], b as [[? ?] ?]. vc. f_equal; [f_equal|]; field. }
  rewrite E. split.
  - intros ->. apply vay_equation.
  - intros H. symmetry. apply vay_eq_unique. exact H.
Qed.
Lemma vay_cancels h u e b : vadd e (cross (velocity u) b) = vzero -> vay h u e b = u.
Proof.
  intros H. apply vay_force_free. unfold drift_free. unfold velocity, lorentz in H. fold (u2gamma u) in H.
  rewrite inv_div in H. etransitivity; [|exact H]. clear H. generalize (1 / u2gamma u). intros k. destruct u as [[? ?] ?], e as [[? ?] ?], b as [[? ?] ?]. vc. f_equal; [f_equal|]; ring.
Qed.
Lemma vay_cancels_conv h u e b : h <> 0 -> vay h u e b = u -> vadd e (cross (velocity u) b) = vzero.
Proof.
  intros Hh H. symmetry in H. apply vay_characterised in H. revert H. generalize (velocity u). intros w.
  destruct u as [[? ?] ?], e as [[? ?] ?], b as [[? ?] ?], w as [[? ?] ?]. vc. intros H. injection H as H1 H2 H3.
  f_equal; [f_equal|]; apply (Rmult_eq_reg_l (2 * h)); lra.
Qed.
(** Boris does not have this property. *)
Lemma boris_drifts : exists h u e b, vadd e (cross (velocity u) b) = vzero /\ boris h u e b <> u.
Proof.
  exists 1, (3 / 4, 0, 0), (0, 3 / 5, 0), (0, 0, 1).
  assert (S : sqrt (1 + norm_sqr (3 / 4, 0, 0)) = 5 / 4).
  { replace (1 + norm_sqr (3 / 4, 0, 0)) with (5 / 4 * (5 / 4)) by (vc; field). apply sqrt_square. lra. }
  split.
  - unfold velocity, lorentz. rewrite S. vc. f_equal; [f_equal|]; field.
  - clear S. intros H. pose proof (boris_kicks 1 (3 / 4, 0, 0) (0, 3 / 5, 0) (0, 0, 1)) as N. 
    pose proof (boris_equation 1 (3 / 4, 0, 0) (0, 3 / 5, 0) (0, 0, 1)) as Q. cbv zeta in Q.
    rewrite H in Q. revert Q. unfold u2gamma. vc. intros Q. injection Q as Q1 Q2 Q3.
    set (s := sqrt _) in *. assert (P : s * s = 1 + (3 / 4 * (3 / 4) + 3 / 5 * (3 / 5))).
    { unfold s. rewrite sqrt_sqrt; [|lra]. field. }
    assert (s <> 0) by (intros Z; rewrite Z in P; lra).
    assert (s * (4 / 5) = 1).
    { assert (K : -1 * (3 / 5) + 3 / 5 * -1 = 1 / s * (0 - (3/2))) by lra.
      apply (f_equal (fun x => s * x)) in K. field_simplify in K; auto. lra. }
    nra.
Qed.

(** ** Guiding centre *)
Lemma lagrange e b : norm_sqr (cross e b) = norm_sqr e * norm_sqr b - dot e b * dot e b.
Proof. destruct e as [[? ?] ?], b as [[? ?] ?]. vc. ring. Qed.
Lemma norm_scale k a : norm_sqr (vscale k a) = k * k * norm_sqr a.
Proof. destruct a as [[? ?] ?]. vc. ring. Qed.

Lemma gca_w2 e b : norm_sqr e < norm_sqr b -> 0 <= norm_sqr (gca_w e b) < 1 / 4.
Proof.
  intros H. split; [apply norm_sqr_nonneg|]. unfold gca_w. rewrite norm_scale, lagrange.
  pose proof (norm_sqr_nonneg e) as He. set (E := norm_sqr e) in *. set (B := norm_sqr b) in *.
  assert (P : 0 < E + B) by lra. 
  replace (/ (E + B) * / (E + B) * (E * B - dot e b * dot e b)) with ((E * B - dot e b * dot e b) / ((E + B) * (E + B)))
    by (field; lra).
  apply (Rmult_lt_reg_r ((E + B) * (E + B))); [nra|]. unfold Rdiv. rewrite Rmult_assoc, Rinv_l by nra.
  assert (0 < (B - E) * (B - E)) by nra. nra.
Qed.

Lemma gca_factor_sub w : 0 <= w < 1 / 4 ->
  let f := gca_factor w in 0 < f /\ f * f * w < 1 /\ (1 / 100 <= w -> f = 1 + w * (f * f)).
Proof.
  intros [H0 H1]. cbv zeta. unfold gca_factor. destruct (Rlt_dec w (1 / 100)) as [L|L].
  - set (f := 1 + _ + _ + _). assert (1 <= f <= 2) by (unfold f; nra). split; [lra|]. split; [nra|lra].
  - pose proof (sqr_sqrt (1 - 4 * w) ltac:(lra)) as Q. pose proof (sqrt_pos1 (1 - 4 * w) ltac:(lra)) as P.
    set (s := sqrt (1 - 4 * w)) in *. assert (Hw : w = (1 - s * s) / 4) by lra. assert (s < 1) by nra.
    assert (F : (1 - s) / (2 * w) = 2 / (1 + s)).
    { rewrite Hw. field. split; [nra|lra]. }
    rewrite F. assert (0 < 2 / (1 + s)) by (apply Rdiv_lt_0_compat; lra). split; auto.
    assert (E : 2 / (1 + s) * (2 / (1 + s)) * w = (1 - s) / (1 + s)) by (rewrite Hw; field; lra).
    split.
    + rewrite E. apply (Rmult_lt_reg_r (1 + s)); [lra|]. unfold Rdiv. rewrite Rmult_assoc, Rinv_l by lra. lra.
    + intros _. replace (w * (2 / (1 + s) * (2 / (1 + s)))) with (2 / (1 + s) * (2 / (1 + s)) * w) by ring. rewrite E. field. lra.
Qed.

Lemma gca_drift_speed e b : norm_sqr e < norm_sqr b -> 0 <= norm_sqr (gca_drift e b) < 1.
Proof.
  intros H. split; [apply norm_sqr_nonneg|]. unfold gca_drift. rewrite norm_scale. apply gca_factor_sub, gca_w2, H.
Qed.
Lemma gca_drift_perp e b : dot (gca_drift e b) b = 0 /\ dot (gca_drift e b) e = 0.
Proof.
  unfold gca_drift, gca_w. generalize (gca_factor (norm_sqr (vscale (/ (norm_sqr e + norm_sqr b)) (cross e b)))) (/ (norm_sqr e + norm_sqr b)).
  intros f k. destruct e as [[? ?] ?], b as [[? ?] ?]. vc. split; ring.
Qed.

(** The exact drift when the fields are perpendicular. *)
Lemma gca_exb e b : norm_sqr e < norm_sqr b -> dot e b = 0 -> 1 / 100 <= norm_sqr (gca_w e b) ->
  gca_drift e b = vscale (/ norm_sqr b) (cross e b).
Proof.
  intros H D L. pose proof (gca_w2 e b H) as W. unfold gca_drift.
  assert (F : gca_factor (norm_sqr (gca_w e b)) = (norm_sqr e + norm_sqr b) / norm_sqr b).
  2: { rewrite F. unfold gca_w. pose proof (norm_sqr_nonneg e). set (E := norm_sqr e) in *. set (B := norm_sqr b) in *. clearbody E B.
       destruct e as [[? ?] ?], b as [[? ?] ?]. vc. f_equal; [f_equal|]; field; lra. }
  unfold gca_factor. destruct (Rlt_dec _ _) as [L'|_]; [lra|].
  assert (E2 : norm_sqr (gca_w e b) = norm_sqr e * norm_sqr b / ((norm_sqr e + norm_sqr b) * (norm_sqr e + norm_sqr b))).
  { unfold gca_w. rewrite norm_scale, lagrange, D. pose proof (norm_sqr_nonneg e). field. lra. }
  pose proof (norm_sqr_nonneg e) as He. set (E := norm_sqr e) in *. set (B := norm_sqr b) in *.
  rewrite E2 in *. assert (E <> 0).
  { intros Z. rewrite Z in L. unfold Rdiv in L. rewrite !Rmult_0_l in L. lra. }
  assert (S : sqrt (1 - 4 * (E * B / ((E + B) * (E + B)))) = (B - E) / (E + B)).
  { replace (1 - 4 * (E * B / ((E + B) * (E + B)))) with ((B - E) / (E + B) * ((B - E) / (E + B))) by (field; lra).
    apply sqrt_square. apply Rlt_le, Rdiv_lt_0_compat; lra. }
  rewrite S. field. repeat split; lra.
Qed.

(** Series branch: distance from the exact root. *)
Lemma gca_series w f : 0 <= w < 1 / 100 -> f = 1 + w * (f * f) -> 0 <= f <= 2 ->
  0 <= f - gca_factor w <= 20 * (w * w * w * w).
Proof.
  intros [H0 H1] E F. unfold gca_factor. destruct (Rlt_dec w (1 / 100)) as [_|L]; [|lra].
  set (p := 1 + w + 2 * (w * w) + 5 * (w * w) * w).
  assert (R : f - p = (1 + w * (p * p) - p) + w * ((f - p) * (f + p))) by lra.
  assert (Q : 1 + w * (p * p) - p = w * w * w * w * (14 + 14 * w + 20 * w * w + 25 * (w * w * w)) ) by (unfold p; ring).
  rewrite Q in R. assert (Hp : 1 <= p <= 2) by (unfold p; nra).
  set (k := 1 - w * (f + p)). assert (Hk : 96 / 100 <= k <= 1) by (unfold k; nra).
  assert (R' : (f - p) * k = w * w * w * w * (14 + 14 * w + 20 * w * w + 25 * (w * w * w))) by (unfold k; lra).
  set (q := 14 + 14 * w + 20 * w * w + 25 * (w * w * w)) in *. assert (Hq : 14 <= q <= 15) by (unfold q; nra).
  assert (0 <= w * w * w * w) by (assert (0 <= w * w) by nra; nra).
  set (w4 := w * w * w * w) in *. clearbody w4 q k p. clear Q R. 
  assert (0 <= w4 * q <= 15 * w4) by nra.
  destruct (Rle_lt_dec 0 (f - p)) as [Z|Z]; split; nra.
Qed.

Lemma gca_energy h dt u f e b : norm_sqr e < norm_sqr b ->
  let u' := gca h dt u f e b in
  let vE := gca_drift e b in
  let bhat := vscale (/ norm b) b in
  let upar := dot u bhat + 2 * h * dot e bhat + dt * dot f bhat in
  dot u' bhat = upar /\
  sub u' (vscale upar bhat) = vscale (lorentz u') vE.
Proof.
  intros H. cbv zeta. unfold gca. cbv zeta. rewrite <- inv_div.
  set (bhat := vscale (/ norm b) b). set (upar := gca_upar h dt u f e bhat).
  set (G := sqrt (1 + upar * upar) / sqrt (1 - norm_sqr (gca_drift e b))).
  assert (U : upar = dot u bhat + 2 * h * dot e bhat + dt * dot f bhat) by (unfold upar, gca_upar; ring).
  rewrite <- U.
  pose proof (norm_sqr_nonneg e) as He. assert (Hb : 0 < norm_sqr b) by lra.
  assert (N : norm_sqr bhat = 1).
  { unfold bhat. rewrite norm_scale. unfold norm. pose proof (sqr_sqrt (norm_sqr b) ltac:(lra)) as Q.
    pose proof (sqrt_pos1 _ Hb). set (s := sqrt (norm_sqr b)) in *. rewrite <- Q. field. lra. }
  destruct (gca_drift_perp e b) as [P _].
  assert (P' : dot (gca_drift e b) bhat = 0).
  { unfold bhat. revert P. generalize (gca_drift e b) (/ norm b). intros x k. destruct x as [[? ?] ?], b as [[? ?] ?]. vc.
    intros P. transitivity (k * 0); [rewrite <- P|]; ring. }
  pose proof (gca_drift_speed e b H) as S.
  set (vE := gca_drift e b) in *. 
  assert (L : lorentz (vadd (vscale upar bhat) (vscale G vE)) = G).
  { unfold lorentz. assert (PG : 0 < G).
    { unfold G. apply Rdiv_lt_0_compat; apply sqrt_pos1; [nra|lra]. }
    replace (1 + norm_sqr (vadd (vscale upar bhat) (vscale G vE))) with (G * G); [apply sqrt_square; lra|].
    transitivity (1 + (upar * upar * norm_sqr bhat + 2 * upar * G * dot vE bhat + G * G * norm_sqr vE)).
    2: { clearbody vE bhat. destruct vE as [[? ?] ?], bhat as [[? ?] ?]. vc. ring. }
    rewrite N, P'. assert (G2 : G * G * (1 - norm_sqr vE) = 1 + upar * upar).
    { unfold G. pose proof (sqr_sqrt (1 + upar * upar) ltac:(nra)) as A. pose proof (sqr_sqrt (1 - norm_sqr vE) ltac:(lra)) as B.
      pose proof (sqrt_pos1 (1 - norm_sqr vE) ltac:(lra)).
      set (x := sqrt (1 + upar * upar)) in *. set (y := sqrt (1 - norm_sqr vE)) in *. rewrite <- A, <- B. field. lra. }
    lra. }
  rewrite L. split.
  - transitivity (upar * norm_sqr bhat + G * dot vE bhat).
    + clearbody vE bhat. destruct vE as [[? ?] ?], bhat as [[? ?] ?]. vc. ring.
    + rewrite N, P'. ring.
  - clearbody vE bhat. destruct vE as [[? ?] ?], bhat as [[? ?] ?]. vc. f_equal; [f_equal|]; ring.
Qed.

(** ** Drags *)
Lemma gamma_prime up : gamma_prime_sqr up = 1 + norm_sqr up.
Proof.
  unfold gamma_prime_sqr. pose proof (sqr_sqrt _ (Rlt_le _ _ (one_plus_pos up))) as Q. pose proof (sqrt_pos1 _ (one_plus_pos up)).
  set (s := sqrt _) in *. rewrite <- Q. field. lra.
Qed.
Lemma to_beta_velocity up : to_beta up = velocity up.
Proof. unfold to_beta, velocity, lorentz. rewrite inv_div. auto. Qed.

Lemma synchrotron_alone cs e b cc u_old u :
  drags true false cs cc e b u_old u = vadd u (synchrotron_change cs e b (midpoint u_old u)).
Proof.
  unfold drags. cbn [fst]. unfold synchrotron_drag. cbv zeta. fold (midpoint u_old u). set (w := midpoint u_old u).
  rewrite gamma_prime, to_beta_velocity. unfold synchrotron_change. cbv zeta. f_equal. f_equal.
  generalize (velocity w) (1 + norm_sqr w). intros v g. destruct v as [[? ?] ?], e as [[? ?] ?], b as [[? ?] ?]. vc. f_equal; [f_equal|]; ring.
Qed.
Lemma compton_alone cs e b cc u_old u :
  drags false true cs cc e b u_old u = vadd u (compton_change cc (midpoint u_old u)).
Proof.
  unfold drags. unfold compton_drag. cbv zeta. fold (midpoint u_old u). set (w := midpoint u_old u).
  rewrite gamma_prime, to_beta_velocity. auto.
Qed.
Lemma both_drags cs e b cc u_old u :
  let w := midpoint u_old u in
  drags true true cs cc e b u_old u =
  vadd (vadd u (synchrotron_change cs e b w)) (compton_change cc (velocity w)).
Proof.
  cbv zeta. pose proof (synchrotron_alone cs e b cc u_old u) as H. unfold drags in *. cbn [fst snd] in *.
  unfold synchrotron_drag, compton_drag in *. cbv zeta in *. rewrite H. clear H. fold (midpoint u_old u). set (w := midpoint u_old u).
  rewrite (to_beta_velocity w), gamma_prime, to_beta_velocity. auto.
Qed.

Lemma velocity_norm w : norm_sqr (velocity w) = norm_sqr w / (1 + norm_sqr w).
Proof.
  unfold velocity, lorentz. rewrite norm_scale. pose proof (sqr_sqrt _ (Rlt_le _ _ (one_plus_pos w))) as Q. pose proof (sqrt_pos1 _ (one_plus_pos w)).
  pose proof (one_plus_pos w). set (s := sqrt _) in *.
  replace (/ s * / s) with (/ (s * s)) by (field; lra). rewrite Q. field. lra.
Qed.

Lemma both_drags_refuted : exists cs cc e b u_old u,
  let w := midpoint u_old u in
  drags true true cs cc e b u_old u <>
  vadd (vadd u (synchrotron_change cs e b w)) (compton_change cc w).
Proof.
  exists 0, 1, vzero, vzero, (3 / 4, 0, 0), (3 / 4, 0, 0). cbv zeta. rewrite both_drags. cbv zeta.
  set (w := midpoint _ _). assert (W : w = (3 / 4, 0, 0)) by (unfold w, midpoint; vc; f_equal; [f_equal|]; field).
  rewrite W. assert (Lz : lorentz (3 / 4, 0, 0) = 5 / 4).
  { unfold lorentz. replace (1 + norm_sqr (3 / 4, 0, 0)) with (5 / 4 * (5 / 4)) by (vc; field). apply sqrt_square. lra. }
  intros H. apply (f_equal v1) in H. unfold compton_change in H.
  assert (V : velocity (3 / 4, 0, 0) = (3 / 5, 0, 0)).
  { unfold velocity. rewrite Lz. vc. f_equal; [f_equal|]; field. }
  rewrite V in H. revert H. unfold velocity at 1. unfold lorentz. 
  replace (1 + norm_sqr (3 / 5, 0, 0)) with (34 / 25) by (vc; field). 
  pose proof (sqr_sqrt (34 / 25) ltac:(lra)) as Q. pose proof (sqrt_pos1 (34 / 25) ltac:(lra)) as P.
  set (s := sqrt (34 / 25)) in *. generalize (synchrotron_change 0 vzero vzero (3 / 4, 0, 0)). intros x. destruct x as [[? ?] ?]. vc. intros H.
  assert (K : 34 / 25 * (/ s * (3 / 5)) = 25 / 16 * (3 / 5)) by lra.
  apply (f_equal (fun y => s * y)) in K. replace (s * (34 / 25 * (/ s * (3 / 5)))) with (34 / 25 * (3 / 5)) in K by (field; lra).
  nra.
Qed.

(** The drags slow the particle down. *)
Lemma synchrotron_power cs b w :
  dot (velocity w) (synchrotron_change cs vzero b w) = - cs * (1 + norm_sqr w) * norm_sqr (cross (velocity w) b).
Proof.
  unfold synchrotron_change. cbv zeta. pose proof (velocity_norm w) as V. pose proof (one_plus_pos w) as P.
  set (v := velocity w) in *. set (g := norm_sqr w) in *.
  transitivity (- cs * (1 + (1 + g) * norm_sqr v) * norm_sqr (cross v b)).
  - clear V. clearbody v g. destruct v as [[? ?] ?], b as [[? ?] ?]. vc. ring.
  - rewrite V. field. lra.
Qed.
Lemma compton_power cc w : dot (velocity w) (compton_change cc w) = - cc * norm_sqr w.
Proof.
  unfold compton_change. pose proof (velocity_norm w) as V. pose proof (one_plus_pos w) as P.
  transitivity (- (cc * (1 + norm_sqr w)) * norm_sqr (velocity w)).
  - generalize (velocity w) (1 + norm_sqr w). intros v g. destruct v as [[? ?] ?]. vc. ring.
  - rewrite V. field. lra.
Qed.

(** ** Piston *)
Lemma energy_sqr m u : energy m u * energy m u = (if m then 1 else 0) + norm_sqr u /\ 0 <= energy m u.
Proof.
  pose proof (norm_sqr_nonneg u). unfold energy, u2gamma, norm. destruct m; split; try apply sqrt_pos; rewrite sqrt_sqrt; lra.
Qed.

Lemma piston_energy m V u : -1 < V < 1 ->
  energy m (piston_velocity m V u) = ((1 + V * V) * energy m u - 2 * V * v1 u) / (1 - V * V).
Proof.
  intros H. destruct (energy_sqr m u) as [E P]. set (g := energy m u) in *.
  destruct (energy_sqr m (piston_velocity m V u)) as [E' P']. set (g' := energy m (piston_velocity m V u)) in *.
  assert (D : 0 < 1 - V * V) by nra.
  assert (U : v1 (piston_velocity m V u) = - ((1 + V * V) * v1 u - 2 * V * g) / (1 - V * V)).
  { unfold piston_velocity. fold g. cbn [v1 fst]. pose proof (sqr_sqrt (1 - V * V) ltac:(lra)) as Q. pose proof (sqrt_pos1 _ D).
    set (s := sqrt (1 - V * V)) in *. rewrite <- Q. field. lra. }
  assert (N : norm_sqr (piston_velocity m V u) = v1 (piston_velocity m V u) * v1 (piston_velocity m V u) + (norm_sqr u - v1 u * v1 u)).
  { destruct u as [[? ?] ?]. unfold piston_velocity. vc. ring. }
  rewrite N, U in E'.
  set (r := ((1 + V * V) * g - 2 * V * v1 u) / (1 - V * V)).
  assert (Hu : v1 u * v1 u <= g * g).
  { rewrite E. destruct u as [[? ?] ?]. destruct m; vc; nra. }
  assert (Hr : 0 <= r).
  { unfold r. apply Rmult_le_pos; [|apply Rlt_le, Rinv_0_lt_compat; lra].
    assert (Hq : - g <= v1 u <= g) by nra. destruct (Rle_lt_dec 0 V) as [HV|HV].
    - assert (0 <= V * (g - v1 u)) by (apply Rmult_le_pos; lra). assert (0 <= g * ((1 - V) * (1 - V))) by (apply Rmult_le_pos; nra). lra.
    - assert (0 <= (- V) * (g + v1 u)) by (apply Rmult_le_pos; lra). assert (0 <= g * ((1 + V) * (1 + V))) by (apply Rmult_le_pos; nra). lra. }
  assert (Er : r * r = g' * g').
  { rewrite E'. unfold r. replace (norm_sqr u) with (g * g - (if m then 1 else 0)) by lra. field. lra. }
  clearbody g' r. nra.
Qed.

Lemma piston_frame m V u : -1 < V < 1 ->
  let u' := piston_velocity m V u in
  boosted_g V u' (energy m u') = boosted_g V u (energy m u) /\
  boosted_u1 V u' (energy m u') = - boosted_u1 V u (energy m u) /\
  v2 u' = v2 u /\ v3 u' = v3 u.
Proof.
  intros H. cbv zeta. rewrite (piston_energy m V u H). unfold boosted_g, boosted_u1.
  set (g := energy m u). assert (D : 0 < 1 - V * V) by nra. pose proof (sqrt_pos1 _ D) as S.
  assert (U : v1 (piston_velocity m V u) = - ((1 + V * V) * v1 u - 2 * V * g) / (1 - V * V)).
  { unfold piston_velocity. fold g. cbn [v1 fst]. pose proof (sqr_sqrt (1 - V * V) ltac:(lra)) as Q.
    set (s := sqrt _) in *. rewrite <- Q. field. lra. }
  rewrite U. set (s := sqrt (1 - V * V)) in *. clearbody s. repeat split; field; lra.
Qed.

(** ** Boost and rotation of sampled velocities *)
Lemma boost_energy u4 r v : 
  let beta := u4 / sqrt (1 + u4 * u4) in
  let x := if Rlt_dec (lorentz v * r) (- beta * v1 v) then - v1 v else v1 v in
  lorentz (boost_x1 u4 r v) = sqrt (1 + u4 * u4) * (lorentz v + beta * x).
Proof.
  cbv zeta. unfold boost_x1. cbv zeta. fold (lorentz v). unfold u2gamma. fold (lorentz v).
  set (beta := u4 / sqrt (1 + u4 * u4)). set (x := if Rlt_dec _ _ then _ else _).
  assert (X : x * x = v1 v * v1 v) by (unfold x; destruct (Rlt_dec _ _); ring).
  pose proof (sqr_sqrt (1 + u4 * u4) ltac:(nra)) as Q. pose proof (sqrt_pos1 (1 + u4 * u4) ltac:(nra)) as P.
  set (s := sqrt (1 + u4 * u4)) in *. assert (B : s * beta = u4) by (unfold beta; field; lra).
  assert (Lv : lorentz v * lorentz v = 1 + norm_sqr v) by (apply sqr_sqrt; pose proof (one_plus_pos v); lra).
  assert (L0 : 0 < lorentz v) by apply sqrt_pos1, one_plus_pos.
  unfold lorentz at 1. set (L := lorentz v) in *.
  replace (1 + norm_sqr (s * (x + beta * L), v2 v, v3 v)) with (s * (L + beta * x) * (s * (L + beta * x))).
  { apply sqrt_square. assert (Hx : x * x <= L * L) by (rewrite X, Lv; destruct v as [[? ?] ?]; vc; nra).
    assert (Hbeta : beta * beta <= 1).
    { assert (s * beta * (s * beta) <= s * s) by (rewrite B, Q; nra). assert (0 < s * s) by nra. nra. }
    assert (Hp : (beta * x) * (beta * x) <= L * L) by nra.
    assert (- L <= beta * x) by nra. nra. }
  assert (N : norm_sqr (s * (x + beta * L), v2 v, v3 v) = s * (x + beta * L) * (s * (x + beta * L)) + (norm_sqr v - v1 v * v1 v))
    by (destruct v as [[? ?] ?]; vc; ring).
  rewrite N, <- X. replace (norm_sqr v) with (L * L - 1) by lra.
  replace (s * (L + beta * x)) with (s * L + u4 * x) by (rewrite <- B; ring).
  replace (s * (x + beta * L)) with (s * x + u4 * L) by (rewrite <- B; ring).
  transitivity ((1 + u4 * u4) * (L * L) + 2 * s * u4 * L * x + u4 * u4 * x * x).
  - rewrite <- Q. ring.
  - transitivity ((1 + u4 * u4) * (x * x) + 2 * s * u4 * L * x + u4 * u4 * L * L + L * L - x * x); [ring|rewrite <- Q; ring].
Qed.


Lemma unit_norm d : norm_sqr d <> 0 -> norm_sqr (unit_dir d) = 1.
Proof.
  intros H. pose proof (norm_sqr_nonneg d). unfold unit_dir, norm. pose proof (sqr_sqrt (norm_sqr d) ltac:(lra)) as Q.
  pose proof (sqrt_pos1 (norm_sqr d) ltac:(lra)). set (s := sqrt _) in *.
  transitivity (norm_sqr d / (s * s)). { destruct d as [[? ?] ?]. vc. field. lra. } rewrite Q. field. auto.
Qed.
Lemma norm0 d : norm d = 0 -> norm_sqr d = 0.
Proof. intros H. pose proof (sqr_sqrt (norm_sqr d) (norm_sqr_nonneg d)) as Q. unfold norm in H. rewrite H in Q. lra. Qed.

Lemma rotate4_norm n v : norm_sqr n = 1 -> v1 n + 1 <> 0 -> norm_sqr (rotate 4 n v) = norm_sqr v.
Proof.
  destruct n as [[x y] z], v as [[a b] c]. unfold rotate. cbn [Z.eqb orb Pos.eqb]. vc. intros N D.
  set (k := / (x + 1)). assert (K : k * (x + 1) = 1) by (unfold k; field; lra).
  assert (YZ : y * y + z * z = (1 - x) * (x + 1)) by lra.
  set (t := b * y + c * z).
  replace ((a * y * (x + 1) + b * (x * x + x + z * z) - c * y * z) / (x + 1)) with (a * y + b - k * y * t).
  2: { replace (x * x + x + z * z) with (x + 1 - y * y) by lra. unfold k, t. field. lra. }
  replace ((a * z * (x + 1) - b * y * z - c * (- x + z * z - 1)) / (x + 1)) with (a * z + c - k * z * t).
  2: { unfold k, t. field. lra. }
  transitivity ((a * x - t) * (a * x - t) + (y * y + z * z) * ((a - k * t) * (a - k * t)) + b * b + c * c + 2 * (a - k * t) * t).
  { unfold t. ring. }
  rewrite YZ.
  transitivity (a * a + b * b + c * c + t * t * ((1 - k * (x + 1)) + (k * (x + 1) - 1) * k * (1 - x)) + 2 * a * t * (1 - x) * (1 - k * (x + 1))); [ring|].
  rewrite K. ring.
Qed.
Lemma rotate4_axis n : norm_sqr n = 1 -> v1 n + 1 <> 0 -> rotate 4 n (1, 0, 0) = n.
Proof.
  destruct n as [[x y] z]. unfold rotate. cbn [Z.eqb orb Pos.eqb]. vc. intros N D.
  f_equal; [f_equal|]; field; lra.
Qed.
Lemma rotate4_linear n k v w : v1 n + 1 <> 0 -> rotate 4 n (vadd (vscale k v) w) = vadd (vscale k (rotate 4 n v)) (rotate 4 n w).
Proof.
  destruct n as [[x y] z], v as [[a b] c], w as [[d e] f]. unfold rotate. cbn [Z.eqb orb Pos.eqb]. vc. intros D.
  f_equal; [f_equal|]; field; lra.
Qed.

Lemma div0 x n : n <> 0 -> x / n = 0 -> x = 0.
Proof. intros H E. apply (f_equal (fun t => t * n)) in E. replace (x / n * n) with x in E by (field; auto). lra. Qed.

Lemma drift_cases zero d : (zero 0 = true) -> drift_dir zero d = 4%Z -> norm_sqr d <> 0 /\ v1 (unit_dir d) + 1 <> 0.
Proof.
  intros Z0 H. unfold drift_dir in H.
  destruct (zero (norm d)) eqn:En; [discriminate|].
  assert (Nz : norm_sqr d <> 0).
  { intros E. unfold norm in En. rewrite E, sqrt_0, Z0 in En. discriminate. }
  split; auto. intros E.
  pose proof (unit_norm d Nz) as U.
  assert (Hd : v2 (unit_dir d) = 0 /\ v3 (unit_dir d) = 0).
  { destruct (unit_dir d) as [[x y] z]. revert E U. vc. intros E U. assert (x = -1) by lra. subst x. 
    split; nra. }
  destruct Hd as [H2 H3]. change (v2 d / norm d = 0) in H2. change (v3 d / norm d = 0) in H3.
  assert (Hn : norm d <> 0) by (intros K; apply Nz, norm0, K).
  assert (D2 : v2 d = 0) by (apply (div0 _ (norm d)); auto).
  assert (D3 : v3 d = 0) by (apply (div0 _ (norm d)); auto).
  rewrite D2, D3, Z0 in H. cbn [andb] in H. unfold sign in H. destruct (Rlt_dec _ _); discriminate.
Qed.

Lemma drift_dir_values zero d : In (drift_dir zero d) (0 :: 1 :: -1 :: 2 :: -2 :: 3 :: -3 :: 4 :: nil)%Z.
Proof.
  unfold drift_dir, sign. repeat match goal with |- context [if ?c then _ else _] => destruct c end; cbn; tauto.
Qed.

Lemma rotate_isometry zero d v : zero 0 = true ->
  norm_sqr (rotate (drift_dir zero d) (unit_dir d) v) = norm_sqr v.
Proof.
  intros Z0. destruct (Z.eq_dec (drift_dir zero d) 4) as [E|E].
  - destruct (drift_cases zero d Z0 E). rewrite E. apply rotate4_norm; auto. apply unit_norm; auto.
  - pose proof (drift_dir_values zero d) as H. revert E H. generalize (drift_dir zero d) as z. intros z E H.
    destruct v as [[a b] c]. cbn in H. destruct H as [H|[H|[H|[H|[H|[H|[H|[H|H]]]]]]]]; [subst z..|tauto]; try congruence;
    unfold rotate; cbn [Z.eqb orb Pos.eqb Z.ltb Z.compare]; vc; ring.
Qed.

Lemma norm_axis x : sqrt (x * x) = Rabs x.
Proof. exact (sqrt_Rsqr_abs x). Qed.

Lemma rotate_axis zero d : (forall x, zero x = true <-> x = 0) -> norm_sqr d <> 0 ->
  rotate (drift_dir zero d) (unit_dir d) (1, 0, 0) = unit_dir d.
Proof.
  intros Z0 Nz. assert (Zz : zero 0 = true) by (apply Z0; auto).
  assert (Hn : norm d <> 0) by (intros K; apply Nz, norm0, K).
  destruct (Z.eq_dec (drift_dir zero d) 4) as [E|E].
  - destruct (drift_cases zero d Zz E). rewrite E. apply rotate4_axis; auto. apply unit_norm; auto.
  - assert (En : zero (norm d) = false) by (destruct (zero (norm d)) eqn:Q; auto; apply Z0 in Q; tauto).
    assert (SG : forall x, x <> 0 -> x / sqrt (x * x) = IZR (sign x)).
    { intros x Hx. rewrite norm_axis. unfold sign. destruct (Rlt_dec x 0) as [L|L].
      - rewrite Rabs_left by lra. cbn. field. lra.
      - rewrite Rabs_right by lra. field. lra. }
    unfold drift_dir in *. rewrite En in *.
    destruct (zero (v3 d)) eqn:E3, (zero (v2 d)) eqn:E2, (zero (v1 d)) eqn:E1; cbn [andb] in *; try tauto;
    rewrite ?Z0 in *; destruct d as [[x y] z]; cbv [v1 v2 v3 fst snd] in *; subst.
    + exfalso. apply Nz. vc. ring.
    + assert (X : x <> 0) by (intros K; rewrite (proj2 (Z0 x) K) in E1; discriminate).
      specialize (SG x X). unfold unit_dir, norm. vc. replace (x * x + 0 * 0 + 0 * 0) with (x * x) by ring.
      rewrite SG. unfold sign. destruct (Rlt_dec x 0); unfold rotate; cbn [Z.eqb orb Pos.eqb Z.ltb Z.compare]; apply vec_eq; vc; unfold Rdiv; ring.
    + assert (X : y <> 0) by (intros K; rewrite (proj2 (Z0 y) K) in E2; discriminate).
      specialize (SG y X). unfold unit_dir, norm. vc. replace (0 * 0 + y * y + 0 * 0) with (y * y) by ring.
      rewrite SG. unfold sign. destruct (Rlt_dec y 0); unfold rotate; cbn [Z.mul Pos.mul Pos.add Pos.succ Z.eqb orb Pos.eqb Z.ltb Z.compare]; apply vec_eq; vc; unfold Rdiv; ring.
    + assert (X : z <> 0) by (intros K; rewrite (proj2 (Z0 z) K) in E3; discriminate).
      specialize (SG z X). unfold unit_dir, norm. vc. replace (0 * 0 + 0 * 0 + z * z) with (z * z) by ring.
      rewrite SG. unfold sign. destruct (Rlt_dec z 0); unfold rotate; cbn [Z.mul Pos.mul Pos.add Pos.succ Z.eqb orb Pos.eqb Z.ltb Z.compare]; apply vec_eq; vc; unfold Rdiv; ring.
Qed.
