(** The angular stretching and its closed-form inverse; two-argument
    arctangent. *)
From Coq Require Import Reals Lra Lia Bool.
From Verif Require Import MetModel.
Open Scope R_scope.

Lemma pi_pos : 0 < PI. Proof. exact PI_RGT_0. Qed.

Lemma rpower_third_cube : forall x, 0 < x -> Rpower x (1/3) ^ 3 = x.
Proof.
  intros x hx. rewrite <- Rpower_pow by apply exp_pos.
  rewrite Rpower_mult. replace (1/3 * INR 3) with 1 by (simpl; lra).
  apply Rpower_1; exact hx.
Qed.

Lemma rpower_twothird : forall x, 0 < x -> Rpower x (2/3) = Rpower x (1/3) ^ 2.
Proof.
  intros x hx. rewrite <- Rpower_pow by apply exp_pos.
  rewrite Rpower_mult. f_equal. simpl; lra.
Qed.

Lemma rpower_gt0 : forall x y, 0 < Rpower x y.
Proof. intros; apply exp_pos. Qed.

Lemma rpower_mult_base : forall x y z, 0 < x -> 0 < y ->
  Rpower (x * y) z = Rpower x z * Rpower y z.
Proof. intros. symmetry. apply Rpower_mult_distr; assumption. Qed.

Lemma almost_zero_true : forall e h, almost_zero e h = true <-> Rabs h <= e.
Proof. intros; unfold almost_zero; destruct (Rle_dec _ _); split; intros; auto; try discriminate; contradiction. Qed.
Lemma almost_zero_false : forall e h, almost_zero e h = false <-> e < Rabs h.
Proof. intros; unfold almost_zero; destruct (Rle_dec _ _); split; intros; try discriminate; try lra; auto. Qed.

(** The stretched angle about the equator. *)
Lemma e2t_centered : forall eps h y, almost_zero eps h = false ->
  eta2theta eps h (PI/2 + y) = PI/2 + y * (1 - h) + 4 * h * y ^ 3 / PI ^ 2.
Proof.
  intros eps h y z. unfold eta2theta; rewrite z. field.
  pose proof pi_pos; lra.
Qed.

Lemma disc_form : forall h th,
  t2e_disc h th = h^3 * (4 * PI^2 * (1-h)^3 + 27 * h * (2*th - PI)^2).
Proof. intros. unfold t2e_disc, cube, sqr. ring. Qed.

Lemma disc_pos : forall h th, 0 < h < 1 -> 0 < t2e_disc h th.
Proof.
  intros h th hh. rewrite disc_form. pose proof pi_pos as pp.
  apply Rmult_lt_0_compat. apply pow_lt; lra.
  assert (0 < 4 * PI^2 * (1-h)^3).
  { apply Rmult_lt_0_compat. apply Rmult_lt_0_compat. lra. apply pow_lt; lra. apply pow_lt; lra. }
  assert (0 <= 27 * h * (2*th - PI)^2).
  { apply Rmult_le_pos. lra. apply pow2_ge_0. }
  lra.
Qed.

Lemma arg_quadratic : forall h th, 0 <= t2e_disc h th ->
  (t2e_arg h th - 9 * h^2 * (2*th - PI))^2 = 3 * t2e_disc h th.
Proof.
  intros h th hd. unfold t2e_arg.
  replace (-9 * sqr h * (PI - 2 * th) + sqrt 3 * sqrt (t2e_disc h th) - 9 * h ^ 2 * (2 * th - PI))
    with (sqrt 3 * sqrt (t2e_disc h th)) by (unfold sqr; ring).
  rewrite Rpow_mult_distr. rewrite !pow2_sqrt by lra. reflexivity.
Qed.

Lemma arg_pos : forall h th, 0 < h < 1 -> 0 < t2e_arg h th.
Proof.
  intros h th hh. pose proof (disc_pos h th hh) as dp. pose proof pi_pos as pp.
  unfold t2e_arg.
  assert (e : sqrt 3 * sqrt (t2e_disc h th) = sqrt (3 * t2e_disc h th)).
  { symmetry; apply sqrt_mult; lra. }
  rewrite e.
  assert (b : 0 < sqrt (3 * t2e_disc h th)) by (apply sqrt_lt_R0; lra).
  assert (s2 : sqrt (3 * t2e_disc h th) ^ 2 = 12 * h^3 * PI^2 * (1-h)^3 + (9*h^2*(2*th-PI))^2).
  { rewrite pow2_sqrt by lra. rewrite disc_form. ring. }
  assert (k : 0 < 12 * h^3 * PI^2 * (1-h)^3).
  { apply Rmult_lt_0_compat; [apply Rmult_lt_0_compat; [apply Rmult_lt_0_compat|]|];
      try (apply pow_lt); lra. }
  replace (-9 * sqr h * (PI - 2 * th)) with (9*h^2*(2*th-PI)) by (unfold sqr; ring).
  set (a := 9*h^2*(2*th-PI)) in *. set (s := sqrt (3 * t2e_disc h th)) in *.
  apply Rnot_le_lt. intro c.
  assert (s * s <= (-a) * (-a)) by (apply Rmult_le_compat; lra).
  simpl in s2. lra.
Qed.

(** Cardano: the closed form solves the cubic. *)
Lemma cardano : forall h th e, 0 < h < 1 -> almost_zero e h = false ->
  exists y, theta2eta e h th = Some (PI/2 + y)
            /\ PI/2 + y * (1 - h) + 4 * h * y ^ 3 / PI ^ 2 = th.
Proof.
  intros h th e hh hz. pose proof pi_pos as pp.
  pose proof (disc_pos h th hh) as dp. pose proof (arg_pos h th hh) as ap.
  unfold theta2eta. rewrite hz.
  destruct (Rlt_dec (t2e_disc h th) 0) as [bad|_]; [lra|].
  destruct (Rle_dec (t2e_arg h th) 0) as [bad|_]; [lra|].
  cbv zeta. rewrite !rpower_twothird by lra.
  rewrite (rpower_mult_base 3 PI) by lra.
  set (c2 := Rpower 2 (1/3)). set (c3 := Rpower 3 (1/3)).
  set (p := Rpower PI (1/3)). set (rho := Rpower (t2e_arg h th) (1/3)).
  assert (h2 : c2^3 = 2) by (apply rpower_third_cube; lra).
  assert (h3 : c3^3 = 3) by (apply rpower_third_cube; lra).
  assert (hp : p^3 = PI) by (apply rpower_third_cube; lra).
  assert (hr : rho^3 = t2e_arg h th) by (apply rpower_third_cube; lra).
  assert (rp : 0 < rho) by apply rpower_gt0.
  assert (q := arg_quadratic h th (Rlt_le _ _ dp)).
  set (A := t2e_arg h th) in *.
  set (u := p^2 * c2^2 * c3 * rho / (12 * h)).
  set (v := c2 * (h - 1) * c3^2 * p^4 / (6 * rho)).
  exists (u + v). split.
  - f_equal. unfold u, v.
    transitivity (p^3/2 + (p ^ 2 * c2 ^ 2 * c3 * rho / (12 * h) + c2 * (h - 1) * c3 ^ 2 * p ^ 4 / (6 * rho))).
    { field. split; lra. }
    rewrite hp. reflexivity.
  - assert (u3 : u^3 = PI^2 * A / (144 * h^3)).
    { unfold u. transitivity ((p^3)^2 * (c2^3)^2 * c3^3 * rho^3 / (1728 * h^3)).
      field; lra. rewrite hp, h2, h3, hr. field; lra. }
    assert (v3 : v^3 = - (PI^2 * (A - 18 * h^2 * (2*th-PI)) / (144 * h^3))).
    { unfold v. transitivity (c2^3 * (c3^3)^2 * (h-1)^3 * (p^3)^4 / (216 * rho^3)).
      field; lra. rewrite hp, h2, h3, hr.
      assert (k : (1-h)^3 * PI^2 * (12 * h^3) = A * (A - 18 * h^2 * (2*th-PI))).
      { rewrite disc_form in q.
        assert (q' : (A - 9 * h ^ 2 * (2 * th - PI)) ^ 2 - (9*h^2*(2*th-PI))^2
                     = 12 * h^3 * PI^2 * (1-h)^3) by (rewrite q; ring).
        replace (A * (A - 18 * h ^ 2 * (2 * th - PI)))
          with ((A - 9 * h ^ 2 * (2 * th - PI)) ^ 2 - (9*h^2*(2*th-PI))^2) by ring.
        rewrite q'. ring. }
      apply Rmult_eq_reg_r with (144 * h^3 * A).
      2:{ apply Rgt_not_eq, Rmult_lt_0_compat; [apply Rmult_lt_0_compat; [lra|apply pow_lt; lra]|lra]. }
      replace (- (PI ^ 2 * (A - 18 * h ^ 2 * (2 * th - PI)) / (144 * h ^ 3)) * (144 * h ^ 3 * A))
        with (- (PI^2 * (A * (A - 18 * h ^ 2 * (2 * th - PI))))) by (field; lra).
      rewrite <- k. field. lra. }
    assert (uv : u * v = (h-1) * PI^2 / (12*h)).
    { unfold u, v. transitivity (c2^3 * c3^3 * (p^3)^2 * (h-1) / (72 * h)).
      field; split; lra. rewrite hp, h2, h3. field; lra. }
    assert (s : (u+v)^3 = u^3 + v^3 + 3 * (u*v) * (u+v)) by ring.
    rewrite s, u3, v3, uv. field. split; lra.
Qed.

Lemma e2t_incr : forall eps h a b, 0 <= h < 1 -> a < b ->
  eta2theta eps h a < eta2theta eps h b.
Proof.
  intros eps h a b hh ab. pose proof pi_pos as pp.
  destruct (almost_zero eps h) eqn:z.
  - unfold eta2theta; rewrite z; exact ab.
  - replace a with (PI/2 + (a - PI/2)) by ring. replace b with (PI/2 + (b - PI/2)) by ring.
    rewrite !e2t_centered by exact z.
    set (x := a - PI/2). set (y := b - PI/2). assert (xy : x < y) by (unfold x, y; lra).
    assert (q : 0 <= y^3 - x^3).
    { replace (y^3 - x^3) with ((y-x) * ((x + y/2)^2 + 3/4 * y^2)) by field.
      apply Rmult_le_pos. lra. pose proof (pow2_ge_0 (x+y/2)). pose proof (pow2_ge_0 y). lra. }
    assert (p2 : 0 < / PI^2) by (apply Rinv_0_lt_compat, pow_lt; lra).
    assert (0 <= 4*h*(y^3-x^3) * / PI^2).
    { apply Rmult_le_pos; [apply Rmult_le_pos; lra|lra]. }
    unfold Rdiv. nra.
Qed.

Lemma e2t_inj : forall eps h a b, 0 <= h < 1 ->
  eta2theta eps h a = eta2theta eps h b -> a = b.
Proof.
  intros eps h a b hh E. destruct (Rtotal_order a b) as [l|[e|l]]; auto.
  - pose proof (e2t_incr eps h a b hh l); lra.
  - pose proof (e2t_incr eps h b a hh l); lra.
Qed.

(** Parameters for which the closed form is meant: 0 <= h < 1, where the
    values in [0, eps] are treated as 0. *)
Lemma t2e_total : forall eps h th, 0 <= eps -> 0 <= h < 1 ->
  exists eta, theta2eta eps h th = Some eta /\ eta2theta eps h eta = th.
Proof.
  intros eps h th he hh. destruct (almost_zero eps h) eqn:z.
  - exists th. unfold theta2eta, eta2theta. rewrite z. split; reflexivity.
  - assert (0 < h). { apply almost_zero_false in z. rewrite Rabs_pos_eq in z by lra. lra. }
    destruct (cardano h th eps (conj H (proj2 hh)) z) as (y & E1 & E2).
    exists (PI/2 + y). split; [exact E1|]. rewrite e2t_centered by exact z. exact E2.
Qed.

Lemma t2e_e2t : forall eps h eta, 0 <= eps -> 0 <= h < 1 ->
  theta2eta eps h (eta2theta eps h eta) = Some eta.
Proof.
  intros eps h eta he hh.
  destruct (t2e_total eps h (eta2theta eps h eta) he hh) as (e' & E1 & E2).
  rewrite E1. f_equal. apply (e2t_inj eps h); assumption.
Qed.

Lemma e2t_t2e : forall eps h th eta, 0 <= eps -> 0 <= h < 1 ->
  theta2eta eps h th = Some eta -> eta2theta eps h eta = th.
Proof.
  intros eps h th eta he hh E.
  destruct (t2e_total eps h th he hh) as (e' & E1 & E2).
  rewrite E in E1; injection E1 as <-. exact E2.
Qed.

(** Outside: a negative stretching parameter gives no number below the
    equator plane. *)
Lemma t2e_negative : forall eps h th, almost_zero eps h = false -> h < 0 ->
  0 <= th < PI/2 -> theta2eta eps h th = None.
Proof.
  intros eps h th z hn ht. unfold theta2eta; rewrite z.
  destruct (Rlt_dec (t2e_disc h th) 0) as [|nd]; [reflexivity|].
  destruct (Rle_dec (t2e_arg h th) 0) as [|na]; [reflexivity|].
  exfalso. apply na. unfold t2e_arg.
  assert (d0 : t2e_disc h th = 0).
  { apply Rle_antisym; [|lra]. unfold t2e_disc.
    assert (c : cube h < 0). { unfold cube. assert (0 < h*h) by nra. nra. }
    assert (k : 0 <= (4 - h) * sqr (PI + h * (2 * PI)) - 108 * h * PI * th + 108 * h * sqr th).
    { unfold sqr. assert (0 <= (PI + h * (2 * PI)) * (PI + h * (2 * PI))) by apply Rle_0_sqr.
      assert (0 <= (4-h) * ((PI + h * (2 * PI)) * (PI + h * (2 * PI)))) by (apply Rmult_le_pos; lra).
      assert (0 <= th * (PI - th)) by (apply Rmult_le_pos; lra).
      nra. }
    nra. }
  rewrite d0, sqrt_0. unfold sqr. assert (0 < h*h) by nra. nra.
Qed.

(** * The two-argument arctangent *)

Lemma sqrt_scale : forall x y, 0 < x -> sqrt (x*x + y*y) = x * sqrt (1 + (y/x)^2).
Proof.
  intros x y hx.
  replace (x*x+y*y) with ((x*x) * (1 + (y/x)^2)) by (field; lra).
  rewrite sqrt_mult. rewrite sqrt_square by lra. reflexivity.
  nra. pose proof (pow2_ge_0 (y/x)); lra.
Qed.

Lemma atan2_polar : forall y x,
  sqrt (x*x + y*y) * cos (atan2 y x) = x /\ sqrt (x*x + y*y) * sin (atan2 y x) = y.
Proof.
  intros y x. unfold atan2.
  destruct (Rlt_dec 0 x) as [p|np].
  - rewrite cos_atan, sin_atan. rewrite sqrt_scale by exact p.
    assert (s : 0 < sqrt (1 + (y/x)^2)).
    { apply sqrt_lt_R0. pose proof (pow2_ge_0 (y/x)); lra. }
    replace (1 + (y/x)²) with (1 + (y/x)^2) by (unfold Rsqr; ring).
    split; field; repeat split; lra.
  - destruct (Rlt_dec x 0) as [n|nn].
    + assert (e : sqrt (x*x+y*y) = - x * sqrt (1 + (y/x)^2)).
      { replace (x*x+y*y) with ((-x)*(-x)+(-y)*(-y)) by ring.
        rewrite sqrt_scale by lra. replace (-y / -x) with (y/x) by (field; lra). reflexivity. }
      assert (s : 0 < sqrt (1 + (y/x)^2)).
      { apply sqrt_lt_R0. pose proof (pow2_ge_0 (y/x)); lra. }
      destruct (Rle_dec 0 y).
      * rewrite neg_cos, neg_sin, cos_atan, sin_atan, e.
        replace (1 + (y/x)²) with (1 + (y/x)^2) by (unfold Rsqr; ring).
        split; field; repeat split; lra.
      * replace (atan (y/x) - PI) with (- (PI - atan (y/x))) by ring.
        rewrite cos_neg, sin_neg, sin_PI_x.
        replace (cos (PI - atan (y/x))) with (- cos (atan (y/x))).
        2:{ rewrite cos_minus, cos_PI, sin_PI. ring. }
        rewrite cos_atan, sin_atan, e.
        replace (1 + (y/x)²) with (1 + (y/x)^2) by (unfold Rsqr; ring).
        split; field; repeat split; lra.
    + assert (x0 : x = 0) by lra. subst x.
      replace (0*0+y*y) with (y*y) by ring.
      destruct (Rlt_dec 0 y) as [q|nq].
      * rewrite cos_PI2, sin_PI2, sqrt_square by lra. split; ring.
      * destruct (Rlt_dec y 0) as [q|nq'].
        -- rewrite cos_neg, sin_neg, cos_PI2, sin_PI2.
           replace (y*y) with ((-y)*(-y)) by ring. rewrite sqrt_square by lra. split; ring.
        -- assert (y0 : y = 0) by lra. subst y. rewrite Rmult_0_l, sqrt_0. split; ring.
Qed.

Lemma atan2_range : forall y x, - PI < atan2 y x <= PI.
Proof.
  intros y x. pose proof pi_pos. unfold atan2.
  destruct (Rlt_dec 0 x).
  { pose proof (atan_bound (y/x)). lra. }
  destruct (Rlt_dec x 0).
  - pose proof (atan_bound (y/x)). destruct (Rle_dec 0 y).
    + split; [lra|].
      assert (y / x <= 0). { unfold Rdiv. assert (/ x < 0) by (apply Rinv_lt_0_compat; lra). nra. }
      destruct (Req_EM_T (y/x) 0) as [e|ne]. rewrite e, atan_0; lra.
      assert (atan (y/x) < atan 0) by (apply atan_increasing; lra). rewrite atan_0 in H2; lra.
    + assert (0 < y / x). { unfold Rdiv. assert (/ x < 0) by (apply Rinv_lt_0_compat; lra). nra. }
      assert (atan 0 < atan (y/x)) by (apply atan_increasing; lra). rewrite atan_0 in H2; lra.
  - destruct (Rlt_dec 0 y); [lra|]. destruct (Rlt_dec y 0); lra.
Qed.

Lemma angle_unique : forall a b, - PI < a <= PI -> - PI < b <= PI ->
  cos a = cos b -> sin a = sin b -> a = b.
Proof.
  intros a b ra rb ec es.
  assert (c1 : cos (a - b) = 1).
  { rewrite cos_minus, ec, es. pose proof (sin2_cos2 b). unfold Rsqr in H. lra. }
  set (t := (a-b)/2). assert (tb : - PI < t < PI) by (unfold t; lra).
  assert (s0 : sin t = 0).
  { replace (a-b) with (2*t) in c1 by (unfold t; field). rewrite cos_2a_sin in c1. nra. }
  destruct (Rtotal_order t 0) as [l|[e|l]].
  - assert (0 < sin (- t)) by (apply sin_gt_0; lra). rewrite sin_neg in H; lra.
  - unfold t in e. lra.
  - assert (0 < sin t) by (apply sin_gt_0; lra). lra.
Qed.

Lemma atan2_inverse : forall s psi, 0 < s -> - PI < psi <= PI ->
  atan2 (s * sin psi) (s * cos psi) = psi.
Proof.
  intros s psi hs hp. destruct (atan2_polar (s * sin psi) (s * cos psi)) as [A B].
  assert (n : sqrt (s * cos psi * (s * cos psi) + s * sin psi * (s * sin psi)) = s).
  { replace (s * cos psi * (s * cos psi) + s * sin psi * (s * sin psi)) with (s*s*1).
    2:{ pose proof (sin2_cos2 psi). unfold Rsqr in H. rewrite <- H. ring. }
    rewrite Rmult_1_r. apply sqrt_square; lra. }
  rewrite n in A, B. apply angle_unique; auto. apply atan2_range.
  apply Rmult_eq_reg_l with s; lra. apply Rmult_eq_reg_l with s; lra.
Qed.
