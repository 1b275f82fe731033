From Coq Require Import Reals ZArith List Bool Lra Lia.
From Verif Require Import Base MetModel MetSpec StretchProofs DerivLemmas.
Open Scope R_scope.

(* ------------------------------------------------------------------ *)
(** * Elementary facts *)

Lemma izr_pos : forall z, (0 < z)%Z -> 0 < IZR z.
Proof. intros; apply (IZR_lt 0); assumption. Qed.

Lemma mk_dx_pos : forall g, sensible g -> 0 < mk_dx g.
Proof.
  intros g (a & b & c & e). unfold mk_dx.
  apply Rmult_lt_0_compat. lra. apply Rinv_0_lt_compat, izr_pos, c.
Qed.
Lemma s_dr_pos : forall g, sensible g -> 0 < s_dr g.
Proof. intros g H. exact (mk_dx_pos g H). Qed.
Lemma s_dth_pos : forall g, sensible g -> 0 < s_dth g.
Proof.
  intros g (a & b & c & e). unfold s_dth.
  apply Rmult_lt_0_compat. lra. apply Rinv_0_lt_compat, izr_pos, e.
Qed.

Lemma inv_inj : forall a b, a <> 0 -> b <> 0 -> 1 / a = 1 / b -> a = b.
Proof. intros a b ha hb H. rewrite <- (Rinv_inv a), <- (Rinv_inv b). f_equal. lra. Qed.

(* ------------------------------------------------------------------ *)
(** * Minkowski coordinates *)

Lemma mk_inverse : forall g i, sensible g -> mutually_inverse (mk_to_ph g i) (mk_to_cd g i).
Proof.
  intros g i S. pose proof (mk_dx_pos g S) as p.
  split; intros; unfold mk_to_ph, mk_to_cd, mk_dx_inv; field; lra.
Qed.

Lemma mk_extent1 : forall g, sensible g ->
  mk_to_ph g 1 0 = x1_min g /\ mk_to_ph g 1 (IZR (nx1 g)) = x1_max g.
Proof.
  intros g (a & b & c & e). pose proof (izr_pos _ c).
  unfold mk_to_ph, mk_dx, mk_min. split; [ring|field; lra].
Qed.

Lemma almost_equal_bound : forall e a b, 0 <= e -> almost_equal e a b = true -> Rabs (a - b) <= Rabs a * e.
Proof.
  intros e a b he H. unfold almost_equal in H.
  destruct (Req_EM_T a b) as [->|ne].
  - replace (b - b) with 0 by ring. rewrite Rabs_R0.
    apply Rmult_le_pos; [apply Rabs_pos|exact he].
  - destruct (Rle_dec _ _) as [l|]; [|discriminate].
    eapply Rle_trans; [exact l|]. apply Rmult_le_compat_r; [exact he|apply Rmin_l].
Qed.

Lemma far_end : forall e L n dx mn, 0 <= e -> (0 < n)%Z -> 0 <= L ->
  almost_equal e (L / IZR n) dx = true ->
  Rabs (IZR n * dx + mn - (L + mn)) <= e * L.
Proof.
  intros e L n dx mn he hn hL H. apply almost_equal_bound in H; [|exact he].
  pose proof (izr_pos _ hn) as np.
  replace (IZR n * dx + mn - (L + mn)) with (- (IZR n * (L / IZR n - dx))) by (field; lra).
  rewrite Rabs_Ropp, Rabs_mult, (Rabs_pos_eq (IZR n)) by lra.
  rewrite (Rabs_pos_eq (L / IZR n)) in H.
  2:{ apply Rmult_le_pos; [lra|left; apply Rinv_0_lt_compat; lra]. }
  apply Rle_trans with (IZR n * (L / IZR n * e)).
  - apply Rmult_le_compat_l; lra.
  - right. field. lra.
Qed.

Lemma mk_extent2 : forall d g eps, 0 <= eps -> sensible g -> (1 < d)%nat ->
  mk_make d g eps = Ok g ->
  mk_to_ph g 2 0 = x2_min g /\
  Rabs (mk_to_ph g 2 (IZR (nx2 g)) - x2_max g) <= 100 * eps * (x2_max g - x2_min g).
Proof.
  intros d g eps he S hd H. assert (S' := S). destruct S as (a & b & c & e).
  split. unfold mk_to_ph, mk_min; ring.
  unfold mk_make in H. apply Nat.ltb_lt in hd. rewrite hd in H. cbn [andb] in H.
  destruct (almost_equal (eps * 100) _ (mk_dx g)) eqn:E; [|discriminate H].
  eapply (far_end _ _ _ _ (x2_min g)) in E; [|lra|exact e|lra].
  unfold mk_to_ph, mk_min.
  replace (x2_max g) with (x2_max g - x2_min g + x2_min g) at 1 by ring.
  eapply Rle_trans; [exact E|]. lra.
Qed.

Lemma mk_extent3 : forall g eps, 0 <= eps -> sensible g -> x3_min g < x3_max g -> (0 < nx3 g)%Z ->
  mk_make 3 g eps = Ok g ->
  mk_to_ph g 3 0 = x3_min g /\
  Rabs (mk_to_ph g 3 (IZR (nx3 g)) - x3_max g) <= 100 * eps * (x3_max g - x3_min g).
Proof.
  intros g eps he S h3 hn H.
  split. unfold mk_to_ph, mk_min; ring.
  unfold mk_make in H. cbn [Nat.ltb Nat.leb Nat.eqb andb] in H.
  destruct (almost_equal (eps * 100) ((x2_max g - x2_min g) / IZR (nx2 g)) (mk_dx g)) eqn:E0; [|discriminate H].
  cbn [negb] in H.
  destruct (almost_equal (eps * 100) ((x3_max g - x3_min g) / IZR (nx3 g)) (mk_dx g)) eqn:E; [|discriminate H].
  eapply (far_end _ _ _ _ (x3_min g)) in E; [|lra|exact hn|lra].
  unfold mk_to_ph, mk_min.
  replace (x3_max g) with (x3_max g - x3_min g + x3_min g) at 1 by ring.
  eapply Rle_trans; [exact E|]. lra.
Qed.

(* ------------------------------------------------------------------ *)
(** * Spherical <-> Cartesian *)

Lemma cart_sph_cart : forall p, sph_to_cart (cart_to_sph p) = p.
Proof.
  intros [[X Y] Z]. unfold cart_to_sph, sph_to_cart, sqr.
  set (s := sqrt (X*X + Y*Y)).
  assert (s0 : 0 <= s) by apply sqrt_pos.
  assert (ss : s * s = X*X+Y*Y).
  { unfold s. apply sqrt_sqrt. pose proof (Rle_0_sqr X). pose proof (Rle_0_sqr Y). unfold Rsqr in *. lra. }
  assert (e : sqrt (X*X+Y*Y+Z*Z) = sqrt (s*s+Z*Z)) by (f_equal; lra). rewrite e.
  destruct (atan2_polar Z s) as [A B].
  destruct (atan2_polar Y (-X)) as [C D].
  replace (- X * - X + Y * Y) with (X*X+Y*Y) in C, D by ring. fold s in C, D.
  rewrite sin_shift, cos_shift.
  assert (cp : cos (PI - atan2 Y (-X)) = - cos (atan2 Y (-X))).
  { rewrite cos_minus, cos_PI, sin_PI. ring. }
  assert (sp : sin (PI - atan2 Y (-X)) = sin (atan2 Y (-X))) by (apply sin_PI_x).
  rewrite cp, sp, A, B.
  replace (s * - cos (atan2 Y (- X))) with X by lra. rewrite D. reflexivity.
Qed.

Lemma sph_cart_sph : forall r th ph, 0 < r -> 0 < th < PI -> 0 <= ph < 2 * PI ->
  cart_to_sph (sph_to_cart (r, th, ph)) = (r, th, ph).
Proof.
  intros r th ph hr ht hp. unfold cart_to_sph, sph_to_cart, sqr.
  assert (st : 0 < sin th) by (apply sin_gt_0; lra).
  pose proof (sin2_cos2 ph) as e1. pose proof (sin2_cos2 th) as e2. unfold Rsqr in *.
  set (q := r * sin th).
  assert (q0 : 0 < q) by (unfold q; nra).
  assert (a1 : q * cos ph * (q * cos ph) + q * sin ph * (q * sin ph) = q * q).
  { replace (q*q) with (q*q*1) by ring. rewrite <- e1. ring. }
  rewrite a1. rewrite sqrt_square by lra.
  assert (a2 : q * q + r * cos th * (r * cos th) = r * r).
  { unfold q. replace (r*r) with (r*r*1) by ring. rewrite <- e2. ring. }
  rewrite a2, sqrt_square by lra.
  assert (a3 : atan2 (r * cos th) q = PI/2 - th).
  { unfold q. rewrite <- (cos_shift th), <- (sin_shift th).
    apply atan2_inverse; lra. }
  rewrite a3.
  assert (a4 : atan2 (q * sin ph) (- (q * cos ph)) = PI - ph).
  { replace (- (q * cos ph)) with (q * cos (PI - ph)).
    2:{ rewrite cos_minus, cos_PI, sin_PI. ring. }
    rewrite <- (sin_PI_x ph). apply atan2_inverse; lra. }
  rewrite a4. f_equal; [f_equal|]; ring.
Qed.

(** Two-dimensional polar coordinates of the Minkowski metric. *)
Lemma mk_cd_sph_cd2 : forall g x, sensible g -> mk_sph_to_cd2 g (mk_cd_to_sph2 g x) = x.
Proof.
  intros g [a b] S. unfold mk_sph_to_cd2, mk_cd_to_sph2, sqr.
  destruct (atan2_polar (mk_to_ph g 2 b) (mk_to_ph g 1 a)) as [A B].
  rewrite sin_shift, cos_shift, A, B.
  destruct (mk_inverse g 1 S) as [i1 _]. destruct (mk_inverse g 2 S) as [i2 _].
  rewrite i1, i2. reflexivity.
Qed.
Lemma mk_sph_cd_sph2 : forall g r th, sensible g -> 0 < r -> - (PI/2) <= th < 3 * PI / 2 ->
  mk_cd_to_sph2 g (mk_sph_to_cd2 g (r, th)) = (r, th).
Proof.
  intros g r th S hr ht. unfold mk_sph_to_cd2, mk_cd_to_sph2, sqr.
  destruct (mk_inverse g 1 S) as [_ i1]. destruct (mk_inverse g 2 S) as [_ i2].
  rewrite i1, i2. pose proof (sin2_cos2 th) as e2. unfold Rsqr in e2.
  assert (a2 : r * sin th * (r * sin th) + r * cos th * (r * cos th) = r * r).
  { replace (r*r) with (r*r*1) by ring. rewrite <- e2. ring. }
  rewrite a2, sqrt_square by lra.
  rewrite <- (cos_shift th), <- (sin_shift th), atan2_inverse by lra.
  f_equal. ring.
Qed.
Lemma mk_cd_sph_cd3 : forall g x, sensible g -> mk_sph_to_cd3 g (mk_cd_to_sph3 g x) = x.
Proof.
  intros g [[a b] c] S.
  pose proof (cart_sph_cart (mk_to_ph g 1 a, mk_to_ph g 2 b, mk_to_ph g 3 c)) as H.
  unfold mk_cd_to_sph3, mk_sph_to_cd3. unfold cart_to_sph, sph_to_cart in H.
  injection H as H1 H2 H3. rewrite H1, H2, H3.
  destruct (mk_inverse g 1 S) as [i1 _]. destruct (mk_inverse g 2 S) as [i2 _].
  destruct (mk_inverse g 3 S) as [i3 _]. rewrite i1, i2, i3. reflexivity.
Qed.
Lemma mk_sph_cd_sph3 : forall g r th ph, sensible g -> 0 < r -> 0 < th < PI -> 0 <= ph < 2 * PI ->
  mk_cd_to_sph3 g (mk_sph_to_cd3 g (r, th, ph)) = (r, th, ph).
Proof.
  intros g r th ph S hr ht hp.
  pose proof (sph_cart_sph r th ph hr ht hp) as H.
  unfold mk_cd_to_sph3, mk_sph_to_cd3. unfold cart_to_sph, sph_to_cart in H.
  destruct (mk_inverse g 1 S) as [_ i1]. destruct (mk_inverse g 2 S) as [_ i2].
  destruct (mk_inverse g 3 S) as [_ i3]. rewrite i1, i2, i3. exact H.
Qed.

(* ------------------------------------------------------------------ *)
(** * Spherical coordinates *)

Lemma s_inverse : forall g i, sensible g -> mutually_inverse (s_to_ph g i) (s_to_cd g i).
Proof.
  intros g i S. pose proof (s_dr_pos g S) as p. pose proof (s_dth_pos g S) as q.
  destruct i as [|[|[|i]]]; split; intros; unfold s_to_ph, s_to_cd, s_dr_inv, s_dth_inv;
    try reflexivity; field; lra.
Qed.
Lemma s_extent : forall g, sensible g ->
  s_to_ph g 1 0 = x1_min g /\ s_to_ph g 1 (IZR (nx1 g)) = x1_max g /\
  s_to_ph g 2 0 = x2_min g /\ s_to_ph g 2 (IZR (nx2 g)) = x2_max g.
Proof.
  intros g (a & b & c & e). pose proof (izr_pos _ c). pose proof (izr_pos _ e).
  unfold s_to_ph, s_dr, s_dth. repeat split; try ring; field; lra.
Qed.
Lemma s_xyz_code_xyz : forall g p, sensible g -> s_cd_to_xyz g (s_xyz_to_cd g p) = p.
Proof.
  intros g p S. unfold s_cd_to_xyz, s_xyz_to_cd.
  destruct (cart_to_sph p) as [[r th] ph] eqn:E.
  destruct (s_inverse g 1 S) as [_ i1]. destruct (s_inverse g 2 S) as [_ i2].
  destruct (s_inverse g 3 S) as [_ i3]. rewrite i1, i2, i3, <- E. apply cart_sph_cart.
Qed.
Lemma s_code_xyz_code : forall g a b c, sensible g ->
  0 < s_to_ph g 1 a -> 0 < s_to_ph g 2 b < PI -> 0 <= c < 2 * PI ->
  s_xyz_to_cd g (s_cd_to_xyz g (a, b, c)) = (a, b, c).
Proof.
  intros g a b c S ha hb hc. unfold s_cd_to_xyz, s_xyz_to_cd.
  rewrite sph_cart_sph by (assumption || exact hc).
  destruct (s_inverse g 1 S) as [i1 _]. destruct (s_inverse g 2 S) as [i2 _].
  destruct (s_inverse g 3 S) as [i3 _]. rewrite i1, i2, i3. reflexivity.
Qed.

(* ------------------------------------------------------------------ *)
(** * Quasi-spherical coordinates *)

Lemma q_made : forall eps g r0 h, q_ok eps g r0 h -> exists m, q_make eps g r0 h = Some m.
Proof.
  intros eps g r0 h (he & (a & b & c & e) & hr & hh). unfold q_make.
  destruct (Rle_dec (x1_min g - r0) 0); [lra|]. destruct (Rle_dec (x1_max g - r0) 0); [lra|].
  destruct (t2e_total eps h (x2_min g) he hh) as (e0 & E0 & _).
  destruct (t2e_total eps h (x2_max g) he hh) as (e1 & E1 & _).
  rewrite E0, E1. eexists; reflexivity.
Qed.

Lemma q_fields : forall eps g r0 h m, q_ok eps g r0 h -> q_make eps g r0 h = Some m ->
  q_eps m = eps /\ q_r0 m = r0 /\ q_h0 m = h /\
  q_chi_min m = ln (x1_min g - r0) /\
  q_chi_min m + IZR (nx1 g) * q_dchi m = ln (x1_max g - r0) /\
  0 < q_dchi m /\
  eta2theta eps h (q_eta_min m) = x2_min g /\
  eta2theta eps h (q_eta_min m + IZR (nx2 g) * q_deta m) = x2_max g /\
  0 < q_deta m.
Proof.
  intros eps g r0 h m (he & (a & b & c & e) & hr & hh) H. unfold q_make in H.
  destruct (Rle_dec (x1_min g - r0) 0); [lra|]. destruct (Rle_dec (x1_max g - r0) 0); [lra|].
  destruct (t2e_total eps h (x2_min g) he hh) as (e0 & E0 & F0).
  destruct (t2e_total eps h (x2_max g) he hh) as (e1 & E1 & F1).
  rewrite E0, E1 in H. injection H as <-. cbn [q_eps q_r0 q_h0 q_chi_min q_eta_min q_dchi q_deta].
  pose proof (izr_pos _ c) as c'. pose proof (izr_pos _ e) as e'.
  assert (l : ln (x1_min g - r0) < ln (x1_max g - r0)) by (apply ln_increasing; lra).
  assert (k : e0 < e1).
  { apply Rnot_le_lt. intro k. destruct (Rle_lt_or_eq_dec _ _ k) as [k'|k'].
    - pose proof (e2t_incr eps h e1 e0 hh k'); lra.
    - rewrite k' in F1. lra. }
  repeat split; auto.
  - field; lra.
  - apply Rmult_lt_0_compat; [lra|apply Rinv_0_lt_compat; lra].
  - rewrite <- F1. f_equal. field; lra.
  - apply Rmult_lt_0_compat; [lra|apply Rinv_0_lt_compat; lra].
Qed.

Lemma q_cd_ph_cd : forall eps g r0 h m i x, q_ok eps g r0 h -> q_make eps g r0 h = Some m ->
  q_to_cd m i (q_to_ph m i x) = Some x.
Proof.
  intros eps g r0 h m i x OK M.
  destruct (q_fields eps g r0 h m OK M) as (f1 & f2 & f3 & f4 & f5 & f6 & f7 & f8 & f9).
  destruct OK as (he & S & hr & hh).
  destruct i as [|[|[|i]]]; cbn [q_to_cd q_to_ph]; try reflexivity.
  - destruct (Rle_dec _ 0) as [l|]. { pose proof (exp_pos (q_chi m x)); lra. }
    f_equal. replace (q_r0 m + exp (q_chi m x) - q_r0 m) with (exp (q_chi m x)) by ring.
    rewrite ln_exp. unfold q_chi. field; lra.
  - rewrite t2e_e2t by (rewrite ?f1, ?f3; assumption).
    f_equal. unfold q_eta. field; lra.
Qed.

Lemma q_ph_cd_ph : forall eps g r0 h m i x y, q_ok eps g r0 h -> q_make eps g r0 h = Some m ->
  q_to_cd m i x = Some y -> q_to_ph m i y = x.
Proof.
  intros eps g r0 h m i x y OK M E.
  destruct (q_fields eps g r0 h m OK M) as (f1 & f2 & f3 & f4 & f5 & f6 & f7 & f8 & f9).
  destruct OK as (he & S & hr & hh).
  destruct i as [|[|[|i]]]; cbn [q_to_cd q_to_ph] in *; try (injection E as <-; reflexivity).
  - destruct (Rle_dec _ 0) as [l|nl]; [discriminate|]. injection E as <-.
    unfold q_chi.
    replace ((ln (x - q_r0 m) - q_chi_min m) * (1 / q_dchi m) * q_dchi m + q_chi_min m)
      with (ln (x - q_r0 m)) by (field; lra).
    rewrite exp_ln by lra. ring.
  - destruct (theta2eta _ _ x) as [e|] eqn:T; [|discriminate]. injection E as <-.
    unfold q_eta. replace ((e - q_eta_min m) * (1 / q_deta m) * q_deta m + q_eta_min m) with e by (field; lra).
    apply e2t_t2e; rewrite ?f1, ?f3; try assumption. rewrite <- f1, <- f3. exact T.
Qed.

Lemma q_cd_total : forall eps g r0 h m, q_ok eps g r0 h -> q_make eps g r0 h = Some m ->
  (forall r, r0 < r -> q_to_cd m 1 r <> None) /\ (forall th, q_to_cd m 2 th <> None).
Proof.
  intros eps g r0 h m OK M.
  destruct (q_fields eps g r0 h m OK M) as (f1 & f2 & f3 & f4 & f5 & f6 & f7 & f8 & f9).
  destruct OK as (he & S & hr & hh). split.
  - intros r l. cbn [q_to_cd]. rewrite f2. destruct (Rle_dec _ 0); [lra|discriminate].
  - intros th. cbn [q_to_cd]. rewrite f1, f3.
    destruct (t2e_total eps h th he hh) as (e0 & E0 & _). rewrite E0. discriminate.
Qed.

Lemma q_extent : forall eps g r0 h m, q_ok eps g r0 h -> q_make eps g r0 h = Some m ->
  q_to_ph m 1 0 = x1_min g /\ q_to_ph m 1 (IZR (nx1 g)) = x1_max g /\
  q_to_ph m 2 0 = x2_min g /\ q_to_ph m 2 (IZR (nx2 g)) = x2_max g.
Proof.
  intros eps g r0 h m OK M.
  destruct (q_fields eps g r0 h m OK M) as (f1 & f2 & f3 & f4 & f5 & f6 & f7 & f8 & f9).
  destruct OK as (he & (a & b & c & e) & hr & hh).
  unfold q_to_ph, q_chi, q_eta. rewrite f1, f2, f3.
  replace (0 * q_dchi m + q_chi_min m) with (q_chi_min m) by ring.
  replace (IZR (nx1 g) * q_dchi m + q_chi_min m) with (q_chi_min m + IZR (nx1 g) * q_dchi m) by ring.
  replace (0 * q_deta m + q_eta_min m) with (q_eta_min m) by ring.
  replace (IZR (nx2 g) * q_deta m + q_eta_min m) with (q_eta_min m + IZR (nx2 g) * q_deta m) by ring.
  rewrite f5, f4, f7, f8, !exp_ln by lra. repeat split; ring.
Qed.

Lemma q_xyz_code_xyz : forall eps g r0 h m p c, q_ok eps g r0 h -> q_make eps g r0 h = Some m ->
  q_xyz_to_cd m p = Some c -> q_cd_to_xyz m c = p.
Proof.
  intros eps g r0 h m p c OK M E. unfold q_cd_to_xyz, q_xyz_to_cd in *.
  destruct (cart_to_sph p) as [[r th] ph] eqn:P.
  destruct (q_to_cd m 1 r) as [a|] eqn:E1; [|discriminate].
  destruct (q_to_cd m 2 th) as [b|] eqn:E2; [|discriminate].
  cbn [q_to_cd opt3] in E. injection E as <-.
  rewrite (q_ph_cd_ph _ _ _ _ _ _ _ _ OK M E1), (q_ph_cd_ph _ _ _ _ _ _ _ _ OK M E2).
  cbn [q_to_ph]. rewrite <- P. apply cart_sph_cart.
Qed.
Lemma q_code_xyz_code : forall eps g r0 h m a b c, q_ok eps g r0 h -> q_make eps g r0 h = Some m ->
  0 < q_to_ph m 1 a -> 0 < q_to_ph m 2 b < PI -> 0 <= c < 2 * PI ->
  q_xyz_to_cd m (q_cd_to_xyz m (a, b, c)) = Some (a, b, c).
Proof.
  intros eps g r0 h m a b c OK M ha hb hc. unfold q_cd_to_xyz, q_xyz_to_cd.
  rewrite sph_cart_sph by (assumption || exact hc).
  rewrite !(q_cd_ph_cd _ _ _ _ _ _ _ OK M). reflexivity.
Qed.

Lemma q_negative : forall eps g r0 h, almost_zero eps h = false -> h < 0 ->
  0 <= x2_min g < PI/2 -> q_make eps g r0 h = None.
Proof.
  intros eps g r0 h z hn hx. unfold q_make.
  destruct (Rle_dec _ 0); [reflexivity|]. destruct (Rle_dec _ 0); [reflexivity|].
  rewrite t2e_negative by assumption. reflexivity.
Qed.

(* ------------------------------------------------------------------ *)
(** * Basis changes *)

Lemma opt3_inv : forall a b c v, opt3 a b c = Some v ->
  exists x y z, a = Some x /\ b = Some y /\ c = Some z /\ v = (x, y, z).
Proof.
  intros [x|] [y|] [z|] v H; cbn in H; try discriminate. injection H as <-.
  exists x, y, z; auto.
Qed.

Lemma lift_undo : forall f : nat -> idx -> idx -> R -> option R,
  (forall i a b v w, (1 <= i <= 3)%nat -> f i a b v = Some w -> f i b a w = Some v) ->
  undoes_itself (fun a b v => let '(v1,v2,v3) := v in opt3 (f 1%nat a b v1) (f 2%nat a b v2) (f 3%nat a b v3)).
Proof.
  intros f H a b [[v1 v2] v3] w E. apply opt3_inv in E.
  destruct E as (x & y & z & E1 & E2 & E3 & ->).
  apply H in E1, E2, E3; try lia. rewrite E1, E2, E3. reflexivity.
Qed.

Lemma lift_routes : forall f : nat -> idx -> idx -> R -> option R,
  (forall i a b c v w u u', (1 <= i <= 3)%nat -> f i a b v = Some w -> f i b c w = Some u -> f i a c v = Some u' -> u = u') ->
  routes_agree (fun a b v => let '(v1,v2,v3) := v in opt3 (f 1%nat a b v1) (f 2%nat a b v2) (f 3%nat a b v3)).
Proof.
  intros f H a b c [[v1 v2] v3] w u u' E F G. apply opt3_inv in E, G.
  destruct E as (x & y & z & E1 & E2 & E3 & ->).
  destruct G as (x'' & y'' & z'' & G1 & G2 & G3 & ->).
  apply opt3_inv in F. destruct F as (x' & y' & z' & F1 & F2 & F3 & ->).
  assert (e1 : x' = x'') by (apply (H 1%nat a b c v1 x); try assumption; lia).
  assert (e2 : y' = y'') by (apply (H 2%nat a b c v2 y); try assumption; lia).
  assert (e3 : z' = z'') by (apply (H 3%nat a b c v3 z); try assumption; lia).
  rewrite e1, e2, e3. reflexivity.
Qed.

Ltac some H := first [discriminate H | injection H as <-].

Lemma mk_undo : forall d g, sensible g -> undoes_itself (mk_transform d g).
Proof.
  intros d g S. pose proof (mk_dx_pos g S) as p.
  apply (lift_undo (mk_transform1 d g)). intros i a b v w _ E.
  unfold mk_transform1 in *. destruct (Nat.ltb d i);
  destruct a, b; cbn [idx_eqb] in *; some E; try reflexivity; f_equal;
    unfold mk_h, mk_sqrt_h, mk_dx_inv, sqr; field; lra.
Qed.
Lemma mk_routes : forall d g, sensible g -> routes_agree (mk_transform d g).
Proof.
  intros d g S. pose proof (mk_dx_pos g S) as p.
  apply (lift_routes (mk_transform1 d g)). intros i a b c v w u u' _ E F G.
  unfold mk_transform1 in *. destruct (Nat.ltb d i);
  destruct a, b; cbn [idx_eqb] in *; some E; destruct c; cbn [idx_eqb] in *; some F; some G;
    try reflexivity; unfold mk_h, mk_sqrt_h, mk_dx_inv, sqr; field; lra.
Qed.
Lemma mk_norms : forall d g, norms_agree (mk_transform d g).
Proof.
  intros d g [[v1 v2] v3]. unfold mk_transform, mk_transform1. cbn [idx_eqb].
  destruct (Nat.ltb d 1), (Nat.ltb d 2), (Nat.ltb d 3);
    (eexists; eexists; split; [reflexivity|split; [reflexivity|]];
     unfold dot3, c1, c2, c3, mk_h, mk_sqrt_h, sqr; cbn [fst snd]; ring).
Qed.

Lemma s_scale : forall g x i, s_h g i x = sqr (s_sqrt_h g i x).
Proof. intros g [a b] i. destruct i as [|[|[|i]]]; unfold s_h, s_sqrt_h, sqr; ring. Qed.
Lemma s_scale_nz : forall g x i, sensible g -> s_regular g x -> s_sqrt_h g i x <> 0.
Proof.
  intros g [a b] i S [r1 r2]. cbn [fst snd s_to_ph] in *.
  pose proof (s_dr_pos g S) as p. pose proof (s_dth_pos g S) as q.
  assert (st : 0 < sin (b * s_dth g + x2_min g)) by (apply sin_gt_0; lra).
  destruct i as [|[|[|i]]]; unfold s_sqrt_h; apply Rgt_not_eq;
    try (apply Rmult_lt_0_compat; lra); lra.
Qed.
Lemma q_scale : forall m x i, q_h m i x = sqr (q_sqrt_h m i x).
Proof.
  intros m [a b] i.
  assert (e : exp (2 * q_chi m a) = exp (q_chi m a) * exp (q_chi m a)).
  { rewrite <- exp_plus. f_equal; ring. }
  destruct i as [|[|[|i]]]; unfold q_h, q_sqrt_h, sqr; rewrite ?e; ring.
Qed.
Lemma dtde_pos : forall eps h eta, 0 <= h < 1 -> 0 < dtheta_deta eps h eta.
Proof.
  intros eps h eta hh. unfold dtheta_deta. destruct (almost_zero eps h); [lra|].
  replace (1 + 2 * h + 12 * h * (eta / PI) * (eta / PI - 1))
    with (1 - h + 12 * h * (eta/PI - 1/2)^2) by (field; pose proof PI_RGT_0; lra).
  assert (0 <= 12 * h * (eta/PI - 1/2)^2) by (apply Rmult_le_pos; [lra|apply pow2_ge_0]). lra.
Qed.
Lemma q_scale_nz : forall eps g r0 h m x i, q_ok eps g r0 h -> q_make eps g r0 h = Some m ->
  q_regular m x -> q_sqrt_h m i x <> 0.
Proof.
  intros eps g r0 h m [a b] i OK M [r1 r2]. cbn [fst snd q_to_ph] in *.
  destruct (q_fields eps g r0 h m OK M) as (f1 & f2 & f3 & f4 & f5 & f6 & f7 & f8 & f9).
  destruct OK as (he & S & hr & hh).
  assert (st : 0 < sin (eta2theta (q_eps m) (q_h0 m) (q_eta m b))) by (apply sin_gt_0; lra).
  pose proof (exp_pos (q_chi m a)) as ep.
  assert (hq : 0 <= q_h0 m < 1) by (rewrite f3; exact hh).
  pose proof (dtde_pos (q_eps m) (q_h0 m) (q_eta m b) hq) as dp.
  destruct i as [|[|[|i]]]; unfold q_sqrt_h; apply Rgt_not_eq.
  - apply Rmult_lt_0_compat; lra.
  - apply Rmult_lt_0_compat; lra.
  - apply Rmult_lt_0_compat; [apply Rmult_lt_0_compat; lra|lra].
  - apply Rmult_lt_0_compat; lra.
Qed.

Lemma s_undo : forall g x, sensible g -> s_regular g x -> undoes_itself (fun a b v => s_transform g a b x v).
Proof.
  intros g x S Rg. pose proof (s_dr_pos g S) as p. pose proof (s_dth_pos g S) as q.
  apply (lift_undo (fun i a b v => s_transform1 g i a b x v)). intros i a b v w li E.
  pose proof (s_scale_nz g x i S Rg) as nz.
  assert (ph : s_phys g i <> 0 /\ s_phys_inv g i = 1 / s_phys g i).
  { destruct i as [|[|[|i]]]; unfold s_phys, s_phys_inv, s_dr_inv, s_dth_inv; split; lra. }
  destruct ph as [ph1 ph2].
  unfold s_transform1 in *. rewrite s_scale in *. rewrite ph2 in *.
  destruct a, b; some E; try reflexivity; f_equal; unfold sqr; field; auto.
Qed.
Lemma s_routes : forall g x, sensible g -> s_regular g x -> routes_agree (fun a b v => s_transform g a b x v).
Proof.
  intros g x S Rg. pose proof (s_dr_pos g S) as p. pose proof (s_dth_pos g S) as q.
  apply (lift_routes (fun i a b v => s_transform1 g i a b x v)). intros i a b c v w u u' li E F G.
  pose proof (s_scale_nz g x i S Rg) as nz.
  assert (ph : s_phys g i <> 0 /\ s_phys_inv g i = 1 / s_phys g i).
  { destruct i as [|[|[|i]]]; unfold s_phys, s_phys_inv, s_dr_inv, s_dth_inv; split; lra. }
  destruct ph as [ph1 ph2].
  unfold s_transform1 in *. rewrite s_scale in *. rewrite ph2 in *.
  destruct a, b; some E; destruct c; some F; some G; try reflexivity; unfold sqr; field; auto.
Qed.
Lemma s_norms : forall g x, norms_agree (fun a b v => s_transform g a b x v).
Proof.
  intros g x [[v1 v2] v3]. unfold s_transform, s_transform1. rewrite !s_scale.
  eexists; eexists; split; [reflexivity|split; [reflexivity|]].
  unfold dot3, c1, c2, c3, sqr; cbn [fst snd]; ring.
Qed.

Lemma q_phys_nz : forall eps g r0 h m x i v, q_ok eps g r0 h -> q_make eps g r0 h = Some m ->
  exists k, k <> 0 /\ q_to_phys m i x v = v * k /\ (forall w, q_of_phys m i x w = w / k).
Proof.
  intros eps g r0 h m [a b] i v OK M.
  destruct (q_fields eps g r0 h m OK M) as (f1 & f2 & f3 & f4 & f5 & f6 & f7 & f8 & f9).
  destruct OK as (he & S & hr & hh).
  pose proof (exp_pos (q_chi m a)) as ep.
  assert (hq : 0 <= q_h0 m < 1) by (rewrite f3; exact hh).
  pose proof (dtde_pos (q_eps m) (q_h0 m) (q_eta m b) hq) as dp.
  destruct i as [|[|[|i]]]; unfold q_to_phys, q_of_phys.
  - exists 1. repeat split; intros; lra.
  - exists (exp (q_chi m a) * q_dchi m). repeat split; intros.
    + apply Rgt_not_eq, Rmult_lt_0_compat; lra.
    + ring.
    + field; lra.
  - exists (dtheta_deta (q_eps m) (q_h0 m) (q_eta m b) * q_deta m). repeat split; intros.
    + apply Rgt_not_eq, Rmult_lt_0_compat; lra.
    + field; lra.
  - exists 1. repeat split; intros; lra.
Qed.

Lemma q_phys_all : forall eps g r0 h m x i, q_ok eps g r0 h -> q_make eps g r0 h = Some m ->
  exists k, k <> 0 /\ (forall v, q_to_phys m i x v = v * k) /\ (forall w, q_of_phys m i x w = w / k).
Proof.
  intros eps g r0 h m x i OK M.
  destruct (q_phys_nz eps g r0 h m x i 1 OK M) as (k & k0 & _ & kw). exists k. split; [exact k0|].
  split; [|exact kw]. intros v0.
  destruct (q_phys_nz eps g r0 h m x i v0 OK M) as (k' & k0' & kv' & kw').
  rewrite kv'. f_equal. assert (q1 : 1/k = 1/k') by (rewrite <- kw, <- kw'; reflexivity).
  symmetry. apply inv_inj; assumption.
Qed.

Lemma q_undo : forall eps g r0 h m x, q_ok eps g r0 h -> q_make eps g r0 h = Some m ->
  q_regular m x -> undoes_itself (fun a b v => q_transform m a b x v).
Proof.
  intros eps g r0 h m x OK M Rg.
  apply (lift_undo (fun i a b v => q_transform1 m i a b x v)). intros i a b v w li E.
  pose proof (q_scale_nz eps g r0 h m x i OK M Rg) as nz.
  destruct (q_phys_all eps g r0 h m x i OK M) as (k & k0 & kv & kw).
  unfold q_transform1 in *. rewrite q_scale in *.
  destruct a, b; some E; rewrite ?kv, ?kw, ?kv, ?kw; try reflexivity; f_equal; unfold sqr; field; auto.
Qed.
Lemma q_routes : forall eps g r0 h m x, q_ok eps g r0 h -> q_make eps g r0 h = Some m ->
  q_regular m x -> routes_agree (fun a b v => q_transform m a b x v).
Proof.
  intros eps g r0 h m x OK M Rg.
  apply (lift_routes (fun i a b v => q_transform1 m i a b x v)). intros i a b c v w u u' li E F G.
  pose proof (q_scale_nz eps g r0 h m x i OK M Rg) as nz.
  destruct (q_phys_all eps g r0 h m x i OK M) as (k & k0 & kv & kw).
  unfold q_transform1 in *. rewrite q_scale in *.
  destruct a, b; some E; destruct c; some F; some G; rewrite ?kv, ?kw, ?kv, ?kw;
    try reflexivity; unfold sqr; field; auto.
Qed.
Lemma q_norms : forall m x, norms_agree (fun a b v => q_transform m a b x v).
Proof.
  intros m x [[v1 v2] v3]. unfold q_transform, q_transform1. rewrite !q_scale.
  eexists; eexists; split; [reflexivity|split; [reflexivity|]].
  unfold dot3, c1, c2, c3, sqr; cbn [fst snd]; ring.
Qed.

(* ------------------------------------------------------------------ *)
(** * Rotation to Cartesian axes *)

Lemma rot_there_back : forall th ph v, cart_to_tetrad th ph (tetrad_to_cart th ph v) = v.
Proof.
  intros th ph [[v1 v2] v3]. unfold cart_to_tetrad, tetrad_to_cart.
  pose proof (sin2_cos2 th) as e1. pose proof (sin2_cos2 ph) as e2. unfold Rsqr in *.
  assert (s1 : sin th * sin th = 1 - cos th * cos th) by lra.
  assert (s2 : sin ph * sin ph = 1 - cos ph * cos ph) by lra.
  f_equal; [f_equal|].
  - transitivity (v1 * (sin th * sin th * (sin ph * sin ph + cos ph * cos ph) + cos th * cos th)
      + v2 * (sin th * cos th * (sin ph * sin ph + cos ph * cos ph) - sin th * cos th)); [ring|].
    rewrite e2. rewrite Rmult_1_r, e1. ring.
  - transitivity (v1 * (sin th * cos th * (sin ph * sin ph + cos ph * cos ph) - sin th * cos th)
      + v2 * (cos th * cos th * (sin ph * sin ph + cos ph * cos ph) + sin th * sin th)); [ring|].
    rewrite e2. rewrite !Rmult_1_r. replace (cos th * cos th + sin th * sin th) with 1 by lra. ring.
  - transitivity (v3 * (sin ph * sin ph + cos ph * cos ph)); [ring|]. rewrite e2. ring.
Qed.
Lemma rot_back_there : forall th ph v, tetrad_to_cart th ph (cart_to_tetrad th ph v) = v.
Proof.
  intros th ph [[v1 v2] v3]. unfold cart_to_tetrad, tetrad_to_cart.
  pose proof (sin2_cos2 th) as e1. pose proof (sin2_cos2 ph) as e2. unfold Rsqr in *.
  f_equal; [f_equal|].
  - transitivity (v1 * (cos ph * cos ph * (sin th * sin th + cos th * cos th) + sin ph * sin ph)
      + v2 * (sin ph * cos ph * (sin th * sin th + cos th * cos th) - sin ph * cos ph)); [ring|].
    rewrite e1. rewrite !Rmult_1_r. replace (cos ph * cos ph + sin ph * sin ph) with 1 by lra. ring.
  - transitivity (v2 * (sin ph * sin ph * (sin th * sin th + cos th * cos th) + cos ph * cos ph)
      + v1 * (sin ph * cos ph * (sin th * sin th + cos th * cos th) - sin ph * cos ph)); [ring|].
    rewrite e1. rewrite !Rmult_1_r. rewrite e2. ring.
  - transitivity (v3 * (sin th * sin th + cos th * cos th)); [ring|]. rewrite e1. ring.
Qed.
Lemma rot_norm : forall th ph v, dot3 (tetrad_to_cart th ph v) (tetrad_to_cart th ph v) = dot3 v v.
Proof.
  intros th ph [[v1 v2] v3]. unfold dot3, tetrad_to_cart, c1, c2, c3; cbn [fst snd].
  pose proof (sin2_cos2 th) as e1. pose proof (sin2_cos2 ph) as e2. unfold Rsqr in *.
  assert (s1 : sin th * sin th = 1 - cos th * cos th) by lra.
  assert (s2 : sin ph * sin ph = 1 - cos ph * cos ph) by lra.
  transitivity (v1*v1*((sin th * sin th) * (sin ph * sin ph + cos ph * cos ph) + cos th * cos th)
    + v2*v2*((cos th * cos th) * (sin ph * sin ph + cos ph * cos ph) + sin th * sin th)
    + 2*v1*v2*(sin th * cos th * (sin ph * sin ph + cos ph * cos ph) - sin th * cos th)
    + v3*v3*(sin ph * sin ph + cos ph * cos ph)); [ring|].
  rewrite e2, !Rmult_1_r, e1. replace (cos th * cos th + sin th * sin th) with 1 by lra. ring.
Qed.

(** The Cartesian basis added to the others. *)
Lemma s_xyz_undo : forall g x, sensible g -> s_regular g (fst x) ->
  forall a v w, basic a ->
    (s_transform_xyz g a IXYZ x v = Some w -> s_transform_xyz g IXYZ a x w = Some v) /\
    (s_transform_xyz g IXYZ a x v = Some w -> s_transform_xyz g a IXYZ x w = Some v).
Proof.
  intros g [[x1 x2] x3] S Rg a v w B. pose proof (s_undo g (x1,x2) S Rg) as U.
  unfold s_transform_xyz.
  destruct B as [->|[->| ->]].
  - split; intros E; injection E as <-; f_equal; [apply rot_there_back|apply rot_back_there].
  - split.
    + intros E. destruct (s_transform g IU IT (x1,x2) v) as [t|] eqn:T; [|discriminate].
      injection E as <-. rewrite rot_there_back. apply U. exact T.
    + intros E. apply U in E. rewrite E. f_equal. apply rot_back_there.
  - split.
    + intros E. destruct (s_transform g ID IT (x1,x2) v) as [t|] eqn:T; [|discriminate].
      injection E as <-. rewrite rot_there_back. apply U. exact T.
    + intros E. apply U in E. rewrite E. f_equal. apply rot_back_there.
Qed.
Lemma q_xyz_undo : forall eps g r0 h m x, q_ok eps g r0 h -> q_make eps g r0 h = Some m -> q_regular m (fst x) ->
  forall a v w, basic a ->
    (q_transform_xyz m a IXYZ x v = Some w -> q_transform_xyz m IXYZ a x w = Some v) /\
    (q_transform_xyz m IXYZ a x v = Some w -> q_transform_xyz m a IXYZ x w = Some v).
Proof.
  intros eps g r0 h m [[x1 x2] x3] OK M Rg a v w B. pose proof (q_undo eps g r0 h m (x1,x2) OK M Rg) as U.
  unfold q_transform_xyz.
  destruct B as [->|[->| ->]].
  - split; intros E; injection E as <-; f_equal; [apply rot_there_back|apply rot_back_there].
  - split.
    + intros E. destruct (q_transform m IU IT (x1,x2) v) as [t|] eqn:T; [|discriminate].
      injection E as <-. rewrite rot_there_back. apply U. exact T.
    + intros E. apply U in E. rewrite E. f_equal. apply rot_back_there.
  - split.
    + intros E. destruct (q_transform m ID IT (x1,x2) v) as [t|] eqn:T; [|discriminate].
      injection E as <-. rewrite rot_there_back. apply U. exact T.
    + intros E. apply U in E. rewrite E. f_equal. apply rot_back_there.
Qed.

(** Converting a code velocity to Cartesian axes gives the velocity of the
    moving point. *)
Lemma s_velocity : forall g x u, exists w,
  s_transform_xyz g IU IXYZ x u = Some w /\ cartesian_velocity (s_cd_to_xyz g) x u w.
Proof.
  intros g [[x1 x2] x3] [[u1 u2] u3]. eexists. split; [reflexivity|].
  unfold cartesian_velocity, displaced, s_cd_to_xyz, sph_to_cart, tetrad_to_cart, s_to_ph, s_sqrt_h, c1, c2, c3.
  cbn [fst snd].
  repeat split; (eapply dl_eq; [dl|cbn beta]).
  - rewrite !Rmult_0_l, !Rplus_0_r. ring.
  - rewrite !Rmult_0_l, !Rplus_0_r. ring.
  - rewrite !Rmult_0_l, !Rplus_0_r. ring.
Qed.

Lemma q_velocity : forall m x u, exists w,
  q_transform_xyz m IU IXYZ x u = Some w /\ cartesian_velocity (q_cd_to_xyz m) x u w.
Proof.
  intros m [[x1 x2] x3] [[u1 u2] u3]. eexists. split; [reflexivity|].
  assert (dt : derivable_pt_lim (fun s => eta2theta (q_eps m) (q_h0 m) (q_eta m (x2 + s * u2))) 0
                 (dtheta_deta (q_eps m) (q_h0 m) (q_eta m x2) * (u2 * q_deta m))).
  { apply (dl_comp (fun s => q_eta m (x2 + s * u2)) (eta2theta (q_eps m) (q_h0 m))).
    - unfold q_eta. eapply dl_eq. dl. cbn beta. ring.
    - rewrite Rmult_0_l, Rplus_0_r. apply dl_e2t. }
  assert (dr : derivable_pt_lim (fun s => q_r0 m + exp (q_chi m (x1 + s * u1))) 0
                 (exp (q_chi m x1) * (u1 * q_dchi m))).
  { unfold q_chi. eapply dl_eq. dl. cbn beta. rewrite Rmult_0_l, Rplus_0_r. ring. }
  set (T := fun s => eta2theta (q_eps m) (q_h0 m) (q_eta m (x2 + s * u2))) in *.
  set (Rr := fun s => q_r0 m + exp (q_chi m (x1 + s * u1))) in *.
  assert (T0 : T 0 = eta2theta (q_eps m) (q_h0 m) (q_eta m x2)).
  { unfold T. rewrite Rmult_0_l, Rplus_0_r. reflexivity. }
  assert (R0 : Rr 0 = q_r0 m + exp (q_chi m x1)).
  { unfold Rr. rewrite Rmult_0_l, Rplus_0_r. reflexivity. }
  unfold cartesian_velocity, displaced, q_cd_to_xyz, sph_to_cart, tetrad_to_cart, q_to_ph, q_sqrt_h, c1, c2, c3.
  cbn [fst snd].
  assert (P : derivable_pt_lim (fun s => x3 + s * u3) 0 u3).
  { eapply dl_eq. dl. cbn beta. ring. }
  split; [|split].
  - change (derivable_pt_lim (fun s => Rr s * sin (T s) * cos (x3 + s * u3)) 0
      (u1 * (q_dchi m * exp (q_chi m x1)) * sin (eta2theta (q_eps m) (q_h0 m) (q_eta m x2)) * cos x3
       + u2 * (q_deta m * dtheta_deta (q_eps m) (q_h0 m) (q_eta m x2) * (q_r0 m + exp (q_chi m x1)))
         * cos (eta2theta (q_eps m) (q_h0 m) (q_eta m x2)) * cos x3
       - u3 * ((q_r0 m + exp (q_chi m x1)) * sin (eta2theta (q_eps m) (q_h0 m) (q_eta m x2))) * sin x3)).
    eapply dl_eq.
    + apply (dl_mult (fun s => Rr s * sin (T s)) (fun s => cos (x3 + s*u3))).
      * apply (dl_mult Rr (fun s => sin (T s))). exact dr. apply dl_sin. exact dt.
      * apply (dl_cos (fun s => x3 + s*u3)). exact P.
    + cbn beta. rewrite T0, R0. rewrite !Rmult_0_l, !Rplus_0_r. ring.
  - change (derivable_pt_lim (fun s => Rr s * sin (T s) * sin (x3 + s * u3)) 0
      (u1 * (q_dchi m * exp (q_chi m x1)) * sin (eta2theta (q_eps m) (q_h0 m) (q_eta m x2)) * sin x3
       + u2 * (q_deta m * dtheta_deta (q_eps m) (q_h0 m) (q_eta m x2) * (q_r0 m + exp (q_chi m x1)))
         * cos (eta2theta (q_eps m) (q_h0 m) (q_eta m x2)) * sin x3
       + u3 * ((q_r0 m + exp (q_chi m x1)) * sin (eta2theta (q_eps m) (q_h0 m) (q_eta m x2))) * cos x3)).
    eapply dl_eq.
    + apply (dl_mult (fun s => Rr s * sin (T s)) (fun s => sin (x3 + s*u3))).
      * apply (dl_mult Rr (fun s => sin (T s))). exact dr. apply dl_sin. exact dt.
      * apply (dl_sin (fun s => x3 + s*u3)). exact P.
    + cbn beta. rewrite T0, R0. rewrite !Rmult_0_l, !Rplus_0_r. ring.
  - change (derivable_pt_lim (fun s => Rr s * cos (T s)) 0
      (u1 * (q_dchi m * exp (q_chi m x1)) * cos (eta2theta (q_eps m) (q_h0 m) (q_eta m x2))
       - u2 * (q_deta m * dtheta_deta (q_eps m) (q_h0 m) (q_eta m x2) * (q_r0 m + exp (q_chi m x1)))
         * sin (eta2theta (q_eps m) (q_h0 m) (q_eta m x2)))).
    eapply dl_eq.
    + apply (dl_mult Rr (fun s => cos (T s))). exact dr. apply dl_cos. exact dt.
    + cbn beta. rewrite T0, R0. ring.
Qed.

(** U -> PU is the derivative of the code -> physical map. *)
Lemma s_phys_velocity : forall g i x u, (1 <= i <= 3)%nat ->
  exists w, s_transform1 g i IU IPU x u = Some w /\
    derivable_pt_lim (fun s => s_to_ph g i (coord i x + s * u)) 0 w.
Proof.
  intros g i [a b] u li. eexists. split; [reflexivity|]. unfold coord. cbn [fst snd].
  destruct i as [|[|[|[|i]]]]; try lia; unfold s_to_ph, s_phys; (eapply dl_eq; [dl|cbn beta; ring]).
Qed.
Lemma q_phys_velocity : forall m i x u, (1 <= i <= 3)%nat ->
  exists w, q_transform1 m i IU IPU x u = Some w /\
    derivable_pt_lim (fun s => q_to_ph m i (coord i x + s * u)) 0 w.
Proof.
  intros m i [a b] u li. eexists. split; [reflexivity|]. unfold coord. cbn [fst snd].
  destruct i as [|[|[|[|i]]]]; try lia; unfold q_to_ph, q_to_phys.
  - unfold q_chi. eapply dl_eq; [dl|cbn beta]. rewrite !Rmult_0_l, !Rplus_0_r. ring.
  - eapply dl_eq.
    + apply (dl_comp (fun s => q_eta m (b + s * u)) (eta2theta (q_eps m) (q_h0 m))).
      * unfold q_eta. dl.
      * apply dl_e2t.
    + cbn beta. rewrite !Rmult_0_l, !Rplus_0_r. ring.
  - eapply dl_eq; [dl|cbn beta; ring].
Qed.

Lemma mk_velocity : forall d g i x u, (1 <= i <= d)%nat ->
  exists w, mk_transform1 d g i IU IXYZ u = Some w /\ mk_transform1 d g i IU IPU u = Some w /\
    derivable_pt_lim (fun s => mk_to_ph g i (x + s * u)) 0 w.
Proof.
  intros d g i x u li. unfold mk_transform1. cbn [idx_eqb].
  destruct (Nat.ltb_spec d i); [lia|]. exists (u * mk_dx g). split; [reflexivity|]. split; [reflexivity|].
  unfold mk_to_ph. eapply dl_eq; [dl|cbn beta; ring].
Qed.

(** Volume elements. *)
Lemma s_volume : forall g x, sqr (s_sqrt_det_h g x) = s_h g 1 x * s_h g 2 x * s_h g 3 x /\
  s_sqrt_det_h g x = s_sqrt_det_h_tilde g x * sin (s_to_ph g 2 (snd x)).
Proof.
  intros g [a b]. unfold s_sqrt_det_h, s_sqrt_det_h_tilde, s_h, s_to_ph, sqr. cbn [snd]. split; ring.
Qed.
Lemma q_volume : forall m x, sqr (q_sqrt_det_h m x) = q_h m 1 x * q_h m 2 x * q_h m 3 x /\
  q_sqrt_det_h m x = q_sqrt_det_h_tilde m x * sin (q_to_ph m 2 (snd x)).
Proof.
  intros m x. rewrite !q_scale. destruct x as [a b].
  unfold q_sqrt_det_h, q_sqrt_det_h_tilde, q_sqrt_h, q_to_ph, sqr. cbn [snd]. split; ring.
Qed.
