From Coq Require Import Reals ZArith List Bool Lra Lia.
From Verif Require Import Base MetModel MetSpec StretchProofs DerivLemmas MetProofs.
Open Scope R_scope.

Lemma one_minus_cos : forall d, 0 <= d <= 1 ->
  d*d/2 - d*d*(d*d)/24 <= 1 - cos d <= d*d/2 - d*d*(d*d)/24 + d*d*(d*d)*(d*d)/720.
Proof.
  intros d hd. pose proof PI2_3_2 as p.
  destruct (pre_cos_bound d 0) as [_ u]; try lra.
  destruct (pre_cos_bound d 1) as [l _]; try lra.
  unfold cos_approx, cos_term in *. cbn [Nat.mul Nat.add sum_f_R0 fact pow INR] in *.
  lra.
Qed.

(** Integral of the volume element over the half cell next to the axis. *)
Definition s_cap (g : grid) (x1 : R) : R :=
  s_dr g * sqr (x1 * s_dr g + x1_min g) * (1 - cos (1/2 * s_dth g)).
Lemma s_cap_integral : forall g x1, x2_min g = 0 ->
  integral (fun s => s_sqrt_det_h g (x1, s)) 0 (1/2) (s_cap g x1).
Proof.
  intros g x1 z. exists (fun s => - (s_dr g * sqr (x1 * s_dr g + x1_min g) * cos (s * s_dth g + x2_min g))).
  split.
  - intros s. unfold s_sqrt_det_h. eapply dl_eq; [dl|cbn beta; ring].
  - unfold s_cap. rewrite z, Rmult_0_l, !Rplus_0_r, cos_0. ring.
Qed.
Lemma integral_unique : forall f a b A B, a <= b -> integral f a b A -> integral f a b B -> A = B.
Proof.
  intros f a b A B [lt|e] [F [dF ->]] [G [dG ->]].
  - destruct (MVT_cor2 (fun s => F s - G s) (fun s => f s - f s) a b lt) as (c & E & _).
    { intros c _. apply derivable_pt_lim_minus; auto. }
    replace (f c - f c) with 0 in E by ring. lra.
  - subst. ring.
Qed.

Lemma s_polar : forall g x1 A, sensible g -> x2_min g = 0 ->
  integral (fun s => s_sqrt_det_h g (x1, s)) 0 (1/2) A ->
  Rabs (s_polar_area g x1 - A) <= A / 1000000000000.
Proof.
  intros g x1 A S z I.
  assert (hf : 0 <= 1/2) by lra.
  rewrite (integral_unique _ _ _ _ _ hf I (s_cap_integral g x1 z)). clear I A.
  unfold s_polar_area, s_cap, s_small, small_angle_lim.
  pose proof (s_dr_pos g S) as p. pose proof (s_dth_pos g S) as q.
  set (d := 1/2 * s_dth g). assert (ed : s_dth g = 2 * d) by (unfold d; lra). rewrite ed in *.
  set (K := s_dr g * sqr (x1 * s_dr g + x1_min g)).
  assert (K0 : 0 <= K).
  { unfold K, sqr. apply Rmult_le_pos; [lra|]. apply Rle_0_sqr. }
  destruct (Rlt_dec d (1/1000)) as [l|nl].
  - destruct (one_minus_cos d ltac:(lra)) as [b1 b2].
    replace (K * (48 - sqr (2*d)) * sqr (2*d) / 384) with (K * (d*d/2 - d*d*(d*d)/24)) by (unfold sqr; field).
    replace (K * (d*d/2 - d*d*(d*d)/24) - K * (1 - cos d)) with (- (K * ((1 - cos d) - (d*d/2 - d*d*(d*d)/24)))) by ring.
    rewrite Rabs_Ropp, Rabs_pos_eq by (apply Rmult_le_pos; lra).
    assert (dd : 0 <= d * d <= 1/1000000) by (split; nra).
    assert (q1 : d*d*(d*d) <= 1/1000000 * (d*d)) by (apply Rmult_le_compat_r; lra).
    assert (q0 : 0 <= d*d*(d*d)) by (apply Rmult_le_pos; lra).
    assert (q2 : d*d*(d*d)*(d*d) <= 1/1000000 * (1/1000000 * (d*d))).
    { rewrite Rmult_comm. apply Rmult_le_compat; lra. }
    replace (K * (1 - cos d) / 1000000000000) with (K * ((1 - cos d) / 1000000000000)) by field.
    apply Rmult_le_compat_l; lra.
  - assert (c : cos d <= 1) by apply COS_bound.
    replace (K * (1 - cos d) - K * (1 - cos d)) with 0 by ring. rewrite Rabs_R0.
    apply Rmult_le_pos; [apply Rmult_le_pos; lra|lra].
Qed.

Definition q_cap (m : qmet) (x1 : R) : R :=
  q_dchi m * exp (q_chi m x1) * sqr (q_r0 m + exp (q_chi m x1)) * (1 - cos (q_to_ph m 2 (1/2))).

Lemma e2t_zero : forall eps h, eta2theta eps h 0 = 0.
Proof.
  intros. unfold eta2theta. destruct (almost_zero _ _); [reflexivity|].
  field. pose proof pi_pos; lra.
Qed.

Lemma q_eta_zero : forall eps g r0 h m, q_ok eps g r0 h -> q_make eps g r0 h = Some m -> x2_min g = 0 ->
  q_eta_min m = 0.
Proof.
  intros eps g r0 h m OK M z.
  destruct (q_fields eps g r0 h m OK M) as (f1 & f2 & f3 & f4 & f5 & f6 & f7 & f8 & f9).
  apply (e2t_inj eps h); [apply OK|]. rewrite f7, z, e2t_zero. reflexivity.
Qed.

Lemma q_cap_integral : forall m x1, q_eta_min m = 0 ->
  integral (fun s => q_sqrt_det_h m (x1, s)) 0 (1/2) (q_cap m x1).
Proof.
  intros m x1 z.
  exists (fun s => - (q_dchi m * exp (q_chi m x1) * sqr (q_r0 m + exp (q_chi m x1)) * cos (eta2theta (q_eps m) (q_h0 m) (q_eta m s)))).
  split.
  - intros s. unfold q_sqrt_det_h.
    assert (dt : derivable_pt_lim (fun s => eta2theta (q_eps m) (q_h0 m) (q_eta m s)) s
                 (dtheta_deta (q_eps m) (q_h0 m) (q_eta m s) * q_deta m)).
    { apply (dl_comp (fun s => q_eta m s) (eta2theta (q_eps m) (q_h0 m))).
      - unfold q_eta. eapply dl_eq. dl. cbn beta. ring.
      - apply dl_e2t. }
    eapply dl_eq.
    + apply dl_opp. apply dl_mult. apply dl_const. apply dl_cos. exact dt.
    + cbn beta. ring.
  - unfold q_cap, q_to_ph. replace (q_eta m 0) with 0 by (unfold q_eta; rewrite z; ring).
    rewrite e2t_zero, cos_0. ring.
Qed.

Lemma q_polar_exact : forall eps g r0 h m x1, q_ok eps g r0 h -> q_make eps g r0 h = Some m ->
  x2_min g = 0 -> small_angle_lim <= q_to_ph m 2 (1/2) ->
  integral (fun s => q_sqrt_det_h m (x1, s)) 0 (1/2) (q_polar_area m x1).
Proof.
  intros eps g r0 h m x1 OK M z big. pose proof (q_eta_zero _ _ _ _ _ OK M z) as ez.
  replace (q_polar_area m x1) with (q_cap m x1). apply q_cap_integral; exact ez.
  unfold q_polar_area, q_small, q_cap, q_to_ph in *.
  assert (e : q_eta m (1/2) = 1/2 * q_deta m) by (unfold q_eta; rewrite ez; ring).
  rewrite e in *. destruct (Rlt_dec _ _); [lra|]. reflexivity.
Qed.

Lemma q_polar_small : forall eps g r0 h m x1 A, q_ok eps g r0 h -> q_make eps g r0 h = Some m ->
  x2_min g = 0 -> q_to_ph m 2 (1/2) < small_angle_lim -> q_to_ph m 1 x1 <> 0 ->
  integral (fun s => q_sqrt_det_h m (x1, s)) 0 (1/2) A ->
  q_polar_area m x1 < 26 / 100 * A.
Proof.
  intros eps g r0 h m x1 A OK M z small nz I. pose proof (q_eta_zero _ _ _ _ _ OK M z) as ez.
  assert (hf : 0 <= 1/2) by lra.
  rewrite (integral_unique _ _ _ _ _ hf I (q_cap_integral m x1 ez)). clear I A.
  destruct (q_fields eps g r0 h m OK M) as (f1 & f2 & f3 & f4 & f5 & f6 & f7 & f8 & f9).
  unfold q_polar_area, q_small, q_cap, q_to_ph, small_angle_lim in *.
  assert (e : q_eta m (1/2) = 1/2 * q_deta m) by (unfold q_eta; rewrite ez; ring).
  rewrite e in *. destruct (Rlt_dec _ _); [|lra].
  assert (d0 : 0 < eta2theta (q_eps m) (q_h0 m) (1/2 * q_deta m)).
  { rewrite <- (e2t_zero (q_eps m) (q_h0 m)). apply e2t_incr. rewrite f3; apply OK. lra. }
  set (d := eta2theta (q_eps m) (q_h0 m) (1/2 * q_deta m)) in *.
  set (K := q_dchi m * exp (q_chi m x1) * sqr (q_r0 m + exp (q_chi m x1))).
  assert (K0 : 0 < K).
  { unfold K, sqr. apply Rmult_lt_0_compat.
    - apply Rmult_lt_0_compat; [lra|apply exp_pos].
    - apply Rlt_0_sqr in nz. exact nz. }
  destruct (one_minus_cos d ltac:(lra)) as [b1 b2].
  assert (dd : 0 < d * d <= 1/1000000) by (split; nra).
  assert (q1 : d*d*(d*d) <= 1/1000000 * (d*d)) by (apply Rmult_le_compat_r; lra).
  assert (q0 : 0 <= d*d*(d*d)) by (apply Rmult_le_pos; lra).
  replace (K * (48 - sqr d) * sqr d / 384) with (K * (d*d/8 - d*d*(d*d)/384)) by (unfold sqr; field).
  replace (26/100 * (K * (1 - cos d))) with (K * (26/100 * (1 - cos d))) by ring.
  apply Rmult_lt_compat_l; [exact K0|]. lra.
Qed.
