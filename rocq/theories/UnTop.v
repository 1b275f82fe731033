(** Proofs for the units. *)
From Coq Require Import ZArith List Reals Lra Lia Permutation.
From Coquelicot Require Import Rcomplements Hierarchy Continuity Derive AutoDerive.
From Verif Require Import Base FieldModel DepositModel DepositSpec VelModel UnModel UnSpec UnProofs.
Import ListNotations.
Open Scope R_scope.

Lemma scales_ok l d p v s : read_scales l d p v = Ok s <-> 0 < l /\ 0 < d /\ 0 < p /\
  s = Scales l d p v ((d / l) * (d / l)) (1 / l) (1 / l) (p / v) (v / (p * (d * d))).
Proof.
  unfold read_scales. destruct (Rle_dec l 0); [split; [discriminate|lra]|]. destruct (Rle_dec d 0); [split; [discriminate|lra]|].
  destruct (Rle_dec p 0); [split; [discriminate|lra]|]. split; [intros H; injection H as <-|intros (_ & _ & _ & ->)]; repeat split; lra.
Qed.

(** One form of the update for all the kernels. *)
Lemma mink_is l d p v s dt ext E J : read_scales l d p v = Ok s -> 0 < v ->
  mink_currents s dt ext E J = (E - dt * (l / (d * d)) * (J / p + ext), J / p + ext).
Proof.
  intros H Hv. apply scales_ok in H. destruct H as (Hl & Hd & Hp & ->). unfold mink_currents, mink_coeff.
  cbn [q0 B0 V0 ppc0]. f_equal; field; repeat split; lra.
Qed.
Lemma sr_is l d p v s dt a E J : read_scales l d p v = Ok s -> 0 < v -> 0 < a ->
  sr_currents s dt a E J = (E - dt * (l / (d * d)) * (J / a / (p / v)), J / a / (p / v)).
Proof.
  intros H Hv Ha. apply scales_ok in H. destruct H as (Hl & Hd & Hp & ->). unfold sr_currents, sr_coeff.
  cbn [q0 B0 V0 ppc0 n0]. f_equal; field; repeat split; lra.
Qed.
Lemma gr_is l d p v s dt a E J : read_scales l d p v = Ok s -> 0 < v -> 0 < a ->
  gr_currents s dt a E J = E - dt * (l / (d * d)) * (J / a / (p / v)).
Proof.
  intros H Hv Ha. apply scales_ok in H. destruct H as (Hl & Hd & Hp & ->). unfold gr_currents, gr_coeff.
  cbn [q0 B0 V0 ppc0 n0]. field; repeat split; lra.
Qed.

Theorem mean_field l d p v s o g third dt ps cs E X c : read_scales l d p v = Ok s -> 0 < v -> (o <= 11)%nat -> (o <> 0%nat -> third = 1 / 3) ->
  List.Forall (fun p => (1 <= length (mvs p) <= 3)%nat /\ List.Forall short_move (mvs p)) ps ->
  Permutation cs (flat_map (deposit g o third (1 / dt)) ps) -> NoDup X -> List.Forall (fun t => In (snd (fst t)) X) cs ->
  sumf (fun x => fst (mink_currents s dt 0 (E x) (scatter cs (fun _ _ => 0) c x))) X
  = sumf E X - dt * (l / (d * d)) * (flux (1 / dt) c ps / p).
Proof.
  intros H Hv Ho H3 F P N I.
  rewrite (sumf_ext _ (fun x => E x + (- dt * (l / (d * d)) / p) * scatter cs (fun _ _ => 0) c x)).
  - rewrite sumf_plus, sumf_scal, (total_current o g third (1 / dt) ps cs) by assumption. rewrite (sumf_zero (fun _ => 0)) by reflexivity.
    apply scales_ok in H. field. lra.
  - intros x _. rewrite (mink_is l d p v) by assumption. cbn [fst]. apply scales_ok in H. field. lra.
Qed.

(** Electric force. *)
Lemma boris_free h u e : boris h u e (0, 0, 0) = vadd u (vscale (2 * h) e).
Proof.
  unfold boris. cbv zeta. set (c := h * _). assert (B : vscale c (0, 0, 0) = (0, 0, 0)).
  { unfold vscale, v1, v2, v3. cbn [fst snd]. rewrite !Rmult_0_r. reflexivity. }
  rewrite B. set (w := vscale (2 / _) _). clearbody w. clear B c. destruct w as [[w1 w2] w3], u as [[u1 u2] u3], e as [[e1 e2] e3].
  unfold vadd, vscale, cross, v1, v2, v3. cbn [fst snd]. f_equal; [f_equal|]; ring.
Qed.
Lemma kick l d p v s dt q m u e : read_scales l d p v = Ok s -> m <> 0 ->
  push s dt q m u e (0, 0, 0) = vadd u (vscale (q / m * (dt / l)) e).
Proof.
  intros H Hm. apply scales_ok in H. destruct H as (Hl & Hd & Hp & ->). unfold push, normalized_dt_half. cbn [omegaB0].
  rewrite boris_free. set (h := 1 / 2 * (q / m) * (1 / l) * dt). replace (q / m * (dt / l)) with (2 * h) by (unfold h; field; lra).
  reflexivity.
Qed.

(** Velocity along one axis. *)
Definition vel (x : R) : R := x / sqrt (1 + x * x).
Lemma vel_is x : v1 (velocity (x, 0, 0)) = vel x.
Proof.
  unfold velocity, vel, u2gamma, norm_sqr, vscale, v1, v2, v3. cbn [fst snd].
  replace (1 + (x * x + 0 * 0 + 0 * 0)) with (1 + x * x) by ring. unfold Rdiv. ring.
Qed.
Lemma vel_derive x : is_derive vel x (1 / cubed (sqrt (1 + x * x))).
Proof.
  assert (P : 0 < 1 + x * x) by (pose proof (Rle_0_sqr x) as Q; unfold Rsqr in Q; lra).
  assert (S : 0 < sqrt (1 + x * x)) by now apply sqrt_lt_R0.
  unfold vel. auto_derive; [repeat split; lra|].
  assert (Q : sqrt (1 + x * x) * sqrt (1 + x * x) = 1 + x * x) by (apply sqrt_sqrt; lra).
  unfold cubed. set (r := sqrt (1 + x * x)) in *. unfold Rdiv.
  assert (X : x * x = r * r - 1) by lra.
  field_simplify; try lra. apply Rmult_eq_reg_r with (r * r * r); [|apply Rgt_not_eq; repeat apply Rmult_lt_0_compat; lra].
  field_simplify; try lra.
Qed.
Lemma vel_step a b : exists x, Rmin a b <= x <= Rmax a b /\ vel b - vel a = 1 / cubed (sqrt (1 + x * x)) * (b - a).
Proof.
  destruct (MVT_gen vel a b (fun x => 1 / cubed (sqrt (1 + x * x)))) as (x & Hx & E).
  - intros x _. apply vel_derive.
  - intros x _. apply derivable_continuous_pt. exists (1 / cubed (sqrt (1 + x * x))). apply is_derive_Reals, vel_derive.
  - exists x. split; [exact Hx|exact E].
Qed.

Lemma fst_pair {A B} (a : A) (b : B) : fst (a, b) = a.
Proof. reflexivity. Qed.
Lemma snd_pair {A B} (a : A) (b : B) : snd (a, b) = b.
Proof. reflexivity. Qed.

Theorem oscillation l d p v s dt E0 st0 E1 st1 E2 st2 : read_scales l d p v = Ok s -> 0 < v ->
  List.Forall (fun ku => mss (fst ku) <> 0) st0 ->
  plasma_step s dt (E0, st0) = (E1, st1) -> plasma_step s dt (E1, st1) = (E2, st2) ->
  exists xs, Forall2 (fun kk x => Rmin (snd (fst kk)) (snd (snd kk)) <= x <= Rmax (snd (fst kk)) (snd (snd kk))) (combine st1 st2) xs
    /\ E2 - 2 * E1 + E0 = - dt * dt / (d * d) * E1
         * sumf (fun kx => dens (fst (fst kx)) * (chg (fst (fst kx)) * chg (fst (fst kx)) / mss (fst (fst kx))) / cubed (sqrt (1 + snd kx * snd kx))) (combine st1 xs).
Proof.
  intros H Hv Hm S0 S1. unfold plasma_step in S0, S1. cbn [fst snd] in S0, S1.
  pose proof (f_equal fst S0) as A0. pose proof (f_equal snd S0) as B0. pose proof (f_equal fst S1) as A1. pose proof (f_equal snd S1) as B1.
  rewrite snd_pair in B0, B1. rewrite fst_pair in A0, A1. rewrite (snd_pair E1) in B0. rewrite (snd_pair E2) in B1. rewrite (fst_pair E1) in A0. rewrite (fst_pair E2) in A1.
  rewrite B0 in A0. rewrite B1 in A1. clear S0 S1.
  assert (Hm1 : List.Forall (fun ku => mss (fst ku) <> 0) st1).
  { rewrite <- B0. apply Forall_forall. intros ku I. apply in_map_iff in I. destruct I as (k & <- & I). rewrite Forall_forall in Hm. cbn [fst]. exact (Hm _ I). }
  clear B0 Hm st0. rewrite (mink_is l d p v) in A0, A1 by assumption. cbn [fst] in A0, A1.
  assert (Pp : ppc0 s = p) by (apply scales_ok in H; destruct H as (_ & _ & _ & ->); reflexivity).
  assert (Hp : 0 < p /\ 0 < d /\ 0 < l) by (apply scales_ok in H; tauto).
  assert (G : exists xs, Forall2 (fun kk x => Rmin (snd (fst kk)) (snd (snd kk)) <= x <= Rmax (snd (fst kk)) (snd (snd kk))) (combine st1 st2) xs
     /\ drive s st2 - drive s st1 = p * (dt / l) * E1
         * sumf (fun kx => dens (fst (fst kx)) * (chg (fst (fst kx)) * chg (fst (fst kx)) / mss (fst (fst kx))) / cubed (sqrt (1 + snd kx * snd kx))) (combine st1 xs)).
  { clear A0 A1. revert st2 B1 Hm1. induction st1 as [|[k u] st1 IH]; intros st2 B1 Hm1.
    - subst st2. exists []. split; [constructor|]. cbn. ring.
    - cbn [map] in B1. destruct st2 as [|[k' u'] st2]; [discriminate|]. injection B1 as <- U B1. cbn [fst snd] in *.
      apply Forall_cons_iff in Hm1. destruct Hm1 as [Hk Hm1]. cbn [fst] in Hk. destruct (IH st2 B1 Hm1) as (xs & F & D).
      rewrite (kick l d p v s dt _ _ _ _ H Hk) in U. unfold vadd, vscale, v1, v2, v3 in U. cbn [fst snd] in U.
      destruct (vel_step u u') as (x & Hx & V). exists (x :: xs). split; [constructor; [exact Hx|exact F]|].
      unfold drive in *. cbn [sumf combine fst snd]. rewrite !vel_is, Pp in *.
      assert (V' : vel u' - vel u = 1 / cubed (sqrt (1 + x * x)) * (chg k / mss k * (dt / l) * E1)) by (rewrite V, <- U; ring).
      transitivity (p * dens k * chg k * (vel u' - vel u) + (sumf (fun ku => p * dens (fst ku) * chg (fst ku) * v1 (velocity (snd ku, 0, 0))) st2
        - sumf (fun ku => p * dens (fst ku) * chg (fst ku) * v1 (velocity (snd ku, 0, 0))) st1)); [ring|].
      rewrite D, V'. unfold Rdiv. ring. }
  destruct G as (xs & F & D). exists xs. split; [exact F|].
  transitivity (- dt * (l / (d * d)) / p * (drive s st2 - drive s st1)).
  - rewrite <- A1, <- A0. field. lra.
  - rewrite D. field. lra.
Qed.

(** Gyration. *)
Theorem gyration l d p v s dt q m u b : read_scales l d p v = Ok s -> m <> 0 ->
  push s dt q m u (0, 0, 0) (0, 0, b) = turn (2 * atan (1 / 2 * (q / m) * b * dt / (l * u2gamma u))) u.
Proof.
  intros H Hm. apply scales_ok in H. destruct H as (Hl & Hd & Hp & ->).
  destruct u as [[u1 u2] u3]. unfold push, normalized_dt_half. cbn [omegaB0]. set (h := 1 / 2 * (q / m) * (1 / l) * dt).
  assert (G : 0 < u2gamma (u1, u2, u3)).
  { unfold u2gamma. apply sqrt_lt_R0. unfold norm_sqr, v1, v2, v3. cbn [fst snd].
    pose proof (Rle_0_sqr u1). pose proof (Rle_0_sqr u2). pose proof (Rle_0_sqr u3). unfold Rsqr in *. lra. }
  set (tau := 1 / 2 * (q / m) * b * dt / (l * u2gamma (u1, u2, u3))).
  assert (T : h * (1 / u2gamma (u1, u2, u3)) * b = tau) by (unfold h, tau; field; lra).
  assert (P : 0 < 1 + tau * tau) by (pose proof (Rle_0_sqr tau) as Q; unfold Rsqr in Q; lra).
  assert (C : cos (2 * atan tau) = (1 - tau * tau) / (1 + tau * tau) /\ sin (2 * atan tau) = 2 * tau / (1 + tau * tau)).
  { assert (R : sqrt (1 + tau * tau) * sqrt (1 + tau * tau) = 1 + tau * tau) by (apply sqrt_sqrt; lra).
    assert (R0 : 0 < sqrt (1 + tau * tau)) by now apply sqrt_lt_R0.
    rewrite cos_2a, sin_2a, cos_atan, sin_atan. unfold Rsqr. set (r := sqrt (1 + tau * tau)) in *. rewrite <- R. split.
    - field. lra.
    - field. lra. }
  destruct C as [C S]. unfold turn. rewrite C, S. unfold boris.
  assert (Z0 : vadd (u1, u2, u3) (vscale h (0, 0, 0)) = (u1, u2, u3)).
  { unfold vadd, vscale, v1, v2, v3. cbn [fst snd]. rewrite !Rmult_0_r, !Rplus_0_r. reflexivity. }
  rewrite Z0. change (sqrt (1 + norm_sqr (u1, u2, u3))) with (u2gamma (u1, u2, u3)).
  assert (B : vscale (h * (1 / u2gamma (u1, u2, u3))) (0, 0, b) = (0, 0, tau)).
  { unfold vscale, v1, v2, v3. cbn [fst snd]. rewrite T, !Rmult_0_r. reflexivity. }
  cbv zeta. rewrite B. unfold vadd, vscale, cross, norm_sqr, v1, v2, v3. cbn [fst snd].
  replace (1 + (0 * 0 + 0 * 0 + tau * tau)) with (1 + tau * tau) by ring.
  f_equal; [f_equal|]; field; lra.
Qed.
Theorem frequency l g q m b : l * g <> 0 -> is_derive (fun dt => 2 * atan (1 / 2 * (q / m) * b * dt / (l * g))) 0 (q / m * b / (l * g)).
Proof.
  intros H. assert (H' : l <> 0 /\ g <> 0) by (split; intros E; apply H; rewrite E; ring).
  set (k := 1 / 2 * (q / m) * b / (l * g)). apply (is_derive_ext (fun dt => 2 * atan (k * dt))).
  - intros t. unfold k. f_equal. f_equal. unfold Rdiv. ring.
  - replace (q / m * b / (l * g)) with (2 * (k * / (1 + (k * 0) * (k * 0)))).
    + auto_derive; [exact I|]. rewrite ?Rmult_0_r, ?Rmult_0_l, ?Rplus_0_r, ?Rinv_1. ring.
    + replace (1 + k * 0 * (k * 0)) with 1 by ring. unfold k, Rdiv. rewrite Rinv_1. lra.
Qed.

(** Energy. *)
Theorem power l d p v s dt e st : read_scales l d p v = Ok s -> 0 < v -> List.Forall (fun k => mss (fst (fst k)) <> 0) st ->
  sigma0 s * (e * (fst (mink_currents s dt 0 e (sumf (fun k => p * dens (fst (fst k)) * chg (fst (fst k)) * snd k) st)) - e))
  + sumf (fun k => dens (fst (fst k)) * mss (fst (fst k))
                   * (snd k * (v1 (push s dt (chg (fst (fst k))) (mss (fst (fst k))) (snd (fst k), 0, 0) (e, 0, 0) (0, 0, 0)) - snd (fst k)))) st = 0.
Proof.
  intros H Hv Hm. rewrite (mink_is l d p v) by assumption. cbn [fst].
  assert (Sg : sigma0 s = (d / l) * (d / l)) by (apply scales_ok in H; destruct H as (_ & _ & _ & ->); reflexivity).
  assert (Hp : 0 < p /\ 0 < d /\ 0 < l) by (apply scales_ok in H; tauto). rewrite Sg.
  assert (G : sumf (fun k => dens (fst (fst k)) * mss (fst (fst k))
                   * (snd k * (v1 (push s dt (chg (fst (fst k))) (mss (fst (fst k))) (snd (fst k), 0, 0) (e, 0, 0) (0, 0, 0)) - snd (fst k)))) st
     = dt / l * e / p * sumf (fun k => p * dens (fst (fst k)) * chg (fst (fst k)) * snd k) st).
  { rewrite <- sumf_scal. apply sumf_ext. intros [[k u] w] I. rewrite Forall_forall in Hm. specialize (Hm _ I). cbn [fst snd] in *.
    rewrite (kick l d p v) by assumption. unfold vadd, vscale, v1, v2, v3. cbn [fst snd]. field. lra. }
  rewrite G. field. lra.
Qed.

Theorem read_ok l d p v : (exists s, read_scales l d p v = Ok s) <-> 0 < l /\ 0 < d /\ 0 < p.
Proof.
  split; [intros [s H]; apply scales_ok in H; tauto|].
  intros H. eexists. apply scales_ok. repeat split; try tauto.
Qed.
Theorem sigma_is l d p v s : read_scales l d p v = Ok s -> sigma0 s = (1 / l) * (1 / l) / wp2 d [Kind 1 1 1].
Proof.
  intros H. apply scales_ok in H. destruct H as (Hl & Hd & Hp & ->). cbn [sigma0]. unfold wp2. cbn [sumf dens chg mss]. field. lra.
Qed.
Theorem engines l d p v s dt a E J : read_scales l d p v = Ok s -> 0 < v -> 0 < a ->
  mink_currents s dt 0 E J = (E - dt * (l / (d * d)) * (J / v / (p / v)), J / v / (p / v))
  /\ sr_currents s dt a E J = (E - dt * (l / (d * d)) * (J / a / (p / v)), J / a / (p / v))
  /\ gr_currents s dt a E J = E - dt * (l / (d * d)) * (J / a / (p / v)).
Proof.
  intros H Hv Ha. split; [|split; [now apply sr_is|now apply gr_is]]. rewrite (mink_is l d p v) by assumption.
  apply scales_ok in H. f_equal; field; lra.
Qed.
Theorem external l d p v s dt j E J : read_scales l d p v = Ok s -> 0 < v ->
  mink_currents s dt j E J = mink_currents s dt 0 E (J + p * j) /\ snd (mink_currents s dt j E J) = J / p + j.
Proof.
  intros H Hv. rewrite !(mink_is l d p v) by assumption. apply scales_ok in H. split; [f_equal; field; lra|reflexivity].
Qed.
Theorem larmor l u : 0 < l -> v3 u = 0 -> norm_sqr u = 1 ->
  sqrt (norm_sqr (velocity u)) / (1 / 1 * 1 / (l * u2gamma u)) = l.
Proof.
  intros Hl H3 N.
  assert (G : 0 < u2gamma u) by (unfold u2gamma; apply sqrt_lt_R0; lra).
  assert (V : norm_sqr (velocity u) = (1 / u2gamma u) * (1 / u2gamma u)).
  { unfold velocity. set (k := 1 / u2gamma u). clearbody k. transitivity (k * k * norm_sqr u); [|rewrite N; ring].
    destruct u as [[a b] c]. unfold norm_sqr, vscale, v1, v2, v3. cbn [fst snd]. ring. }
  rewrite V, sqrt_square; [field; lra|]. left. apply Rdiv_lt_0_compat; lra.
Qed.
Theorem plasma_frequency l d p v s dt E0 st0 E1 st1 E2 st2 : read_scales l d p v = Ok s -> 0 < v ->
  List.Forall (fun ku => mss (fst ku) <> 0) st0 ->
  plasma_step s dt (E0, st0) = (E1, st1) -> plasma_step s dt (E1, st1) = (E2, st2) ->
  exists xs, Forall2 (fun kk x => Rmin (snd (fst kk)) (snd (snd kk)) <= x <= Rmax (snd (fst kk)) (snd (snd kk))) (combine st1 st2) xs
    /\ E2 - 2 * E1 + E0 = - (dt * dt) * E1
         * wp2 d (map (fun kx => let '(k, u, x) := kx in Kind (dens k) (chg k) (mss k * cubed (sqrt (1 + x * x)))) (combine st1 xs)).
Proof.
  intros H Hv Hm S0 S1. destruct (oscillation l d p v s dt E0 st0 E1 st1 E2 st2 H Hv Hm S0 S1) as (xs & F & D).
  assert (Hm1 : List.Forall (fun ku => mss (fst ku) <> 0) st1).
  { apply (f_equal snd) in S0. unfold plasma_step in S0. cbn [fst snd] in S0. rewrite <- S0. apply Forall_forall. intros ku I.
    apply in_map_iff in I. destruct I as (k & <- & I). rewrite Forall_forall in Hm. cbn [fst]. exact (Hm _ I). }
  exists xs. split; [exact F|]. rewrite D. unfold wp2. clear F D S0 S1.
  assert (Hd : 0 < d) by (apply scales_ok in H; tauto).
  assert (G : sumf (fun kx => dens (fst (fst kx)) * (chg (fst (fst kx)) * chg (fst (fst kx)) / mss (fst (fst kx))) / cubed (sqrt (1 + snd kx * snd kx))) (combine st1 xs)
    = sumf (fun k => dens k * (chg k * chg k / mss k)) (map (fun kx => let '(k, u, x) := kx in Kind (dens k) (chg k) (mss k * cubed (sqrt (1 + x * x)))) (combine st1 xs))).
  { revert xs. induction st1 as [|[k u] r IH]; intros xs; [reflexivity|]. destruct xs as [|x xs]; [reflexivity|].
    apply Forall_cons_iff in Hm1. destruct Hm1 as [Hk Hr]. cbn [combine map sumf fst snd dens chg mss] in *. rewrite IH by exact Hr. f_equal.
    assert (S : 0 < sqrt (1 + x * x)). { apply sqrt_lt_R0. pose proof (Rle_0_sqr x) as Q. unfold Rsqr in Q. lra. }
    unfold cubed. field. lra. }
  rewrite G. field. lra.
Qed.
