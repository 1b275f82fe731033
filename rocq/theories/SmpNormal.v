(** The pair (R cos, R sin) of Box and Muller has the density of two independent normal numbers, in polar coordinates. *)
From Coq Require Import Reals Lra.
From Coquelicot Require Import Hierarchy Derive RInt RInt_analysis AutoDerive Continuity.
From Verif Require Import VelModel SmpModel SmpSpec SmpProofs SmpTop.
Open Scope R_scope.

Lemma phi2 r t : normal_density (r * cos t) * normal_density (r * sin t) * r = r * exp (- (r * r) / 2) / (2 * PI).
Proof.
  unfold normal_density.
  replace (- (r * r) / 2) with (- (r * cos t * (r * cos t)) / 2 + - (r * sin t * (r * sin t)) / 2).
  2: { pose proof (sin2_cos2 t) as H. unfold Rsqr in H. replace (r * r) with (r * r * (sin t * sin t + cos t * cos t)) by (rewrite H; ring). field. }
  rewrite exp_plus. pose proof PI_RGT_0 as P. assert (S : sqrt (2 * PI) * sqrt (2 * PI) = 2 * PI) by (apply sqrt_sqrt; lra).
  assert (N : sqrt (2 * PI) <> 0) by (intros Z; rewrite Z in S; lra).
  replace (2 * PI) with (sqrt (2 * PI) * sqrt (2 * PI)) at 3 by exact S. field. exact N.
Qed.
Lemma inner_int (r a b : R) : is_RInt (fun t : R => normal_density (r * cos t) * normal_density (r * sin t) * r) a b ((b - a) * (r * exp (- (r * r) / 2) / (2 * PI))).
Proof.
  apply (is_RInt_ext (fun _ : R => r * exp (- (r * r) / 2) / (2 * PI))); [intros t _; symmetry; apply phi2|].
  pose proof (is_RInt_const (V := R_NormedModule) a b (r * exp (- (r * r) / 2) / (2 * PI))) as H. exact H.
Qed.
Lemma outer_int (r r' a b : R) :
  is_RInt (fun x : R => (b - a) * (x * exp (- (x * x) / 2) / (2 * PI))) r r' ((exp (- (r * r) / 2) - exp (- (r' * r') / 2)) * ((b - a) / (2 * PI))).
Proof.
  pose proof PI_RGT_0 as P.
  replace ((exp (- (r * r) / 2) - exp (- (r' * r') / 2)) * ((b - a) / (2 * PI)))
    with (minus (- (exp (- (r' * r') / 2)) * ((b - a) / (2 * PI))) (- (exp (- (r * r) / 2)) * ((b - a) / (2 * PI)))) by (unfold minus, plus, opp; cbn; ring).
  apply (is_RInt_derive (fun x : R => - (exp (- (x * x) / 2)) * ((b - a) / (2 * PI)))).
  - intros x _. auto_derive; [exact I|]. unfold Rdiv. field. lra.
  - intros x _. assert (E : ex_derive (fun x : R => (b - a) * (x * exp (- (x * x) / 2) / (2 * PI))) x) by (auto_derive; exact I).
    exact (ex_derive_continuous (fun x : R => (b - a) * (x * exp (- (x * x) / 2) / (2 * PI))) x E).
Qed.
Theorem box_muller r r' a b : 0 <= r < r' -> 0 <= a < b /\ b <= 2 * PI ->
  exists lo hi lo' hi' inner, (0 <= lo <= hi /\ hi <= 1) /\ (0 <= lo' <= hi' /\ hi' <= 1)
    /\ (forall x1 x2, 0 < x1 < 1 -> 0 <= x2 < 1 ->
         (r < sqrt (-2 * ln x1) <= r' /\ a < 2 * PI * x2 <= b) <-> (lo <= x1 < hi /\ lo' < x2 <= hi'))
    /\ (forall x : R, is_RInt (fun t : R => normal_density (x * cos t) * normal_density (x * sin t) * x) a b (inner x))
    /\ is_RInt inner r r' ((hi - lo) * (hi' - lo')).
Proof.
  intros Hr Ha. pose proof PI_RGT_0 as P.
  exists (exp (- (r' * r') / 2)), (exp (- (r * r) / 2)), (a / (2 * PI)), (b / (2 * PI)), (fun x => (b - a) * (x * exp (- (x * x) / 2) / (2 * PI))).
  assert (Q : r * r <= r' * r') by (apply Rmult_le_compat; lra). assert (Q0 : 0 <= r * r) by (apply Rmult_le_pos; lra).
  split; [split; [split; [left; apply exp_pos|]|]|split; [|split; [|split]]].
  - destruct (Req_dec (r * r) (r' * r')) as [->|N]; [lra|]. left. apply exp_increasing. lra.
  - rewrite <- exp_0. destruct (Req_dec (r * r) 0) as [E|N]; [rewrite E; replace (- 0 / 2) with 0 by field; lra|]. left. apply exp_increasing. lra.
  - assert (I : 0 < / (2 * PI)) by (apply Rinv_0_lt_compat; lra). assert (E : 2 * PI * / (2 * PI) = 1) by (apply Rinv_r; lra). unfold Rdiv. repeat split.
    + apply Rmult_le_pos; lra.
    + apply Rmult_le_compat_r; lra.
    + rewrite <- E. apply Rmult_le_compat_r; lra.
  - intros x1 x2 H1 H2. pose proof (rayleigh x1 r H1 (proj1 Hr)) as A. pose proof (rayleigh x1 r' H1 ltac:(lra)) as B.
    assert (A' : r < sqrt (-2 * ln x1) <-> x1 < exp (- (r * r) / 2)).
    { split; intros H; apply Rnot_le_lt; intros K; apply A in K; lra. }
    assert (C : a < 2 * PI * x2 <-> a / (2 * PI) < x2).
    { replace (2 * PI * x2) with (x2 * (2 * PI)) by ring. split; intros H.
      - apply (Rmult_lt_reg_r (2 * PI)); [lra|]. unfold Rdiv. rewrite Rmult_assoc, Rinv_l by lra. lra.
      - apply (Rmult_lt_compat_r (2 * PI)) in H; [|lra]. unfold Rdiv in H. rewrite Rmult_assoc, Rinv_l in H by lra. lra. }
    assert (D : 2 * PI * x2 <= b <-> x2 <= b / (2 * PI)).
    { replace (2 * PI * x2) with (x2 * (2 * PI)) by ring. split; intros H.
      - apply (Rmult_le_reg_r (2 * PI)); [lra|]. unfold Rdiv. rewrite Rmult_assoc, Rinv_l by lra. lra.
      - apply (Rmult_le_compat_r (2 * PI)) in H; [|lra]. unfold Rdiv in H. rewrite Rmult_assoc, Rinv_l in H by lra. lra. }
    tauto.
  - intros x. apply inner_int.
  - replace (b / (2 * PI) - a / (2 * PI)) with ((b - a) / (2 * PI)) by (field; lra). apply outer_int.
Qed.
