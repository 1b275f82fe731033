(** Proofs for radiation. *)
From Coq Require Import Reals Lra Lia Bool Psatz.
From Coquelicot Require Import Rcomplements Hierarchy RInt.
From Verif Require Import VelModel VelSpec VelProofs EmitModel EmitSpec EmitProofs RdModel RdSpec.
Open Scope R_scope.

Lemma step_mean (p a c : R) : 0 <= p <= 1 -> is_RInt (fun x => if lt_b x p then a else c) 0 1 (p * a + (1 - p) * c).
Proof.
  intros H. apply (is_RInt_Chasles (V := R_NormedModule) _ 0 p 1 (p * a) ((1 - p) * c)).
  - apply (is_RInt_ext (V := R_NormedModule) (fun _ => a)).
    + intros x Hx. rewrite Rmin_left, Rmax_right in Hx by lra. rewrite lt_b_yes; [reflexivity|lra].
    + replace (p * a) with (scal (p - 0) a) by (unfold scal; cbn; unfold mult; cbn; ring). apply (is_RInt_const (V := R_NormedModule)).
  - apply (is_RInt_ext (V := R_NormedModule) (fun _ => c)).
    + intros x Hx. rewrite Rmin_left, Rmax_right in Hx by lra. unfold lt_b. destruct (Rlt_dec x p); [lra|reflexivity].
    + apply (is_RInt_const (V := R_NormedModule)).
Qed.
Lemma step_mean_all (p a c : R) : 1 <= p -> is_RInt (fun x => if lt_b x p then a else c) 0 1 a.
Proof.
  intros H. apply (is_RInt_ext (V := R_NormedModule) (fun _ => a)).
  - intros x Hx. rewrite Rmin_left, Rmax_right in Hx by lra. rewrite lt_b_yes; [reflexivity|lra].
  - pose proof (is_RInt_const (V := R_NormedModule) 0 1 a) as K.
    replace (scal (1 - 0) (a : R_NormedModule)) with (a : R_NormedModule) in K by (unfold scal; cbn; unfold mult; cbn; ring). exact K.
Qed.

Lemma veq (a b : vec) : v1 a = v1 b -> v2 a = v2 b -> v3 a = v3 b -> a = b.
Proof. destruct a as [[? ?] ?], b as [[? ?] ?]. unfold v1, v2, v3. cbn. congruence. Qed.

(** The directions used are those of the drags. *)
Definition direction (k : process) (e b u : vec) : vec := match k with Synchrotron => syn_dir u e b | Compton => u end.
Definition stretch (k : process) (u : vec) : R := match k with Synchrotron => 1 | Compton => / lorentz u end.
Lemma lor_pos u : 0 < lorentz u.
Proof. exact (gamma_pos u). Qed.
Lemma lor_sq u : lorentz u * lorentz u = 1 + norm_sqr u.
Proof. exact (gamma_sq u). Qed.
Lemma stretch_pos k u : 0 < stretch k u.
Proof. destruct k; cbn; [lra|]. apply Rinv_0_lt_compat, lor_pos. Qed.
Lemma direction_is k e b u : direction k e b u = vscale (- stretch k u) (slowing k 1 e b u).
Proof.
  pose proof (lor_pos u) as G. pose proof (lor_sq u) as G2. destruct k; cbn [direction slowing stretch].
  - unfold syn_dir, synchrotron_change, syn_kappa, syn_chi2, syn_beta_e, syn_lorentz, VelSpec.velocity. rewrite <- G2.
    change (u2gamma u) with (lorentz u). set (g := lorentz u) in *.
    assert (X : vadd e (vscale (/ g) (cross u b)) = vadd e (cross (vscale (/ g) u) b)).
    { apply veq; unfold vadd, vscale, cross, v1, v2, v3; cbn [fst snd]; ring. }
    assert (Y : dot u e / g = dot (vscale (/ g) u) e).
    { unfold dot, vscale, v1, v2, v3, Rdiv; cbn [fst snd]; ring. }
    rewrite X, Y. set (f := vadd e _). set (be := dot _ e). clearbody f be. clear X Y.
    assert (Z : g * / g = 1) by (field; lra).
    apply veq; unfold vadd, vscale, cross, sub, v1, v2, v3; cbn [fst snd]; field; lra.
  - unfold compton_change, VelSpec.velocity. rewrite <- G2. set (g := lorentz u) in *.
    apply veq; unfold vscale, v1, v2, v3; cbn [fst snd]; field; lra.
Qed.

Lemma dot_scale k a b : dot (vscale k a) b = k * dot a b.
Proof. unfold dot, vscale, v1, v2, v3; cbn [fst snd]; ring. Qed.

Definition raw_prob (po : policy) (k : process) (e b u : vec) : R :=
  match k with Synchrotron => syn_prob po u e b | Compton => nom_prob po * sqrt (norm_sqr u / (1 + norm_sqr u)) end.
Lemma prob_is W dt r q m d k e b u : good r -> 0 < m -> 0 < norm_sqr u ->
  raw_prob (emission_policy W dt r q m d) k e b u = chance W dt q m r k e b u.
Proof.
  intros (Hg & Hq & Hp) Hm U. pose proof (norm_pos _ U) as N. pose proof (lor_pos u) as G. pose proof (lor_sq u) as G2.
  assert (A : Rabs (q / m) = Rabs q / m). { unfold Rdiv. rewrite Rabs_mult, (Rabs_right (/ m)); [reflexivity|]. left. now apply Rinv_0_lt_compat. }
  assert (D : raw_prob (emission_policy W dt r q m d) k e b u
     = nom_prob (emission_policy W dt r q m d) * (- dot (slowing k 1 e b u) u / (norm u * (1 + norm_sqr u)))).
  { destruct k; cbn [raw_prob].
    - rewrite syn_prob_dir by exact U. change (syn_dir u e b) with (direction Synchrotron e b u). rewrite direction_is, dot_scale.
      cbn [stretch]. f_equal. field. lra.
    - f_equal. cbn [slowing]. unfold compton_change, VelSpec.velocity. rewrite !dot_scale. change (dot u u) with (norm_sqr u).
      rewrite <- G2. rewrite sqrt_div_alt by nra. rewrite sqrt_square by lra. change (sqrt (norm_sqr u)) with (norm u).
      rewrite <- (norm_sq u). field. lra. }
  rewrite D. unfold chance. f_equal. cbn [nom_prob emission_policy]. rewrite A. unfold nominal_probability. field. lra.
Qed.

Lemma emission_is W dt r q m d k e b u rnd :
  match k with Synchrotron => synchrotron (emission_policy W dt r q m d) u e b rnd | Compton => compton (emission_policy W dt r q m d) u rnd end
  = decide (emission_policy W dt r q m d) u (direction k e b u) (raw_prob (emission_policy W dt r q m d) k e b u) rnd.
Proof. destruct k; reflexivity. Qed.

Lemma affordable_moves r u : good r -> affordable r u -> 0 < norm_sqr u.
Proof.
  intros (Hg & Hq & Hp) A. unfold affordable in A. pose proof (nsq_nonneg u) as N. destruct (Req_dec (norm_sqr u) 0) as [Z|Z]; [exfalso|lra].
  unfold lorentz in A. rewrite Z in A. replace (1 + 0) with 1 in A by ring. rewrite sqrt_1 in A.
  assert (0 < 1 / (gamma_qed r * gamma_qed r)) by (apply Rdiv_lt_0_compat; nra). lra.
Qed.
Lemma gate r m u : good r -> 0 < m ->
  ((1 + norm_sqr u) * (m * nominal_photon_energy r) < m * (sqrt (1 + norm_sqr u) - 1) * (2 / 10)) <-> affordable r u.
Proof.
  intros (Hg & Hq & Hp) Hm. unfold affordable, nominal_photon_energy. change (sqrt (1 + norm_sqr u)) with (lorentz u).
  replace ((1 + norm_sqr u) * (m * (1 / (gamma_qed r * gamma_qed r)))) with (m * ((1 + norm_sqr u) / (gamma_qed r * gamma_qed r))) by (field; lra).
  set (x := (1 + norm_sqr u) / (gamma_qed r * gamma_qed r)). split; intros H; nra.
Qed.

(** The velocity afterwards for one random number. *)
Lemma one W dt r q m d k e b u0 u w rnd gca sy co cs cc : good r -> 0 < m ->
  fst (radiate gca sy co cs cc (Some (k, emission_policy W dt r q m d)) e b u0 u w rnd)
  = if d && (lt_b rnd (raw_prob (emission_policy W dt r q m d) k e b (midpoint u0 u))
             && lt_b ((1 + norm_sqr (midpoint u0 u)) * (m * nominal_photon_energy r)) (m * (sqrt (1 + norm_sqr (midpoint u0 u)) - 1) * (2 / 10)))
    then vadd u (vscale (- photon_weight r * ((1 + norm_sqr (midpoint u0 u)) * (m * nominal_photon_energy r))
                  / (norm (direction k e b (midpoint u0 u)) * m)) (direction k e b (midpoint u0 u)))
    else u.
Proof.
  intros Hr Hm. unfold radiate. change (vscale (1 / 2) (vadd u0 u)) with (midpoint u0 u). cbv zeta. rewrite emission_is.
  unfold process_emission, decide. cbn [fst r_drag r_delta r_energy emission_policy ph_weight nom_energy p_mass should_drag]. reflexivity.
Qed.

Lemma delta_is r m k e b u : good r -> 0 < m -> 0 < norm (slowing k 1 e b u) ->
  vscale (- photon_weight r * ((1 + norm_sqr u) * (m * nominal_photon_energy r)) / (norm (direction k e b u) * m)) (direction k e b u)
  = vscale (photon_weight r * ((1 + norm_sqr u) / (gamma_qed r * gamma_qed r)) / norm (slowing k 1 e b u)) (slowing k 1 e b u).
Proof.
  intros (Hg & Hq & Hp) Hm N. rewrite direction_is. pose proof (stretch_pos k u) as S. rewrite norm_scale, Rabs_Ropp, (Rabs_right (stretch k u)) by lra.
  unfold nominal_photon_energy. set (n := norm (slowing k 1 e b u)) in *. set (s := stretch k u) in *. set (v := slowing k 1 e b u). clearbody n s v.
  apply veq; unfold vscale, v1, v2, v3; cbn [fst snd]; field; lra.
Qed.
Lemma delta_zero c k e b u : norm (slowing k 1 e b u) = 0 -> vscale c (direction k e b u) = (0, 0, 0) /\ slowing k 1 e b u = (0, 0, 0).
Proof.
  intros N. rewrite direction_is. assert (Z : norm_sqr (slowing k 1 e b u) = 0) by (rewrite <- norm_sq, N; ring).
  apply nsq_zero in Z. destruct Z as (Z1 & Z2 & Z3). assert (Z : slowing k 1 e b u = (0, 0, 0)) by (apply veq; assumption).
  rewrite Z. split; [|reflexivity]. unfold vscale, v1, v2, v3. cbn [fst snd]. rewrite !Rmult_0_r. reflexivity.
Qed.
Lemma slowing_scale k c e b u : slowing k c e b u = vscale c (slowing k 1 e b u).
Proof.
  destruct k; cbn [slowing].
  - unfold synchrotron_change. set (x := sub _ _). clearbody x. apply veq; unfold vscale, v1, v2, v3; cbn [fst snd]; ring.
  - unfold compton_change. apply veq; unfold vscale, v1, v2, v3; cbn [fst snd]; ring.
Qed.

(** Mean of the kick. *)
Lemma kick_mean W dt r q m k e b u : good r -> 0 < m -> 0 < norm_sqr u ->
  vscale (chance W dt q m r k e b u) (vscale (- photon_weight r * ((1 + norm_sqr u) * (m * nominal_photon_energy r)) / (norm (direction k e b u) * m)) (direction k e b u))
  = vscale (Rabs q * m * alignment k e b u) (slowing k (drag_coeff dt W (gamma_rad r) m) e b u).
Proof.
  intros Hr Hm U. pose proof (norm_pos _ U) as Nu. destruct (Req_dec (norm (slowing k 1 e b u)) 0) as [Z|Z].
  - rewrite (slowing_scale k (drag_coeff dt W (gamma_rad r) m)). destruct (delta_zero (- photon_weight r * ((1 + norm_sqr u) * (m * nominal_photon_energy r)) / (norm (direction k e b u) * m)) k e b u Z) as [A B].
    rewrite A, B. unfold vscale, v1, v2, v3. cbn [fst snd]. rewrite !Rmult_0_r. reflexivity.
  - assert (N : 0 < norm (slowing k 1 e b u)) by (pose proof (sqrt_pos (norm_sqr (slowing k 1 e b u))) as P; unfold norm in *; lra).
    rewrite delta_is, (slowing_scale k (drag_coeff dt W (gamma_rad r) m)) by assumption. destruct Hr as (Hg & Hq & Hp). unfold chance, alignment, drag_coeff.
    set (d := dot _ u). set (n := norm (slowing k 1 e b u)) in *. set (x := norm u) in *. set (v := slowing k 1 e b u). set (s := norm_sqr u) in *. clearbody d n x v.
    apply veq; unfold vscale, v1, v2, v3; cbn [fst snd]; field; repeat split; lra.
Qed.

Theorem mean_change gca sy co cs cc W dt r q m k e b u0 u w : good r -> 0 < m -> affordable r (midpoint u0 u) ->
  0 <= chance W dt q m r k e b (midpoint u0 u) <= 1 ->
  mean (fun rnd => fst (radiate gca sy co cs cc (Some (k, emission_policy W dt r q m true)) e b u0 u w rnd))
       (vadd u (vscale (Rabs q * m * alignment k e b (midpoint u0 u)) (slowing k (drag_coeff dt W (gamma_rad r) m) e b (midpoint u0 u)))).
Proof.
  intros Hr Hm A P. pose proof (affordable_moves _ _ Hr A) as U. rewrite <- (kick_mean W dt r q m k e b _ Hr Hm U).
  set (D := vscale (- photon_weight r * _ / _) _). set (p := chance _ _ _ _ _ _ _ _ _) in *.
  assert (F : forall rnd, fst (radiate gca sy co cs cc (Some (k, emission_policy W dt r q m true)) e b u0 u w rnd) = if lt_b rnd p then vadd u D else u).
  { intros rnd. rewrite one by assumption. rewrite prob_is by assumption. fold p. fold D. rewrite (lt_b_yes (_ * _)) by now apply gate.
    cbn [andb]. now rewrite andb_true_r. }
  unfold mean. repeat split; [set (c := v1)|set (c := v2)|set (c := v3)];
    (apply (is_RInt_ext (V := R_NormedModule) (fun rnd => if lt_b rnd p then c u + c D else c u));
     [intros x _; rewrite F; destruct (lt_b x p); reflexivity|]);
    (replace (c (vadd u (vscale p D))) with (p * (c u + c D) + (1 - p) * c u) by (unfold c, vadd, vscale, v1, v2, v3; cbn [fst snd]; ring));
    now apply step_mean.
Qed.

Theorem mean_saturated gca sy co cs cc W dt r q m k e b u0 u w : good r -> 0 < m -> affordable r (midpoint u0 u) ->
  1 <= chance W dt q m r k e b (midpoint u0 u) ->
  mean (fun rnd => fst (radiate gca sy co cs cc (Some (k, emission_policy W dt r q m true)) e b u0 u w rnd))
       (vadd u (vscale (Rabs q * m * alignment k e b (midpoint u0 u) / chance W dt q m r k e b (midpoint u0 u))
                       (slowing k (drag_coeff dt W (gamma_rad r) m) e b (midpoint u0 u)))).
Proof.
  intros Hr Hm A P. pose proof (affordable_moves _ _ Hr A) as U. pose proof (kick_mean W dt r q m k e b _ Hr Hm U) as K.
  set (D := vscale (- photon_weight r * _ / _) _) in K. set (p := chance _ _ _ _ _ _ _ _ _) in *.
  set (S := slowing _ _ _ _ _) in *. set (a := Rabs q * m * _) in *.
  assert (E : vscale (a / p) S = D).
  { transitivity (vscale (/ p) (vscale a S)); [apply veq; unfold vscale, v1, v2, v3, Rdiv; cbn [fst snd]; ring|].
    rewrite <- K. apply veq; unfold vscale, v1, v2, v3; cbn [fst snd]; field; lra. }
  rewrite E.
  assert (F : forall rnd, fst (radiate gca sy co cs cc (Some (k, emission_policy W dt r q m true)) e b u0 u w rnd) = if lt_b rnd p then vadd u D else u).
  { intros rnd. rewrite one by assumption. rewrite prob_is by assumption. fold p. fold D. rewrite (lt_b_yes (_ * _)) by now apply gate.
    cbn [andb]. now rewrite andb_true_r. }
  unfold mean. repeat split; [set (c := v1)|set (c := v2)|set (c := v3)];
    (apply (is_RInt_ext (V := R_NormedModule) (fun rnd => if lt_b rnd p then c (vadd u D) else c u));
     [intros x _; rewrite F; destruct (lt_b x p); reflexivity|now apply step_mean_all]).
Qed.
