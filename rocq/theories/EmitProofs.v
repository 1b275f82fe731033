From Coq Require Import Reals Lra Lia Bool Psatz.
From Verif Require Import VelModel VelProofs EmitModel EmitSpec.
Open Scope R_scope.

Lemma lt_b_true a b : lt_b a b = true -> a < b.
Proof. unfold lt_b. destruct (Rlt_dec a b); congruence || auto. Qed.
Lemma le_b_true a b : le_b a b = true -> a <= b.
Proof. unfold le_b. destruct (Rle_dec a b); congruence || auto. Qed.

Lemma nsq_nonneg a : 0 <= norm_sqr a.
Proof. unfold norm_sqr. nra. Qed.
Lemma norm_pos a : 0 < norm_sqr a -> 0 < norm a.
Proof. intros H. apply sqrt_lt_R0. auto. Qed.
Lemma nsq_zero a : norm_sqr a = 0 -> v1 a = 0 /\ v2 a = 0 /\ v3 a = 0.
Proof. unfold norm_sqr. intros H. repeat split; nra. Qed.
Lemma norm_sq a : norm a * norm a = norm_sqr a.
Proof. apply sqrt_sqrt. apply nsq_nonneg. Qed.
Lemma norm_scale k a : norm (vscale k a) = Rabs k * norm a.
Proof.
  unfold norm. replace (norm_sqr (vscale k a)) with (k * k * norm_sqr a) by (unfold norm_sqr, vscale, v1, v2, v3; simpl; ring).
  rewrite sqrt_mult_alt by nra. replace (k * k) with (Rsqr k) by reflexivity. rewrite sqrt_Rsqr_abs. auto.
Qed.

Lemma conserved po u dir pr rnd ux w ph : sensible po -> should_drag po = true -> 0 < norm_sqr dir ->
  snd (process_emission po (decide po u dir pr rnd) ux w) = Some ph ->
  vadd (momentum (p_mass po) w (fst (process_emission po (decide po u dir pr rnd) ux w))) (photon_momentum ph) =
    momentum (p_mass po) w ux /\
  norm (fst ph) = r_energy (decide po u dir pr rnd) /\ fst ph = vscale (r_energy (decide po u dir pr rnd) / norm dir) dir.
Proof.
  intros (Hw & He & Hp & Hm) D N. unfold process_emission. cbn [fst snd].
  destruct (r_emit _) eqn:E; [|discriminate]. intros X. injection X as <-.
  assert (DR : r_drag (decide po u dir pr rnd) = true).
  { unfold decide in *. cbn [r_emit r_drag] in *. rewrite D. apply andb_prop in E as [E _]. rewrite E. auto. }
  rewrite DR. unfold decide. cbn [r_delta r_energy]. set (e := (1 + norm_sqr u) * nom_energy po).
  assert (E0 : 0 < e). { unfold e. pose proof (nsq_nonneg u). nra. }
  pose proof (norm_pos _ N) as ND. set (n := norm dir) in *.
  set (k := - ph_weight po * e / (n * p_mass po)).
  assert (K : k < 0).
  { unfold k. unfold Rdiv. assert (I : 0 < / (n * p_mass po)) by (apply Rinv_0_lt_compat; apply Rmult_lt_0_compat; auto).
    assert (P : 0 < ph_weight po * e * / (n * p_mass po)) by (apply Rmult_lt_0_compat; auto; apply Rmult_lt_0_compat; auto).
    lra. }
  rewrite norm_scale, (Rabs_left _ K). fold n.
  assert (F : vscale (- / (- k * n)) (vscale k dir) = vscale (/ n) dir).
  { unfold vscale, v1, v2, v3; simpl. f_equal; [f_equal|]; field; repeat split; lra. }
  rewrite F. cbn [fst snd]. split; [|split].
  - unfold momentum, photon_momentum, vadd, vscale, v1, v2, v3, k; cbn [fst snd].
    destruct ux as [[a b] c], dir as [[x y] z]; cbn [fst snd] in *.
    f_equal; [f_equal|]; field; split; lra.
  - rewrite !norm_scale. fold n. rewrite (Rabs_right e), (Rabs_right (/ n)); try lra.
    + field. lra.
    + left. apply Rinv_0_lt_compat; auto.
  - unfold vscale, v1, v2, v3; cbn [fst snd]. f_equal; [f_equal|]; field; lra.
Qed.

Lemma emitted_slow po u dir pr rnd : sensible po -> r_emit (decide po u dir pr rnd) = true ->
  0 < norm_sqr u /\ rnd < pr.
Proof.
  intros (Hw & He & Hp & Hm) E. unfold decide in E. cbn [r_emit] in E.
  apply andb_prop in E as [E _]. apply andb_prop in E as [E1 E2]. apply lt_b_true in E1, E2. split; auto.
  pose proof (nsq_nonneg u) as U. destruct (Req_dec (norm_sqr u) 0) as [Z|Z]; [|lra].
  rewrite Z in E2. replace (1 + 0) with 1 in E2 by ring. rewrite sqrt_1 in E2. lra.
Qed.
Lemma emitted_some po r ux w ph : snd (process_emission po r ux w) = Some ph -> r_emit r = true.
Proof. unfold process_emission. cbn [snd]. destruct (r_emit r); congruence. Qed.

Theorem compton_conserves po u rnd ux w ph : sensible po -> should_drag po = true ->
  snd (process_emission po (compton po u rnd) ux w) = Some ph ->
  vadd (momentum (p_mass po) w (fst (process_emission po (compton po u rnd) ux w))) (photon_momentum ph) =
    momentum (p_mass po) w ux /\
  norm (fst ph) = (1 + norm_sqr u) * nom_energy po /\
  fst ph = vscale ((1 + norm_sqr u) * nom_energy po / norm u) u.
Proof.
  intros S D H. pose proof (emitted_some _ _ _ _ _ H) as E. destruct (emitted_slow _ _ _ _ _ S E) as [U _].
  exact (conserved po u u _ rnd ux w ph S D U H).
Qed.

Lemma gamma_sq u : u2gamma u * u2gamma u = 1 + norm_sqr u.
Proof. apply sqrt_sqrt. pose proof (nsq_nonneg u). lra. Qed.
Lemma gamma_pos u : 0 < u2gamma u.
Proof. apply sqrt_lt_R0. pose proof (nsq_nonneg u). lra. Qed.

(** The probability is the component of the direction along the velocity. *)
Lemma syn_prob_dir po u e b : 0 < norm_sqr u ->
  syn_prob po u e b = nom_prob po * (dot (syn_dir u e b) u / ((1 + norm_sqr u) * norm u)).
Proof.
  intros U. unfold syn_prob, syn_dir. f_equal. pose proof (norm_pos _ U) as N. pose proof (gamma_pos u) as G.
  rewrite <- gamma_sq.
  replace (dot (vadd (vscale (-1) (syn_kappa u e b)) (vscale (u2gamma u * syn_chi2 u e b) u)) u)
    with (- dot (syn_kappa u e b) u + u2gamma u * syn_chi2 u e b * (norm u * norm u)).
  - field. split; lra.
  - rewrite norm_sq. generalize (syn_kappa u e b) (syn_chi2 u e b). intros k x.
    unfold dot, norm_sqr, vadd, vscale, v1, v2, v3; cbn [fst snd]. ring.
Qed.

Theorem synchrotron_conserves po u e b rnd ux w ph : sensible po -> should_drag po = true -> random rnd ->
  snd (process_emission po (synchrotron po u e b rnd) ux w) = Some ph ->
  vadd (momentum (p_mass po) w (fst (process_emission po (synchrotron po u e b rnd) ux w))) (photon_momentum ph) =
    momentum (p_mass po) w ux /\
  norm (fst ph) = (1 + norm_sqr u) * nom_energy po /\ 0 < dot (fst ph) u.
Proof.
  intros S D R H. pose proof (emitted_some _ _ _ _ _ H) as E. destruct (emitted_slow _ _ _ _ _ S E) as [U P].
  rewrite (syn_prob_dir po u e b U) in P. destruct S as (Hw & He & Hp & Hm). destruct R as [R0 R1].
  pose proof (norm_pos _ U) as N.
  assert (DD : 0 < dot (syn_dir u e b) u).
  { assert (Q : 0 < (1 + norm_sqr u) * norm u) by (apply Rmult_lt_0_compat; lra).
    assert (I : 0 < / ((1 + norm_sqr u) * norm u)) by (apply Rinv_0_lt_compat; auto).
    unfold Rdiv in P. destruct (Rle_or_lt (dot (syn_dir u e b) u) 0) as [L|L]; auto. exfalso.
    assert (dot (syn_dir u e b) u * / ((1 + norm_sqr u) * norm u) <= 0) by nra.
    assert (nom_prob po * (dot (syn_dir u e b) u * / ((1 + norm_sqr u) * norm u)) <= 0) by nra. lra. }
  assert (NZ : 0 < norm_sqr (syn_dir u e b)).
  { destruct (Req_dec (norm_sqr (syn_dir u e b)) 0) as [Z|Z]; [|pose proof (nsq_nonneg (syn_dir u e b)); lra].
    apply nsq_zero in Z as (Z1 & Z2 & Z3). unfold dot in DD. rewrite Z1, Z2, Z3 in DD. lra. }
  assert (S : sensible po) by (repeat split; auto).
  destruct (conserved po u (syn_dir u e b) _ rnd ux w ph S D NZ H) as (A & B & C).
  split; [exact A|]. split; [exact B|]. rewrite C. cbn [decide r_energy].
  replace (dot (vscale ((1 + norm_sqr u) * nom_energy po / norm (syn_dir u e b)) (syn_dir u e b)) u)
    with ((1 + norm_sqr u) * nom_energy po / norm (syn_dir u e b) * dot (syn_dir u e b) u)
    by (unfold dot, vscale, v1, v2, v3; cbn [fst snd]; ring).
  apply Rmult_lt_0_compat; auto. unfold Rdiv. apply Rmult_lt_0_compat; [apply Rmult_lt_0_compat; lra|].
  apply Rinv_0_lt_compat. apply norm_pos; auto.
Qed.

(** Refutations: a particle with u = (sqrt 3, 0, 0), so gamma = 2. *)
Definition fast : vec := (sqrt 3, 0, 0).
Lemma fast_sq : norm_sqr fast = 3.
Proof. unfold norm_sqr, fast, v1, v2, v3; cbn [fst snd]. rewrite sqrt_sqrt by lra. ring. Qed.
Lemma sqrt4 : sqrt (1 + 3) = 2.
Proof. replace (1 + 3) with (2 * 2) by ring. apply sqrt_square. lra. Qed.
Definition plain (drag : bool) (least : R) : policy :=
  {| ph_weight := 1; ph_min := least; nom_prob := 1; nom_energy := 1 / 40; p_mass := 1; should_drag := drag |}.
Lemma plain_sensible d m : sensible (plain d m).
Proof. unfold sensible, plain; cbn. lra. Qed.
Lemma lt_b_yes a b : a < b -> lt_b a b = true.
Proof. unfold lt_b. destruct (Rlt_dec a b); auto; contradiction. Qed.
Lemma le_b_yes a b : a <= b -> le_b a b = true.
Proof. unfold le_b. destruct (Rle_dec a b); auto; contradiction. Qed.
Lemma le_b_no a b : b < a -> le_b a b = false.
Proof. unfold le_b. destruct (Rle_dec a b); auto; lra. Qed.
Lemma plain_emit d m : lt_b 0 (nom_prob (plain d m) * sqrt (norm_sqr fast / (1 + norm_sqr fast))) &&
  lt_b ((1 + norm_sqr fast) * nom_energy (plain d m))
       (p_mass (plain d m) * (sqrt (1 + norm_sqr fast) - 1) * (2 / 10)) = true.
Proof.
  rewrite fast_sq, sqrt4. cbn. rewrite lt_b_yes, lt_b_yes; auto; try lra.
  rewrite Rmult_1_l. apply sqrt_lt_R0. lra.
Qed.

Theorem no_recoil : exists po u rnd ux w ph, sensible po /\ random rnd /\ 0 < w /\
  snd (process_emission po (compton po u rnd) ux w) = Some ph /\
  fst (process_emission po (compton po u rnd) ux w) = ux /\ photon_momentum ph <> (0, 0, 0).
Proof.
  exists (plain false 0), fast, 0, fast, 1.
  unfold process_emission, compton, decide; cbn [r_emit r_drag r_delta r_energy fst snd].
  rewrite plain_emit. cbn [should_drag plain andb].
  rewrite le_b_yes by (rewrite fast_sq; cbn; lra).
  eexists. split; [apply plain_sensible|]. split; [unfold random; lra|]. split; [lra|].
  split; [reflexivity|]. split; [reflexivity|].
  unfold photon_momentum. cbn [fst snd ph_weight plain nom_energy p_mass].
  assert (N : norm fast = sqrt 3) by (unfold norm; rewrite fast_sq; auto).
  assert (S3 : 0 < sqrt 3) by (apply sqrt_lt_R0; lra).
  rewrite norm_scale, N, fast_sq. intros X. apply (f_equal v1) in X. unfold vscale, fast, v1, v2, v3 in X; cbn [fst snd] in X.
  set (k := -1 * ((1 + 3) * (1 / 40)) / (sqrt 3 * 1)) in *.
  assert (K : k < 0). { unfold k, Rdiv. assert (0 < / (sqrt 3 * 1)) by (apply Rinv_0_lt_compat; lra). nra. }
  replace (- (1)) with (-1) in X by ring. fold k in X.
  rewrite (Rabs_left _ K) in X.
  assert (Y : 1 * 1 * ((1 + 3) * (1 / 40) * (- / (- k * sqrt 3) * (k * sqrt 3))) = 1 / 10) by (field; split; lra).
  lra.
Qed.

Theorem recoil_without_photon : exists po u rnd ux w, sensible po /\ random rnd /\ 0 < w /\
  snd (process_emission po (compton po u rnd) ux w) = None /\
  fst (process_emission po (compton po u rnd) ux w) <> ux.
Proof.
  exists (plain true 1), fast, 0, fast, 1.
  unfold process_emission, compton, decide; cbn [r_emit r_drag r_delta r_energy fst snd].
  rewrite plain_emit. cbn [should_drag plain andb].
  rewrite le_b_no by (rewrite fast_sq; cbn; lra).
  split; [apply plain_sensible|]. split; [unfold random; lra|]. split; [lra|].
  split; [reflexivity|]. cbn [ph_weight plain nom_energy p_mass].
  assert (N : norm fast = sqrt 3) by (unfold norm; rewrite fast_sq; auto).
  assert (S3 : 0 < sqrt 3) by (apply sqrt_lt_R0; lra).
  rewrite N, fast_sq. intros X. apply (f_equal v1) in X. unfold vadd, vscale, fast, v1, v2, v3 in X; cbn [fst snd] in X.
  assert (Y : - (1) * ((1 + 3) * (1 / 40)) / (sqrt 3 * 1) * sqrt 3 = - (1 / 10)) by (field; lra).
  lra.
Qed.
