(** Further proofs for radiation. *)
From Coq Require Import Reals Lra Lia Bool Psatz.
From Coquelicot Require Import Rcomplements Hierarchy RInt.
From Verif Require Import VelModel VelSpec VelProofs VelTop EmitModel EmitSpec EmitProofs RdModel RdSpec RdProofs.
Open Scope R_scope.

Lemma compton_aligned e b u : 0 < norm_sqr u -> alignment Compton e b u = 1.
Proof.
  intros U. pose proof (norm_pos _ U) as N. pose proof (lor_pos u) as G. pose proof (lor_sq u) as G2. unfold alignment. cbn [slowing]. unfold compton_change, VelSpec.velocity.
  rewrite !norm_scale, !dot_scale. change (dot u u) with (norm_sqr u). rewrite <- G2. rewrite <- (norm_sq u).
  rewrite Rabs_Ropp, !Rabs_right.
  - field. lra.
  - left. now apply Rinv_0_lt_compat.
  - nra.
Qed.
Lemma single_drags cs cc e b u_old u :
  drags true false cs cc e b u_old u = vadd u (synchrotron_change cs e b (midpoint u_old u)) /\
  drags false true cs cc e b u_old u = vadd u (compton_change cc (midpoint u_old u)) /\
  drags false false cs cc e b u_old u = u.
Proof. exact (conj (synchrotron_alone cs e b cc u_old u) (conj (compton_alone cs e b cc u_old u) eq_refl)). Qed.
Lemma scale1 u : vscale 1 u = u.
Proof. apply veq; unfold vscale, v1, v2, v3; cbn [fst snd]; ring. Qed.

(** Where the two ways of radiating agree. *)
Theorem compton_agrees gca w W dt r q m e b u0 u cs : good r -> 0 < m -> affordable r (midpoint u0 u) -> Rabs q * m = 1 ->
  0 <= chance W dt q m r Compton e b (midpoint u0 u) <= 1 ->
  mean (fun rnd => fst (radiate gca false true cs (drag_coeff dt W (gamma_rad r) m) (Some (Compton, emission_policy W dt r q m true)) e b u0 u w rnd))
       (fst (radiate false false true cs (drag_coeff dt W (gamma_rad r) m) None e b u0 u w 0)).
Proof.
  intros Hr Hm A Q P. unfold radiate at 2. cbn [negb orb andb fst].
  assert (D : drags false true cs (drag_coeff dt W (gamma_rad r) m) e b u0 u = vadd u (slowing Compton (drag_coeff dt W (gamma_rad r) m) e b (midpoint u0 u))).
  { destruct (single_drags cs (drag_coeff dt W (gamma_rad r) m) e b u0 u) as (_ & D & _). exact D. }
  rewrite D. pose proof (mean_change gca false true cs (drag_coeff dt W (gamma_rad r) m) W dt r q m Compton e b u0 u w Hr Hm A P) as M.
  rewrite compton_aligned, Q in M by (eapply affordable_moves; eassumption). rewrite Rmult_1_r, scale1 in M. exact M.
Qed.

(** Below or above the window nothing happens. *)
Theorem unaffordable gca sy co cs cc W dt r q m d k e b u0 u w rnd : good r -> 0 < m -> ~ affordable r (midpoint u0 u) ->
  radiate gca sy co cs cc (Some (k, emission_policy W dt r q m d)) e b u0 u w rnd = (u, None).
Proof.
  intros Hr Hm A. unfold radiate. change (vscale (1 / 2) (vadd u0 u)) with (midpoint u0 u). cbv zeta. rewrite emission_is.
  unfold process_emission, decide. cbn [r_emit r_drag r_delta r_energy emission_policy ph_weight nom_energy p_mass should_drag].
  rewrite <- (gate r m (midpoint u0 u) Hr Hm) in A. unfold lt_b at 2 4. destruct (Rlt_dec (_ * _) _); [contradiction|]. rewrite !andb_false_r. reflexivity.
Qed.
Theorem window r u : good r -> affordable r u <->
  20 < gamma_qed r * gamma_qed r /\
  gamma_qed r * gamma_qed r / 10 * (1 - sqrt (1 - 20 / (gamma_qed r * gamma_qed r))) < lorentz u
   < gamma_qed r * gamma_qed r / 10 * (1 + sqrt (1 - 20 / (gamma_qed r * gamma_qed r))).
Proof.
  intros (Hg & Hq & Hp). unfold affordable. rewrite <- lor_sq. set (g := lorentz u). set (Q := gamma_qed r * gamma_qed r).
  assert (HQ : 0 < Q) by (unfold Q; nra). clearbody Q.
  assert (I : Q * (20 / Q) = 20) by (field; lra).
  assert (E : g * g / Q < (g - 1) / 5 <-> g * g < Q * (g - 1) / 5).
  { split; intros H.
    - apply (Rmult_lt_compat_r Q) in H; [|lra]. replace (g * g / Q * Q) with (g * g) in H by (field; lra). lra.
    - apply (Rmult_lt_reg_r Q); [lra|]. replace (g * g / Q * Q) with (g * g) by (field; lra). lra. }
  rewrite E. clear E. split.
  - intros H. assert (L : 20 < Q). { pose proof (Rle_0_sqr (g - Q / 10)) as S. unfold Rsqr in S. nra. }
    assert (D : 0 < 1 - 20 / Q). { assert (20 / Q < 1) by (apply (Rmult_lt_reg_l Q); lra). lra. }
    set (s := sqrt (1 - 20 / Q)). assert (S : s * s = 1 - 20 / Q) by (apply sqrt_sqrt; lra). assert (S0 : 0 < s) by now apply sqrt_lt_R0.
    assert (X : Q * (s * s) = Q - 20) by (rewrite S; lra).
    assert (Y : (g - Q / 10) * (g - Q / 10) < (Q / 10 * s) * (Q / 10 * s)).
    { replace (Q / 10 * s * (Q / 10 * s)) with (Q / 100 * (Q * (s * s))) by field. rewrite X. nra. }
    assert (T : 0 < Q / 10 * s) by nra. split; [exact L|]. split.
    + destruct (Rle_or_lt g (Q / 10 * (1 - s))) as [B|B]; [exfalso|exact B]. nra.
    + destruct (Rle_or_lt (Q / 10 * (1 + s)) g) as [B|B]; [exfalso|exact B]. nra.
  - intros (L & H1 & H2). assert (D : 0 < 1 - 20 / Q). { assert (20 / Q < 1) by (apply (Rmult_lt_reg_l Q); lra). lra. }
    set (s := sqrt (1 - 20 / Q)) in *. assert (S : s * s = 1 - 20 / Q) by (apply sqrt_sqrt; lra). assert (S0 : 0 < s) by now apply sqrt_lt_R0.
    assert (X : Q * (s * s) = Q - 20) by (rewrite S; lra).
    assert (Y : (g - Q / 10 * (1 - s)) * (Q / 10 * (1 + s) - g) > 0) by (apply Rmult_lt_0_compat; lra).
    replace ((g - Q / 10 * (1 - s)) * (Q / 10 * (1 + s) - g)) with (2 * g * Q / 10 - g * g - Q / 100 * (Q - Q * (s * s))) in Y by field.
    rewrite X in Y. lra.
Qed.

(** Energy carried away. *)
Theorem radiated gca sy co cs cc W dt r q m d k e b u0 u w : good r -> 0 < m -> affordable r (midpoint u0 u) ->
  photon_energy_min r <= photon r m (midpoint u0 u) -> 0 <= chance W dt q m r k e b (midpoint u0 u) <= 1 ->
  is_RInt (fun rnd => carried (snd (radiate gca sy co cs cc (Some (k, emission_policy W dt r q m d)) e b u0 u w rnd))) 0 1
    (w * Rabs q * (W * dt / 10) / (gamma_rad r * gamma_rad r) * (- dot (slowing k 1 e b (midpoint u0 u)) (midpoint u0 u) / norm (midpoint u0 u))).
Proof.
  intros Hr Hm A M P. pose proof (affordable_moves _ _ Hr A) as U. set (mid := midpoint u0 u) in *. pose proof (norm_pos _ U) as N.
  set (p := chance W dt q m r k e b mid) in *.
  assert (Ph : (1 + norm_sqr mid) * (m * nominal_photon_energy r) = photon r m mid).
  { unfold photon, nominal_photon_energy. destruct Hr as (H1 & H2 & H3). field. lra. }
  assert (F : forall rnd, 0 < rnd < 1 -> carried (snd (radiate gca sy co cs cc (Some (k, emission_policy W dt r q m d)) e b u0 u w rnd))
     = if lt_b rnd p then photon_weight r * w * photon r m mid else 0).
  { intros rnd Hrnd. unfold radiate. change (vscale (1 / 2) (vadd u0 u)) with mid. cbv zeta. rewrite emission_is.
    unfold process_emission, decide. cbn [snd r_emit r_drag r_delta r_energy emission_policy ph_weight nom_energy p_mass should_drag ph_min].
    rewrite prob_is by assumption. fold p. rewrite (lt_b_yes (_ * _)) by now apply gate. rewrite andb_true_r, Ph, (le_b_yes _ _ M), andb_true_r.
    destruct (lt_b rnd p) eqn:L; [|reflexivity]. cbn [carried fst snd]. apply lt_b_true in L.
    assert (Z : norm (slowing k 1 e b mid) <> 0).
    { intros Z. destruct (delta_zero 0 k e b mid Z) as [_ B]. assert (p = 0); [|lra]. unfold p, chance. rewrite B.
      unfold dot, v1, v2, v3. cbn [fst snd]. unfold Rdiv. ring. }
    assert (Ns : 0 < norm (slowing k 1 e b mid)) by (pose proof (sqrt_pos (norm_sqr (slowing k 1 e b mid))) as Q; unfold norm in *; lra).
    rewrite <- Ph, delta_is by assumption. rewrite !norm_scale.
    set (n := norm (slowing k 1 e b mid)) in *. set (c := photon_weight r * _ / n). destruct Hr as (H1 & H2 & H3).
    assert (C : 0 < c). { unfold c. apply Rdiv_lt_0_compat; [|lra]. apply Rmult_lt_0_compat; [lra|]. apply Rdiv_lt_0_compat; nra. }
    rewrite Rabs_Ropp, (Rabs_right c) by lra. rewrite (Rabs_right (/ (c * n))) by (left; apply Rinv_0_lt_compat; nra).
    rewrite Rabs_right. 2:{ unfold nominal_photon_energy. left. apply Rmult_lt_0_compat; [lra|]. apply Rmult_lt_0_compat; [lra|]. apply Rdiv_lt_0_compat; nra. }
    field. lra. }
  apply (is_RInt_ext (V := R_NormedModule) (fun rnd => if lt_b rnd p then photon_weight r * w * photon r m mid else 0)).
  - intros x Hx. rewrite Rmin_left, Rmax_right in Hx by lra. now rewrite F.
  - assert (X : w * Rabs q * (W * dt / 10) / (gamma_rad r * gamma_rad r) * (- dot (slowing k 1 e b mid) mid / norm mid)
      = p * (photon_weight r * w * photon r m mid) + (1 - p) * 0).
    { unfold p, chance, photon. destruct Hr as (H1 & H2 & H3). set (dd := dot _ _). set (nm := norm mid) in *. field. repeat split; lra. }
    rewrite X. now apply step_mean.
Qed.

(** Emission replaces every drag. *)
Theorem replaces gca gca' sy sy' co co' cs cs' cc cc' k po e b u0 u w rnd :
  radiate gca sy co cs cc (Some (k, po)) e b u0 u w rnd = radiate gca' sy' co' cs' cc' (Some (k, po)) e b u0 u w rnd.
Proof. reflexivity. Qed.

Definition mv0 : vec := (3 / 4, 0, 0).
Lemma mv0_sq : norm_sqr mv0 = 9 / 16.
Proof. unfold norm_sqr, mv0, v1, v2, v3. cbn [fst snd]. field. Qed.
Lemma mv0_lor : lorentz mv0 = 5 / 4.
Proof. unfold lorentz. rewrite mv0_sq. replace (1 + 9 / 16) with ((5 / 4) * (5 / 4)) by field. apply sqrt_square. lra. Qed.
Lemma mv0_norm : norm mv0 = 3 / 4.
Proof. unfold norm. rewrite mv0_sq. replace (9 / 16) with ((3 / 4) * (3 / 4)) by field. apply sqrt_square. lra. Qed.
Lemma mv0_mid : midpoint mv0 mv0 = mv0.
Proof. apply veq; unfold midpoint, mv0, vscale, vadd, v1, v2, v3; cbn [fst snd]; field. Qed.
Definition deflt : radiation := Radiation 1 10 1 (1 / 1000).
Lemma deflt_good : good deflt.
Proof. unfold good, deflt. cbn. lra. Qed.
Lemma deflt_affordable : affordable deflt mv0.
Proof. unfold affordable. rewrite mv0_sq, mv0_lor. cbn. lra. Qed.
Lemma slow0 c : compton_change c mv0 = (- c * (15 / 16), 0, 0).
Proof.
  unfold compton_change, VelSpec.velocity. rewrite mv0_sq, mv0_lor. apply veq; unfold mv0, vscale, v1, v2, v3; cbn [fst snd]; field.
Qed.
Lemma chance0 W dt q m : 0 < m -> chance W dt q m deflt Compton (0, 0, 0) (0, 0, 0) mv0 = Rabs q / m * (W * dt) * 6.
Proof.
  intros Hm. unfold chance. cbn [slowing]. rewrite slow0, mv0_sq, mv0_norm. unfold dot, mv0, v1, v2, v3. cbn. field. lra.
Qed.

Theorem heavier_refuted : exists W dt r q m u w x, good r /\ 0 < m /\ affordable r u /\
  0 <= chance W dt q m r Compton (0, 0, 0) (0, 0, 0) u <= 1 /\
  mean (fun rnd => fst (radiate false false true 0 (drag_coeff dt W (gamma_rad r) m) (Some (Compton, emission_policy W dt r q m true)) (0, 0, 0) (0, 0, 0) u u w rnd)) x /\
  v1 (fst (radiate false false true 0 (drag_coeff dt W (gamma_rad r) m) None (0, 0, 0) (0, 0, 0) u u w 0)) - v1 u = 1 / 100 * (v1 x - v1 u) /\ v1 x < v1 u.
Proof.
  exists 1, (1 / 10), deflt, 1, 100, mv0, 1.
  assert (C : chance 1 (1 / 10) 1 100 deflt Compton (0, 0, 0) (0, 0, 0) mv0 = 6 / 1000) by (rewrite chance0, Rabs_R1 by lra; field).
  assert (M : midpoint mv0 mv0 = mv0) by apply mv0_mid.
  pose proof (mean_change false false true 0 (drag_coeff (1 / 10) 1 1 100) 1 (1 / 10) deflt 1 100 Compton (0, 0, 0) (0, 0, 0) mv0 mv0 1) as K. rewrite M in K.
  rewrite compton_aligned in K by (rewrite mv0_sq; lra).
  eexists. split; [apply deflt_good|]. split; [lra|]. split; [apply deflt_affordable|]. split; [rewrite C; lra|].
  split; [apply K; [apply deflt_good|lra|apply deflt_affordable|rewrite C; lra]|].
  unfold radiate. cbn [negb orb andb fst]. destruct (single_drags 0 (drag_coeff (1 / 10) 1 (gamma_rad deflt) 100) (0, 0, 0) (0, 0, 0) mv0 mv0) as (_ & D & _).
  rewrite D, M. cbn [slowing]. rewrite !slow0, Rabs_R1. unfold drag_coeff, deflt, vadd, vscale, mv0, v1, v2, v3. cbn. split; lra.
Qed.

Definition mvf (g : R) : vec := (sqrt (g * g - 1), 0, 0).
Lemma mvf_lor g : 1 <= g -> lorentz (mvf g) = g.
Proof.
  intros H. unfold lorentz. assert (E : norm_sqr (mvf g) = g * g - 1). { unfold norm_sqr, mvf, v1, v2, v3. cbn [fst snd]. rewrite sqrt_sqrt by nra. ring. }
  rewrite E. replace (1 + (g * g - 1)) with (g * g) by ring. apply sqrt_square. lra.
Qed.
Lemma mvf_mid g : midpoint (mvf g) (mvf g) = mvf g.
Proof. apply veq; unfold midpoint, mvf, vscale, vadd, v1, v2, v3; cbn [fst snd]; field. Qed.
Theorem fast_refuted W dt : 0 < W -> 0 < dt -> exists r u, good r /\ forall gca sy co cs cc q m d k e b w rnd, 0 < m ->
  radiate gca sy co cs cc (Some (k, emission_policy W dt r q m d)) e b u u w rnd = (u, None) /\
  v1 (fst (radiate false false true cs (drag_coeff dt W (gamma_rad r) m) None e b u u w rnd)) < v1 u.
Proof.
  intros HW Hdt. exists deflt, (mvf 20). split; [apply deflt_good|]. intros gca sy co cs cc q m d k e b w rnd Hm.
  assert (S : 0 < sqrt (20 * 20 - 1)) by (apply sqrt_lt_R0; lra). assert (L : lorentz (mvf 20) = 20) by (apply mvf_lor; lra). split.
  - apply unaffordable; [apply deflt_good|exact Hm|]. rewrite mvf_mid. unfold affordable. rewrite <- lor_sq, L. cbn. lra.
  - unfold radiate. cbn [negb orb andb fst]. destruct (single_drags cs (drag_coeff dt W (gamma_rad deflt) m) e b (mvf 20) (mvf 20)) as (_ & D & _).
    rewrite D, mvf_mid. unfold compton_change, VelSpec.velocity. rewrite <- lor_sq, L. unfold vadd, vscale, v1, v2, v3, mvf. cbn [fst snd].
    assert (C : 0 < drag_coeff dt W (gamma_rad deflt) m).
    { unfold drag_coeff, deflt. cbn. apply Rdiv_lt_0_compat; nra. }
    set (c := drag_coeff _ _ _ _) in *. nra.
Qed.

(** Alignment. *)
Lemma cauchy a b : Rabs (dot a b) <= norm a * norm b.
Proof.
  rewrite <- (Rabs_right (norm a * norm b)).
  2:{ apply Rle_ge, Rmult_le_pos; apply sqrt_pos. }
  apply Rsqr_le_abs_0. unfold Rsqr. replace (norm a * norm b * (norm a * norm b)) with (norm a * norm a * (norm b * norm b)) by ring. rewrite !norm_sq.
  destruct a as [[a1 a2] a3], b as [[b1 b2] b3]. unfold dot, norm_sqr, v1, v2, v3. cbn [fst snd].
  pose proof (Rle_0_sqr (a1 * b2 - a2 * b1)) as X. pose proof (Rle_0_sqr (a1 * b3 - a3 * b1)) as Y. pose proof (Rle_0_sqr (a2 * b3 - a3 * b2)) as Z. unfold Rsqr in *. nra.
Qed.
Theorem alignment_bound k e b u : Rabs (alignment k e b u) <= 1.
Proof.
  unfold alignment. set (s := slowing k 1 e b u). pose proof (cauchy s u) as C.
  pose proof (sqrt_pos (norm_sqr s)) as A. pose proof (sqrt_pos (norm_sqr u)) as B. fold (norm s) in A. fold (norm u) in B.
  destruct (Req_dec (norm s * norm u) 0) as [Z|Z].
  - rewrite Z in C. assert (D : dot s u = 0). { destruct (Req_dec (dot s u) 0) as [|N]; [assumption|]. pose proof (Rabs_pos_lt _ N). lra. }
    rewrite D. unfold Rdiv. rewrite Ropp_0, Rmult_0_l, Rabs_R0. lra.
  - assert (P : 0 < norm s * norm u) by (pose proof (Rmult_le_pos _ _ A B); lra). unfold Rdiv.
    rewrite Rabs_mult, Rabs_Ropp, (Rabs_right (/ _)) by (left; now apply Rinv_0_lt_compat).
    apply (Rmult_le_reg_r (norm s * norm u)); [exact P|]. rewrite Rmult_assoc, Rinv_l by lra. lra.
Qed.
Lemma against k e b u c : 0 < c -> 0 < norm_sqr u -> slowing k 1 e b u = vscale (- c) u -> alignment k e b u = 1.
Proof.
  intros Hc U S. unfold alignment. rewrite S, dot_scale, norm_scale, Rabs_Ropp, Rabs_right by lra. change (dot u u) with (norm_sqr u). pose proof (norm_pos _ U).
  rewrite <- norm_sq. field. lra.
Qed.
Theorem across u b : 0 < norm_sqr u -> 0 < norm_sqr b -> dot u b = 0 -> alignment Synchrotron (0, 0, 0) b u = 1.
Proof.
  intros U B D. pose proof (lor_pos u) as G. pose proof (lor_sq u) as G2.
  apply (against _ _ _ _ (lorentz u * norm_sqr b)); [nra|exact U|]. cbn [slowing]. unfold synchrotron_change. rewrite <- G2. unfold VelSpec.velocity.
  set (g := lorentz u) in *.
  assert (F : vadd (0, 0, 0) (cross (vscale (/ g) u) b) = vscale (/ g) (cross u b)).
  { apply veq; unfold vadd, vscale, cross, v1, v2, v3; cbn [fst snd]; ring. }
  assert (E : dot (vscale (/ g) u) (0, 0, 0) = 0) by (unfold dot, v1, v2, v3; cbn [fst snd]; ring).
  assert (K : cross (cross u b) b = vscale (- norm_sqr b) u).
  { apply veq; unfold vscale, cross, norm_sqr, dot, v1, v2, v3 in *; destruct u as [[u1 u2] u3], b as [[b1 b2] b3]; cbn [fst snd] in *.
    - replace ((u3 * b1 - u1 * b3) * b3 - (u1 * b2 - u2 * b1) * b2) with (b1 * (u1 * b1 + u2 * b2 + u3 * b3) - (b1 * b1 + b2 * b2 + b3 * b3) * u1) by ring. rewrite D. ring.
    - replace ((u1 * b2 - u2 * b1) * b1 - (u2 * b3 - u3 * b2) * b3) with (b2 * (u1 * b1 + u2 * b2 + u3 * b3) - (b1 * b1 + b2 * b2 + b3 * b3) * u2) by ring. rewrite D. ring.
    - replace ((u2 * b3 - u3 * b2) * b2 - (u3 * b1 - u1 * b3) * b1) with (b3 * (u1 * b1 + u2 * b2 + u3 * b3) - (b1 * b1 + b2 * b2 + b3 * b3) * u3) by ring. rewrite D. ring. }
  assert (N : norm_sqr (cross u b) = norm_sqr u * norm_sqr b).
  { transitivity (norm_sqr u * norm_sqr b - dot u b * dot u b); [|rewrite D; ring].
    unfold norm_sqr, cross, dot, v1, v2, v3. cbn [fst snd]. ring. }
  assert (C : cross (vscale (/ g) (cross u b)) b = vscale (/ g) (cross (cross u b) b)).
  { apply veq; unfold vscale, cross, v1, v2, v3; cbn [fst snd]; ring. }
  assert (N' : norm_sqr (vscale (/ g) (cross u b)) = / g * / g * (norm_sqr u * norm_sqr b)).
  { rewrite <- N. unfold norm_sqr, vscale, v1, v2, v3. cbn [fst snd]. ring. }
  rewrite F, E, C, K, N'. replace (norm_sqr u) with (g * g - 1) by lra. set (bb := norm_sqr b). clearbody g bb.
  apply veq; unfold vadd, vscale, sub, v1, v2, v3; cbn [fst snd]; field; lra.
Qed.
