(** The bulk velocity is a mean of particle velocities. *)
From Coq Require Import ZArith List Bool Reals Lra Lia Permutation.
From Verif Require Import Base ListLemmas DecompModel DecompSpec DirsSpec TopoModel TopoSpec HaloModel ShapeSpec HaloSpec
  SyncProofs GaussProofs EnergyProofs MomentModel MomentSpec MomentProofs MomentTop MomentSync.
Import ListNotations.
Open Scope R_scope.

Lemma weight_d_nonneg c q : forall y, 0 <= weight_d c q y.
Proof.
  induction q as [|[i x] q IH]; intros [|a y]; cbn [weight_d]; try lra.
  apply Rmult_le_pos; [apply weight1_nonneg|apply IH].
Qed.
Lemma spread_nonneg c Ns q z : 0 <= spread c Ns q z.
Proof. unfold spread. apply rsum_nonneg. intros di _. cbv zeta. destruct list_eq_dec; [apply weight_d_nonneg|lra]. Qed.

Lemma rsum_le {A} (l : list A) f h : (forall a, In a l -> f a <= h a) -> rsum l f <= rsum l h.
Proof.
  intros H. assert (E : 0 <= rsum l (fun a => h a + -1 * f a)).
  { apply rsum_nonneg. intros a Ha. specialize (H a Ha). lra. }
  rewrite rsum_plus, rsum_scal in E. lra.
Qed.

Definition amount (c : mcfg) (p : part) : R :=
  (if use_weights c then pweight p else 1) * inv_n0 c / sqrt_det_h c (map (fun q => IZR (fst q) + 1/2) (ppos p)).

Lemma contribution_rho c s p c1 c2 : contribution c Rho s p c1 c2 = smass s * amount c p.
Proof. unfold contribution, quantity, amount. unfold Rdiv. ring. Qed.
Lemma contribution_V c s p i c2 : smass s <> 0 ->
  contribution c V s p i c2 = (u_ (frame c (smass s) p) i / u_ (frame c (smass s) p) 0) * (smass s * amount c p).
Proof. intros H. unfold contribution, quantity, amount. destruct Req_EM_T; [contradiction|]. unfold Rdiv. ring. Qed.

Lemma amount_nonneg c p : 0 <= pweight p -> 0 <= inv_n0 c -> (forall x, 0 < sqrt_det_h c x) -> 0 <= amount c p.
Proof.
  intros H1 H2 H3. unfold amount, Rdiv. specialize (H3 (map (fun q => IZR (fst q) + 1/2) (ppos p))).
  apply Rmult_le_pos; [apply Rmult_le_pos; [destruct (use_weights c); lra|assumption]|].
  apply Rlt_le, Rinv_0_lt_compat. assumption.
Qed.

(** Normalising a sum of [v m] by the sum of [m]. *)
Lemma normalized eps rho v lo hi x : 0 <= eps -> lo * rho x <= v x <= hi * rho x ->
  eps < rho x -> lo <= normalize_by_rho eps rho v x <= hi.
Proof.
  intros He H Hr. unfold normalize_by_rho. destruct Rle_dec as [Hle|Hle].
  - rewrite Rabs_pos_eq in Hle by lra. lra.
  - split; [apply Rmult_le_reg_r with (rho x)|apply Rmult_le_reg_r with (rho x)]; try lra;
    unfold Rdiv; rewrite Rmult_assoc, Rinv_l, Rmult_1_r by lra; lra.
Qed.
Lemma normalized_abs eps rho v B x : 0 <= eps <= 1 -> 0 <= B -> 0 <= rho x -> Rabs (v x) <= B * rho x ->
  Rabs (normalize_by_rho eps rho v x) <= B.
Proof.
  intros He HB Hr H. destruct (Rle_dec (rho x) eps) as [Hle|Hle].
  - unfold normalize_by_rho. rewrite (Rabs_pos_eq (rho x)) by assumption. destruct Rle_dec; [|contradiction].
    apply (Rle_trans _ _ _ H). rewrite <- (Rmult_1_r B) at 2. apply Rmult_le_compat_l; lra.
  - assert (H' : - B * rho x <= v x <= B * rho x). { unfold Rabs in H. destruct Rcase_abs; lra. }
    apply (normalized eps rho v (- B) B x) in H'; [|lra..]. unfold Rabs. destruct Rcase_abs; lra.
Qed.

Section Domains.
  Variables (g : Z) (ls : list (list Z)) (gbc : list (flds_bc * flds_bc)).
  Hypotheses (W : wide g ls) (HL : length gbc = length ls) (HP : all_periodic gbc) (HD : dimension (length ls)).
  Variables (c : mcfg) (i : Z) (sp : list Z -> list species) (frho fv : list Z -> buffer).
  Hypotheses (Hcart : cartesian c = true) (Hs : supported c) (Hg : ghosts c = g) (Hi : (1 <= i <= 3)%Z).
  Hypothesis Hin : forall d s p, In d (domains ls) -> In s (sp (sub_offset_ndomains d)) -> In p (sparts s) ->
    live p = true -> inside (sub_ncells d) p.
  Hypothesis Hpos : forall d s p, In d (domains ls) -> In s (sp (sub_offset_ndomains d)) -> In p (sparts s) ->
    live p = true -> 0 < smass s /\ 0 <= pweight p.
  Hypotheses (Hn0 : 0 <= inv_n0 c) (Hh : forall x, 0 < sqrt_det_h c x).
  Hypothesis Hrho : forall d, In d (domains ls) -> exists all specs sched,
    selects all specs (sp (sub_offset_ndomains d)) /\ Forall (species_ok Rho) (sp (sub_offset_ndomains d)) /\
    any_order sched /\
    compute_moments c Rho all specs 0 0 sched (fun _ => 0) = Some (frho (sub_offset_ndomains d)).
  Hypothesis Hv : forall d, In d (domains ls) -> exists all specs sched,
    selects all specs (sp (sub_offset_ndomains d)) /\ Forall (species_ok V) (sp (sub_offset_ndomains d)) /\
    any_order sched /\
    compute_moments c V all specs i 0 sched (fun _ => 0) = Some (fv (sub_offset_ndomains d)).

  Let RHO o := synchronize g ls gbc frho (length ls) o.
  Let VEL o := synchronize g ls gbc fv (length ls) o.

  Lemma sums_as (M : list (Z * R) -> list Z -> R) (FF : moment) (k1 : Z) (z : list Z) : rsum (deposited c FF k1 0 (domains ls) sp) (fun e => snd e * M (fst e) z) =
    rsum (domains ls) (fun d => rsum (sp (sub_offset_ndomains d)) (fun s => rsum (sparts s) (fun p =>
      if live p then contribution c FF s p k1 0 * M (globally d (ppos p)) z else 0))).
  Proof.
    unfold deposited. rewrite rsum_flat_map. apply rsum_ext. intros d _. rewrite rsum_flat_map. apply rsum_ext.
    intros s _. rewrite rsum_map, rsum_filter. reflexivity.
  Qed.

  Variables (lo hi : R).
  Hypothesis Hlh : forall d s p, In d (domains ls) -> In s (sp (sub_offset_ndomains d)) -> In p (sparts s) ->
    live p = true -> lo <= u_ (frame c (smass s) p) i / u_ (frame c (smass s) p) 0 <= hi.

  Lemma between d y : In d (domains ls) -> in_box y (sub_ncells d) ->
    0 <= RHO (sub_offset_ndomains d) (loc g y) /\
    lo * RHO (sub_offset_ndomains d) (loc g y) <= VEL (sub_offset_ndomains d) (loc g y)
      <= hi * RHO (sub_offset_ndomains d) (loc g y).
  Proof.
    intros Hd Hy. unfold RHO, VEL.
    rewrite (sync_value g ls gbc W HL HP HD c Rho 0 0 sp frho Hcart Hs Hg I Hin Hrho d y Hd Hy).
    rewrite (sync_value g ls gbc W HL HP HD c V i 0 sp fv Hcart Hs Hg Hi Hin Hv d y Hd Hy).
    rewrite !(sums_as (spread c (map sumZ ls))). set (z := wrapped ls d y).
    assert (Hk : forall d s p, In d (domains ls) -> In s (sp (sub_offset_ndomains d)) -> In p (sparts s) ->
       live p = true -> 0 < smass s /\ 0 <= smass s * amount c p * spread c (map sumZ ls) (globally d (ppos p)) z).
    { intros d' s p A B C E. destruct (Hpos d' s p A B C E) as [P1 P2]. split; [assumption|].
      apply Rmult_le_pos; [apply Rmult_le_pos; [lra|apply amount_nonneg; assumption]|apply spread_nonneg]. }
    split; [|split].
    - apply rsum_nonneg. intros d' A. apply rsum_nonneg. intros s B. apply rsum_nonneg. intros p C.
      destruct (live p) eqn:E; [|lra]. rewrite contribution_rho. apply (Hk d' s p A B C E).
    - rewrite <- rsum_scal. apply rsum_le. intros d' A. rewrite <- rsum_scal. apply rsum_le. intros s B.
      rewrite <- rsum_scal. apply rsum_le. intros p C. destruct (live p) eqn:E; [|lra].
      destruct (Hk d' s p A B C E) as [K1 K2]. rewrite contribution_rho, contribution_V by lra.
      pose proof (Rmult_le_compat_r _ _ _ K2 (proj1 (Hlh d' s p A B C E))) as Q. lra.
    - rewrite <- rsum_scal. apply rsum_le. intros d' A. rewrite <- rsum_scal. apply rsum_le. intros s B.
      rewrite <- rsum_scal. apply rsum_le. intros p C. destruct (live p) eqn:E; [|lra].
      destruct (Hk d' s p A B C E) as [K1 K2]. rewrite contribution_rho, contribution_V by lra.
      pose proof (Rmult_le_compat_r _ _ _ K2 (proj2 (Hlh d' s p A B C E))) as Q. lra.
  Qed.

  Theorem bulk_velocity_between eps d y : 0 <= eps -> In d (domains ls) -> in_box y (sub_ncells d) ->
    eps < RHO (sub_offset_ndomains d) (loc g y) ->
    lo <= normalize_by_rho eps (RHO (sub_offset_ndomains d)) (VEL (sub_offset_ndomains d)) (loc g y) <= hi.
  Proof.
    intros He Hd Hy Hr. destruct (between d y Hd Hy) as [_ H]. apply normalized; assumption.
  Qed.

  Theorem bulk_velocity_small eps d y B : 0 <= eps <= 1 -> 0 <= B -> lo = - B -> hi = B ->
    In d (domains ls) -> in_box y (sub_ncells d) ->
    Rabs (normalize_by_rho eps (RHO (sub_offset_ndomains d)) (VEL (sub_offset_ndomains d)) (loc g y)) <= B.
  Proof.
    intros He HB El Eh Hd Hy. destruct (between d y Hd Hy) as [Hr H]. rewrite El, Eh in H.
    apply normalized_abs; [assumption..|]. unfold Rabs. destruct Rcase_abs; lra.
  Qed.
End Domains.

Lemma bulk_velocity_bounded : forall g ls gbc,
  wide g ls -> length gbc = length ls -> all_periodic gbc -> dimension (length ls) ->
  forall c i sp frho fv,
  cartesian c = true -> supported c -> ghosts c = g -> (1 <= i <= 3)%Z ->
  (forall d s p, In d (domains ls) -> In s (sp (sub_offset_ndomains d)) -> In p (sparts s) ->
     live p = true -> inside (sub_ncells d) p) ->
  (forall d s p, In d (domains ls) -> In s (sp (sub_offset_ndomains d)) -> In p (sparts s) ->
     live p = true -> 0 < smass s /\ 0 <= pweight p) ->
  0 <= inv_n0 c -> (forall x, 0 < sqrt_det_h c x) ->
  (forall d, In d (domains ls) -> exists all specs sched,
     selects all specs (sp (sub_offset_ndomains d)) /\ Forall (species_ok Rho) (sp (sub_offset_ndomains d)) /\
     any_order sched /\
     compute_moments c Rho all specs 0 0 sched (fun _ => 0) = Some (frho (sub_offset_ndomains d))) ->
  (forall d, In d (domains ls) -> exists all specs sched,
     selects all specs (sp (sub_offset_ndomains d)) /\ Forall (species_ok V) (sp (sub_offset_ndomains d)) /\
     any_order sched /\
     compute_moments c V all specs i 0 sched (fun _ => 0) = Some (fv (sub_offset_ndomains d))) ->
  forall B, 0 <= B ->
  (forall d s p, In d (domains ls) -> In s (sp (sub_offset_ndomains d)) -> In p (sparts s) ->
     live p = true -> Rabs (u_ (frame c (smass s) p) i / u_ (frame c (smass s) p) 0) <= B) ->
  forall eps d y, 0 <= eps <= 1 -> In d (domains ls) -> in_box y (sub_ncells d) ->
    Rabs (normalize_by_rho eps (synchronize g ls gbc frho (length ls) (sub_offset_ndomains d))
                               (synchronize g ls gbc fv (length ls) (sub_offset_ndomains d)) (loc g y)) <= B.
Proof.
  intros g ls gbc W HL HP HD c i sp frho fv H1 H2 H3 H4 H5 H6 H7 H8 H9 H10 B HB Hu eps d y He Hd Hy.
  apply (bulk_velocity_small g ls gbc W HL HP HD c i sp frho fv H1 H2 H3 H4 H5 H6 H7 H8 H9 H10 (- B) B); auto.
  intros d' s p A1 A2 A3 A4. specialize (Hu d' s p A1 A2 A3 A4). unfold Rabs in Hu. destruct Rcase_abs in Hu; lra.
Qed.

Lemma massive_below_c m p i : m <> 0 -> (1 <= i <= 3)%Z ->
  Rabs (u_ (cartesian_frame m p) i / u_ (cartesian_frame m p) 0) < 1.
Proof.
  intros Hm Hi. unfold cartesian_frame. destruct (pvel p) as [[u1 u2] u3]. destruct Req_EM_T as [Em|_]; [contradiction|].
  set (n := u1 * u1 + u2 * u2 + u3 * u3). assert (Hn : 0 <= n) by (unfold n; nra).
  set (v := u_ (sqrt (1 + n), u1, u2, u3) i).
  assert (Hv : v * v <= n).
  { unfold v. assert (E : (i = 1 \/ i = 2 \/ i = 3)%Z) by lia. destruct E as [-> |[-> | ->]]; cbn; unfold n; nra. }
  change (Rabs (v / sqrt (1 + n)) < 1). assert (Hs : 0 < sqrt (1 + n)) by (apply sqrt_lt_R0; lra).
  unfold Rdiv. rewrite Rabs_mult, (Rabs_pos_eq (/ _)) by (apply Rlt_le, Rinv_0_lt_compat; assumption).
  apply Rmult_lt_reg_r with (sqrt (1 + n)); [assumption|]. rewrite Rmult_assoc, Rinv_l, Rmult_1_r, Rmult_1_l by lra.
  rewrite <- sqrt_Rsqr_abs. apply sqrt_lt_1; unfold Rsqr; nra.
Qed.
