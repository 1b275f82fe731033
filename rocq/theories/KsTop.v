From Coq Require Import Reals ZArith List Bool Lra Lia.
From Verif Require Import Base MetModel MetSpec KsModel KsSpec StretchProofs DerivLemmas MetProofs PolarProofs KsProofs KsDeriv.
Open Scope R_scope.

(* ------------------------------------------------------------------ *)
(** * Vectors without a black hole *)
Lemma k0_transform_eq : forall g i o x v, k0_transform g i o x v = gr_transform (ks0 g) i o x v.
Proof.
  intros g i o x [[v1 v2] v3].
  destruct i, o; cbn [k0_transform gr_transform ks0 m_h_ m_h m_to_phys m_of_phys k0_h_ k0_h]; try reflexivity;
    apply f_equal, triple_eq; try reflexivity; unfold Rdiv; ring.
Qed.

(* ------------------------------------------------------------------ *)
(** * Polar area *)

Lemma integral_le : forall f F g G a b, a < b ->
  (forall s, derivable_pt_lim F s (f s)) -> (forall s, derivable_pt_lim G s (g s)) ->
  (forall s, a <= s <= b -> f s <= g s) -> F b - F a <= G b - G a.
Proof.
  intros f F g G a b ab dF dG le.
  destruct (MVT_cor2 (fun s => G s - F s) (fun s => g s - f s) a b ab) as (c & E & hc).
  { intros c _. apply derivable_pt_lim_minus; auto. }
  assert (0 <= (g c - f c) * (b - a)). { apply Rmult_le_pos; [|lra]. specialize (le c). lra. }
  lra.
Qed.

Lemma ez' : forall a r th, k_z a r th = gZ 1 a r th.
Proof. intros. unfold k_z, gZ. rewrite (eS' a r th). f_equal. ring. Qed.

(** The volume element over the half cell next to the axis lies between
    cos^2 times, and exactly, its expression with Sigma taken on the axis. *)
Section Polar.
  Variables (a r e : R) (tf df : R -> R) (A : R).
  Hypothesis rp : 0 < r.
  Hypothesis ep : 0 < e.
  Hypothesis Dt : forall s, derivable_pt_lim tf s (df s).
  Hypothesis dp : forall s, 0 < df s.
  Hypothesis t0 : tf 0 = 0.
  Hypothesis th : tf (1/2) <= PI / 2.
  Hypothesis I : integral (fun s => e * df s * gS a r (tf s) * sin (tf s) * sqrt (1 + gZ 1 a r (tf s))) 0 (1/2) A.
  Let d := tf (1/2).
  Definition pol_area : R := e * (r * r + a * a) * sqrt (1 + 2 * r / (r * r + a * a)) * (1 - cos d).

  Lemma tf_incr : forall s t, s <= t -> tf s <= tf t.
  Proof.
    intros s t [l|l]; [|subst; lra].
    destruct (MVT_cor2 tf df s t l) as (c & E & hc). { intros; apply Dt. }
    assert (0 <= df c * (t - s)) by (apply Rmult_le_pos; [left; apply dp|lra]). lra.
  Qed.

  Lemma S_axis : forall t, 0 <= t <= d -> cos d * cos d * (r * r + a * a) <= gS a r t <= r * r + a * a.
  Proof.
    intros t ht. pose proof PI_RGT_0 as pp. unfold d in *.
    assert (c1 : 0 <= cos (tf (1/2))) by (apply cos_ge_0; lra).
    assert (c2 : cos (tf (1/2)) <= cos t).
    { apply cos_decr_1; lra. }
    assert (c3 : cos t <= 1) by apply COS_bound.
    assert (c4 : cos (tf (1/2)) <= 1) by apply COS_bound.
    assert (q1 : cos (tf (1/2)) * cos (tf (1/2)) <= cos t * cos t) by (apply Rmult_le_compat; lra).
    assert (q2 : cos t * cos t <= 1 * 1) by (apply Rmult_le_compat; lra).
    assert (q3 : 0 <= cos (tf (1/2)) * cos (tf (1/2))) by (apply Rmult_le_pos; lra).
    assert (a0 : 0 <= a * a) by apply Rle_0_sqr. assert (r0 : 0 <= r * r) by apply Rle_0_sqr.
    unfold gS. split.
    - assert (cos (tf (1/2)) * cos (tf (1/2)) * (r * r) <= 1 * (r * r)) by (apply Rmult_le_compat_r; lra).
      assert (cos (tf (1/2)) * cos (tf (1/2)) * (a * a) <= cos t * cos t * (a * a)) by (apply Rmult_le_compat_r; lra). lra.
    - assert (cos t * cos t * (a * a) <= 1 * (a * a)) by (apply Rmult_le_compat_r; lra). lra.
  Qed.

  Lemma vol_root : forall S, 0 < S -> S * sqrt (1 + 2 * r / S) = sqrt (S * (S + 2 * r)).
  Proof.
    intros S hS. rewrite <- (sqrt_square S) at 1 by lra. rewrite <- sqrt_mult.
    - f_equal. field. lra.
    - apply Rmult_le_pos; lra.
    - assert (0 < 2 * r / S) by (apply Rmult_lt_0_compat; [lra|apply Rinv_0_lt_compat; exact hS]). lra.
  Qed.

  Lemma polar_bounds : cos d * cos d * pol_area <= A <= pol_area.
  Proof.
    pose proof PI_RGT_0 as pp. assert (S0 : 0 < r * r + a * a).
    { pose proof (Rle_0_sqr a) as q. unfold Rsqr in q. assert (0 < r * r) by (apply Rmult_lt_0_compat; assumption). lra. }
    set (S := r * r + a * a) in *. set (K := sqrt (S * (S + 2 * r))).
    assert (K0 : 0 <= K) by apply sqrt_pos.
    assert (eP : pol_area = e * K * (1 - cos d)).
    { unfold pol_area. fold S. unfold K. rewrite <- (vol_root S S0). ring. }
    assert (rng : forall s, 0 <= s <= 1/2 -> 0 <= tf s <= d).
    { intros s hs. pose proof (tf_incr 0 s (proj1 hs)). pose proof (tf_incr s (1/2) (proj2 hs)). unfold d. lra. }
    assert (sn : forall s, 0 <= s <= 1/2 -> 0 <= sin (tf s)).
    { intros s hs. specialize (rng s hs). apply sin_ge_0; unfold d in *; lra. }
    destruct I as (F & dF & ->).
    assert (G : forall c, exists G, (forall s, derivable_pt_lim G s (c * (e * K * (df s * sin (tf s))))) /\ G (1/2) - G 0 = c * pol_area).
    { intros c. exists (fun s => - (c * (e * K) * cos (tf s))). split.
      - intros s. eapply dl_eq; [apply dl_opp, dl_mult; [apply dl_const|apply dl_cos, Dt]|cbn beta; ring].
      - rewrite t0, cos_0, eP. fold d. ring. }
    assert (body : forall s, 0 <= s <= 1/2 ->
      cos d * cos d * (e * K * (df s * sin (tf s))) <= e * df s * gS a r (tf s) * sin (tf s) * sqrt (1 + gZ 1 a r (tf s)) <=
      1 * (e * K * (df s * sin (tf s)))).
    { intros s hs. specialize (rng s hs). specialize (sn s hs). specialize (dp s).
      destruct (S_axis (tf s) rng) as [lo hi]. fold S in lo, hi. pose proof (gS_pos a r (tf s) rp) as Sp.
      set (Q := gS a r (tf s)) in *.
      replace (e * df s * Q * sin (tf s) * sqrt (1 + gZ 1 a r (tf s))) with (sqrt (Q * (Q + 2 * r)) * (e * (df s * sin (tf s)))).
      2:{ rewrite <- (vol_root Q Sp). unfold gZ. fold Q. replace (2 * 1 * r) with (2 * r) by ring. ring. }
      assert (w : 0 <= e * (df s * sin (tf s))). { apply Rmult_le_pos; [lra|apply Rmult_le_pos; lra]. }
      set (c := cos d * cos d) in *.
      assert (c1 : 0 <= c <= 1).
      { unfold c. split; [apply Rle_0_sqr|]. pose proof (sin2_cos2 d) as q. pose proof (Rle_0_sqr (sin d)) as q'. unfold Rsqr in q, q'. lra. }
      assert (up : sqrt (Q * (Q + 2 * r)) <= K).
      { unfold K. apply sqrt_le_1_alt. apply Rmult_le_compat; lra. }
      assert (dn : c * K <= sqrt (Q * (Q + 2 * r))).
      { unfold K. rewrite <- (sqrt_square c) by lra. rewrite <- sqrt_mult; [|apply Rmult_le_pos; lra|apply Rmult_le_pos; lra].
        apply sqrt_le_1_alt.
        replace (c * c * (S * (S + 2 * r))) with (c * S * (c * S + c * (2 * r))) by ring.
        assert (0 <= c * S) by (apply Rmult_le_pos; lra).
        assert (c * (2 * r) <= 1 * (2 * r)) by (apply Rmult_le_compat_r; lra).
        assert (0 <= c * (2 * r)) by (apply Rmult_le_pos; lra).
        apply Rmult_le_compat; lra. }
      split.
      - replace (c * (e * K * (df s * sin (tf s)))) with (c * K * (e * (df s * sin (tf s)))) by ring. apply Rmult_le_compat_r; assumption.
      - replace (1 * (e * K * (df s * sin (tf s)))) with (K * (e * (df s * sin (tf s)))) by ring. apply Rmult_le_compat_r; assumption. }
    assert (hf : 0 < 1/2) by lra.
    split.
    - destruct (G (cos d * cos d)) as (G1 & dG & <-). apply (integral_le _ _ _ _ _ _ hf dG dF). intros s hs. apply body; exact hs.
    - destruct (G 1) as (G1 & dG & E). rewrite Rmult_1_l in E. rewrite <- E. apply (integral_le _ _ _ _ _ _ hf dF dG). intros s hs. apply body; exact hs.
  Qed.
End Polar.

Lemma small_branch : forall K dth, 0 <= K -> 0 < dth -> 1 / 2 * dth < 1 / 1000 ->
  K * (1 - cos (1/2 * dth)) * (1 - 1 / 1000000000000) <= K * (48 - sqr dth) * sqr dth / 384 <= K * (1 - cos (1/2 * dth)).
Proof.
  intros K dth K0 q l. set (d := 1/2 * dth) in *. assert (ed : dth = 2 * d) by (unfold d; lra). rewrite ed in *.
  destruct (one_minus_cos d ltac:(lra)) as [b1 b2].
  replace (K * (48 - sqr (2*d)) * sqr (2*d) / 384) with (K * (d*d/2 - d*d*(d*d)/24)) by (unfold sqr; field).
  assert (dd : 0 <= d * d <= 1/1000000) by (split; nra).
  assert (q1 : d*d*(d*d) <= 1/1000000 * (d*d)) by (apply Rmult_le_compat_r; lra).
  assert (q0 : 0 <= d*d*(d*d)) by (apply Rmult_le_pos; lra).
  assert (q2 : d*d*(d*d)*(d*d) <= 1/1000000 * (1/1000000 * (d*d))).
  { rewrite Rmult_comm. apply Rmult_le_compat; lra. }
  split; [|apply Rmult_le_compat_l; lra].
  rewrite Rmult_assoc. apply Rmult_le_compat_l; lra.
Qed.

Lemma ks_polar : forall eps a g x1 A, sensible g -> x2_min g = 0 -> k_th g (1/2) <= PI / 2 -> 0 < k_r g x1 ->
  integral (fun s => m_sqrt_det_h (ks eps a g) (x1, s)) 0 (1/2) A ->
  A * (1 - 1 / 1000000000000) <= m_polar_area (ks eps a g) x1 /\
  cos (k_th g (1/2)) * cos (k_th g (1/2)) * m_polar_area (ks eps a g) x1 <= A.
Proof.
  intros eps a g x1 A S z hp rp I. pose proof (s_dr_pos g S) as p. pose proof (s_dth_pos g S) as q.
  assert (Dt : forall s, derivable_pt_lim (k_th g) s (s_dth g)) by (intros; unfold k_th; eapply dl_eq; [dl|cbn beta; ring]).
  assert (t0 : k_th g 0 = 0) by (unfold k_th; rewrite z; ring).
  assert (I' : integral (fun s => s_dr g * s_dth g * gS a (k_r g x1) (k_th g s) * sin (k_th g s) * sqrt (1 + gZ 1 a (k_r g x1) (k_th g s))) 0 (1/2) A).
  { destruct I as (F & dF & E). exists F. split; [|exact E]. intros s. eapply dl_eq; [apply dF|].
    cbn [ks m_sqrt_det_h]. unfold k_sqrt_det_h. cbn [fst snd]. rewrite (ez' a (k_r g x1) (k_th g s)), (eS' a (k_r g x1) (k_th g s)). reflexivity. }
  pose proof (polar_bounds a (k_r g x1) (s_dr g) (k_th g) (fun _ => s_dth g) A rp p Dt (fun _ => q) t0 hp I') as [b1 b2].
  assert (hd : k_th g (1/2) = 1/2 * s_dth g) by (unfold k_th; rewrite z; ring).
  unfold pol_area in b1, b2. rewrite hd in *. set (r := k_r g x1) in *. set (d := 1/2 * s_dth g) in *.
  set (K := s_dr g * (r * r + a * a) * sqrt (1 + 2 * r / (r * r + a * a))) in *.
  assert (S0 : 0 <= r * r + a * a). { pose proof (Rle_0_sqr a) as w. pose proof (Rle_0_sqr r) as w'. unfold Rsqr in w, w'. lra. }
  assert (K0 : 0 <= K). { unfold K. apply Rmult_le_pos; [apply Rmult_le_pos; lra|apply sqrt_pos]. }
  assert (cd : 0 <= cos d * cos d) by apply Rle_0_sqr.
  assert (eK : s_dr g * (sqr r + sqr a) * sqrt (1 + 2 * r / (sqr r + sqr a)) = K) by reflexivity.
  cbn [ks m_polar_area]. unfold k_polar_area, s_small, small_angle_lim. fold d. fold r. rewrite !eK.
  destruct (Rlt_dec d (1/1000)) as [l|nl].
  - destruct (small_branch K (s_dth g) K0 q l) as [c1 c2]. fold d in c1, c2. split.
    + apply Rle_trans with (K * (1 - cos d) * (1 - 1 / 1000000000000)); [|exact c1]. apply Rmult_le_compat_r; lra.
    + apply Rle_trans with (cos d * cos d * (K * (1 - cos d))); [|exact b1]. apply Rmult_le_compat_l; assumption.
  - split; [|exact b1].
    assert (0 <= A). { apply Rle_trans with (2 := b1). apply Rmult_le_pos; [exact cd|]. apply Rmult_le_pos; [exact K0|]. pose proof (COS_bound d). lra. }
    lra.
Qed.

Lemma ks0_polar : forall g x1, sensible g -> x2_min g = 0 ->
  integral (fun s => m_sqrt_det_h (ks0 g) (x1, s)) 0 (1/2) (m_polar_area (ks0 g) x1).
Proof.
  intros g x1 S z. exists (fun s => - (s_dr g * sqr (k_r g x1) * cos (k_th g s))). split.
  - intros s. cbn [ks0 m_sqrt_det_h]. unfold k0_sqrt_det_h, k_th. cbn [fst snd]. eapply dl_eq; [dl|cbn beta; ring].
  - cbn [ks0 m_polar_area]. unfold k0_polar_area, k_th. rewrite z, Rmult_0_l, !Rplus_0_r, cos_0. ring.
Qed.

Lemma qks_polar : forall eps a g r0 h m x1 A, q_ok eps g r0 h -> q_make eps g r0 h = Some m -> x2_min g = 0 ->
  qk_th m (1/2) <= PI / 2 -> 0 < qk_r m x1 ->
  integral (fun s => m_sqrt_det_h (qks a m) (x1, s)) 0 (1/2) A ->
  (small_angle_lim <= qk_th m (1/2) ->
     A <= m_polar_area (qks a m) x1 /\ cos (qk_th m (1/2)) * cos (qk_th m (1/2)) * m_polar_area (qks a m) x1 <= A) /\
  (qk_th m (1/2) < small_angle_lim -> m_polar_area (qks a m) x1 < 27 / 100 * A).
Proof.
  intros eps a g r0 h m x1 A OK MK z hp rp I. pose proof (q_eta_zero _ _ _ _ _ OK MK z) as ez.
  destruct (q_fields eps g r0 h m OK MK) as (f1 & f2 & f3 & f4 & f5 & f6 & f7 & f8 & f9).
  assert (hq : 0 <= q_h0 m < 1) by (rewrite f3; apply OK).
  assert (dc : 0 < q_dchi m) by assumption. assert (de : 0 < q_deta m) by assumption.
  assert (ep : 0 < q_dchi m * exp (q_chi m x1)) by (apply Rmult_lt_0_compat; [exact dc|apply exp_pos]).
  set (df := fun s => q_deta m * dtheta_deta (q_eps m) (q_h0 m) (q_eta m s)).
  assert (dp : forall s, 0 < df s) by (intros; apply Rmult_lt_0_compat; [exact de|apply dtde_pos; exact hq]).
  assert (Dt : forall s, derivable_pt_lim (qk_th m) s (df s)).
  { intros s. unfold qk_th. eapply dl_eq.
    - apply (dl_comp (fun s => q_eta m s) (eta2theta (q_eps m) (q_h0 m))); [unfold q_eta; dl|apply dl_e2t].
    - cbn beta. unfold df. ring. }
  assert (t0 : qk_th m 0 = 0). { unfold qk_th, q_eta. rewrite ez. replace (0 * q_deta m + 0) with 0 by ring. apply e2t_zero. }
  assert (I' : integral (fun s => q_dchi m * exp (q_chi m x1) * df s * gS a (qk_r m x1) (qk_th m s) * sin (qk_th m s) * sqrt (1 + gZ 1 a (qk_r m x1) (qk_th m s))) 0 (1/2) A).
  { destruct I as (F & dF & E). exists F. split; [|exact E]. intros s. eapply dl_eq; [apply dF|].
    cbn [qks m_sqrt_det_h]. unfold qk_sqrt_det_h. cbn [fst snd]. fold (qk_r m x1). rewrite (ez' a (qk_r m x1) (qk_th m s)), (eS' a (qk_r m x1) (qk_th m s)). unfold df. ring. }
  pose proof (polar_bounds a (qk_r m x1) _ (qk_th m) df A rp ep Dt dp t0 hp I') as [b1 b2].
  assert (hd : qk_th m (1/2) = eta2theta (q_eps m) (q_h0 m) (1/2 * q_deta m)).
  { unfold qk_th. f_equal. unfold q_eta. rewrite ez. ring. }
  assert (d0 : 0 < qk_th m (1/2)).
  { rewrite hd, <- (e2t_zero (q_eps m) (q_h0 m)). apply e2t_incr; [exact hq|]. lra. }
  unfold pol_area in b1, b2. rewrite hd in *. set (r := qk_r m x1) in *. set (d := eta2theta (q_eps m) (q_h0 m) (1/2 * q_deta m)) in *.
  set (K := q_dchi m * exp (q_chi m x1) * (r * r + a * a) * sqrt (1 + 2 * r / (r * r + a * a))) in *.
  assert (S0 : 0 < r * r + a * a). { pose proof (Rle_0_sqr a) as w. unfold Rsqr in w. assert (0 < r * r) by (apply Rmult_lt_0_compat; exact rp). lra. }
  assert (K0 : 0 < K).
  { unfold K. apply Rmult_lt_0_compat; [apply Rmult_lt_0_compat; lra|apply sqrt_lt_R0].
    assert (0 < 2 * r / (r * r + a * a)) by (apply Rmult_lt_0_compat; [lra|apply Rinv_0_lt_compat; exact S0]). lra. }
  assert (eK : q_dchi m * exp (q_chi m x1) * (sqr r + sqr a) * sqrt (1 + 2 * r / (sqr r + sqr a)) = K) by reflexivity.
  cbn [qks m_polar_area]. unfold qk_polar_area, q_small. fold (qk_r m x1). fold r. fold d. rewrite !eK. unfold small_angle_lim in *.
  split; intros hs; (destruct (Rlt_dec d (1/1000)) as [l|nl]; [|]).
  - exfalso; lra.
  - split; assumption.
  - destruct (one_minus_cos d ltac:(lra)) as [c1 c2].
    assert (dd : 0 < d * d <= 1/1000000) by (split; nra).
    assert (q1 : d*d*(d*d) <= 1/1000000 * (d*d)) by (apply Rmult_le_compat_r; lra).
    assert (q0 : 0 <= d*d*(d*d)) by (apply Rmult_le_pos; lra).
    assert (cd : 999/1000 <= cos d * cos d).
    { assert (999/1000 < cos d * cos d); [|lra]. assert (1 - 1/1000000 <= cos d).
      { assert (d*d*(d*d)*(d*d) <= 1/1000000 * (1/1000000 * (d*d))) by (rewrite Rmult_comm; apply Rmult_le_compat; lra). lra. }
      assert ((1 - 1/1000000) * (1 - 1/1000000) <= cos d * cos d) by (apply Rmult_le_compat; lra). lra. }
    assert (b3 : 999/1000 * (K * (1 - cos d)) <= A).
    { apply Rle_trans with (2 := b1). apply Rmult_le_compat_r; [|exact cd]. apply Rmult_le_pos; lra. }
    apply Rlt_le_trans with (27/100 * (999/1000 * (K * (1 - cos d)))); [|lra].
    replace (K * (48 - sqr d) * sqr d / 384) with (K * (d*d/8 - d*d*(d*d)/384)) by (unfold sqr; field).
    replace (27/100 * (999/1000 * (K * (1 - cos d)))) with (K * (27/100 * (999/1000) * (1 - cos d))) by ring.
    apply Rmult_lt_compat_l; [exact K0|]. lra.
  - exfalso; lra.
Qed.

(* ------------------------------------------------------------------ *)
(** * Cell size *)

Lemma fold_min : forall (f : R -> coord2 -> R) (size : coord2 -> R),
  (forall m x, 0 < size x -> (m < 0 -> f m x = size x) /\ (0 < m -> f m x = Rmin m (size x))) ->
  forall l m, (forall x, In x l -> 0 < size x) -> (0 < m \/ m < 0) -> (l <> nil \/ 0 < m) ->
  let d := fold_left f l m in
  0 < d /\ (forall x, In x l -> d <= size x) /\ (0 < m -> d <= m) /\ ((0 < m /\ d = m) \/ exists x, In x l /\ d = size x).
Proof.
  intros f size Hf. induction l as [|y l IH]; intros m pos hm hl d.
  - cbn in d. destruct hl as [e|h]; [congruence|]. unfold d.
    split; [exact h|]. split; [intros x []|]. split; [lra|]. left. split; [exact h|reflexivity].
  - cbn in d. assert (py : 0 < size y) by (apply pos; left; reflexivity).
    destruct (Hf m y py) as [F1 F2].
    assert (E : (m < 0 /\ f m y = size y) \/ (0 < m /\ f m y = Rmin m (size y))).
    { destruct hm as [h|h]; [right|left]; split; auto. }
    assert (p' : 0 < f m y).
    { destruct E as [[_ ->]|[h ->]]; [exact py|]. apply Rmin_pos; assumption. }
    destruct (IH (f m y) (fun x hx => pos x (or_intror hx)) (or_introl p') (or_intror p')) as (d0 & dl & dm & dex).
    fold d in d0, dl, dm, dex. specialize (dm p').
    assert (fy : f m y <= size y).
    { destruct E as [[_ ->]|[h ->]]; [lra|apply Rmin_r]. }
    assert (fm : 0 < m -> f m y <= m).
    { intros h. destruct E as [[h' _]|[_ ->]]; [lra|apply Rmin_l]. }
    split; [exact d0|]. split.
    { intros x [<-|hx]; [lra|apply dl, hx]. }
    split; [intros h; specialize (fm h); lra|].
    destruct dex as [[_ e]|(x & hx & e)].
    + destruct E as [[h e']|[h e']].
      * right. exists y. split; [left; reflexivity|]. rewrite e, e'. reflexivity.
      * rewrite e'  in e. unfold Rmin in e. destruct (Rle_dec m (size y)).
        -- left. split; assumption.
        -- right. exists y. split; [left; reflexivity|exact e].
    + right. exists x. split; [right; exact hx|exact e].
Qed.

Lemma in_centres : forall n1 n2 x, In x (cell_centres n1 n2) <->
  exists i j, (i < n1)%nat /\ (j < n2)%nat /\ x = (INR i + 1/2, INR j + 1/2).
Proof.
  intros n1 n2 x. unfold cell_centres. rewrite in_flat_map. split.
  - intros (i & hi & hx). apply in_map_iff in hx. destruct hx as (j & <- & hj). apply in_seq in hi, hj.
    exists i, j. repeat split; lia.
  - intros (i & j & hi & hj & ->). exists i. split; [apply in_seq; lia|]. apply in_map_iff. exists j. split; [reflexivity|apply in_seq; lia].
Qed.

Lemma smallest : forall f size n1 n2, 
  (forall m x, 0 < size x -> (m < 0 -> f m x = size x) /\ (0 < m -> f m x = Rmin m (size x))) ->
  (0 < n1)%nat -> (0 < n2)%nat ->
  (forall i j, (i < n1)%nat -> (j < n2)%nat -> 0 < size (INR i + 1/2, INR j + 1/2)) ->
  smallest_cell size n1 n2 (fold_left f (cell_centres n1 n2) (-1)).
Proof.
  intros f size n1 n2 Hf h1 h2 pos.
  assert (P : forall x, In x (cell_centres n1 n2) -> 0 < size x).
  { intros x hx. apply in_centres in hx. destruct hx as (i & j & hi & hj & ->). apply pos; assumption. }
  assert (N : cell_centres n1 n2 <> nil).
  { intros e. assert (K : In (INR 0 + 1/2, INR 0 + 1/2) (cell_centres n1 n2)) by (apply in_centres; exists 0%nat, 0%nat; auto).
    rewrite e in K. exact K. }
  assert (m0 : 0 < -1 \/ -1 < 0) by lra.
  destruct (fold_min f size Hf (cell_centres n1 n2) (-1) P m0 (or_introl N)) as (_ & le & _ & ex).
  split.
  - destruct ex as [[h _]|(x & hx & e)]; [lra|]. apply in_centres in hx. destruct hx as (i & j & hi & hj & ->). exists i, j. auto.
  - intros i j hi hj. apply le, in_centres. exists i, j. auto.
Qed.

Lemma find_min_smallest : forall size n1 n2, (0 < n1)%nat -> (0 < n2)%nat ->
  (forall i j, (i < n1)%nat -> (j < n2)%nat -> 0 < size (INR i + 1/2, INR j + 1/2)) ->
  smallest_cell size n1 n2 (find_min size n1 n2).
Proof.
  intros. unfold find_min. apply smallest; try assumption. intros m x p. cbv zeta. split; intros h.
  - destruct (Rlt_dec (size x) m); [lra|]. destruct (Rlt_dec m 0); [reflexivity|lra].
  - unfold Rmin. destruct (Rlt_dec (size x) m), (Rle_dec m (size x)); try lra. destruct (Rlt_dec m 0); [lra|reflexivity].
Qed.
Lemma find_min_ge_smallest : forall size n1 n2, (0 < n1)%nat -> (0 < n2)%nat ->
  (forall i j, (i < n1)%nat -> (j < n2)%nat -> 0 < size (INR i + 1/2, INR j + 1/2)) ->
  smallest_cell size n1 n2 (find_min_ge size n1 n2).
Proof.
  intros. unfold find_min_ge. apply smallest; try assumption. intros m x p. cbv zeta. split; intros h.
  - destruct (Rle_dec (size x) m); [lra|]. destruct (Rlt_dec m 0); [reflexivity|lra].
  - unfold Rmin. destruct (Rle_dec (size x) m), (Rle_dec m (size x)); try lra; destruct (Rlt_dec m 0); lra.
Qed.

Section Speed.
  Variables (mu a : R) (M : grmet) (x : coord2) (e1 e2 : R).
  Hypothesis F : form mu a M x e1 e2.
  Hypothesis Rg : gr_regular M x.

  Lemma form_size_pos : 0 < gr_cell_size M x.
  Proof.
    destruct (form_triangular _ _ _ _ _ _ F Rg) as (A0 & b & c & q & hA & hb & hc & S1 & S2 & S3 & H1 & H2 & H3 & H4 & H5 & H6 & H7 & H8 & H9 & H10).
    destruct (form_adm _ _ _ _ _ _ F Rg) as (al & _).
    pose proof (fc_Z _ _ _ _ _ _ F Rg) as Z. pose proof (fo_e1 _ _ _ _ _ _ F) as p1.
    assert (be : 0 <= m_beta1 M x).
    { rewrite (fo_beta _ _ _ _ _ _ F). apply Rmult_le_pos; [exact Z|]. left. apply Rinv_0_lt_compat, Rmult_lt_0_compat; lra. }
    unfold gr_cell_size. rewrite H1, H4. apply Rmult_lt_0_compat; [lra|]. apply Rinv_0_lt_compat.
    assert (0 < sqrt (A0 * A0 + 1 / (b * b))).
    { apply sqrt_lt_R0. assert (0 < A0 * A0) by (apply Rmult_lt_0_compat; assumption).
      assert (0 < 1 / (b * b)) by (apply Rmult_lt_0_compat; [lra|apply Rinv_0_lt_compat, Rmult_lt_0_compat; assumption]). lra. }
    assert (0 < m_alpha M x * sqrt (A0 * A0 + 1 / (b * b))) by (apply Rmult_lt_0_compat; assumption). lra.
  Qed.

  (** No particle moves faster than one cell per cell size. *)
  Lemma form_speed : forall norm u i, 0 <= norm -> 0 < norm + quad3 (fun i j => m_h M i j x) u -> (i = 1 \/ i = 2)%nat ->
    Rabs (gr_velocity M x norm u i) <= 1 / gr_cell_size M x.
  Proof.
    intros norm [[u1 u2] u3] i hn hg hi.
    destruct (form_triangular _ _ _ _ _ _ F Rg) as (A0 & b & c & q & hA & hb & hc & S1 & S2 & S3 & H1 & H2 & H3 & H4 & H5 & H6 & H7 & H8 & H9 & H10).
    destruct (form_adm _ _ _ _ _ _ F Rg) as (al & _).
    pose proof (fc_Z _ _ _ _ _ _ F Rg) as Z. pose proof (fo_e1 _ _ _ _ _ _ F) as p1.
    assert (be : 0 <= m_beta1 M x).
    { rewrite (fo_beta _ _ _ _ _ _ F). apply Rmult_le_pos; [exact Z|]. left. apply Rinv_0_lt_compat, Rmult_lt_0_compat; lra. }
    assert (z1 : m_h M 1 2 x = 0) by (rewrite (fo_h _ _ _ _ _ _ F); reflexivity).
    assert (z2 : m_h M 2 1 x = 0) by (rewrite (fo_h _ _ _ _ _ _ F); reflexivity).
    assert (z3 : m_h M 2 3 x = 0) by (rewrite (fo_h _ _ _ _ _ _ F); reflexivity).
    assert (z4 : m_h M 3 2 x = 0) by (rewrite (fo_h _ _ _ _ _ _ F); reflexivity).
    set (X := A0 * u1 - q * A0 / (c * c) * u3).
    assert (Q : quad3 (fun i j => m_h M i j x) (u1, u2, u3) = X * X + u2 / b * (u2 / b) + u3 / c * (u3 / c)).
    { unfold quad3, sum3, comp4, c1, c2, c3. cbn [fst snd]. rewrite z1, z2, z3, z4, H1, H2, H3, H4, H5. unfold X. field. repeat split; lra. }
    rewrite Q in hg.
    assert (eg : gr_gamma M x norm (u1, u2, u3) = sqrt (norm + (X * X + u2 / b * (u2 / b) + u3 / c * (u3 / c)))) by (unfold gr_gamma; rewrite Q; reflexivity).
    set (Gm := sqrt (norm + (X * X + u2 / b * (u2 / b) + u3 / c * (u3 / c)))) in *.
    assert (gp : 0 < Gm) by (apply sqrt_lt_R0; exact hg).
    pose proof (Rle_0_sqr X) as s1. pose proof (Rle_0_sqr (u2 / b)) as s2. pose proof (Rle_0_sqr (u3 / c)) as s3. unfold Rsqr in s1, s2, s3.
    assert (bd : forall y, y * y <= norm + (X * X + u2 / b * (u2 / b) + u3 / c * (u3 / c)) -> Rabs y <= Gm).
    { intros y hy. rewrite <- sqrt_Rsqr_abs. apply sqrt_le_1_alt. exact hy. }
    assert (sz : 1 / gr_cell_size M x = m_alpha M x * sqrt (A0 * A0 + 1 / b * (1 / b)) + m_beta1 M x).
    { pose proof form_size_pos as P. unfold gr_cell_size in *. rewrite H1, H4 in *. replace (1 / b * (1 / b)) with (1 / (b * b)) by (field; lra).
      set (dd := m_alpha M x * sqrt (A0 * A0 + 1 / (b * b)) + m_beta1 M x) in *.
      assert (dd <> 0). { intros e. rewrite e in P. unfold Rdiv in P. rewrite Rinv_0 in P. lra. }
      field. assumption. }
    rewrite sz.
    assert (ib : 0 < 1 / b) by (apply Rmult_lt_0_compat; [lra|apply Rinv_0_lt_compat; exact hb]).
    assert (k1 : A0 <= sqrt (A0 * A0 + 1 / b * (1 / b))).
    { rewrite <- (sqrt_square A0) at 1 by lra. apply sqrt_le_1_alt. assert (0 <= 1 / b * (1 / b)) by (apply Rmult_le_pos; lra). lra. }
    assert (k2 : 1 / b <= sqrt (A0 * A0 + 1 / b * (1 / b))).
    { rewrite <- (sqrt_square (1 / b)) at 1 by lra. apply sqrt_le_1_alt. assert (0 <= A0 * A0) by (apply Rmult_le_pos; lra). lra. }
    set (K := sqrt (A0 * A0 + 1 / b * (1 / b))) in *.
    assert (gen : forall k y, 0 < k -> k <= K -> Rabs y <= Gm -> Rabs (m_alpha M x * (k * y) / Gm) <= m_alpha M x * K).
    { intros k y k0 kK hy. replace (m_alpha M x * (k * y) / Gm) with (m_alpha M x * k * (y / Gm)) by (field; lra).
      rewrite Rabs_mult, (Rabs_pos_eq (m_alpha M x * k)) by (apply Rmult_le_pos; lra).
      assert (y1 : Rabs (y / Gm) <= 1).
      { unfold Rdiv. rewrite Rabs_mult, Rabs_inv, (Rabs_pos_eq Gm) by lra. apply Rmult_le_reg_r with Gm; [exact gp|]. rewrite Rmult_assoc, Rinv_l by lra. lra. }
      apply Rle_trans with (m_alpha M x * k * 1).
      - apply Rmult_le_compat_l; [apply Rmult_le_pos; lra|exact y1].
      - rewrite Rmult_1_r. apply Rmult_le_compat_l; lra. }
    unfold gr_velocity. rewrite eg.
    destruct hi as [-> | ->].
    - replace (gr_raise M x (u1, u2, u3) 1) with (A0 * X).
      2:{ unfold gr_raise, sum3, comp4, c1, c2, c3. cbn [fst snd]. rewrite H1, z1, H2. unfold X. field. lra. }
      cbn [shift].
      assert (B : Rabs (m_alpha M x * (A0 * X) / Gm) <= m_alpha M x * K) by (apply gen; [exact hA|exact k1|apply bd; lra]).
      unfold Rabs in *. destruct (Rcase_abs _), (Rcase_abs _); lra.
    - replace (gr_raise M x (u1, u2, u3) 2) with (1 / b * (u2 / b)).
      2:{ unfold gr_raise, sum3, comp4, c1, c2, c3. cbn [fst snd]. rewrite H4, z2, z3. field. lra. }
      cbn [shift].
      assert (B : Rabs (m_alpha M x * (1 / b * (u2 / b)) / Gm) <= m_alpha M x * K) by (apply gen; [exact ib|exact k2|apply bd; lra]).
      rewrite Rminus_0_r. lra.
  Qed.
End Speed.

(* ------------------------------------------------------------------ *)
(** * Cell centres are regular points *)

Lemma centre_fraction : forall n i, (0 < n)%Z -> (i < Z.to_nat n)%nat -> 0 < INR i + 1/2 < IZR n.
Proof.
  intros n i hn hi. pose proof (pos_INR i) as p. split; [lra|].
  rewrite INR_IZR_INZ. assert (q : (Z.of_nat i + 1 <= n)%Z) by lia. apply IZR_le in q. rewrite plus_IZR in q. lra.
Qed.

Lemma sph_centre : forall g i j, sensible g -> half_plane g -> (i < Z.to_nat (nx1 g))%nat -> (j < Z.to_nat (nx2 g))%nat ->
  x1_min g < k_r g (INR i + 1/2) /\ 0 < k_th g (INR j + 1/2) < PI.
Proof.
  intros g i j S (h1 & h2 & h3) hi hj. pose proof (s_dr_pos g S) as p. pose proof (s_dth_pos g S) as q.
  destruct S as (a & b & c & e). destruct (centre_fraction _ _ c hi) as [u1 u2]. destruct (centre_fraction _ _ e hj) as [v1 v2].
  pose proof (izr_pos _ e) as e'.
  assert (eq : IZR (nx2 g) * s_dth g = x2_max g - x2_min g) by (unfold s_dth; field; lra).
  unfold k_r, k_th. assert (0 < (INR i + 1/2) * s_dr g) by (apply Rmult_lt_0_compat; assumption).
  assert (0 < (INR j + 1/2) * s_dth g) by (apply Rmult_lt_0_compat; assumption).
  assert ((INR j + 1/2) * s_dth g < IZR (nx2 g) * s_dth g) by (apply Rmult_lt_compat_r; assumption). lra.
Qed.
Lemma ks_centre : forall eps a g i j, sensible g -> half_plane g -> (i < Z.to_nat (nx1 g))%nat -> (j < Z.to_nat (nx2 g))%nat ->
  gr_regular (ks eps a g) (INR i + 1/2, INR j + 1/2).
Proof.
  intros eps a g i j S Hp hi hj. destruct (sph_centre g i j S Hp hi hj) as [u v]. destruct Hp as (h & _).
  split; cbn [ks m_r m_th fst snd]; [lra|exact v].
Qed.
Lemma ks0_centre : forall g i j, sensible g -> half_plane g -> (i < Z.to_nat (nx1 g))%nat -> (j < Z.to_nat (nx2 g))%nat ->
  gr_regular (ks0 g) (INR i + 1/2, INR j + 1/2).
Proof.
  intros g i j S Hp hi hj. destruct (sph_centre g i j S Hp hi hj) as [u v]. destruct Hp as (h & _).
  split; cbn [ks0 m_r m_th fst snd]; [lra|exact v].
Qed.
Lemma q_centre : forall eps g r0 h m i j, q_ok eps g r0 h -> q_make eps g r0 h = Some m -> half_plane g ->
  (i < Z.to_nat (nx1 g))%nat -> (j < Z.to_nat (nx2 g))%nat ->
  0 < qk_r m (INR i + 1/2) /\ 0 < qk_th m (INR j + 1/2) < PI.
Proof.
  intros eps g r0 h m i j OK MK (h1 & h2 & h3) hi hj.
  destruct (q_fields eps g r0 h m OK MK) as (f1 & f2 & f3 & f4 & f5 & f6 & f7 & f8 & f9).
  destruct OK as (he & (a & b & c & e) & hr & hh).
  destruct (centre_fraction _ _ c hi) as [u1 u2]. destruct (centre_fraction _ _ e hj) as [v1 v2].
  split.
  - unfold qk_r. rewrite f2. assert (K : exp (q_chi_min m) < exp (q_chi m (INR i + 1/2))).
    { apply exp_increasing. unfold q_chi. assert (0 < (INR i + 1/2) * q_dchi m) by (apply Rmult_lt_0_compat; assumption). lra. }
    rewrite f4, exp_ln in K by lra. lra.
  - assert (0 < (INR j + 1/2) * q_deta m) by (apply Rmult_lt_0_compat; assumption).
    assert ((INR j + 1/2) * q_deta m < IZR (nx2 g) * q_deta m) by (apply Rmult_lt_compat_r; assumption).
    unfold qk_th. rewrite f1, f3. split.
    + apply Rle_lt_trans with (1 := h2). rewrite <- f7. apply e2t_incr; [exact hh|]. unfold q_eta. lra.
    + apply Rlt_le_trans with (2 := h3). rewrite <- f8. apply e2t_incr; [exact hh|]. unfold q_eta. lra.
Qed.
Lemma qks_centre : forall eps a g r0 h m i j, q_ok eps g r0 h -> q_make eps g r0 h = Some m -> half_plane g ->
  (i < Z.to_nat (nx1 g))%nat -> (j < Z.to_nat (nx2 g))%nat ->
  gr_regular (qks a m) (INR i + 1/2, INR j + 1/2).
Proof. intros eps a g r0 h m i j OK MK Hp hi hj. exact (q_centre eps g r0 h m i j OK MK Hp hi hj). Qed.

Lemma nat_pos : forall n, (0 < n)%Z -> (0 < Z.to_nat n)%nat. Proof. intros; lia. Qed.

Lemma ks_smallest : forall eps a g, sensible g -> half_plane g ->
  smallest_cell (gr_cell_size (ks eps a g)) (Z.to_nat (nx1 g)) (Z.to_nat (nx2 g))
    (find_min (gr_cell_size (ks eps a g)) (Z.to_nat (nx1 g)) (Z.to_nat (nx2 g))).
Proof.
  intros eps a g S Hp. apply find_min_smallest; [apply nat_pos, S|apply nat_pos, S|]. intros i j hi hj.
  pose proof (ks_centre eps a g i j S Hp hi hj) as Rg. eapply form_size_pos; [eapply ks_form; eassumption|exact Rg].
Qed.
Lemma qks_smallest : forall eps a g r0 h m, q_ok eps g r0 h -> q_make eps g r0 h = Some m -> half_plane g ->
  smallest_cell (gr_cell_size (qks a m)) (Z.to_nat (nx1 g)) (Z.to_nat (nx2 g))
    (find_min (gr_cell_size (qks a m)) (Z.to_nat (nx1 g)) (Z.to_nat (nx2 g))).
Proof.
  intros eps a g r0 h m OK MK Hp. pose proof OK as (_ & S & _).
  apply find_min_smallest; [apply nat_pos, S|apply nat_pos, S|]. intros i j hi hj.
  pose proof (qks_centre eps a g r0 h m i j OK MK Hp hi hj) as Rg. eapply form_size_pos; [eapply qks_form; eassumption|exact Rg].
Qed.
Lemma k0_size : forall g x, k0_cell_size g x = gr_cell_size (ks0 g) x.
Proof. intros. unfold k0_cell_size, gr_cell_size. cbn [ks0 m_alpha m_beta1 m_h]. rewrite Rmult_1_l, Rplus_0_r. reflexivity. Qed.
Lemma ks0_smallest : forall g, sensible g -> half_plane g ->
  smallest_cell (k0_cell_size g) (Z.to_nat (nx1 g)) (Z.to_nat (nx2 g))
    (find_min (k0_cell_size g) (Z.to_nat (nx1 g)) (Z.to_nat (nx2 g))).
Proof.
  intros g S Hp. apply find_min_smallest; [apply nat_pos, S|apply nat_pos, S|]. intros i j hi hj.
  pose proof (ks0_centre g i j S Hp hi hj) as Rg. rewrite k0_size. eapply form_size_pos; [eapply ks0_form; eassumption|exact Rg].
Qed.
Lemma q_smallest : forall eps g r0 h m, q_ok eps g r0 h -> q_make eps g r0 h = Some m -> half_plane g ->
  smallest_cell (q_cell_size m) (Z.to_nat (nx1 g)) (Z.to_nat (nx2 g))
    (find_min_ge (q_cell_size m) (Z.to_nat (nx1 g)) (Z.to_nat (nx2 g))).
Proof.
  intros eps g r0 h m OK MK Hp. pose proof OK as (_ & S & _ & hh).
  destruct (q_fields eps g r0 h m OK MK) as (f1 & f2 & f3 & f4 & f5 & f6 & f7 & f8 & f9).
  apply find_min_ge_smallest; [apply nat_pos, S|apply nat_pos, S|]. intros i j hi hj.
  destruct (q_centre eps g r0 h m i j OK MK Hp hi hj) as [u v].
  unfold q_cell_size. cbn [q_h]. unfold qk_r in u.
  assert (hq : 0 <= q_h0 m < 1) by (rewrite f3; exact hh).
  pose proof (dtde_pos (q_eps m) (q_h0 m) (q_eta m (INR j + 1/2)) hq) as t.
  assert (sq : forall y, 0 < y -> 0 < sqr y) by (intros; apply Rmult_lt_0_compat; assumption).
  apply Rmult_lt_0_compat; [lra|]. apply Rinv_0_lt_compat, sqrt_lt_R0.
  apply Rplus_lt_0_compat; (apply Rmult_lt_0_compat; [lra|]; apply Rinv_0_lt_compat).
  - apply Rmult_lt_0_compat; [apply sq; assumption|apply exp_pos].
  - apply Rmult_lt_0_compat; [apply Rmult_lt_0_compat; apply sq; assumption|apply sq; assumption].
Qed.

(** Spherical metric: the closed form bounds the size of every cell. *)
Lemma s_dxmin_bound : forall g x, sensible g -> 0 < x1_min g -> 0 <= fst x -> 0 < s_dxmin g <= s_cell_size g x.
Proof.
  intros g [x1 x2] S r0 hx. cbn [fst] in hx. pose proof (s_dr_pos g S) as p. pose proof (s_dth_pos g S) as q.
  unfold s_dxmin, s_cell_size. cbn [s_h].
  assert (rr : x1_min g <= x1 * s_dr g + x1_min g) by (assert (0 <= x1 * s_dr g) by (apply Rmult_le_pos; lra); lra).
  set (r := x1 * s_dr g + x1_min g) in *.
  assert (sq : forall y, 0 < y -> 0 < sqr y) by (intros; apply Rmult_lt_0_compat; assumption).
  assert (a1 : 0 < 1 / sqr (s_dr g)) by (apply Rmult_lt_0_compat; [lra|apply Rinv_0_lt_compat, sq; exact p]).
  assert (b1 : 0 < 1 / (sqr (s_dth g) * sqr r)).
  { apply Rmult_lt_0_compat; [lra|]. apply Rinv_0_lt_compat, Rmult_lt_0_compat; apply sq; lra. }
  assert (k : 1 / (sqr (s_dth g) * sqr r) <= 1 / sqr (x1_min g * s_dth g)).
  { unfold Rdiv. rewrite !Rmult_1_l. replace (sqr (x1_min g * s_dth g)) with (sqr (s_dth g) * sqr (x1_min g)) by (unfold sqr; ring).
    apply Rinv_le_contravar; [apply Rmult_lt_0_compat; apply sq; lra|].
    apply Rmult_le_compat_l; [left; apply sq; exact q|]. unfold sqr. apply Rmult_le_compat; lra. }
  assert (s1 : 0 < sqrt (1 / sqr (s_dr g) + 1 / (sqr (s_dth g) * sqr r))) by (apply sqrt_lt_R0; lra).
  assert (s2 : sqrt (1 / sqr (s_dr g) + 1 / (sqr (s_dth g) * sqr r)) <= sqrt (1 / sqr (s_dr g) + 1 / sqr (x1_min g * s_dth g))) by (apply sqrt_le_1_alt; lra).
  split.
  - apply Rmult_lt_0_compat; [lra|apply Rinv_0_lt_compat; lra].
  - unfold Rdiv at 1 4. rewrite !Rmult_1_l. apply Rinv_le_contravar; assumption.
Qed.
