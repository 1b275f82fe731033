From Coq Require Import ZArith List Bool Lia Reals Lra.
From Verif Require Import Base FieldModel FieldSpec FieldProofs FieldGR MetModel KsModel GrStepModel GrStepSpec GrStepTop AuxSpec.
Import ListNotations.
Open Scope R_scope.

Lemma half_eq : half = 1/2. Proof. unfold half. lra. Qed.
Lemma crd g i : coord g i = IZR (i - g). Proof. reflexivity. Qed.

Section Values.
  Variables (g : Z) (M : grmet) (m : gr_fields) (i1 i2 : Z).
  Notation a := (coord g i1).
  Notation b := (coord g i2).
  Notation w := (m_sqrt_det_h_tilde M).
  Notation s := (m_sqrt_det_h M).
  Notation be := (m_beta1 M).

  Lemma auxE_2 md : let '(d, e) := getE_args md in
    auxE_body g M md m [i1; i2] (Aux, Ex2) [i1; i2] =
      m_alpha M (a, b + half) * (m_h_ M 2 2 (a, b + half) * m (d, Ex2) [i1; i2])
      - (w (a - half, b + half) * s (a - half, b + half) * be (a - half, b + half) * m (e, Bx3) [(i1 - 1)%Z; i2]
         + w (a + half, b + half) * s (a + half, b + half) * be (a + half, b + half) * m (e, Bx3) [i1; i2])
        / (2 * w (a, b + half)).
  Proof.
    unfold auxE_body, body2. destruct md; cbn [getE_args]; unfold aux_E; cbv zeta;
      rewrite (set_neq_c loc_eq_dec) by congruence; rewrite (set_eq loc_eq_dec); reflexivity.
  Qed.
  Lemma auxE_3 md : let '(d, e) := getE_args md in
    auxE_body g M md m [i1; i2] (Aux, Ex3) [i1; i2] =
      m_alpha M (a, b) * (m_h_ M 3 3 (a, b) * m (d, Ex3) [i1; i2]
        + (w (a - half, b) * m_h_ M 1 3 (a - half, b) * m (d, Ex1) [(i1 - 1)%Z; i2]
           + w (a + half, b) * m_h_ M 1 3 (a + half, b) * m (d, Ex1) [i1; i2]) / (2 * w (a, b)))
      + (w (a - half, b) * s (a - half, b) * be (a - half, b) * m (e, Bx2) [(i1 - 1)%Z; i2]
         + w (a + half, b) * s (a + half, b) * be (a + half, b) * m (e, Bx2) [i1; i2])
        / (2 * w (a, b)).
  Proof.
    unfold auxE_body, body2. destruct md; cbn [getE_args]; unfold aux_E; cbv zeta;
      rewrite (set_eq loc_eq_dec); reflexivity.
  Qed.
  Lemma auxH_1 md : let '(d, e) := getH_args md in
    auxH_body g M md m [i1; i2] (Aux, Bx1) [i1; i2] =
      m_alpha M (a, b + half) * (m_h_ M 1 1 (a, b + half) * m (e, Bx1) [i1; i2]
        + (w (a - half, b + half) * m_h_ M 1 3 (a - half, b + half) * m (e, Bx3) [(i1 - 1)%Z; i2]
           + w (a + half, b + half) * m_h_ M 1 3 (a + half, b + half) * m (e, Bx3) [i1; i2]) / (2 * w (a, b + half))).
  Proof.
    unfold auxH_body, body2. destruct md; cbn [getH_args]; unfold aux_H; cbv zeta;
      rewrite 2 (set_neq_c loc_eq_dec) by congruence; rewrite (set_eq loc_eq_dec); reflexivity.
  Qed.
  Lemma auxH_2 md : let '(d, e) := getH_args md in
    auxH_body g M md m [i1; i2] (Aux, Bx2) [i1; i2] =
      m_alpha M (a + half, b) * (m_h_ M 2 2 (a + half, b) * m (e, Bx2) [i1; i2])
      + (w (a, b) * s (a, b) * be (a, b) * m (d, Ex3) [i1; i2]
         + w (a + 1, b) * s (a + 1, b) * be (a + 1, b) * m (d, Ex3) [(i1 + 1)%Z; i2])
        / (2 * w (a + half, b)).
  Proof.
    unfold auxH_body, body2. destruct md; cbn [getH_args]; unfold aux_H; cbv zeta;
      rewrite (set_neq_c loc_eq_dec) by congruence; rewrite (set_eq loc_eq_dec); reflexivity.
  Qed.
  Lemma auxH_3 md : let '(d, e) := getH_args md in
    auxH_body g M md m [i1; i2] (Aux, Bx3) [i1; i2] =
      m_alpha M (a + half, b + half) * (m_h_ M 3 3 (a + half, b + half) * m (e, Bx3) [i1; i2]
        + (w (a, b + half) * m_h_ M 1 3 (a, b + half) * m (e, Bx1) [i1; i2]
           + w (a + 1, b + half) * m_h_ M 1 3 (a + 1, b + half) * m (e, Bx1) [(i1 + 1)%Z; i2]) / (2 * w (a + half, b + half)))
      - (w (a, b + half) * s (a, b + half) * be (a, b + half) * m (d, Ex2) [i1; i2]
         + w (a + 1, b + half) * s (a + 1, b + half) * be (a + 1, b + half) * m (d, Ex2) [(i1 + 1)%Z; i2])
        / (2 * w (a + half, b + half)).
  Proof.
    unfold auxH_body, body2. destruct md; cbn [getH_args]; unfold aux_H; cbv zeta;
      rewrite (set_eq loc_eq_dec); reflexivity.
  Qed.
End Values.

(** The averaged product over twice the density, against the product over the density. *)
Lemma avg_err (f : coord2 -> R) (W t1 t2 v : R) (x : coord2) : W <> 0 ->
  t1 = f (fst x - 1/2, snd x) -> t2 = f (fst x + 1/2, snd x) -> f x = W * v ->
  Rabs ((t1 + t2) / (2 * W) - v) = bend f x / Rabs W.
Proof.
  intros HW -> -> Hv. unfold bend.
  replace ((f (fst x - 1/2, snd x) + f (fst x + 1/2, snd x)) / (2 * W) - v)
    with (((f (fst x - 1/2, snd x) + f (fst x + 1/2, snd x)) / 2 - f x) / W).
  2: rewrite Hv; field; assumption.
  unfold Rdiv at 1. rewrite Rabs_mult, Rabs_inv. reflexivity.
Qed.
Lemma err1 al W X Y c v : Rabs (X - v) = Y / Rabs W ->
  Rabs (al * (c + X) - al * (c + v)) = Rabs al * Y / Rabs W.
Proof.
  intros H. replace (al * (c + X) - al * (c + v)) with (al * (X - v)) by ring.
  rewrite Rabs_mult, H. unfold Rdiv. ring.
Qed.
Lemma err2 W X Y c v : Rabs (X - v) = Y / Rabs W -> Rabs (c + X - (c + v)) <= Y / Rabs W.
Proof. intros H. replace (c + X - (c + v)) with (X - v) by ring. rewrite H. lra. Qed.
Lemma err2' W X Y c v : Rabs (X - v) = Y / Rabs W -> Rabs (c - X - (c - v)) <= Y / Rabs W.
Proof. intros H. replace (c - X - (c - v)) with (- (X - v)) by ring. rewrite Rabs_Ropp, H. lra. Qed.
Lemma err3 al W X Y c v X' Y' v' : Rabs (X - v) = Y / Rabs W -> Rabs (X' - v') = Y' / Rabs W ->
  Rabs (al * (c + X) + X' - (al * (c + v) + v')) <= (Rabs al * Y + Y') / Rabs W.
Proof.
  intros H H'. replace (al * (c + X) + X' - (al * (c + v) + v')) with (al * (X - v) + (X' - v')) by ring.
  eapply Rle_trans; [apply Rabs_triang|]. rewrite Rabs_mult, H, H'. unfold Rdiv. lra.
Qed.
Lemma err3' al W X Y c v X' Y' v' : Rabs (X - v) = Y / Rabs W -> Rabs (X' - v') = Y' / Rabs W ->
  Rabs (al * (c + X) - X' - (al * (c + v) - v')) <= (Rabs al * Y + Y') / Rabs W.
Proof.
  intros H H'. replace (al * (c + X) - X' - (al * (c + v) - v')) with (al * (X - v) + - (X' - v')) by ring.
  eapply Rle_trans; [apply Rabs_triang|]. rewrite Rabs_mult, Rabs_Ropp, H, H'. unfold Rdiv. lra.
Qed.

Section Sampled.
  Variables (g : Z) (M : grmet) (m : gr_fields) (d e : arr) (D B : vfield).
  Hypothesis HS : sampled g m d e D B.
  Lemma sE i j1 j2 : (1 <= i <= 3)%nat -> m (d, Ec i) [j1; j2] = D i (E_place i (coord g j1) (coord g j2)).
  Proof. intros. apply HS; assumption. Qed.
  Lemma sB i j1 j2 : (1 <= i <= 3)%nat -> m (e, Bc i) [j1; j2] = B i (B_place i (coord g j1) (coord g j2)).
  Proof. intros. apply HS; assumption. Qed.
  Lemma co_m i : coord g (i - 1) = coord g i - 1.
  Proof. unfold coord. rewrite !minus_IZR. lra. Qed.
  Lemma co_p i : coord g (i + 1) = coord g i + 1.
  Proof. unfold coord. rewrite !minus_IZR, plus_IZR. lra. Qed.
End Sampled.


Section Main.
  Variables (g : Z) (M : grmet) (m : gr_fields) (D B : vfield) (i1 i2 : Z).
  Hypothesis HK : ks_like M.
  Notation a := (coord g i1).
  Notation b := (coord g i2).


  (** The two samples around a place, and the point itself. *)
  Lemma around (c V : coord2 -> R) x W : m_sqrt_det_h_tilde M x <> 0 -> W = m_sqrt_det_h_tilde M x ->
    forall (F : coord2 -> R), (forall y, F y = m_sqrt_det_h_tilde M y * c y * V y) ->
    forall l r, l = (fst x - 1/2, snd x) -> r = (fst x + 1/2, snd x) ->
    Rabs ((m_sqrt_det_h_tilde M l * c l * V l + m_sqrt_det_h_tilde M r * c r * V r) / (2 * W) - c x * V x)
      = bend F x / Rabs W.
  Proof.
    intros HW -> F HF l r -> ->. apply avg_err; [apply HW| | |]; rewrite HF; ring.
  Qed.
  Lemma around2 (c c' V : coord2 -> R) x W : m_sqrt_det_h_tilde M x <> 0 -> W = m_sqrt_det_h_tilde M x ->
    forall (F : coord2 -> R), (forall y, F y = m_sqrt_det_h_tilde M y * c y * c' y * V y) ->
    forall l r, l = (fst x - 1/2, snd x) -> r = (fst x + 1/2, snd x) ->
    Rabs ((m_sqrt_det_h_tilde M l * c l * c' l * V l + m_sqrt_det_h_tilde M r * c r * c' r * V r) / (2 * W) - c x * c' x * V x)
      = bend F x / Rabs W.
  Proof.
    intros HW -> F HF l r -> ->. apply avg_err; [apply HW| | |]; rewrite HF; ring.
  Qed.
  Lemma low1 V x : lower M V 1 x = m_h_ M 1 1 x * V 1%nat x + m_h_ M 1 3 x * V 3%nat x.
  Proof. unfold lower. destruct (HK x) as (H & _). rewrite H. ring. Qed.
  Lemma low2 V x : lower M V 2 x = m_h_ M 2 2 x * V 2%nat x.
  Proof. unfold lower. destruct (HK x) as (_ & H & H' & _). rewrite H, H'. ring. Qed.
  Lemma low3 V x : lower M V 3 x = m_h_ M 3 3 x * V 3%nat x + m_h_ M 1 3 x * V 1%nat x.
  Proof. unfold lower. destruct (HK x) as (_ & _ & _ & H & H'). rewrite H, H'. ring. Qed.


  Lemma aux_E_body md i : let '(d, e) := getE_args md in sampled g m d e D B -> (1 <= i <= 3)%nat ->
    m_sqrt_det_h_tilde M (E_place i a b) <> 0 ->
    Rabs (auxE_body g M md m [i1; i2] (Aux, Ec i) [i1; i2] - E_of M D B i (E_place i a b))
      <= aux_tol M D B i (E_place i a b).
  Proof.
    destruct (getE_args md) as [d e] eqn:Ea. intros HS Hi HW.
    assert (i = 1 \/ i = 2 \/ i = 3)%nat as [-> | [-> | ->]] by lia.
    - pose proof (auxE_1 g M md m i1 i2) as V. rewrite Ea in V. cbn [Ec]. cbv zeta in V. rewrite V. clear V.
      change (m (d, Ex1)) with (m (d, Ec 1)). change (m (d, Ex3)) with (m (d, Ec 3)).
      rewrite !(sE _ _ _ _ _ _ HS) by lia. rewrite co_p. cbn [E_place]. rewrite half_eq.
      unfold E_of. rewrite low1. cbn [beta_cross]. rewrite Rplus_0_r.
      apply Req_le. unfold aux_tol. apply err1.
      apply (around (m_h_ M 1 3) (D 3%nat) (a + 1/2, b) _ HW eq_refl (cross_term M D 3) (fun y => eq_refl) (a, b) (a + 1, b));
        cbn [fst snd]; f_equal; lra.
    - pose proof (auxE_2 g M m i1 i2 md) as V. rewrite Ea in V. cbn [Ec]. rewrite V. clear V.
      change (m (d, Ex2)) with (m (d, Ec 2)). change (m (e, Bx3)) with (m (e, Bc 3)).
      rewrite !(sE _ _ _ _ _ _ HS), !(sB _ _ _ _ _ _ HS) by lia. rewrite co_m. cbn [E_place B_place]. rewrite half_eq.
      replace (a - 1 + 1/2) with (a - 1/2) by lra.
      unfold E_of. rewrite low2. cbn [beta_cross]. unfold aux_tol.
      apply err2'. 
      apply (around2 (m_sqrt_det_h M) (m_beta1 M) (B 3%nat) (a, b + 1/2) _ HW eq_refl (shift_term M B 3) (fun y => eq_refl)
               (a - 1/2, b + 1/2) (a + 1/2, b + 1/2)); reflexivity.
    - pose proof (auxE_3 g M m i1 i2 md) as V. rewrite Ea in V. cbn [Ec]. rewrite V. clear V.
      change (m (d, Ex1)) with (m (d, Ec 1)). change (m (d, Ex3)) with (m (d, Ec 3)). change (m (e, Bx2)) with (m (e, Bc 2)).
      rewrite !(sE _ _ _ _ _ _ HS), !(sB _ _ _ _ _ _ HS) by lia. rewrite co_m. cbn [E_place B_place]. rewrite half_eq.
      replace (a - 1 + 1/2) with (a - 1/2) by lra.
      unfold E_of. rewrite low3. cbn [beta_cross]. unfold aux_tol. apply err3.
      + apply (around (m_h_ M 1 3) (D 1%nat) (a, b) _ HW eq_refl (cross_term M D 1) (fun y => eq_refl) (a - 1/2, b) (a + 1/2, b)); reflexivity.
      + apply (around2 (m_sqrt_det_h M) (m_beta1 M) (B 2%nat) (a, b) _ HW eq_refl (shift_term M B 2) (fun y => eq_refl)
               (a - 1/2, b) (a + 1/2, b)); reflexivity.
  Qed.
  Lemma aux_H_body md i : let '(d, e) := getH_args md in sampled g m d e D B -> (1 <= i <= 3)%nat ->
    m_sqrt_det_h_tilde M (B_place i a b) <> 0 ->
    Rabs (auxH_body g M md m [i1; i2] (Aux, Bc i) [i1; i2] - H_of M D B i (B_place i a b))
      <= aux_tol M B D i (B_place i a b).
  Proof.
    destruct (getH_args md) as [d e] eqn:Ea. intros HS Hi HW.
    assert (i = 1 \/ i = 2 \/ i = 3)%nat as [-> | [-> | ->]] by lia.
    - pose proof (auxH_1 g M m i1 i2 md) as V. rewrite Ea in V. cbn [Bc]. rewrite V. clear V.
      change (m (e, Bx1)) with (m (e, Bc 1)). change (m (e, Bx3)) with (m (e, Bc 3)).
      rewrite !(sB _ _ _ _ _ _ HS) by lia. rewrite co_m. cbn [B_place]. rewrite half_eq.
      replace (a - 1 + 1/2) with (a - 1/2) by lra.
      unfold H_of. rewrite low1. cbn [beta_cross]. rewrite Rminus_0_r.
      apply Req_le. unfold aux_tol. apply err1.
      apply (around (m_h_ M 1 3) (B 3%nat) (a, b + 1/2) _ HW eq_refl (cross_term M B 3) (fun y => eq_refl) (a - 1/2, b + 1/2) (a + 1/2, b + 1/2)); reflexivity.
    - pose proof (auxH_2 g M m i1 i2 md) as V. rewrite Ea in V. cbn [Bc]. rewrite V. clear V.
      change (m (d, Ex3)) with (m (d, Ec 3)). change (m (e, Bx2)) with (m (e, Bc 2)).
      rewrite !(sE _ _ _ _ _ _ HS), !(sB _ _ _ _ _ _ HS) by lia. rewrite co_p. cbn [E_place B_place]. rewrite half_eq.
      unfold H_of. rewrite low2. cbn [beta_cross]. unfold Rminus at 2. rewrite Ropp_involutive. unfold aux_tol.
      apply err2.
      apply (around2 (m_sqrt_det_h M) (m_beta1 M) (D 3%nat) (a + 1/2, b) _ HW eq_refl (shift_term M D 3) (fun y => eq_refl)
               (a, b) (a + 1, b)); cbn [fst snd]; f_equal; lra.
    - pose proof (auxH_3 g M m i1 i2 md) as V. rewrite Ea in V. cbn [Bc]. rewrite V. clear V.
      change (m (e, Bx1)) with (m (e, Bc 1)). change (m (e, Bx3)) with (m (e, Bc 3)). change (m (d, Ex2)) with (m (d, Ec 2)).
      rewrite !(sE _ _ _ _ _ _ HS), !(sB _ _ _ _ _ _ HS) by lia. rewrite co_p. cbn [E_place B_place]. rewrite half_eq.
      unfold H_of. rewrite low3. cbn [beta_cross]. unfold aux_tol. apply err3'.
      + apply (around (m_h_ M 1 3) (B 1%nat) (a + 1/2, b + 1/2) _ HW eq_refl (cross_term M B 1) (fun y => eq_refl) (a, b + 1/2) (a + 1, b + 1/2)); cbn [fst snd]; f_equal; lra.
      + apply (around2 (m_sqrt_det_h M) (m_beta1 M) (D 2%nat) (a + 1/2, b + 1/2) _ HW eq_refl (shift_term M D 2) (fun y => eq_refl)
               (a, b + 1/2) (a + 1, b + 1/2)); cbn [fst snd]; f_equal; lra.
  Qed.
End Main.

Lemma aux_E_ok g M md cells m D B i1 i2 i : ks_like M ->
  NoDup cells -> In [i1; i2] cells -> (1 <= i <= 3)%nat ->
  sampled g m (fst (getE_args md)) (snd (getE_args md)) D B ->
  let x := E_place i (IZR (i1 - g)) (IZR (i2 - g)) in
  m_sqrt_det_h_tilde M x <> 0 ->
  Rabs (par_for (auxE_body g M md) cells m (Aux, Ec i) [i1; i2] - E_of M D B i x) <= aux_tol M D B i x.
Proof.
  intros HK Hn Hin Hi HS. cbv zeta. intros HW.
  rewrite (par_for_in wE) by (first [apply auxE_frames | apply auxE_local | assumption]).
  pose proof (aux_E_body g M m D B i1 i2 HK md i) as H. destruct (getE_args md). apply H; assumption.
Qed.
Lemma aux_H_ok g M md cells m D B i1 i2 i : ks_like M ->
  NoDup cells -> In [i1; i2] cells -> (1 <= i <= 3)%nat ->
  sampled g m (fst (getH_args md)) (snd (getH_args md)) D B ->
  let x := B_place i (IZR (i1 - g)) (IZR (i2 - g)) in
  m_sqrt_det_h_tilde M x <> 0 ->
  Rabs (par_for (auxH_body g M md) cells m (Aux, Bc i) [i1; i2] - H_of M D B i x) <= aux_tol M B D i x.
Proof.
  intros HK Hn Hin Hi HS. cbv zeta. intros HW.
  rewrite (par_for_in wH) by (first [apply auxH_frames | apply auxH_local | assumption]).
  pose proof (aux_H_body g M m D B i1 i2 HK md i) as H. destruct (getH_args md). apply H; assumption.
Qed.

(** Second order. *)
Lemma bend_sym_le (f f' f'' : R -> R) (c K : R) :
  (forall t, c - 1/2 <= t <= c + 1/2 -> derivable_pt_lim f t (f' t)) ->
  (forall t, c - 1/2 <= t <= c + 1/2 -> derivable_pt_lim f' t (f'' t)) ->
  (forall t, c - 1/2 <= t <= c + 1/2 -> Rabs (f'' t) <= K) ->
  Rabs ((f (c - 1/2) + f (c + 1/2)) / 2 - f c) <= K / 8.
Proof.
  intros H1 H2 HK.
  (* f'(c+t) - f'(c-t) is at most 2 K t *)
  assert (G : forall t, 0 < t <= 1/2 -> Rabs (f' (c + t) - f' (c - t)) <= 2 * K * t).
  { intros t Ht. destruct (MVT_cor2 f' f'' (c - t) (c + t)) as (x & Hx & Hx').
    - lra.
    - intros y Hy. apply H2. lra.
    - rewrite Hx, Rabs_mult. replace (c + t - (c - t)) with (2 * t) by ring.
      rewrite (Rabs_right (2 * t)) by lra.
      assert (Rabs (f'' x) <= K) by (apply HK; lra).
      replace (2 * K * t) with (K * (2 * t)) by ring. apply Rmult_le_compat_r; lra. }
  (* phi s t = K t^2 - s (f (c+t) + f(c-t)) is increasing *)
  assert (P : forall s, s = 1 \/ s = -1 -> s * ((f (c + 1/2) + f (c - 1/2)) - 2 * f c) <= K / 4).
  { intros s Hs.
    set (phi := fun t => K * (t * t) - s * (f (c + t) + f (c - t))).
    set (dphi := fun t => K * (2 * t) - s * (f' (c + t) - f' (c - t))).
    destruct (MVT_cor2 phi dphi 0 (1/2)) as (x & Hx & Hx').
    - lra.
    - intros t Ht. unfold phi, dphi.
      apply derivable_pt_lim_minus.
      + replace (K * (2 * t)) with (K * (1 * t + t * 1)) by ring.
        apply (derivable_pt_lim_scal (fun t => t * t)).
        apply (derivable_pt_lim_mult id id); apply derivable_pt_lim_id.
      + apply (derivable_pt_lim_scal (fun t => f (c + t) + f (c - t))).
        apply (derivable_pt_lim_plus (fun t => f (c + t)) (fun t => f (c - t)) t (f' (c + t)) (- f' (c - t))).
        * replace (f' (c + t)) with (f' (c + t) * 1) by ring.
          apply (derivable_pt_lim_comp (fun t => c + t) f t).
          -- replace 1 with (0 + 1) by ring. apply (derivable_pt_lim_plus (fct_cte c) id);
               [apply derivable_pt_lim_const | apply derivable_pt_lim_id].
          -- apply H1. lra.
        * replace (- f' (c - t)) with (f' (c - t) * -1) by ring.
          apply (derivable_pt_lim_comp (fun t => c - t) f t).
          -- replace (-1) with (0 - 1) by ring. apply (derivable_pt_lim_minus (fct_cte c) id);
               [apply derivable_pt_lim_const | apply derivable_pt_lim_id].
          -- apply H1. lra.
    - assert (0 <= dphi x).
      { unfold dphi. specialize (G x ltac:(lra)). 
        pose proof (Rle_abs (f' (c + x) - f' (c - x))). pose proof (Rle_abs (- (f' (c + x) - f' (c - x)))) as N.
        rewrite Rabs_Ropp in N. destruct Hs as [-> | ->]; lra. }
      assert (0 <= phi (1/2) - phi 0) by (rewrite Hx; apply Rmult_le_pos; lra).
      unfold phi in *. rewrite Rplus_0_r, Rminus_0_r in *. lra. }
  pose proof (P 1 (or_introl eq_refl)). pose proof (P (-1) (or_intror eq_refl)).
  apply Rabs_le. lra.
Qed.
Lemma bend_second_order (f f' f'' : R -> R -> R) x K :
  (forall t, fst x - 1/2 <= t <= fst x + 1/2 ->
     derivable_pt_lim (fun u => f u (snd x)) t (f' t (snd x)) /\
     derivable_pt_lim (fun u => f' u (snd x)) t (f'' t (snd x)) /\ Rabs (f'' t (snd x)) <= K) ->
  bend (fun y => f (fst y) (snd y)) x <= K / 8.
Proof.
  intros H. unfold bend. cbn [fst snd].
  apply (bend_sym_le (fun u => f u (snd x)) (fun u => f' u (snd x)) (fun u => f'' u (snd x))); intros t Ht; apply (H t Ht).
Qed.
Lemma bend_affine (f : coord2 -> R) x p q : (forall t, f (t, snd x) = p * t + q) -> bend f x = 0.
Proof.
  intros H. unfold bend. destruct x as [u v]. cbn [fst snd] in *. rewrite !H.
  replace ((p * (u - 1/2) + q + (p * (u + 1/2) + q)) / 2 - (p * u + q)) with 0 by field. apply Rabs_R0.
Qed.
Lemma ks_is_ks_like eps a gr : ks_like (ks eps a gr).
Proof. intros x. cbn. repeat split. Qed.
Lemma ks0_is_ks_like gr : ks_like (ks0 gr).
Proof. intros x. cbn. repeat split. Qed.
Lemma qks_is_ks_like a q : ks_like (qks a q).
Proof. intros x. cbn. repeat split. Qed.
Lemma ks_density eps a gr x : 0 < s_dr gr -> 0 < s_dth gr -> 0 < k_r gr (fst x) ->
  m_sqrt_det_h_tilde (ks eps a gr) x <> 0 /\ m_sqrt_det_h_tilde (ks0 gr) x <> 0.
Proof.
  intros h1 h2 hr. split.
  - apply Rgt_not_eq. apply (ks_parts eps a gr x h1 h2 hr).
  - apply Rgt_not_eq. cbn. unfold k0_sqrt_det_h_tilde, sqr.
    apply Rmult_lt_0_compat; apply Rmult_lt_0_compat; assumption.
Qed.
Lemma bend_nonneg f x : 0 <= bend f x. Proof. apply Rabs_pos. Qed.
(** Without a hole there is nothing to average: the values are exact. *)
Lemma bend_zero (f : coord2 -> R) x : (forall y, f y = 0) -> bend f x = 0.
Proof. intros H. unfold bend. rewrite !H. replace ((0 + 0) / 2 - 0) with 0 by lra. apply Rabs_R0. Qed.
Lemma tol_ks0 gr U V i x : aux_tol (ks0 gr) U V i x = 0.
Proof.
  assert (forall W j, bend (cross_term (ks0 gr) W j) x = 0) as H1
    by (intros; apply bend_zero; intros; unfold cross_term; cbn; ring).
  assert (forall W j, bend (shift_term (ks0 gr) W j) x = 0) as H2
    by (intros; apply bend_zero; intros; unfold shift_term; cbn; ring).
  destruct i as [|[|[|?]]]; unfold aux_tol; rewrite ?H1, ?H2; unfold Rdiv; ring.
Qed.
Lemma aux_flat g gr mdE mdH cells m D B i1 i2 i :
  NoDup cells -> In [i1; i2] cells -> (1 <= i <= 3)%nat ->
  0 < s_dr gr -> 0 < s_dth gr -> 0 < k_r gr (IZR (i1 - g)) ->
  (sampled g m (fst (getE_args mdE)) (snd (getE_args mdE)) D B ->
   par_for (auxE_body g (ks0 gr) mdE) cells m (Aux, Ec i) [i1; i2]
     = lower (ks0 gr) D i (E_place i (IZR (i1 - g)) (IZR (i2 - g)))) /\
  (sampled g m (fst (getH_args mdH)) (snd (getH_args mdH)) D B ->
   par_for (auxH_body g (ks0 gr) mdH) cells m (Aux, Bc i) [i1; i2]
     = lower (ks0 gr) B i (B_place i (IZR (i1 - g)) (IZR (i2 - g)))).
Proof.
  intros Hn Hin Hi h1 h2 hr.
  assert (rp : forall x, fst x = IZR (i1 - g) \/ fst x = IZR (i1 - g) + 1/2 -> m_sqrt_det_h_tilde (ks0 gr) x <> 0).
  { intros x Hx. apply (ks_density 0 0 gr x h1 h2). unfold k_r in *. destruct Hx as [-> | ->]; [exact hr|]. lra. }
  assert (Z0 : forall u v, Rabs (u - v) <= 0 -> u = v).
  { intros u v H. pose proof (Rabs_pos (u - v)). assert (Rabs (u - v) = 0) as E by lra.
    destruct (Req_dec (u - v) 0) as [E'|E']; [lra|]. apply Rabs_no_R0 in E'. lra. }
  split; intros HS; apply Z0.
  - pose proof (aux_E_ok g (ks0 gr) mdE cells m D B i1 i2 i (ks0_is_ks_like gr) Hn Hin Hi HS) as H. cbv zeta in H.
    rewrite tol_ks0 in H. unfold E_of in H.
    assert (forall x, m_alpha (ks0 gr) x = 1) as A by reflexivity. rewrite A in H.
    replace (beta_cross (ks0 gr) B i (E_place i (IZR (i1 - g)) (IZR (i2 - g)))) with 0 in H
      by (destruct i as [|[|[|[|?]]]]; cbn; ring).
    rewrite Rmult_1_l, Rplus_0_r in H. apply H. apply rp.
    destruct i as [|[|[|?]]]; cbn; auto.
  - pose proof (aux_H_ok g (ks0 gr) mdH cells m D B i1 i2 i (ks0_is_ks_like gr) Hn Hin Hi HS) as H. cbv zeta in H.
    rewrite tol_ks0 in H. unfold H_of in H.
    assert (forall x, m_alpha (ks0 gr) x = 1) as A by reflexivity. rewrite A in H.
    replace (beta_cross (ks0 gr) D i (B_place i (IZR (i1 - g)) (IZR (i2 - g)))) with 0 in H
      by (destruct i as [|[|[|[|?]]]]; cbn; ring).
    rewrite Rmult_1_l, Rminus_0_r in H. apply H. apply rp.
    destruct i as [|[|[|?]]]; cbn; auto.
Qed.
