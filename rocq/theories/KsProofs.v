From Coq Require Import Reals ZArith List Bool Lra Lia.
From Verif Require Import Base MetModel MetSpec KsModel KsSpec StretchProofs DerivLemmas MetProofs.
Open Scope R_scope.

(* ------------------------------------------------------------------ *)
(** * Common form of the three metrics *)

Section Gen.
  Variables mu a r th e1 e2 : R.
  Definition gS : R := r * r + a * a * (cos th * cos th).
  Definition gZ : R := 2 * mu * r / gS.
  Definition gA : R := (r * r + a * a) * gS + 2 * mu * r * (a * a) * (sin th * sin th).
  Definition gh_ (i j : nat) : R :=
    match i, j with
    | 1%nat, 1%nat => e1 * e1 * (1 + gZ)
    | 2%nat, 2%nat => e2 * e2 * gS
    | 3%nat, 3%nat => gA * (sin th * sin th) / gS
    | 1%nat, 3%nat | 3%nat, 1%nat => - (e1 * a * (1 + gZ) * (sin th * sin th))
    | _, _ => 0
    end.
  Definition gh (i j : nat) : R :=
    match i, j with
    | 1%nat, 1%nat => gA / (gS * (gS + 2 * mu * r) * (e1 * e1))
    | 2%nat, 2%nat => 1 / (gS * (e2 * e2))
    | 3%nat, 3%nat => 1 / (gS * (sin th * sin th))
    | 1%nat, 3%nat | 3%nat, 1%nat => a / (gS * e1)
    | _, _ => 0
    end.
  Definition gg_ (i j : nat) : R :=
    match i, j with
    | 0%nat, 0%nat => - (1 - gZ)
    | 0%nat, 1%nat | 1%nat, 0%nat => e1 * gZ
    | 0%nat, 3%nat | 3%nat, 0%nat => - (a * gZ * (sin th * sin th))
    | 0%nat, _ | _, 0%nat => 0
    | i, j => gh_ i j
    end.
  Definition gg (i j : nat) : R :=
    match i, j with
    | 0%nat, 0%nat => - (1 + gZ)
    | 0%nat, 1%nat | 1%nat, 0%nat => gZ / e1
    | 1%nat, 1%nat => (r * r - 2 * mu * r + a * a) / (gS * (e1 * e1))
    | 0%nat, _ | _, 0%nat => 0
    | i, j => gh i j
    end.
End Gen.

Record form (mu a : R) (M : grmet) (x : coord2) (e1 e2 : R) : Prop := {
  fo_mu : 0 <= mu;
  fo_e1 : 0 < e1; fo_e2 : 0 < e2;
  fo_r : derivable_pt_lim (m_r M) (fst x) e1;
  fo_th : derivable_pt_lim (m_th M) (snd x) e2;
  fo_h_ : forall i j, m_h_ M i j x = gh_ mu a (m_r M (fst x)) (m_th M (snd x)) e1 e2 i j;
  fo_h : forall i j, m_h M i j x = gh mu a (m_r M (fst x)) (m_th M (snd x)) e1 e2 i j;
  fo_g_ : forall i j, m_g_ M i j x = gg_ mu a (m_r M (fst x)) (m_th M (snd x)) e1 e2 i j;
  fo_g : forall i j, m_g M i j x = gg mu a (m_r M (fst x)) (m_th M (snd x)) e1 e2 i j;
  fo_alpha : m_alpha M x = 1 / sqrt (1 + gZ mu a (m_r M (fst x)) (m_th M (snd x)));
  fo_beta : m_beta1 M x = gZ mu a (m_r M (fst x)) (m_th M (snd x)) / ((1 + gZ mu a (m_r M (fst x)) (m_th M (snd x))) * e1);
  fo_det : m_sqrt_det_h M x = e1 * e2 * gS a (m_r M (fst x)) (m_th M (snd x)) * sin (m_th M (snd x))
             * sqrt (1 + gZ mu a (m_r M (fst x)) (m_th M (snd x)));
  fo_tilde : m_sqrt_det_h_tilde M x = e1 * e2 * gS a (m_r M (fst x)) (m_th M (snd x))
             * sqrt (1 + gZ mu a (m_r M (fst x)) (m_th M (snd x)));
  fo_phys : forall v, m_to_phys M 1 x v = v * e1 /\ m_to_phys M 2 x v = v * e2 /\ m_to_phys M 3 x v = v;
  fo_iphys : forall v, m_of_phys M 1 x v = v / e1 /\ m_of_phys M 2 x v = v / e2 /\ m_of_phys M 3 x v = v
}.

Lemma gS_pos : forall a r th, 0 < r -> 0 < gS a r th.
Proof.
  intros. unfold gS. assert (0 < r * r) by (apply Rmult_lt_0_compat; assumption).
  assert (0 <= a * a * (cos th * cos th)) by (apply Rmult_le_pos; apply Rle_0_sqr). lra.
Qed.
Lemma gZ_nonneg : forall mu a r th, 0 <= mu -> 0 < r -> 0 <= gZ mu a r th.
Proof.
  intros. unfold gZ. pose proof (gS_pos a r th H0).
  apply Rmult_le_pos; [apply Rmult_le_pos; lra|left; apply Rinv_0_lt_compat; assumption].
Qed.
Lemma gA_pos : forall mu a r th, 0 <= mu -> 0 < r -> 0 < gA mu a r th.
Proof.
  intros. unfold gA. pose proof (gS_pos a r th H0). assert (0 < r * r) by (apply Rmult_lt_0_compat; assumption).
  assert (0 <= a * a) by apply Rle_0_sqr. assert (0 <= sin th * sin th) by apply Rle_0_sqr.
  assert (0 < (r*r+a*a) * gS a r th) by (apply Rmult_lt_0_compat; lra).
  assert (0 <= 2 * mu * r * (a*a) * (sin th * sin th)).
  { apply Rmult_le_pos; [|assumption]. apply Rmult_le_pos; [|assumption]. apply Rmult_le_pos; lra. }
  lra.
Qed.
(** The identity behind everything: A - a^2 sin^2 (Sigma + 2 mu r) = Sigma^2. *)
Lemma gA_key : forall mu a r th,
  gA mu a r th = gS a r th * gS a r th + a * a * (sin th * sin th) * (gS a r th + 2 * mu * r).
Proof.
  intros. pose proof (sin2_cos2 th) as e. unfold Rsqr in e.
  unfold gA. assert (r * r + a * a = gS a r th + a * a * (sin th * sin th)) as ->.
  { unfold gS. replace (cos th * cos th) with (1 - sin th * sin th) by lra. ring. }
  ring.
Qed.

(** The three metrics have the common form. *)
Lemma ks_form : forall eps a g x, sensible g -> gr_regular (ks eps a g) x ->
  form 1 a (ks eps a g) x (s_dr g) (s_dth g).
Proof.
  intros eps a g [x1 x2] S [hr ht]. pose proof (s_dr_pos g S) as p. pose proof (s_dth_pos g S) as q.
  cbn [ks m_r m_th fst snd] in hr, ht.
  pose proof (gS_pos a (k_r g x1) (k_th g x2) hr) as Sp.
  assert (st : 0 < sin (k_th g x2)) by (apply sin_gt_0; lra).
  assert (eS : k_Sigma a (k_r g x1) (k_th g x2) = gS a (k_r g x1) (k_th g x2)) by (unfold k_Sigma, gS, sqr; ring).
  assert (eZ : k_z a (k_r g x1) (k_th g x2) = gZ 1 a (k_r g x1) (k_th g x2)).
  { unfold k_z, gZ. rewrite eS. f_equal. ring. }
  assert (eA : k_A a (k_r g x1) (k_th g x2) = gA 1 a (k_r g x1) (k_th g x2)).
  { pose proof (sin2_cos2 (k_th g x2)) as e. unfold Rsqr in e.
    unfold k_A, gA, gS, k_Delta, sqr.
    replace (cos (k_th g x2) * cos (k_th g x2)) with (1 - sin (k_th g x2) * sin (k_th g x2)) by lra. ring. }
  assert (Z0 : 0 <= gZ 1 a (k_r g x1) (k_th g x2)) by (apply gZ_nonneg; lra).
  constructor; cbn [ks m_r m_th m_h_ m_h m_g_ m_g m_alpha m_beta1 m_sqrt_det_h m_sqrt_det_h_tilde m_to_phys m_of_phys fst snd].
  - lra.
  - exact p.
  - exact q.
  - unfold k_r. eapply dl_eq; [dl|cbn beta; ring].
  - unfold k_th. eapply dl_eq; [dl|cbn beta; ring].
  - intros i j. unfold k_h_, gh_. cbn [fst snd]. rewrite eS, eZ, eA. unfold sqr.
    destruct i as [|[|[|[|i]]]], j as [|[|[|[|j]]]]; try reflexivity; ring.
  - intros i j. unfold k_h, gh. cbn [fst snd]. rewrite eS, eA. unfold sqr, s_dr_inv, s_dth_inv.
    destruct i as [|[|[|[|i]]]], j as [|[|[|[|j]]]]; try reflexivity; field; repeat split; lra.
  - intros i j. unfold k_g_, gg_, k_h_, gh_. cbn [fst snd]. rewrite eS, eZ, eA. unfold sqr.
    destruct i as [|[|[|[|i]]]], j as [|[|[|[|j]]]]; try reflexivity; ring.
  - intros i j. unfold k_g, gg, k_h, gh. cbn [fst snd]. rewrite eS, eZ. unfold sqr, s_dr_inv, s_dth_inv, k_Delta, sqr.
    destruct i as [|[|[|[|i]]]], j as [|[|[|[|j]]]]; try reflexivity; field; repeat split; lra.
  - unfold k_alpha. cbn [fst snd]. rewrite eZ. reflexivity.
  - unfold k_beta1. cbn [fst snd]. rewrite eZ. unfold s_dr_inv. field. split; lra.
  - unfold k_sqrt_det_h. cbn [fst snd]. rewrite eS, eZ. reflexivity.
  - unfold k_sqrt_det_h_tilde. cbn [fst snd]. rewrite eS, eZ. reflexivity.
  - intros v. unfold k_to_phys. auto.
  - intros v. unfold k_of_phys, s_dr_inv, s_dth_inv. repeat split; field; lra.
Qed.

Lemma ks0_form : forall g x, sensible g -> gr_regular (ks0 g) x ->
  form 0 0 (ks0 g) x (s_dr g) (s_dth g).
Proof.
  intros g [x1 x2] S [hr ht]. pose proof (s_dr_pos g S) as p. pose proof (s_dth_pos g S) as q.
  cbn [ks0 m_r m_th fst snd] in hr, ht.
  assert (st : 0 < sin (k_th g x2)) by (apply sin_gt_0; lra).
  assert (eS : gS 0 (k_r g x1) (k_th g x2) = k_r g x1 * k_r g x1) by (unfold gS; ring).
  assert (eZ : gZ 0 0 (k_r g x1) (k_th g x2) = 0) by (unfold gZ, Rdiv; ring).
  assert (eA : gA 0 0 (k_r g x1) (k_th g x2) = k_r g x1 * k_r g x1 * (k_r g x1 * k_r g x1)) by (unfold gA; rewrite eS; ring).
  constructor; cbn [ks0 m_r m_th m_h_ m_h m_g_ m_g m_alpha m_beta1 m_sqrt_det_h m_sqrt_det_h_tilde m_to_phys m_of_phys fst snd].
  - lra.
  - exact p.
  - exact q.
  - unfold k_r. eapply dl_eq; [dl|cbn beta; ring].
  - unfold k_th. eapply dl_eq; [dl|cbn beta; ring].
  - intros i j. unfold k0_h_, gh_. cbn [fst snd]. rewrite eS, eZ, eA. unfold sqr.
    destruct i as [|[|[|[|i]]]], j as [|[|[|[|j]]]]; try reflexivity; try ring; field; lra.
  - intros i j. unfold k0_h, gh. cbn [fst snd]. rewrite eS, eA. unfold sqr, s_dr_inv, s_dth_inv.
    destruct i as [|[|[|[|i]]]], j as [|[|[|[|j]]]]; try reflexivity; field; repeat split; lra.
  - intros i j. unfold k0_g_, gg_, k0_h_, gh_. cbn [fst snd]. rewrite eS, eZ, eA. unfold sqr.
    destruct i as [|[|[|[|i]]]], j as [|[|[|[|j]]]]; try reflexivity; try ring; field; lra.
  - intros i j. unfold k0_g, gg, k0_h, gh. cbn [fst snd]. rewrite eS, eZ. unfold sqr, s_dr_inv, s_dth_inv.
    destruct i as [|[|[|[|i]]]], j as [|[|[|[|j]]]]; try reflexivity; field; repeat split; lra.
  - rewrite eZ, Rplus_0_r, sqrt_1. field.
  - rewrite eZ. field. lra.
  - unfold k0_sqrt_det_h. cbn [fst snd]. rewrite eS, eZ, Rplus_0_r, sqrt_1. unfold sqr. ring.
  - unfold k0_sqrt_det_h_tilde. cbn [fst snd]. rewrite eS, eZ, Rplus_0_r, sqrt_1. unfold sqr. ring.
  - intros v. unfold k_to_phys. auto.
  - intros v. unfold k_of_phys, s_dr_inv, s_dth_inv. repeat split; field; lra.
Qed.

Lemma exp_double : forall c, exp (2 * c) = exp c * exp c.
Proof. intros. rewrite <- exp_plus. f_equal. ring. Qed.
Lemma exp_minus : forall c, exp (- c) = / exp c.
Proof. intros. apply exp_Ropp. Qed.
Lemma exp_mdouble : forall c, exp (- 2 * c) = / (exp c * exp c).
Proof. intros. replace (- 2 * c) with (- (2 * c)) by ring. rewrite exp_Ropp, exp_double. reflexivity. Qed.

Lemma qks_form : forall eps a g r0 h m x, q_ok eps g r0 h -> q_make eps g r0 h = Some m -> gr_regular (qks a m) x ->
  form 1 a (qks a m) x (q_dchi m * exp (q_chi m (fst x))) (q_deta m * dtheta_deta (q_eps m) (q_h0 m) (q_eta m (snd x))).
Proof.
  intros eps a g r0 h m [x1 x2] OK MK [hr ht].
  destruct (q_fields eps g r0 h m OK MK) as (f1 & f2 & f3 & f4 & f5 & f6 & f7 & f8 & f9).
  destruct OK as (he & S & hr0 & hh).
  pose proof (exp_pos (q_chi m x1)) as ep.
  assert (hq : 0 <= q_h0 m < 1) by (rewrite f3; exact hh).
  pose proof (dtde_pos (q_eps m) (q_h0 m) (q_eta m x2) hq) as dp.
  cbn [qks m_r m_th fst snd] in hr, ht |- *.
  pose proof (gS_pos a (qk_r m x1) (qk_th m x2) hr) as Sp.
  assert (st : 0 < sin (qk_th m x2)) by (apply sin_gt_0; lra).
  assert (eS : k_Sigma a (qk_r m x1) (qk_th m x2) = gS a (qk_r m x1) (qk_th m x2)) by (unfold k_Sigma, gS, sqr; ring).
  assert (eZ : k_z a (qk_r m x1) (qk_th m x2) = gZ 1 a (qk_r m x1) (qk_th m x2)).
  { unfold k_z, gZ. rewrite eS. f_equal. ring. }
  assert (eA : k_A a (qk_r m x1) (qk_th m x2) = gA 1 a (qk_r m x1) (qk_th m x2)).
  { pose proof (sin2_cos2 (qk_th m x2)) as e. unfold Rsqr in e.
    unfold k_A, gA, gS, k_Delta, sqr.
    replace (cos (qk_th m x2) * cos (qk_th m x2)) with (1 - sin (qk_th m x2) * sin (qk_th m x2)) by lra. ring. }
  assert (Z0 : 0 <= gZ 1 a (qk_r m x1) (qk_th m x2)) by (apply gZ_nonneg; lra).
  constructor; cbn [qks m_r m_th m_h_ m_h m_g_ m_g m_alpha m_beta1 m_sqrt_det_h m_sqrt_det_h_tilde m_to_phys m_of_phys fst snd].
  - lra.
  - apply Rmult_lt_0_compat; lra.
  - apply Rmult_lt_0_compat; lra.
  - unfold qk_r, q_chi. eapply dl_eq; [dl|cbn beta; ring].
  - unfold qk_th. eapply dl_eq.
    + apply (dl_comp (fun s => q_eta m s) (eta2theta (q_eps m) (q_h0 m))).
      * unfold q_eta. dl.
      * apply dl_e2t.
    + cbn beta. ring.
  - intros i j. unfold qk_h_, gh_. cbn [fst snd]. rewrite eS, eZ, eA, exp_double. unfold sqr.
    destruct i as [|[|[|[|i]]]], j as [|[|[|[|j]]]]; try reflexivity; ring.
  - intros i j. unfold qk_h, gh. cbn [fst snd]. rewrite eS, eA, exp_mdouble, exp_minus. unfold sqr.
    destruct i as [|[|[|[|i]]]], j as [|[|[|[|j]]]]; try reflexivity; field; repeat split; lra.
  - intros i j. unfold qk_g_, gg_, qk_h_, gh_. cbn [fst snd]. rewrite eS, eZ, eA, exp_double. unfold sqr.
    destruct i as [|[|[|[|i]]]], j as [|[|[|[|j]]]]; try reflexivity; ring.
  - intros i j. unfold qk_g, gg, qk_h, gh. cbn [fst snd]. rewrite eS, eZ, exp_mdouble, exp_minus. unfold sqr, k_Delta, sqr.
    destruct i as [|[|[|[|i]]]], j as [|[|[|[|j]]]]; try reflexivity; field; repeat split; lra.
  - unfold qk_alpha. cbn [fst snd]. rewrite eZ. reflexivity.
  - unfold qk_beta1. cbn [fst snd]. rewrite eZ, exp_minus. field. repeat split; lra.
  - unfold qk_sqrt_det_h. cbn [fst snd]. fold (qk_r m x1). rewrite eS, eZ. ring.
  - unfold qk_sqrt_det_h_tilde. cbn [fst snd]. fold (qk_r m x1). rewrite eS, eZ. ring.
  - intros v. unfold q_to_phys. cbn [fst snd]. repeat split; ring.
  - intros v. unfold q_of_phys. cbn [fst snd]. repeat split; field; lra.
Qed.

(* ------------------------------------------------------------------ *)
(** * Consequences of the common form *)

Section Cons.
  Variables (mu a : R) (M : grmet) (x : coord2) (e1 e2 : R).
  Hypothesis F : form mu a M x e1 e2.
  Hypothesis Rg : gr_regular M x.
  Let r := m_r M (fst x).
  Let th := m_th M (snd x).

  Lemma fc_r : 0 < r. Proof. exact (proj1 Rg). Qed.
  Lemma fc_s : 0 < sin th.
  Proof. destruct Rg as [_ [h1 h2]]. apply sin_gt_0; assumption. Qed.
  Lemma fc_S : 0 < gS a r th. Proof. apply gS_pos, fc_r. Qed.
  Lemma fc_Z : 0 <= gZ mu a r th. Proof. apply gZ_nonneg; [apply (fo_mu _ _ _ _ _ _ F)|apply fc_r]. Qed.
  Lemma fc_A : 0 < gA mu a r th. Proof. apply gA_pos; [apply (fo_mu _ _ _ _ _ _ F)|apply fc_r]. Qed.
  Lemma fc_Sr : 0 < gS a r th + 2 * mu * r.
  Proof.
    pose proof fc_S. pose proof fc_r. pose proof (fo_mu _ _ _ _ _ _ F).
    assert (0 <= 2 * mu * r) by (apply Rmult_le_pos; lra). lra.
  Qed.

  Lemma form_interval : kerr_interval mu a M x.
  Proof.
    intros ph u0 [[u1 u2] u3].
    pose proof (fo_r _ _ _ _ _ _ F) as dr. pose proof (fo_th _ _ _ _ _ _ F) as dt.
    assert (Dr : derivable_pt_lim (fun s => m_r M (fst x + s * u1)) 0 (e1 * u1)).
    { apply (dl_comp (fun s => fst x + s * u1) (m_r M)).
      - eapply dl_eq; [dl|cbn beta; ring].
      - rewrite Rmult_0_l, Rplus_0_r. exact dr. }
    assert (Dt : derivable_pt_lim (fun s => m_th M (snd x + s * u2)) 0 (e2 * u2)).
    { apply (dl_comp (fun s => snd x + s * u2) (m_th M)).
      - eapply dl_eq; [dl|cbn beta; ring].
      - rewrite Rmult_0_l, Rplus_0_r. exact dt. }
    assert (Dp : derivable_pt_lim (fun s => ph + s * u3) 0 u3) by (eapply dl_eq; [dl|cbn beta; ring]).
    set (fr := fun s => m_r M (fst x + s * u1)) in *.
    set (ft := fun s => m_th M (snd x + s * u2)) in *.
    set (fp := fun s => ph + s * u3) in *.
    assert (r0 : fr 0 = r) by (unfold fr; rewrite Rmult_0_l, Rplus_0_r; reflexivity).
    assert (t0 : ft 0 = th) by (unfold ft; rewrite Rmult_0_l, Rplus_0_r; reflexivity).
    assert (p0 : fp 0 = ph) by (unfold fp; rewrite Rmult_0_l, Rplus_0_r; reflexivity).
    set (X := e2 * u2 * cos th * r + sin th * (e1 * u1) - a * sin th * u3).
    set (Y := e2 * u2 * cos th * a + sin th * r * u3).
    set (W := e1 * u1 * cos th - r * sin th * (e2 * u2)).
    exists (cos ph * X - sin ph * Y, sin ph * X + cos ph * Y, W), (e1 * u1).
    split; [|split].
    - unfold cartesian_velocity, displaced, gr_position, ks_position, c1, c2, c3. cbn [fst snd].
      split; [|split].
      + change (derivable_pt_lim (fun s => sin (ft s) * (fr s * cos (fp s) - a * sin (fp s))) 0 (cos ph * X - sin ph * Y)).
        eapply dl_eq.
        * apply dl_mult; [apply dl_sin; exact Dt|]. apply dl_minus.
          -- apply dl_mult; [exact Dr|apply dl_cos; exact Dp].
          -- apply dl_mult; [apply dl_const|apply dl_sin; exact Dp].
        * cbn beta. rewrite r0, t0, p0. unfold X, Y. ring.
      + change (derivable_pt_lim (fun s => sin (ft s) * (fr s * sin (fp s) + a * cos (fp s))) 0 (sin ph * X + cos ph * Y)).
        eapply dl_eq.
        * apply dl_mult; [apply dl_sin; exact Dt|]. apply dl_plus.
          -- apply dl_mult; [exact Dr|apply dl_sin; exact Dp].
          -- apply dl_mult; [apply dl_const|apply dl_cos; exact Dp].
        * cbn beta. rewrite r0, t0, p0. unfold X, Y. ring.
      + change (derivable_pt_lim (fun s => fr s * cos (ft s)) 0 W).
        eapply dl_eq.
        * apply dl_mult; [exact Dr|apply dl_cos; exact Dt].
        * cbn beta. rewrite r0, t0. unfold W. ring.
    - exact Dr.
    - unfold quad4, sum4, comp4, c1, c2, c3, dot3. cbn [fst snd]. unfold c1, c2, c3. cbn [fst snd].
      rewrite !(fo_g_ _ _ _ _ _ _ F). cbn [gg_ gh_]. fold r th.
      pose proof fc_S as Sp. pose proof (sin2_cos2 th) as et. pose proof (sin2_cos2 ph) as epp. unfold Rsqr in et, epp.
      assert (nW : (cos ph * X - sin ph * Y) * (cos ph * X - sin ph * Y)
                 + (sin ph * X + cos ph * Y) * (sin ph * X + cos ph * Y) = X * X + Y * Y).
      { transitivity ((sin ph * sin ph + cos ph * cos ph) * (X * X + Y * Y)); [ring|]. rewrite epp. ring. }
      rewrite nW.
      assert (n3 : X * X + Y * Y + W * W = e1 * u1 * (e1 * u1) + gS a r th * (e2 * u2 * (e2 * u2))
                 + (r * r + a * a) * (sin th * sin th) * (u3 * u3) - 2 * a * (sin th * sin th) * (e1 * u1) * u3).
      { unfold X, Y, W, gS.
        transitivity ((sin th * sin th + cos th * cos th) * (e1 * u1 * (e1 * u1))
          + ((sin th * sin th + cos th * cos th) * (r * r) + a * a * (cos th * cos th)) * (e2 * u2 * (e2 * u2))
          + (r * r + a * a) * (sin th * sin th) * (u3 * u3) - 2 * a * (sin th * sin th) * (e1 * u1) * u3); [ring|].
        rewrite et. ring. }
      rewrite n3.
      replace (2 * mu * r / (r ^ 2 + a ^ 2 * cos th ^ 2)) with (gZ mu a r th).
      2:{ unfold gZ. f_equal. unfold gS. ring. }
      assert (eA : gA mu a r th / gS a r th = r * r + a * a + gZ mu a r th * (a * a) * (sin th * sin th)).
      { unfold gZ, gA. field. lra. }
      replace (gA mu a r th * (sin th * sin th) / gS a r th) with (gA mu a r th / gS a r th * (sin th * sin th)).
      2:{ field; lra. }
      rewrite eA. ring.
  Qed.

  (** h^ij in terms of A0 = sqrt h^11, b = sqrt h_22, c = sqrt h_33, q = h_13. *)
  Lemma form_triangular : exists A0 b c q, 0 < A0 /\ 0 < b /\ 0 < c /\
    sqrt (m_h M 1 1 x) = A0 /\ sqrt (m_h_ M 2 2 x) = b /\ sqrt (m_h_ M 3 3 x) = c /\
    m_h M 1 1 x = A0 * A0 /\ m_h M 1 3 x = - q * (A0 * A0) / (c * c) /\ m_h M 3 1 x = - q * (A0 * A0) / (c * c) /\
    m_h M 2 2 x = 1 / (b * b) /\
    m_h M 3 3 x = 1 / (c * c) + q * q * (A0 * A0) / (c * c * (c * c)) /\
    m_h_ M 1 1 x = 1 / (A0 * A0) + q * q / (c * c) /\ m_h_ M 1 3 x = q /\ m_h_ M 3 1 x = q /\
    m_h_ M 2 2 x = b * b /\ m_h_ M 3 3 x = c * c.
  Proof.
    pose proof fc_S as Sp. pose proof fc_A as Ap. pose proof fc_Sr as Rp. pose proof fc_s as sp.
    pose proof fc_Z as Zp. pose proof (fo_e1 _ _ _ _ _ _ F) as p1. pose proof (fo_e2 _ _ _ _ _ _ F) as p2.
    assert (ss : 0 < sin th * sin th) by (apply Rmult_lt_0_compat; assumption).
    assert (ee : 0 < e1 * e1) by (apply Rmult_lt_0_compat; assumption).
    assert (P1 : 0 < m_h M 1 1 x).
    { rewrite (fo_h _ _ _ _ _ _ F). cbn [gh]. fold r th. apply Rmult_lt_0_compat; [exact Ap|].
      apply Rinv_0_lt_compat. apply Rmult_lt_0_compat; [apply Rmult_lt_0_compat; assumption|assumption]. }
    assert (P2 : 0 < m_h_ M 2 2 x).
    { rewrite (fo_h_ _ _ _ _ _ _ F). cbn [gh_]. fold r th. apply Rmult_lt_0_compat; [apply Rmult_lt_0_compat; assumption|assumption]. }
    assert (P3 : 0 < m_h_ M 3 3 x).
    { rewrite (fo_h_ _ _ _ _ _ _ F). cbn [gh_]. fold r th. apply Rmult_lt_0_compat.
      - apply Rmult_lt_0_compat; assumption.
      - apply Rinv_0_lt_compat; assumption. }
    exists (sqrt (m_h M 1 1 x)), (sqrt (m_h_ M 2 2 x)), (sqrt (m_h_ M 3 3 x)), (m_h_ M 1 3 x).
    rewrite !sqrt_sqrt by lra.
    split; [apply sqrt_lt_R0; assumption|]. split; [apply sqrt_lt_R0; assumption|]. split; [apply sqrt_lt_R0; assumption|].
    do 4 (split; [reflexivity|]).
    rewrite !(fo_h_ _ _ _ _ _ _ F), !(fo_h _ _ _ _ _ _ F). cbn [gh gh_]. fold r th.
    assert (eZ : 1 + gZ mu a r th = (gS a r th + 2 * mu * r) / gS a r th) by (unfold gZ; field; lra).
    rewrite eZ.
    pose proof (gA_key mu a r th) as K.
    assert (ka : gS a r th * gS a r th = gA mu a r th - a * a * (sin th * sin th) * (gS a r th + 2 * mu * r)) by lra.
    repeat split; try reflexivity.
    - field. repeat split; lra.
    - field. repeat split; lra.
    - field. repeat split; lra.
    - apply Rmult_eq_reg_r with (gA mu a r th * gA mu a r th * gS a r th * (sin th * sin th)).
      2:{ apply Rgt_not_eq. repeat apply Rmult_lt_0_compat; assumption. }
      transitivity (gA mu a r th * gA mu a r th). { field. repeat split; lra. }
      transitivity (gA mu a r th * (gS a r th * gS a r th + a * a * (sin th * sin th) * (gS a r th + 2 * mu * r))).
      { rewrite K at 2. ring. }
      field. repeat split; lra.
    - apply Rmult_eq_reg_r with (gA mu a r th * gS a r th).
      2:{ apply Rgt_not_eq, Rmult_lt_0_compat; assumption. }
      transitivity (e1 * e1 * (gS a r th + 2 * mu * r) * gA mu a r th). { field. lra. }
      rewrite K at 1.
      field. repeat split; lra.
  Qed.

  Lemma form_inverse3 : inverse3 (fun i j => m_h_ M i j x) (fun i j => m_h M i j x).
  Proof.
    destruct form_triangular as (A0 & b & c & q & hA & hb & hc & _ & _ & _ & H1 & H2 & H3 & H4 & H5 & H6 & H7 & H8 & H9 & H10).
    intros i k hi hk.
    assert (Z_ : forall i j, gh_ mu a r th e1 e2 i j = m_h_ M i j x) by (intros; rewrite (fo_h_ _ _ _ _ _ _ F); reflexivity).
    assert (Zu : forall i j, gh mu a r th e1 e2 i j = m_h M i j x) by (intros; rewrite (fo_h _ _ _ _ _ _ F); reflexivity).
    assert (z1 : m_h_ M 1 2 x = 0) by (rewrite <- Z_; reflexivity).
    assert (z2 : m_h_ M 2 1 x = 0) by (rewrite <- Z_; reflexivity).
    assert (z3 : m_h_ M 2 3 x = 0) by (rewrite <- Z_; reflexivity).
    assert (z4 : m_h_ M 3 2 x = 0) by (rewrite <- Z_; reflexivity).
    assert (y1 : m_h M 1 2 x = 0) by (rewrite <- Zu; reflexivity).
    assert (y2 : m_h M 2 1 x = 0) by (rewrite <- Zu; reflexivity).
    assert (y3 : m_h M 2 3 x = 0) by (rewrite <- Zu; reflexivity).
    assert (y4 : m_h M 3 2 x = 0) by (rewrite <- Zu; reflexivity).
    destruct i as [|[|[|[|i]]]]; try lia; destruct k as [|[|[|[|k]]]]; try lia;
      unfold sum3, delta; cbn [Nat.eqb];
      rewrite ?H1, ?H2, ?H3, ?H4, ?H5, ?H6, ?H7, ?H8, ?H9, ?H10, ?z1, ?z2, ?z3, ?z4, ?y1, ?y2, ?y3, ?y4;
      field; repeat split; lra.
  Qed.

  Lemma form_inverse4 : inverse4 (fun i j => m_g_ M i j x) (fun i j => m_g M i j x).
  Proof.
    intros i k hi hk.
    pose proof fc_S as Sp. pose proof fc_Sr as Rp. pose proof fc_s as sp.
    pose proof (fo_e1 _ _ _ _ _ _ F) as p1. pose proof (fo_e2 _ _ _ _ _ _ F) as p2.
    pose proof (sin2_cos2 th) as et. unfold Rsqr in et.
    assert (sq : gS a r th = r * r + a * a - a * a * (sin th * sin th)).
    { unfold gS. replace (cos th * cos th) with (1 - sin th * sin th) by lra. ring. }
    unfold sum4. rewrite !(fo_g_ _ _ _ _ _ _ F), !(fo_g _ _ _ _ _ _ F). fold r th.
    destruct i as [|[|[|[|i]]]]; try lia; destruct k as [|[|[|[|k]]]]; try lia;
      unfold delta; cbn [Nat.eqb gg_ gh_ gg gh]; unfold gA, gZ; rewrite sq in *; try ring;
      field; repeat split; lra.
  Qed.

  Lemma form_adm : three_plus_one M x.
  Proof.
    pose proof fc_S as Sp. pose proof fc_Sr as Rp. pose proof fc_Z as Zp. pose proof (fo_e1 _ _ _ _ _ _ F) as p1.
    assert (q2 : sqrt (1 + gZ mu a r th) * sqrt (1 + gZ mu a r th) = 1 + gZ mu a r th) by (apply sqrt_sqrt; lra).
    assert (qp : 0 < sqrt (1 + gZ mu a r th)) by (apply sqrt_lt_R0; lra).
    unfold three_plus_one. rewrite (fo_alpha _ _ _ _ _ _ F). fold r th.
    split. { apply Rmult_lt_0_compat; [lra|apply Rinv_0_lt_compat; assumption]. }
    split.
    { unfold sum3, shift. rewrite !(fo_h_ _ _ _ _ _ _ F), (fo_g_ _ _ _ _ _ _ F), !(fo_beta _ _ _ _ _ _ F). cbn [gg_ gh_]. fold r th.
      replace ((1 / sqrt (1 + gZ mu a r th)) ^ 2) with (1 / (1 + gZ mu a r th)).
      2:{ rewrite <- q2 at 1. field. lra. }
      field. split; lra. }
    split.
    { intros i hi. unfold sum3, shift. rewrite !(fo_h_ _ _ _ _ _ _ F), !(fo_g_ _ _ _ _ _ _ F), !(fo_beta _ _ _ _ _ _ F). fold r th.
      destruct i as [|[|[|[|i]]]]; try lia; cbn [gg_ gh_]; split; try reflexivity; try ring; field; split; lra. }
    intros i j hi hj. rewrite !(fo_h_ _ _ _ _ _ _ F), !(fo_g_ _ _ _ _ _ _ F).
    destruct i as [|[|[|[|i]]]]; try lia; destruct j as [|[|[|[|j]]]]; try lia; reflexivity.
  Qed.

  Lemma form_volume : volume_element M x.
  Proof.
    pose proof fc_S as Sp. pose proof fc_Sr as Rp. pose proof fc_Z as Zp. pose proof fc_s as sp.
    pose proof (fo_e1 _ _ _ _ _ _ F) as p1. pose proof (fo_e2 _ _ _ _ _ _ F) as p2.
    assert (q2 : sqrt (1 + gZ mu a r th) * sqrt (1 + gZ mu a r th) = 1 + gZ mu a r th) by (apply sqrt_sqrt; lra).
    assert (qp : 0 < sqrt (1 + gZ mu a r th)) by (apply sqrt_lt_R0; lra).
    unfold volume_element. rewrite (fo_det _ _ _ _ _ _ F), (fo_tilde _ _ _ _ _ _ F). fold r th.
    split. { repeat apply Rmult_lt_0_compat; assumption. }
    split; [|ring].
    unfold det3. rewrite !(fo_h_ _ _ _ _ _ _ F). cbn [gh_]. fold r th.
    transitivity (e1 * e1 * (e2 * e2) * (gS a r th * gS a r th) * (sin th * sin th) * (1 + gZ mu a r th)).
    { transitivity (e1 * e1 * (e2 * e2) * (gS a r th * gS a r th) * (sin th * sin th) * (sqrt (1 + gZ mu a r th) * sqrt (1 + gZ mu a r th))); [ring|]. rewrite q2. reflexivity. }
    rewrite gA_key. unfold gZ. field. lra.
  Qed.

  (* vectors *)
  Lemma phys1 : forall v, m_to_phys M 1 x v = v * e1. Proof. intros; apply (fo_phys _ _ _ _ _ _ F). Qed.
  Lemma phys2 : forall v, m_to_phys M 2 x v = v * e2. Proof. intros; apply (fo_phys _ _ _ _ _ _ F). Qed.
  Lemma phys3 : forall v, m_to_phys M 3 x v = v. Proof. intros; apply (fo_phys _ _ _ _ _ _ F). Qed.
  Lemma iphys1 : forall v, m_of_phys M 1 x v = v / e1. Proof. intros; apply (fo_iphys _ _ _ _ _ _ F). Qed.
  Lemma iphys2 : forall v, m_of_phys M 2 x v = v / e2. Proof. intros; apply (fo_iphys _ _ _ _ _ _ F). Qed.
  Lemma iphys3 : forall v, m_of_phys M 3 x v = v. Proof. intros; apply (fo_iphys _ _ _ _ _ _ F). Qed.

  Ltac tri A0 b c q :=
    let hA := fresh "hA" in let hb := fresh "hb" in let hc := fresh "hc" in
    destruct form_triangular as (A0 & b & c & q & hA & hb & hc & S1 & S2 & S3 & H1 & H2 & H3 & H4 & H5 & H6 & H7 & H8 & H9 & H10);
    pose proof (fo_e1 _ _ _ _ _ _ F) as p1; pose proof (fo_e2 _ _ _ _ _ _ F) as p2.
  Ltac vals S1 S2 S3 H1 H2 H4 H5 H6 H7 H9 H10 :=
    rewrite ?S1, ?S2, ?S3, ?H1, ?H2, ?H4, ?H5, ?H6, ?H7, ?H9, ?H10, ?phys1, ?phys2, ?phys3, ?iphys1, ?iphys2, ?iphys3.

  Lemma triple_eq : forall (p q s p' q' s' : R), p = p' -> q = q' -> s = s' -> (p, q, s) = (p', q', s').
  Proof. intros; subst; reflexivity. Qed.

  Lemma quad_eq : forall (o p q s o' p' q' s' : R), o = o' -> p = p' -> q = q' -> s = s' -> (o, p, q, s) = (o', p', q', s').
  Proof. intros; subst; reflexivity. Qed.

  Lemma form_undo : undoes_itself (fun i o => gr_transform M i o x).
  Proof.
    tri A0 b c q. intros i o [[v1 v2] v3] w E.
    destruct i, o; cbn [gr_transform] in E; try discriminate E; injection E as <-; cbn [gr_transform];
      apply f_equal, triple_eq; try reflexivity; vals S1 S2 S3 H1 H2 H4 H5 H6 H7 H9 H10; try reflexivity; field; repeat split; lra.
  Qed.
  Lemma form_routes : routes_agree (fun i o => gr_transform M i o x).
  Proof.
    tri A0 b c q. intros i o k [[v1 v2] v3] w u u' E G K.
    destruct i, o; cbn [gr_transform] in E; try discriminate E; injection E as <-;
      destruct k; cbn [gr_transform] in G, K; try discriminate G; try discriminate K; injection G as <-; injection K as <-;
      apply triple_eq; try reflexivity; vals S1 S2 S3 H1 H2 H4 H5 H6 H7 H9 H10; try reflexivity; field; repeat split; lra.
  Qed.
  Lemma form_norms : norms_agree (fun i o => gr_transform M i o x).
  Proof.
    tri A0 b c q. intros [[v1 v2] v3]. eexists. eexists. split; [reflexivity|]. split; [reflexivity|].
    unfold dot3, c1, c2, c3. cbn [fst snd].
    vals S1 S2 S3 H1 H2 H4 H5 H6 H7 H9 H10. field. repeat split; lra.
  Qed.
  Lemma form_norm_is_h : forall v t, gr_transform M IU IT x v = Some t -> dot3 t t = quad3 (fun i j => m_h_ M i j x) v.
  Proof.
    tri A0 b c q. intros [[v1 v2] v3] t E. cbn [gr_transform] in E. injection E as <-.
    unfold dot3, quad3, sum3, comp4, c1, c2, c3. cbn [fst snd].
    assert (z1 : m_h_ M 1 2 x = 0) by (rewrite (fo_h_ _ _ _ _ _ _ F); reflexivity).
    assert (z2 : m_h_ M 2 1 x = 0) by (rewrite (fo_h_ _ _ _ _ _ _ F); reflexivity).
    assert (z3 : m_h_ M 2 3 x = 0) by (rewrite (fo_h_ _ _ _ _ _ _ F); reflexivity).
    assert (z4 : m_h_ M 3 2 x = 0) by (rewrite (fo_h_ _ _ _ _ _ _ F); reflexivity).
    rewrite z1, z2, z3, z4, H8. vals S1 S2 S3 H1 H2 H4 H5 H6 H7 H9 H10. field. repeat split; lra.
  Qed.

  (* four-vectors *)
  Lemma form_4d : forall v, gr_cntrv_to_cov4 M x (gr_cov_to_cntrv4 M x v) = v /\ gr_cov_to_cntrv4 M x (gr_cntrv_to_cov4 M x v) = v.
  Proof.
    intros [[[v0 v1] v2] v3].
    pose proof fc_S as Sp. pose proof fc_Sr as Rp. pose proof fc_s as sp.
    pose proof (fo_e1 _ _ _ _ _ _ F) as p1. pose proof (fo_e2 _ _ _ _ _ _ F) as p2.
    pose proof (sin2_cos2 th) as et. unfold Rsqr in et.
    assert (sq : gS a r th = r * r + a * a - a * a * (sin th * sin th)).
    { unfold gS. replace (cos th * cos th) with (1 - sin th * sin th) by lra. ring. }
    unfold gr_cntrv_to_cov4, gr_cov_to_cntrv4. rewrite !(fo_g_ _ _ _ _ _ _ F), !(fo_g _ _ _ _ _ _ F). fold r th.
    cbn [gg_ gh_ gg gh]; unfold gA, gZ; rewrite sq in *.
    split; apply quad_eq; field; repeat split; lra.
  Qed.

  (* u_0 *)
  Lemma form_g : exists al be A0 b c q, 0 < al /\ 0 < A0 /\ 0 < b /\ 0 < c /\
    m_alpha M x = al /\
    m_g M 0 0 x = - 1 / (al * al) /\ m_g M 0 1 x = be / (al * al) /\ m_g M 1 0 x = be / (al * al) /\
    m_g M 1 1 x = A0 * A0 - be * be / (al * al) /\ m_g M 2 2 x = 1 / (b * b) /\
    m_g M 1 3 x = - q * (A0 * A0) / (c * c) /\ m_g M 3 1 x = - q * (A0 * A0) / (c * c) /\
    m_g M 3 3 x = 1 / (c * c) + q * q * (A0 * A0) / (c * c * (c * c)) /\
    m_g M 0 2 x = 0 /\ m_g M 2 0 x = 0 /\ m_g M 0 3 x = 0 /\ m_g M 3 0 x = 0 /\
    m_g M 1 2 x = 0 /\ m_g M 2 1 x = 0 /\ m_g M 2 3 x = 0 /\ m_g M 3 2 x = 0.
  Proof.
    tri A0 b c q. exists (m_alpha M x), (m_beta1 M x), A0, b, c, q.
    pose proof fc_S as Sp. pose proof fc_Sr as Rp. pose proof fc_Z as Zp. pose proof fc_s as sp.
    assert (q2 : sqrt (1 + gZ mu a r th) * sqrt (1 + gZ mu a r th) = 1 + gZ mu a r th) by (apply sqrt_sqrt; lra).
    assert (qp : 0 < sqrt (1 + gZ mu a r th)) by (apply sqrt_lt_R0; lra).
    assert (al2 : m_alpha M x * m_alpha M x = 1 / (1 + gZ mu a r th)).
    { rewrite (fo_alpha _ _ _ _ _ _ F). fold r th. rewrite <- q2 at 3. field. lra. }
    split. { rewrite (fo_alpha _ _ _ _ _ _ F). fold r th. apply Rmult_lt_0_compat; [lra|apply Rinv_0_lt_compat; assumption]. }
    do 3 (split; [assumption|]). split; [reflexivity|].
    rewrite al2, (fo_beta _ _ _ _ _ _ F). rewrite <- H5, <- H2, <- H4, <- H1. rewrite !(fo_g _ _ _ _ _ _ F), !(fo_h _ _ _ _ _ _ F). cbn [gg gh]. fold r th.
    split. { field. lra. }
    split. { field. split; lra. }
    split. { field. split; lra. }
    split.
    { pose proof (sin2_cos2 th) as et. unfold Rsqr in et.
      assert (sq : gS a r th = r * r + a * a - a * a * (sin th * sin th)).
      { unfold gS. replace (cos th * cos th) with (1 - sin th * sin th) by lra. ring. }
      unfold gA, gZ. rewrite sq in *. field. repeat split; lra. }
    repeat split; reflexivity.
  Qed.

  Lemma form_u0 : forall u norm, 0 <= norm ->
    let w := gr_u_0 M x u norm in
    let up := sum4 (fun j => m_g M 0 j x * comp4 w u j) in
    quad4 (fun i j => m_g M i j x) w u = - norm /\ 0 <= up /\ (0 < norm -> 0 < up) /\
    (forall w', quad4 (fun i j => m_g M i j x) w' u = - norm -> 0 <= sum4 (fun j => m_g M 0 j x * comp4 w' u j) -> w' = w).
  Proof.
    intros [[u1 u2] u3] norm hn.
    destruct form_g as (al & be & A0 & b & c & q & ha & hA & hb & hc & _ & G00 & G01 & G10 & G11 & G22 & G13 & G31 & G33 & Z1 & Z2 & Z3 & Z4 & Z5 & Z6 & Z7 & Z8).
    set (E := (A0 * u1 - q * A0 / (c * c) * u3) * (A0 * u1 - q * A0 / (c * c) * u3) + u2 / b * (u2 / b) + u3 / c * (u3 / c) + norm).
    assert (E0 : 0 <= E /\ (0 < norm -> 0 < E)).
    { pose proof (Rle_0_sqr (A0 * u1 - q * A0 / (c * c) * u3)) as s1. pose proof (Rle_0_sqr (u2 / b)) as s2. pose proof (Rle_0_sqr (u3 / c)) as s3.
      unfold Rsqr in s1, s2, s3. unfold E. split; lra. }
    destruct E0 as [E0 E1].
    assert (sE : sqrt E * sqrt E = E) by (apply sqrt_sqrt; exact E0).
    pose proof (sqrt_pos E) as sp.
    assert (U : gr_u_0 M x (u1, u2, u3) norm = be * u1 - al * sqrt E).
    { unfold gr_u_0. rewrite G00, G01, G11, G22, G33, G13. unfold sqr.
      replace (- 2 * (be / (al * al)) * u1 * (- 2 * (be / (al * al)) * u1) - _) with (2 * sqrt E / al * (2 * sqrt E / al)).
      2:{ replace (2 * sqrt E / al * (2 * sqrt E / al)) with (4 * (sqrt E * sqrt E) / (al * al)) by (field; lra). rewrite sE. unfold E. field. repeat split; lra. }
      rewrite sqrt_square. 2:{ apply Rmult_le_pos; [lra|left; apply Rinv_0_lt_compat; lra]. }
      field. lra. }
    assert (Q : forall w, quad4 (fun i j => m_g M i j x) w (u1, u2, u3) = - norm + (E - (w - be * u1) * (w - be * u1) / (al * al))).
    { intros w. unfold quad4, sum4, comp4, c1, c2, c3. cbn [fst snd].
      rewrite G00, G01, G10, G11, G22, G13, G31, G33, Z1, Z2, Z3, Z4, Z5, Z6, Z7, Z8. unfold E. field. repeat split; lra. }
    assert (P : forall w, sum4 (fun j => m_g M 0 j x * comp4 w (u1, u2, u3) j) = (be * u1 - w) / (al * al)).
    { intros w. unfold sum4, comp4, c1, c2, c3. cbn [fst snd]. rewrite G00, G01, Z1, Z3. field. lra. }
    cbv zeta. rewrite U, Q, P.
    replace (be * u1 - (be * u1 - al * sqrt E)) with (al * sqrt E) by ring.
    replace (be * u1 - al * sqrt E - be * u1) with (- (al * sqrt E)) by ring.
    split. { replace (- (al * sqrt E) * - (al * sqrt E) / (al * al)) with (sqrt E * sqrt E) by (field; lra). rewrite sE. ring. }
    split. { apply Rmult_le_pos; [apply Rmult_le_pos; lra|left; apply Rinv_0_lt_compat, Rmult_lt_0_compat; assumption]. }
    split. { intros hp. apply Rmult_lt_0_compat; [apply Rmult_lt_0_compat; [assumption|apply sqrt_lt_R0, E1, hp]|apply Rinv_0_lt_compat, Rmult_lt_0_compat; assumption]. }
    intros w' hq hu. rewrite Q in hq. rewrite P in hu.
    assert (aa : 0 < al * al) by (apply Rmult_lt_0_compat; assumption).
    assert (d0 : 0 <= be * u1 - w').
    { apply Rmult_le_reg_r with (/ (al * al)); [apply Rinv_0_lt_compat; exact aa|]. rewrite Rmult_0_l. exact hu. }
    assert (d2 : (be * u1 - w') * (be * u1 - w') = al * sqrt E * (al * sqrt E)).
    { replace (al * sqrt E * (al * sqrt E)) with (al * al * (sqrt E * sqrt E)) by ring. rewrite sE.
      assert (h : (w' - be * u1) * (w' - be * u1) / (al * al) = E) by lra. rewrite <- h. field. lra. }
    assert (be * u1 - w' = al * sqrt E).
    { apply Rsqr_inj; [exact d0|apply Rmult_le_pos; lra|exact d2]. }
    lra.
  Qed.
End Cons.
