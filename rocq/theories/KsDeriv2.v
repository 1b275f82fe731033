From Coq Require Import Reals ZArith List Bool Lra Lia.
From Verif Require Import Base MetModel MetSpec KsModel KsSpec StretchProofs DerivLemmas MetProofs KsProofs KsDeriv.
Open Scope R_scope.

(* ------------------------------------------------------------------ *)
(** * Kerr-Schild without a black hole *)

Lemma within_zero : forall f x code D tol, derivable_pt_lim f x D -> code = D -> 0 <= tol -> derivative_within f x code tol.
Proof. intros f x code D tol H -> h. exists D. split; [exact H|]. replace (D - D) with 0 by ring. rewrite Rabs_R0. exact h. Qed.

Lemma ks0_derivatives : forall g x, sensible g -> gr_regular (ks0 g) x ->
  radial_derivatives (ks0 g) x /\ radial_h22 (ks0 g) x /\
  angular_derivatives 0 0 (ks0 g) x /\ angular_h22 0 (ks0 g) x.
Proof.
  intros g [x1 x2] S [hr ht]. cbn [ks0 m_r m_th fst snd] in hr, ht.
  pose proof (s_dr_pos g S) as p. pose proof (s_dth_pos g S) as q.
  assert (st : 0 < sin (k_th g x2)) by (apply sin_gt_0; lra).
  assert (Dr : derivable_pt_lim (k_r g) x1 (s_dr g)) by (unfold k_r; eapply dl_eq; [dl|cbn beta; ring]).
  assert (Dt : derivable_pt_lim (k_th g) x2 (s_dth g)) by (unfold k_th; eapply dl_eq; [dl|cbn beta; ring]).
  unfold radial_derivatives, radial_h22, angular_derivatives, angular_h22.
  cbn [ks0 m_r m_th m_alpha m_beta1 m_h m_dr_alpha m_dr_beta1 m_dr_h11 m_dr_h22 m_dr_h33 m_dr_h13
       m_dt_alpha m_dt_beta1 m_dt_h11 m_dt_h22 m_dt_h33 m_dt_h13 fst snd].
  unfold k0_h, k0_dr_h22, k0_dr_h33, k0_dt_h33. cbn [fst snd].
  set (r := k_r g x1) in *. set (th := k_th g x2) in *.
  split; [|split; [|split]].
  - split; [apply dl_const|]. split; [apply dl_const|]. split; [apply dl_const|]. split; [|apply dl_const].
    eapply dl_eq.
    + dl; [exact Dr|]. fold r. unfold sqr. apply Rgt_not_eq. repeat apply Rmult_lt_0_compat; assumption.
    + cbn beta. fold r. unfold sqr, cube. field. split; lra.
  - eapply dl_eq.
    + dl; [exact Dr|]. fold r. lra.
    + cbn beta. fold r. unfold sqr, cube, s_dth_inv. field. split; lra.
  - intros d1 D1.
    assert (t0 : forall y, 0 <= 0 / y) by (intros; unfold Rdiv; rewrite Rmult_0_l; lra).
    split; [eapply within_zero; [apply dl_const|reflexivity|apply t0]|].
    split; [eapply within_zero; [apply dl_const|reflexivity|]; rewrite Rmult_0_r; unfold Rdiv; rewrite !Rmult_0_l; lra|].
    split; [eapply within_zero; [apply dl_const|reflexivity|]; rewrite Rmult_0_l; apply t0|].
    split; [|eapply within_zero; [apply dl_const|reflexivity|]; rewrite Rmult_0_l; unfold Rdiv; rewrite !Rmult_0_l; lra].
    eapply within_zero; [|reflexivity|apply t0]. eapply dl_eq.
    + dl; [exact Dt|]. fold th. unfold sqr. apply Rgt_not_eq. repeat apply Rmult_lt_0_compat; assumption.
    + cbn beta. fold th. unfold sqr, cube. field. split; lra.
  - intros d2 D2. eapply within_zero; [apply dl_const|reflexivity|]. unfold Rdiv. rewrite !Rmult_0_l. lra.
Qed.

(* ------------------------------------------------------------------ *)
(** * Quasi-Kerr-Schild *)

Section QKS.
  Variables (eps a : R) (g : grid) (r0 h : R) (m : qmet) (x1 x2 : R).
  Hypothesis OK : q_ok eps g r0 h.
  Hypothesis MK : q_make eps g r0 h = Some m.
  Hypothesis Rg : gr_regular (qks a m) (x1, x2).
  Let r := qk_r m x1.
  Let th := qk_th m x2.
  Let e1 := q_dchi m * exp (q_chi m x1).
  Let t' := dtheta_deta (q_eps m) (q_h0 m) (q_eta m x2).

  Lemma qx_r : 0 < r. Proof. exact (proj1 Rg). Qed.
  Lemma qx_s : 0 < sin th. Proof. destruct Rg as [_ [h1 h2]]. apply sin_gt_0; assumption. Qed.
  Lemma qx_S : 0 < k_Sigma a r th. Proof. apply k_Sigma_pos, qx_r. Qed.
  Lemma qx_dchi : 0 < q_dchi m.
  Proof. destruct (q_fields eps g r0 h m OK MK) as (f1 & f2 & f3 & f4 & f5 & f6 & f7 & f8 & f9). assumption. Qed.
  Lemma qx_deta : 0 < q_deta m.
  Proof. destruct (q_fields eps g r0 h m OK MK) as (f1 & f2 & f3 & f4 & f5 & f6 & f7 & f8 & f9). assumption. Qed.
  Lemma qx_h0 : 0 <= q_h0 m < 1.
  Proof. destruct (q_fields eps g r0 h m OK MK) as (f1 & f2 & f3 & _). rewrite f3. apply OK. Qed.
  Lemma qx_eps : q_eps m = eps.
  Proof. apply (q_fields eps g r0 h m OK MK). Qed.
  Lemma qx_t : 0 < t'. Proof. apply dtde_pos, qx_h0. Qed.
  Lemma qx_e1 : 0 < e1. Proof. apply Rmult_lt_0_compat; [apply qx_dchi|apply exp_pos]. Qed.
  Lemma qx_Dr : derivable_pt_lim (qk_r m) x1 e1.
  Proof. unfold qk_r, q_chi. eapply dl_eq; [dl|cbn beta; unfold e1, q_chi; ring]. Qed.
  Lemma qx_De : derivable_pt_lim (fun s => q_dchi m * exp (q_chi m s)) x1 (q_dchi m * e1).
  Proof. unfold q_chi. eapply dl_eq; [dl|cbn beta; unfold e1, q_chi; ring]. Qed.
  Lemma qx_Dt : derivable_pt_lim (qk_th m) x2 (q_deta m * t').
  Proof.
    unfold qk_th. eapply dl_eq.
    - apply (dl_comp (fun s => q_eta m s) (eta2theta (q_eps m) (q_h0 m))); [unfold q_eta; dl|apply dl_e2t].
    - cbn beta. fold t'. ring.
  Qed.
  Lemma qx_dx_dt : qk_dx_dt m (q_eta m x2) = q_deta m * t'.
  Proof.
    unfold qk_dx_dt, t', dtheta_deta. destruct (almost_zero (q_eps m) (q_h0 m)); [ring|].
    unfold sqr. field. apply PI_neq0.
  Qed.
  Lemma qx_exp : exp (- q_chi m x1) = / exp (q_chi m x1). Proof. apply exp_Ropp. Qed.

  Lemma qks_radial : radial_derivatives (qks a m) (x1, x2).
  Proof.
    pose proof qx_r as hr. pose proof qx_s as st. pose proof qx_S as Sp. pose proof qx_dchi as dc. pose proof (exp_pos (q_chi m x1)) as ep.
    pose proof qx_e1 as pe. unfold r, th in *.
    unfold radial_derivatives. cbn [qks m_alpha m_beta1 m_h m_dr_alpha m_dr_beta1 m_dr_h11 m_dr_h22 m_dr_h33 m_dr_h13 fst snd].
    split; [|split; [|split; [|split]]].
    - exact (r_alpha a (qk_th m x2) (qk_r m) x1 (qk_r m x1) e1 qx_Dr eq_refl hr).
    - eapply dl_ext; [|eapply dl_eq; [exact (r_beta a (qk_th m x2) (qk_r m) _ x1 (qk_r m x1) e1 (q_dchi m) qx_Dr qx_De eq_refl eq_refl hr pe)|]].
      + intros t. cbv beta. unfold qk_beta1. cbn [fst snd]. rewrite exp_Ropp. unfold Rdiv. rewrite Rinv_mult. ring.
      + unfold qk_dr_beta1. cbn [fst snd]. rewrite exp_Ropp. fold e1. pose proof (k_z_nonneg a (qk_r m x1) (qk_th m x2) hr). unfold sqr, e1. field. repeat split; lra.
    - eapply dl_ext; [|eapply dl_eq; [exact (r_h11 a (qk_th m x2) (qk_r m) _ x1 (qk_r m x1) e1 (q_dchi m) qx_Dr qx_De eq_refl eq_refl hr pe)|]].
      + intros t. cbv beta. unfold qk_h, sqr. cbn [fst snd]. rewrite exp_mdouble. unfold Rdiv. rewrite !Rinv_mult. ring.
      + unfold qk_dr_h11. cbn [fst snd]. rewrite exp_mdouble. fold e1. set (AA := k_A a (qk_r m x1) (qk_th m x2)).
        unfold sqr, e1. field. repeat split; lra.
    - eapply dl_ext; [|eapply dl_eq; [exact (r_invS a (qk_th m x2) (qk_r m) x1 (qk_r m x1) e1 qx_Dr eq_refl hr (/ sqr (sin (qk_th m x2))))|]].
      + intros t. cbv beta. unfold qk_h. cbn [fst snd]. unfold Rdiv. rewrite Rinv_mult. ring.
      + unfold qk_dr_h33. cbn [fst snd]. fold e1. unfold Rdiv. ring.
    - eapply dl_ext; [|eapply dl_eq; [exact (r_h13 a (qk_th m x2) (qk_r m) _ x1 (qk_r m x1) e1 (q_dchi m) qx_Dr qx_De eq_refl eq_refl hr pe)|]].
      + intros t. cbv beta. unfold qk_h. cbn [fst snd]. rewrite exp_Ropp. unfold Rdiv. rewrite Rinv_mult. ring.
      + unfold qk_dr_h13. cbn [fst snd]. rewrite exp_Ropp. fold e1. unfold sqr, e1. field. repeat split; lra.
  Qed.

  Lemma qks_angular : (q_h0 m = 0 \/ eps < q_h0 m) -> angular_derivatives eps a (qks a m) (x1, x2).
  Proof.
    intros hz.
    pose proof qx_r as hr. pose proof qx_s as st. pose proof qx_S as Sp. pose proof qx_dchi as dc. pose proof (exp_pos (q_chi m x1)) as ep.
    pose proof qx_e1 as pe. assert (he : 0 <= eps) by apply OK.
    assert (fl : forall v, Rabs (flush (q_eps m) v - v) <= eps) by (intros; rewrite qx_eps; apply flush_close; exact he).
    pose proof (fl (- 2 * sqr a * sin th * cos th * (q_deta m * t'))) as fS.
    pose proof (fl (- 2 * sqr a * sin th * cos th * k_Delta a r * (q_deta m * t'))) as fA.
    assert (r3 : 0 < r ^ 3) by (apply pow_lt; exact hr). assert (r4 : 0 < r ^ 4) by (apply pow_lt; exact hr).
    assert (eS : qk_dt_Sigma a m (q_eta m x2) = flush (q_eps m) (- 2 * sqr a * sin th * cos th * (q_deta m * t'))).
    { unfold qk_dt_Sigma. rewrite qx_dx_dt. reflexivity. }
    assert (eA : qk_dt_A a m r (q_eta m x2) = flush (q_eps m) (- 2 * sqr a * sin th * cos th * k_Delta a r * (q_deta m * t'))).
    { unfold qk_dt_A. rewrite qx_dx_dt. reflexivity. }
    intros d1 D1. cbn [qks m_r fst] in D1. rewrite (dl_unique _ _ _ _ D1 qx_Dr). clear d1 D1.
    cbn [qks m_r m_th m_alpha m_beta1 m_h m_dt_alpha m_dt_beta1 m_dt_h11 m_dt_h22 m_dt_h33 m_dt_h13 fst snd].
    fold r th.
    split; [|split; [|split; [|split]]].
    - eapply within_zero; [exact (t_alpha a r (qk_th m) x2 th (q_deta m * t') qx_Dt eq_refl hr)| |].
      + unfold qk_dt_alpha. cbn [fst snd]. fold r. change (eta2theta (q_eps m) (q_h0 m) (q_eta m x2)) with th.
        assert (ed : q_deta m * (1 + 2 * q_h0 m * (1 / (PI * PI)) * (2 * 3 * sqr (q_eta m x2) - 2 * 3 * PI * q_eta m x2 + PI * PI)) = q_deta m * t').
        { unfold t', dtheta_deta. destruct (almost_zero (q_eps m) (q_h0 m)) eqn:Z.
          - destruct hz as [z|z]; [rewrite z; unfold Rdiv; ring|].
            apply almost_zero_true in Z. rewrite qx_eps in Z. rewrite Rabs_pos_eq in Z by (apply Rlt_le, (Rle_lt_trans _ eps); assumption). lra.
          - unfold sqr. field. apply PI_neq0. }
        rewrite ed. unfold qk_alpha. cbn [fst snd]. fold r th. unfold Rdiv. ring.
      + unfold Rdiv. apply Rmult_le_pos; [exact he|left; apply Rinv_0_lt_compat; exact r3].
    - eexists. split.
      + eapply dl_ext; [|exact (t_beta a r (qk_th m) x2 th (q_deta m * t') qx_Dt eq_refl hr (/ e1))].
        intros t. cbv beta. unfold qk_beta1. cbn [fst snd]. fold r. rewrite exp_Ropp. unfold e1, Rdiv. rewrite Rinv_mult. ring.
      + assert (ip : 0 < / e1) by (apply Rinv_0_lt_compat; exact pe).
        pose proof (b_beta a r th eps _ _ (/ e1) hr fS ip) as B.
        replace (2 * eps / r ^ 3 / e1) with (eps * (/ e1 * (2 / r ^ 3))) by (field; split; lra).
        replace (qk_dt_beta1 a m (x1, x2)) with (- / e1 * 2 * r * flush (q_eps m) (- 2 * sqr a * sin th * cos th * (q_deta m * t')) / sqr (k_Sigma a r th * (1 + k_z a r th))).
        exact B. unfold qk_dt_beta1. cbn [fst snd]. rewrite eS. fold r. change (eta2theta (q_eps m) (q_h0 m) (q_eta m x2)) with th.
        rewrite exp_Ropp. unfold e1, Rdiv. rewrite Rinv_mult. ring.
    - eexists. split.
      + eapply dl_ext; [|exact (t_h11 a r (qk_th m) x2 th (q_deta m * t') qx_Dt eq_refl hr (/ (e1 * e1)))].
        intros t. cbv beta. unfold qk_h. cbn [fst snd]. fold r. rewrite exp_mdouble. unfold e1, sqr, Rdiv. rewrite !Rinv_mult. ring.
      + assert (ip : 0 < / (e1 * e1)) by (apply Rinv_0_lt_compat, Rmult_lt_0_compat; exact pe).
        pose proof (b_h11 a r th eps _ _ _ _ (/ (e1 * e1)) hr fS fA ip) as B.
        replace (eps * (1 / r ^ 4 + 2 / r ^ 2 + 2 * a ^ 2 / r ^ 4) / e1 ^ 2)
          with (eps * (1 / r ^ 4 + 2 / r ^ 2 + 2 * a ^ 2 / r ^ 4) * / (e1 * e1)) by (field; split; lra).
        match type of B with Rabs (?v - _) <= _ => replace (qk_dt_h11 a m (x1, x2)) with v end.
        exact B. unfold qk_dt_h11. cbn [fst snd]. fold r. rewrite eS, eA. change (eta2theta (q_eps m) (q_h0 m) (q_eta m x2)) with th.
        rewrite exp_mdouble. unfold e1, sqr, Rdiv. rewrite !Rinv_mult. ring.
    - eexists. split; [exact (t_h33 a r (qk_th m) x2 th (q_deta m * t') qx_Dt eq_refl hr st)|].
      pose proof (b_h33 a r th eps _ _ hr st fS (2 * cos th / sin th * k_Sigma a r th * (q_deta m * t'))) as B.
      match type of B with Rabs (?v - _) <= _ => replace (qk_dt_h33 a m (x1, x2)) with v end.
      exact B. unfold qk_dt_h33. cbn [fst snd]. fold r. rewrite eS, qx_dx_dt. reflexivity.
    - eexists. split.
      + eapply dl_ext; [|exact (t_invS a r (qk_th m) x2 th (q_deta m * t') qx_Dt eq_refl hr (/ e1 * a))].
        intros t. cbv beta. unfold qk_h. cbn [fst snd]. fold r. rewrite exp_Ropp. unfold e1, Rdiv. rewrite Rinv_mult. ring.
      + pose proof (b_invS a r th eps _ _ hr fS (/ e1 * a)) as B.
        replace (eps * Rabs a / r ^ 4 / e1) with (eps * (Rabs (/ e1 * a) / r ^ 4)).
        2:{ rewrite Rabs_mult, (Rabs_pos_eq (/ e1)); [field; split; lra|]. left; apply Rinv_0_lt_compat; exact pe. }
        match type of B with Rabs (?v - _) <= _ => replace (qk_dt_h13 a m (x1, x2)) with v end.
        exact B. unfold qk_dt_h13. cbn [fst snd]. fold r. rewrite eS. change (eta2theta (q_eps m) (q_h0 m) (q_eta m x2)) with th.
        rewrite exp_Ropp. unfold e1, Rdiv. rewrite Rinv_mult. ring.
  Qed.

  (** Without stretching h^22 is differentiated correctly too. *)
  Lemma qks_h22_unstretched : q_h0 m = 0 -> radial_h22 (qks a m) (x1, x2) /\ angular_h22 eps (qks a m) (x1, x2).
  Proof.
    intros z.
    pose proof qx_r as hr. pose proof qx_s as st. pose proof qx_S as Sp. pose proof qx_deta as de.
    assert (he : 0 <= eps) by apply OK.
    assert (td : forall e, dtheta_deta (q_eps m) (q_h0 m) e = 1).
    { intros e. unfold dtheta_deta. replace (almost_zero (q_eps m) (q_h0 m)) with true; [reflexivity|].
      symmetry. apply almost_zero_true. rewrite z, Rabs_R0, qx_eps. exact he. }
    assert (t1 : t' = 1) by apply td.
    assert (fl : forall v, Rabs (flush (q_eps m) v - v) <= eps) by (intros; rewrite qx_eps; apply flush_close; exact he).
    pose proof (fl (- 2 * sqr a * sin th * cos th * (q_deta m * t'))) as fS.
    assert (eS : qk_dt_Sigma a m (q_eta m x2) = flush (q_eps m) (- 2 * sqr a * sin th * cos th * (q_deta m * t'))).
    { unfold qk_dt_Sigma. rewrite qx_dx_dt. reflexivity. }
    assert (r4 : 0 < r ^ 4) by (apply pow_lt; exact hr).
    split.
    - unfold radial_h22. cbn [qks m_h m_dr_h22 fst snd].
      eapply dl_ext; [|eapply dl_eq; [exact (r_invS a th (qk_r m) x1 r e1 qx_Dr eq_refl hr (/ sqr (q_deta m)))|]].
      + intros t. cbv beta. unfold qk_h. cbn [fst snd]. rewrite td. fold th. unfold sqr, Rdiv. rewrite !Rinv_mult, Rinv_1. ring.
      + unfold qk_dr_h22. cbn [fst snd]. fold r th e1. unfold Rdiv. ring.
    - intros d2 D2. cbn [qks m_th snd] in D2. rewrite (dl_unique _ _ _ _ D2 qx_Dt). clear d2 D2. rewrite t1, Rmult_1_r.
      cbn [qks m_r m_h m_dt_h22 fst snd]. fold r.
      eexists. split.
      + eapply dl_ext; [|exact (t_invS a r (qk_th m) x2 th (q_deta m * t') qx_Dt eq_refl hr (/ sqr (q_deta m)))].
        intros t. cbv beta. unfold qk_h. cbn [fst snd]. rewrite td. fold r. unfold sqr, Rdiv. rewrite !Rinv_mult, Rinv_1. ring.
      + pose proof (b_invS a r th eps _ _ hr fS (/ sqr (q_deta m))) as B.
        assert (dd : 0 < sqr (q_deta m)) by (unfold sqr; apply Rmult_lt_0_compat; exact de).
        replace (eps / r ^ 4 / q_deta m ^ 2) with (eps * (Rabs (/ sqr (q_deta m)) / r ^ 4)).
        2:{ rewrite Rabs_pos_eq by (left; apply Rinv_0_lt_compat; exact dd). unfold sqr. field. split; lra. }
        match type of B with Rabs (?v - _) <= _ => replace (qk_dt_h22 a m (x1, x2)) with v end.
        exact B. unfold qk_dt_h22. cbn [fst snd]. rewrite eS. fold r. change (eta2theta (q_eps m) (q_h0 m) (q_eta m x2)) with th. unfold Rdiv. ring.
  Qed.

  (** With stretching the factor dtheta/deta is missing. *)
  Lemma qks_radial_h22 : forall D, derivable_pt_lim (fun s => m_h (qks a m) 2 2 (s, x2)) x1 D ->
    m_dr_h22 (qks a m) (x1, x2) = D * (t' * t').
  Proof.
    intros D H. pose proof qx_r as hr. pose proof qx_S as Sp. pose proof qx_deta as de. pose proof qx_t as tp.
    assert (K : derivable_pt_lim (fun s => m_h (qks a m) 2 2 (s, x2)) x1 (- (/ (sqr t' * sqr (q_deta m))) * (2 * r * e1) / sqr (k_Sigma a r th))).
    { cbn [qks m_h]. eapply dl_ext; [|exact (r_invS a th (qk_r m) x1 r e1 qx_Dr eq_refl hr (/ (sqr t' * sqr (q_deta m))))].
      intros t. cbv beta. unfold qk_h. cbn [fst snd]. fold t' th. unfold sqr, Rdiv. rewrite !Rinv_mult. ring. }
    rewrite (dl_unique _ _ _ _ H K). cbn [qks m_dr_h22]. unfold qk_dr_h22. cbn [fst snd]. fold r th e1. unfold sqr. field. repeat split; lra.
  Qed.

  Lemma qks_angular_h22 : a = 0 -> eps < q_h0 m -> q_eta m x2 <> PI / 2 ->
    m_dt_h22 (qks a m) (x1, x2) = 0 /\
    (forall D, derivable_pt_lim (fun s => m_h (qks a m) 2 2 (x1, s)) x2 D -> D <> 0).
  Proof.
    intros a0 hs ne. pose proof qx_r as hr. pose proof qx_S as Sp. pose proof qx_deta as de. pose proof qx_t as tp.
    pose proof PI_RGT_0 as pp. assert (he : 0 <= eps) by apply OK.
    assert (Z : almost_zero (q_eps m) (q_h0 m) = false).
    { apply almost_zero_false. rewrite qx_eps, Rabs_pos_eq by lra. exact hs. }
    assert (fl : forall v, v = 0 -> flush (q_eps m) v = 0).
    { intros v ->. unfold flush. destruct (almost_zero (q_eps m) 0); reflexivity. }
    split.
    - cbn [qks m_dt_h22]. unfold qk_dt_h22, qk_dt_Sigma. rewrite fl. { unfold Rdiv. ring. } rewrite a0. unfold sqr. ring.
    - intros D H.
      set (dt2 := 12 * q_h0 m * (1 / PI * q_deta m) * (2 * (q_eta m x2 / PI) - 1)).
      assert (Dd : derivable_pt_lim (fun s => dtheta_deta (q_eps m) (q_h0 m) (q_eta m s)) x2 dt2).
      { unfold dtheta_deta. rewrite Z. unfold q_eta. eapply dl_eq; [dl; lra|]. cbn beta. unfold dt2, q_eta. field. lra. }
      assert (K : derivable_pt_lim (fun s => m_h (qks a m) 2 2 (x1, s)) x2
         (- 2 * dt2 / (sqr r * (sqr (q_deta m) * (t' * sqr t'))))).
      { cbn [qks m_h]. apply (dl_ext (fun s => 1 / (sqr r * sqr (dtheta_deta (q_eps m) (q_h0 m) (q_eta m s)) * sqr (q_deta m)))).
        - intros t. unfold qk_h. cbn [fst snd]. fold r. replace (k_Sigma a r (qk_th m t)) with (sqr r); [reflexivity|].
          unfold k_Sigma, sqr. rewrite a0. ring.
        - eapply dl_eq.
          + eapply (dl_div (fun _ => 1) (fun s => sqr r * sqr (dtheta_deta (q_eps m) (q_h0 m) (q_eta m s)) * sqr (q_deta m))); [apply dl_const| |].
            * eapply (dl_mult (fun s => sqr r * sqr (dtheta_deta (q_eps m) (q_h0 m) (q_eta m s))) (fun _ => sqr (q_deta m))); [|apply dl_const].
              eapply (dl_mult (fun _ => sqr r) (fun s => sqr (dtheta_deta (q_eps m) (q_h0 m) (q_eta m s)))); [apply dl_const|].
              eapply (dl_sqr (fun s => dtheta_deta (q_eps m) (q_h0 m) (q_eta m s))). exact Dd.
            * cbn beta. fold t'. unfold sqr. apply Rgt_not_eq. repeat apply Rmult_lt_0_compat; assumption.
          + cbn beta. fold t'. unfold sqr. field. repeat split; lra. }
      rewrite (dl_unique _ _ _ _ H K). clear D H.
      assert (d0 : dt2 <> 0).
      { unfold dt2. assert (0 < 1 / PI * q_deta m) by (apply Rmult_lt_0_compat; [apply Rmult_lt_0_compat; [lra|apply Rinv_0_lt_compat; exact pp]|exact de]).
        assert (u : 2 * (q_eta m x2 / PI) - 1 <> 0).
        { intros E. apply ne. apply Rmult_eq_reg_r with (/ PI); [|apply Rinv_neq_0_compat; lra]. unfold Rdiv in *. rewrite Rmult_comm, Rmult_comm.
          replace (PI * / 2 * / PI) with (/ 2) by (field; lra). lra. }
        apply Rmult_integral_contrapositive. split; [|exact u]. apply Rmult_integral_contrapositive. split; lra. }
      intros E. apply d0.
      assert (P : 0 < sqr r * (sqr (q_deta m) * (t' * sqr t'))) by (unfold sqr; repeat apply Rmult_lt_0_compat; assumption).
      assert (- 2 * dt2 = 0). { apply Rmult_eq_reg_r with (/ (sqr r * (sqr (q_deta m) * (t' * sqr t')))); [|apply Rinv_neq_0_compat; lra]. rewrite Rmult_0_l. exact E. }
      lra.
  Qed.
End QKS.
