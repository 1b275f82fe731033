From Coq Require Import Reals ZArith List Bool Lra Lia.
From Verif Require Import Base MetModel MetSpec KsModel KsSpec StretchProofs DerivLemmas MetProofs KsProofs.
Open Scope R_scope.

Section Radial.
  Variables (a th : R) (rf : R -> R) (x d r : R).
  Hypothesis D : derivable_pt_lim rf x d.
  Hypothesis E : rf x = r.
  Lemma dS_r : derivable_pt_lim (fun s => k_Sigma a (rf s) th) x (2 * r * d).
  Proof. unfold k_Sigma. eapply dl_eq; [dl; exact D|cbn beta; rewrite E; unfold sqr; ring]. Qed.
  Lemma dA_r : derivable_pt_lim (fun s => k_A a (rf s) th) x
    (4 * r * d * (sqr r + sqr a) - sqr a * sqr (sin th) * (2 * d * (r - 1))).
  Proof. unfold k_A, k_Delta. eapply dl_eq; [dl; exact D|cbn beta; rewrite E; unfold sqr; ring]. Qed.
  Lemma dz_r : 0 < r -> derivable_pt_lim (fun s => k_z a (rf s) th) x
    (2 * (d * k_Sigma a r th - r * (2 * r * d)) / sqr (k_Sigma a r th)).
  Proof.
    intros h. pose proof (gS_pos a r th h) as Sp. assert (eS : k_Sigma a r th = gS a r th) by (unfold k_Sigma, gS, sqr; ring).
    unfold k_z. eapply dl_eq.
    - eapply (dl_div (fun s => 2 * rf s) (fun s => k_Sigma a (rf s) th)); [dl; exact D|apply dS_r|]. rewrite E, eS. lra.
    - cbn beta. rewrite E, eS. unfold sqr. field. lra.
  Qed.
End Radial.

Section Angular.
  Variables (a r : R) (tf : R -> R) (x d th : R).
  Hypothesis D : derivable_pt_lim tf x d.
  Hypothesis E : tf x = th.
  Lemma dS_t : derivable_pt_lim (fun s => k_Sigma a r (tf s)) x (- 2 * sqr a * sin th * cos th * d).
  Proof. unfold k_Sigma. eapply dl_eq; [dl; exact D|cbn beta; rewrite E; unfold sqr; ring]. Qed.
  Lemma dA_t : derivable_pt_lim (fun s => k_A a r (tf s)) x (- 2 * sqr a * sin th * cos th * k_Delta a r * d).
  Proof. unfold k_A. eapply dl_eq; [dl; exact D|cbn beta; rewrite E; unfold sqr; ring]. Qed.
  Lemma dz_t : 0 < r -> derivable_pt_lim (fun s => k_z a r (tf s)) x
    (- 2 * r * (- 2 * sqr a * sin th * cos th * d) / sqr (k_Sigma a r th)).
  Proof.
    intros h. pose proof (gS_pos a r th h) as Sp. assert (eS : k_Sigma a r th = gS a r th) by (unfold k_Sigma, gS, sqr; ring).
    unfold k_z. eapply dl_eq.
    - eapply (dl_div (fun s => 2 * r) (fun s => k_Sigma a r (tf s))); [dl|apply dS_t|]. rewrite E, eS. lra.
    - cbn beta. rewrite E, eS. unfold sqr. field. lra.
  Qed.
End Angular.

(** 1 / sqrt (1 + f) *)
Lemma d_lapse : forall f x l, 0 <= f x -> derivable_pt_lim f x l ->
  derivable_pt_lim (fun s => 1 / sqrt (1 + f s)) x (- l * cube (1 / sqrt (1 + f x)) / 2).
Proof.
  intros f x l h D. assert (q2 : sqrt (1 + f x) * sqrt (1 + f x) = 1 + f x) by (apply sqrt_sqrt; lra).
  assert (qp : 0 < sqrt (1 + f x)) by (apply sqrt_lt_R0; lra).
  eapply dl_eq.
  - eapply (dl_div (fun _ => 1) (fun s => sqrt (1 + f s))); [apply dl_const| |cbn beta; lra].
    eapply (dl_sqrt (fun s => 1 + f s)); [|lra]. eapply (dl_plus (fun _ => 1) f); [apply dl_const|exact D].
  - cbn beta. unfold cube. field. lra.
Qed.

(** f / (1 + f) *)
Lemma d_ratio : forall f x l, 0 <= f x -> derivable_pt_lim f x l ->
  derivable_pt_lim (fun s => f s / (1 + f s)) x (l / sqr (1 + f x)).
Proof.
  intros f x l h D. eapply dl_eq.
  - eapply (dl_div f (fun s => 1 + f s)); [exact D| |lra]. eapply (dl_plus (fun _ => 1) f); [apply dl_const|exact D].
  - cbn beta. unfold sqr. field. lra.
Qed.

Lemma eS' : forall a r th, k_Sigma a r th = gS a r th.
Proof. intros. unfold k_Sigma, gS, sqr. ring. Qed.
Lemma k_Sigma_pos : forall a r th, 0 < r -> 0 < k_Sigma a r th.
Proof. intros. rewrite eS'. apply gS_pos; assumption. Qed.
Lemma k_z_nonneg : forall a r th, 0 < r -> 0 <= k_z a r th.
Proof. intros a r th h. pose proof (k_Sigma_pos a r th h). unfold k_z. apply Rmult_le_pos; [lra|left; apply Rinv_0_lt_compat; assumption]. Qed.

(** General radial derivatives: radius with derivative [e] (and [e] itself a
    function with derivative [k e]). *)
Section RadialAll.
  Variables (a th : R) (rf ef : R -> R) (x r e k : R).
  Hypothesis Dr : derivable_pt_lim rf x e.
  Hypothesis De : derivable_pt_lim ef x (k * e).
  Hypothesis Er : rf x = r.
  Hypothesis Ee : ef x = e.
  Hypothesis rp : 0 < r.
  Hypothesis ep : 0 < e.
  Hypothesis sp : 0 < sin th.

  Let Sg := k_Sigma a r th.
  Lemma Sgp : 0 < Sg. Proof. apply k_Sigma_pos, rp. Qed.

  Lemma r_alpha : derivable_pt_lim (fun s => 1 / sqrt (1 + k_z a (rf s) th)) x
    (- (e * Sg - r * (2 * r * e)) * cube (1 / sqrt (1 + k_z a r th)) / sqr Sg).
  Proof.
    pose proof Sgp. eapply dl_eq.
    - apply (d_lapse (fun s => k_z a (rf s) th)); [rewrite Er; apply k_z_nonneg, rp|]. apply (dz_r a th rf x e r Dr Er rp).
    - cbn beta. rewrite Er. fold Sg. unfold sqr. field. lra.
  Qed.
  Lemma r_beta : derivable_pt_lim (fun s => / ef s * (k_z a (rf s) th / (1 + k_z a (rf s) th))) x
    (/ e * 2 * (e * Sg - r * (2 * r * e)) / sqr (Sg + 2 * r) - k * / e * (k_z a r th / (1 + k_z a r th))).
  Proof.
    pose proof Sgp as q. pose proof (k_z_nonneg a r th rp) as z0. eapply dl_eq.
    - eapply (dl_mult (fun s => / ef s) (fun s => k_z a (rf s) th / (1 + k_z a (rf s) th))).
      + apply (dl_ext (fun s => 1 / ef s)). { intros. unfold Rdiv. ring. }
        eapply (dl_div (fun _ => 1) ef); [apply dl_const|exact De|]. rewrite Ee. lra.
      + apply (d_ratio (fun s => k_z a (rf s) th)); [rewrite Er; exact z0|]. apply (dz_r a th rf x e r Dr Er rp).
    - cbn beta. rewrite Er, Ee. fold Sg. unfold k_z. fold Sg. unfold sqr. field. repeat split; lra.
  Qed.
  Lemma r_h11 : derivable_pt_lim (fun s => / (ef s * ef s) * (k_A a (rf s) th / (k_Sigma a (rf s) th * (k_Sigma a (rf s) th + 2 * rf s)))) x
    (/ (e * e) * (Sg * (Sg + 2 * r) * (4 * r * e * (sqr r + sqr a) - sqr a * sqr (sin th) * (2 * e * (r - 1)))
       - 2 * k_A a r th * (r * (2 * r * e) + Sg * (2 * r * e + e))) / sqr (Sg * (Sg + 2 * r))
     - 2 * k * / (e * e) * (k_A a r th / (Sg * (Sg + 2 * r)))).
  Proof.
    pose proof Sgp as q. assert (ne : 0 < e * e) by (apply Rmult_lt_0_compat; assumption).
    assert (nz : 0 < Sg * (Sg + 2 * r)) by (apply Rmult_lt_0_compat; lra).
    eapply dl_eq.
    - eapply (dl_mult (fun s => / (ef s * ef s)) (fun s => k_A a (rf s) th / (k_Sigma a (rf s) th * (k_Sigma a (rf s) th + 2 * rf s)))).
      + apply (dl_ext (fun s => 1 / (ef s * ef s))). { intros. unfold Rdiv. ring. }
        eapply (dl_div (fun _ => 1) (fun s => ef s * ef s)); [apply dl_const|eapply (dl_mult ef ef); exact De|]. rewrite Ee. lra.
      + eapply (dl_div (fun s => k_A a (rf s) th) (fun s => k_Sigma a (rf s) th * (k_Sigma a (rf s) th + 2 * rf s))).
        * apply (dA_r a th rf x e r Dr Er).
        * eapply (dl_mult (fun s => k_Sigma a (rf s) th) (fun s => k_Sigma a (rf s) th + 2 * rf s)).
          -- apply (dS_r a th rf x e r Dr Er).
          -- eapply (dl_plus (fun s => k_Sigma a (rf s) th) (fun s => 2 * rf s)); [apply (dS_r a th rf x e r Dr Er)|dl; exact Dr].
        * rewrite Er. fold Sg. lra.
    - cbn beta. rewrite Er, Ee. fold Sg. set (AA := k_A a r th). unfold sqr. field. repeat split; lra.
  Qed.
  Lemma r_invS : forall c, derivable_pt_lim (fun s => c / k_Sigma a (rf s) th) x (- c * (2 * r * e) / sqr Sg).
  Proof.
    intros c. pose proof Sgp as q. eapply dl_eq.
    - eapply (dl_div (fun _ => c) (fun s => k_Sigma a (rf s) th)); [apply dl_const|apply (dS_r a th rf x e r Dr Er)|]. rewrite Er. fold Sg. lra.
    - cbn beta. rewrite Er. fold Sg. unfold sqr. field. lra.
  Qed.
  Lemma r_h13 : derivable_pt_lim (fun s => / ef s * (a / k_Sigma a (rf s) th)) x
    (/ e * (- a * (2 * r * e) / sqr Sg) - k * / e * (a / Sg)).
  Proof.
    pose proof Sgp as q. eapply dl_eq.
    - eapply (dl_mult (fun s => / ef s) (fun s => a / k_Sigma a (rf s) th)).
      + apply (dl_ext (fun s => 1 / ef s)). { intros. unfold Rdiv. ring. }
        eapply (dl_div (fun _ => 1) ef); [apply dl_const|exact De|]. rewrite Ee. lra.
      + apply r_invS.
    - cbn beta. rewrite Er, Ee. fold Sg. unfold sqr. field. repeat split; lra.
  Qed.
End RadialAll.

(** Angular derivatives: angle with derivative [d]. *)
Section AngularAll.
  Variables (a r : R) (tf : R -> R) (x th d : R).
  Hypothesis Dt : derivable_pt_lim tf x d.
  Hypothesis Et : tf x = th.
  Hypothesis rp : 0 < r.
  Hypothesis sp : 0 < sin th.
  Let Sg := k_Sigma a r th.
  Let dS := - 2 * sqr a * sin th * cos th * d.
  Let dA := - 2 * sqr a * sin th * cos th * k_Delta a r * d.
  Lemma Sgp' : 0 < Sg. Proof. apply k_Sigma_pos, rp. Qed.
  Lemma t_alpha : derivable_pt_lim (fun s => 1 / sqrt (1 + k_z a r (tf s))) x
    (cube (1 / sqrt (1 + k_z a r th)) * r * dS / sqr Sg).
  Proof.
    pose proof Sgp'. eapply dl_eq.
    - apply (d_lapse (fun s => k_z a r (tf s))); [rewrite Et; apply k_z_nonneg, rp|]. apply (dz_t a r tf x d th Dt Et rp).
    - cbn beta. rewrite Et. fold Sg. fold dS. unfold sqr. field. lra.
  Qed.
  Lemma t_beta : forall c, derivable_pt_lim (fun s => c * (k_z a r (tf s) / (1 + k_z a r (tf s)))) x
    (- c * 2 * r * dS / sqr (Sg * (1 + k_z a r th))).
  Proof.
    intros c. pose proof Sgp'. pose proof (k_z_nonneg a r th rp) as z0. eapply dl_eq.
    - eapply (dl_mult (fun _ => c) (fun s => k_z a r (tf s) / (1 + k_z a r (tf s)))); [apply dl_const|].
      apply (d_ratio (fun s => k_z a r (tf s))); [rewrite Et; exact z0|]. apply (dz_t a r tf x d th Dt Et rp).
    - cbn beta. rewrite Et. fold Sg. fold dS. set (zz := k_z a r th) in *. unfold sqr. field. split; lra.
  Qed.
  Lemma t_h11 : forall c, derivable_pt_lim (fun s => c * (k_A a r (tf s) / (k_Sigma a r (tf s) * (k_Sigma a r (tf s) + 2 * r)))) x
    ((Sg * (Sg + 2 * r) * dA - 2 * k_A a r th * dS * (r + Sg)) / sqr (Sg * (Sg + 2 * r)) * c).
  Proof.
    intros c. pose proof Sgp' as q. eapply dl_eq.
    - eapply (dl_mult (fun _ => c) (fun s => k_A a r (tf s) / (k_Sigma a r (tf s) * (k_Sigma a r (tf s) + 2 * r)))); [apply dl_const|].
      eapply (dl_div (fun s => k_A a r (tf s)) (fun s => k_Sigma a r (tf s) * (k_Sigma a r (tf s) + 2 * r))).
      + apply (dA_t a r tf x d th Dt Et).
      + eapply (dl_mult (fun s => k_Sigma a r (tf s)) (fun s => k_Sigma a r (tf s) + 2 * r)).
        * apply (dS_t a r tf x d th Dt Et).
        * eapply (dl_plus (fun s => k_Sigma a r (tf s)) (fun s => 2 * r)); [apply (dS_t a r tf x d th Dt Et)|apply dl_const].
      + rewrite Et. fold Sg. apply Rgt_not_eq, Rmult_lt_0_compat; lra.
    - cbn beta. rewrite Et. fold Sg. fold dS. fold dA. set (AA := k_A a r th). unfold sqr. field. repeat split; lra.
  Qed.
  Lemma t_invS : forall c, derivable_pt_lim (fun s => c / k_Sigma a r (tf s)) x (- c * dS / sqr Sg).
  Proof.
    intros c. pose proof Sgp' as q. eapply dl_eq.
    - eapply (dl_div (fun _ => c) (fun s => k_Sigma a r (tf s))); [apply dl_const|apply (dS_t a r tf x d th Dt Et)|]. rewrite Et. fold Sg. lra.
    - cbn beta. rewrite Et. fold Sg. fold dS. unfold sqr. field. lra.
  Qed.
  Lemma t_h33 : derivable_pt_lim (fun s => 1 / (k_Sigma a r (tf s) * sqr (sin (tf s)))) x
    (- (dS + 2 * cos th / sin th * Sg * d) / sqr (Sg * sin th)).
  Proof.
    pose proof Sgp' as q. eapply dl_eq.
    - eapply (dl_div (fun _ => 1) (fun s => k_Sigma a r (tf s) * sqr (sin (tf s)))); [apply dl_const| |].
      + eapply (dl_mult (fun s => k_Sigma a r (tf s)) (fun s => sqr (sin (tf s)))); [apply (dS_t a r tf x d th Dt Et)|].
        eapply (dl_sqr (fun s => sin (tf s))). eapply (dl_sin tf). exact Dt.
      + rewrite Et. fold Sg. unfold sqr. apply Rgt_not_eq. repeat apply Rmult_lt_0_compat; assumption.
    - cbn beta. rewrite Et. fold Sg. fold dS. unfold sqr. field. split; lra.
  Qed.
End AngularAll.

(** Rounding a value to zero changes it by at most eps. *)
Lemma flush_close : forall eps v, 0 <= eps -> Rabs (flush eps v - v) <= eps.
Proof.
  intros eps v h. unfold flush. destruct (almost_zero eps v) eqn:E.
  - apply almost_zero_true in E. replace (0 - v) with (- v) by ring. rewrite Rabs_Ropp. exact E.
  - replace (v - v) with 0 by ring. rewrite Rabs_R0. exact h.
Qed.

(** How a difference of at most [eps] in d(Sigma) and d(A) propagates. *)
Section Bounds.
  Variables (a r th eps vS dS vA dA c : R).
  Hypothesis rp : 0 < r.
  Hypothesis sp : 0 < sin th.
  Hypothesis hS : Rabs (vS - dS) <= eps.
  Hypothesis hA : Rabs (vA - dA) <= eps.
  Hypothesis cp : 0 < c.
  Let Sg := k_Sigma a r th.
  Lemma b_S : r * r <= Sg.
  Proof. unfold Sg, k_Sigma, sqr. pose proof (Rle_0_sqr (a * cos th)) as q. unfold Rsqr in q. lra. Qed.
  Lemma b_r2 : 0 < r * r. Proof. apply Rmult_lt_0_compat; assumption. Qed.
  Lemma b_SS : r * r * (r * r) <= Sg * Sg.
  Proof. pose proof b_S. pose proof b_r2. apply Rmult_le_compat; lra. Qed.
  Lemma b_eps : 0 <= eps. Proof. pose proof (Rabs_pos (vS - dS)). lra. Qed.
  Lemma scaled : forall k K v d', Rabs (v - d') <= eps -> 0 <= k -> k <= K -> Rabs (k * v - k * d') <= eps * K.
  Proof.
    intros k K v d' h k0 kK. replace (k * v - k * d') with (k * (v - d')) by ring. rewrite Rabs_mult, (Rabs_pos_eq k) by exact k0.
    rewrite (Rmult_comm eps). apply Rmult_le_compat; [exact k0|apply Rabs_pos|exact kK|exact h].
  Qed.
  Lemma b_alpha : Rabs (cube (1 / sqrt (1 + k_z a r th)) * r * vS / sqr Sg - cube (1 / sqrt (1 + k_z a r th)) * r * dS / sqr Sg) <= eps / r ^ 3.
  Proof.
    pose proof b_S. pose proof b_r2. pose proof b_SS as SS. pose proof (k_z_nonneg a r th rp) as z0.
    assert (q1 : 1 <= sqrt (1 + k_z a r th)). { rewrite <- sqrt_1 at 1. apply sqrt_le_1_alt. lra. }
    set (al := 1 / sqrt (1 + k_z a r th)) in *.
    assert (al0 : 0 <= al <= 1).
    { unfold al. split; [apply Rmult_le_pos; [lra|left; apply Rinv_0_lt_compat; lra]|]. unfold Rdiv. rewrite Rmult_1_l. pose proof (Rinv_le_contravar 1 _ Rlt_0_1 q1) as I. rewrite Rinv_1 in I. exact I. }
    assert (c3 : 0 <= cube al <= 1).
    { unfold cube. split; [apply Rmult_le_pos; [apply Rmult_le_pos; lra|lra]|].
      assert (al * al <= 1 * 1) by (apply Rmult_le_compat; lra). assert (0 <= al * al) by (apply Rmult_le_pos; lra).
      assert (al * al * al <= 1 * 1) by (apply Rmult_le_compat; lra). lra. }
    replace (cube al * r * vS / sqr Sg - cube al * r * dS / sqr Sg) with (cube al * r / (Sg * Sg) * vS - cube al * r / (Sg * Sg) * dS).
    2:{ unfold sqr. field. lra. }
    replace (eps / r ^ 3) with (eps * (1 * r / (r * r * (r * r)))) by (field; lra).
    apply scaled; [exact hS| |].
    - apply Rmult_le_pos; [apply Rmult_le_pos; lra|left; apply Rinv_0_lt_compat, Rmult_lt_0_compat; lra].
    - unfold Rdiv. apply Rmult_le_compat.
      + apply Rmult_le_pos; lra.
      + left; apply Rinv_0_lt_compat, Rmult_lt_0_compat; lra.
      + apply Rmult_le_compat_r; lra.
      + apply Rinv_le_contravar; [apply Rmult_lt_0_compat; lra|exact SS].
  Qed.
  Lemma b_beta : Rabs (- c * 2 * r * vS / sqr (Sg * (1 + k_z a r th)) - - c * 2 * r * dS / sqr (Sg * (1 + k_z a r th))) <= eps * (c * (2 / r ^ 3)).
  Proof.
    pose proof b_S. pose proof b_r2. pose proof b_SS as SS. pose proof (k_z_nonneg a r th rp) as z0.
    set (zz := k_z a r th) in *.
    assert (W : r * r * (r * r) <= Sg * (1 + zz) * (Sg * (1 + zz))).
    { assert (Sg * 1 <= Sg * (1 + zz)) by (apply Rmult_le_compat_l; lra).
      assert (Sg * Sg <= Sg * (1 + zz) * (Sg * (1 + zz))) by (apply Rmult_le_compat; lra). lra. }
    assert (W0 : 0 < r * r * (r * r)) by (apply Rmult_lt_0_compat; assumption).
    replace (- c * 2 * r * vS / sqr (Sg * (1 + zz)) - - c * 2 * r * dS / sqr (Sg * (1 + zz)))
      with (- (c * 2 * r / (Sg * (1 + zz) * (Sg * (1 + zz))) * vS - c * 2 * r / (Sg * (1 + zz) * (Sg * (1 + zz))) * dS)).
    2:{ unfold sqr. field. split; lra. }
    rewrite Rabs_Ropp.
    replace (c * (2 / r ^ 3)) with (c * 2 * r / (r * r * (r * r))) by (field; lra).
    apply scaled; [exact hS| |].
    - apply Rmult_le_pos; [|left; apply Rinv_0_lt_compat; lra]. repeat apply Rmult_le_pos; lra.
    - unfold Rdiv. apply Rmult_le_compat_l; [repeat apply Rmult_le_pos; lra|]. apply Rinv_le_contravar; [exact W0|exact W].
  Qed.
  Lemma b_invS : forall k, Rabs (- k * vS / sqr Sg - - k * dS / sqr Sg) <= eps * (Rabs k / r ^ 4).
  Proof.
    intros k. pose proof b_S. pose proof b_r2. pose proof b_SS as SS.
    assert (W0 : 0 < r * r * (r * r)) by (apply Rmult_lt_0_compat; assumption).
    replace (- k * vS / sqr Sg - - k * dS / sqr Sg) with (- k / (Sg * Sg) * (vS - dS)).
    2:{ unfold sqr. field. lra. }
    rewrite Rabs_mult, Rmult_comm. apply Rmult_le_compat; [apply Rabs_pos|apply Rabs_pos|exact hS|].
    unfold Rdiv. rewrite Rabs_mult, Rabs_Ropp, Rabs_inv, (Rabs_pos_eq (Sg * Sg)) by lra.
    apply Rmult_le_compat_l; [apply Rabs_pos|]. replace (r ^ 4) with (r * r * (r * r)) by ring.
    apply Rinv_le_contravar; lra.
  Qed.
  Lemma b_h33 : forall k, Rabs (- (vS + k) / sqr (Sg * sin th) - - (dS + k) / sqr (Sg * sin th)) <= eps / (r ^ 4 * sin th ^ 2).
  Proof.
    intros k. pose proof b_S. pose proof b_r2. pose proof (b_invS (/ (sin th * sin th))) as B.
    assert (ss : 0 < sin th * sin th) by (apply Rmult_lt_0_compat; assumption).
    rewrite (Rabs_pos_eq (/ _)) in B by (left; apply Rinv_0_lt_compat; exact ss).
    replace (- (vS + k) / sqr (Sg * sin th) - - (dS + k) / sqr (Sg * sin th))
      with (- / (sin th * sin th) * vS / sqr Sg - - / (sin th * sin th) * dS / sqr Sg).
    2:{ unfold sqr. field. split; lra. }
    replace (eps / (r ^ 4 * sin th ^ 2)) with (eps * (/ (sin th * sin th) / r ^ 4)). exact B. field. split; lra.
  Qed.
  Lemma b_h11 : Rabs ((Sg * (Sg + 2 * r) * vA - 2 * k_A a r th * vS * (r + Sg)) / sqr (Sg * (Sg + 2 * r)) * c
                    - (Sg * (Sg + 2 * r) * dA - 2 * k_A a r th * dS * (r + Sg)) / sqr (Sg * (Sg + 2 * r)) * c)
    <= eps * (1 / r ^ 4 + 2 / r ^ 2 + 2 * a ^ 2 / r ^ 4) * c.
  Proof.
    pose proof b_S as B. pose proof b_r2 as B2. pose proof b_SS as SS.
    assert (K : k_A a r th = Sg * Sg + a * a * (sin th * sin th) * (Sg + 2 * r)).
    { pose proof (gA_key 1 a r th) as K. pose proof (sin2_cos2 th) as e. unfold Rsqr in e.
      replace (k_A a r th) with (gA 1 a r th). { rewrite K. change Sg with (k_Sigma a r th). rewrite (eS' a r th). ring. }
      unfold k_A, gA, gS, k_Delta, sqr. replace (cos th * cos th) with (1 - sin th * sin th) by lra. ring. }
    assert (s1 : sin th * sin th <= 1). { pose proof (sin2_cos2 th) as e. unfold Rsqr in e. pose proof (Rle_0_sqr (cos th)) as q. unfold Rsqr in q. lra. }
    assert (s0 : 0 <= sin th * sin th) by (apply Rle_0_sqr). assert (a0 : 0 <= a * a) by (apply Rle_0_sqr).
    assert (as1 : 0 <= a * a * (sin th * sin th) <= a * a).
    { split; [apply Rmult_le_pos; assumption|]. assert (a * a * (sin th * sin th) <= a * a * 1) by (apply Rmult_le_compat_l; assumption). lra. }
    set (k1 := 1 / (Sg * (Sg + 2 * r))). set (k2 := 2 * (r + Sg) / ((Sg + 2 * r) * (Sg + 2 * r))).
    set (k3 := 2 * (a * a * (sin th * sin th)) * (r + Sg) / (Sg * Sg * (Sg + 2 * r))).
    assert (N : (Sg * (Sg + 2 * r) * vA - 2 * k_A a r th * vS * (r + Sg)) / sqr (Sg * (Sg + 2 * r)) * c
       - (Sg * (Sg + 2 * r) * dA - 2 * k_A a r th * dS * (r + Sg)) / sqr (Sg * (Sg + 2 * r)) * c
       = ((k1 * vA - k1 * dA) + - (k2 * vS - k2 * dS) + - (k3 * vS - k3 * dS)) * c).
    { rewrite K. unfold k1, k2, k3, sqr. field. split; lra. }
    rewrite N, Rabs_mult, (Rabs_pos_eq c) by lra. apply Rmult_le_compat_r; [lra|].
    assert (P1 : 0 < Sg * (Sg + 2 * r)) by (apply Rmult_lt_0_compat; lra).
    assert (W0 : 0 < r * r * (r * r)) by (apply Rmult_lt_0_compat; assumption).
    assert (R1 : Rabs (k1 * vA - k1 * dA) <= eps * (1 / r ^ 4)).
    { apply scaled; [exact hA| |].
      - unfold k1. apply Rmult_le_pos; [lra|left; apply Rinv_0_lt_compat; exact P1].
      - unfold k1, Rdiv. apply Rmult_le_compat_l; [lra|]. replace (r ^ 4) with (r * r * (r * r)) by ring. apply Rinv_le_contravar; [exact W0|].
        assert (Sg * Sg <= Sg * (Sg + 2 * r)) by (apply Rmult_le_compat_l; lra). lra. }
    assert (R2 : Rabs (k2 * vS - k2 * dS) <= eps * (2 / r ^ 2)).
    { apply scaled; [exact hS| |].
      - unfold k2. apply Rmult_le_pos; [lra|left; apply Rinv_0_lt_compat, Rmult_lt_0_compat; lra].
      - unfold k2. apply Rle_trans with (2 * (Sg + 2 * r) / ((Sg + 2 * r) * (Sg + 2 * r))).
        + unfold Rdiv. apply Rmult_le_compat_r; [left; apply Rinv_0_lt_compat, Rmult_lt_0_compat; lra|lra].
        + replace (2 * (Sg + 2 * r) / ((Sg + 2 * r) * (Sg + 2 * r))) with (2 * / (Sg + 2 * r)) by (field; lra).
          unfold Rdiv. apply Rmult_le_compat_l; [lra|]. apply Rinv_le_contravar; [|].
          * replace (r ^ 2) with (r * r) by ring. exact B2.
          * replace (r ^ 2) with (r * r) by ring. lra. }
    assert (R3 : Rabs (k3 * vS - k3 * dS) <= eps * (2 * a ^ 2 / r ^ 4)).
    { apply scaled; [exact hS| |].
      - unfold k3. apply Rmult_le_pos; [apply Rmult_le_pos; lra|left; apply Rinv_0_lt_compat; repeat apply Rmult_lt_0_compat; lra].
      - unfold k3. apply Rle_trans with (2 * (a * a) * (Sg + 2 * r) / (Sg * Sg * (Sg + 2 * r))).
        + unfold Rdiv. apply Rmult_le_compat_r; [left; apply Rinv_0_lt_compat; repeat apply Rmult_lt_0_compat; lra|].
          apply Rmult_le_compat; lra.
        + replace (2 * (a * a) * (Sg + 2 * r) / (Sg * Sg * (Sg + 2 * r))) with (2 * (a * a) * / (Sg * Sg)) by (field; split; lra).
          replace (2 * a ^ 2 / r ^ 4) with (2 * (a * a) * / (r * r * (r * r))) by (field; lra).
          apply Rmult_le_compat_l; [lra|]. apply Rinv_le_contravar; lra. }
    eapply Rle_trans; [apply Rabs_triang|]. eapply Rle_trans; [apply Rplus_le_compat_r, Rabs_triang|]. rewrite !Rabs_Ropp. lra.
  Qed.
End Bounds.

Lemma tol_pos : forall eps r K, 0 <= eps -> 0 < r -> 0 <= K -> Rabs 0 <= eps * K.
Proof. intros. rewrite Rabs_R0. apply Rmult_le_pos; assumption. Qed.

(* ------------------------------------------------------------------ *)
(** * Kerr-Schild *)

Lemma ks_radial : forall eps a g x, sensible g -> gr_regular (ks eps a g) x ->
  radial_derivatives (ks eps a g) x /\ radial_h22 (ks eps a g) x.
Proof.
  intros eps a g [x1 x2] S [hr ht]. cbn [ks m_r m_th fst snd] in hr, ht.
  pose proof (s_dr_pos g S) as p. pose proof (s_dth_pos g S) as q.
  assert (st : 0 < sin (k_th g x2)) by (apply sin_gt_0; lra).
  assert (Dr : derivable_pt_lim (k_r g) x1 (s_dr g)) by (unfold k_r; eapply dl_eq; [dl|cbn beta; ring]).
  assert (De : derivable_pt_lim (fun _ : R => s_dr g) x1 (0 * s_dr g)) by (eapply dl_eq; [apply dl_const|ring]).
  pose proof (k_Sigma_pos a (k_r g x1) (k_th g x2) hr) as Sp.
  unfold radial_derivatives, radial_h22. cbn [ks m_alpha m_beta1 m_h m_dr_alpha m_dr_beta1 m_dr_h11 m_dr_h22 m_dr_h33 m_dr_h13 fst snd].
  split; [|].
  - split; [|split; [|split; [|split]]].
    + exact (r_alpha a (k_th g x2) (k_r g) x1 (k_r g x1) (s_dr g) Dr eq_refl hr).
    + eapply dl_ext; [|eapply dl_eq; [exact (r_beta a (k_th g x2) (k_r g) _ x1 (k_r g x1) (s_dr g) 0 Dr De eq_refl eq_refl hr p)|]].
      * intros t. cbv beta. unfold k_beta1, s_dr_inv. cbn [fst snd]. unfold Rdiv. ring.
      * unfold k_dr_beta1, s_dr_inv. cbn [fst snd]. unfold Rdiv. ring.
    + eapply dl_ext; [|eapply dl_eq; [exact (r_h11 a (k_th g x2) (k_r g) _ x1 (k_r g x1) (s_dr g) 0 Dr De eq_refl eq_refl hr p)|]].
      * intros t. cbv beta. unfold k_h, s_dr_inv, sqr. cbn [fst snd]. unfold Rdiv. rewrite Rinv_mult. ring.
      * unfold k_dr_h11, s_dr_inv. cbn [fst snd]. set (AA := k_A a (k_r g x1) (k_th g x2)). unfold sqr. field. repeat split; lra.
    + eapply dl_ext; [|eapply dl_eq; [exact (r_invS a (k_th g x2) (k_r g) x1 (k_r g x1) (s_dr g) Dr eq_refl hr (/ sqr (sin (k_th g x2))))|]].
      * intros t. cbv beta. unfold k_h. cbn [fst snd]. unfold Rdiv. rewrite Rinv_mult. ring.
      * unfold k_dr_h33. cbn [fst snd]. unfold Rdiv. ring.
    + eapply dl_ext; [|eapply dl_eq; [exact (r_h13 a (k_th g x2) (k_r g) _ x1 (k_r g x1) (s_dr g) 0 Dr De eq_refl eq_refl hr p)|]].
      * intros t. cbv beta. unfold k_h, s_dr_inv. cbn [fst snd]. unfold Rdiv. ring.
      * unfold k_dr_h13, s_dr_inv. cbn [fst snd]. unfold Rdiv. ring.
  - eapply dl_ext; [|eapply dl_eq; [exact (r_invS a (k_th g x2) (k_r g) x1 (k_r g x1) (s_dr g) Dr eq_refl hr (sqr (s_dth_inv g)))|]].
    + intros t. cbv beta. unfold k_h. cbn [fst snd]. reflexivity.
    + unfold k_dr_h22. cbn [fst snd]. unfold Rdiv. ring.
Qed.

Lemma ks_angular : forall eps a g x, 0 <= eps -> sensible g -> gr_regular (ks eps a g) x ->
  angular_derivatives eps a (ks eps a g) x /\ angular_h22 eps (ks eps a g) x.
Proof.
  intros eps a g [x1 x2] he S [hr ht]. cbn [ks m_r m_th fst snd] in hr, ht.
  pose proof (s_dr_pos g S) as p. pose proof (s_dth_pos g S) as q.
  set (r := k_r g x1) in *. set (th := k_th g x2) in *.
  assert (st : 0 < sin th) by (apply sin_gt_0; lra).
  assert (Dr : derivable_pt_lim (k_r g) x1 (s_dr g)) by (unfold k_r; eapply dl_eq; [dl|cbn beta; ring]).
  assert (Dt : derivable_pt_lim (k_th g) x2 (s_dth g)) by (unfold k_th; eapply dl_eq; [dl|cbn beta; ring]).
  pose proof (k_Sigma_pos a r th hr) as Sp.
  pose proof (flush_close eps (- 2 * sqr a * sin th * cos th * s_dth g) he) as fS.
  pose proof (flush_close eps (- 2 * sqr a * sin th * cos th * k_Delta a r * s_dth g) he) as fA.
  assert (r3 : 0 < r ^ 3) by (apply pow_lt; exact hr). assert (r4 : 0 < r ^ 4) by (apply pow_lt; exact hr).
  split.
  - intros d1 D1. cbn [ks m_r fst] in D1. rewrite (dl_unique _ _ _ _ D1 Dr). clear d1 D1.
    cbn [ks m_r m_th m_alpha m_beta1 m_h m_dt_alpha m_dt_beta1 m_dt_h11 m_dt_h22 m_dt_h33 m_dt_h13 fst snd].
    fold r th.
    split; [|split; [|split; [|split]]].
    + eexists. split; [exact (t_alpha a r (k_th g) x2 th (s_dth g) Dt eq_refl hr)|].
      exact (b_alpha a r th eps _ _ hr fS).
    + eexists. split.
      * eapply dl_ext; [|exact (t_beta a r (k_th g) x2 th (s_dth g) Dt eq_refl hr (s_dr_inv g))].
        intros t. cbv beta. unfold k_beta1. cbn [fst snd]. fold r. unfold Rdiv. ring.
      * assert (ip : 0 < s_dr_inv g) by (unfold s_dr_inv; apply Rmult_lt_0_compat; [lra|apply Rinv_0_lt_compat; exact p]).
        pose proof (b_beta a r th eps _ _ (s_dr_inv g) hr fS ip) as B.
        replace (2 * eps / r ^ 3 / s_dr g) with (eps * (s_dr_inv g * (2 / r ^ 3))). 2:{ unfold s_dr_inv. field. split; lra. }
        exact B.
    + eexists. split.
      * eapply dl_ext; [|exact (t_h11 a r (k_th g) x2 th (s_dth g) Dt eq_refl hr (sqr (s_dr_inv g)))].
        intros t. cbv beta. unfold k_h. cbn [fst snd]. fold r. unfold Rdiv. ring.
      * assert (ip : 0 < s_dr_inv g) by (unfold s_dr_inv; apply Rmult_lt_0_compat; [lra|apply Rinv_0_lt_compat; exact p]).
        assert (ip2 : 0 < sqr (s_dr_inv g)) by (unfold sqr; apply Rmult_lt_0_compat; exact ip).
        pose proof (b_h11 a r th eps _ _ _ _ (sqr (s_dr_inv g)) hr fS fA ip2) as B.
        replace (eps * (1 / r ^ 4 + 2 / r ^ 2 + 2 * a ^ 2 / r ^ 4) / s_dr g ^ 2)
          with (eps * (1 / r ^ 4 + 2 / r ^ 2 + 2 * a ^ 2 / r ^ 4) * sqr (s_dr_inv g)). 2:{ unfold s_dr_inv, sqr. field. split; lra. }
        exact B.
    + eexists. split; [exact (t_h33 a r (k_th g) x2 th (s_dth g) Dt eq_refl hr st)|].
      replace (k_dt_h33 a g (x1, x2) - _) with 0.
      * unfold Rdiv. apply tol_pos with r; [exact he|exact hr|]. left. apply Rinv_0_lt_compat, Rmult_lt_0_compat; [exact r4|apply pow_lt; exact st].
      * unfold k_dt_h33. cbn [fst snd]. fold r th. unfold sqr, cube. field. split; lra.
    + eexists. split.
      * eapply dl_ext; [|exact (t_invS a r (k_th g) x2 th (s_dth g) Dt eq_refl hr (s_dr_inv g * a))].
        intros t. cbv beta. unfold k_h. cbn [fst snd]. fold r. reflexivity.
      * pose proof (b_invS a r th eps _ _ hr fS (s_dr_inv g * a)) as B.
        replace (eps * Rabs a / r ^ 4 / s_dr g) with (eps * (Rabs (s_dr_inv g * a) / r ^ 4)).
        2:{ rewrite Rabs_mult, (Rabs_pos_eq (s_dr_inv g)); unfold s_dr_inv; [field; split; lra|]. apply Rmult_le_pos; [lra|left; apply Rinv_0_lt_compat; exact p]. }
        replace (k_dt_h13 eps a g (x1, x2)) with (- (s_dr_inv g * a) * flush eps (- 2 * sqr a * sin th * cos th * s_dth g) / sqr (k_Sigma a r th)).
        exact B. unfold k_dt_h13, k_dt_Sigma. cbn [fst snd]. fold r th. unfold Rdiv. ring.
  - intros d2 D2. cbn [ks m_th snd] in D2. rewrite (dl_unique _ _ _ _ D2 Dt). clear d2 D2.
    cbn [ks m_r m_th m_h m_dt_h22 fst snd]. fold r.
    eexists. split.
    + eapply dl_ext; [|exact (t_invS a r (k_th g) x2 th (s_dth g) Dt eq_refl hr (sqr (s_dth_inv g)))].
      intros t. cbv beta. unfold k_h. cbn [fst snd]. fold r. reflexivity.
    + pose proof (b_invS a r th eps _ _ hr fS (sqr (s_dth_inv g))) as B.
      replace (eps / r ^ 4 / s_dth g ^ 2) with (eps * (Rabs (sqr (s_dth_inv g)) / r ^ 4)).
      2:{ rewrite Rabs_pos_eq; unfold sqr, s_dth_inv; [field; split; lra|apply Rle_0_sqr]. }
      replace (k_dt_h22 eps a g (x1, x2)) with (- sqr (s_dth_inv g) * flush eps (- 2 * sqr a * sin th * cos th * s_dth g) / sqr (k_Sigma a r th)).
      exact B. unfold k_dt_h22, k_dt_Sigma. cbn [fst snd]. fold r th. unfold Rdiv. ring.
Qed.
