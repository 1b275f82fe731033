(** Last lemmas on the GR pusher: the three metrics, the kicks, concrete particles. *)
From Coq Require Import Reals ZArith List Bool Lra Lia.
From Verif Require Import Base DirsModel TopoModel VelModel VelProofs PushModel PushSpec PushProofs MetModel MetSpec KsModel KsSpec StretchProofs DerivLemmas MetProofs KsProofs KsDeriv KsDeriv2 KsTop KsProps GrPushModel GrPushSpec GrPushProofs GrPushTop.
Import ListNotations.
Open Scope R_scope.

Lemma momentum_law_weaken : forall M nrm dt x m u u' t t', momentum_law M nrm dt x m u u' t -> t <= t' -> momentum_law M nrm dt x m u u' t'.
Proof. intros M nrm dt x m u u' t t' (D1 & D2 & a & b & c & d & e) l. exists D1, D2. repeat split; try assumption. lra. Qed.
Lemma k_r_deriv : forall g y, derivable_pt_lim (k_r g) y (s_dr g).
Proof. intros. unfold k_r. eapply dl_eq; [dl|cbn beta; ring]. Qed.
Lemma k_th_deriv : forall g y, derivable_pt_lim (k_th g) y (s_dth g).
Proof. intros. unfold k_th. eapply dl_eq; [dl|cbn beta; ring]. Qed.

Lemma momentum_ks0 : forall g nrm dt n x u, sensible g -> gr_regular (ks0 g) x ->
  let M := ks0 g in let m := half_way u (momentum_push M nrm dt n x u) in moving M nrm x m ->
  momentum_law M nrm dt x m u (momentum_push M nrm dt (S n) x u) 0.
Proof.
  intros g nrm dt n x u S Rg M m mv. destruct (ks0_derivatives g x S Rg) as (a1 & a2 & a3 & a4).
  eapply momentum_law_weaken; [exact (momentum_general 0 0 M nrm dt n x u _ _ (km_ks0 g S) Rg a1 a2 a3 a4 (k_r_deriv g _) (k_th_deriv g _) mv)|].
  unfold flush_error. cbv zeta. rewrite Rmult_0_l, Rmult_0_r. lra.
Qed.
Lemma momentum_ks : forall eps a g nrm dt n x u, 0 <= eps -> sensible g -> gr_regular (ks eps a g) x ->
  let M := ks eps a g in let m := half_way u (momentum_push M nrm dt n x u) in moving M nrm x m ->
  momentum_law M nrm dt x m u (momentum_push M nrm dt (S n) x u) (Rabs dt * flush_error eps a M nrm x m (s_dr g) (s_dth g)).
Proof.
  intros eps a g nrm dt n x u he S Rg M m mv. destruct (ks_radial eps a g x S Rg) as [a1 a2]. destruct (ks_angular eps a g x he S Rg) as [b1 b2].
  exact (momentum_general eps a M nrm dt n x u _ _ (km_ks eps a g S) Rg a1 a2 b1 b2 (k_r_deriv g _) (k_th_deriv g _) mv).
Qed.
Lemma momentum_qks : forall eps a g r0 h m x1 x2 nrm dt n u, q_ok eps g r0 h -> q_make eps g r0 h = Some m ->
  gr_regular (qks a m) (x1, x2) -> q_h0 m = 0 ->
  let M := qks a m in let x := (x1, x2) in let w := half_way u (momentum_push M nrm dt n x u) in moving M nrm x w ->
  exists d1 d2, derivable_pt_lim (m_r M) x1 d1 /\ derivable_pt_lim (m_th M) x2 d2 /\
    momentum_law M nrm dt x w u (momentum_push M nrm dt (S n) x u) (Rabs dt * flush_error eps a M nrm x w d1 d2).
Proof.
  intros eps a g r0 h m x1 x2 nrm dt n u OK MK Rg z M x w mv.
  destruct (qks_h22_unstretched eps a g r0 h m x1 x2 OK MK Rg z) as [h1 h2].
  pose proof (qks_radial eps a g r0 h m x1 x2 OK MK Rg) as r1. pose proof (qks_angular eps a g r0 h m x1 x2 OK MK Rg (or_introl z)) as t1.
  pose proof (qx_Dr m x1) as D1. pose proof (qx_Dt m x2) as D2.
  eexists _, _. split; [exact D1|]. split; [exact D2|].
  exact (momentum_general eps a M nrm dt n x u _ _ (km_qks eps a g r0 h m OK MK) Rg r1 h1 t1 h2 D1 D2 mv).
Qed.
Lemma angular_momentum : forall M to_cd,
  (forall p q, photon_run M to_cd p q -> v3 (g_u q) = v3 (g_u p)) /\
  (forall p q, kerr_metric M -> vacuum_run M to_cd p q -> v3 (g_u q) = v3 (g_u p)).
Proof. intros. split; [apply photon_u3|intros; eapply vacuum_u3; eassumption]. Qed.

Lemma tr_some : forall M i o x v, (i = ID \/ i = IU) -> o = IT -> gr_transform M i o x v = Some (tr M i o x v).
Proof. intros M i o x [[a b] c] [-> | ->] ->; reflexivity. Qed.
Lemma kicks : forall M to_cd k x Dc Bc u, kerr_metric M -> gr_regular M x ->
  let energy2 v := 1 + quad3 (fun i j => m_h M i j x) v in
  exists ua ub, ub = momentum_push M 1 (k_dt k) (k_niter k) (off_axis M to_cd x) ua /\
  let u' := kick_massive M to_cd k x Dc Bc u in
  (Dc = (0, 0, 0) -> energy2 ua = energy2 u /\ energy2 u' = energy2 ub) /\
  (Bc = (0, 0, 0) -> exists E t ta tb t', gr_transform M IU IT x Dc = Some E /\
     in_tetrad M x u t /\ in_tetrad M x ua ta /\ in_tetrad M x ub tb /\ in_tetrad M x u' t' /\
     ta = vadd t (vscale (k_charge k / k_mass k * k_omegaB0 k * k_dt k / 2 * m_alpha M x) E) /\
     t' = vadd tb (vscale (k_charge k / k_mass k * k_omegaB0 k * k_dt k / 2 * m_alpha M x) E)) /\
  (Dc = (0, 0, 0) -> Bc = (0, 0, 0) -> ua = u /\ u' = ub).
Proof.
  intros M to_cd k x Dc Bc u K Rg energy2. destruct (kerr_form M x K Rg) as (mu & a & e1 & e2 & F).
  set (ua := em_half M (hdt k) x u (tr M IU IT x Dc) (tr M IU IT x Bc)). set (ub := momentum_push M 1 (k_dt k) (k_niter k) (off_axis M to_cd x) ua).
  exists ua, ub. split; [reflexivity|]. cbv zeta. 
  assert (eu : kick_massive M to_cd k x Dc Bc u = em_half M (hdt k) x ub (tr M IU IT x Dc) (tr M IU IT x Bc)) by reflexivity. rewrite eu.
  split; [|split].
  - intros z. unfold energy2, ua. rewrite z, (tr_zero _ _ _ _ _ _ F). split; f_equal; apply (em_magnetic _ _ _ _ _ _ F Rg).
  - intros z. exists (tr M IU IT x Dc), (tr M ID IT x u), (tr M ID IT x ua), (tr M ID IT x ub), (tr M ID IT x (em_half M (hdt k) x ub (tr M IU IT x Dc) (tr M IU IT x Bc))).
    assert (hh : k_charge k / k_mass k * k_omegaB0 k * k_dt k / 2 * m_alpha M x = hdt k * m_alpha M x) by (unfold hdt, normalized_dt_half, Rdiv; ring).
    rewrite hh. unfold in_tetrad. repeat split; try (apply tr_some; auto).
    + unfold ua. rewrite z, (tr_zero _ _ _ _ _ _ F). apply (em_electric _ _ _ _ _ _ F Rg).
    + clearbody ub. rewrite z, (tr_zero _ _ _ _ _ _ F). apply (em_electric _ _ _ _ _ _ F Rg).
  - intros z1 z2. unfold ua. rewrite z1, z2, !(tr_zero _ _ _ _ _ _ F), (em_nothing _ _ _ _ _ _ F Rg), (em_nothing _ _ _ _ _ _ F Rg). split; reflexivity.
Qed.

Lemma other_tags : forall M to_cd mpi k b p,
  (g_tag p = 0%Z -> push_massless M to_cd mpi k b p = Ok p /\ forall o ng DB DB0, push_massive M to_cd mpi o ng k b DB DB0 p = Ok p) /\
  (g_tag p <> 0%Z -> g_tag p <> 1%Z -> push_massless M to_cd mpi k b p = Err /\ forall o ng DB DB0, push_massive M to_cd mpi o ng k b DB DB0 p = Err).
Proof.
  intros. unfold push_massless, push_massive. split.
  - intros ->. split; reflexivity.
  - intros n0 n1. rewrite (proj2 (Z.eqb_neq _ _) n0), (proj2 (Z.eqb_neq _ _) n1). split; reflexivity.
Qed.
Lemma which_boundaries : forall lo1 hi1 lo2 hi2 rest b, gr_bcs ((lo1, hi1) :: (lo2, hi2) :: rest) = Ok b ->
  (absorb_i1min b = true <-> lo1 = P_ABSORB \/ lo1 = P_HORIZON) /\ (absorb_i1max b = true <-> hi1 = P_ABSORB \/ hi1 = P_HORIZON) /\
  (axis_i2min b = true <-> lo2 = P_AXIS) /\ (axis_i2max b = true <-> hi2 = P_AXIS).
Proof.
  intros lo1 hi1 lo2 hi2 rest b E. injection E as <-. cbn [absorb_i1min absorb_i1max axis_i2min axis_i2max].
  assert (A : forall x, swallows x = true <-> x = P_ABSORB \/ x = P_HORIZON) by (intros []; cbn; intuition congruence).
  assert (B : forall x, is_axis x = true <-> x = P_AXIS) by (intros []; cbn; intuition congruence).
  repeat split; try apply A; try apply B.
Qed.

(** ** Concrete particles *)
Definition ex_k : gctx := {| k_mass := 0; k_charge := 0; k_dt := 1; k_omegaB0 := 1; k_niter := 1; k_ni1 := 8; k_ni2 := 8 |}.
Definition ex_photon (u : vec3) : gprt :=
  {| g1 := {| ci := 7; cx := 1/2; ci_prev := 7; cx_prev := 0 |}; g2 := {| ci := 4; cx := 0; ci_prev := 4; cx_prev := 0 |}; g_u := u; g_phi := 1; g_tag := 1 |}.

Lemma ex_place : forall u, place (ex_photon u) = (15/2, 4).
Proof. intros. unfold place, i_di_to_Xi. cbn [g1 g2 ci cx ex_photon]. f_equal; lra. Qed.
Lemma ex_th : m_th (ks0 ex_hole) 4 = PI / 2.
Proof. cbn [ks0 m_th]. unfold k_th, s_dth, ex_hole. cbn [x2_min x2_max nx2]. lra. Qed.
Lemma ex_r : m_r (ks0 ex_hole) (15/2) = 19/2.
Proof. cbn [ks0 m_r]. unfold k_r, s_dr, ex_hole. cbn [x1_min x1_max nx1]. lra. Qed.
Lemma ex_regular : gr_regular (ks0 ex_hole) (15/2, 4).
Proof. unfold gr_regular. cbn [fst snd]. rewrite ex_th, ex_r. pose proof PI_RGT_0. lra. Qed.
Lemma ex_h11 : m_h (ks0 ex_hole) 1 1 (15/2, 4) = 1.
Proof. cbn [ks0 m_h]. unfold k0_h, s_dr_inv, s_dr, ex_hole, sqr. cbn [x1_min x1_max nx1 fst snd]. lra. Qed.
Lemma ex_h33 : m_h (ks0 ex_hole) 3 3 (15/2, 4) = 4/361.
Proof.
  pose proof ex_th as T. pose proof ex_r as Q. cbn [ks0 m_h m_th m_r] in *. unfold k0_h. cbn [fst snd]. rewrite T, Q, sin_PI2. unfold sqr. lra.
Qed.

Lemma photon_out : exists b q, gr_bcs [(P_HORIZON, P_REFLECT); (P_AXIS, P_AXIS)] = Ok b /\
  pushed (ks0 ex_hole) (s_to_cd ex_hole 2) false ex_k b (ex_photon (1, 0, 0)) (17/2, 4) (1, 0, 0) q /\ absorb_i1max b = false /\ axis_i2min b = true.
Proof.
  eexists _, _. split; [reflexivity|]. split; [|split; reflexivity]. split; [reflexivity|]. left. split; [reflexivity|].
  rewrite ex_place. cbn [ex_photon g_u k_dt k_niter ex_k].
  assert (U : momentum_push (ks0 ex_hole) 0 1 1 (15/2, 4) (1, 0, 0) = (1, 0, 0)).
  { unfold momentum_push. cbn [Nat.iter]. unfold momentum_iter, v1, v2, v3. cbn [fst snd]. unfold sqr. cbn [ks0 m_dr_alpha m_dr_beta1 m_dr_h11 m_dr_h13 m_dt_alpha m_dt_beta1 m_dt_h11 m_dt_h22 m_dt_h13].
    apply triple_eq; try reflexivity. all: cbn [fst snd]; ring. }
  rewrite U. split; [reflexivity|].
  change (coordinate_push (ks0 ex_hole) (s_to_cd ex_hole 2) 0 1 1 (15/2, 4) (1, 0, 0)) with (coordinate_iter (ks0 ex_hole) (s_to_cd ex_hole 2) 0 1 (15/2, 4) (1, 0, 0) (15/2, 4)).
  unfold coordinate_iter. cbn [fst snd].
  assert (O : off_axis (ks0 ex_hole) (s_to_cd ex_hole 2) (1 / 2 * (15 / 2 + 15 / 2), 1 / 2 * (4 + 4)) = (15/2, 4)).
  { replace (1 / 2 * (15 / 2 + 15 / 2)) with (15/2) by lra. replace (1 / 2 * (4 + 4)) with 4 by lra.
    apply off_axis_spec; [apply conversions, ex_hole_ok|]. cbn [snd]. rewrite ex_th. pose proof PI2_3_2. unfold small_angle_gr. lra. }
  rewrite O.
  assert (W : tr (ks0 ex_hole) ID IU (15/2, 4) (1, 0, 0) = (1, 0, 0)).
  { unfold tr. cbn [gr_transform]. rewrite ex_h11. apply triple_eq; try ring. cbn [ks0 m_h]. unfold k0_h. ring. }
  rewrite W. unfold compute_gamma, v1, v2, v3. cbn [fst snd].
  replace (0 + 1 * 1 + 0 * 0 + 0 * 0) with 1 by ring. rewrite sqrt_1. cbn [ks0 m_alpha m_beta1]. f_equal; lra.
Qed.
Lemma orbit : exists q, photon_run (ks0 ex_hole) (s_to_cd ex_hole 2) (ex_photon (1, 0, 2)) q /\ v3 (g_u q) = 2 /\
  kerr_metric (ks 0 (9/10) ex_hole) /\ gr_regular (ks 0 (9/10) ex_hole) (1/2, 4) /\
  moving (ks 0 (9/10) ex_hole) 1 (1/2, 4) (0, 0, 0).
Proof.
  set (b := {| absorb_i1min := true; absorb_i1max := true; axis_i2min := true; axis_i2max := true |}).
  eexists. split; [eapply (pr_step _ _ false ex_k b); [reflexivity|apply pr_none]|].
  split; [rewrite move_u3, momentum_v3; reflexivity|]. split; [apply km_ks, ex_hole_ok|]. split; [exact (proj1 (ex_hole_point 0 (9/10)))|].
  unfold moving. split; [lra|]. rewrite (quad_explicit _ (kerr_sparse _ (km_ks 0 (9/10) _ (proj1 ex_hole_ok)))). unfold v1, v2, v3, sqr. cbn [fst snd]. lra.
Qed.
Lemma phi_witness : exists M to_cd k b p q,
  kerr_metric M /\ converts M to_cd /\ gr_regular M (place p) /\ 0 < k_dt k /\
  push_massless M to_cd false k b p = Ok q /\ moving M 0 (place p) (g_u q) /\
  0 < k_dt k * gr_velocity M (place p) 0 (g_u q) 3 < 2 * PI /\ g_phi q = g_phi p.
Proof.
  set (b := {| absorb_i1min := true; absorb_i1max := true; axis_i2min := true; axis_i2max := true |}).
  exists (ks0 ex_hole), (s_to_cd ex_hole 2), ex_k, b, (ex_photon (0, 0, 1)).
  assert (K : kerr_metric (ks0 ex_hole)) by apply km_ks0, ex_hole_ok. pose proof (kerr_sparse _ K) as S.
  eexists. split; [exact K|]. split; [apply conversions, ex_hole_ok|]. rewrite ex_place. split; [exact ex_regular|].
  split; [cbn; lra|]. split; [reflexivity|]. rewrite move_phi.
  match goal with |- moving _ _ _ (g_u ?q) /\ _ => assert (W : v3 (g_u q) = 1) by (rewrite move_u3, momentum_v3; reflexivity); set (w := g_u q) in * end.
  assert (h13 : m_h (ks0 ex_hole) 1 3 (15/2, 4) = 0) by reflexivity.
  assert (h22 : 0 <= m_h (ks0 ex_hole) 2 2 (15/2, 4)) by (cbn [ks0 m_h]; unfold k0_h, sqr; apply Rle_0_sqr).
  assert (Q : 4/361 <= quad3 (fun i j => m_h (ks0 ex_hole) i j (15/2, 4)) w).
  { rewrite (quad_explicit _ S), ex_h11, ex_h33, h13, W. pose proof (Rle_0_sqr (v1 w)) as p1. pose proof (Rle_0_sqr (v2 w)) as p2. unfold Rsqr in p1, p2. unfold sqr.
    assert (0 <= m_h (ks0 ex_hole) 2 2 (15/2, 4) * (v2 w * v2 w)) by (apply Rmult_le_pos; assumption). lra. }
  split; [split; lra|]. split; [|reflexivity]. cbn [k_dt ex_k]. rewrite Rmult_1_l.
  unfold gr_velocity. cbn [shift]. 
  assert (R3 : gr_raise (ks0 ex_hole) (15/2, 4) w 3 = 4/361).
  { unfold gr_raise, sum3. rewrite ex_h33. destruct (S (15/2, 4)) as (_ & _ & _ & s32 & s31). rewrite s32, s31, h13.
    unfold comp4. cbv iota. fold (v3 w). replace (c3 w) with (v3 w) by reflexivity. rewrite W. lra. }
  rewrite R3. cbn [ks0 m_alpha].
  assert (G : 2/19 <= gr_gamma (ks0 ex_hole) (15/2, 4) 0 w).
  { unfold gr_gamma. replace (2/19) with (sqrt (4/361)) by (replace (4/361) with ((2/19) * (2/19)) by lra; apply sqrt_square; lra). apply sqrt_le_1_alt. lra. }
  set (G0 := gr_gamma (ks0 ex_hole) (15/2, 4) 0 w) in *. pose proof PI2_3_2.
  assert (i0 : 0 < / G0) by (apply Rinv_0_lt_compat; lra). assert (i1 : / G0 <= / (2/19)) by (apply Rinv_le_contravar; lra).
  unfold Rdiv at 1 3. lra.
Qed.

Lemma ex_stretched : q_ok 0 ex_hole 0 (1/2) /\ exists m, q_make 0 ex_hole 0 (1/2) = Some m /\ gr_regular (qks (9/10) m) (INR 0 + 1/2, INR 3 + 1/2) /\
  dtheta_deta (q_eps m) (q_h0 m) (q_eta m (INR 3 + 1/2)) <> 1 /\
  let w := half_way (0, 1, 0) (momentum_push (qks (9/10) m) 1 1 0 (INR 0 + 1/2, INR 3 + 1/2) (0, 1, 0)) in
  v2 w <> 0 /\ moving (qks (9/10) m) 1 (INR 0 + 1/2, INR 3 + 1/2) w.
Proof.
  split; [exact ex_hole_q|]. destruct (ex_hole_q_point (9/10)) as (m & MK & Rg). exists m. split; [exact MK|]. split; [exact Rg|].
  assert (K : kerr_metric (qks (9/10) m)) by (eapply km_qks; [exact ex_hole_q|exact MK]).
  split.
  - destruct (q_fields _ _ _ _ _ ex_hole_q MK) as (f1 & f2 & f3 & f4 & f5 & f6 & f7 & f8 & f9). pose proof PI_RGT_0 as pp.
    assert (hh : 0 <= 1/2 < 1) by lra.
    assert (mid : forall y, eta2theta 0 (1/2) (PI - y) = PI - eta2theta 0 (1/2) y).
    { intros y. unfold eta2theta. destruct (almost_zero 0 (1/2)); [reflexivity|]. unfold sqr. field. lra. }
    cbn [x2_min x2_max nx2 ex_hole] in f7, f8.
    assert (e0 : q_eta_min m = 0). { apply (e2t_inj 0 (1/2)); [exact hh|]. rewrite f7. symmetry. apply PolarProofs.e2t_zero. }
    assert (e8 : q_eta_min m + 8 * q_deta m = PI).
    { apply (e2t_inj 0 (1/2)); [exact hh|]. rewrite f8. replace PI with (PI - 0) at 2 by ring. rewrite mid, PolarProofs.e2t_zero. ring. }
    rewrite f1, f3. unfold dtheta_deta. destruct (almost_zero 0 (1/2)) eqn:Z.
    + apply almost_zero_true in Z. rewrite Rabs_pos_eq in Z by lra. lra.
    + unfold q_eta. rewrite e0 in *. cbn [INR]. replace (q_deta m) with (PI / 8) by lra.
      replace (((1 + 1 + 1 + 1 / 2) * (PI / 8) + 0) / PI) with (7/16) by (field; lra). lra.
  - cbv zeta. change (momentum_push (qks (9/10) m) 1 1 0 (INR 0 + 1/2, INR 3 + 1/2) (0, 1, 0)) with ((0, 1, 0) : vec3).
    unfold half_way, v1, v2, v3. cbn [fst snd]. split; [lra|]. split; [lra|]. rewrite (quad_explicit _ (kerr_sparse _ K)). unfold v1, v2, v3, sqr. cbn [fst snd].
    destruct (kerr_form _ _ K Rg) as (mu & a & e1 & e2 & F).
    destruct (form_triangular _ _ _ _ _ _ F Rg) as (A0 & b & c & q & hA & hb & hc & S1 & S2 & S3 & H1 & H2 & H3 & H4 & _). rewrite H4.
    assert (0 < 1 / (b * b)) by (apply Rdiv_lt_0_compat; [lra|apply Rmult_lt_0_compat; exact hb]). lra.
Qed.
