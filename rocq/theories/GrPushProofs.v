From Coq Require Import Reals ZArith List Bool Lra Lia.
From Verif Require Import Base DirsModel TopoModel VelModel VelProofs PushModel PushSpec PushProofs MetModel MetSpec KsModel KsSpec StretchProofs DerivLemmas MetProofs KsProofs KsDeriv KsDeriv2 KsTop GrPushModel GrPushSpec.
Open Scope R_scope.

(** ** Structure of the spatial metric *)
Definition sparse (M : grmet) : Prop := forall y,
  m_h M 1 2 y = 0 /\ m_h M 2 1 y = 0 /\ m_h M 2 3 y = 0 /\ m_h M 3 2 y = 0 /\ m_h M 3 1 y = m_h M 1 3 y.
Lemma kerr_sparse : forall M, kerr_metric M -> sparse M.
Proof. intros M K y. destruct K; repeat split; reflexivity. Qed.
Lemma kerr_form : forall M x, kerr_metric M -> gr_regular M x -> exists mu a e1 e2, form mu a M x e1 e2.
Proof.
  intros M x K R. destruct K; do 4 eexists; [eapply ks_form|eapply ks0_form|eapply qks_form]; eassumption.
Qed.

Lemma raise_eq : forall M, sparse M -> forall x u,
  tr M ID IU x u = (gr_raise M x u 1, gr_raise M x u 2, gr_raise M x u 3).
Proof.
  intros M S x [[u1 u2] u3]. destruct (S x) as (e1 & e2 & e3 & e4 & e5). unfold tr. cbn [gr_transform].
  unfold gr_raise, sum3, comp4, c1, c2, c3. cbn [fst snd]. rewrite e1, e2, e3, e4, e5.
  apply triple_eq; ring.
Qed.
Lemma quad_explicit : forall M, sparse M -> forall x u,
  quad3 (fun i j => m_h M i j x) u = m_h M 1 1 x * sqr (v1 u) + m_h M 2 2 x * sqr (v2 u) + m_h M 3 3 x * sqr (v3 u) + 2 * m_h M 1 3 x * v1 u * v3 u.
Proof.
  intros M S x [[u1 u2] u3]. destruct (S x) as (e1 & e2 & e3 & e4 & e5).
  unfold quad3, sum3, comp4, c1, c2, c3, v1, v2, v3, sqr. cbn [fst snd]. rewrite e1, e2, e3, e4, e5. ring.
Qed.
Lemma gamma_eq : forall M, sparse M -> forall nrm x u, compute_gamma nrm u (tr M ID IU x u) = gr_gamma M x nrm u.
Proof.
  intros M S nrm x u. unfold compute_gamma, gr_gamma. f_equal. rewrite (raise_eq M S), (quad_explicit M S).
  destruct u as [[u1 u2] u3]. destruct (S x) as (e1 & e2 & e3 & e4 & e5).
  unfold gr_raise, sum3, comp4, c1, c2, c3, v1, v2, v3, sqr. cbn [fst snd]. rewrite e1, e2, e3, e4, e5. ring.
Qed.

(** ** Derivatives of the Hamiltonian *)
Lemma H_along : forall M nrm u (y : R -> coord2) t al be h11 h22 h33 h13, sparse M ->
  0 < nrm + quad3 (fun i j => m_h M i j (y t)) u ->
  derivable_pt_lim (fun s => m_alpha M (y s)) t al -> derivable_pt_lim (fun s => m_beta1 M (y s)) t be ->
  derivable_pt_lim (fun s => m_h M 1 1 (y s)) t h11 -> derivable_pt_lim (fun s => m_h M 2 2 (y s)) t h22 ->
  derivable_pt_lim (fun s => m_h M 3 3 (y s)) t h33 -> derivable_pt_lim (fun s => m_h M 1 3 (y s)) t h13 ->
  derivable_pt_lim (fun s => hamiltonian M nrm (y s) u) t
    (al * gr_gamma M (y t) nrm u
     + m_alpha M (y t) / (2 * gr_gamma M (y t) nrm u) * (h11 * sqr (v1 u) + h22 * sqr (v2 u) + h33 * sqr (v3 u) + 2 * h13 * v1 u * v3 u)
     - be * v1 u).
Proof.
  intros M nrm u y t al be h11 h22 h33 h13 S P Da Db D1 D2 D3 D4.
  assert (Dq : derivable_pt_lim (fun s => nrm + quad3 (fun i j => m_h M i j (y s)) u) t
            (h11 * sqr (v1 u) + h22 * sqr (v2 u) + h33 * sqr (v3 u) + 2 * h13 * v1 u * v3 u)).
  { apply (dl_ext (fun s => nrm + (m_h M 1 1 (y s) * sqr (v1 u) + m_h M 2 2 (y s) * sqr (v2 u) + m_h M 3 3 (y s) * sqr (v3 u) + m_h M 1 3 (y s) * (2 * v1 u * v3 u)))).
    { intros s. rewrite (quad_explicit M S). ring. }
    eapply dl_eq; [repeat apply dl_plus; [apply dl_const|..]; apply dl_mult; try eassumption; apply dl_const|]. cbn beta. ring. }
  unfold hamiltonian, gr_gamma in *.
  assert (sq : 0 < sqrt (nrm + quad3 (fun i j => m_h M i j (y t)) u)) by (apply sqrt_lt_R0; exact P).
  eapply dl_eq.
  - apply dl_minus; [apply dl_mult; [exact Da|apply dl_sqrt; [exact Dq|exact P]]|apply dl_mult; [exact Db|apply dl_const]].
  - cbn beta. set (q := sqrt _) in *. clearbody q. field. lra.
Qed.

(** The rate that the pusher computes. *)
Definition rate (M : grmet) (nrm : R) (x : coord2) (m : vec3) (al be h11 h22 h33 h13 : R) : R :=
  let u0 := compute_gamma nrm m (tr M ID IU x m) / m_alpha M x in
  - m_alpha M x * u0 * al + v1 m * be - 1 / 2 / u0 * (h11 * sqr (v1 m) + h22 * sqr (v2 m) + h33 * sqr (v3 m) + 2 * h13 * v1 m * v3 m).
Lemma rate_eq : forall M nrm x m al be h11 h22 h33 h13, sparse M -> 0 < m_alpha M x -> 0 < gr_gamma M x nrm m ->
  rate M nrm x m al be h11 h22 h33 h13 =
  - (al * gr_gamma M x nrm m
     + m_alpha M x / (2 * gr_gamma M x nrm m) * (h11 * sqr (v1 m) + h22 * sqr (v2 m) + h33 * sqr (v3 m) + 2 * h13 * v1 m * v3 m)
     - be * v1 m).
Proof.
  intros M nrm x m al be h11 h22 h33 h13 S A G. unfold rate. rewrite (gamma_eq M S).
  set (q := gr_gamma M x nrm m) in *. set (p := m_alpha M x) in *. clearbody q p. field. split; lra.
Qed.

Lemma moving_gamma : forall M nrm x u, moving M nrm x u -> 0 < gr_gamma M x nrm u.
Proof. intros M nrm x u [_ P]. unfold gr_gamma. apply sqrt_lt_R0. exact P. Qed.

(** ** The iterations *)
Lemma momentum_v3 : forall M nrm dt n x u, v3 (momentum_push M nrm dt n x u) = v3 u.
Proof. intros. unfold momentum_push. induction n; cbn [Nat.iter]; [reflexivity|]. unfold momentum_iter, v3 at 1. cbn [snd]. exact IHn. Qed.
Lemma momentum_succ : forall M nrm dt n x u,
  let m := half_way u (momentum_push M nrm dt n x u) in
  momentum_push M nrm dt (S n) x u =
    (v1 u + dt * rate M nrm x m (m_dr_alpha M x) (m_dr_beta1 M x) (m_dr_h11 M x) (m_dr_h22 M x) (m_dr_h33 M x) (m_dr_h13 M x),
     v2 u + dt * rate M nrm x m (m_dt_alpha M x) (m_dt_beta1 M x) (m_dt_h11 M x) (m_dt_h22 M x) (m_dt_h33 M x) (m_dt_h13 M x),
     v3 u).
Proof.
  intros M nrm dt n x u m.
  assert (E : momentum_push M nrm dt (S n) x u = momentum_iter M nrm dt x u (momentum_push M nrm dt n x u)) by reflexivity.
  rewrite E. unfold momentum_iter. rewrite (momentum_v3 M nrm dt n x u).
  assert (Em : (1 / 2 * (v1 u + v1 (momentum_push M nrm dt n x u)), 1 / 2 * (v2 u + v2 (momentum_push M nrm dt n x u)), v3 u) = m).
  { unfold m, half_way. rewrite (momentum_v3 M nrm dt n x u). apply triple_eq; try reflexivity. lra. }
  rewrite Em. reflexivity.
Qed.

Lemma momentum_exact1 : forall M nrm dt n x u, kerr_metric M -> gr_regular M x ->
  radial_derivatives M x -> radial_h22 M x ->
  let m := half_way u (momentum_push M nrm dt n x u) in moving M nrm x m ->
  exists D1, by_x1 (fun y => hamiltonian M nrm y m) x D1 /\ v1 (momentum_push M nrm dt (S n) x u) = v1 u - dt * D1.
Proof.
  intros M nrm dt n x u K Rg (R1 & R2 & R3 & R4 & R5) R6 m mv. pose proof (kerr_sparse M K) as S.
  destruct (kerr_form M x K Rg) as (mu & a & e1 & e2 & F). destruct (form_adm _ _ _ _ _ _ F Rg) as (al & _).
  pose proof (moving_gamma _ _ _ _ mv) as G. destruct mv as [nn P].
  assert (P' : 0 < nrm + quad3 (fun i j => m_h M i j (fst x, snd x)) m) by (destruct x; exact P).
  eexists. split.
  - unfold by_x1. exact (H_along M nrm m (fun s => (s, snd x)) (fst x) _ _ _ _ _ _ S P' R1 R2 R3 R6 R4 R5).
  - rewrite momentum_succ. fold m. unfold v1 at 1. cbn [fst]. rewrite (rate_eq M nrm x m _ _ _ _ _ _ S al G).
    destruct x as [x1 x2]. cbn [fst snd]. ring.
Qed.

Lemma momentum_close2 : forall M nrm dt n x u ta tb t1 t2 t3 t4, kerr_metric M -> gr_regular M x ->
  let along (f : coord2 -> R) (code : coord2 -> R) tol := derivative_within (fun s => f (fst x, s)) (snd x) (code x) tol in
  along (m_alpha M) (m_dt_alpha M) ta -> along (m_beta1 M) (m_dt_beta1 M) tb ->
  along (m_h M 1 1) (m_dt_h11 M) t1 -> along (m_h M 2 2) (m_dt_h22 M) t2 -> along (m_h M 3 3) (m_dt_h33 M) t3 -> along (m_h M 1 3) (m_dt_h13 M) t4 ->
  let m := half_way u (momentum_push M nrm dt n x u) in moving M nrm x m ->
  exists D2, by_x2 (fun y => hamiltonian M nrm y m) x D2 /\
    Rabs (v2 (momentum_push M nrm dt (S n) x u) - (v2 u - dt * D2)) <=
      Rabs dt * (ta * gr_gamma M x nrm m + Rabs (v1 m) * tb + m_alpha M x / (2 * gr_gamma M x nrm m) *
         (t1 * v1 m ^ 2 + t2 * v2 m ^ 2 + t3 * v3 m ^ 2 + 2 * t4 * Rabs (v1 m * v3 m))).
Proof.
  intros M nrm dt n x u ta tb t1 t2 t3 t4 K Rg along (Da & R1 & B1) (Db & R2 & B2) (D1 & R3 & B3) (D2 & R4 & B4) (D3 & R5 & B5) (D4 & R6 & B6) m mv.
  pose proof (kerr_sparse M K) as S.
  destruct (kerr_form M x K Rg) as (mu & a & e1 & e2 & F). destruct (form_adm _ _ _ _ _ _ F Rg) as (al & _).
  pose proof (moving_gamma _ _ _ _ mv) as G. destruct mv as [nn P].
  assert (P' : 0 < nrm + quad3 (fun i j => m_h M i j (fst x, snd x)) m) by (destruct x; exact P).
  eexists. split.
  - unfold by_x2. exact (H_along M nrm m (fun s => (fst x, s)) (snd x) _ _ _ _ _ _ S P' R1 R2 R3 R4 R5 R6).
  - rewrite momentum_succ. fold m. unfold v2 at 1. cbn [fst snd]. rewrite (rate_eq M nrm x m _ _ _ _ _ _ S al G).
    assert (Ex : (fst x, snd x) = x) by (destruct x; reflexivity). rewrite Ex.
    set (q := gr_gamma M x nrm m) in *. set (p := m_alpha M x) in *.
    set (m1 := v1 m) in *. set (m2 := v2 m) in *. set (m3 := v3 m) in *.
    set (k := p / (2 * q)).
    assert (kp : 0 < k) by (unfold k; apply Rmult_lt_0_compat; [exact al|apply Rinv_0_lt_compat; lra]).
    match goal with |- Rabs ?e <= _ =>
      replace e with (dt * (- ((m_dt_alpha M x - Da) * q) + ((m_dt_beta1 M x - Db) * m1 + - (k *
        ((m_dt_h11 M x - D1) * (m1 ^ 2) + (m_dt_h22 M x - D2) * (m2 ^ 2) + (m_dt_h33 M x - D3) * (m3 ^ 2) + 2 * (m_dt_h13 M x - D4) * (m1 * m3)))))) by (unfold sqr; ring) end.
    rewrite Rabs_mult. apply Rmult_le_compat_l; [apply Rabs_pos|].
    assert (sq : forall y, 0 <= y ^ 2) by (intros y; cbn [pow]; rewrite Rmult_1_r; apply Rle_0_sqr).
    assert (ab : forall y, Rabs (y ^ 2) = y ^ 2) by (intros y; apply Rabs_pos_eq, sq).
    assert (tri : forall a b A B, Rabs a <= A -> Rabs b <= B -> Rabs (a + b) <= A + B) by (intros; eapply Rle_trans; [apply Rabs_triang|]; apply Rplus_le_compat; assumption).
    assert (ty : forall e t y, Rabs e <= t -> Rabs (e * y ^ 2) <= t * y ^ 2) by (intros; rewrite Rabs_mult, ab; apply Rmult_le_compat_r; [apply sq|assumption]).
    rewrite <- Rplus_assoc. apply tri; [apply tri|].
    { rewrite Rabs_Ropp, Rabs_mult, (Rabs_pos_eq q) by lra. apply Rmult_le_compat_r; lra. }
    { rewrite Rabs_mult, Rmult_comm. apply Rmult_le_compat_l; [apply Rabs_pos|exact B2]. }
    rewrite Rabs_Ropp, Rabs_mult, (Rabs_pos_eq k) by lra. apply Rmult_le_compat_l; [lra|].
    apply tri; [apply tri; [apply tri|]|]; try (apply ty; assumption).
    rewrite !Rabs_mult, (Rabs_pos_eq 2) by lra.
    apply Rmult_le_compat_r; [apply Rmult_le_pos; apply Rabs_pos|]. apply Rmult_le_compat_l; [lra|exact B6].
Qed.

Lemma momentum_general : forall eps a M nrm dt n x u d1 d2, kerr_metric M -> gr_regular M x ->
  radial_derivatives M x -> radial_h22 M x -> angular_derivatives eps a M x -> angular_h22 eps M x ->
  derivable_pt_lim (m_r M) (fst x) d1 -> derivable_pt_lim (m_th M) (snd x) d2 ->
  let m := half_way u (momentum_push M nrm dt n x u) in moving M nrm x m ->
  momentum_law M nrm dt x m u (momentum_push M nrm dt (S n) x u) (Rabs dt * flush_error eps a M nrm x m d1 d2).
Proof.
  intros eps a M nrm dt n x u d1 d2 K Rg R1 R2 A1 A2 E1 E2 m mv.
  destruct (momentum_exact1 M nrm dt n x u K Rg R1 R2 mv) as (D1 & q1 & q2).
  destruct (A1 d1 E1) as (a1 & a2 & a3 & a4 & a5). pose proof (A2 d2 E2) as a6.
  destruct (momentum_close2 M nrm dt n x u _ _ _ _ _ _ K Rg a1 a2 a3 a6 a4 a5 mv) as (D2 & q3 & q4).
  exists D1, D2. split; [exact q1|]. split; [exact q3|]. split; [exact q2|]. split; [|apply momentum_v3].
  eapply Rle_trans; [exact q4|]. right. f_equal. unfold flush_error.
  fold m. destruct (kerr_form M x K Rg) as (mu & aa & e1 & e2 & F). pose proof (fo_e1 _ _ _ _ _ _ F) as p1. pose proof (fo_e2 _ _ _ _ _ _ F) as p2.
  rewrite (uniqueness_limite _ _ _ _ E1 (fo_r _ _ _ _ _ _ F)), (uniqueness_limite _ _ _ _ E2 (fo_th _ _ _ _ _ _ F)).
  destruct Rg as [rp [t1 t2]]. assert (sp : 0 < sin (m_th M (snd x))) by (apply sin_gt_0; assumption).
  pose proof (moving_gamma _ _ _ _ mv) as G. field. repeat split; lra.
Qed.

(** The coordinate velocity is the derivative of the Hamiltonian by the momentum. *)
Lemma velocity_is_dH : forall M nrm x u, kerr_metric M -> moving M nrm x u ->
  by_u1 (hamiltonian M nrm x) u (gr_velocity M x nrm u 1) /\
  by_u2 (hamiltonian M nrm x) u (gr_velocity M x nrm u 2) /\
  by_u3 (hamiltonian M nrm x) u (gr_velocity M x nrm u 3).
Proof.
  intros M nrm x u K mv. pose proof (kerr_sparse M K) as S. pose proof (moving_gamma _ _ _ _ mv) as G. destruct mv as [nn P].
  destruct u as [[u1 u2] u3]. unfold by_u1, by_u2, by_u3, v1, v2, v3. cbn [fst snd].
  destruct (S x) as (z1 & z2 & z3 & z4 & z5).
  assert (raise : forall i, gr_raise M x (u1, u2, u3) i = m_h M i 1 x * u1 + m_h M i 2 x * u2 + m_h M i 3 x * u3) by (intros; reflexivity).
  unfold hamiltonian, gr_velocity. rewrite !raise, z1, z2, z3, z4, z5. cbn [shift].
  unfold gr_gamma in *. rewrite (quad_explicit M S) in P. unfold v1, v2, v3 in P. cbn [fst snd] in P.
  assert (Q : forall w, quad3 (fun i j => m_h M i j x) w = m_h M 1 1 x * (v1 w * v1 w) + m_h M 2 2 x * (v2 w * v2 w) + m_h M 3 3 x * (v3 w * v3 w) + 2 * m_h M 1 3 x * (v1 w * v3 w)).
  { intros w. rewrite (quad_explicit M S). unfold sqr. ring. }
  rewrite Q in G. unfold v1, v2, v3 in G. cbn [fst snd] in G. unfold sqr in P.
  repeat split.
  - apply (dl_ext (fun s => m_alpha M x * sqrt (nrm + (m_h M 1 1 x * (s * s) + m_h M 2 2 x * (u2 * u2) + m_h M 3 3 x * (u3 * u3) + 2 * m_h M 1 3 x * (s * u3))) - m_beta1 M x * s)).
    { intros s. rewrite Q. reflexivity. }
    eapply dl_eq.
    + apply dl_minus; [apply dl_mult; [apply dl_const|apply dl_sqrt; [|lra]]|apply dl_mult; [apply dl_const|apply dl_id]].
      apply dl_plus; [apply dl_const|]. repeat apply dl_plus; (apply dl_mult; [apply dl_const|]); try apply dl_const.
      * apply dl_mult; apply dl_id.
      * apply dl_mult; [apply dl_id|apply dl_const].
    + cbn beta. rewrite Q. unfold v1, v2, v3. cbn [fst snd]. set (q := sqrt _) in *. field. lra.
  - apply (dl_ext (fun s => m_alpha M x * sqrt (nrm + (m_h M 1 1 x * (u1 * u1) + m_h M 2 2 x * (s * s) + m_h M 3 3 x * (u3 * u3) + 2 * m_h M 1 3 x * (u1 * u3))) - m_beta1 M x * u1)).
    { intros s. rewrite Q. reflexivity. }
    eapply dl_eq.
    + apply dl_minus; [apply dl_mult; [apply dl_const|apply dl_sqrt; [|lra]]|apply dl_const].
      apply dl_plus; [apply dl_const|]. repeat apply dl_plus; (apply dl_mult; [apply dl_const|]); try apply dl_const.
      apply dl_mult; apply dl_id.
    + cbn beta. rewrite Q. unfold v1, v2, v3. cbn [fst snd]. set (q := sqrt _) in *. field. lra.
  - apply (dl_ext (fun s => m_alpha M x * sqrt (nrm + (m_h M 1 1 x * (u1 * u1) + m_h M 2 2 x * (u2 * u2) + m_h M 3 3 x * (s * s) + 2 * m_h M 1 3 x * (u1 * s))) - m_beta1 M x * u1)).
    { intros s. rewrite Q. reflexivity. }
    eapply dl_eq.
    + apply dl_minus; [apply dl_mult; [apply dl_const|apply dl_sqrt; [|lra]]|apply dl_const].
      apply dl_plus; [apply dl_const|]. repeat apply dl_plus; (apply dl_mult; [apply dl_const|]); try apply dl_const.
      * apply dl_mult; apply dl_id.
      * apply dl_mult; [apply dl_const|apply dl_id].
    + cbn beta. rewrite Q. unfold v1, v2, v3. cbn [fst snd]. set (q := sqrt _) in *. field. lra.
Qed.
