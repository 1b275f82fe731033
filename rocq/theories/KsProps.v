(** C60 (continued): area of the polar caps of the GR metrics; C61: the Kerr-Schild metrics describe
    a black hole; C62: derivatives of the metric used by the pusher; C63: the energy component of a
    four-velocity; C64: the smallest cell size. *)
From Coq Require Import Reals ZArith List Bool Lra Lia.
From Verif Require Import Base MetModel MetSpec KsModel KsSpec StretchProofs MetProofs MetProps KsProofs KsDeriv KsDeriv2 KsTop.
Open Scope R_scope.

(** A grid of 8 x 8 cells in [2,10] x [0,pi]. *)
Definition ex_hole : grid := Grid 8 8 1 2 10 0 PI 0 1.
Lemma ex_hole_ok : sensible ex_hole /\ half_plane ex_hole.
Proof. pose proof PI_RGT_0. unfold sensible, half_plane, ex_hole; cbn; repeat split; try lra; lia. Qed.
Lemma ex_hole_point : forall eps a, gr_regular (ks eps a ex_hole) (1/2, 4) /\ gr_regular (ks0 ex_hole) (1/2, 4).
Proof.
  intros. pose proof PI_RGT_0. unfold gr_regular, ks, ks0, k_r, k_th, s_dr, s_dth, ex_hole;
    cbn [m_r m_th fst snd x1_min x1_max x2_min x2_max nx1 nx2]. repeat split; lra.
Qed.
Lemma ex_hole_q : q_ok 0 ex_hole 0 (1/2).
Proof. split; [lra|]. split; [apply ex_hole_ok|]. cbn. lra. Qed.
Lemma ex_hole_q_point : forall a, exists m, q_make 0 ex_hole 0 (1/2) = Some m /\
  gr_regular (qks a m) (INR 0 + 1/2, INR 3 + 1/2).
Proof.
  intros a. destruct (q_made _ _ _ _ ex_hole_q) as [m M]. exists m. split; [exact M|].
  apply (qks_centre 0 a ex_hole 0 (1/2) m 0 3 ex_hole_q M (proj2 ex_hole_ok)); cbn; lia.
Qed.

(* ---------------------------------------------------------------------- *)
(** * C60 *)

(** Without a black hole the area of a polar half cell is exactly the integral of the volume
    element over it. *)
Theorem C60_kerr_schild_0 : forall g x1, sensible g -> x2_min g = 0 ->
  integral (fun s => m_sqrt_det_h (ks0 g) (x1, s)) 0 (1/2) (m_polar_area (ks0 g) x1).
Proof. exact ks0_polar. Qed.
Print Assumptions C60_kerr_schild_0.

(** Kerr-Schild.  The full statement is equality; the code takes the volume element of the axis
    over the whole half cell.  What is proved is that its value lies between the integral (to one
    part in 10^12) and the integral divided by cos^2 of the angle of the half cell. *)
Theorem C60_kerr_schild_partial : forall eps a g x1 A, sensible g -> x2_min g = 0 -> k_th g (1/2) <= PI / 2 -> 0 < k_r g x1 ->
  integral (fun s => m_sqrt_det_h (ks eps a g) (x1, s)) 0 (1/2) A ->
  A * (1 - 1 / 1000000000000) <= m_polar_area (ks eps a g) x1 /\
  cos (k_th g (1/2)) * cos (k_th g (1/2)) * m_polar_area (ks eps a g) x1 <= A.
Proof. exact ks_polar. Qed.
Print Assumptions C60_kerr_schild_partial.

(** Quasi-spherical Kerr-Schild, as long as the angle of the half cell is at least 0.001. *)
Theorem C60_quasi_kerr_schild_partial : forall eps a g r0 h m x1 A, q_ok eps g r0 h -> q_make eps g r0 h = Some m ->
  x2_min g = 0 -> small_angle_lim <= qk_th m (1/2) <= PI / 2 -> 0 < qk_r m x1 ->
  integral (fun s => m_sqrt_det_h (qks a m) (x1, s)) 0 (1/2) A ->
  A <= m_polar_area (qks a m) x1 /\ cos (qk_th m (1/2)) * cos (qk_th m (1/2)) * m_polar_area (qks a m) x1 <= A.
Proof. intros eps a g r0 h m x1 A OK MK z [h1 h2] hr I. exact (proj1 (qks_polar eps a g r0 h m x1 A OK MK z h2 hr I) h1). Qed.
Print Assumptions C60_quasi_kerr_schild_partial.

(** Below that angle the area is less than 27% of the integral, for every radius and spin. *)
Theorem C60_quasi_kerr_schild_small_refuted : forall eps a g r0 h m x1 A, q_ok eps g r0 h -> q_make eps g r0 h = Some m ->
  x2_min g = 0 -> qk_th m (1/2) < small_angle_lim -> 0 < qk_r m x1 ->
  integral (fun s => m_sqrt_det_h (qks a m) (x1, s)) 0 (1/2) A ->
  m_polar_area (qks a m) x1 < 27 / 100 * A.
Proof.
  intros eps a g r0 h m x1 A OK MK z hs hr I.
  assert (hp : qk_th m (1/2) <= PI / 2) by (unfold small_angle_lim in hs; pose proof PI2_3_2; lra).
  exact (proj2 (qks_polar eps a g r0 h m x1 A OK MK z hp hr I) hs).
Qed.
Print Assumptions C60_quasi_kerr_schild_small_refuted.

(** The hypotheses are met (without spin the integral has a closed form). *)
Lemma ks_volume_integral : forall eps g x1, sensible g -> 0 < k_r g x1 ->
  exists A, integral (fun s => m_sqrt_det_h (ks eps 0 g) (x1, s)) 0 (1/2) A.
Proof.
  intros eps g x1 S rp. eexists. exists (fun s => - (s_dr g * sqr (k_r g x1) * sqrt (1 + 2 / k_r g x1) * cos (k_th g s))).
  split; [|reflexivity].
  intros s. cbn [ks m_sqrt_det_h]. unfold k_sqrt_det_h. cbn [fst snd].
  replace (k_z 0 (k_r g x1) (k_th g s)) with (2 / k_r g x1) by (unfold k_z, k_Sigma, sqr; field; lra).
  unfold k_Sigma, k_th. eapply DerivLemmas.dl_eq; [DerivLemmas.dl|cbn beta; unfold sqr; ring].
Qed.
Lemma qks_volume_integral : forall eps g r0 h m x1, q_ok eps g r0 h -> q_make eps g r0 h = Some m -> 0 < qk_r m x1 ->
  exists A, integral (fun s => m_sqrt_det_h (qks 0 m) (x1, s)) 0 (1/2) A.
Proof.
  intros eps g r0 h m x1 OK MK rp. eexists.
  exists (fun s => - (q_dchi m * exp (q_chi m x1) * sqr (qk_r m x1) * sqrt (1 + 2 / qk_r m x1) * cos (qk_th m s))).
  split; [|reflexivity].
  intros s. cbn [qks m_sqrt_det_h]. unfold qk_sqrt_det_h. cbn [fst snd]. fold (qk_r m x1).
  replace (k_z 0 (qk_r m x1) (qk_th m s)) with (2 / qk_r m x1) by (unfold k_z, k_Sigma, sqr; field; lra).
  unfold k_Sigma. eapply DerivLemmas.dl_eq.
  - apply DerivLemmas.dl_opp, DerivLemmas.dl_mult; [apply DerivLemmas.dl_const|].
    apply DerivLemmas.dl_cos. unfold qk_th.
    apply (DerivLemmas.dl_comp (fun s => q_eta m s) (eta2theta (q_eps m) (q_h0 m))); [unfold q_eta; DerivLemmas.dl|apply DerivLemmas.dl_e2t].
  - cbn beta. unfold sqr. ring.
Qed.
Example C60_kerr_schild_ex : sensible ex_hole /\ x2_min ex_hole = 0 /\ k_th ex_hole (1/2) <= PI / 2 /\ 0 < k_r ex_hole 0 /\
  exists A, integral (fun s => m_sqrt_det_h (ks 0 0 ex_hole) (0, s)) 0 (1/2) A.
Proof.
  pose proof PI_RGT_0. split; [apply ex_hole_ok|]. split; [reflexivity|].
  assert (r : 0 < k_r ex_hole 0) by (unfold k_r, s_dr, ex_hole; cbn; lra).
  split; [unfold k_th, s_dth, ex_hole; cbn [x2_min x2_max nx2]; lra|]. split; [exact r|].
  apply ks_volume_integral; [apply ex_hole_ok|exact r].
Qed.
Example C60_quasi_kerr_schild_ex :
  (exists m, q_ok 0 (Grid 8 100 1 1 9 0 PI 0 1) 0 0 /\ q_make 0 (Grid 8 100 1 1 9 0 PI 0 1) 0 0 = Some m /\
     small_angle_lim <= qk_th m (1/2) <= PI / 2 /\ 0 < qk_r m 0 /\
     exists A, integral (fun s => m_sqrt_det_h (qks 0 m) (0, s)) 0 (1/2) A) /\
  (exists m, q_ok 0 (Grid 8 4000 1 1 9 0 PI 0 1) 0 0 /\ q_make 0 (Grid 8 4000 1 1 9 0 PI 0 1) 0 0 = Some m /\
     qk_th m (1/2) < small_angle_lim /\ 0 < qk_r m 0 /\
     exists A, integral (fun s => m_sqrt_det_h (qks 0 m) (0, s)) 0 (1/2) A).
Proof.
  pose proof PI_RGT_0 as p. pose proof PI_4 as p4. pose proof PI2_3_2 as p3. split.
  - destruct (unstretched 100 ltac:(lia)) as (m & OK & M & e & e1). exists m. split; [exact OK|]. split; [exact M|].
    change (qk_th m (1/2)) with (q_to_ph m 2 (1/2)). change (qk_r m 0) with (q_to_ph m 1 0).
    rewrite e. unfold small_angle_lim. split; [lra|]. rewrite e1. split; [lra|].
    eapply qks_volume_integral; [exact OK|exact M|]. change (qk_r m 0) with (q_to_ph m 1 0). lra.
  - destruct (unstretched 4000 ltac:(lia)) as (m & OK & M & e & e1). exists m. split; [exact OK|]. split; [exact M|].
    change (qk_th m (1/2)) with (q_to_ph m 2 (1/2)). change (qk_r m 0) with (q_to_ph m 1 0).
    rewrite e. unfold small_angle_lim. split; [lra|]. rewrite e1. split; [lra|].
    eapply qks_volume_integral; [exact OK|exact M|]. change (qk_r m 0) with (q_to_ph m 1 0). lra.
Qed.

(* ---------------------------------------------------------------------- *)
(** * C61 *)

(** At every point off the axis: the four-metric measures the interval of a black hole of unit mass
    and the given spin (of flat space for the metric without a hole). *)
Theorem C61_line_element : 
  (forall eps a g x, sensible g -> gr_regular (ks eps a g) x -> kerr_interval 1 a (ks eps a g) x) /\
  (forall g x, sensible g -> gr_regular (ks0 g) x -> kerr_interval 0 0 (ks0 g) x) /\
  (forall eps a g r0 h m x, q_ok eps g r0 h -> q_make eps g r0 h = Some m -> gr_regular (qks a m) x -> kerr_interval 1 a (qks a m) x).
Proof.
  split; [|split]; intros; eapply form_interval; try eassumption; [eapply ks_form|eapply ks0_form|eapply qks_form]; eassumption.
Qed.
Print Assumptions C61_line_element.

(** The contravariant components, of space and of space-time, invert the covariant ones; lapse,
    shift and spatial metric are those of the space-time metric; the volume element is the root of
    the determinant of the spatial one. *)
Definition consistent (M : grmet) (x : coord2) : Prop :=
  inverse3 (fun i j => m_h_ M i j x) (fun i j => m_h M i j x) /\
  inverse4 (fun i j => m_g_ M i j x) (fun i j => m_g M i j x) /\
  three_plus_one M x /\ volume_element M x.
Lemma form_consistent : forall mu a M x e1 e2, form mu a M x e1 e2 -> gr_regular M x -> consistent M x.
Proof.
  intros mu a M x e1 e2 F Rg. split; [eapply form_inverse3; eauto|]. split; [eapply form_inverse4; eauto|].
  split; [eapply form_adm; eauto|eapply form_volume; eauto].
Qed.
Theorem C61_consistent :
  (forall eps a g x, sensible g -> gr_regular (ks eps a g) x -> consistent (ks eps a g) x) /\
  (forall g x, sensible g -> gr_regular (ks0 g) x -> consistent (ks0 g) x) /\
  (forall eps a g r0 h m x, q_ok eps g r0 h -> q_make eps g r0 h = Some m -> gr_regular (qks a m) x -> consistent (qks a m) x).
Proof.
  split; [|split]; intros; eapply form_consistent; try eassumption; [eapply ks_form|eapply ks0_form|eapply qks_form]; eassumption.
Qed.
Print Assumptions C61_consistent.

(** Vectors: every basis change is undone by the opposite one, routes agree, the tetrad norm is the
    contraction of both kinds of components and the norm under the spatial metric; four-vectors
    survive lowering and raising. *)
Definition bases_consistent (M : grmet) (tr : idx -> idx -> vec3 -> option vec3) (x : coord2) : Prop :=
  undoes_itself tr /\ routes_agree tr /\ norms_agree tr /\
  (forall v t, tr IU IT v = Some t -> dot3 t t = quad3 (fun i j => m_h_ M i j x) v) /\
  (forall a b v, basic a -> basic b -> a <> b -> tr a b v <> None).
Lemma form_bases : forall mu a M x e1 e2, form mu a M x e1 e2 -> gr_regular M x -> bases_consistent M (fun i o => gr_transform M i o x) x.
Proof.
  intros mu a M x e1 e2 F Rg. split; [eapply form_undo; eauto|]. split; [eapply form_routes; eauto|].
  split; [eapply form_norms; eauto|]. split; [intros v t E; eapply form_norm_is_h; eauto|].
  intros i o [[v1 v2] v3] A B N. destruct A as [->|[->| ->]], B as [->|[->| ->]]; try congruence; cbn [gr_transform]; discriminate.
Qed.
Lemma bases_ext : forall M tr tr' x, (forall i o v, tr i o v = tr' i o v) -> bases_consistent M tr' x -> bases_consistent M tr x.
Proof.
  intros M tr tr' x E (a & b & c & d & e). repeat split.
  - intros i o v w. rewrite !E. apply a.
  - intros i o k v w u u'. rewrite !E. apply b.
  - intros v. destruct (c v) as (p & q & r). exists p, q. rewrite !E. exact r.
  - intros v t. rewrite E. apply d.
  - intros i o v. rewrite E. apply e.
Qed.
Theorem C43_kerr_schild :
  (forall eps a g x, sensible g -> gr_regular (ks eps a g) x -> bases_consistent (ks eps a g) (fun i o => gr_transform (ks eps a g) i o x) x) /\
  (forall g x, sensible g -> gr_regular (ks0 g) x -> bases_consistent (ks0 g) (fun i o => k0_transform g i o x) x) /\
  (forall eps a g r0 h m x, q_ok eps g r0 h -> q_make eps g r0 h = Some m -> gr_regular (qks a m) x ->
     bases_consistent (qks a m) (fun i o => gr_transform (qks a m) i o x) x).
Proof.
  split; [|split]; intros.
  - eapply form_bases; [eapply ks_form; eassumption|assumption].
  - apply (bases_ext _ _ (fun i o => gr_transform (ks0 g) i o x)); [intros; apply k0_transform_eq|].
    eapply form_bases; [eapply ks0_form; eassumption|assumption].
  - eapply form_bases; [eapply qks_form; eassumption|assumption].
Qed.
Print Assumptions C43_kerr_schild.
Theorem C43_four_vectors :
  (forall eps a g x v, sensible g -> gr_regular (ks eps a g) x ->
     gr_cntrv_to_cov4 (ks eps a g) x (gr_cov_to_cntrv4 (ks eps a g) x v) = v /\
     gr_cov_to_cntrv4 (ks eps a g) x (gr_cntrv_to_cov4 (ks eps a g) x v) = v) /\
  (forall eps a g r0 h m x v, q_ok eps g r0 h -> q_make eps g r0 h = Some m -> gr_regular (qks a m) x ->
     gr_cntrv_to_cov4 (qks a m) x (gr_cov_to_cntrv4 (qks a m) x v) = v /\
     gr_cov_to_cntrv4 (qks a m) x (gr_cntrv_to_cov4 (qks a m) x v) = v).
Proof.
  split; intros.
  - eapply form_4d; [eapply ks_form; eassumption|assumption].
  - eapply form_4d; [eapply qks_form; eassumption|assumption].
Qed.
Print Assumptions C43_four_vectors.
Example C61_ex : sensible ex_hole /\ gr_regular (ks 0 (9/10) ex_hole) (1/2, 4) /\ gr_regular (ks0 ex_hole) (1/2, 4) /\
  m_g_ (ks 0 (9/10) ex_hole) 0 0 (1/2, 4) = - 1 / 5 /\
  q_ok 0 ex_hole 0 (1/2) /\ exists m, q_make 0 ex_hole 0 (1/2) = Some m /\ gr_regular (qks (9/10) m) (INR 0 + 1/2, INR 3 + 1/2).
Proof.
  split; [apply ex_hole_ok|]. destruct (ex_hole_point 0 (9/10)) as [p q]. split; [exact p|]. split; [exact q|]. split.
  - cbn [ks m_g_]. unfold k_g_, k_z, k_Sigma, k_r, k_th, s_dr, s_dth, ex_hole. cbn [fst snd x1_min x1_max x2_min x2_max nx1 nx2].
    replace (4 * ((PI - 0) / 8) + 0) with (PI / 2) by lra. rewrite cos_PI2. unfold sqr. field.
  - split; [exact ex_hole_q|apply ex_hole_q_point].
Qed.

(* ---------------------------------------------------------------------- *)
(** * C62 *)

(** The derivatives that the pusher takes from the metric are those of the lapse, shift and inverse
    spatial metric, the angular ones up to the rounding of small values to zero. *)
Theorem C62_kerr_schild : forall eps a g x, 0 <= eps -> sensible g -> gr_regular (ks eps a g) x ->
  radial_derivatives (ks eps a g) x /\ radial_h22 (ks eps a g) x /\
  angular_derivatives eps a (ks eps a g) x /\ angular_h22 eps (ks eps a g) x.
Proof.
  intros eps a g x he S Rg. destruct (ks_radial eps a g x S Rg) as [a1 a2]. destruct (ks_angular eps a g x he S Rg) as [b1 b2]. auto.
Qed.
Print Assumptions C62_kerr_schild.
Theorem C62_kerr_schild_0 : forall g x, sensible g -> gr_regular (ks0 g) x ->
  radial_derivatives (ks0 g) x /\ radial_h22 (ks0 g) x /\ angular_derivatives 0 0 (ks0 g) x /\ angular_h22 0 (ks0 g) x.
Proof. exact ks0_derivatives. Qed.
Print Assumptions C62_kerr_schild_0.

(** Quasi-spherical Kerr-Schild: full statement as above.  Without stretching it holds; with
    stretching all derivatives but those of h^22 are right, and those are not (next two theorems). *)
Theorem C62_quasi_kerr_schild_partial : forall eps a g r0 h m x1 x2, q_ok eps g r0 h -> q_make eps g r0 h = Some m ->
  gr_regular (qks a m) (x1, x2) -> (q_h0 m = 0 \/ eps < q_h0 m) ->
  radial_derivatives (qks a m) (x1, x2) /\ angular_derivatives eps a (qks a m) (x1, x2) /\
  (q_h0 m = 0 -> radial_h22 (qks a m) (x1, x2) /\ angular_h22 eps (qks a m) (x1, x2)).
Proof.
  intros eps a g r0 h m x1 x2 OK MK Rg hz. split; [eapply qks_radial; eassumption|]. split; [eapply qks_angular; eassumption|].
  intros z. eapply qks_h22_unstretched; eassumption.
Qed.
Print Assumptions C62_quasi_kerr_schild_partial.

(** The radial derivative of h^22 is off by the square of dtheta/deta, for every grid and place... *)
Theorem C62_quasi_kerr_schild_radial_refuted : forall eps a g r0 h m x1 x2 D, q_ok eps g r0 h -> q_make eps g r0 h = Some m ->
  gr_regular (qks a m) (x1, x2) -> derivable_pt_lim (fun s => m_h (qks a m) 2 2 (s, x2)) x1 D ->
  m_dr_h22 (qks a m) (x1, x2) = D * (dtheta_deta (q_eps m) (q_h0 m) (q_eta m x2) * dtheta_deta (q_eps m) (q_h0 m) (q_eta m x2)).
Proof. intros. eapply qks_radial_h22; eassumption. Qed.
Print Assumptions C62_quasi_kerr_schild_radial_refuted.
(** ... and the angular one is reported as zero on a stretched grid without spin, where it is not. *)
Theorem C62_quasi_kerr_schild_angular_refuted : forall eps g r0 h m x1 x2, q_ok eps g r0 h -> q_make eps g r0 h = Some m ->
  gr_regular (qks 0 m) (x1, x2) -> eps < q_h0 m -> q_eta m x2 <> PI / 2 ->
  m_dt_h22 (qks 0 m) (x1, x2) = 0 /\
  (forall D, derivable_pt_lim (fun s => m_h (qks 0 m) 2 2 (x1, s)) x2 D -> D <> 0).
Proof. intros. eapply qks_angular_h22; try eassumption. reflexivity. Qed.
Print Assumptions C62_quasi_kerr_schild_angular_refuted.
Example C62_ex : sensible ex_hole /\ gr_regular (ks (1/1000) (9/10) ex_hole) (1/2, 4) /\ gr_regular (ks0 ex_hole) (1/2, 4) /\
  q_ok 0 ex_hole 0 (1/2) /\
  exists m, q_make 0 ex_hole 0 (1/2) = Some m /\ gr_regular (qks (9/10) m) (INR 0 + 1/2, INR 3 + 1/2) /\
    0 < q_h0 m /\ q_eta m (INR 3 + 1/2) <> PI / 2.
Proof.
  split; [apply ex_hole_ok|]. destruct (ex_hole_point (1/1000) (9/10)) as [p q]. split; [exact p|]. split; [exact q|].
  split; [exact ex_hole_q|]. destruct (ex_hole_q_point (9/10)) as (m & M & Rg). exists m. split; [exact M|]. split; [exact Rg|].
  destruct (q_fields _ _ _ _ _ ex_hole_q M) as (f1 & f2 & f3 & f4 & f5 & f6 & f7 & f8 & f9).
  split; [rewrite f3; lra|]. intros e. pose proof PI_RGT_0 as pp.
  assert (hh : 0 <= 1/2 < 1) by lra.
  (* eta = pi/2 would be the middle of the box, which is coordinate 4 *)
  assert (mid : forall y, eta2theta 0 (1/2) (PI - y) = PI - eta2theta 0 (1/2) y).
  { intros y. unfold eta2theta. destruct (almost_zero 0 (1/2)); [reflexivity|]. unfold sqr. field. lra. }
  cbn [x2_min x2_max nx2 ex_hole] in f7, f8.
  assert (e0 : q_eta_min m = 0). { apply (e2t_inj 0 (1/2)); [exact hh|]. rewrite f7. symmetry. apply PolarProofs.e2t_zero. }
  assert (e8 : q_eta_min m + 8 * q_deta m = PI).
  { apply (e2t_inj 0 (1/2)); [exact hh|]. rewrite f8. replace PI with (PI - 0) at 2 by ring. rewrite mid, PolarProofs.e2t_zero. ring. }
  unfold q_eta in e. rewrite e0 in *. cbn [INR] in e. lra.
Qed.

(* ---------------------------------------------------------------------- *)
(** * C63 *)

(** The time component that the metric computes for covariant spatial components [u] makes a
    future-directed four-velocity of square [- norm], and is the only one that does. *)
Definition completes (M : grmet) (x : coord2) (norm : R) (u : vec3) (w : R) : Prop :=
  quad4 (fun i j => m_g M i j x) w u = - norm /\ 0 <= sum4 (fun j => m_g M 0 j x * comp4 w u j).
Lemma form_completes : forall mu a M x e1 e2, form mu a M x e1 e2 -> gr_regular M x -> forall u norm, 0 <= norm ->
  completes M x norm u (gr_u_0 M x u norm) /\ (forall w, completes M x norm u w -> w = gr_u_0 M x u norm).
Proof.
  intros mu a M x e1 e2 F Rg u norm hn. destruct (form_u0 _ _ _ _ _ _ F Rg u norm hn) as (q1 & q2 & _ & q4).
  split; [split; assumption|]. intros w [w1 w2]. apply q4; assumption.
Qed.
Theorem C63_energy_component : forall norm u, 0 <= norm ->
  (forall eps a g x, sensible g -> gr_regular (ks eps a g) x ->
     completes (ks eps a g) x norm u (gr_u_0 (ks eps a g) x u norm) /\
     (forall w, completes (ks eps a g) x norm u w -> w = gr_u_0 (ks eps a g) x u norm)) /\
  (forall g x, sensible g -> gr_regular (ks0 g) x ->
     completes (ks0 g) x norm u (gr_u_0 (ks0 g) x u norm) /\
     (forall w, completes (ks0 g) x norm u w -> w = gr_u_0 (ks0 g) x u norm)) /\
  (forall eps a g r0 h m x, q_ok eps g r0 h -> q_make eps g r0 h = Some m -> gr_regular (qks a m) x ->
     completes (qks a m) x norm u (gr_u_0 (qks a m) x u norm) /\
     (forall w, completes (qks a m) x norm u w -> w = gr_u_0 (qks a m) x u norm)).
Proof.
  intros norm u hn. split; [|split]; intros.
  - eapply form_completes; [eapply ks_form; eassumption|assumption|assumption].
  - eapply form_completes; [eapply ks0_form; eassumption|assumption|assumption].
  - eapply form_completes; [eapply qks_form; eassumption|assumption|assumption].
Qed.
Print Assumptions C63_energy_component.
Example C63_ex : sensible ex_hole /\ gr_regular (ks 0 0 ex_hole) (1/2, 4) /\
  gr_u_0 (ks 0 0 ex_hole) (1/2, 4) (0, 0, 0) 1 = - / sqrt (9 / 5).
Proof.
  split; [apply ex_hole_ok|]. split; [apply (ex_hole_point 0 0)|].
  cbv beta iota zeta delta [gr_u_0]. match goal with |- context [sqrt (sqr ?b - ?c)] => set (C := sqr b - c) end.
  assert (g0 : m_g (ks 0 0 ex_hole) 0 0 (1/2, 4) = - (9/5)).
  { cbn [ks m_g]. unfold k_g, k_z, k_Sigma, k_r, k_th, s_dr, s_dth, ex_hole. cbn [fst snd x1_min x1_max x2_min x2_max nx1 nx2].
    unfold sqr. rewrite Rmult_0_l, Rmult_0_l, Rplus_0_r. field. }
  assert (eC : C = 2 * sqrt (9/5) * (2 * sqrt (9/5))).
  { unfold C. rewrite g0. replace (2 * sqrt (9/5) * (2 * sqrt (9/5))) with (4 * (sqrt (9/5) * sqrt (9/5))) by ring.
    rewrite sqrt_sqrt by lra. unfold sqr. ring. }
  assert (p : 0 < sqrt (9/5)) by (apply sqrt_lt_R0; lra).
  rewrite eC, sqrt_square by lra. rewrite g0.
  replace (9/5) with (sqrt (9/5) * sqrt (9/5)) at 2 by (apply sqrt_sqrt; lra). field. lra.
Qed.

(* ---------------------------------------------------------------------- *)
(** * C64 *)

(** The cell size from which the time step is derived is the smallest over all cells. *)
Theorem C64_smallest :
  (forall eps a g, sensible g -> half_plane g ->
     smallest_cell (gr_cell_size (ks eps a g)) (Z.to_nat (nx1 g)) (Z.to_nat (nx2 g))
       (find_min (gr_cell_size (ks eps a g)) (Z.to_nat (nx1 g)) (Z.to_nat (nx2 g)))) /\
  (forall g, sensible g -> half_plane g ->
     smallest_cell (k0_cell_size g) (Z.to_nat (nx1 g)) (Z.to_nat (nx2 g))
       (find_min (k0_cell_size g) (Z.to_nat (nx1 g)) (Z.to_nat (nx2 g)))) /\
  (forall eps a g r0 h m, q_ok eps g r0 h -> q_make eps g r0 h = Some m -> half_plane g ->
     smallest_cell (gr_cell_size (qks a m)) (Z.to_nat (nx1 g)) (Z.to_nat (nx2 g))
       (find_min (gr_cell_size (qks a m)) (Z.to_nat (nx1 g)) (Z.to_nat (nx2 g)))) /\
  (forall eps g r0 h m, q_ok eps g r0 h -> q_make eps g r0 h = Some m -> half_plane g ->
     smallest_cell (q_cell_size m) (Z.to_nat (nx1 g)) (Z.to_nat (nx2 g))
       (find_min_ge (q_cell_size m) (Z.to_nat (nx1 g)) (Z.to_nat (nx2 g)))) /\
  (forall g x, sensible g -> 0 < x1_min g -> 0 <= fst x -> 0 < s_dxmin g <= s_cell_size g x).
Proof.
  split; [exact ks_smallest|]. split; [exact ks0_smallest|]. split; [exact qks_smallest|]. split; [exact q_smallest|exact s_dxmin_bound].
Qed.
Print Assumptions C64_smallest.

(** Nothing, massive or massless, crosses more than one cell of its place per cell size. *)
Definition speed_limit (M : grmet) (x : coord2) : Prop :=
  0 < gr_cell_size M x /\
  forall norm u i, 0 <= norm -> 0 < norm + quad3 (fun i j => m_h M i j x) u -> (i = 1 \/ i = 2)%nat ->
    Rabs (gr_velocity M x norm u i) <= 1 / gr_cell_size M x.
Lemma form_limit : forall mu a M x e1 e2, form mu a M x e1 e2 -> gr_regular M x -> speed_limit M x.
Proof. intros mu a M x e1 e2 F Rg. split; [eapply form_size_pos; eassumption|]. intros. eapply form_speed; eassumption. Qed.
Theorem C64_speed_limit :
  (forall eps a g x, sensible g -> gr_regular (ks eps a g) x -> speed_limit (ks eps a g) x) /\
  (forall g x, sensible g -> gr_regular (ks0 g) x -> speed_limit (ks0 g) x) /\
  (forall eps a g r0 h m x, q_ok eps g r0 h -> q_make eps g r0 h = Some m -> gr_regular (qks a m) x -> speed_limit (qks a m) x).
Proof.
  split; [|split]; intros; (eapply form_limit; [|eassumption]); [eapply ks_form|eapply ks0_form|eapply qks_form]; eassumption.
Qed.
Print Assumptions C64_speed_limit.
Example C64_ex : sensible ex_hole /\ half_plane ex_hole /\ q_ok 0 ex_hole 0 (1/2) /\
  gr_velocity (ks0 ex_hole) (1/2, 4) 1 (0, 0, 0) 1 = 0 /\
  0 < 1 + quad3 (fun i j => m_h (ks0 ex_hole) i j (1/2, 4)) (0, 0, 0).
Proof.
  split; [apply ex_hole_ok|]. split; [apply ex_hole_ok|]. split; [exact ex_hole_q|]. split.
  - unfold gr_velocity, gr_raise, sum3, comp4, c1, c2, c3. cbn [fst snd shift ks0 m_beta1 m_alpha]. unfold Rdiv. ring.
  - unfold quad3, sum3, comp4, c1, c2, c3. cbn [fst snd]. lra.
Qed.
